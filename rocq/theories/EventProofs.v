From Coq Require Import Permutation.
From Verif Require Import Base HashSpec BitsModel ComponentsProofs PairsModel PairsSpec EventModel EventSpec.
Open Scope Z_scope.

Lemma lookup_mapv : forall (f : pair -> pair) (m : list (Z * pair)) id,
  lookup Z.eqb id (map (fun e => (fst e, f (snd e))) m) = option_map f (lookup Z.eqb id m).
Proof.
  intros f m id. induction m as [|[k p] m IH]; [reflexivity|]. cbn [map lookup fst snd]. destruct (k =? id); [reflexivity|exact IH].
Qed.
Lemma lookup_in_keys : forall (m : list (Z * pair)) id p, lookup Z.eqb id m = Some p -> In id (map fst m).
Proof.
  intros m id p. induction m as [|[k q] m IH]; cbn [lookup]; [discriminate|]. destruct (Z.eqb_spec k id); [left; exact e|right; apply IH; exact H].
Qed.

Lemma ids_nodup : forall s, NoDup (ids s).
Proof. intros. apply NoDup_nodup. Qed.
Lemma ids_in : forall s id p, get id s = Some p -> In id (ids s).
Proof. intros s id p H. apply nodup_In. exact (lookup_in_keys _ _ _ H). Qed.
Lemma hits_in : forall hit s id, In id (hits hit s) <-> exists p, get id s = Some p /\ p_enabled p = true /\ hit id = true.
Proof.
  intros. unfold hits. rewrite filter_In. split.
  - intros [_ H]. destruct (get id s) as [p|]; [|discriminate]. apply andb_prop in H. exists p. tauto.
  - intros (p & G & E & T). split; [exact (ids_in _ _ _ G)|]. rewrite G, E, T. reflexivity.
Qed.
Lemma hits_nodup : forall hit s, NoDup (hits hit s).
Proof. intros. apply NoDup_filter, ids_nodup. Qed.

(** ** The effect of a call on the pair [id] *)
Definition fresh_flags (p : pair) : Prop := p_prev p = false /\ p_cur p = false.
Definition same_but_flags (p q : pair) : Prop := p_id q = p_id p /\ p_c1 q = p_c1 p /\ p_c2 q = p_c2 p.
Definition kept (p q : pair) : Prop := same_but_flags p q /\ p_prev q = p_prev p /\ p_cur q = p_cur p.
Lemma kept_refl : forall p, kept p p.
Proof. intros. repeat split. Qed.

Definition is_add (op : pop) (id : Z) : Prop :=
  match op with PAdd _ b1 _ b2 _ => pair_id b1 b2 = id | _ => False end.

Lemma call_effect : forall s op s' id, on_pairs op s = Ok s' -> call_allowed op = true ->
  es_lost s' = es_lost s /\ es_trigger s' = es_trigger s /\
  match get id s, get id s' with
  | Some p, Some q => kept p q /\ (p_enabled p = true -> p_enabled q = false -> op = PDisable id)
  | Some p, None => op = PRemove id
  | None, Some q => is_add op id /\ fresh_flags q /\ p_id q = id /\ p_enabled q = true
  | None, None => True
  end.
Proof.
  intros s op s' id H A. unfold on_pairs in H. destruct (pspec_step (es_pairs s) op) as [m| |] eqn:E; try discriminate.
  cbn [bind] in H. injection H as <-. split; [reflexivity|]. split; [reflexivity|]. unfold get. cbn [es_pairs].
  assert (Same : sp_pairs m = sp_pairs (es_pairs s) -> match lookup Z.eqb id (sp_pairs (es_pairs s)), lookup Z.eqb id (sp_pairs m) with
    | Some p, Some q => kept p q /\ (p_enabled p = true -> p_enabled q = false -> op = PDisable id)
    | Some p, None => op = PRemove id
    | None, Some q => is_add op id /\ fresh_flags q /\ p_id q = id /\ p_enabled q = true
    | None, None => True end).
  { intros ->. destruct (lookup Z.eqb id (sp_pairs (es_pairs s))); [|exact I]. split; [apply kept_refl|]. intros; congruence. }
  destruct op; cbn [call_allowed] in A; try discriminate A; cbn [pspec_step] in E.
  - destruct (has Z.eqb (pair_id b1 b2) (sp_pairs (es_pairs s)) || _ || _ || _) eqn:B; [discriminate|]. injection E as <-. cbn [sp_pairs].
    rewrite lookup_set. destruct (Z.eqb_spec id (pair_id b1 b2)) as [->|D].
    + apply orb_false_elim in B as [B _]. apply orb_false_elim in B as [B _]. apply orb_false_elim in B as [B _]. unfold has in B.
      destruct (lookup Z.eqb (pair_id b1 b2) (sp_pairs (es_pairs s))); [discriminate|]. repeat split.
    + destruct (lookup Z.eqb id (sp_pairs (es_pairs s))); [|exact I]. split; [apply kept_refl|]. intros; congruence.
  - injection E as <-. cbn [sp_pairs]. rewrite lookup_remove. destruct (Z.eqb_spec id id0) as [->|D].
    + destruct (lookup Z.eqb id0 (sp_pairs (es_pairs s))); [reflexivity|exact I].
    + destruct (lookup Z.eqb id (sp_pairs (es_pairs s))); [|exact I]. split; [apply kept_refl|]. intros; congruence.
  - destruct (lookup Z.eqb id0 (sp_pairs (es_pairs s))) as [p|] eqn:L; [|injection E as <-; apply Same; reflexivity].
    destruct (p_enabled p) eqn:En; injection E as <-; [apply Same; reflexivity|]. cbn [sp_pairs]. rewrite lookup_set.
    destruct (Z.eqb_spec id id0) as [->|D].
    + rewrite L. split; [repeat split|]. cbn. discriminate.
    + destruct (lookup Z.eqb id (sp_pairs (es_pairs s))); [|exact I]. split; [apply kept_refl|]. intros; congruence.
  - destruct (lookup Z.eqb id0 (sp_pairs (es_pairs s))) as [p|] eqn:L; [|injection E as <-; apply Same; reflexivity].
    destruct (p_enabled p) eqn:En; injection E as <-; [|apply Same; reflexivity]. cbn [sp_pairs]. rewrite lookup_set.
    destruct (Z.eqb_spec id id0) as [->|D].
    + rewrite L. split; [repeat split|]. reflexivity.
    + destruct (lookup Z.eqb id (sp_pairs (es_pairs s))); [|exact I]. split; [apply kept_refl|]. intros; congruence.
  - destruct (lookup Z.eqb id0 (sp_pairs (es_pairs s))) as [p|] eqn:L; [|discriminate].
    destruct (p_enabled p) eqn:En; [|discriminate]. injection E as <-. cbn [sp_pairs]. rewrite lookup_set.
    destruct (Z.eqb_spec id id0) as [->|D].
    + rewrite L. split; [repeat split|]. cbn. congruence.
    + destruct (lookup Z.eqb id (sp_pairs (es_pairs s))); [|exact I]. split; [apply kept_refl|]. intros; congruence.
  - destruct (lookup Z.eqb id0 (sp_pairs (es_pairs s))) as [p|] eqn:L; [|discriminate].
    injection E as <-. cbn [sp_pairs]. rewrite lookup_set.
    destruct (Z.eqb_spec id id0) as [->|D].
    + rewrite L. split; [repeat split|]. cbn. congruence.
    + destruct (lookup Z.eqb id (sp_pairs (es_pairs s))); [|exact I]. split; [apply kept_refl|]. intros; congruence.
  - destruct (existsb (Z.eqb c) (sp_coll (es_pairs s))); [discriminate|]. injection E as <-. apply Same. reflexivity.
  - destruct (existsb _ (sp_pairs (es_pairs s))); [discriminate|]. injection E as <-. apply Same. reflexivity.
Qed.

(** ** The three writes of the flags *)
Lemma clear_effect : forall s, exists s', on_pairs PClearCurrent s = Ok s' /\ es_lost s' = es_lost s /\ es_trigger s' = es_trigger s /\
  forall id, get id s' = option_map (fun p => if p_enabled p then with_flags (p_prev p) false p else p) (get id s).
Proof.
  intros s. eexists. split; [reflexivity|]. split; [reflexivity|]. split; [reflexivity|]. intros id. unfold get. cbn [es_pairs sp_pairs].
  apply (lookup_mapv (fun p => if p_enabled p then with_flags (p_prev p) false p else p)).
Qed.
Lemma previous_effect : forall s, exists s', on_pairs PUpdatePrevious s = Ok s' /\ es_lost s' = es_lost s /\ es_trigger s' = es_trigger s /\
  forall id, get id s' = option_map (fun p => if p_enabled p then with_flags (p_cur p) (p_cur p) p else p) (get id s).
Proof.
  intros s. eexists. split; [reflexivity|]. split; [reflexivity|]. split; [reflexivity|]. intros id. unfold get. cbn [es_pairs sp_pairs].
  apply (lookup_mapv (fun p => if p_enabled p then with_flags (p_cur p) (p_cur p) p else p)).
Qed.
Lemma colliding_effect : forall l s, (forall id, In id l -> get id s <> None) -> exists s', on_each PSetColliding l s = Ok s' /\
  es_lost s' = es_lost s /\ es_trigger s' = es_trigger s /\
  forall id, get id s' = option_map (fun p => if existsb (Z.eqb id) l then with_flags (p_prev p) true p else p) (get id s).
Proof.
  induction l as [|i l IH]; intros s T.
  - exists s. split; [reflexivity|]. split; [reflexivity|]. split; [reflexivity|]. intros. cbn [existsb]. destruct (get id s); reflexivity.
  - cbn [on_each]. unfold on_pairs at 1. cbn [pspec_step]. destruct (lookup Z.eqb i (sp_pairs (es_pairs s))) as [p|] eqn:L.
    2:{ exfalso. apply (T i); [left; reflexivity|exact L]. }
    cbn [bind]. set (s1 := mk_estate _ _ _).
    assert (G : forall id, get id s1 = if id =? i then Some (with_flags (p_prev p) true p) else get id s).
    { intros id. unfold get, s1. cbn [es_pairs sp_pairs]. rewrite lookup_set. destruct (id =? i); reflexivity. }
    destruct (IH s1) as (s' & R & EL & ET & GG).
    { intros id I. rewrite G. destruct (id =? i); [discriminate|]. apply T. right. exact I. }
    exists s'. split; [exact R|]. split; [exact EL|]. split; [exact ET|]. intros id. rewrite GG, G. cbn [existsb].
    destruct (Z.eqb_spec id i) as [->|D].
    + change (get i s) with (lookup Z.eqb i (sp_pairs (es_pairs s))). rewrite L. cbn [option_map orb]. destruct (existsb (Z.eqb i) l); reflexivity.
    + cbn [orb]. reflexivity.
Qed.
Lemma enable_effect : forall l s, exists s', on_each PEnable l s = Ok s' /\
  es_lost s' = es_lost s /\ es_trigger s' = es_trigger s /\
  forall id, get id s' = option_map (fun p => if existsb (Z.eqb id) l && negb (p_enabled p) then set_enabled true p else p) (get id s).
Proof.
  induction l as [|i l IH]; intros s.
  - exists s. split; [reflexivity|]. split; [reflexivity|]. split; [reflexivity|]. intros. cbn. destruct (get id s); reflexivity.
  - cbn [on_each]. unfold on_pairs at 1. cbn [pspec_step].
    assert (K : exists s1, (let* p := match lookup Z.eqb i (sp_pairs (es_pairs s)) with
        | Some p => Ok (if p_enabled p then es_pairs s else mk_pspec (m_set Z.eqb i (set_enabled true p) (sp_pairs (es_pairs s))) (sp_coll (es_pairs s)))
        | None => Ok (es_pairs s) end in Ok (mk_estate p (es_lost s) (es_trigger s))) = Ok s1 /\ es_lost s1 = es_lost s /\ es_trigger s1 = es_trigger s /\
        forall id, get id s1 = option_map (fun p => if (id =? i) && negb (p_enabled p) then set_enabled true p else p) (get id s)).
    { destruct (lookup Z.eqb i (sp_pairs (es_pairs s))) as [p|] eqn:L; cbn [bind]; (eexists; split; [reflexivity|]; split; [reflexivity|]; split; [reflexivity|]); intros id; unfold get; cbn [es_pairs].
      - destruct (p_enabled p) eqn:E.
        + destruct (Z.eqb_spec id i) as [->|D]; [rewrite L; cbn [option_map]; rewrite E; reflexivity|]. destruct (lookup Z.eqb id (sp_pairs (es_pairs s))); reflexivity.
        + cbn [sp_pairs]. rewrite lookup_set. destruct (Z.eqb_spec id i) as [->|D]; [rewrite L; cbn [option_map]; rewrite E; reflexivity|].
          destruct (lookup Z.eqb id (sp_pairs (es_pairs s))); reflexivity.
      - destruct (Z.eqb_spec id i) as [->|D]; [rewrite L; reflexivity|]. destruct (lookup Z.eqb id (sp_pairs (es_pairs s))); reflexivity. }
    destruct K as (s1 & -> & L1 & T1 & G1). cbn [bind]. destruct (IH s1) as (s' & R & EL & ET & GG).
    exists s'. split; [exact R|]. split; [congruence|]. split; [congruence|]. intros id. rewrite GG, G1. cbn [existsb].
    destruct (get id s) as [p|]; [|reflexivity]. cbn [option_map]. destruct (id =? i), (existsb (Z.eqb id) l), (p_enabled p) eqn:E; cbn; rewrite ?E; reflexivity.
Qed.

(** ** What an update reports *)
Definition hit_of (p : pair) (b : bool) : pair := if p_enabled p then with_flags (p_prev p) b p else p.
Definition woken_of (w : bool) (p : pair) : pair := if w && negb (p_enabled p) then set_enabled true p else p.
Definition previous_of (p : pair) : pair := if p_enabled p then with_flags (p_cur p) (p_cur p) p else p.
Definition after (hit : Z -> bool) (woken : list Z) (id : Z) (p : pair) : pair :=
  woken_of (existsb (Z.eqb id) woken) (hit_of p (hit id)).

Lemma existsb_iff : forall x l, existsb (Z.eqb x) l = true <-> In x l.
Proof.
  intros x l. rewrite existsb_exists. split.
  - intros (y & I & E). apply Z.eqb_eq in E. subst. exact I.
  - intros I. exists x. split; [exact I|apply Z.eqb_refl].
Qed.

Lemma filter_split : forall (A : Type) (f : A -> bool) l, Permutation l (filter (fun x => negb (f x)) l ++ filter f l).
Proof.
  intros A f l. induction l as [|a l IH]; [constructor|]. cbn [filter]. destruct (f a); cbn [negb].
  - apply Permutation_cons_app. exact IH.
  - cbn [app]. constructor. exact IH.
Qed.
Lemma report_perm : forall cs lost, Permutation (on_contact cs lost ++ on_trigger cs lost) (map (event_of false) cs ++ map (event_of true) lost).
Proof.
  intros. unfold on_contact, on_trigger.
  pose proof (filter_split _ cp_trigger cs) as A. pose proof (filter_split _ cp_trigger lost) as B.
  apply (Permutation_map (event_of false)) in A. apply (Permutation_map (event_of true)) in B. rewrite map_app in A, B.
  symmetry. eapply Permutation_trans; [exact (Permutation_app A B)|]. rewrite <- !app_assoc. apply Permutation_app_head.
  rewrite !app_assoc. apply Permutation_app_tail. apply Permutation_app_comm.
Qed.

(** The contact pairs and the lost pairs of an update whose pairs are those of [s]. *)
Definition contacts_of (hit : Z -> bool) (s : estate) (l : list cpair) : Prop :=
  NoDup (map cp_id l) /\
  forall c, In c l <-> exists id p, get id s = Some p /\ p_enabled p = true /\ hit id = true /\
    c = mk_cpair id (p_c1 p) (p_c2 p) (p_prev p) (pair_trigger p s).
Definition exits_of (hit : Z -> bool) (woken : list Z) (s : estate) (l : list cpair) : Prop :=
  NoDup (map cp_id l) /\
  forall c, In c l <-> exists id p q, get id s = Some p /\ q = after hit woken id p /\ p_enabled q = true /\ p_prev q = true /\ p_cur q = false /\
    c = mk_cpair (p_id p) (p_c1 p) (p_c2 p) true (pair_trigger p s).

Lemma same_trigger : forall p q s s', es_trigger s' = es_trigger s -> p_c1 q = p_c1 p -> p_c2 q = p_c2 p -> pair_trigger q s' = pair_trigger p s.
Proof. intros p q s s' E A B. unfold pair_trigger, is_trigger. rewrite E, A, B. reflexivity. Qed.

Lemma flat_map_single : forall (A B : Type) (f : A -> list B) (g : B -> A) l, NoDup l -> (forall a b, In a l -> In b (f a) -> g b = a) ->
  (forall a, In a l -> (length (f a) <= 1)%nat) -> NoDup (map g (flat_map f l)).
Proof.
  intros A B f g l. induction l as [|a l IH]; intros N G L; [constructor|]. inversion N; subst. cbn [flat_map]. rewrite map_app.
  assert (R : NoDup (map g (flat_map f l))). { apply IH; [assumption|intros; eapply G; [right; eassumption|assumption]|intros; apply L; right; assumption]. }
  pose proof (L a (or_introl eq_refl)) as La. pose proof (G a) as Ga. destruct (f a) as [|b [|b' l']]; cbn [length] in La; [exact R| |lia].
  cbn [map app]. constructor; [|exact R]. rewrite (Ga b (or_introl eq_refl) (or_introl eq_refl)). intros I. apply in_map_iff in I as (c & E & I).
  apply in_flat_map in I as (a' & I1 & I2). rewrite (G a' c (or_intror I1) I2) in E. subst. contradiction.
Qed.

Lemma update_effect : forall hit woken s, (forall id p, get id s = Some p -> p_id p = id) ->
  exists s' evs cs lost, update hit woken s = Ok (s', evs) /\ es_lost s' = [] /\ es_trigger s' = es_trigger s /\
  (forall id, get id s' = option_map (fun p => previous_of (after hit woken id p)) (get id s)) /\
  Permutation evs (map (event_of false) cs ++ map (event_of true) (es_lost s ++ lost)) /\
  contacts_of hit s cs /\ exits_of hit woken s lost.
Proof.
  intros hit woken s W. unfold update, narrow. destruct (clear_effect s) as (s1 & -> & L1 & T1 & G1). cbn [bind].
  assert (HS : forall id, In id (hits hit s1) <-> In id (hits hit s)).
  { intros id. rewrite !hits_in. rewrite G1. split.
    - intros (p & E & En & H). destruct (get id s) as [q|]; [|discriminate]. cbn [option_map] in E. injection E as <-. exists q. split; [reflexivity|]. split; [|exact H].
      destruct (p_enabled q) eqn:Q; [reflexivity|congruence].
    - intros (p & E & En & H). rewrite E. cbn [option_map]. eexists. split; [reflexivity|]. rewrite En. cbn. split; [exact En|exact H]. }
  destruct (colliding_effect (hits hit s1) s1) as (s2 & -> & L2 & T2 & G2).
  { intros id I. apply hits_in in I as (p & E & _). rewrite E. discriminate. }
  cbn [bind]. destruct (enable_effect woken s2) as (s3 & -> & L3 & T3 & G3). cbn [bind].
  assert (GG : forall id, get id s3 = option_map (after hit woken id) (get id s)).
  { intros id. rewrite G3, G2, G1. destruct (get id s) as [p|] eqn:E; [|reflexivity]. cbn [option_map]. f_equal. unfold after, woken_of, hit_of.
    destruct (p_enabled p) eqn:En.
    - assert (X : existsb (Z.eqb id) (hits hit s1) = hit id).
      { destruct (hit id) eqn:H.
        - apply existsb_iff, HS, hits_in. exists p. auto.
        - destruct (existsb (Z.eqb id) (hits hit s1)) eqn:X; [|reflexivity]. apply existsb_iff, HS, hits_in in X as (q & _ & _ & ?). congruence. }
      rewrite X. destruct (hit id); cbn; rewrite En; cbn; rewrite andb_false_r; destruct p; reflexivity.
    - assert (X : existsb (Z.eqb id) (hits hit s1) = false).
      { destruct (existsb (Z.eqb id) (hits hit s1)) eqn:X; [|reflexivity]. apply existsb_iff, HS, hits_in in X as (q & Q & ? & _). congruence. }
      rewrite X. reflexivity. }
  unfold report. destruct (previous_effect (compute_lost s3)) as (s4 & -> & L4 & T4 & G4). cbn [bind].
  exists (mk_estate (es_pairs s4) [] (es_trigger s4)), (on_contact (contact_pairs hit s1) (es_lost (compute_lost s3)) ++ on_trigger (contact_pairs hit s1) (es_lost (compute_lost s3))), (contact_pairs hit s1), (lost_now s3).
  split; [reflexivity|]. split; [reflexivity|]. split; [cbn [es_trigger]; rewrite T4; cbn [compute_lost es_trigger]; congruence|].
  split.
  { intros id. change (get id (mk_estate (es_pairs s4) [] (es_trigger s4))) with (get id s4). rewrite G4.
    change (get id (compute_lost s3)) with (get id s3). rewrite GG. destruct (get id s); reflexivity. }
  assert (TR : es_trigger s3 = es_trigger s) by congruence.
  split.
  { eapply Permutation_trans; [apply report_perm|]. cbn [compute_lost es_lost]. rewrite L3, L2, L1. reflexivity. }
  split.
  { split.
    - unfold contact_pairs. apply flat_map_single; [apply hits_nodup| |].
      + intros a b _ I. destruct (get a s1); [|contradiction]. destruct I as [<-|[]]. reflexivity.
      + intros a _. destruct (get a s1); cbn; lia.
    - intros c. unfold contact_pairs. rewrite in_flat_map. split.
      + intros (id & I & K). apply HS, hits_in in I as (p & E & En & H). rewrite G1, E in K. cbn [option_map] in K. rewrite En in K. destruct K as [<-|[]].
        exists id, p. split; [exact E|]. split; [exact En|]. split; [exact H|]. cbn [with_flags p_c1 p_c2 p_prev].
        rewrite (same_trigger p _ s s1 T1) by reflexivity. reflexivity.
      + intros (id & p & E & En & H & ->). exists id. split; [apply HS, hits_in; exists p; auto|]. rewrite G1, E. cbn [option_map]. rewrite En. left.
        cbn [with_flags p_c1 p_c2 p_prev]. rewrite (same_trigger p _ s s1 T1) by reflexivity. reflexivity. }
  assert (SB : forall id p, same_but_flags p (after hit woken id p)).
  { intros id p. unfold after, woken_of, hit_of. destruct (p_enabled p) eqn:E; cbn; rewrite ?E; cbn; rewrite ?andb_false_r; [repeat split|]. destruct (existsb _ woken); cbn; repeat split. }
  split.
  - unfold lost_now. apply flat_map_single; [apply ids_nodup| |].
    + intros a b _ I. rewrite GG in I. destruct (get a s) as [p|] eqn:E; [|contradiction]. cbn [option_map] in I. destruct (_ && _); [|contradiction]. destruct I as [<-|[]].
      cbn [cp_id]. destruct (SB a p) as (-> & _). exact (W a p E).
    + intros a _. destruct (get a s3); [|cbn; lia]. destruct (_ && _); cbn; lia.
  - intros c. unfold lost_now. rewrite in_flat_map. split.
    + intros (id & _ & K). rewrite GG in K. destruct (get id s) as [p|] eqn:E; [|contradiction]. cbn [option_map] in K. destruct (_ && _) eqn:B; [|contradiction]. destruct K as [<-|[]].
      apply andb_prop in B as [B B3]. apply andb_prop in B as [B1 B2]. apply negb_true_iff in B3. destruct (SB id p) as (S1 & S2 & S3).
      exists id, p, (after hit woken id p). split; [exact E|]. split; [reflexivity|]. split; [exact B1|]. split; [exact B2|]. split; [exact B3|].
      rewrite S1, S2, S3. rewrite (same_trigger p _ s s3 TR S2 S3). reflexivity.
    + intros (id & p & q & E & -> & B1 & B2 & B3 & ->). exists id. split; [apply (ids_in _ _ (after hit woken id p)); rewrite GG, E; reflexivity|]. rewrite GG, E. cbn [option_map].
      rewrite B1, B2, B3. cbn [andb negb]. left. destruct (SB id p) as (S1 & S2 & S3). rewrite S1, S2, S3. rewrite (same_trigger p _ s s3 TR S2 S3). reflexivity.
Qed.

(** ** The other operations *)
Lemma query_effect : forall whole found s, exists s' x, query whole found s = Ok s' /\ es_lost s' = es_lost s /\ es_trigger s' = es_trigger s /\
  forall id, get id s' = option_map (fun p => if p_enabled p then with_flags (p_prev p) (x id p) p else p) (get id s).
Proof.
  intros whole found s. unfold query.
  assert (K : exists s1 y, (if whole then on_pairs PClearCurrent s else Ok s) = Ok s1 /\ es_lost s1 = es_lost s /\ es_trigger s1 = es_trigger s /\
    forall id, get id s1 = option_map (fun p => if p_enabled p then with_flags (p_prev p) (y p) p else p) (get id s)).
  { destruct whole.
    - destruct (clear_effect s) as (s1 & E & L & T & G). exists s1, (fun _ => false). auto.
    - exists s, p_cur. split; [reflexivity|]. split; [reflexivity|]. split; [reflexivity|]. intros id. destruct (get id s) as [p|]; [|reflexivity]. cbn [option_map]. destruct (p_enabled p); [destruct p; reflexivity|reflexivity]. }
  destruct K as (s1 & y & -> & L1 & T1 & G1). cbn [bind].
  destruct (colliding_effect (hits found s1) s1) as (s2 & E2 & L2 & T2 & G2).
  { intros id I. apply hits_in in I as (p & E & _). rewrite E. discriminate. }
  exists s2, (fun id p => if existsb (Z.eqb id) (hits found s1) then true else y p). split; [exact E2|]. split; [congruence|]. split; [congruence|].
  intros id. rewrite G2, G1. destruct (get id s) as [p|] eqn:E; [|reflexivity]. cbn [option_map]. f_equal. destruct (p_enabled p) eqn:En.
  - destruct (existsb _ _); [|reflexivity]. destruct p; reflexivity.
  - destruct (existsb (Z.eqb id) (hits found s1)) eqn:X; [|reflexivity]. apply existsb_iff, hits_in in X as (q & Q & Qe & _). rewrite G1, E in Q. cbn [option_map] in Q. rewrite En in Q.
    injection Q as <-. congruence.
Qed.
Lemma lose_effect : forall i s s', lose i s = Ok s' -> es_trigger s' = es_trigger s /\
  exists p, get i s = Some p /\ es_lost s' = es_lost s ++ (if p_prev p then [mk_cpair (p_id p) (p_c1 p) (p_c2 p) true (pair_trigger p s)] else []) /\
  forall id, get id s' = if id =? i then None else get id s.
Proof.
  intros i s s' H. unfold lose in H. destruct (get i s) as [p|] eqn:E; [|discriminate]. cbn [rd bind] in H. unfold on_pairs in H. cbn [pspec_step bind] in H. injection H as <-.
  split; [cbn [es_trigger]; destruct (p_prev p); reflexivity|]. exists p. split; [reflexivity|]. split.
  - cbn [es_lost]. destruct (p_prev p); cbn [add_lost es_lost]; [reflexivity|symmetry; apply app_nil_r].
  - intros id. unfold get. cbn [es_pairs]. replace (es_pairs (if p_prev p then add_lost p s else s)) with (es_pairs s) by (destruct (p_prev p); reflexivity).
    cbn [sp_pairs]. apply lookup_remove.
Qed.

Definition wf (s : estate) : Prop := forall id p, get id s = Some p -> p_id p = id.
Lemma after_same : forall hit woken id p, same_but_flags p (previous_of (after hit woken id p)).
Proof.
  intros. unfold previous_of, after, woken_of, hit_of. destruct (p_enabled p) eqn:E; cbn; rewrite ?E; cbn; rewrite ?andb_false_r; cbn; rewrite ?E; [repeat split|].
  destruct (existsb _ woken); cbn; rewrite ?E; repeat split.
Qed.
Lemma step_wf : forall s op s' evs, wf s -> estep s op = Ok (s', evs) -> wf s'.
Proof.
  intros s op s' evs W H id q G. destruct op as [o|i|c v|w f|hit woken]; cbn [estep] in H.
  - destruct (call_allowed o) eqn:A; cbn [check bind] in H; [|discriminate]. destruct (on_pairs o s) as [s1| |] eqn:E; try discriminate. cbn [bind] in H. injection H as <- <-.
    destruct (call_effect s o s1 id E A) as (_ & _ & K). rewrite G in K. destruct (get id s) as [p|] eqn:P.
    + destruct K as (((I & _) & _) & _). rewrite I. exact (W id p P).
    + tauto.
  - destruct (lose i s) as [s1| |] eqn:E; try discriminate. cbn [bind] in H. injection H as <- <-. apply lose_effect in E as (_ & p & _ & _ & K). rewrite K in G.
    destruct (id =? i); [discriminate|]. exact (W id q G).
  - injection H as <- <-. exact (W id q G).
  - destruct (query_effect w f s) as (s1 & x & E & _ & _ & K). rewrite E in H. cbn [bind] in H. injection H as <- <-. rewrite K in G. destruct (get id s) as [p|] eqn:P; [|discriminate].
    cbn [option_map] in G. injection G as <-. destruct (p_enabled p); exact (W id p P).
  - destruct (update_effect hit woken s W) as (s1 & ev1 & cs & lost & E & _ & _ & K & _). rewrite E in H. injection H as <- <-. rewrite K in G.
    destruct (get id s) as [p|] eqn:P; [|discriminate]. cbn [option_map] in G. injection G as <-. destruct (after_same hit woken id p) as (-> & _). exact (W id p P).
Qed.
Lemma init_wf : wf init_estate.
Proof. intros id p H. discriminate H. Qed.
Lemma history_wf : forall s h s', history s h s' -> wf s -> wf s'.
Proof. intros s h s' H. induction H; intros W; [exact W|]. apply IHhistory. exact (step_wf _ _ _ _ W H). Qed.

(** ** One pair *)
Definition qflag (q : bool) (st : step) : bool := match what st with EQuery _ _ => true | EUpdate _ _ => false | _ => q end.
Definition one (id : Z) (t q : bool) (s : estate) : Prop :=
  exists p, get id s = Some p /\ p_prev p = t /\ (p_enabled p = false \/ q = false -> p_cur p = p_prev p) /\ ~ In id (map cp_id (es_lost s)).

Lemma told_none : forall id evs, (forall e, In e evs -> ev_id e <> id) -> told_about id evs = [].
Proof.
  intros id evs N. unfold told_about. induction evs as [|e r IH]; [reflexivity|]. cbn [filter]. destruct (Z.eqb_spec (ev_id e) id) as [E|_].
  - exfalso. exact (N e (or_introl eq_refl) E).
  - apply IH. intros e' I. apply N. right. exact I.
Qed.
Lemma filter_permutation : forall (A : Type) (f : A -> bool) l l', Permutation l l' -> Permutation (filter f l) (filter f l').
Proof.
  intros A f l l' P. induction P.
  - constructor.
  - cbn [filter]. destruct (f x); [constructor|]; exact IHP.
  - cbn [filter]. destruct (f x), (f y); try apply Permutation_refl. apply perm_swap.
  - eapply Permutation_trans; eassumption.
Qed.
Lemma told_perm : forall id l l', Permutation l l' -> Permutation (told_about id l) (told_about id l').
Proof. intros. apply Permutation_map, filter_permutation. assumption. Qed.
Lemma told_app : forall id l l', told_about id (l ++ l') = told_about id l ++ told_about id l'.
Proof. intros. unfold told_about. rewrite filter_app, map_app. reflexivity. Qed.
Lemma told_one : forall id b l c, NoDup (map cp_id l) -> In c l -> cp_id c = id -> told_about id (map (event_of b) l) = [event_kind b c].
Proof.
  intros id b l c. induction l as [|a l IH]; intros N I E; [destruct I|]. cbn [map] in N. inversion N as [|? ? N1 N2]; subst. cbn [map]. unfold told_about. cbn [filter].
  change (ev_id (event_of b a)) with (cp_id a). destruct I as [->|I].
  - rewrite Z.eqb_refl. cbn [map ev_kind event_of]. f_equal. apply told_none. intros e Ie. apply in_map_iff in Ie as (c' & <- & Ic). change (ev_id (event_of b c')) with (cp_id c'). intros E.
    apply N1. rewrite <- E. apply in_map. exact Ic.
  - destruct (Z.eqb_spec (cp_id a) (cp_id c)) as [X|_]; [exfalso; apply N1; rewrite X; apply in_map; exact I|]. apply IH; auto.
Qed.
Lemma told_absent : forall id b l, ~ In id (map cp_id l) -> told_about id (map (event_of b) l) = [].
Proof.
  intros id b l N. apply told_none. intros e I. apply in_map_iff in I as (c & <- & I). change (ev_id (event_of b c)) with (cp_id c). intros <-. apply N. apply in_map. exact I.
Qed.

Definition told_kind (was now : bool) : list kind :=
  match was, now with false, true => [Start] | true, true => [Stay] | true, false => [Exit] | false, false => [] end.

Lemma update_one : forall id t q s hit woken s' evs, wf s -> one id t q s -> update hit woken s = Ok (s', evs) ->
  exists p, get id s = Some p /\
  told_about id evs = (if p_enabled p then told_kind t (hit id) else []) /\
  one id (if p_enabled p then hit id else t) false s'.
Proof.
  intros id t q s hit woken s' evs W (p & G & T & C & N) U. exists p. split; [exact G|].
  destruct (update_effect hit woken s W) as (s1 & ev1 & cs & lost & E & L0 & _ & K & P & (CN & CI) & (XN & XI)). rewrite E in U. injection U as <- <-.
  assert (Wp : p_id p = id) by exact (W id p G).
  assert (KX : forall c, In c lost -> cp_id c = id -> p_enabled p = true /\ p_prev p = true /\ hit id = false).
  { intros c I Ec. apply XI in I as (id' & p' & r & G' & -> & B1 & B2 & B3 & ->). cbn [cp_id] in Ec. rewrite (W id' p' G') in Ec. subst id'. rewrite G in G'. injection G' as <-.
    unfold after, woken_of, hit_of in B1, B2, B3. destruct (p_enabled p) eqn:En.
    - cbn in B1, B2, B3. rewrite En in B1, B2, B3. rewrite andb_false_r in B1, B2, B3. cbn in B2, B3. auto.
    - exfalso. rewrite En in B1, B2, B3. destruct (existsb (Z.eqb id) woken); cbn in B1, B2, B3; [|congruence]. specialize (C (or_introl eq_refl)). congruence. }
  assert (KC : forall c, In c cs -> cp_id c = id -> p_enabled p = true /\ hit id = true /\ cp_prev c = t).
  { intros c I Ec. apply CI in I as (id' & p' & G' & En & H & ->). cbn [cp_id] in Ec. subst id'. rewrite G in G'. injection G' as <-. auto. }
  split.
  - assert (PP := told_perm id _ _ P). rewrite told_app, map_app, told_app in PP. rewrite (told_absent id true (es_lost s) N) in PP. cbn [app] in PP.
    destruct (p_enabled p) eqn:En.
    + destruct (hit id) eqn:H.
      * assert (IC : In (mk_cpair id (p_c1 p) (p_c2 p) (p_prev p) (pair_trigger p s)) cs). { apply CI. exists id, p. auto. }
        rewrite (told_one id false cs _ CN IC eq_refl) in PP. rewrite told_absent in PP.
        2:{ intros I. apply in_map_iff in I as (c & Ec & I). destruct (KX c I Ec) as (_ & _ & ?). discriminate. }
        apply Permutation_sym, Permutation_length_1_inv in PP. cbn [event_kind cp_prev] in PP. rewrite T in PP. destruct t; exact PP.
      * rewrite (told_absent id false cs) in PP. 2:{ intros I. apply in_map_iff in I as (c & Ec & I). destruct (KC c I Ec) as (_ & ? & _). discriminate. }
        cbn [app] in PP. destruct t.
        -- assert (IX : In (mk_cpair (p_id p) (p_c1 p) (p_c2 p) true (pair_trigger p s)) lost).
           { apply XI. exists id, p, (after hit woken id p). split; [exact G|]. split; [reflexivity|]. unfold after, woken_of, hit_of. rewrite En. cbn. rewrite En. cbn. rewrite andb_false_r. cbn. auto. }
           rewrite (told_one id true lost _ XN IX Wp) in PP. apply Permutation_sym, Permutation_length_1_inv in PP. exact PP.
        -- rewrite told_absent in PP. 2:{ intros I. apply in_map_iff in I as (c & Ec & I). destruct (KX c I Ec) as (_ & ? & _). congruence. }
           apply Permutation_sym, Permutation_nil in PP. exact PP.
    + rewrite !told_absent in PP.
      * apply Permutation_sym, Permutation_nil in PP. exact PP.
      * intros I. apply in_map_iff in I as (c & Ec & I). destruct (KX c I Ec) as (? & _). congruence.
      * intros I. apply in_map_iff in I as (c & Ec & I). destruct (KC c I Ec) as (? & _). congruence.
  - exists (previous_of (after hit woken id p)). rewrite K, G, L0. split; [reflexivity|]. unfold previous_of, after, woken_of, hit_of.
    destruct (p_enabled p) eqn:En.
    + cbn. rewrite En. cbn. rewrite andb_false_r. cbn. rewrite En. cbn. auto.
    + rewrite En. specialize (C (or_introl eq_refl)). destruct (existsb (Z.eqb id) woken); cbn; rewrite ?En; cbn; rewrite ?C, ?T; auto.
Qed.

Lemma step_one : forall id t q s op s' evs, wf s -> one id t q s -> estep s op = Ok (s', evs) -> get id s' <> None ->
  (op = ECall (PDisable id) -> q = false) -> (forall hit woken, op <> EUpdate hit woken) ->
  evs = [] /\ one id t (qflag q (mk_step s op evs)) s'.
Proof.
  intros id t q s op s' evs W (p & G & T & C & N) H TR SL NU. destruct op as [o|i|c v|w f|hit woken]; cbn [estep] in H.
  - destruct (call_allowed o) eqn:A; cbn [check bind] in H; [|discriminate]. destruct (on_pairs o s) as [s1| |] eqn:E; try discriminate. cbn [bind] in H. injection H as <- <-. split; [reflexivity|].
    destruct (call_effect s o s1 id E A) as (EL & ET & K). rewrite G in K. destruct (get id s1) as [p'|] eqn:P; [|congruence]. destruct K as ((_ & K1 & K2) & K3).
    exists p'. split; [exact P|]. split; [congruence|]. split; [|rewrite EL; exact N]. cbn [qflag what]. intros O. rewrite K1, K2. apply C. destruct O as [O|O]; [|right; exact O].
    destruct (p_enabled p) eqn:En; [|left; reflexivity]. right. apply SL. rewrite (K3 eq_refl O). reflexivity.
  - destruct (lose i s) as [s1| |] eqn:E; try discriminate. cbn [bind] in H. injection H as <- <-. split; [reflexivity|]. apply lose_effect in E as (_ & p' & G' & EL & K). rewrite K in TR.
    exists p. rewrite K. destruct (Z.eqb_spec id i) as [->|D]; [congruence|]. split; [exact G|]. split; [exact T|]. split; [exact C|]. rewrite EL, map_app. intros I. apply in_app_or in I as [I|I]; [exact (N I)|].
    destruct (p_prev p'); [|destruct I]. destruct I as [I|[]]. cbn [cp_id] in I. rewrite (W i p' G') in I. congruence.
  - injection H as <- <-. split; [reflexivity|]. exists p. auto.
  - destruct (query_effect w f s) as (s1 & x & E & EL & _ & K). rewrite E in H. cbn [bind] in H. injection H as <- <-. split; [reflexivity|].
    exists (if p_enabled p then with_flags (p_prev p) (x id p) p else p). rewrite K, G. split; [reflexivity|]. rewrite EL. cbn [qflag what]. destruct (p_enabled p) eqn:En; cbn.
    + split; [exact T|]. split; [|exact N]. intros [O|O]; congruence.
    + split; [exact T|]. split; [|exact N]. intros _. apply C. left. reflexivity.
  - exfalso. exact (NU hit woken eq_refl).
Qed.

Lemma one_pair : forall id s h s', history s h s' -> forall t q, wf s -> one id t q s -> tracked id h s' ->
  (forall h1 st h2, h = h1 ++ st :: h2 -> what st = ECall (PDisable id) -> fold_left qflag h1 q = false) ->
  reports id h = expected t (tests id h).
Proof.
  intros id s h s' H. induction H as [s|s op s1 evs h s2 E H IH]; intros t q W O (TB & TE) SL; [reflexivity|].
  assert (T1 : get id s1 <> None).
  { inversion H; subst; [exact TE|]. apply (TB (mk_step s1 op0 evs0)). right. left. reflexivity. }
  assert (TT : tracked id h s2). { split; [|exact TE]. intros st I. apply TB. right. exact I. }
  assert (SL' : forall h1 st h2, h = h1 ++ st :: h2 -> what st = ECall (PDisable id) -> fold_left qflag h1 (qflag q (mk_step s op evs)) = false).
  { intros h1 st h2 -> K. exact (SL (mk_step s op evs :: h1) st h2 eq_refl K). }
  assert (SL0 : op = ECall (PDisable id) -> q = false). { intros ->. exact (SL [] _ h eq_refl eq_refl). }
  assert (D : (forall hit woken, op <> EUpdate hit woken) \/ exists hit woken, op = EUpdate hit woken).
  { destruct op; try (left; discriminate). right. eauto. }
  destruct D as [D|(hit & woken & ->)].
  - destruct (step_one id t q s op s1 evs W O E T1 SL0 D) as (-> & O1). specialize (IH t _ (step_wf _ _ _ _ W E) O1 TT SL').
    unfold reports, tests in *. cbn [flat_map]. unfold test_in at 1. cbn [what]. destruct op; try exact IH. exfalso. exact (D hit woken eq_refl).
  - cbn [estep] in E. destruct (update_one id t q s hit woken s1 evs W O E) as (p & G & K & O1).
    specialize (IH _ _ (step_wf s (EUpdate hit woken) s1 evs W E) O1 TT SL'). unfold reports, tests in *. cbn [flat_map]. unfold test_in at 1. cbn [what told before]. rewrite G, K, IH.
    destruct (p_enabled p); [|reflexivity]. cbn [app expected]. destruct t, (hit id); reflexivity.
Qed.

(** ** Words of blocks *)
Definition inside (l : list kind) : Prop :=
  (exists n, l = repeat Stay n) \/ exists n r, l = repeat Stay n ++ Exit :: r /\ in_blocks r.
Lemma in_blocks_start : forall l, inside l -> in_blocks (Start :: l).
Proof.
  intros l [(n & ->)|(n & r & -> & bs & u & F & U & ->)].
  - exists [], (Start :: repeat Stay n). split; [constructor|]. split; [right; exists n; reflexivity|reflexivity].
  - exists ((Start :: repeat Stay n ++ [Exit]) :: bs), u. split; [constructor; [exists n; reflexivity|exact F]|]. split; [exact U|]. cbn [concat app]. f_equal. rewrite <- !app_assoc. reflexivity.
Qed.
Lemma expected_blocks : forall ts (t : bool), if t then inside (concat (expected t ts)) else in_blocks (concat (expected t ts)).
Proof.
  induction ts as [|o ts IH]; intros t.
  - cbn. destruct t; [left; exists O; reflexivity|]. exists [], []. repeat split; [constructor|left; reflexivity].
  - cbn [expected]. destruct o as [now|]; cbn [concat app]; [|exact (IH t)]. specialize (IH now). destruct t, now; cbn [app].
    + destruct IH as [(n & E)|(n & r & E & B)]; rewrite E.
      * left. exists (S n). reflexivity.
      * right. exists (S n), r. split; [reflexivity|exact B].
    + right. exists O, (concat (expected false ts)). split; [reflexivity|exact IH].
    + apply in_blocks_start. exact IH.
    + exact IH.
Qed.

(** ** All pairs *)
Lemma key_eqb_iff : forall a b, key_eqb a b = true <-> a = b.
Proof.
  intros [t i] [t' i']. unfold key_eqb. cbn [fst snd]. rewrite andb_true_iff, Bool.eqb_true_iff, Z.eqb_eq. split; [intros [-> ->]; reflexivity|intros K; injection K as -> ->; auto].
Qed.
Lemma knows_iff : forall k v, knows k v = true <-> In k v.
Proof.
  intros k v. unfold knows. rewrite existsb_exists. split.
  - intros (x & I & E). apply key_eqb_iff in E. subst. exact I.
  - intros I. exists k. split; [exact I|apply key_eqb_iff; reflexivity].
Qed.
Definition key_of (e : event) : key := (ev_trigger e, ev_id e).
Lemma listen_ok : forall evs v, NoDup (map key_of evs) ->
  (forall e, In e evs -> match ev_kind e with Start => ~ In (key_of e) v | _ => In (key_of e) v end) ->
  exists v', listen v evs = Some v' /\
  forall k, In k v' <-> (In k v /\ ~ exists e, In e evs /\ key_of e = k /\ ev_kind e = Exit) \/ exists e, In e evs /\ key_of e = k /\ ev_kind e = Start.
Proof.
  induction evs as [|e evs IH]; intros v N S.
  - exists v. split; [reflexivity|]. intros k. split; [intros I; left; split; [exact I|intros (e & [] & _)]|intros [[I _]|(e & [] & _)]; exact I].
  - cbn [map] in N. inversion N as [|? ? N1 N2]; subst. pose proof (S e (or_introl eq_refl)) as Se. cbn [listen]. unfold hear. fold (key_of e).
    assert (NE : forall e', In e' evs -> key_of e' <> key_of e). { intros e' I E. apply N1. rewrite <- E. apply in_map. exact I. }
    destruct (ev_kind e) eqn:Ek.
    + destruct (knows (key_of e) v) eqn:Kn; [apply knows_iff in Kn; contradiction|].
      destruct (IH (key_of e :: v) N2) as (v' & L & K).
      { intros e' I. pose proof (S e' (or_intror I)) as Se'. pose proof (NE e' I). destruct (ev_kind e'); [intros [X|X]; [congruence|contradiction]|right; exact Se'|right; exact Se']. }
      exists v'. split; [exact L|]. intros k. rewrite K. split.
      * intros [[[<-|I] X]|(e' & I & E1 & E2)].
        -- right. exists e. split; [left; reflexivity|]. auto.
        -- left. split; [exact I|]. intros (e' & [<-|I'] & E1 & E2); [congruence|]. apply X. exists e'. auto.
        -- right. exists e'. split; [right; exact I|]. auto.
      * intros [[I X]|(e' & [<-|I] & E1 & E2)].
        -- left. split; [right; exact I|]. intros (e' & I' & E1 & E2). apply X. exists e'. split; [right; exact I'|]. auto.
        -- left. split; [left; exact E1|]. intros (e' & I' & E3 & E4). subst k. exact (NE e' I' E3).
        -- right. exists e'. auto.
    + assert (Kn : knows (key_of e) v = true) by (apply knows_iff; exact Se). rewrite Kn.
      destruct (IH v N2) as (v' & L & K). { intros e' I. exact (S e' (or_intror I)). }
      exists v'. split; [exact L|]. intros k. rewrite K. split.
      * intros [[I X]|(e' & I & E1 & E2)].
        -- left. split; [exact I|]. intros (e' & [<-|I'] & E1 & E2); [congruence|]. apply X. exists e'. auto.
        -- right. exists e'. split; [right; exact I|]. auto.
      * intros [[I X]|(e' & [<-|I] & E1 & E2)].
        -- left. split; [exact I|]. intros (e' & I' & E1 & E2). apply X. exists e'. split; [right; exact I'|]. auto.
        -- congruence.
        -- right. exists e'. auto.
    + assert (Kn : knows (key_of e) v = true) by (apply knows_iff; exact Se). rewrite Kn.
      set (v1 := filter (fun x => negb (key_eqb (key_of e) x)) v).
      assert (V1 : forall k, In k v1 <-> In k v /\ k <> key_of e).
      { intros k. unfold v1. rewrite filter_In, negb_true_iff. split; intros [A B]; (split; [exact A|]).
        - intros ->. rewrite (proj2 (key_eqb_iff _ _) eq_refl) in B. discriminate.
        - destruct (key_eqb (key_of e) k) eqn:X; [|reflexivity]. apply key_eqb_iff in X. congruence. }
      destruct (IH v1 N2) as (v' & L & K).
      { intros e' I. pose proof (S e' (or_intror I)) as Se'. pose proof (NE e' I). destruct (ev_kind e'); [intros X; apply V1 in X; tauto|apply V1; auto|apply V1; auto]. }
      exists v'. split; [exact L|]. intros k. rewrite K, V1. split.
      * intros [[[I D] X]|(e' & I & E1 & E2)].
        -- left. split; [exact I|]. intros (e' & [<-|I'] & E1 & E2); [congruence|]. apply X. exists e'. auto.
        -- right. exists e'. split; [right; exact I|]. auto.
      * intros [[I X]|(e' & [<-|I] & E1 & E2)].
        -- left. split.
           ++ split; [exact I|]. intros ->. apply X. exists e. split; [left; reflexivity|]. auto.
           ++ intros (e' & I' & E1 & E2). apply X. exists e'. split; [right; exact I'|]. auto.
        -- congruence.
        -- right. exists e'. auto.
Qed.
Lemma listen_app : forall l l' v, listen v (l ++ l') = match listen v l with Some v' => listen v' l' | None => None end.
Proof. induction l as [|e l IH]; intros l' v; [reflexivity|]. cbn [app listen]. destruct (hear v e); [apply IH|reflexivity]. Qed.

Definition touches (id : Z) (t : bool) (s : estate) : Prop := exists p, get id s = Some p /\ p_prev p = true /\ t = pair_trigger p s.
Definition pending (id : Z) (t : bool) (s : estate) : Prop := exists c, In c (es_lost s) /\ cp_id c = id /\ cp_trigger c = t.
Definition informed (h : list step) (s : estate) : Prop :=
  wf s /\
  (exists v, listen [] (all_told h) = Some v /\ forall t id, In (t, id) v <-> touches id t s \/ pending id t s) /\
  NoDup (map cp_id (es_lost s)) /\
  (forall id, In id (map cp_id (es_lost s)) -> get id s = None /\ dropped id h = true) /\
  (forall id, touching id h = match get id s with Some p => p_prev p | None => false end) /\
  (forall id p, get id s = Some p -> p_enabled p = false \/ queried h = false -> p_cur p = p_prev p).

Lemma informed_init : informed [] init_estate.
Proof.
  split; [exact init_wf|]. split; [|split; [constructor|split; [intros id []|split; [reflexivity|intros id p G; discriminate G]]]].
  exists []. split; [reflexivity|]. intros t id. split; [intros []|]. intros [(p & G & _)|(c & [] & _)]. discriminate G.
Qed.

Lemma NoDup_app_intro : forall (A : Type) (l l' : list A), NoDup l -> NoDup l' -> (forall x, In x l -> In x l' -> False) -> NoDup (l ++ l').
Proof.
  intros A l l' N N' D. induction N as [|a l I N IH]; [exact N'|]. cbn [app]. constructor.
  - intros X. apply in_app_or in X as [X|X]; [exact (I X)|]. exact (D a (or_introl eq_refl) X).
  - apply IH. intros x X Y. exact (D x (or_intror X) Y).
Qed.
Lemma update_informed : forall h s hit woken s' evs, informed h s -> update hit woken s = Ok (s', evs) ->
  informed (h ++ [mk_step s (EUpdate hit woken) evs]) s'.
Proof.
  intros h s hit woken s' evs (W & (v & L & V) & ND & LO & TO & CU) U.
  destruct (update_effect hit woken s W) as (s1 & ev1 & cs & lost & E & L0 & TR & K & P & (CN & CI) & (XN & XI)). rewrite E in U. injection U as <- <-.
  pose proof (step_wf s (EUpdate hit woken) s1 ev1 W E) as W1.
  (* the flags after the update *)
  assert (PV : forall id p, get id s = Some p -> p_prev (previous_of (after hit woken id p)) = (if p_enabled p then hit id else p_prev p) /\ p_cur (previous_of (after hit woken id p)) = (if p_enabled p then hit id else p_prev p)).
  { intros id p G. unfold previous_of, after, woken_of, hit_of. destruct (p_enabled p) eqn:En.
    - cbn. rewrite En. cbn. rewrite andb_false_r. cbn. rewrite En. cbn. auto.
    - rewrite En. pose proof (CU id p G (or_introl En)) as C. destruct (existsb (Z.eqb id) woken); cbn; rewrite ?En; cbn; auto. }
  assert (XI' : forall c, In c lost <-> exists id p, get id s = Some p /\ p_enabled p = true /\ p_prev p = true /\ hit id = false /\ c = mk_cpair id (p_c1 p) (p_c2 p) true (pair_trigger p s)).
  { intros c. rewrite XI. split.
    - intros (id & p & q & G & -> & B1 & B2 & B3 & ->). exists id, p. split; [exact G|]. rewrite (W id p G).
      unfold after, woken_of, hit_of in B1, B2, B3. destruct (p_enabled p) eqn:En.
      + cbn in B1, B2, B3. rewrite En in B1, B2, B3. rewrite andb_false_r in B1, B2, B3. cbn in B2, B3. auto.
      + exfalso. rewrite En in B1, B2, B3. pose proof (CU id p G (or_introl En)) as C. destruct (existsb (Z.eqb id) woken); cbn in B1, B2, B3; congruence.
    - intros (id & p & G & En & Pr & H & ->). exists id, p, (after hit woken id p). split; [exact G|]. split; [reflexivity|]. rewrite (W id p G).
      unfold after, woken_of, hit_of. rewrite En. cbn. rewrite En. cbn. rewrite andb_false_r. cbn. auto. }
  assert (TG : forall id p, get id s = Some p -> pair_trigger (previous_of (after hit woken id p)) s1 = pair_trigger p s).
  { intros id p G. destruct (after_same hit woken id p) as (_ & A & B). apply same_trigger; assumption. }
  (* who is told what *)
  assert (EV : forall e, In e ev1 <-> (exists c, In c cs /\ e = event_of false c) \/ (exists c, In c (es_lost s ++ lost) /\ e = event_of true c)).
  { intros e. split.
    - intros I. apply (Permutation_in _ P) in I. apply in_app_or in I as [I|I]; apply in_map_iff in I as (c & <- & I); [left|right]; exists c; auto.
    - intros I. apply (Permutation_in _ (Permutation_sym P)). apply in_or_app. destruct I as [(c & I & ->)|(c & I & ->)]; [left|right]; apply in_map; exact I. }
  assert (KN : NoDup (map key_of ev1)).
  { apply (NoDup_map_inv snd). rewrite map_map. change (NoDup (map ev_id ev1)). apply (Permutation_NoDup (Permutation_map ev_id (Permutation_sym P))).
    rewrite map_app, !map_map. change (NoDup (map cp_id cs ++ map cp_id (es_lost s ++ lost))). rewrite map_app.
    apply NoDup_app_intro; [exact CN| |].
    - apply NoDup_app_intro; [exact ND|exact XN|]. intros x I1 I2. apply LO in I1 as [G _]. apply in_map_iff in I2 as (c & <- & I2). apply XI' in I2 as (id & p & G' & _ & _ & _ & ->). cbn [cp_id] in G. congruence.
    - intros x I1 I2. apply in_map_iff in I1 as (c & <- & I1). apply CI in I1 as (id & p & G & En & H & ->). cbn [cp_id] in I2. apply in_app_or in I2 as [I2|I2].
      + apply LO in I2 as [G' _]. congruence.
      + apply in_map_iff in I2 as (c & Ec & I2). apply XI' in I2 as (id' & p' & G' & _ & _ & H' & ->). cbn [cp_id] in Ec. subst. congruence. }
  destruct (listen_ok ev1 v KN) as (v' & L' & V').
  { intros e I. apply EV in I as [(c & I & ->)|(c & I & ->)].
    - apply CI in I as (id & p & G & En & H & ->). unfold event_of, key_of. cbn [event_kind cp_prev ev_kind ev_trigger ev_id cp_trigger cp_id]. destruct (p_prev p) eqn:Pr.
      + apply V. left. exists p. auto.
      + intros X. apply V in X as [(p' & G' & Pr' & _)|(c & I & Ec & _)]; [congruence|]. assert (X := LO id). rewrite <- Ec in X at 1. destruct (X (in_map cp_id _ _ I)) as [G' _]. congruence.
    - unfold event_of, key_of. cbn [event_kind ev_kind ev_trigger ev_id]. apply V. apply in_app_or in I as [I|I].
      + right. exists c. auto.
      + apply XI' in I as (id & p & G & En & Pr & H & ->). left. exists p. auto. }
  assert (TO1 : forall id, touching id (h ++ [mk_step s (EUpdate hit woken) ev1]) = match get id s with Some p => if p_enabled p then hit id else p_prev p | None => false end).
  { intros id. unfold touching. rewrite fold_left_app. cbn [fold_left what before]. change (fold_left _ h false) with (touching id h). rewrite (TO id). destruct (get id s) as [p|]; reflexivity. }
  split; [exact W1|]. split; [|split; [rewrite L0; constructor|split; [rewrite L0; intros id []|split]]].
  - exists v'. split.
    { unfold all_told. rewrite flat_map_app. cbn [flat_map told]. rewrite app_nil_r, listen_app. unfold all_told in L. rewrite L. exact L'. }
    intros t id. rewrite V', V. unfold touches at 2. rewrite K. split.
    + intros [[O X]|(e & I & Ek & Es)].
      * destruct O as [(p & G & Pr & T)|(c & I & Ec & Et)].
        -- left. rewrite G. cbn [option_map]. eexists. split; [reflexivity|]. destruct (PV id p G) as [Q _]. rewrite Q, (TG id p G). split; [|exact T].
           destruct (p_enabled p) eqn:En; [|exact Pr]. destruct (hit id) eqn:H; [reflexivity|]. exfalso. apply X.
           exists (event_of true (mk_cpair id (p_c1 p) (p_c2 p) true (pair_trigger p s))). split; [|split; [unfold key_of; cbn; congruence|reflexivity]].
           apply EV. right. eexists. split; [|reflexivity]. apply in_or_app. right. apply XI'. exists id, p. auto.
        -- exfalso. apply X. exists (event_of true c). split; [|split; [unfold key_of; cbn; congruence|reflexivity]]. apply EV. right. exists c. split; [apply in_or_app; left; exact I|reflexivity].
      * left. apply EV in I as [(c & I & ->)|(c & I & ->)]; [|discriminate Es]. apply CI in I as (id' & p & G & En & H & ->). unfold key_of in Ek. cbn in Ek. injection Ek as <- <-. rewrite G. cbn [option_map].
        eexists. split; [reflexivity|]. destruct (PV id' p G) as [Q _]. rewrite Q, En, H, (TG id' p G). auto.
    + intros [(q & G & Pr & T)|(c & I & _)]; [|rewrite L0 in I; destruct I]. destruct (get id s) as [p|] eqn:Gp; [|discriminate]. cbn [option_map] in G. injection G as <-.
      destruct (PV id p Gp) as [Q _]. rewrite Q in Pr. rewrite (TG id p Gp) in T. destruct (p_prev p) eqn:Pp.
      * left. split; [left; exists p; auto|]. intros (e & I & Ek & Es). apply EV in I as [(c & I & ->)|(c & I & ->)].
        -- unfold event_of in Es. cbn in Es. destruct (cp_prev c); discriminate.
        -- unfold key_of in Ek. cbn in Ek. injection Ek as _ Ek. apply in_app_or in I as [I|I].
           ++ assert (X := LO id). rewrite <- Ek in X at 1. destruct (X (in_map cp_id _ _ I)) as [G' _]. congruence.
           ++ apply XI' in I as (id' & p' & G' & En' & _ & H' & ->). cbn in Ek. subst id'. rewrite Gp in G'. injection G' as <-. rewrite En', H' in Pr. discriminate.
      * right. destruct (p_enabled p) eqn:En; [|discriminate]. exists (event_of false (mk_cpair id (p_c1 p) (p_c2 p) (p_prev p) (pair_trigger p s))). split.
        -- apply EV. left. eexists. split; [|reflexivity]. apply CI. exists id, p. auto.
        -- unfold key_of, event_of. cbn. rewrite Pp. split; [congruence|reflexivity].
  - intros id. rewrite TO1, K. destruct (get id s) as [p|] eqn:G; [|reflexivity]. cbn [option_map]. symmetry. exact (proj1 (PV id p G)).
  - intros id q G _. rewrite K in G. destruct (get id s) as [p|] eqn:Gp; [|discriminate]. cbn [option_map] in G. injection G as <-. destruct (PV id p Gp) as [-> ->]. reflexivity.
Qed.

Lemma listen_quiet : forall h s op v, listen [] (all_told h) = Some v -> listen [] (all_told (h ++ [mk_step s op []])) = Some v.
Proof. intros h s op v L. unfold all_told in *. rewrite flat_map_app. cbn [flat_map told app]. rewrite app_nil_r. exact L. Qed.

Lemma call_informed : forall h s o s', informed h s -> on_pairs o s = Ok s' -> call_allowed o = true -> harmless h (mk_step s (ECall o) []) ->
  wf s' -> informed (h ++ [mk_step s (ECall o) []]) s'.
Proof.
  intros h s o s' (W & (v & L & V) & ND & LO & TO & CU) E A HA W1.
  assert (K := fun id => call_effect s o s' id E A). destruct (K 0) as (EL & ET & _).
  assert (Q : queried (h ++ [mk_step s (ECall o) []]) = queried h) by (unfold queried; rewrite fold_left_app; reflexivity).
  assert (D : forall id, dropped id (h ++ [mk_step s (ECall o) []]) = dropped id h) by (intros; unfold dropped; rewrite fold_left_app; reflexivity).
  assert (T1 : forall id, touching id (h ++ [mk_step s (ECall o) []]) = match o with PRemove i => if i =? id then false else touching id h | _ => touching id h end).
  { intros id. unfold touching. rewrite fold_left_app. cbn [fold_left what]. change (fold_left _ h false) with (touching id h). destruct o; reflexivity. }
  assert (TC : forall id, match get id s' with Some p => p_prev p | None => false end = match get id s with Some p => p_prev p | None => false end).
  { intros id. destruct (K id) as (_ & _ & X). destruct (get id s) as [p|] eqn:G, (get id s') as [q|].
    - destruct X as ((_ & X & _) & _). exact X.
    - subst o. cbn in HA. rewrite (TO id), G in HA. congruence.
    - destruct X as (_ & (X & _) & _). exact X.
    - reflexivity. }
  split; [exact W1|]. split; [|split; [rewrite EL; exact ND|split; [|split]]].
  - exists v. split; [apply listen_quiet; exact L|]. intros t id. rewrite V. unfold touches, pending. rewrite EL.
    assert (X : (exists p, get id s = Some p /\ p_prev p = true /\ t = pair_trigger p s) <-> (exists p, get id s' = Some p /\ p_prev p = true /\ t = pair_trigger p s')).
    { pose proof (TC id) as TCi. destruct (K id) as (_ & _ & X). destruct (get id s) as [p|] eqn:G, (get id s') as [q|].
      - destruct X as (((_ & X1 & X2) & _) & _). split; intros (r & R & Pr & T); injection R as <-.
        + exists q. split; [reflexivity|]. split; [congruence|]. rewrite (same_trigger p q s s' ET X1 X2). exact T.
        + exists p. split; [reflexivity|]. split; [congruence|]. rewrite <- (same_trigger p q s s' ET X1 X2). exact T.
      - split; intros (r & R & Pr & T); [injection R as <-; congruence|discriminate].
      - split; intros (r & R & Pr & T); [discriminate|injection R as <-; congruence].
      - split; intros (r & R & _); discriminate. }
    rewrite X. reflexivity.
  - rewrite EL. intros id I. destruct (LO id I) as [G Dr]. rewrite D. split; [|exact Dr]. destruct (K id) as (_ & _ & X). rewrite G in X. destruct (get id s') as [q|]; [|reflexivity].
    destruct X as (X & _). destruct o; cbn in X; try contradiction. cbn in HA. subst id. congruence.
  - intros id. rewrite TC, T1, <- (TO id). destruct o; try reflexivity. destruct (Z.eqb_spec id0 id) as [->|_]; [|reflexivity]. cbn in HA. symmetry. exact HA.
  - intros id q G O. rewrite Q in O. destruct (K id) as (_ & _ & X). rewrite G in X. destruct (get id s) as [p|] eqn:Gp.
    + destruct X as ((_ & X1 & X2) & X3). rewrite X1, X2. apply (CU id p Gp). destruct O as [O|O]; [|right; exact O]. destruct (p_enabled p) eqn:En; [|left; reflexivity].
      right. rewrite (X3 eq_refl O) in HA. exact HA.
    + destruct X as (_ & (X1 & X2) & _). congruence.
Qed.

Lemma lose_informed : forall h s i s', informed h s -> lose i s = Ok s' -> wf s' -> informed (h ++ [mk_step s (ELose i) []]) s'.
Proof.
  intros h s i s' (W & (v & L & V) & ND & LO & TO & CU) E W1. apply lose_effect in E as (ET & p & G & EL & K).
  assert (Q : queried (h ++ [mk_step s (ELose i) []]) = queried h) by (unfold queried; rewrite fold_left_app; reflexivity).
  assert (D : forall id, dropped id (h ++ [mk_step s (ELose i) []]) = (i =? id) || dropped id h) by (intros; unfold dropped; rewrite fold_left_app; reflexivity).
  assert (T1 : forall id, touching id (h ++ [mk_step s (ELose i) []]) = if i =? id then false else touching id h).
  { intros id. unfold touching. rewrite fold_left_app. reflexivity. }
  assert (LI : forall c, In c (es_lost s') <-> In c (es_lost s) \/ p_prev p = true /\ c = mk_cpair i (p_c1 p) (p_c2 p) true (pair_trigger p s)).
  { intros c. rewrite EL, (W i p G), in_app_iff. destruct (p_prev p); cbn [In]; intuition congruence. }
  split; [exact W1|]. split; [|split; [|split; [|split]]].
  - exists v. split; [apply listen_quiet; exact L|]. intros t id. rewrite V. unfold touches, pending. rewrite K. split.
    + intros [(q & Gq & Pr & T)|(c & I & Ec & Et)].
      * destruct (Z.eqb_spec id i) as [->|N].
        -- right. rewrite G in Gq. injection Gq as <-. eexists. split; [apply LI; right; split; [exact Pr|reflexivity]|]. cbn. auto.
        -- left. exists q. split; [exact Gq|]. split; [exact Pr|]. rewrite (same_trigger q q s s' ET eq_refl eq_refl). exact T.
      * right. exists c. split; [apply LI; left; exact I|]. auto.
    + intros [(q & Gq & Pr & T)|(c & I & Ec & Et)].
      * destruct (Z.eqb_spec id i); [discriminate|]. left. exists q. split; [exact Gq|]. split; [exact Pr|]. rewrite <- (same_trigger q q s s' ET eq_refl eq_refl). exact T.
      * apply LI in I as [I|[Pr ->]]; [right; exists c; auto|]. cbn in Ec, Et. subst id t. left. exists p. auto.
  - rewrite EL, map_app. apply NoDup_app_intro; [exact ND|destruct (p_prev p); repeat constructor; intros []|].
    intros x I1 I2. destruct (p_prev p); [|destruct I2]. destruct I2 as [<-|[]]. cbn [cp_id] in I1. rewrite (W i p G) in I1. apply LO in I1 as [X _]. congruence.
  - intros id I. rewrite K, D. rewrite EL, map_app in I. apply in_app_or in I as [I|I].
    + destruct (LO id I) as [X Y]. rewrite X, Y, orb_true_r. destruct (id =? i); auto.
    + destruct (p_prev p); [|destruct I]. destruct I as [<-|[]]. cbn [cp_id]. rewrite (W i p G), Z.eqb_refl. auto.
  - intros id. rewrite T1, K, (Z.eqb_sym i id). destruct (id =? i); [reflexivity|apply TO].
  - intros id q Gq O. rewrite K in Gq. destruct (id =? i); [discriminate|]. rewrite Q in O. exact (CU id q Gq O).
Qed.

Lemma trigger_informed : forall h s c b, informed h s -> harmless h (mk_step s (ETrigger c b) []) ->
  informed (h ++ [mk_step s (ETrigger c b) []]) (set_trigger c b s).
Proof.
  intros h s c b (W & (v & L & V) & ND & LO & TO & CU) HA.
  assert (Q : queried (h ++ [mk_step s (ETrigger c b) []]) = queried h) by (unfold queried; rewrite fold_left_app; reflexivity).
  assert (D : forall id, dropped id (h ++ [mk_step s (ETrigger c b) []]) = dropped id h) by (intros; unfold dropped; rewrite fold_left_app; reflexivity).
  assert (T1 : forall id, touching id (h ++ [mk_step s (ETrigger c b) []]) = touching id h) by (intros id; unfold touching; rewrite fold_left_app; reflexivity).
  assert (IT : forall x, x <> c -> is_trigger x (set_trigger c b s) = is_trigger x s).
  { intros x N. unfold is_trigger, set_trigger. cbn [es_trigger].
    assert (F : existsb (Z.eqb x) (filter (fun y => negb (y =? c)) (es_trigger s)) = existsb (Z.eqb x) (es_trigger s)).
    { induction (es_trigger s) as [|y l IH]; [reflexivity|]. cbn [filter]. destruct (Z.eqb_spec y c) as [->|N']; cbn [negb existsb].
      - rewrite IH. destruct (Z.eqb_spec x c); [contradiction|reflexivity].
      - rewrite IH. reflexivity. }
    destruct b; [cbn [existsb]; destruct (Z.eqb_spec x c); [contradiction|]; exact F|exact F]. }
  assert (PT : forall id p, get id s = Some p -> p_prev p = true -> pair_trigger p (set_trigger c b s) = pair_trigger p s).
  { intros id p G Pr. pose proof (TO id) as X. rewrite G, Pr in X. cbn in HA. specialize (HA id p G). destruct (involves c p) eqn:IV; [specialize (HA eq_refl); congruence|].
    unfold involves in IV. apply orb_false_elim in IV as [I1 I2]. apply Z.eqb_neq in I1, I2. unfold pair_trigger. rewrite !IT by assumption. reflexivity. }
  split; [exact W|]. split; [|split; [exact ND|split; [|split]]].
  - exists v. split; [apply listen_quiet; exact L|]. intros t id. rewrite V. unfold touches, pending. change (get id (set_trigger c b s)) with (get id s). change (es_lost (set_trigger c b s)) with (es_lost s).
    split; (intros [(p & G & Pr & T)|X]; [left; exists p; split; [exact G|]; split; [exact Pr|]|right; exact X]).
    + rewrite (PT id p G Pr). exact T.
    + rewrite <- (PT id p G Pr). exact T.
  - intros id I. rewrite D. exact (LO id I).
  - intros id. rewrite T1. exact (TO id).
  - intros id p G O. rewrite Q in O. exact (CU id p G O).
Qed.

Lemma query_informed : forall h s w f s', informed h s -> query w f s = Ok s' -> wf s' -> informed (h ++ [mk_step s (EQuery w f) []]) s'.
Proof.
  intros h s w f s' (W & (v & L & V) & ND & LO & TO & CU) E W1. destruct (query_effect w f s) as (s1 & x & E1 & EL & ET & K). rewrite E in E1. injection E1 as <-.
  assert (D : forall id, dropped id (h ++ [mk_step s (EQuery w f) []]) = dropped id h) by (intros; unfold dropped; rewrite fold_left_app; reflexivity).
  assert (T1 : forall id, touching id (h ++ [mk_step s (EQuery w f) []]) = touching id h) by (intros id; unfold touching; rewrite fold_left_app; reflexivity).
  assert (Q : queried (h ++ [mk_step s (EQuery w f) []]) = true) by (unfold queried; rewrite fold_left_app; reflexivity).
  set (g := fun id p => if p_enabled p then with_flags (p_prev p) (x id p) p else p) in *.
  assert (GP : forall id p, p_prev (g id p) = p_prev p /\ p_enabled (g id p) = p_enabled p /\ pair_trigger (g id p) s' = pair_trigger p s).
  { intros id p. unfold g. destruct (p_enabled p) eqn:En; cbn; rewrite ?En; (split; [reflexivity|]; split; [reflexivity|]; apply same_trigger; [exact ET|reflexivity|reflexivity]). }
  split; [exact W1|]. split; [|split; [rewrite EL; exact ND|split; [|split]]].
  - exists v. split; [apply listen_quiet; exact L|]. intros t id. rewrite V. unfold touches, pending. rewrite EL, K. split.
    + intros [(p & G & Pr & T)|X]; [left|right; exact X]. rewrite G. cbn [option_map]. exists (g id p). destruct (GP id p) as (-> & _ & ->). auto.
    + intros [(q & G & Pr & T)|X]; [left|right; exact X]. destruct (get id s) as [p|]; [|discriminate]. cbn [option_map] in G. injection G as <-. exists p. change (if p_enabled p then with_flags (p_prev p) (x id p) p else p) with (g id p) in *. destruct (GP id p) as (Y & _ & Z). rewrite Y in Pr. rewrite Z in T. auto.
  - rewrite EL. intros id I. rewrite D, K. destruct (LO id I) as [-> ?]. auto.
  - intros id. rewrite T1, K, TO. destruct (get id s) as [p|]; [|reflexivity]. cbn [option_map]. symmetry. apply (GP id p).
  - intros id q G [O|O]; [|congruence]. rewrite K in G. destruct (get id s) as [p|] eqn:Gp; [|discriminate]. cbn [option_map] in G. injection G as <-. destruct (p_enabled p) eqn:En; cbn in O; [congruence|]. exact (CU id p Gp (or_introl En)).
Qed.

Lemma history_snoc : forall h s st s2, history s (h ++ [st]) s2 -> history s h (before st) /\ estep (before st) (what st) = Ok (s2, told st).
Proof.
  induction h as [|a h IH]; intros s st s2 H; cbn [app] in H; inversion H; subst.
  - match goal with X : history _ [] _ |- _ => inversion X; subst end. split; [constructor|assumption].
  - destruct (IH _ _ _ H5) as [A B]. split; [|exact B]. econstructor; eassumption.
Qed.
Lemma orderly_informed : forall h s, history init_estate h s -> orderly h -> informed h s.
Proof.
  induction h as [|st h IH] using rev_ind; intros s H O.
  - inversion H; subst. exact informed_init.
  - destruct (history_snoc _ _ _ _ H) as [H1 E]. assert (I1 : informed h (before st)).
    { apply IH; [exact H1|]. intros h1 st' h2 Eh. apply (O h1 st' (h2 ++ [st])). rewrite Eh, <- app_assoc. reflexivity. }
    pose proof (O h st [] eq_refl) as HA. destruct st as [b op evs]. cbn [before what told] in *. pose proof (step_wf b op s evs (proj1 I1) E) as W1.
    destruct op as [o|i|c v|w f|hit woken]; cbn [estep] in E.
    + destruct (call_allowed o) eqn:A; cbn [check bind] in E; [|discriminate]. destruct (on_pairs o b) as [s1| |] eqn:EE; try discriminate. cbn [bind] in E. injection E as <- <-. apply call_informed; assumption.
    + destruct (lose i b) as [s1| |] eqn:EE; try discriminate. cbn [bind] in E. injection E as <- <-. apply lose_informed; assumption.
    + injection E as <- <-. apply trigger_informed; assumption.
    + destruct (query w f b) as [s1| |] eqn:EE; try discriminate. cbn [bind] in E. injection E as <- <-. apply query_informed; assumption.
    + apply update_informed; assumption.
Qed.

(** A pair that waits to be reported as lost has been dropped since the last update. *)
Lemma lost_dropped : forall h s id, history init_estate h s -> In id (map cp_id (es_lost s)) -> dropped id h = true.
Proof.
  induction h as [|st h IH] using rev_ind; intros s id H I.
  - inversion H; subst. destruct I.
  - destruct (history_snoc _ _ _ _ H) as [H1 E]. destruct st as [b op evs]. cbn [before what told] in *. pose proof (history_wf _ _ _ H1 init_wf) as W.
    unfold dropped. rewrite fold_left_app. cbn [fold_left what]. change (fold_left _ h false) with (dropped id h).
    destruct op as [o|i|c v|w f|hit woken]; cbn [estep] in E.
    + destruct (call_allowed o) eqn:A; cbn [check bind] in E; [|discriminate]. destruct (on_pairs o b) as [s1| |] eqn:EE; try discriminate. cbn [bind] in E. injection E as <- <-.
      destruct (call_effect b o s1 id EE A) as (EL & _). rewrite EL in I. exact (IH b id H1 I).
    + destruct (lose i b) as [s1| |] eqn:EE; try discriminate. cbn [bind] in E. injection E as <- <-. apply lose_effect in EE as (_ & p & G & EL & _). rewrite EL, map_app in I. apply in_app_or in I as [I|I].
      * rewrite (IH b id H1 I). apply orb_true_r.
      * destruct (p_prev p); [|destruct I]. destruct I as [<-|[]]. cbn [cp_id]. rewrite (W i p G), Z.eqb_refl. reflexivity.
    + injection E as <- <-. exact (IH b id H1 I).
    + destruct (query_effect w f b) as (s1 & x & EE & EL & _). rewrite EE in E. cbn [bind] in E. injection E as <- <-. rewrite EL in I. exact (IH b id H1 I).
    + destruct (update_effect hit woken b W) as (s1 & ev1 & cs & lost & EE & L0 & _). rewrite EE in E. injection E as <- <-. rewrite L0 in I. destruct I.
Qed.

(** Concrete histories. *)
Fixpoint play (s : estate) (ops : list eop) : res (list step * estate) :=
  match ops with
  | [] => Ok ([], s)
  | op :: ops' => let* (s1, evs) := estep s op in let* (h, s2) := play s1 ops' in Ok (mk_step s op evs :: h, s2)
  end.
Lemma play_history : forall ops s h s', play s ops = Ok (h, s') -> history s h s'.
Proof.
  induction ops as [|op ops IH]; intros s h s' H; cbn [play] in H; [injection H as <- <-; constructor|].
  destruct (estep s op) as [[s1 evs]| |] eqn:E; try discriminate. cbn [bind] in H. destruct (play s1 ops) as [[h1 s2]| |] eqn:P; try discriminate. cbn [bind] in H. injection H as <- <-.
  econstructor; [exact E|]. apply IH. exact P.
Qed.
