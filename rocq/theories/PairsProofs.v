(** Proofs about the pair storage. *)
From Verif Require Import Base HashSpec Lists BitsModel ComponentsProofs PairsModel PairsSpec.
Open Scope Z_scope.

Definition content (s : pstore) (id : Z) : option pair :=
  match lookup Z.eqb id (s_map s) with Some i => znth (s_arr s) i | None => None end.
Definition SInv (s : pstore) : Prop :=
  forall id i, lookup Z.eqb id (s_map s) = Some i <-> exists p, znth (s_arr s) i = Some p /\ p_id p = id.

Lemma has_lookup : forall V (k : Z) (m : list (Z * V)), has Z.eqb k m = match lookup Z.eqb k m with Some _ => true | None => false end.
Proof. reflexivity. Qed.

Lemma sinv_map : forall s id i, SInv s -> lookup Z.eqb id (s_map s) = Some i -> exists p, znth (s_arr s) i = Some p /\ p_id p = id /\ content s id = Some p.
Proof. intros s id i H L. destruct (proj1 (H _ _) L) as (p & A & B). exists p. unfold content. rewrite L. auto. Qed.
Lemma sinv_content : forall s id p, SInv s -> content s id = Some p -> exists i, lookup Z.eqb id (s_map s) = Some i /\ znth (s_arr s) i = Some p /\ p_id p = id.
Proof.
  intros s id p H C. unfold content in C. destruct (lookup Z.eqb id (s_map s)) as [i|] eqn:L; [|discriminate].
  exists i. destruct (proj1 (H _ _) L) as (q & A & B). split; [reflexivity|]. split; [exact C|]. congruence.
Qed.
Lemma content_none : forall s id, SInv s -> content s id = None -> lookup Z.eqb id (s_map s) = None.
Proof. intros s id H C. destruct (lookup Z.eqb id (s_map s)) as [i|] eqn:L; [|reflexivity]. destruct (sinv_map _ _ _ H L) as (p & _ & _ & D). congruence. Qed.
Lemma content_has : forall s id, SInv s -> has Z.eqb id (s_map s) = match content s id with Some _ => true | None => false end.
Proof.
  intros s id H. rewrite has_lookup. destruct (content s id) as [p|] eqn:C.
  - destruct (sinv_content _ _ _ H C) as (i & L & _). rewrite L. reflexivity.
  - rewrite (content_none _ _ H C). reflexivity.
Qed.
Lemma content_In : forall s id p, SInv s -> (content s id = Some p <-> In p (s_arr s) /\ p_id p = id).
Proof.
  intros s id p H. split.
  - intros C. destruct (sinv_content _ _ _ H C) as (i & _ & Z & E). split; [eapply znth_In; exact Z|exact E].
  - intros (I & E). apply In_znth in I. destruct I as (i & Z). assert (L : lookup Z.eqb id (s_map s) = Some i) by (apply H; eauto).
    unfold content. rewrite L. exact Z.
Qed.
Lemma sinv_nodup : forall s, SInv s -> NoDup (map p_id (s_arr s)).
Proof.
  intros s H. apply NoDup_znth. intros i j x A B. rewrite znth_map in A, B.
  destruct (znth (s_arr s) i) as [p|] eqn:P; [|discriminate]. destruct (znth (s_arr s) j) as [q|] eqn:Q; [|discriminate].
  cbn in A, B. assert (L1 : lookup Z.eqb x (s_map s) = Some i) by (apply H; exists p; split; congruence).
  assert (L2 : lookup Z.eqb x (s_map s) = Some j) by (apply H; exists q; split; congruence). congruence.
Qed.

Lemma store_add_ok : forall s p, SInv s -> content s (p_id p) = None -> exists s', store_add p s = Ok s' /\ SInv s' /\
  forall id, content s' id = if id =? p_id p then Some p else content s id.
Proof.
  intros s p H C. unfold store_add. rewrite content_has by exact H. rewrite C. cbn [negb check bind].
  eexists. split; [reflexivity|].
  assert (I : SInv {| s_arr := s_arr s ++ [p]; s_map := m_set Z.eqb (p_id p) (zlen (s_arr s)) (s_map s) |}).
  { intros id i. cbn [s_arr s_map]. rewrite lookup_set. destruct (Z.eqb_spec id (p_id p)) as [E|E].
    - split.
      + intros X. injection X as X. subst. exists p. rewrite znth_app2 by lia. rewrite Z.sub_diag. auto.
      + intros (q & Z & Q). pose proof (znth_bounds _ _ _ _ Z) as B. rewrite zlen_app, zlen_cons, zlen_nil in B.
        destruct (Z.eq_dec i (zlen (s_arr s))) as [->|N]; [reflexivity|]. rewrite znth_app1 in Z by lia.
        assert (L : lookup Z.eqb id (s_map s) = Some i) by (apply H; eauto). subst id. rewrite (content_none _ _ H C) in L. discriminate.
    - split.
      + intros L. apply H in L. destruct L as (q & Z & Q). exists q. pose proof (znth_bounds _ _ _ _ Z). rewrite znth_app1 by lia. auto.
      + intros (q & Z & Q). pose proof (znth_bounds _ _ _ _ Z) as B. rewrite zlen_app, zlen_cons, zlen_nil in B.
        destruct (Z.eq_dec i (zlen (s_arr s))) as [->|N].
        * rewrite znth_app2, Z.sub_diag, znth_cons0 in Z by lia. congruence.
        * rewrite znth_app1 in Z by lia. apply H. eauto. }
  split; [exact I|]. intros id. unfold content. cbn [s_arr s_map]. rewrite lookup_set. destruct (Z.eqb_spec id (p_id p)) as [E|E].
  - rewrite znth_app2 by lia. rewrite Z.sub_diag. reflexivity.
  - destruct (lookup Z.eqb id (s_map s)) as [i|] eqn:L; [|reflexivity]. apply H in L. destruct L as (q & Z & _).
    pose proof (znth_bounds _ _ _ _ Z). rewrite znth_app1 by lia. reflexivity.
Qed.

Lemma store_remove_ok : forall s i p, SInv s -> znth (s_arr s) i = Some p -> exists s', store_remove i s = Ok s' /\ SInv s' /\
  forall id, content s' id = if id =? p_id p then None else content s id.
Proof.
  intros s i p H Zi. unfold store_remove. rewrite Zi. cbn [rd bind].
  pose proof (znth_bounds _ _ _ _ Zi) as Bi. set (n := zlen (s_arr s)) in *.
  destruct (swap_delete_ok _ (s_arr s) i Bi) as (a & q & SD & Q & La & Za). fold n in Q, La, Za.
  assert (Lp : lookup Z.eqb (p_id p) (s_map s) = Some i) by (apply H; eauto).
  assert (Lq : lookup Z.eqb (p_id q) (s_map s) = Some (n - 1)) by (apply H; eauto).
  assert (D : i <> n - 1 -> p_id q <> p_id p) by (intros X E; congruence).
  set (m := m_remove Z.eqb (p_id p) (s_map s)).
  assert (M : exists m', (if (1 <? n) && (i <? n - 1) then
               let* q := rd (znth (s_arr s) (n - 1)) in
               let* _ := check (has Z.eqb (p_id q) m) in
               Ok (m_set Z.eqb (p_id q) i m)
             else Ok m) = Ok m' /\
             forall id, lookup Z.eqb id m' = if id =? p_id p then None else
                          match lookup Z.eqb id (s_map s) with Some j => if j =? n - 1 then Some i else Some j | None => None end).
  { destruct ((1 <? n) && (i <? n - 1)) eqn:E.
    - rewrite Q. cbn [rd bind]. assert (N : i <> n - 1) by lia. specialize (D N).
      rewrite has_lookup. unfold m at 1. rewrite lookup_remove. destruct (Z.eqb_spec (p_id q) (p_id p)); [contradiction|]. rewrite Lq. cbn [check bind].
      eexists. split; [reflexivity|]. intros id. rewrite lookup_set. destruct (Z.eqb_spec id (p_id q)) as [->|E2].
      + destruct (Z.eqb_spec (p_id q) (p_id p)); [contradiction|]. rewrite Lq, Z.eqb_refl. reflexivity.
      + unfold m. rewrite lookup_remove. destruct (Z.eqb_spec id (p_id p)); [reflexivity|].
        destruct (lookup Z.eqb id (s_map s)) as [j|] eqn:L; [|reflexivity]. destruct (Z.eqb_spec j (n - 1)) as [->|]; [|reflexivity].
        apply H in L. destruct L as (q' & Zq & E3). congruence.
    - eexists. split; [reflexivity|]. intros id. unfold m. rewrite lookup_remove. destruct (Z.eqb_spec id (p_id p)); [reflexivity|].
      destruct (lookup Z.eqb id (s_map s)) as [j|] eqn:L; [|reflexivity]. destruct (Z.eqb_spec j (n - 1)) as [->|]; [|reflexivity].
      assert (i = n - 1) by lia. subst i. apply H in L. destruct L as (q' & Zq & E3). congruence. }
  destruct M as (m' & M & LM). rewrite M, SD. cbn [bind]. eexists. split; [reflexivity|].
  assert (U : forall j x, znth (s_arr s) j = Some x -> lookup Z.eqb (p_id x) (s_map s) = Some j) by (intros j x X; apply H; eauto).
  assert (I : SInv (mk_pstore a m')).
  { intros id j. cbn [s_arr s_map]. rewrite LM, Za. destruct (Z.eqb_spec id (p_id p)) as [E|E].
    - split; [discriminate|]. intros (x & X & EX). destruct (Z.ltb_spec j (n - 1)); [|discriminate]. destruct (Z.eqb_spec j i) as [->|N].
      + injection X as <-. assert (i <> n - 1) by lia. specialize (D H1). congruence.
      + specialize (U _ _ X). rewrite EX, E, Lp in U. congruence.
    - split.
      + destruct (lookup Z.eqb id (s_map s)) as [k|] eqn:L; [|discriminate]. pose proof L as L0. apply H in L. destruct L as (x & X & EX).
        pose proof (znth_bounds _ _ _ _ X) as Bx. fold n in Bx. destruct (Z.eqb_spec k (n - 1)) as [->|N]; intros Y; injection Y as <-.
        * assert (x = q) by congruence. subst x. assert (i <> n - 1) by (intros ->; congruence). destruct (Z.ltb_spec i (n - 1)); [|lia]. rewrite Z.eqb_refl. eauto.
        * destruct (Z.ltb_spec k (n - 1)); [|lia]. destruct (Z.eqb_spec k i) as [->|]; [congruence|]. eauto.
      + intros (x & X & EX). destruct (Z.ltb_spec j (n - 1)); [|discriminate]. destruct (Z.eqb_spec j i) as [->|N].
        * injection X as <-. subst id. rewrite Lq, Z.eqb_refl. reflexivity.
        * specialize (U _ _ X). rewrite EX in U. rewrite U. destruct (Z.eqb_spec j (n - 1)); [lia|reflexivity]. }
  split; [exact I|]. intros id. unfold content. cbn [s_arr s_map]. rewrite LM. destruct (Z.eqb_spec id (p_id p)) as [E|E]; [reflexivity|].
  destruct (lookup Z.eqb id (s_map s)) as [k|] eqn:L; [|reflexivity]. pose proof L as L0. apply H in L. destruct L as (x & X & EX). pose proof (znth_bounds _ _ _ _ X) as Bx. fold n in Bx.
  destruct (Z.eqb_spec k (n - 1)) as [->|N].
  - assert (i <> n - 1) by (intros ->; congruence). rewrite Za. destruct (Z.ltb_spec i (n - 1)); [|lia]. rewrite Z.eqb_refl. congruence.
  - rewrite Za. destruct (Z.ltb_spec k (n - 1)); [|lia]. destruct (Z.eqb_spec k i) as [->|]; [congruence|reflexivity].
Qed.

Lemma store_write_ok : forall s i p f, SInv s -> znth (s_arr s) i = Some p -> p_id (f p) = p_id p ->
  let s' := mk_pstore (lset (s_arr s) i (f p)) (s_map s) in SInv s' /\ forall id, content s' id = if id =? p_id p then Some (f p) else content s id.
Proof.
  intros s i p f H Z F s'. pose proof (znth_bounds _ _ _ _ Z) as B.
  assert (Lp : lookup Z.eqb (p_id p) (s_map s) = Some i) by (apply H; eauto). split.
  - intros id j. unfold s'. cbn [s_arr s_map]. rewrite znth_lset by exact B. rewrite (H id j). destruct (Z.eqb_spec j i) as [->|N]; [|reflexivity].
    split; intros (x & X & E); [|injection X as <-]; eexists; (split; [first [reflexivity|eassumption]|congruence]).
  - intros id. unfold content, s'. cbn [s_arr s_map]. destruct (Z.eqb_spec id (p_id p)) as [->|E].
    + rewrite Lp, znth_lset, Z.eqb_refl by exact B. reflexivity.
    + destruct (lookup Z.eqb id (s_map s)) as [j|] eqn:L; [|reflexivity]. rewrite znth_lset by exact B. destruct (Z.eqb_spec j i) as [->|]; [|reflexivity].
      apply H in L. destruct L as (x & X & EX). congruence.
Qed.
Lemma store_map_ok : forall s f, SInv s -> (forall p, p_id (f p) = p_id p) ->
  let s' := mk_pstore (map f (s_arr s)) (s_map s) in SInv s' /\ forall id, content s' id = option_map f (content s id).
Proof.
  intros s f H F s'. split.
  - intros id j. unfold s'. cbn [s_arr s_map]. rewrite znth_map, (H id j). destruct (znth (s_arr s) j) as [x|]; cbn [option_map].
    + split; intros (y & Y & E); injection Y as <-; eexists; (split; [reflexivity|]); rewrite ?F in *; congruence.
    + split; intros (y & Y & E); discriminate.
  - intros id. unfold content, s'. cbn [s_arr s_map]. destruct (lookup Z.eqb id (s_map s)); [apply znth_map|reflexivity].
Qed.

(** ** The whole storage *)
Definition pick (k e : bool) (r : option pair) : option pair :=
  match r with Some p => if Bool.eqb (p_concave p) k && Bool.eqb (p_enabled p) e then Some p else None | None => None end.
Definition CollInv (o : pairs) (s : pspec) : Prop :=
  forall c, match lookup Z.eqb c (o_coll o) with
            | Some l => In c (sp_coll s) /\ NoDup l /\ forall id, In id l <-> exists p, lookup Z.eqb id (sp_pairs s) = Some p /\ involves c p = true
            | None => ~ In c (sp_coll s)
            end.
Record PInv (o : pairs) (s : pspec) : Prop := mk_pinv {
  pi_store : forall k e, SInv (sel k e o);
  pi_content : forall k e id, content (sel k e o) id = pick k e (lookup Z.eqb id (sp_pairs s));
  pi_coll : CollInv o s;
  pi_ref : forall id p, lookup Z.eqb id (sp_pairs s) = Some p -> p_id p = id /\ In (p_c1 p) (sp_coll s) /\ In (p_c2 p) (sp_coll s) /\ p_c1 p <> p_c2 p
}.
Arguments pi_store {o s}. Arguments pi_content {o s}. Arguments pi_coll {o s}. Arguments pi_ref {o s}.

Lemma sel_with : forall k e s o k' e', sel k' e' (with_sel k e s o) = if Bool.eqb k k' && Bool.eqb e e' then s else sel k' e' o.
Proof. intros [] [] s o [] []; reflexivity. Qed.
Lemma coll_with_sel : forall k e s o, o_coll (with_sel k e s o) = o_coll o.
Proof. intros [] [] s o; reflexivity. Qed.
Lemma sel_with_coll : forall k e c o, sel k e (with_coll c o) = sel k e o.
Proof. intros [] [] c o; reflexivity. Qed.
Lemma pick_self : forall p, pick (p_concave p) (p_enabled p) (Some p) = Some p.
Proof. intros p. cbn [pick]. rewrite !Bool.eqb_reflx. reflexivity. Qed.
Lemma pick_inv : forall k e r p, pick k e r = Some p -> r = Some p /\ p_concave p = k /\ p_enabled p = e.
Proof.
  intros k e [q|] p H; [|discriminate]. cbn [pick] in H. destruct (Bool.eqb (p_concave q) k && Bool.eqb (p_enabled q) e) eqn:E; [|discriminate].
  injection H as <-. apply andb_prop in E. destruct E as (A & B). apply Bool.eqb_prop in A, B. auto.
Qed.

(** Where a pair is found. *)
Lemma find_ok : forall o s id, PInv o s ->
  match lookup Z.eqb id (sp_pairs s) with
  | Some p => exists i, find_pair id o = Some (p_concave p, p_enabled p, i) /\ znth (s_arr (sel (p_concave p) (p_enabled p) o)) i = Some p /\
                lookup Z.eqb id (s_map (sel (p_concave p) (p_enabled p) o)) = Some i /\
                (forall k e, (k, e) <> (p_concave p, p_enabled p) -> lookup Z.eqb id (s_map (sel k e o)) = None)
  | None => forall k e, lookup Z.eqb id (s_map (sel k e o)) = None
  end.
Proof.
  intros o s id I. destruct (lookup Z.eqb id (sp_pairs s)) as [p|] eqn:L.
  - assert (N : forall k e, (k, e) <> (p_concave p, p_enabled p) -> lookup Z.eqb id (s_map (sel k e o)) = None).
    { intros k e D. apply content_none; [apply (pi_store I)|]. rewrite (pi_content I), L. cbn [pick].
      destruct (Bool.eqb (p_concave p) k) eqn:A; [|reflexivity]. destruct (Bool.eqb (p_enabled p) e) eqn:B; [|reflexivity].
      apply Bool.eqb_prop in A, B. congruence. }
    assert (C : content (sel (p_concave p) (p_enabled p) o) id = Some p) by (rewrite (pi_content I), L; apply pick_self).
    destruct (sinv_content _ _ _ (pi_store I _ _) C) as (i & M & Z & E). exists i. splits; [|exact Z|exact M|exact N].
    unfold find_pair. pose proof (N false true) as N1. pose proof (N true true) as N2. pose proof (N false false) as N3. pose proof (N true false) as N4. cbn [sel] in *.
    destruct (p_concave p), (p_enabled p); cbn [sel] in M; rewrite ?N1, ?N2, ?N3, ?N4 by discriminate; rewrite M; reflexivity.
  - intros k e. apply content_none; [apply (pi_store I)|]. rewrite (pi_content I), L. reflexivity.
Qed.
Lemma find_none : forall o s id, PInv o s -> lookup Z.eqb id (sp_pairs s) = None -> find_pair id o = None.
Proof.
  intros o s id I L. pose proof (find_ok o s id I) as F. rewrite L in F. unfold find_pair.
  pose proof (F false true) as A. pose proof (F true true) as B. pose proof (F false false) as C. pose proof (F true false) as D. cbn [sel] in *.
  rewrite A, B, C, D. reflexivity.
Qed.

Lemma coll_inv_ext : forall o o' s s', o_coll o' = o_coll o -> sp_coll s' = sp_coll s ->
  (forall id c, (exists p, lookup Z.eqb id (sp_pairs s') = Some p /\ involves c p = true) <-> (exists p, lookup Z.eqb id (sp_pairs s) = Some p /\ involves c p = true)) ->
  CollInv o s -> CollInv o' s'.
Proof.
  intros o o' s s' E1 E2 E3 H c. specialize (H c). rewrite E1, E2. destruct (lookup Z.eqb c (o_coll o)) as [l|]; [|exact H].
  destruct H as (A & B & C). split; [exact A|]. split; [exact B|]. intros id. rewrite C, E3. reflexivity.
Qed.

(** Rewriting one pair. *)
Lemma involves_eq : forall c p q, p_c1 p = p_c1 q -> p_c2 p = p_c2 q -> involves c p = involves c q.
Proof. intros c p q A B. unfold involves. rewrite A, B. reflexivity. Qed.
Lemma replace_coll : forall o s s' id p q, CollInv o s -> lookup Z.eqb id (sp_pairs s) = Some p -> p_c1 q = p_c1 p -> p_c2 q = p_c2 p ->
  sp_coll s' = sp_coll s -> sp_pairs s' = m_set Z.eqb id q (sp_pairs s) -> CollInv o s'.
Proof.
  intros o s s' id p q H L A B E1 E2. apply (coll_inv_ext o o s s' eq_refl E1); [|exact H]. intros id' c. rewrite E2, lookup_set.
  destruct (Z.eqb_spec id' id) as [->|N]; [|reflexivity]. rewrite L.
  split; intros (x & X & V); injection X as <-; eexists; (split; [reflexivity|]); erewrite involves_eq; [exact V|congruence|congruence|exact V|congruence|congruence].
Qed.

Lemma write_ok : forall o s id p i f, PInv o s -> lookup Z.eqb id (sp_pairs s) = Some p -> znth (s_arr (sel (p_concave p) (p_enabled p) o)) i = Some p ->
  (forall x, p_id (f x) = p_id x /\ p_c1 (f x) = p_c1 x /\ p_c2 (f x) = p_c2 x /\ p_concave (f x) = p_concave x /\ p_enabled (f x) = p_enabled x) ->
  PInv (with_sel (p_concave p) (p_enabled p) (mk_pstore (lset (s_arr (sel (p_concave p) (p_enabled p) o)) i (f p)) (s_map (sel (p_concave p) (p_enabled p) o))) o)
       (mk_pspec (m_set Z.eqb id (f p) (sp_pairs s)) (sp_coll s)).
Proof.
  intros o s id p i f I L Z F. set (k := p_concave p) in *. set (e := p_enabled p) in *.
  destruct (pi_ref I _ _ L) as (R1 & R2 & R3 & R4). destruct (F p) as (F1 & F2 & F3 & F4 & F5).
  destruct (store_write_ok _ _ _ f (pi_store I k e) Z F1) as (S & C). constructor.
  - intros k' e'. rewrite sel_with. destruct (Bool.eqb k k' && Bool.eqb e e'); [exact S|apply (pi_store I)].
  - intros k' e' id'. rewrite sel_with. cbn [sp_pairs]. rewrite lookup_set. destruct (Bool.eqb k k' && Bool.eqb e e') eqn:E.
    + rewrite C, R1. apply andb_prop in E. destruct E as (E1 & E2). apply Bool.eqb_prop in E1, E2. subst k' e'.
      destruct (id' =? id); [|apply (pi_content I)]. unfold k, e. rewrite <- F4, <- F5. symmetry. apply pick_self.
    + rewrite (pi_content I). destruct (Z.eqb_spec id' id) as [->|]; [|reflexivity]. rewrite L. cbn [pick]. rewrite F4, F5. fold k e. rewrite E. reflexivity.
  - refine (replace_coll _ s (mk_pspec (m_set Z.eqb id (f p) (sp_pairs s)) (sp_coll s)) id p (f p) _ L F2 F3 eq_refl eq_refl). apply (coll_inv_ext o _ s s); [apply coll_with_sel|reflexivity|reflexivity|apply (pi_coll I)].
  - cbn [sp_pairs sp_coll]. intros id' q Q. rewrite lookup_set in Q. destruct (Z.eqb_spec id' id) as [->|]; [|exact (pi_ref I _ _ Q)].
    injection Q as <-. rewrite F1, F2, F3. auto.
Qed.

Lemma map_enabled_ok : forall o s f, PInv o s ->
  (forall x, p_id (f x) = p_id x /\ p_c1 (f x) = p_c1 x /\ p_c2 (f x) = p_c2 x /\ p_concave (f x) = p_concave x /\ p_enabled (f x) = p_enabled x) ->
  PInv (map_enabled f o) (mk_pspec (map (fun e => (fst e, if p_enabled (snd e) then f (snd e) else snd e)) (sp_pairs s)) (sp_coll s)).
Proof.
  intros o s f I F.
  assert (LM : forall id, lookup Z.eqb id (map (fun e => (fst e, if p_enabled (snd e) then f (snd e) else snd e)) (sp_pairs s)) =
    option_map (fun p => if p_enabled p then f p else p) (lookup Z.eqb id (sp_pairs s))).
  { intros id. induction (sp_pairs s) as [|[a v] m IH]; [reflexivity|]. cbn [map lookup fst snd]. destruct (a =? id); [reflexivity|exact IH]. }
  assert (Fid : forall x, p_id (f x) = p_id x) by (intros x; apply F).
  constructor.
  - intros [] []; cbn [sel map_enabled o_convex o_concave o_dconvex o_dconcave]; first [apply store_map_ok; [|exact Fid]|idtac];
    first [exact (pi_store I true true)|exact (pi_store I true false)|exact (pi_store I false true)|exact (pi_store I false false)].
  - intros k e id. cbn [sp_pairs]. rewrite LM. pose proof (pi_content I k e id) as C.
    assert (X : content (sel k e (map_enabled f o)) id = if e then option_map f (content (sel k e o) id) else content (sel k e o) id).
    { destruct e, k; cbn [sel map_enabled o_convex o_concave o_dconvex o_dconcave]; try reflexivity; apply store_map_ok; try exact Fid; [exact (pi_store I true true)|exact (pi_store I false true)]. }
    rewrite X, C. destruct (lookup Z.eqb id (sp_pairs s)) as [p|]; [|destruct e; reflexivity]. cbn [option_map pick].
    destruct (F p) as (F1 & F2 & F3 & F4 & F5). destruct (p_enabled p) eqn:EP.
    + rewrite F4, F5, ?EP. destruct (Bool.eqb (p_concave p) k); destruct e; reflexivity.
    + rewrite EP. destruct (Bool.eqb (p_concave p) k); destruct e; reflexivity.
  - apply (coll_inv_ext o _ s); [reflexivity|reflexivity| |apply (pi_coll I)]. intros id c. cbn [sp_pairs]. rewrite LM.
    destruct (lookup Z.eqb id (sp_pairs s)) as [p|]; cbn [option_map]; [|reflexivity]. destruct (F p) as (_ & F2 & F3 & _).
    split; intros (x & X & V); injection X as <-; eexists; (split; [reflexivity|]); destruct (p_enabled p); try exact V;
    (erewrite involves_eq; [exact V|congruence|congruence]).
  - cbn [sp_pairs sp_coll]. intros id q Q. rewrite LM in Q. destruct (lookup Z.eqb id (sp_pairs s)) as [p|] eqn:L; [|discriminate]. injection Q as <-.
    destruct (pi_ref I _ _ L) as (R1 & R2 & R3 & R4). destruct (F p) as (F1 & F2 & F3 & _). destruct (p_enabled p); rewrite ?F1, ?F2, ?F3; auto.
Qed.

(** Moving a pair between the enabled and disabled arrays. *)
Lemma move_ok : forall o s id p i, PInv o s -> lookup Z.eqb id (sp_pairs s) = Some p -> znth (s_arr (sel (p_concave p) (p_enabled p) o)) i = Some p ->
  exists o', move_with_index (p_concave p) (negb (p_enabled p)) i o = Ok o' /\
    PInv o' (mk_pspec (m_set Z.eqb id (set_enabled (negb (p_enabled p)) p) (sp_pairs s)) (sp_coll s)).
Proof.
  intros o s id p i I L Z. destruct (pi_ref I _ _ L) as (R1 & R2 & R3 & R4). set (k := p_concave p) in *. set (e := p_enabled p) in *.
  unfold move_with_index. rewrite Bool.negb_involutive, Z. cbn [rd bind].
  set (q := with_flags (p_prev p) (p_cur p) (new_pair (p_id p) (p_b1 p) (p_b2 p) (p_c1 p) (p_c2 p) (negb e) k)).
  assert (EQ : set_enabled (negb e) p = q) by reflexivity.
  destruct (store_add_ok (sel k (negb e) o) q (pi_store I _ _)) as (s1 & A & I1 & C1).
  { change (p_id q) with (p_id p). rewrite (pi_content I), R1, L. cbn [pick]. fold k e. destruct k, e; reflexivity. }
  rewrite A. cbn [bind]. unfold remove_with_index.
  assert (SE : sel k e (with_sel k (negb e) s1 o) = sel k e o) by (rewrite sel_with; destruct k, e; reflexivity).
  rewrite SE, Z. cbn [rd bind]. rewrite SE. destruct (store_remove_ok _ _ _ (pi_store I k e) Z) as (s2 & B & I2 & C2). rewrite B. cbn [bind].
  eexists. split; [reflexivity|]. rewrite EQ.
  assert (SS : forall k' e', sel k' e' (with_sel k e s2 (with_sel k (negb e) s1 o)) = if Bool.eqb k k' then if Bool.eqb e e' then s2 else s1 else sel k' e' o).
  { intros k' e'. rewrite !sel_with. destruct k, e, k', e'; reflexivity. }
  constructor.
  - intros k' e'. rewrite SS. destruct (Bool.eqb k k'); [|apply (pi_store I)]. destruct (Bool.eqb e e'); assumption.
  - intros k' e' id'. rewrite SS. cbn [sp_pairs]. rewrite lookup_set. destruct (Bool.eqb k k') eqn:EK.
    + apply Bool.eqb_prop in EK. subst k'. destruct (Bool.eqb e e') eqn:EE.
      * apply Bool.eqb_prop in EE. subst e'. rewrite C2, R1. destruct (Z.eqb_spec id' id) as [->|]; [|apply (pi_content I)].
        cbn [pick]. change (p_concave q) with k. change (p_enabled q) with (negb e). destruct k, e; reflexivity.
      * assert (e' = negb e) by (destruct e, e'; (discriminate || reflexivity)). subst e'. rewrite C1. change (p_id q) with (p_id p). rewrite R1.
        destruct (Z.eqb_spec id' id) as [->|]; [|apply (pi_content I)]. symmetry. apply (pick_self q).
    + rewrite (pi_content I). destruct (Z.eqb_spec id' id) as [->|]; [|reflexivity]. rewrite L. cbn [pick]. change (p_concave q) with k. fold k. rewrite EK. reflexivity.
  - refine (replace_coll _ s (mk_pspec (m_set Z.eqb id q (sp_pairs s)) (sp_coll s)) id p q _ L eq_refl eq_refl eq_refl eq_refl). apply (coll_inv_ext o _ s s); [rewrite !coll_with_sel; reflexivity|reflexivity|reflexivity|apply (pi_coll I)].
  - cbn [sp_pairs sp_coll]. intros id' x X. rewrite lookup_set in X. destruct (Z.eqb_spec id' id) as [->|]; [|exact (pi_ref I _ _ X)].
    injection X as <-. cbn. auto.
Qed.

(** Removing a pair. *)
Lemma remove_at_ok : forall o s id p i, PInv o s -> lookup Z.eqb id (sp_pairs s) = Some p -> znth (s_arr (sel (p_concave p) (p_enabled p) o)) i = Some p ->
  exists o', remove_with_index (p_concave p) (p_enabled p) i true o = Ok o' /\ PInv o' (mk_pspec (m_remove Z.eqb id (sp_pairs s)) (sp_coll s)).
Proof.
  intros o s id p i I L Z. destruct (pi_ref I _ _ L) as (R1 & R2 & R3 & R4). set (k := p_concave p) in *. set (e := p_enabled p) in *.
  unfold remove_with_index. rewrite Z. cbn [rd bind]. unfold coll_remove, coll_get.
  pose proof (pi_coll I (p_c1 p)) as K1. pose proof (pi_coll I (p_c2 p)) as K2.
  destruct (lookup Z.eqb (p_c1 p) (o_coll o)) as [l1|] eqn:L1; [|contradiction]. destruct (lookup Z.eqb (p_c2 p) (o_coll o)) as [l2|] eqn:L2; [|contradiction].
  destruct K1 as (_ & N1 & M1). destruct K2 as (_ & N2 & M2). rewrite R1.
  assert (J1 : In id l1) by (apply M1; exists p; split; [exact L|unfold involves; rewrite Z.eqb_refl; reflexivity]).
  assert (J2 : In id l2) by (apply M2; exists p; split; [exact L|unfold involves; rewrite Z.eqb_refl, Bool.orb_true_r; reflexivity]).
  destruct (remove_value_ok id l1 J1 N1) as (l1' & V1 & N1' & M1'). destruct (remove_value_ok id l2 J2 N2) as (l2' & V2 & N2' & M2').
  cbn [rd bind]. rewrite V1. cbn [bind with_coll o_coll]. rewrite lookup_set. destruct (Z.eqb_spec (p_c2 p) (p_c1 p)) as [X|_]; [congruence|]. rewrite L2. cbn [rd bind]. rewrite V2. cbn [bind].
  match goal with |- context [store_remove i (sel k e ?O)] => set (o1 := O) end.
  assert (SE : forall k e, sel k e o1 = sel k e o) by (intros; unfold o1; rewrite !sel_with_coll; reflexivity).
  rewrite SE. destruct (store_remove_ok _ _ _ (pi_store I k e) Z) as (s2 & B & I2 & C2). rewrite B. cbn [bind].
  eexists. split; [reflexivity|]. constructor.
  - intros k' e'. rewrite sel_with. destruct (Bool.eqb k k' && Bool.eqb e e'); [exact I2|rewrite SE; apply (pi_store I)].
  - intros k' e' id'. rewrite sel_with. cbn [sp_pairs]. rewrite lookup_remove. destruct (Bool.eqb k k' && Bool.eqb e e') eqn:E.
    + apply andb_prop in E. destruct E as (E1 & E2). apply Bool.eqb_prop in E1, E2. subst k' e'. rewrite C2, R1. destruct (id' =? id); [reflexivity|apply (pi_content I)].
    + rewrite SE, (pi_content I). destruct (Z.eqb_spec id' id) as [->|]; [|reflexivity]. rewrite L. cbn [pick]. fold k e. rewrite E. reflexivity.
  - intros c. rewrite coll_with_sel. unfold o1. cbn [with_coll o_coll]. rewrite !lookup_set. cbn [sp_pairs sp_coll].
    assert (G : forall l l', (forall id0, In id0 l <-> exists p0, lookup Z.eqb id0 (sp_pairs s) = Some p0 /\ involves c p0 = true) ->
      (forall y, In y l' <-> In y l /\ y <> id) ->
      forall id0, In id0 l' <-> exists p0, lookup Z.eqb id0 (m_remove Z.eqb id (sp_pairs s)) = Some p0 /\ involves c p0 = true).
    { intros l l' ML ML' id0. rewrite ML', ML, lookup_remove. destruct (Z.eqb_spec id0 id) as [->|N]; [|tauto].
      split; [intros (_ & X); congruence|intros (x & X & _); discriminate]. }
    destruct (Z.eqb_spec c (p_c2 p)) as [->|Nc2]; [split; [exact R3|]; split; [exact N2'|]; eapply G; eassumption|].
    destruct (Z.eqb_spec c (p_c1 p)) as [->|Nc1]; [split; [exact R2|]; split; [exact N1'|]; eapply G; eassumption|].
    pose proof (pi_coll I c) as K. destruct (lookup Z.eqb c (o_coll o)) as [l|]; [|exact K]. destruct K as (Ka & Kb & Kc). split; [exact Ka|]. split; [exact Kb|].
    intros id0. rewrite Kc, lookup_remove. destruct (Z.eqb_spec id0 id) as [->|]; [|reflexivity]. split; [|intros (x & X & _); discriminate].
    intros (x & X & V). rewrite L in X. injection X as <-. unfold involves in V. destruct (Z.eqb_spec (p_c1 p) c); [congruence|]. destruct (Z.eqb_spec (p_c2 p) c); [congruence|discriminate].
  - cbn [sp_pairs sp_coll]. intros id' x X. rewrite lookup_remove in X. destruct (Z.eqb_spec id' id); [discriminate|]. exact (pi_ref I _ _ X).
Qed.

(** Adding a pair. *)
Lemma existsb_in : forall c l, existsb (Z.eqb c) l = true <-> In c l.
Proof. intros c l. rewrite existsb_exists. split; [intros (x & A & B); apply Z.eqb_eq in B; subst; exact A|intros A; exists c; split; [exact A|apply Z.eqb_refl]]. Qed.
Lemma NoDup_snoc : forall (x : Z) l, NoDup l -> ~ In x l -> NoDup (l ++ [x]).
Proof.
  intros x. induction l as [|a l IH]; intros N NI; cbn [app]; [constructor; [auto|constructor]|].
  inversion N as [|? ? A B]; subst. constructor; [|apply IH; [exact B|intros X; apply NI; right; exact X]].
  intros X. apply in_app_or in X. destruct X as [X|[X|[]]]; [auto|]. apply NI. left. auto.
Qed.
Lemma add_ok : forall o s c1 b1 c2 b2 cv, PInv o s -> lookup Z.eqb (pair_id b1 b2) (sp_pairs s) = None -> c1 <> c2 -> In c1 (sp_coll s) -> In c2 (sp_coll s) ->
  exists o', add_pair c1 b1 c2 b2 cv o = Ok (o', pair_id b1 b2) /\
    PInv o' (mk_pspec (m_set Z.eqb (pair_id b1 b2) (new_pair (pair_id b1 b2) b1 b2 c1 c2 true (negb cv)) (sp_pairs s)) (sp_coll s)).
Proof.
  intros o s c1 b1 c2 b2 cv I L D A1 A2. unfold add_pair. set (id := pair_id b1 b2) in *. set (q := new_pair id b1 b2 c1 c2 true (negb cv)). set (k := negb cv) in *.
  destruct (store_add_ok (sel k true o) q (pi_store I _ _)) as (s1 & A & I1 & C1); [rewrite (pi_content I); change (p_id q) with id; rewrite L; reflexivity|].
  rewrite A. cbn [bind]. unfold coll_add, coll_get. rewrite coll_with_sel.
  pose proof (pi_coll I c1) as K1. pose proof (pi_coll I c2) as K2.
  destruct (lookup Z.eqb c1 (o_coll o)) as [l1|] eqn:L1; [|contradiction]. destruct (lookup Z.eqb c2 (o_coll o)) as [l2|] eqn:L2; [|contradiction].
  cbn [rd bind with_coll o_coll]. rewrite lookup_set. destruct (Z.eqb_spec c2 c1) as [X|_]; [congruence|]. rewrite L2. cbn [rd bind].
  match goal with |- context [Ok (?O, id)] => set (o1 := O) end. exists o1. split; [reflexivity|].
  assert (SE : forall k' e', sel k' e' o1 = if Bool.eqb k k' && Bool.eqb true e' then s1 else sel k' e' o) by (intros; unfold o1; rewrite !sel_with_coll, sel_with; reflexivity).
  constructor.
  - intros k' e'. rewrite SE. destruct (Bool.eqb k k' && Bool.eqb true e'); [exact I1|apply (pi_store I)].
  - intros k' e' id'. rewrite SE. cbn [sp_pairs]. rewrite lookup_set. destruct (Bool.eqb k k' && Bool.eqb true e') eqn:E.
    + apply andb_prop in E. destruct E as (E1 & E2). apply Bool.eqb_prop in E1, E2. subst k' e'. rewrite C1. change (p_id q) with id. destruct (id' =? id); [symmetry; apply (pick_self q)|apply (pi_content I)].
    + rewrite (pi_content I). destruct (Z.eqb_spec id' id) as [->|]; [|reflexivity]. rewrite L. cbn [pick]. change (p_concave q) with k. change (p_enabled q) with true. rewrite E. reflexivity.
  - intros c. unfold o1. cbn [with_coll o_coll]. rewrite ?coll_with_sel, !lookup_set. cbn [sp_pairs sp_coll].
    assert (G : forall l, (forall id0, In id0 l <-> exists p0, lookup Z.eqb id0 (sp_pairs s) = Some p0 /\ involves c p0 = true) -> NoDup l -> involves c q = true ->
      NoDup (l ++ [id]) /\ forall id0, In id0 (l ++ [id]) <-> exists p0, lookup Z.eqb id0 (m_set Z.eqb id q (sp_pairs s)) = Some p0 /\ involves c p0 = true).
    { intros l ML N V. split.
      - apply NoDup_snoc; [exact N|]. intros X. apply ML in X. destruct X as (x & X & _). congruence.
      - intros id0. rewrite in_app_iff, ML, lookup_set. cbn [In]. destruct (Z.eqb_spec id0 id) as [->|Ne].
        + split; [eauto|auto].
        + split; [intros [X|[X|[]]]; [exact X|congruence]|auto]. }
    destruct (Z.eqb_spec c c2) as [->|Nc2].
    { destruct K2 as (_ & N2 & M2). split; [exact A2|]. apply G; [exact M2|exact N2|]. unfold involves. cbn. rewrite Z.eqb_refl, Bool.orb_true_r. reflexivity. }
    destruct (Z.eqb_spec c c1) as [->|Nc1].
    { destruct K1 as (_ & N1 & M1). split; [exact A1|]. apply G; [exact M1|exact N1|]. unfold involves. cbn. rewrite Z.eqb_refl. reflexivity. }
    pose proof (pi_coll I c) as K. destruct (lookup Z.eqb c (o_coll o)) as [l|]; [|exact K]. destruct K as (Ka & Kb & Kc). split; [exact Ka|]. split; [exact Kb|].
    intros id0. rewrite Kc, lookup_set. destruct (Z.eqb_spec id0 id) as [->|]; [|reflexivity].
    split; [intros (x & X & _); congruence|]. intros (x & X & V). injection X as <-. unfold involves in V. cbn in V.
    destruct (Z.eqb_spec c1 c); [congruence|]. destruct (Z.eqb_spec c2 c); [congruence|discriminate].
  - cbn [sp_pairs sp_coll]. intros id' x X. rewrite lookup_set in X. destruct (Z.eqb_spec id' id) as [->|]; [|exact (pi_ref I _ _ X)].
    injection X as <-. cbn. auto.
Qed.

Lemma init_inv : PInv init_pairs init_pspec.
Proof.
  constructor.
  - intros [] [] id i; cbn; (split; [discriminate|intros (p & X & _); rewrite znth_nil in X; discriminate]).
  - intros [] [] id; reflexivity.
  - intros c. cbn. auto.
  - intros id p X. discriminate.
Qed.

Lemma step_ok : forall o s op s', PInv o s -> pspec_step s op = Ok s' -> exists o', pstep o op = Ok o' /\ PInv o' s'.
Proof.
  intros o s op s' I H. destruct op as [c1 b1 c2 b2 cv|id|id|id|id v|id v|id| | |c|c]; cbn [pspec_step pstep] in *.
  - rewrite has_lookup in H. destruct (lookup Z.eqb (pair_id b1 b2) (sp_pairs s)) eqn:L; [discriminate|]. cbn [orb] in H.
    destruct (Z.eqb_spec c1 c2) as [|D]; [discriminate|]. cbn [orb] in H.
    destruct (existsb (Z.eqb c1) (sp_coll s)) eqn:E1; [|discriminate]. destruct (existsb (Z.eqb c2) (sp_coll s)) eqn:E2; [|discriminate]. cbn in H. injection H as <-.
    apply existsb_in in E1, E2. destruct (add_ok o s c1 b1 c2 b2 cv I L D E1 E2) as (o' & A & B). rewrite A. cbn [bind]. eauto.
  - injection H as <-. pose proof (find_ok o s id I) as F. destruct (lookup Z.eqb id (sp_pairs s)) as [p|] eqn:L.
    + destruct F as (i & _ & Z & M & N). destruct (remove_at_ok o s id p i I L Z) as (o' & A & B). exists o'. split; [|exact B]. unfold remove_pair.
      pose proof (N false true) as N1. pose proof (N true true) as N2. pose proof (N false false) as N3. pose proof (N true false) as N4. cbn [sel] in *.
      destruct (p_concave p), (p_enabled p); cbn [sel] in M; rewrite ?N1, ?N2, ?N3, ?N4 by discriminate; rewrite M; exact A.
    + exists o. split.
      * unfold remove_pair. pose proof (F false true) as N1. pose proof (F true true) as N2. pose proof (F false false) as N3. pose proof (F true false) as N4. cbn [sel] in *.
        rewrite N1, N2, N3, N4. reflexivity.
      * assert (X : forall id', lookup Z.eqb id' (m_remove Z.eqb id (sp_pairs s)) = lookup Z.eqb id' (sp_pairs s)).
        { intros id'. rewrite lookup_remove. destruct (Z.eqb_spec id' id) as [->|]; congruence. }
        constructor; [apply (pi_store I)| | |].
        -- intros. cbn [sp_pairs]. rewrite X. apply (pi_content I).
        -- apply (coll_inv_ext o _ s); [reflexivity|reflexivity| |apply (pi_coll I)]. intros. cbn [sp_pairs]. rewrite X. reflexivity.
        -- cbn [sp_pairs sp_coll]. intros id' p P. rewrite X in P. exact (pi_ref I _ _ P).
  - pose proof (find_ok o s id I) as F. unfold enable_pair. destruct (lookup Z.eqb id (sp_pairs s)) as [p|] eqn:L.
    + destruct F as (i & _ & Z & M & N). pose proof (N false false) as N1. pose proof (N true false) as N2. cbn [sel] in N1, N2.
      destruct (p_enabled p) eqn:E; injection H as <-.
      * rewrite N1, N2 by congruence. eauto.
      * rewrite <- E in Z. destruct (move_ok o s id p i I L Z) as (o' & A & B). rewrite E in A, B. cbn [negb] in A, B. exists o'. split; [|exact B].
        destruct (p_concave p); cbn [sel] in M; [rewrite N1 by congruence|]; rewrite M; exact A.
    + injection H as <-. pose proof (F false false) as N1. pose proof (F true false) as N2. cbn [sel] in *. rewrite N1, N2. eauto.
  - pose proof (find_ok o s id I) as F. unfold disable_pair. destruct (lookup Z.eqb id (sp_pairs s)) as [p|] eqn:L.
    + destruct F as (i & _ & Z & M & N). pose proof (N false true) as N1. pose proof (N true true) as N2. cbn [sel] in N1, N2.
      destruct (p_enabled p) eqn:E; injection H as <-.
      * rewrite <- E in Z. destruct (move_ok o s id p i I L Z) as (o' & A & B). rewrite E in A, B. cbn [negb] in A, B. exists o'. split; [|exact B].
        destruct (p_concave p); cbn [sel] in M; [rewrite N1 by congruence|]; rewrite M; exact A.
      * rewrite N1, N2 by congruence. eauto.
    + injection H as <-. pose proof (F false true) as N1. pose proof (F true true) as N2. cbn [sel] in *. rewrite N1, N2. eauto.
  - pose proof (find_ok o s id I) as F. unfold set_need_test. destruct (lookup Z.eqb id (sp_pairs s)) as [p|] eqn:L; [|discriminate].
    destruct F as (i & _ & Z & M & N). destruct (p_enabled p) eqn:E; [|discriminate]. injection H as <-.
    rewrite <- E in Z. pose proof (write_ok o s id p i (with_test v) I L Z) as W. rewrite E in W, Z. pose proof (N false true) as N1. cbn [sel] in N1.
    destruct (p_concave p) eqn:K; cbn [sel] in *.
    + rewrite N1 by congruence. rewrite M. cbn [rd bind]. rewrite Z. cbn [rd bind]. eexists. split; [reflexivity|]. apply W. intros x; cbn; auto.
    + rewrite M, Z. cbn [rd bind]. eexists. split; [reflexivity|]. apply W. intros x; cbn; auto.
  - pose proof (find_ok o s id I) as F. unfold update_pair. destruct (lookup Z.eqb id (sp_pairs s)) as [p|] eqn:L; [|discriminate]. injection H as <-.
    destruct F as (i & E & Z & _). rewrite E, Z. cbn [rd bind]. eexists. split; [reflexivity|]. apply (write_ok o s id p i (with_test v) I L Z). intros x; cbn; auto.
  - pose proof (find_ok o s id I) as F. unfold update_pair. destruct (lookup Z.eqb id (sp_pairs s)) as [p|] eqn:L; [|discriminate]. injection H as <-.
    destruct F as (i & E & Z & _). rewrite E, Z. cbn [rd bind]. eexists. split; [reflexivity|]. apply (write_ok o s id p i (fun p => with_flags (p_prev p) true p) I L Z). intros x; cbn; auto.
  - injection H as <-. eexists. split; [reflexivity|]. apply map_enabled_ok; [exact I|]. intros x; cbn; auto.
  - injection H as <-. eexists. split; [reflexivity|]. apply map_enabled_ok; [exact I|]. intros x; cbn; auto.
  - destruct (existsb (Z.eqb c) (sp_coll s)) eqn:E; [discriminate|]. injection H as <-. eexists. split; [reflexivity|].
    assert (NI : ~ In c (sp_coll s)) by (rewrite <- existsb_in, E; discriminate). unfold add_collider. constructor.
    + intros k e. rewrite sel_with_coll. apply (pi_store I).
    + intros k e id. rewrite sel_with_coll. apply (pi_content I).
    + intros c'. cbn [with_coll o_coll sp_coll sp_pairs]. rewrite lookup_set. destruct (Z.eqb_spec c' c) as [->|N].
      * split; [left; reflexivity|]. split; [constructor|]. intros id. split; [intros []|]. intros (p & P & V). destruct (pi_ref I _ _ P) as (_ & R2 & R3 & _).
        unfold involves in V. destruct (Z.eqb_spec (p_c1 p) c); [congruence|]. destruct (Z.eqb_spec (p_c2 p) c); [congruence|discriminate].
      * pose proof (pi_coll I c') as K. destruct (lookup Z.eqb c' (o_coll o)) as [l|].
        -- destruct K as (Ka & Kb & Kc). split; [right; exact Ka|]. auto.
        -- intros [X|X]; [congruence|auto].
    + intros id p P. destruct (pi_ref I _ _ P) as (R1 & R2 & R3 & R4). cbn [sp_coll]. splits; [exact R1|right; exact R2|right; exact R3|exact R4].
  - match type of H with (if ?b then _ else _) = _ => destruct b eqn:E end; [discriminate|]. injection H as <-. eexists. split; [reflexivity|].
    assert (NV : forall id p, lookup Z.eqb id (sp_pairs s) = Some p -> involves c p = false).
    { intros id p X. destruct (involves c p) eqn:V; [|reflexivity]. rewrite <- E. symmetry. apply existsb_exists. exists (id, p). cbn [fst]. rewrite X. split; [|exact V].
      clear E. revert X. induction (sp_pairs s) as [|[a v] m IH]; [discriminate|]. cbn [lookup]. destruct (Z.eqb_spec a id) as [->|]; [intros K; injection K as ->; left; reflexivity|right; auto]. }
    unfold delete_collider. constructor.
    + intros k e. rewrite sel_with_coll. apply (pi_store I).
    + intros k e id. rewrite sel_with_coll. apply (pi_content I).
    + intros c'. cbn [with_coll o_coll sp_coll sp_pairs]. rewrite lookup_remove. destruct (Z.eqb_spec c' c) as [->|N].
      * rewrite filter_In, Z.eqb_refl. intros (_ & X). discriminate.
      * pose proof (pi_coll I c') as K. destruct (lookup Z.eqb c' (o_coll o)) as [l|].
        -- destruct K as (Ka & Kb & Kc). split; [|auto]. apply filter_In. split; [exact Ka|]. destruct (Z.eqb_spec c' c); [congruence|reflexivity].
        -- rewrite filter_In. tauto.
    + intros id p P. destruct (pi_ref I _ _ P) as (R1 & R2 & R3 & R4). specialize (NV _ _ P). unfold involves in NV. cbn [sp_coll]. rewrite !filter_In.
      destruct (Z.eqb_spec (p_c1 p) c); [discriminate|]. destruct (Z.eqb_spec (p_c2 p) c); [discriminate|]. cbn [negb]. splits; auto.
Qed.

Lemma run_ok : forall ops o s s', PInv o s -> pspec_run s ops = Ok s' -> exists o', prun o ops = Ok o' /\ PInv o' s'.
Proof.
  induction ops as [|op ops IH]; intros o s s' I H; cbn [pspec_run prun] in *; [injection H as <-; eauto|].
  destruct (pspec_step s op) as [s1| |] eqn:S; cbn [bind] in H; try discriminate. destruct (step_ok _ _ _ _ I S) as (o1 & A & I1). rewrite A. cbn [bind]. exact (IH _ _ _ I1 H).
Qed.

Lemma inv_represents : forall o s, PInv o s -> p_represents o s.
Proof.
  intros o s I. unfold p_represents. splits.
  - intros id. unfold get_pair. pose proof (find_ok o s id I) as F. destruct (lookup Z.eqb id (sp_pairs s)) as [p|] eqn:L.
    + destruct F as (i & E & Z & _). rewrite E, Z. reflexivity.
    + rewrite (find_none o s id I L). reflexivity.
  - intros id. unfold is_disabled. rewrite (content_has (o_dconvex o)) by exact (pi_store I false false). rewrite (content_has (o_dconcave o)) by exact (pi_store I true false).
    pose proof (pi_content I false false id) as A. pose proof (pi_content I true false id) as B. cbn [sel] in A, B. rewrite A, B.
    destruct (lookup Z.eqb id (sp_pairs s)) as [p|]; [|reflexivity]. cbn [pick]. destruct (p_concave p), (p_enabled p); reflexivity.
  - intros k e. split; [apply sinv_nodup; apply (pi_store I)|]. intros p. split.
    + intros P. assert (C : content (sel k e o) (p_id p) = Some p) by (apply content_In; [apply (pi_store I)|auto]). rewrite (pi_content I) in C. apply pick_inv in C. exact C.
    + intros (L & K & E). assert (C : content (sel k e o) (p_id p) = Some p) by (rewrite (pi_content I), L; subst; apply pick_self). apply content_In in C; [|apply (pi_store I)]. apply C.
  - intros c. unfold coll_get. pose proof (pi_coll I c) as K. destruct (lookup Z.eqb c (o_coll o)) as [l|]; exact K.
Qed.
