(** The hash table refines finite partial functions: iteration, removal, clearing, copies and
    whole histories. *)
From Coq Require Import Permutation.
From Verif Require Import Base Float24 BitsModel BitsProofs HashModel HashSpec HashProofs.
Open Scope Z_scope.

Section Proofs2.
Context {K V : Type}.
Variable hash : K -> Z.
Variable keq : K -> K -> bool.
Variable veq : V -> V -> bool.
Hypothesis keq_spec : forall a b, keq a b = true <-> a = b.
Notation tbl := (tbl K V).
Notation trep := (trep hash).
Notation Rused := (Rused hash).
Notation R := (R hash).

(** ** Iteration *)
(** The iterator [p] points at the first of the entries [l], all that remain to be visited. *)
Definition at_pos (t : tbl) (cs : list (list Z)) (p : iter) (l : list Z) : Prop :=
  (p = tbl_end t /\ l = []) \/
  (exists c1 pre i rest c2, p = (zlen c1, i) /\ cs = c1 ++ (pre ++ i :: rest) :: c2 /\
     l = i :: rest ++ concat c2).

Lemma scan_bucket_spec : forall (t : tbl) cs fr,
  trep t cs fr -> forall sfx pre, cs = pre ++ sfx ->
  let b := scan_bucket (length sfx) t (zlen pre) in
  (concat sfx = [] /\ b = t_hsize t) \/
  (exists e1 i rest tl, sfx = e1 ++ (i :: rest) :: tl /\ concat e1 = [] /\
     b = zlen (pre ++ e1) /\ t_buckets t b = i /\ b < t_hsize t).
Proof.
  intros t cs fr H sfx; induction sfx as [|c sfx IH]; intros pre E; cbn [length scan_bucket].
  - left. split; [reflexivity|]. rewrite <- (r_len _ _ _ _ H), E, app_nil_r. reflexivity.
  - assert (Ec : znth cs (zlen pre) = Some c) by (rewrite E; apply znth_mid).
    pose proof (r_seg _ _ _ _ H _ _ Ec) as S.
    destruct c as [|i rest]; cbn [seg] in S.
    + rewrite S, Z.eqb_refl.
      replace (zlen pre + 1) with (zlen (pre ++ [[]])) by (rewrite zlen_app, zlen_cons, zlen_nil; lia).
      destruct (IH (pre ++ [[]])) as [[A B]|(e1 & i & rest & tl & A & B & C & D & F)].
      * rewrite <- app_assoc; exact E.
      * left; auto.
      * right. exists ([] :: e1), i, rest, tl. splits; auto; [rewrite A; reflexivity|].
        rewrite C. f_equal. rewrite <- app_assoc. reflexivity.
    + destruct S as (S1 & S2 & _).
      destruct (Z.eqb_spec (t_buckets t (zlen pre)) INV) as [X|_]; [congruence|].
      right. exists [], i, rest, sfx. splits; auto.
      * rewrite app_nil_r; reflexivity.
      * rewrite <- (r_len _ _ _ _ H), E, zlen_app, zlen_cons. pose proof (zlen_nonneg _ sfx). lia.
Qed.

Lemma from_bucket_spec : forall (t : tbl) cs fr,
  trep t cs fr -> forall sfx pre, cs = pre ++ sfx ->
  at_pos t cs (from_bucket t (zlen pre)) (concat sfx).
Proof.
  intros t cs fr H sfx pre E. unfold from_bucket.
  replace (Z.to_nat (t_hsize t - zlen pre)) with (length sfx).
  2: { rewrite <- (r_len _ _ _ _ H), E, zlen_app. unfold zlen; lia. }
  destruct (scan_bucket_spec t cs fr H sfx pre E) as [[A B]|(e1 & i & rest & tl & A & B & C & D & F)].
  - left. rewrite B, Z.ltb_irrefl. split; [reflexivity|exact A].
  - right. apply Z.ltb_lt in F. rewrite F, D, C.
    exists (pre ++ e1), [], i, rest, tl. split; [reflexivity|]. split.
    + rewrite E, A, <- app_assoc. reflexivity.
    + rewrite A, concat_mid, B. reflexivity.
Qed.

Lemma at_pos_end : forall (t : tbl) cs fr c1 pre i rest c2,
  trep t cs fr -> cs = c1 ++ (pre ++ i :: rest) :: c2 ->
  (zlen c1 =? t_hsize t) = false.
Proof.
  intros t cs fr c1 pre i rest c2 H E. apply Z.eqb_neq.
  rewrite <- (r_len _ _ _ _ H), E, zlen_app, zlen_cons. pose proof (zlen_nonneg _ c2). lia.
Qed.

Lemma advance_spec : forall (t : tbl) cs fr c1 pre i rest c2,
  trep t cs fr -> cs = c1 ++ (pre ++ i :: rest) :: c2 ->
  exists p', tbl_advance t (zlen c1, i) = Ok p' /\ at_pos t cs p' (rest ++ concat c2).
Proof.
  intros t cs fr c1 pre i rest c2 H E. unfold tbl_advance.
  assert (Ec : znth cs (zlen c1) = Some (pre ++ i :: rest)) by (rewrite E; apply znth_mid).
  pose proof (r_seg _ _ _ _ H _ _ Ec) as S. apply seg_suffix in S.
  destruct S as (N & j & Ej & S).
  assert (A : in_alloc t i = true).
  { eapply (trep_in hash); [exact H|]. left. apply In_concat_znth.
    exists (zlen c1), (pre ++ i :: rest). split; [exact Ec|]. apply in_app_iff; right; left; reflexivity. }
  rewrite (rd_next_ok t i j A Ej); cbn [bind].
  destruct rest as [|j' rest]; cbn [seg] in S.
  - subst j. rewrite Z.eqb_refl. cbn [negb]. eexists; split; [reflexivity|].
    replace (zlen c1 + 1) with (zlen (c1 ++ [pre ++ [i]])) by (rewrite zlen_app, zlen_cons, zlen_nil; lia).
    cbn [app]. eapply from_bucket_spec; [exact H|]. rewrite <- app_assoc. exact E.
  - destruct S as (-> & N' & _). destruct (Z.eqb_spec j' INV); [contradiction|]. cbn [negb].
    eexists; split; [reflexivity|]. right. exists c1, (pre ++ [i]), j', rest, c2.
    split; [reflexivity|]. split; [|reflexivity]. rewrite E, <- app_assoc. reflexivity.
Qed.

Lemma iter_from_spec : forall (t : tbl) cs fr, trep t cs fr ->
  forall l fuel p, at_pos t cs p l -> (length l < fuel)%nat ->
  iter_from fuel t p = Ok (ents t l).
Proof.
  intros t cs fr H l. remember (length l) as n eqn:En. revert l En.
  induction n as [|n IH]; intros l En fuel p AP L;
    (destruct fuel as [|fuel]; [lia|]); cbn [iter_from].
  - destruct l; [|discriminate]. destruct AP as [[-> _]|(c1 & pre & i & rest & c2 & _ & _ & X)]; [|discriminate].
    unfold tbl_end; cbn [fst snd]. rewrite !Z.eqb_refl. reflexivity.
  - destruct AP as [[_ ->]|(c1 & pre & i & rest & c2 & -> & E & ->)]; [discriminate|].
    cbn [fst snd]. rewrite (at_pos_end t cs fr _ _ _ _ _ H E). cbn [andb].
    destruct (r_ent _ _ _ _ H (zlen c1) (pre ++ i :: rest) i) as (k & v & Ei & _).
    { rewrite E; apply znth_mid. } { apply in_app_iff; right; left; reflexivity. }
    assert (A : in_alloc t i = true).
    { eapply (trep_in hash); [exact H|]. left. rewrite E, concat_mid, !in_app_iff. cbn [In]. tauto. }
    rewrite (rd_entry_ok t i _ A Ei); cbn [bind].
    destruct (advance_spec t cs fr c1 pre i rest c2 H E) as (p' & Ep & AP'). rewrite Ep; cbn [bind].
    rewrite (IH (rest ++ concat c2)); [|cbn [length] in En; lia|exact AP'|lia].
    cbn [bind]. unfold ents at 2. cbn [flat_map]. rewrite Ei. reflexivity.
Qed.

Lemma iter_spec : forall (t : tbl) cs fr, trep t cs fr ->
  tbl_iter t = Ok (ents t (concat cs)).
Proof.
  intros t cs fr H. unfold tbl_iter, tbl_begin.
  pose proof (trep_total hash t cs fr H) as L.
  destruct (Z.eqb_spec (t_n t) 0) as [E|E].
  - cbn [bind]. rewrite (r_n _ _ _ _ H) in E.
    assert (X : concat cs = []) by (destruct (concat cs); [reflexivity|rewrite zlen_cons in E; pose proof (zlen_nonneg _ l); lia]).
    rewrite X in *. eapply iter_from_spec; [exact H|left; auto|exact L].
  - replace (Z.to_nat (t_hsize t)) with (length cs)
      by (pose proof (r_len _ _ _ _ H); unfold zlen in *; lia).
    pose proof (scan_bucket_spec t cs fr H cs [] eq_refl) as SB.
    pose proof (from_bucket_spec t cs fr H cs [] eq_refl) as FB.
    rewrite zlen_nil in *. unfold from_bucket in FB. rewrite Z.sub_0_r in FB.
    replace (Z.to_nat (t_hsize t)) with (length cs) in FB
      by (pose proof (r_len _ _ _ _ H); unfold zlen in *; lia).
    destruct SB as [[A _]|(e1 & i & rest & tl & _ & _ & _ & _ & F)].
    + exfalso; apply E. rewrite (r_n _ _ _ _ H), A. reflexivity.
    + apply Z.ltb_lt in F. rewrite F in *. cbn [bind].
      eapply iter_from_spec; [exact H|exact FB|exact L].
Qed.

Lemma iter_none : forall s (t : tbl) m, Rnone s t m -> tbl_iter t = Ok [].
Proof.
  intros s t m (N1 & N2 & N3 & _). unfold tbl_iter, tbl_begin, fuel_of, tbl_end.
  rewrite N3. cbn [bind Z.eqb]. cbn [iter_from fst snd]. rewrite N1. reflexivity.
Qed.

Lemma iter_R : forall ph (t : tbl) m, R ph t m ->
  exists l, tbl_iter t = Ok l /\ Permutation l m.
Proof.
  intros ph t m H. destruct ph; cbn [HashProofs.R] in H.
  - pose proof H as (_ & _ & _ & _ & _ & ->). rewrite (iter_none _ _ _ H). eauto.
  - destruct H as (cs & fr & H & P & _). rewrite (iter_spec _ _ _ H). eauto.
  - pose proof H as (_ & _ & _ & _ & _ & ->). rewrite (iter_none _ _ _ H). eauto.
Qed.

(** ** Removal *)
Lemma znth_inj_split : forall (c1 c2 d1 d2 : list (list Z)) c d,
  c1 ++ c :: c2 = d1 ++ d :: d2 -> zlen c1 = zlen d1 -> c1 = d1 /\ c = d /\ c2 = d2.
Proof.
  induction c1 as [|x c1 IH]; intros c2 d1 d2 c d E L; destruct d1 as [|y d1];
    rewrite ?zlen_nil, ?zlen_cons in L.
  - cbn in E. injection E as -> ->. auto.
  - pose proof (zlen_nonneg _ d1); lia.
  - pose proof (zlen_nonneg _ c1); lia.
  - cbn in E. injection E as -> E. destruct (IH _ _ _ _ _ E ltac:(lia)) as (-> & -> & ->). auto.
Qed.

(** What remove does to a table with memory. *)
Lemma remove_used : forall (t : tbl) cs fr m key,
  trep t cs fr -> Permutation (ents t (concat cs)) m -> NoDup (map fst m) ->
  exists t' p, tbl_remove hash keq key t = Ok (t', p) /\
    ((lookup keq key m = None /\ t' = t /\ p = tbl_end t) \/
     (exists cs' l1 l2 v, trep t' cs' (t_free t' :: fr) /\ concat cs = l1 ++ t_free t' :: l2 /\
        concat cs' = l1 ++ l2 /\ t_entries t (t_free t') = Some (key, v) /\
        lookup keq key m = Some v /\
        ents t' l1 = ents t l1 /\ ents t' l2 = ents t l2 /\ at_pos t' cs' p l2)).
Proof.
  intros t cs fr m key H P ND. unfold tbl_remove.
  destruct (trep_hpos hash _ _ _ H) as [_ HP]. rewrite HP.
  destruct (trep_chain hash t cs fr key H) as [c Ec].
  set (b := bucket_of (hash key) (t_hsize t)) in *.
  destruct (remove_loop_spec hash keq keq_spec t key b c [] (fuel_of t) (t_buckets t b))
    as [(r1 & x & q & j & v & Erest & Ex & Ej & EQ)|[NF EQ]].
  - apply (r_seg _ _ _ _ H); exact Ec.
  - eapply trep_walkable; eassumption.
  - eapply trep_fuel; eassumption.
  - cbn [last app] in EQ. rewrite EQ. eexists _, _. split; [reflexivity|]. right.
    destruct (znth_split _ _ _ _ Ec) as (c1 & c2 & Ecs & Eb). rewrite Erest in Ecs.
    rewrite Ecs in H.
    destruct (cut_spec hash t c1 c2 fr r1 x q j key v H Ex Ej) as (H' & EE & NI & SQ).
    rewrite Eb in *. set (t' := cut t b (last r1 INV) x j) in *.
    exists (c1 ++ (r1 ++ q) :: c2), (concat c1 ++ r1), (q ++ concat c2), v.
    replace (t_free t') with x by reflexivity.
    rewrite concat_mid in NI. rewrite !in_app_iff in NI.
    splits.
    + exact H'.
    + rewrite Ecs, concat_mid, <- !app_assoc. reflexivity.
    + rewrite concat_mid, <- !app_assoc. reflexivity.
    + exact Ex.
    + apply lookup_In; [exact keq_spec|exact ND|]. eapply Permutation_in; [exact P|].
      apply In_ents. exists x. split; [|exact Ex]. rewrite Ecs, concat_mid, !in_app_iff. cbn [In]. tauto.
    + apply EE. rewrite in_app_iff. tauto.
    + apply EE. rewrite in_app_iff. tauto.
    + destruct q as [|y q]; cbn [seg] in SQ.
      * subst j. rewrite Z.eqb_refl.
        replace (b + 1) with (zlen (c1 ++ [r1 ++ []])) by (rewrite zlen_app, zlen_cons, zlen_nil; lia).
        cbn [app]. eapply from_bucket_spec; [exact H'|]. rewrite <- app_assoc. reflexivity.
      * destruct SQ as (-> & N & _). destruct (Z.eqb_spec y INV); [contradiction|].
        right. exists c1, r1, y, q, c2. rewrite Eb. auto.
  - cbn [last] in EQ. rewrite EQ. eexists _, _. split; [reflexivity|]. left.
    split; [|auto]. apply lookup_None; [exact keq_spec|]. intros X.
    apply in_map_iff in X. destruct X as ([k' v'] & E2 & X). cbn in E2; subst k'.
    assert (Y : In (key, v') (ents t (concat cs))) by (eapply Permutation_in; [symmetry; exact P|exact X]).
    apply In_ents in Y. destruct Y as (i & Hi & Ei).
    apply In_concat_znth in Hi. destruct Hi as (b' & c' & Eb & Hi).
    destruct (r_ent _ _ _ _ H b' c' i Eb Hi) as (k2 & v2 & E3 & E4).
    assert (k2 = key) by congruence. subst k2. fold b in E4. subst b'.
    assert (c' = c) by congruence. subst c'.
    eapply NF; [exact Hi|exact Ei|reflexivity].
Qed.

Lemma ents_single : forall (t : tbl) i p l, t_entries t i = Some p -> ents t (i :: l) = p :: ents t l.
Proof. intros t i p l E; unfold ents; cbn [flat_map]; rewrite E; reflexivity. Qed.

Lemma remove_R : forall ph (t : tbl) m key, R ph t m ->
  exists t' p, tbl_remove hash keq key t = Ok (t', p) /\ R ph t' (m_remove keq key m).
Proof.
  intros ph t m key H. destruct ph; cbn [HashProofs.R] in *.
  - pose proof H as (N1 & _ & _ & _ & _ & ->). unfold tbl_remove. rewrite N1. cbn. eauto.
  - destruct H as (cs & fr & H & P & ND).
    destruct (remove_used t cs fr m key H P ND) as (t' & p & E & [(LK & -> & ->)|HX]).
    + exists t, (tbl_end t). split; [exact E|].
      rewrite m_remove_absent; [|exact keq_spec|apply (lookup_None keq keq_spec key m); exact LK].
      exists cs, fr; auto.
    + destruct HX as (cs' & l1 & l2 & v & H' & E1 & E2 & E3 & _ & E4 & E5 & _).
      exists t', p. split; [exact E|]. exists cs', (t_free t' :: fr).
      split; [exact H'|]. split; [|apply NoDup_m_remove; assumption].
      rewrite E2, ents_app, E4, E5. rewrite E1, ents_app in P.
      rewrite (ents_single _ _ _ _ E3) in P.
      rewrite <- (m_remove_mid keq keq_spec key v (ents t l1) (ents t l2)).
      * unfold m_remove. apply filter_perm; exact P.
      * eapply Permutation_NoDup; [apply Permutation_map; symmetry; exact P|exact ND].
  - pose proof H as (N1 & _ & _ & _ & _ & ->). unfold tbl_remove. rewrite N1. cbn. eauto.
Qed.

(** The iterator returned by remove continues the iteration after the removed entry. *)
Lemma remove_iter : forall ph (t : tbl) m key v l, R ph t m -> lookup keq key m = Some v ->
  tbl_iter t = Ok l ->
  exists t' p l1 l2, tbl_remove hash keq key t = Ok (t', p) /\ l = l1 ++ (key, v) :: l2 /\
    tbl_iter t' = Ok (l1 ++ l2) /\ iter_from (fuel_of t') t' p = Ok l2.
Proof.
  intros ph t m key v l H LK EL. destruct ph; cbn [HashProofs.R] in *.
  - pose proof H as (_ & _ & _ & _ & _ & ->). discriminate.
  - destruct H as (cs & fr & H & P & ND).
    rewrite (iter_spec _ _ _ H) in EL. injection EL as <-.
    destruct (remove_used t cs fr m key H P ND) as (t' & p & E & [(LK' & _)|HX]); [congruence|].
    destruct HX as (cs' & l1 & l2 & v' & H' & E1 & E2 & E3 & LK' & E4 & E5 & AP).
    assert (v' = v) by congruence. subst v'.
    exists t', p, (ents t l1), (ents t l2). split; [exact E|]. split; [|split].
    + rewrite E1, ents_app, (ents_single _ _ _ _ E3). reflexivity.
    + rewrite (iter_spec _ _ _ H'), E2, ents_app, E4, E5. reflexivity.
    + rewrite <- E5. eapply iter_from_spec; [exact H'|exact AP|].
      pose proof (trep_total hash _ _ _ H') as L. rewrite E2, app_length in L. lia.
  - pose proof H as (_ & _ & _ & _ & _ & ->). discriminate.
Qed.

(** ** Clearing *)
Lemma clear_chain_spec : forall c (t : tbl) i fr fuel,
  seg (t_next t) i c -> walkable t c -> NoDup (c ++ fr) -> (length c < fuel)%nat ->
  seg (t_next t) (t_free t) fr ->
  exists t', clear_chain fuel t i = Ok t' /\
    t_alloc t' = t_alloc t /\ t_n t' = t_n t /\ t_hsize t' = t_hsize t /\ t_buckets t' = t_buckets t /\
    (forall x, ~ In x c -> t_next t' x = t_next t x /\ t_entries t' x = t_entries t x) /\
    seg (t_next t') (t_free t') (rev c ++ fr).
Proof.
  induction c as [|x c IH]; intros t i fr fuel S W ND L SF;
    (destruct fuel as [|fuel]; [cbn in L; lia|]); cbn [clear_chain].
  - cbn [seg] in S. subst i. rewrite Z.eqb_refl. exists t. splits; auto.
  - cbn [seg] in S. destruct S as (-> & N & j & Ej & S).
    destruct (Z.eqb_spec x INV) as [E|_]; [contradiction|].
    destruct (W x (or_introl eq_refl)) as (A & k & v & E).
    rewrite (rd_entry_ok t x _ A E); cbn [bind].
    rewrite (rd_next_ok t x _ A Ej); cbn [bind].
    cbn [app] in ND. inversion ND as [|? ? NX ND']; subst.
    rewrite in_app_iff in NX.
    set (t1 := mk_tbl (t_alloc t) (t_n t) (t_hsize t) (t_buckets t) (upd (t_entries t) x None)
                      (upd (t_next t) x (Some (t_free t))) x).
    destruct (IH t1 j (x :: fr) fuel) as (t' & E' & A1 & A2 & A3 & A4 & A5 & A6).
    + cbn [t1 t_next]. apply seg_upd_notin; [tauto|exact S].
    + intros y Hy. assert (y <> x) by (intros ->; tauto).
      destruct (W y (or_intror Hy)) as (B & k' & v' & B'). split; [exact B|].
      exists k', v'. cbn [t1 t_entries]. rewrite upd_other by assumption. exact B'.
    + eapply Permutation_NoDup; [|exact ND]. apply Permutation_middle.
    + cbn in L; lia.
    + cbn [t1 t_next t_free seg]. split; [reflexivity|]. split; [exact N|].
      exists (t_free t). rewrite upd_same. split; [reflexivity|].
      apply seg_upd_notin; [tauto|exact SF].
    + exists t'. split; [exact E'|]. cbn [t1 t_alloc t_n t_hsize t_buckets] in *.
      splits; auto.
      * intros y Hy. destruct (A5 y) as [B C]; [intros X; apply Hy; right; exact X|].
        rewrite B, C. cbn [t1 t_next t_entries].
        split; apply upd_other; intros ->; apply Hy; left; reflexivity.
      * cbn [rev]. rewrite <- app_assoc. exact A6.
Qed.

(** [trep] without the entry counter. *)
Lemma trep_setn : forall (t : tbl) cs fr n,
  trep t cs fr -> concat cs = [] ->
  n = 0 ->
  trep (mk_tbl (t_alloc t) n (t_hsize t) (t_buckets t) (t_entries t) (t_next t) (t_free t)) cs fr.
Proof.
  intros t cs fr n H E ->. constructor; cbn; try apply H. rewrite E. reflexivity.
Qed.

Lemma clear_all_spec : forall rest pre (t : tbl) fr,
  (forall c, In c pre -> c = []) ->
  trep (mk_tbl (t_alloc t) (zlen (concat (pre ++ rest))) (t_hsize t) (t_buckets t) (t_entries t) (t_next t) (t_free t))
       (pre ++ rest) fr ->
  exists t' fr', clear_all (length rest) t (zlen pre) = Ok t' /\
    t_alloc t' = t_alloc t /\ t_hsize t' = t_hsize t /\
    trep (mk_tbl (t_alloc t') 0 (t_hsize t') (t_buckets t') (t_entries t') (t_next t') (t_free t'))
         (pre ++ repeat [] (length rest)) fr'.
Proof.
  induction rest as [|c rest IH]; intros pre t fr HP H; cbn [length clear_all].
  - exists t, fr. split; [reflexivity|]. split; [reflexivity|]. split; [reflexivity|].
    cbn [repeat]. rewrite app_nil_r in *.
    assert (E : concat pre = []).
    { clear - HP. induction pre as [|c pre IH]; [reflexivity|]. cbn.
      rewrite (HP c (or_introl eq_refl)). apply IH. intros; apply HP; right; assumption. }
    rewrite E in H. exact H.
  - set (t0 := mk_tbl (t_alloc t) (zlen (concat (pre ++ c :: rest))) (t_hsize t) (t_buckets t)
                      (t_entries t) (t_next t) (t_free t)) in *.
    assert (Ec : znth (pre ++ c :: rest) (zlen pre) = Some c) by apply znth_mid.
    assert (EP : concat pre = []).
    { clear - HP. induction pre as [|x pre IH]; [reflexivity|]. cbn.
      rewrite (HP x (or_introl eq_refl)). apply IH. intros; apply HP; right; assumption. }
    pose proof (trep_nodup _ _ _ _ H) as ND. rewrite concat_mid, EP in ND. cbn [app] in ND.
    destruct (clear_chain_spec c t (t_buckets t (zlen pre)) fr (fuel_of t))
      as (t1 & E1 & A1 & A2 & A3 & A4 & A5 & A6).
    + apply (r_seg _ _ _ _ H _ _ Ec).
    + intros x Hx. destruct (trep_walkable hash t0 _ _ _ _ H Ec x Hx) as [B C]. split; [exact B|exact C].
    + rewrite <- app_assoc in ND.
      eapply Permutation_NoDup in ND; [|apply Permutation_app_swap_app].
      apply NoDup_app_remove_l in ND. exact ND.
    + apply (trep_fuel hash t0 _ _ _ _ H Ec).
    + apply (r_free _ _ _ _ H).
    + rewrite E1; cbn [bind].
      set (t2 := mk_tbl (t_alloc t1) (t_n t1) (t_hsize t1) (upd (t_buckets t1) (zlen pre) INV)
                        (t_entries t1) (t_next t1) (t_free t1)).
      destruct (IH (pre ++ [[]]) t2 (rev c ++ fr)) as (t' & fr' & E' & B1 & B2 & B3).
      * intros d Hd. apply in_app_iff in Hd. destruct Hd as [Hd|[<-|[]]]; auto.
      * rewrite <- app_assoc. cbn [app].
        constructor; cbn [t2 t_alloc t_n t_hsize t_buckets t_entries t_next t_free].
        -- rewrite A3. change (t_hsize t) with (t_hsize t0). rewrite <- (r_len _ _ _ _ H). rewrite !zlen_app, !zlen_cons. lia.
        -- rewrite A1, A3. apply (r_size _ _ _ _ H).
        -- intros b d E. apply (znth_replace _ _ _ c) in E. destruct E as [[X1 X2]|[X1 X2]].
           ++ subst b d. rewrite upd_same. reflexivity.
           ++ rewrite upd_other by exact X1. rewrite A4.
              apply (seg_ext (t_next t)); [|apply (r_seg _ _ _ _ H _ _ X2)].
              intros x Hx. symmetry. apply A5. intros Hx'.
              destruct (r_ent _ _ _ _ H b d x X2 Hx) as (k1 & v1 & Y1 & Y2).
              destruct (r_ent _ _ _ _ H _ _ x Ec Hx') as (k2 & v2 & Z1 & Z2). congruence.
        -- exact A6.
        -- rewrite A1. change (t_alloc t) with (t_alloc t0). eapply Permutation_trans; [|apply (r_perm _ _ _ _ H)].
           rewrite !concat_mid, EP. cbn [app]. rewrite <- app_assoc.
           eapply Permutation_trans; [apply Permutation_app_swap_app|].
           apply Permutation_app_tail. symmetry. apply Permutation_rev.
        -- intros b d x E Hx. apply (znth_replace _ _ _ c) in E. destruct E as [[X1 X2]|[X1 X2]].
           ++ subst d. contradiction.
           ++ destruct (A5 x) as [_ Y].
              { intros Hx'.
                destruct (r_ent _ _ _ _ H b d x X2 Hx) as (k1 & v1 & Y1 & Y2).
                destruct (r_ent _ _ _ _ H _ _ x Ec Hx') as (k2 & v2 & Z1 & Z2). congruence. }
              rewrite Y, A3. apply (r_ent _ _ _ _ H b d x X2 Hx).
        -- reflexivity.
      * replace (zlen pre + 1) with (zlen (pre ++ [[]])) by (rewrite zlen_app, zlen_cons, zlen_nil; lia).
        exists t', fr'. split; [exact E'|]. cbn [t2 t_alloc t_hsize] in *.
        split; [congruence|]. split; [congruence|].
        cbn [repeat]. rewrite <- app_assoc in B3. exact B3.
Qed.

Lemma clear_used : forall (t : tbl) m, Rused t m ->
  exists t' fr, clear_all (Z.to_nat (t_hsize t)) t 0 = Ok t' /\
    t_alloc t' = t_alloc t /\ t_hsize t' = t_hsize t /\
    trep (mk_tbl (t_alloc t') 0 (t_hsize t') (t_buckets t') (t_entries t') (t_next t') (t_free t'))
         (repeat [] (Z.to_nat (t_hsize t))) fr.
Proof.
  intros t m (cs & fr & H & P & ND).
  assert (EL : Z.to_nat (t_hsize t) = length cs) by (pose proof (r_len _ _ _ _ H); unfold zlen in *; lia).
  destruct (clear_all_spec cs [] t fr) as (t' & fr' & E & A1 & A2 & A3).
  - intros c [].
  - cbn [app]. destruct t as [a n h bk en nx fe]. cbn in *. rewrite <- (r_n _ _ _ _ H). exact H.
  - rewrite EL. exists t', fr'. splits; auto.
Qed.

Lemma clear_R : forall ph (t : tbl) m r, R ph t m ->
  exists t', tbl_clear r t = Ok t' /\
    R (match ph, r with Used, true => Released | _, _ => ph end) t' [].
Proof.
  intros ph t m r H. unfold tbl_clear. destruct ph; cbn [HashProofs.R] in *.
  - pose proof H as (N1 & N2 & N3 & N4 & N5 & ->). rewrite N1. cbn [Z.to_nat clear_all bind].
    rewrite N2. rewrite andb_false_r. eexists; split; [reflexivity|].
    cbn; unfold Rnone; cbn. splits; auto.
  - destruct (clear_used t m H) as (t' & fr & E & A1 & A2 & A3). rewrite E; cbn [bind].
    assert (AP : 0 < t_alloc t').
    { destruct (r_size _ _ _ _ A3) as (k & Hk & _ & Ea). cbn [t_alloc] in Ea. rewrite Ea.
      destruct (alloc_for_pos k Hk); lia. }
    destruct r; cbn [andb].
    + assert (X : (0 <? t_alloc t') = true) by (apply Z.ltb_lt; exact AP). rewrite X.
      eexists; split; [reflexivity|]. cbn; unfold Rnone; cbn. splits; try reflexivity; try discriminate.
      intros _.
      (* the free list contains every entry, so its head is an entry *)
      pose proof (r_free _ _ _ _ A3) as SF. cbn [t_free t_next] in SF.
      pose proof (r_perm _ _ _ _ A3) as PP. rewrite concat_repeat_nil in PP. cbn [app t_alloc] in PP.
      destruct fr as [|x fr].
      * apply Permutation_nil in PP. rewrite zrange_cons in PP by lia. discriminate.
      * cbn [seg] in SF. destruct SF as (-> & N & _). exact N.
    + eexists; split; [reflexivity|]. exists (repeat [] (Z.to_nat (t_hsize t))), fr.
      split; [exact A3|]. rewrite concat_repeat_nil. split; constructor.
  - pose proof H as (N1 & N2 & N3 & N4 & N5 & ->). rewrite N1. cbn [Z.to_nat clear_all bind].
    rewrite N2. rewrite andb_false_r. eexists; split; [reflexivity|].
    cbn; unfold Rnone; cbn. splits; auto.
Qed.

(** ** Copies *)
Lemma copy_chain_spec : forall c (t : tbl) i fuel ne,
  seg (t_next t) i c -> walkable t c -> (length c < fuel)%nat ->
  exists ne', copy_chain fuel t i ne = Ok ne' /\
    (forall x, In x c -> ne' x = t_entries t x) /\ (forall x, ~ In x c -> ne' x = ne x).
Proof.
  induction c as [|x c IH]; intros t i fuel ne S W L;
    (destruct fuel as [|fuel]; [cbn in L; lia|]); cbn [copy_chain].
  - cbn [seg] in S. subst i. rewrite Z.eqb_refl. exists ne. splits; auto. intros x [].
  - cbn [seg] in S. destruct S as (-> & N & j & Ej & S).
    destruct (Z.eqb_spec x INV) as [E|_]; [contradiction|].
    destruct (W x (or_introl eq_refl)) as (A & k & v & E).
    rewrite (rd_entry_ok t x _ A E); cbn [bind].
    rewrite (rd_next_ok t x _ A Ej); cbn [bind].
    destruct (IH t j fuel (upd ne x (Some (k, v))) S) as (ne' & E' & B1 & B2).
    + intros y Hy; apply W; right; exact Hy.
    + cbn in L; lia.
    + exists ne'. split; [exact E'|]. split.
      * intros y [<-|Hy]; [|apply B1; exact Hy].
        destruct (in_dec Z.eq_dec x c) as [I|I]; [apply B1; exact I|].
        rewrite B2 by exact I. rewrite upd_same. congruence.
      * intros y Hy. cbn [In] in Hy. rewrite B2 by tauto. apply upd_other. intros ->; tauto.
Qed.

Lemma copy_all_spec : forall rest pre (t : tbl) cs fr ne,
  trep t cs fr -> cs = pre ++ rest ->
  (forall x, In x (concat pre) -> ne x = t_entries t x) ->
  exists ne', copy_all (length rest) t (zlen pre) ne = Ok ne' /\
    (forall x, In x (concat cs) -> ne' x = t_entries t x).
Proof.
  induction rest as [|c rest IH]; intros pre t cs fr ne H E HN; cbn [length copy_all].
  - exists ne. split; [reflexivity|]. rewrite E, app_nil_r. exact HN.
  - assert (Ec : znth cs (zlen pre) = Some c) by (rewrite E; apply znth_mid).
    destruct (copy_chain_spec c t (t_buckets t (zlen pre)) (fuel_of t) ne) as (ne1 & E1 & B1 & B2).
    + apply (r_seg _ _ _ _ H _ _ Ec).
    + eapply trep_walkable; eassumption.
    + eapply trep_fuel; eassumption.
    + rewrite E1; cbn [bind].
      replace (zlen pre + 1) with (zlen (pre ++ [c])) by (rewrite zlen_app, zlen_cons, zlen_nil; lia).
      apply (IH (pre ++ [c]) t cs fr ne1 H).
      * rewrite <- app_assoc. exact E.
      * intros x Hx. destruct (in_dec Z.eq_dec x c) as [I|I]; [apply B1; exact I|].
        rewrite B2 by exact I. apply HN. rewrite concat_app, in_app_iff in Hx. cbn in Hx.
        rewrite app_nil_r in Hx. tauto.
Qed.

Lemma copy_R : forall ph (t : tbl) m, R ph t m ->
  exists t', tbl_copy t = Ok t' /\ R ph t' m.
Proof.
  intros ph t m H. unfold tbl_copy. destruct ph; cbn [HashProofs.R] in *.
  - pose proof H as (N1 & N2 & N3 & N4 & N5 & ->). rewrite N1. cbn [Z.to_nat copy_all bind].
    eexists; split; [reflexivity|]. cbn; unfold Rnone; cbn. splits; auto.
  - destruct H as (cs & fr & H & P & ND).
    destruct (copy_all_spec cs [] t cs fr (fun _ => None) H eq_refl) as (ne & E & B).
    + intros x [].
    + rewrite zlen_nil in E.
      replace (Z.to_nat (t_hsize t)) with (length cs) by (pose proof (r_len _ _ _ _ H); unfold zlen in *; lia).
      rewrite E; cbn [bind]. eexists; split; [reflexivity|].
      exists cs, fr. split; [|split; [|exact ND]].
      * constructor; cbn; try apply H. intros b c i Ec Hi.
        rewrite B by (apply In_concat_znth; eauto). apply (r_ent _ _ _ _ H b c i Ec Hi).
      * eapply Permutation_trans; [|exact P]. rewrite (ents_ext t); [apply Permutation_refl|].
        intros i Hi. cbn. apply B; exact Hi.
  - pose proof H as (N1 & N2 & N3 & N4 & N5 & ->). rewrite N1. cbn [Z.to_nat copy_all bind].
    eexists; split; [reflexivity|]. cbn; unfold Rnone; cbn. splits; auto.
Qed.

(** ** Lookups *)
Lemma find_R : forall ph (t : tbl) m key, R ph t m ->
  exists r, tbl_find_entry hash keq t key = Ok r /\
    match lookup keq key m with
    | None => r = INV
    | Some v => r <> INV /\ rd_entry t r = Ok (key, v) /\ ph = Used /\
                0 < t_hsize t /\ 0 <= r /\ bucket_of (hash key) (t_hsize t) < t_hsize t /\
                forall w, R ph (overwrite t r key w) (m_set keq key w m)
    end.
Proof.
  intros ph t m key H. destruct ph; cbn [HashProofs.R] in *.
  - pose proof H as (N1 & _ & _ & _ & _ & ->). unfold tbl_find_entry. rewrite N1. cbn. eauto.
  - destruct H as (cs & fr & H & P & ND).
    destruct (find_entry_spec hash keq keq_spec t m cs fr key H P ND) as (r & E & HR).
    exists r. split; [exact E|].
    destruct HR as [[-> LK]|(N & A & v & c & Er & LK & Ec & Hr)]; rewrite LK; [reflexivity|].
    split; [exact N|]. split; [apply rd_entry_ok; assumption|]. split; [reflexivity|].
    destruct (trep_hpos hash _ _ _ H) as [HP _]. split; [lia|].
    split. { unfold in_alloc in A. apply andb_true_iff in A. destruct A as [A _]. apply Z.leb_le in A. exact A. }
    split. { destruct (r_size _ _ _ _ H) as (k & Hk & E2 & _). rewrite E2.
             pose proof (bucket_range (hash key) k ltac:(lia)). lia. }
    intros w. destruct (overwrite_spec hash keq keq_spec t cs fr m r key w v c H P ND Er Ec Hr) as [H' P'].
    exists cs, fr. split; [exact H'|]. split; [exact P'|]. apply NoDup_m_set; assumption.
  - pose proof H as (N1 & _ & _ & _ & _ & ->). unfold tbl_find_entry. rewrite N1. cbn. eauto.
Qed.

Lemma R_size : forall ph (t : tbl) m, R ph t m -> t_n t = zlen m.
Proof.
  intros ph t m H. destruct ph; cbn [HashProofs.R] in *.
  - destruct H as (_ & _ & N & _ & _ & ->). exact N.
  - destruct H as (cs & fr & H & P & ND). rewrite (r_n _ _ _ _ H).
    unfold zlen. rewrite <- (Permutation_length P), (trep_ents_length hash t cs fr H). reflexivity.
  - destruct H as (_ & _ & N & _ & _ & ->). exact N.
Qed.

Lemma R_nodup : forall ph (t : tbl) m, R ph t m -> NoDup (map fst m).
Proof.
  intros ph t m H. destruct ph; cbn [HashProofs.R] in *.
  - destruct H as (_ & _ & _ & _ & _ & ->). constructor.
  - destruct H as (cs & fr & _ & _ & ND). exact ND.
  - destruct H as (_ & _ & _ & _ & _ & ->). constructor.
Qed.

Lemma all_found_spec : forall eqv ph (t : tbl) m l, R ph t m ->
  all_found hash keq eqv t l = Ok (m_incl keq eqv l m).
Proof.
  intros eqv ph t m l H; induction l as [|[k v] l IH]; [reflexivity|].
  cbn [all_found m_incl forallb fst snd].
  destruct (find_R ph t m k H) as (r & E & HR). rewrite E; cbn [bind].
  destruct (lookup keq k m) as [w|].
  - destruct HR as (N & Er & _). destruct (Z.eqb_spec r INV); [contradiction|].
    rewrite Er; cbn [bind]. destruct (eqv w v); [exact IH|reflexivity].
  - subst r. rewrite Z.eqb_refl. reflexivity.
Qed.

Lemma forallb_perm : forall (B : Type) (f : B -> bool) l l',
  Permutation l l' -> forallb f l = forallb f l'.
Proof.
  intros B f l l' P; induction P; cbn [forallb].
  - reflexivity.
  - rewrite IHP; reflexivity.
  - destruct (f x), (f y); reflexivity.
  - congruence.
Qed.

Lemma eq_R : forall ph1 ph2 (t u : tbl) m1 m2, R ph1 t m1 -> R ph2 u m2 ->
  tbl_eq hash keq veq t u = Ok (m_eq keq veq m1 m2) /\
  tbl_eq_set hash keq t u = Ok (m_eq_set keq m1 m2).
Proof.
  intros ph1 ph2 t u m1 m2 H1 H2. unfold tbl_eq, tbl_eq_set, m_eq, m_eq_set.
  rewrite (R_size _ _ _ H1), (R_size _ _ _ H2).
  destruct (zlen m1 =? zlen m2); [|split; reflexivity].
  destruct (iter_R _ _ _ H1) as (l1 & E1 & P1). destruct (iter_R _ _ _ H2) as (l2 & E2 & P2).
  rewrite E1, E2; cbn [bind].
  rewrite !(all_found_spec _ _ _ _ _ H2). cbn [bind].
  assert (X : forall (eqv : V -> V -> bool) l m m', Permutation l m -> m_incl keq eqv l m' = m_incl keq eqv m m')
    by (intros; unfold m_incl; apply forallb_perm; assumption).
  rewrite !(X _ l1 m1 m2 P1). cbn [andb].
  split; [|reflexivity].
  destruct (m_incl keq veq m1 m2); [|reflexivity].
  rewrite (all_found_spec _ _ _ _ _ H1). rewrite (X _ l2 m2 m1 P2). reflexivity.
Qed.

(** ** Reserve *)
Lemma reserve_R : forall ph (t : tbl) m c, R ph t m -> ph <> Released -> c <= 2 ^ 63 ->
  exists t', tbl_reserve hash c t = Ok t' /\ R (if c <=? 0 then ph else Used) t' m /\ c <= Z.max 0 (t_hsize t').
Proof.
  intros ph t m c H NR Hc. destruct ph; cbn [HashProofs.R] in *; [| |congruence].
  - destruct (Z.leb_spec c 0) as [L|L].
    + exists t. unfold tbl_reserve. pose proof H as (N1 & _). rewrite N1.
      destruct (Z.leb_spec c 0); [|lia]. split; [reflexivity|]. split; [exact H|lia].
    + destruct (reserve_fresh hash c t m H L (pow_capacity_spec c Hc))
        as (t' & cs' & fr' & E & H' & P' & _ & HL & _).
      exists t'. split; [exact E|]. split; [|lia]. pose proof H as (_ & _ & _ & _ & _ & ->).
      exists cs', fr'. split; [exact H'|]. rewrite P'. split; constructor.
  - destruct H as (cs & fr & H & P & ND).
    destruct (Z_lt_le_dec (t_hsize t) c) as [L|L].
    + destruct (reserve_used hash c t cs fr m H P L (pow_capacity_spec c Hc))
        as (t' & cs' & fr' & E & H' & P' & _ & HL & _).
      exists t'. split; [exact E|]. split; [|lia].
      destruct (c <=? 0); exists cs', fr'; auto.
    + exists t. unfold tbl_reserve. destruct (Z.leb_spec c (t_hsize t)); [|lia].
      split; [reflexivity|]. split; [destruct (c <=? 0); exists cs, fr; auto|lia].
Qed.

(** ** Histories *)
Definition Rstore (s : tstore K V) (fs : fstore) : Prop := forall x, R (fst (fs x)) (s x) (snd (fs x)).

Lemma Rstore_upd : forall s fs x t ph m, Rstore s fs -> R ph t m -> Rstore (nupd s x t) (nupd fs x (ph, m)).
Proof.
  intros s fs x t ph m HS H y. destruct (Nat.eq_dec y x) as [->|N].
  - rewrite !nupd_same. exact H.
  - rewrite !nupd_other by exact N. apply HS.
Qed.

Lemma step_refines : forall s fs o fs' r, Rstore s fs -> f_step keq veq fs o = Ok (fs', r) ->
  exists s', tbl_step hash keq veq s o = Ok (s', r) /\ Rstore s' fs'.
Proof.
  intros s fs o fs' r HS HF. destruct o as [x mode k v|x k|x rel|x c|x y|x y|x k v|x k|x k|x k|x|x y|x y];
    cbn [f_step tbl_step] in *; pose proof (HS x) as Hx; try pose proof (HS y) as Hy.
  - destruct (fs x) as [ph m] eqn:Ef. cbn [fst snd] in Hx.
    unfold has in HF. destruct ph; [| |discriminate].
    + destruct (add_fresh hash keq keq_spec mode (s x) m k v Hx) as (t' & E & RU).
      pose proof Hx as (_ & _ & _ & _ & _ & ->). cbn [lookup] in HF. injection HF as <- <-.
      rewrite E; cbn [bind]. eexists; split; [reflexivity|]. apply Rstore_upd; assumption.
    + assert (HD : mode = Duplicate -> lookup keq k m = None).
      { intros ->. destruct (lookup keq k m); [discriminate|reflexivity]. }
      destruct (add_used hash keq keq_spec mode (s x) m k v Hx HD) as (t' & b & E & HR).
      rewrite E; cbn [bind].
      destruct (lookup keq k m) as [v0|].
      * destruct mode; [|discriminate|]; injection HF as <- <-.
        -- destruct HR as [-> RU]. eexists; split; [reflexivity|]. apply Rstore_upd; assumption.
        -- destruct HR as [-> ->]. eexists; split; [reflexivity|]. intros z.
           destruct (Nat.eq_dec z x) as [->|N]; [rewrite nupd_same|rewrite nupd_other by exact N; apply HS].
           rewrite Ef; exact Hx.
      * injection HF as <- <-. destruct HR as [-> RU].
        eexists; split; [reflexivity|]. apply Rstore_upd; assumption.
  - destruct (fs x) as [ph m]. cbn [fst snd] in Hx. injection HF as <- <-.
    destruct (remove_R _ _ _ k Hx) as (t' & p & E & HR). rewrite E; cbn [bind].
    eexists; split; [reflexivity|]. apply Rstore_upd; assumption.
  - destruct (fs x) as [ph m]. cbn [fst snd] in Hx. injection HF as <- <-.
    destruct (clear_R _ _ _ rel Hx) as (t' & E & HR). rewrite E; cbn [bind].
    eexists; split; [reflexivity|]. apply Rstore_upd; assumption.
  - destruct (fs x) as [ph m] eqn:Ef. cbn [fst snd] in Hx.
    destruct (Z.leb_spec c 0) as [L|L].
    + (* no effect *)
      assert (E : tbl_reserve hash c (s x) = Ok (s x)).
      { unfold tbl_reserve. assert (0 <= t_hsize (s x)).
        { destruct ph; cbn [HashProofs.R] in Hx.
          - destruct Hx as (N & _); lia.
          - destruct Hx as (cs & fr & H & _). destruct (trep_hpos hash _ _ _ H); lia.
          - destruct Hx as (N & _); lia. }
        destruct (Z.leb_spec c (t_hsize (s x))); [reflexivity|lia]. }
      rewrite E; cbn [bind]. eexists; split.
      * destruct ph; try (destruct (c <=? 2 ^ 63); [|discriminate]); injection HF as <- <-; reflexivity.
      * assert (RS : Rstore (nupd s x (s x)) fs).
        { intros z. destruct (Nat.eq_dec z x) as [->|N]; [rewrite nupd_same; rewrite Ef; exact Hx|].
          rewrite nupd_other by exact N. apply HS. }
        destruct ph; try (destruct (c <=? 2 ^ 63); [|discriminate]); injection HF as <- <-;
          try exact RS; apply Rstore_upd; assumption.
    + destruct (Z.leb_spec c (2 ^ 63)) as [L2|L2]; [|destruct ph; discriminate].
      destruct ph; [| |discriminate]; injection HF as <- <-.
      * destruct (reserve_R Fresh _ _ c Hx ltac:(discriminate) L2) as (t' & E & HR & _).
        rewrite E; cbn [bind]. eexists; split; [reflexivity|].
        destruct (Z.leb_spec c 0); [lia|]. apply Rstore_upd; assumption.
      * destruct (reserve_R Used _ _ c Hx ltac:(discriminate) L2) as (t' & E & HR & _).
        rewrite E; cbn [bind]. eexists; split; [reflexivity|].
        destruct (Z.leb_spec c 0); [lia|]. apply Rstore_upd; assumption.
  - destruct (Nat.eqb x y); [discriminate|]. injection HF as <- <-.
    destruct (clear_R _ _ _ true Hx) as (t0 & E0 & _). rewrite E0; cbn [bind].
    destruct (copy_R _ _ _ Hy) as (t' & E & HR). rewrite E; cbn [bind].
    eexists; split; [reflexivity|]. destruct (fs y) as [ph m]. apply Rstore_upd; assumption.
  - injection HF as <- <-. destruct (Nat.eqb_spec x y) as [<-|N].
    + eexists; split; [reflexivity|]. intros z.
      destruct (Nat.eq_dec z x) as [->|N]; [rewrite nupd_same; exact Hx|].
      rewrite nupd_other by exact N. apply HS.
    + unfold tbl_assign. destruct (clear_R _ _ _ true Hx) as (t0 & E0 & _). rewrite E0; cbn [bind].
      destruct (copy_R _ _ _ Hy) as (t' & E & HR). rewrite E; cbn [bind].
      eexists; split; [reflexivity|]. destruct (fs y) as [ph m]. apply Rstore_upd; assumption.
  - destruct (fs x) as [ph m]. cbn [fst snd] in Hx. unfold has in HF.
    destruct (find_R _ _ _ k Hx) as (i & E & HR). unfold tbl_set_at. rewrite E; cbn [bind].
    destruct (lookup keq k m) as [v0|]; [|discriminate]. injection HF as <- <-.
    destruct HR as (N & Er & _ & _ & _ & _ & HW). rewrite Er; cbn [bind].
    eexists; split; [reflexivity|]. apply Rstore_upd; [exact HS|]. apply HW.
  - injection HF as <- <-. destruct (find_R _ _ _ k Hx) as (i & E & HR).
    unfold tbl_contains, has. rewrite E; cbn [bind].
    destruct (lookup keq k (snd (fs x))).
    + destruct HR as (N & _). destruct (Z.eqb_spec i INV); [contradiction|]. eauto.
    + subst i. rewrite Z.eqb_refl. eauto.
  - destruct (find_R _ _ _ k Hx) as (i & E & HR). unfold tbl_at. rewrite E; cbn [bind].
    destruct (lookup keq k (snd (fs x))); [|discriminate]. injection HF as <- <-.
    destruct HR as (N & Er & _). rewrite Er; cbn [bind]. eauto.
  - injection HF as <- <-. destruct (find_R _ _ _ k Hx) as (i & E & HR). unfold tbl_find. rewrite E; cbn [bind].
    destruct (lookup keq k (snd (fs x))).
    + destruct HR as (N & Er & _ & _ & _ & BL & _). destruct (Z.eqb_spec i INV); [contradiction|].
      cbn [bind fst snd].
      destruct (Z.eqb_spec (bucket_of (hash k) (t_hsize (s x))) (t_hsize (s x))); [lia|]. cbn [andb].
      rewrite Er; cbn [bind]. eauto.
    + subst i. rewrite Z.eqb_refl. cbn [bind]. unfold tbl_end; cbn [fst snd].
      rewrite !Z.eqb_refl. cbn [andb]. eauto.
  - injection HF as <- <-. rewrite (R_size _ _ _ Hx). eauto.
  - injection HF as <- <-. destruct (eq_R _ _ _ _ _ _ Hx Hy) as [E _]. rewrite E; cbn [bind]. eauto.
  - injection HF as <- <-. destruct (eq_R _ _ _ _ _ _ Hx Hy) as [_ E]. rewrite E; cbn [bind]. eauto.
Qed.

Lemma run_refines : forall ops s fs fs' outs, Rstore s fs -> f_run keq veq fs ops = Ok (fs', outs) ->
  exists s', tbl_run hash keq veq s ops = Ok (s', outs) /\ Rstore s' fs'.
Proof.
  induction ops as [|o ops IH]; intros s fs fs' outs HS HF; cbn [f_run tbl_run] in *.
  - injection HF as <- <-. eauto.
  - destruct (f_step keq veq fs o) as [[fs1 r]| |] eqn:E1; cbn [bind] in HF; try discriminate.
    destruct (f_run keq veq fs1 ops) as [[fs2 rs]| |] eqn:E2; cbn [bind] in HF; try discriminate.
    injection HF as <- <-.
    destruct (step_refines s fs o fs1 r HS E1) as (s1 & S1 & H1). rewrite S1; cbn [bind].
    destruct (IH s1 fs1 fs2 rs H1 E2) as (s2 & S2 & H2). rewrite S2; cbn [bind]. eauto.
Qed.

Lemma Rstore_init : Rstore tstore_init fstore_init.
Proof. intros x. cbn. cbn; unfold Rnone; cbn. splits; auto. discriminate. Qed.

(** ** Equality of the specification *)
Lemma has_In : forall k (m : list (K * V)), has keq k m = true <-> In k (map fst m).
Proof.
  intros k m. unfold has. destruct (lookup keq k m) eqn:E.
  - split; [|reflexivity]. intros _. destruct (in_dec (fun a b => 
      match Bool.bool_dec (keq a b) true with
      | left h => left (proj1 (keq_spec a b) h)
      | right h => right (fun e => h (proj2 (keq_spec a b) e)) end) k (map fst m)) as [I|I]; [exact I|].
    apply (lookup_None keq keq_spec) in I. congruence.
  - split; [discriminate|]. intros I. apply (lookup_None keq keq_spec) in E. contradiction.
Qed.

Lemma m_eq_set_spec : forall (m1 m2 : list (K * V)), NoDup (map fst m1) -> NoDup (map fst m2) ->
  (m_eq_set keq m1 m2 = true <-> forall k, has keq k m1 = has keq k m2).
Proof.
  intros m1 m2 N1 N2. unfold m_eq_set, m_incl. rewrite andb_true_iff, Z.eqb_eq, forallb_forall. split.
  - intros [L F] k.
    assert (I : incl (map fst m1) (map fst m2)).
    { intros x Hx. apply in_map_iff in Hx. destruct Hx as ([a b] & <- & Hx). specialize (F _ Hx).
      cbn [fst] in *. apply has_In. unfold has. destruct (lookup keq a m2); [reflexivity|discriminate]. }
    assert (I2 : incl (map fst m2) (map fst m1)).
    { apply NoDup_length_incl; [exact N1| |exact I]. rewrite !map_length. unfold zlen in L. lia. }
    apply eq_true_iff_eq. rewrite !has_In. split; [apply I|apply I2].
  - intros H. split.
    + assert (A : (length (map fst m1) <= length (map fst m2))%nat).
      { apply NoDup_incl_length; [exact N1|]. intros x. rewrite <- !has_In, H. auto. }
      assert (B : (length (map fst m2) <= length (map fst m1))%nat).
      { apply NoDup_incl_length; [exact N2|]. intros x. rewrite <- !has_In, H. auto. }
      rewrite !map_length in *. unfold zlen. lia.
    + intros [a b] Hx. cbn [fst snd]. specialize (H a).
      assert (has keq a m1 = true) by (apply has_In; apply (in_map fst) in Hx; exact Hx).
      rewrite H0 in H. unfold has in H. destruct (lookup keq a m2); [reflexivity|discriminate].
Qed.

Lemma m_eq_spec : forall (m1 m2 : list (K * V)),
  (forall v w, veq v w = true <-> v = w) -> NoDup (map fst m1) -> NoDup (map fst m2) ->
  (m_eq keq veq m1 m2 = true <-> forall k, lookup keq k m1 = lookup keq k m2).
Proof.
  intros m1 m2 HV N1 N2. unfold m_eq. rewrite !andb_true_iff, Z.eqb_eq. split.
  - intros [[L F1] F2] k. unfold m_incl in *. rewrite forallb_forall in F1, F2.
    assert (X : forall a v, lookup keq a m1 = Some v -> lookup keq a m2 = Some v).
    { intros a v E. apply (lookup_In keq keq_spec) in E; [|exact N1]. specialize (F1 _ E). cbn [fst snd] in F1.
      destruct (lookup keq a m2) as [w|]; [|discriminate]. apply HV in F1. congruence. }
    assert (Y : forall a v, lookup keq a m2 = Some v -> lookup keq a m1 = Some v).
    { intros a v E. apply (lookup_In keq keq_spec) in E; [|exact N2]. specialize (F2 _ E). cbn [fst snd] in F2.
      destruct (lookup keq a m1) as [w|]; [|discriminate]. apply HV in F2. congruence. }
    destruct (lookup keq k m1) as [v|] eqn:E1.
    + symmetry; apply X; exact E1.
    + destruct (lookup keq k m2) as [v|] eqn:E2; [|reflexivity]. apply Y in E2. congruence.
  - intros H.
    assert (S : m_eq_set keq m1 m2 = true).
    { apply m_eq_set_spec; [exact N1|exact N2|]. intros k; unfold has; rewrite H; reflexivity. }
    unfold m_eq_set in S. apply andb_true_iff in S. destruct S as [S _]. apply Z.eqb_eq in S.
    split; [split; [exact S|]|]; unfold m_incl; apply forallb_forall; intros [a b] Hx; cbn [fst snd];
      apply (lookup_In keq keq_spec) in Hx; try assumption.
    + rewrite <- H, Hx. apply HV; reflexivity.
    + rewrite H, Hx. apply HV; reflexivity.
Qed.

(** ** Growth *)
Lemma R_free : forall (t : tbl) cs fr, trep t cs fr -> t_n t < t_alloc t -> t_free t <> INV.
Proof.
  intros t cs fr H L E.
  assert (fr = []) as ->.
  { destruct fr as [|x fr]; [reflexivity|]. pose proof (r_free _ _ _ _ H) as S. cbn [seg] in S.
    destruct S as (X & N & _). congruence. }
  pose proof (Permutation_length (r_perm _ _ _ _ H)) as P. rewrite app_nil_r in P.
  rewrite (r_n _ _ _ _ H) in L. unfold zlen in L. rewrite P in L.
  unfold zrange in L. rewrite map_length, seq_length in L. lia.
Qed.

Lemma add_no_growth : forall mode (t : tbl) m key v t' r, Rused t m -> t_n t < t_alloc t ->
  tbl_add hash keq mode key v t = Ok (t', r) -> t_hsize t' = t_hsize t /\ t_alloc t' = t_alloc t.
Proof.
  intros mode t m key v t' r (cs & fr & H & P & ND) L E.
  pose proof (R_free t cs fr H L) as NF.
  unfold tbl_add in E.
  destruct (if 0 <? t_hsize t then _ else _) as [hit| |]; cbn [bind] in E; try discriminate.
  destruct (negb (hit =? INV)).
  - destruct mode; injection E as <- <-; split; reflexivity.
  - destruct (Z.eqb_spec (t_free t) INV); [contradiction|]. cbn [bind] in E.
    destruct (rd_next t (t_free t)) as [nf| |]; cbn [bind] in E; try discriminate.
    destruct (_ && _) in E; [|discriminate]. injection E as <- <-. split; reflexivity.
Qed.

Lemma R_alloc : forall (t : tbl) m, Rused t m -> 3 * t_hsize t <= 4 * t_alloc t.
Proof.
  intros t m (cs & fr & H & _). destruct (r_size _ _ _ _ H) as (k & Hk & E1 & E2).
  rewrite E1, E2. apply alloc_for_pos; exact Hk.
Qed.

Lemma zlen_m_set : forall k v (m : list (K * V)), NoDup (map fst m) ->
  zlen (m_set keq k v m) = if has keq k m then zlen m else zlen m + 1.
Proof.
  intros k v m ND. unfold m_set. rewrite zlen_cons. unfold has.
  destruct (lookup keq k m) as [w|] eqn:E.
  - apply (lookup_In keq keq_spec) in E; [|exact ND].
    apply in_split in E. destruct E as (l1 & l2 & ->).
    rewrite (m_remove_mid keq keq_spec k w l1 l2 ND). rewrite !zlen_app, zlen_cons. lia.
  - apply (lookup_None keq keq_spec) in E. rewrite (m_remove_absent keq keq_spec) by exact E. lia.
Qed.

(** Adding entries as long as at most 3/4 of the capacity is used changes no capacity. *)
Lemma adds_no_growth : forall ops x s fs s' fs' outs c,
  Rstore s fs -> Forall (fun o => exists m k v, o = TAdd x m k v) ops ->
  f_run keq veq fs ops = Ok (fs', outs) -> tbl_run hash keq veq s ops = Ok (s', outs) ->
  fst (fs x) = Used -> c = t_hsize (s x) -> 4 * zlen (snd (fs' x)) <= 3 * c ->
  t_hsize (s' x) = c /\ zlen (snd (fs x)) <= zlen (snd (fs' x)).
Proof.
  induction ops as [|o ops IH]; intros x s fs s' fs' outs c HS HF EF ET HU Ec HL;
    cbn [f_run tbl_run] in *.
  - injection EF as <- <-. injection ET as <-. split; [congruence|lia].
  - inversion HF as [|? ? (mode & k & v & ->) HF']; subst o l.
    destruct (f_step keq veq fs _) as [[fs1 r]| |] eqn:E1; cbn [bind] in EF; try discriminate.
    destruct (f_run keq veq fs1 ops) as [[fs2 rs]| |] eqn:E2; cbn [bind] in EF; try discriminate.
    injection EF as <- <-.
    destruct (step_refines s fs _ fs1 r HS E1) as (s1 & S1 & H1). rewrite S1 in ET; cbn [bind] in ET.
    destruct (run_refines ops s1 fs1 fs2 rs H1 E2) as (s2 & S2 & H2). rewrite S2 in ET; cbn [bind] in ET.
    injection ET as <-.
    pose proof (HS x) as Hx. rewrite HU in Hx. cbn [HashProofs.R] in Hx.
    pose proof (R_size Used _ _ Hx) as Sz. pose proof (R_nodup Used _ _ Hx) as ND.
    assert (HU1 : fst (fs1 x) = Used /\ zlen (snd (fs x)) <= zlen (snd (fs1 x)) /\
                  (zlen (snd (fs1 x)) = zlen (snd (fs x)) + 1 \/
                   (has keq k (snd (fs x)) = true))).
    { cbn [f_step] in E1. destruct (fs x) as [ph m] eqn:Ex. cbn [fst snd] in *. subst ph.
      destruct (has keq k m) eqn:Eh.
      - destruct mode; [|discriminate|]; injection E1 as <- _.
        + rewrite nupd_same. cbn [fst snd]. rewrite zlen_m_set by exact ND. rewrite Eh. auto with zarith.
        + rewrite Ex. cbn [fst snd]. auto with zarith.
      - injection E1 as <- _. rewrite nupd_same. cbn [fst snd]. rewrite zlen_m_set by exact ND. rewrite Eh.
        splits; auto; lia. }
    destruct HU1 as (HU1 & HLe & HC).
    (* the rest does not shrink the content *)
    assert (MONO : zlen (snd (fs1 x)) <= zlen (snd (fs2 x))).
    { clear - HF' E2 H1 keq_spec. revert fs1 fs2 rs s1 H1 E2.
      induction ops as [|o ops IH2]; intros fs1 fs2 rs s1 H1 E2; cbn [f_run] in E2.
      - injection E2 as <- <-. lia.
      - inversion HF' as [|? ? (mode & k & v & ->) HF'']; subst o l.
        destruct (f_step keq veq fs1 _) as [[fs3 r]| |] eqn:E1; cbn [bind] in E2; try discriminate.
        destruct (f_run keq veq fs3 ops) as [[fs4 rs']| |] eqn:E3; cbn [bind] in E2; try discriminate.
        injection E2 as <- <-.
        destruct (step_refines s1 fs1 _ fs3 r H1 E1) as (s3 & S3 & H3).
        specialize (IH2 HF'' fs3 fs4 rs' s3 H3 E3).
        pose proof (R_nodup _ _ _ (H1 x)) as ND.
        cbn [f_step] in E1. destruct (fs1 x) as [ph m] eqn:Ex. cbn [fst snd] in *.
        destruct ph; try discriminate;
          (destruct (has keq k m) eqn:Eh; [destruct mode; try discriminate|]); injection E1 as <- _;
          rewrite ?nupd_same, ?Ex in IH2; cbn [snd] in IH2;
          rewrite ?zlen_m_set in IH2 by exact ND; rewrite ?Eh in IH2; lia. }
    assert (HH : t_hsize (s1 x) = t_hsize (s x)).
    { cbn [tbl_step] in S1. destruct (tbl_add hash keq mode k v (s x)) as [[t' b]| |] eqn:EA;
        cbn [bind] in S1; try discriminate. injection S1 as <- <-. rewrite nupd_same.
      destruct HC as [HC|HC].
      - eapply (add_no_growth mode (s x) (snd (fs x))); [exact Hx| |exact EA].
        pose proof (R_alloc _ _ Hx). lia.
      - destruct (find_R Used (s x) (snd (fs x)) k Hx) as (i & Ei & HR).
        unfold has in HC. destruct (lookup keq k (snd (fs x))) as [w|] eqn:LK; [|discriminate].
        assert (HM : mode <> Duplicate).
        { intros ->. cbn [f_step] in E1. destruct (fs x) as [ph m] eqn:Ex. cbn [fst snd] in *. subst ph.
          unfold has in E1. rewrite LK in E1. discriminate. }
        destruct HR as (NI & _ & _ & HP & _).
        unfold tbl_add in EA. unfold tbl_find_entry in Ei.
        apply Z.ltb_lt in HP. rewrite HP in *. rewrite add_scan_find in EA by exact HM.
        rewrite Ei in EA. cbn [bind] in EA. destruct (Z.eqb_spec i INV); [contradiction|].
        cbn [negb] in EA. destruct mode; [|congruence|]; injection EA as <- <-; reflexivity. }
    destruct (IH x s1 fs1 s2 fs2 rs c H1 HF' E2 S2 HU1 ltac:(congruence) HL) as [A B].
    split; [exact A|lia].
Qed.

End Proofs2.

Lemma f_run_app : forall (K V : Type) (keq : K -> K -> bool) (veq : V -> V -> bool) (o1 o2 : list (top K V)) s s' outs,
  f_run keq veq s (o1 ++ o2) = Ok (s', outs) ->
  exists s1 r1 r2, f_run keq veq s o1 = Ok (s1, r1) /\ f_run keq veq s1 o2 = Ok (s', r2) /\ outs = r1 ++ r2.
Proof.
  intros K V keq veq o1; induction o1 as [|o o1 IH]; intros o2 s s' outs H; cbn [app f_run] in *.
  - exists s, [], outs. auto.
  - destruct (f_step keq veq s o) as [[s1 r]| |]; cbn [bind] in *; try discriminate.
    destruct (f_run keq veq s1 (o1 ++ o2)) as [[s2 rs]| |] eqn:E; cbn [bind] in H; try discriminate.
    injection H as <- <-. destruct (IH _ _ _ _ E) as (s3 & r1 & r2 & E1 & E2 & ->).
    rewrite E1; cbn [bind]. exists s3, (r :: r1), r2. auto.
Qed.

Lemma reserve_then_adds :
  forall (K V : Type) (hash : K -> Z) (keq : K -> K -> bool) (veq : V -> V -> bool),
    (forall a b, keq a b = true <-> a = b) ->
    forall (ops adds : list (top K V)) x c (ms ms' : fstore) outs outs',
      f_run keq veq fstore_init (ops ++ [TReserve x c]) = Ok (ms, outs) ->
      Forall (fun o => exists m k v, o = TAdd x m k v) adds ->
      f_run keq veq ms adds = Ok (ms', outs') ->
      0 < c -> 4 * zlen (snd (ms' x)) <= 3 * c ->
      exists s s', tbl_run hash keq veq tstore_init (ops ++ [TReserve x c]) = Ok (s, outs) /\
        tbl_run hash keq veq s adds = Ok (s', outs') /\
        c <= t_hsize (s x) /\ t_hsize (s' x) = t_hsize (s x).
Proof.
  intros K V hash keq veq HK ops adds x c ms ms' outs outs' H HF HA Hc HL.
  destruct (run_refines hash keq veq HK _ _ _ ms outs (Rstore_init hash) H) as (s & E & HR).
  destruct (run_refines hash keq veq HK _ _ _ ms' outs' HR HA) as (s' & E' & HR').
  exists s, s'. split; [exact E|]. split; [exact E'|].
  assert (X : fst (ms x) = Used /\ c <= t_hsize (s x)).
  { destruct (f_run_app _ _ keq veq _ _ _ _ _ H) as (m1 & r1 & r2 & F1 & F2 & ->).
    destruct (run_refines hash keq veq HK _ _ _ m1 r1 (Rstore_init hash) F1) as (s1 & E1 & HR1).
    assert (ES : s x = s x) by reflexivity.
    cbn [f_run] in F2. destruct (f_step keq veq m1 (TReserve x c)) as [[m2 r]| |] eqn:ST; cbn [bind] in F2; try discriminate.
    injection F2 as <- <-.
    pose proof (HR1 x) as Hx. cbn [f_step] in ST. destruct (m1 x) as [ph m] eqn:Em. cbn [fst snd] in Hx.
    destruct (Z.leb_spec c 0) as [L|L]; [lia|].
    destruct (Z.leb_spec c (2 ^ 63)) as [L2|L2]; [|destruct ph; discriminate].
    assert (NR : ph <> Released) by (intros ->; discriminate).
    destruct (reserve_R hash ph (s1 x) m c Hx NR L2) as (t' & Er & _ & HL').
    assert (ER : tbl_run hash keq veq tstore_init (ops ++ [TReserve x c]) = Ok (nupd s1 x t', r1 ++ [OUnit])).
    { clear - E1 Er. revert r1 E1. generalize (@tstore_init K V). induction ops as [|o ops IH]; intros s0 r1 E1; cbn [app tbl_run] in *.
      - injection E1 as -> <-. cbn [tbl_step]. rewrite Er. reflexivity.
      - destruct (tbl_step hash keq veq s0 o) as [[s2 r]| |]; cbn [bind] in *; try discriminate.
        destruct (tbl_run hash keq veq s2 ops) as [[s3 rs]| |] eqn:E; cbn [bind] in *; try discriminate.
        injection E1 as -> <-. rewrite (IH s2 rs E). reflexivity. }
    rewrite E in ER. injection ER as -> _. rewrite nupd_same.
    split; [|lia]. destruct ph; try discriminate; injection ST as <- _; rewrite nupd_same; reflexivity. }
  destruct X as [HU HC]. split; [exact HC|].
  destruct (adds_no_growth hash keq veq HK adds x s ms s' ms' outs' (t_hsize (s x)) HR HF HA E' HU eq_refl ltac:(lia))
    as [A _]. exact A.
Qed.
