(** Deque refines double-ended sequences. *)
From Verif Require Import Base Float24 ArrayModel ArraySpec ArrayProofs DequeModel DequeSpec.
Open Scope Z_scope.

Definition pow_cap (c : Z) : Prop := exists k, 4 <= k /\ c = 2 ^ k.

Definition drepr {A} (d : deq A) (l : list A) (b : bool) : Prop :=
  d_size d = zlen l /\ 0 <= d_first d /\ d_first d + d_size d <= d_cap d /\
  ((d_cap d = 0 /\ d_first d = 0) \/ pow_cap (d_cap d)) /\
  (pow_cap (d_cap d) -> l = [] \/ b = true -> d_first d = d_cap d / 2 - 1) /\
  forall i, 0 <= i < zlen l -> d_buf d (d_first d + i) = znth l i.

Lemma pow_cap_facts : forall c, pow_cap c ->
  16 <= c /\ c = 2 * (c / 2) /\ 8 <= c / 2 /\ pow_cap (2 * c) /\ round_cap c = c /\
  round_cap (2 * c) = 2 * c /\ (2 * c) / 2 = c.
Proof.
  intros c (k & Hk & ->).
  assert (E : 2 ^ k = 2 * 2 ^ (k - 1))
    by (rewrite <- Z.pow_succ_r by lia; f_equal; lia).
  assert (8 <= 2 ^ (k - 1)).
  { change 8 with (2 ^ 3); apply Z.pow_le_mono_r; lia. }
  assert (D : 2 ^ k / 2 = 2 ^ (k - 1)).
  { rewrite E, Z.mul_comm, Z.div_mul by lia; reflexivity. }
  assert (E2 : 2 * 2 ^ k = 2 ^ (k + 1)).
  { rewrite <- Z.pow_succ_r by lia; f_equal; lia. }
  rewrite D. repeat split; try lia.
  - exists (k + 1); split; [lia|exact E2].
  - apply round_cap_pow2; lia.
  - rewrite E2; apply round_cap_pow2; lia.
  - rewrite Z.mul_comm, Z.div_mul by lia; reflexivity.
Qed.

Lemma pow_cap_16 : pow_cap 16.
Proof. exists 4; split; [lia|reflexivity]. Qed.

(** Compare capacities: powers of two, so the larger is at least twice the smaller. *)
Section Proofs.
Context {A : Type}.
Variable eqb : A -> A -> bool.
Implicit Types d e : deq A.
Implicit Types l : list A.

Lemma drepr_empty : drepr (@deq_empty A) [] true.
Proof.
  unfold drepr; cbn. repeat split; try lia.
  - intros (k & Hk & E). assert (0 < 2 ^ k) by (apply Z.pow_pos_nonneg; lia). lia.
Qed.

Lemma drepr_weaken : forall d l b, drepr d l b -> drepr d l false.
Proof.
  intros d l b (H1 & H2 & H3 & H4 & H5 & H6); unfold drepr; repeat split; auto.
  intros P [E|E]; [|discriminate]. apply H5; auto.
Qed.

Lemma drepr_nil : forall d b b', drepr d [] b -> drepr d [] b'.
Proof.
  intros d b b' (H1 & H2 & H3 & H4 & H5 & H6); unfold drepr; repeat split; auto.
Qed.

(** Growth to a capacity [c] (a power of two) that is at least twice the current one (or
    anything when the deque is empty). *)
Lemma dreserve_spec : forall c d l b,
  drepr d l b -> pow_cap c -> d_cap d < c -> 2 * d_cap d <= c \/ l = [] ->
  exists d', deq_reserve c d = Ok d' /\ drepr d' l true /\ d_cap d' = c /\
             d_first d' = c / 2 - 1.
Proof.
  intros c d l b (H1 & H2 & H3 & H4 & H5 & H6) PC L L2; unfold deq_reserve.
  destruct (pow_cap_facts c PC) as (F1 & F2 & F3 & F4 & F5 & _).
  destruct (Z.leb_spec c (d_cap d)) as [L'|_]; [lia|].
  rewrite F5.
  pose proof (zlen_nonneg _ l).
  assert (SZ : d_size d <= c / 2).
  { destruct L2 as [L2|L2]; [lia|]. subst l; rewrite zlen_nil in H1; lia. }
  destruct (copy_slots_spec (Z.to_nat (d_size d)) (d_buf d) (d_cap d) (d_first d)
              (fun _ => None) c (c / 2 - 1)) as (nb & E & Hin & _); try lia.
  rewrite E; cbn [bind].
  eexists; split; [reflexivity|]. split; [|split; reflexivity].
  unfold drepr; cbn [d_buf d_size d_cap d_first]; repeat split; auto; try lia.
  intros i Hi. rewrite Hin by lia. apply H6; exact Hi.
Qed.

Lemma next_cap_spec : forall d l b,
  drepr d l b -> pow_cap (deq_next_cap d) /\ d_cap d < deq_next_cap d /\
                 2 * d_cap d <= deq_next_cap d.
Proof.
  intros d l b (H1 & H2 & H3 & H4 & H5 & H6); unfold deq_next_cap.
  destruct (Z.eqb_spec (d_cap d) 0) as [E|E].
  - unfold GLOBAL_ALIGNMENT; split; [apply pow_cap_16|lia].
  - destruct H4 as [[H4 _]|H4]; [lia|].
    destruct (pow_cap_facts _ H4) as (F1 & F2 & F3 & F4 & _).
    replace (d_cap d * 2) with (2 * d_cap d) by lia. split; [exact F4|lia].
Qed.

Lemma cap_cases : forall d l b, drepr d l b -> d_cap d = 0 -> l = [] /\ d_first d = 0.
Proof.
  intros d l b (H1 & H2 & H3 & H4 & H5 & H6) E.
  pose proof (zlen_nonneg _ l).
  assert (zlen l = 0) by lia.
  destruct l as [|x l]; [|rewrite zlen_cons in *; pose proof (zlen_nonneg _ l); lia].
  split; [reflexivity|lia].
Qed.

Lemma drepr_grow : forall d l b (g : bool),
  drepr d l b ->
  exists d1, (if g then deq_reserve (deq_next_cap d) d else Ok d) = Ok d1 /\ drepr d1 l b /\
    (g = true -> d_first d1 = d_cap d1 / 2 - 1 /\ pow_cap (d_cap d1) /\ 2 * d_size d1 <= d_cap d1)
    /\ (g = false -> d1 = d).
Proof.
  intros d l b g R. destruct g.
  - destruct (next_cap_spec d l b R) as (N1 & N2 & N3).
    destruct (dreserve_spec _ d l b R N1 N2 (or_introl N3)) as (d1 & E & R1 & C1 & C2).
    exists d1; split; [exact E|]. split.
    + destruct b; [exact R1|eapply drepr_weaken; exact R1].
    + split; [|discriminate]. intros _. rewrite C1. split; [exact C2|]. split; [exact N1|].
      destruct R as (H1 & H2 & H3 & _). destruct R1 as (H1' & _). lia.
  - exists d; split; [reflexivity|]. split; [exact R|]. split; [discriminate|auto].
Qed.

Lemma add_back_spec : forall x d l b,
  drepr d l b -> exists d', deq_add_back x d = Ok d' /\ drepr d' (l ++ [x]) b.
Proof.
  intros x d l b R; unfold deq_add_back.
  destruct (drepr_grow d l b (d_cap d <=? d_first d + d_size d) R) as (d1 & E & R1 & G1 & G2).
  rewrite E; cbn [bind].
  pose proof R1 as (H1 & H2 & H3 & H4 & H5 & H6).
  pose proof (zlen_nonneg _ l).
  assert (L : d_first d1 + d_size d1 < d_cap d1 /\ pow_cap (d_cap d1)).
  { destruct (Z.leb_spec (d_cap d) (d_first d + d_size d)) as [L|L].
    - destruct (G1 eq_refl) as (X1 & X2 & X3).
      destruct (pow_cap_facts _ X2) as (F1 & F2 & F3 & _). split; [lia|assumption].
    - rewrite (G2 eq_refl) in *. split; [exact L|].
      destruct H4 as [[H4 H4']|H4]; [lia|exact H4]. }
  destruct L as [L PC].
  unfold d_in.
  replace ((0 <=? d_first d1 + d_size d1) && (d_first d1 + d_size d1 <? d_cap d1)) with true
    by (symmetry; rewrite andb_true_iff, Z.leb_le, Z.ltb_lt; lia).
  eexists; split; [reflexivity|].
  unfold drepr; cbn [d_buf d_size d_cap d_first]; rewrite zlen_app, zlen_cons, zlen_nil.
  repeat split; auto; try lia.
  - intros _ [E1|E1]; [destruct l; discriminate|]. apply H5; auto.
  - intros i Hi. destruct (Z.eq_dec i (zlen l)) as [->|N].
    + rewrite znth_app2 by lia. rewrite Z.sub_diag, znth_cons0.
      rewrite H1, upd_same; reflexivity.
    + rewrite znth_app1 by lia. rewrite upd_other by lia. apply H6; lia.
Qed.

Lemma add_front_spec : forall x d l b,
  drepr d l b -> exists d', deq_add_front x d = Ok d' /\ drepr d' (x :: l) false.
Proof.
  intros x d l b R; unfold deq_add_front.
  destruct (drepr_grow d l b (d_first d =? 0) R) as (d1 & E & R1 & G1 & G2).
  rewrite E; cbn [bind].
  pose proof R1 as (H1 & H2 & H3 & H4 & H5 & H6).
  pose proof (zlen_nonneg _ l).
  assert (L : 0 < d_first d1 /\ d_first d1 - 1 < d_cap d1 /\ pow_cap (d_cap d1)).
  { destruct (Z.eqb_spec (d_first d) 0) as [L|L].
    - destruct (G1 eq_refl) as (X1 & X2 & X3).
      destruct (pow_cap_facts _ X2) as (F1 & F2 & F3 & _). repeat split; [lia|lia|assumption].
    - rewrite (G2 eq_refl) in *. split; [lia|].
      destruct H4 as [[H4 H4']|H4]; [lia|]. split; [lia|exact H4]. }
  destruct L as (L1 & L2 & PC).
  unfold d_in.
  replace ((0 <=? d_first d1 - 1) && (d_first d1 - 1 <? d_cap d1)) with true
    by (symmetry; rewrite andb_true_iff, Z.leb_le, Z.ltb_lt; lia).
  eexists; split; [reflexivity|].
  unfold drepr; cbn [d_buf d_size d_cap d_first]; rewrite zlen_cons.
  repeat split; auto; try lia.
  - intros _ [E1|E1]; discriminate.
  - intros i Hi. destruct (Z.eq_dec i 0) as [->|N].
    + rewrite Z.add_0_r, upd_same, znth_cons0; reflexivity.
    + rewrite upd_other by lia. rewrite znth_consS by lia.
      replace (d_first d1 - 1 + i) with (d_first d1 + (i - 1)) by lia. apply H6; lia.
Qed.

Lemma pop_front_spec : forall d l b,
  drepr d l b ->
  exists d', deq_pop_front d = Ok d' /\ drepr d' (tl l) (Nat.leb (length l) 1).
Proof.
  intros d l b R; pose proof R as (H1 & H2 & H3 & H4 & H5 & H6); unfold deq_pop_front.
  destruct l as [|x l].
  - rewrite zlen_nil in H1. rewrite H1. cbn [Z.ltb Z.compare].
    exists d; split; [reflexivity|]. eapply drepr_nil; exact R.
  - rewrite zlen_cons in *. pose proof (zlen_nonneg _ l).
    destruct (Z.ltb_spec 0 (d_size d)) as [L|L]; [|lia].
    unfold d_in.
    replace ((0 <=? d_first d) && (d_first d <? d_cap d)) with true
      by (symmetry; rewrite andb_true_iff, Z.leb_le, Z.ltb_lt; lia).
    assert (PC : pow_cap (d_cap d)) by (destruct H4 as [[H4 _]|H4]; [lia|exact H4]).
    destruct (pow_cap_facts _ PC) as (F1 & F2 & F3 & _).
    eexists; split; [reflexivity|]. cbn [tl length].
    unfold drepr, centre; cbn [d_buf d_size d_cap d_first].
    destruct (Z.eqb_spec (d_size d - 1) 0) as [E|E].
    + assert (zlen l = 0) by lia.
      repeat split; auto; try lia.
    + repeat split; auto; try lia.
      * intros _ [E1|E1]; [subst l; rewrite zlen_nil in *; lia|].
        apply Nat.leb_le in E1. unfold zlen in *. lia.
      * intros i Hi. rewrite upd_other by lia.
        replace (d_first d + 1 + i) with (d_first d + (i + 1)) by lia.
        rewrite H6 by lia. rewrite znth_consS by lia. f_equal; lia.
Qed.

Lemma pop_back_spec : forall d l b,
  drepr d l b ->
  exists d', deq_pop_back d = Ok d' /\ drepr d' (removelast l) (b || Nat.leb (length l) 1).
Proof.
  intros d l b R; pose proof R as (H1 & H2 & H3 & H4 & H5 & H6); unfold deq_pop_back.
  destruct (Z.ltb_spec 0 (d_size d)) as [L|L].
  - assert (HL : zlen (removelast l) = zlen l - 1) by (apply zlen_removelast; lia).
    unfold d_in.
    replace ((0 <=? d_first d + d_size d - 1) && (d_first d + d_size d - 1 <? d_cap d)) with true
      by (symmetry; rewrite andb_true_iff, Z.leb_le, Z.ltb_lt; lia).
    assert (PC : pow_cap (d_cap d)) by (destruct H4 as [[H4 _]|H4]; [lia|exact H4]).
    destruct (pow_cap_facts _ PC) as (F1 & F2 & F3 & _).
    eexists; split; [reflexivity|].
    unfold drepr, centre; cbn [d_buf d_size d_cap d_first]. rewrite HL.
    destruct (Z.eqb_spec (d_size d - 1) 0) as [E|E].
    + repeat split; auto; try lia.
    + repeat split; auto; try lia.
      * intros _ [E1|E1]; [rewrite E1, zlen_nil in HL; lia|].
        apply orb_true_iff in E1; destruct E1 as [E1|E1]; [apply H5; auto|].
        apply Nat.leb_le in E1. unfold zlen in *. lia.
      * intros i Hi. rewrite upd_other by lia. rewrite H6 by lia.
        symmetry; apply znth_removelast; lia.
  - assert (l = []).
    { destruct l; [reflexivity|]. rewrite zlen_cons in H1. pose proof (zlen_nonneg _ l); lia. }
    subst l. exists d; split; [reflexivity|]. eapply drepr_nil; exact R.
Qed.

Lemma dclear_spec : forall d l b, drepr d l b -> drepr (deq_clear d) [] true /\ d_cap (deq_clear d) = d_cap d.
Proof.
  intros d l b R; pose proof R as (H1 & H2 & H3 & H4 & H5 & H6); unfold deq_clear.
  destruct (Z.ltb_spec 0 (d_size d)) as [L|L].
  - assert (PC : pow_cap (d_cap d)) by (destruct H4 as [[H4 _]|H4]; [lia|exact H4]).
    destruct (pow_cap_facts _ PC) as (F1 & F2 & F3 & _).
    split; [|reflexivity].
    unfold drepr, centre; cbn [d_buf d_size d_cap d_first]. rewrite zlen_nil.
    repeat split; auto; try lia.
  - split; [|reflexivity].
    assert (l = []).
    { destruct l; [reflexivity|]. rewrite zlen_cons in H1. pose proof (zlen_nonneg _ l); lia. }
    subst l. eapply drepr_nil; exact R.
Qed.

Lemma dget_spec : forall i d l b x,
  drepr d l b -> q_get i l = Ok x -> deq_get i d = Ok x.
Proof.
  intros i d l b x (H1 & H2 & H3 & H4 & H5 & H6) H; unfold q_get in H; unfold deq_get, d_in.
  destruct (znth l i) as [y|] eqn:E; [|discriminate].
  pose proof (znth_bounds _ _ _ _ E) as B.
  replace ((0 <=? i) && (i <? d_size d) &&
           ((0 <=? d_first d + i) && (d_first d + i <? d_cap d))) with true
    by (symmetry; rewrite !andb_true_iff, !Z.leb_le, !Z.ltb_lt; lia).
  rewrite H6 by lia. rewrite E. exact H.
Qed.

Lemma dset_spec : forall i x d l b,
  drepr d l b -> 0 <= i < zlen l ->
  exists d', deq_set i x d = Ok d' /\ drepr d' (q_set i x l) b.
Proof.
  intros i x d l b (H1 & H2 & H3 & H4 & H5 & H6) Hi; unfold deq_set, d_in.
  replace ((0 <=? i) && (i <? d_size d) &&
           ((0 <=? d_first d + i) && (d_first d + i <? d_cap d))) with true
    by (symmetry; rewrite !andb_true_iff, !Z.leb_le, !Z.ltb_lt; lia).
  eexists; split; [reflexivity|].
  assert (Hm : zlen (q_set i x l) = zlen l).
  { unfold q_set; rewrite zlen_app, zlen_cons, zlen_firstn by lia.
    replace (S (Z.to_nat i)) with (Z.to_nat (i + 1)) by lia.
    rewrite zlen_skipn by lia; lia. }
  unfold drepr; cbn [d_buf d_size d_cap d_first]. rewrite Hm.
  repeat split; auto; try lia.
  - intros P [E|E]; [rewrite E, zlen_nil in Hm; lia|]. apply H5; auto.
  - intros j Hj. unfold q_set.
    destruct (Z.compare_spec j i) as [E|L|L].
    + subst j. rewrite znth_app2 by (rewrite zlen_firstn by lia; lia).
      rewrite zlen_firstn by lia. rewrite Z.sub_diag, znth_cons0, upd_same. reflexivity.
    + rewrite znth_app1 by (rewrite zlen_firstn by lia; lia).
      rewrite znth_firstn by lia. rewrite upd_other by lia. apply H6; lia.
    + rewrite znth_app2 by (rewrite zlen_firstn by lia; lia).
      rewrite zlen_firstn by lia. rewrite znth_consS by lia.
      replace (S (Z.to_nat i)) with (Z.to_nat (i + 1)) by lia.
      rewrite znth_skipn by lia. rewrite upd_other by lia.
      replace (i + 1 + (j - i - 1)) with j by lia. apply H6; lia.
Qed.

Lemma dfront_spec : forall d l b x,
  drepr d l b -> q_get 0 l = Ok x -> deq_front d = Ok x.
Proof.
  intros d l b x (H1 & H2 & H3 & H4 & H5 & H6) H; unfold q_get in H; unfold deq_front, d_in.
  destruct (znth l 0) as [y|] eqn:E; [|discriminate].
  pose proof (znth_bounds _ _ _ _ E) as B.
  replace ((0 <=? d_first d) && (d_first d <? d_cap d)) with true
    by (symmetry; rewrite !andb_true_iff, !Z.leb_le, !Z.ltb_lt; lia).
  specialize (H6 0 B). rewrite Z.add_0_r in H6. rewrite H6, E. exact H.
Qed.

Lemma dback_spec : forall d l b x,
  drepr d l b -> q_get (zlen l - 1) l = Ok x -> deq_back d = Ok x.
Proof.
  intros d l b x (H1 & H2 & H3 & H4 & H5 & H6) H; unfold q_get in H; unfold deq_back, d_in.
  destruct (znth l (zlen l - 1)) as [y|] eqn:E; [|discriminate].
  pose proof (znth_bounds _ _ _ _ E) as B.
  replace ((0 <=? d_first d + d_size d - 1) && (d_first d + d_size d - 1 <? d_cap d)) with true
    by (symmetry; rewrite !andb_true_iff, !Z.leb_le, !Z.ltb_lt; lia).
  replace (d_first d + d_size d - 1) with (d_first d + (zlen l - 1)) by lia.
  rewrite H6 by lia. rewrite E. exact H.
Qed.

Lemma q_get_app : forall (l1 l2 : list A) x, q_get (zlen l1) (l1 ++ x :: l2) = Ok x.
Proof.
  intros; unfold q_get. rewrite znth_app2 by lia. rewrite Z.sub_diag, znth_cons0. reflexivity.
Qed.

Lemma deq_eq_loop_spec : forall (m1 m2 p1 p2 : list A) d e b b',
  drepr d (p1 ++ m1) b -> drepr e (p2 ++ m2) b' -> zlen p1 = zlen p2 -> length m1 = length m2 ->
  deq_eq_loop eqb (length m1) (zlen p1) d e = Ok (q_eq eqb m1 m2).
Proof.
  induction m1 as [|x m1 IH]; intros [|y m2] p1 p2 d e b b' Rd Re HP HL; try discriminate.
  - reflexivity.
  - cbn [length deq_eq_loop].
    rewrite (dget_spec (zlen p1) d _ b x Rd (q_get_app _ _ _)); cbn [bind].
    rewrite (dget_spec (zlen p1) e _ b' y Re); [|rewrite HP; apply q_get_app]. cbn [bind q_eq].
    destruct (eqb x y); [|reflexivity].
    replace (p1 ++ x :: m1) with ((p1 ++ [x]) ++ m1) in Rd by (rewrite <- app_assoc; reflexivity).
    replace (p2 ++ y :: m2) with ((p2 ++ [y]) ++ m2) in Re by (rewrite <- app_assoc; reflexivity).
    replace (zlen p1 + 1) with (zlen (p1 ++ [x])) by (rewrite zlen_app, zlen_cons, zlen_nil; lia).
    apply (IH m2 _ (p2 ++ [y]) d e b b' Rd Re).
    + rewrite !zlen_app, !zlen_cons, !zlen_nil; lia.
    + simpl in HL; lia.
Qed.

Lemma q_eq_length : forall l1 l2, length l1 <> length l2 -> q_eq eqb l1 l2 = false.
Proof.
  induction l1 as [|x l1 IH]; intros [|y l2] H; simpl in *; try reflexivity; try lia.
  destruct (eqb x y); [|reflexivity]. apply IH; lia.
Qed.

Lemma deq_eq_spec : forall d e l l' b b',
  drepr d l b -> drepr e l' b' -> deq_eq eqb d e = Ok (q_eq eqb l l').
Proof.
  intros d e l l' b b' Rd Re; unfold deq_eq.
  pose proof Rd as (H1 & _). pose proof Re as (H1' & _).
  rewrite H1, H1'.
  destruct (Z.eqb_spec (zlen l) (zlen l')) as [E|E].
  - unfold zlen at 1; rewrite Nat2Z.id.
    apply (deq_eq_loop_spec l l' [] [] d e b b' Rd Re eq_refl). unfold zlen in E; lia.
  - rewrite q_eq_length; [reflexivity|]. unfold zlen in E; lia.
Qed.

Lemma deq_iter_loop_spec : forall (m p : list A) d b,
  drepr d (p ++ m) b -> deq_iter_loop (length m) (zlen p) d = Ok m.
Proof.
  induction m as [|x m IH]; intros p d b Rd.
  - reflexivity.
  - cbn [length deq_iter_loop].
    rewrite (dget_spec (zlen p) d _ b x Rd (q_get_app _ _ _)); cbn [bind].
    replace (p ++ x :: m) with ((p ++ [x]) ++ m) in Rd by (rewrite <- app_assoc; reflexivity).
    replace (zlen p + 1) with (zlen (p ++ [x])) by (rewrite zlen_app, zlen_cons, zlen_nil; lia).
    rewrite (IH _ d b Rd); reflexivity.
Qed.

Lemma pow_cap_double : forall a c, pow_cap a -> pow_cap c -> a < c -> 2 * a <= c.
Proof.
  intros a c (k & Hk & ->) (j & Hj & ->) L.
  apply Z.pow_lt_mono_r_iff in L; [|lia|lia].
  rewrite <- Z.pow_succ_r by lia. apply Z.pow_le_mono_r; lia.
Qed.

Lemma copy_spec' : forall e l b,
  drepr e l b -> b = true \/ l = [] ->
  exists d, deq_copy e = Ok d /\ drepr d l true.
Proof.
  intros e l b R HB; pose proof R as (H1 & H2 & H3 & H4 & H5 & H6); unfold deq_copy.
  pose proof (zlen_nonneg _ l).
  destruct H4 as [[H4 H4']|PC].
  - destruct (cap_cases e l b R H4) as [-> _]. rewrite zlen_nil in H1.
    unfold deq_reserve; cbn [d_cap]. rewrite H4. cbn [Z.leb Z.compare bind].
    rewrite H1. cbn [Z.to_nat copy_slots bind d_buf d_cap d_first].
    eexists; split; [reflexivity|].
    unfold drepr; cbn. rewrite H4'. repeat split; try lia.
    intros (k & Hk & E). assert (0 < 2 ^ k) by (apply Z.pow_pos_nonneg; lia). lia.
  - destruct (pow_cap_facts _ PC) as (F1 & F2 & F3 & F4 & F5 & _).
    unfold deq_reserve; cbn [d_cap d_size d_buf d_first].
    destruct (Z.leb_spec (d_cap e) 0) as [L|_]; [lia|].
    cbn [Z.to_nat copy_slots bind d_buf d_cap d_first]. rewrite F5.
    assert (HF : d_first e = d_cap e / 2 - 1) by (apply H5; [exact PC|tauto]).
    destruct (copy_slots_spec (Z.to_nat (d_size e)) (d_buf e) (d_cap e) (d_first e)
                (fun _ => None) (d_cap e) (d_first e)) as (nb & E & Hin & _); try lia.
    rewrite E; cbn [bind]. eexists; split; [reflexivity|].
    unfold drepr; cbn [d_buf d_size d_cap d_first]. rewrite <- HF.
    repeat split; auto; try lia.
    intros i Hi. rewrite Hin by lia. apply H6; exact Hi.
Qed.

Lemma assign_spec' : forall e d l b l0 b0,
  drepr e l b -> drepr d l0 b0 -> b = true \/ (length l <= 9)%nat ->
  exists d', deq_assign e d = Ok d' /\ drepr d' l true.
Proof.
  intros e d l b l0 b0 R R0 HB; pose proof R as (H1 & H2 & H3 & H4 & H5 & H6).
  unfold deq_assign.
  destruct (dclear_spec d l0 b0 R0) as [RC CC].
  pose proof (zlen_nonneg _ l).
  set (dc := deq_clear d) in *.
  (* after the reserve *)
  assert (exists d1, deq_reserve (d_cap e) dc = Ok d1 /\ drepr d1 [] true /\
            (d_cap d1 = 0 /\ d_cap e = 0 \/ pow_cap (d_cap d1)) /\ d_cap e <= d_cap d1)
    as (d1 & E1 & R1 & P1 & L1).
  { destruct (Z_lt_le_dec (d_cap dc) (d_cap e)) as [L|L].
    - assert (PC : pow_cap (d_cap e)).
      { destruct H4 as [[H4 _]|H4]; [|exact H4].
        destruct RC as (X1 & X2 & X3 & _). rewrite zlen_nil in X1. lia. }
      destruct (dreserve_spec (d_cap e) dc [] true RC PC L (or_intror eq_refl))
        as (d1 & E1 & R1 & C1 & C2).
      exists d1; rewrite C1; repeat split; auto; try lia; try apply R1.
    - exists dc. unfold deq_reserve.
      destruct (Z.leb_spec (d_cap e) (d_cap dc)) as [_|X]; [|lia].
      repeat split; auto; try apply RC.
      destruct RC as (_ & _ & _ & [[X _]|X] & _); [left|right; exact X].
      split; [exact X|]. destruct H4 as [[H4 _]|H4]; [exact H4|].
      destruct (pow_cap_facts _ H4); lia. }
  rewrite E1; cbn [bind].
  destruct R1 as (S1 & S2 & S3 & S4 & S5 & S6). rewrite zlen_nil in S1.
  destruct P1 as [[P1 P1']|P1].
  - destruct (cap_cases e l b R P1') as [-> _]. rewrite zlen_nil in H1.
    rewrite H1. cbn [Z.to_nat copy_slots bind].
    eexists; split; [reflexivity|].
    unfold drepr; cbn [d_buf d_size d_cap d_first]. rewrite zlen_nil.
    repeat split; auto; try lia.
  - destruct (pow_cap_facts _ P1) as (F1 & F2 & F3 & F4 & F5 & _).
    specialize (S5 P1 (or_introl eq_refl)).
    assert (SZ : d_size e <= d_cap d1 / 2 + 1).
    { destruct HB as [HB|HB].
      - destruct H4 as [[H4 H4']|PC]; [lia|].
        specialize (H5 PC (or_intror HB)).
        destruct (pow_cap_facts _ PC) as (G1 & G2 & G3 & _).
        assert (d_cap e / 2 <= d_cap d1 / 2) by (apply Z.div_le_mono; lia). lia.
      - unfold zlen in *. lia. }
    destruct (copy_slots_spec (Z.to_nat (d_size e)) (d_buf e) (d_cap e) (d_first e)
                (d_buf d1) (d_cap d1) (d_first d1)) as (nb & E & Hin & _); try lia.
    rewrite E; cbn [bind]. eexists; split; [reflexivity|].
    unfold drepr; cbn [d_buf d_size d_cap d_first].
    repeat split; auto; try lia.
    intros i Hi. rewrite Hin by lia. apply H6; exact Hi.
Qed.

Definition DRepr (s : dstore A) (t : qstore A) (f : nat -> bool) : Prop :=
  forall k, drepr (s k) (t k) (f k).

Lemma DRepr_nupd : forall s t f k d l b,
  DRepr s t f -> drepr d l b -> DRepr (nupd s k d) (nupd t k l) (nupd f k b).
Proof.
  intros s t f k d l b H R j; unfold nupd; destruct (Nat.eqb j k); [exact R|apply H].
Qed.

Lemma DRepr_nupd_same : forall s t f k d l,
  DRepr s t f -> drepr d l (f k) -> DRepr (nupd s k d) (nupd t k l) f.
Proof.
  intros s t f k d l H R j; unfold nupd; destruct (Nat.eqb_spec j k) as [->|]; [exact R|apply H].
Qed.

Lemma dstep_refines : forall s t f o t' r,
  DRepr s t f -> copy_ok f t o = true -> q_step eqb t o = Ok (t', r) ->
  exists s', deq_step eqb s o = Ok (s', r) /\ DRepr s' t' (track f t o).
Proof.
  intros s t f o t' r HR HC H.
  destruct o as [k x|k x|k|k|k|k k'|k k'|k|k i|k i x|k|k|k k'|k];
    cbn [q_step] in H; cbn [deq_step track copy_ok] in *.
  - inversion H; subst; clear H.
    destruct (add_back_spec x _ _ _ (HR k)) as (d & E & R). rewrite E; cbn [bind].
    eexists; split; [reflexivity|]. apply DRepr_nupd_same; auto.
  - inversion H; subst; clear H.
    destruct (add_front_spec x _ _ _ (HR k)) as (d & E & R). rewrite E; cbn [bind].
    eexists; split; [reflexivity|]. apply DRepr_nupd; auto.
  - inversion H; subst; clear H.
    destruct (pop_front_spec _ _ _ (HR k)) as (d & E & R). rewrite E; cbn [bind].
    eexists; split; [reflexivity|]. apply DRepr_nupd; auto.
  - inversion H; subst; clear H.
    destruct (pop_back_spec _ _ _ (HR k)) as (d & E & R). rewrite E; cbn [bind].
    eexists; split; [reflexivity|]. apply DRepr_nupd; auto.
  - inversion H; subst; clear H.
    eexists; split; [reflexivity|]. apply DRepr_nupd; auto.
    apply (dclear_spec _ _ _ (HR k)).
  - destruct (Nat.eqb k k'); [discriminate|]. inversion H; subst; clear H.
    destruct (copy_spec' _ _ _ (HR k')) as (d & E & R).
    { apply orb_true_iff in HC; destruct HC as [HC|HC]; [auto|].
      right. apply Nat.eqb_eq in HC. destruct (t k'); [reflexivity|discriminate]. }
    rewrite E; cbn [bind]. eexists; split; [reflexivity|]. apply DRepr_nupd; auto.
  - inversion H; subst; clear H.
    destruct (Nat.eqb_spec k k') as [->|N].
    + eexists; split; [reflexivity|].
      intros j; unfold nupd; destruct (Nat.eqb_spec j k') as [->|]; apply HR.
    + destruct (assign_spec' _ _ _ _ _ _ (HR k') (HR k)) as (d & E & R).
      { simpl in HC. apply orb_true_iff in HC; destruct HC as [HC|HC]; [auto|].
        right; apply Nat.leb_le; exact HC. }
      rewrite E; cbn [bind]. eexists; split; [reflexivity|]. apply DRepr_nupd; auto.
  - inversion H; subst; clear H.
    destruct (HR k) as (HS & _). rewrite HS. eexists; split; [reflexivity|]; assumption.
  - destruct (q_get i (t k)) as [x| |] eqn:G; simpl in H; try discriminate.
    inversion H; subst; clear H.
    rewrite (dget_spec _ _ _ _ _ (HR k) G); cbn [bind]. eexists; split; [reflexivity|]; assumption.
  - destruct ((0 <=? i) && (i <? zlen (t k))) eqn:B; [|discriminate].
    rewrite andb_true_iff, Z.leb_le, Z.ltb_lt in B. inversion H; subst; clear H.
    destruct (dset_spec i x _ _ _ (HR k) B) as (d & E & R). rewrite E; cbn [bind].
    eexists; split; [reflexivity|]. apply DRepr_nupd_same; auto.
  - destruct (q_get 0 (t k)) as [x| |] eqn:G; simpl in H; try discriminate.
    inversion H; subst; clear H.
    rewrite (dfront_spec _ _ _ _ (HR k) G); cbn [bind]. eexists; split; [reflexivity|]; assumption.
  - destruct (q_get (zlen (t k) - 1) (t k)) as [x| |] eqn:G; simpl in H; try discriminate.
    inversion H; subst; clear H.
    rewrite (dback_spec _ _ _ _ (HR k) G); cbn [bind]. eexists; split; [reflexivity|]; assumption.
  - inversion H; subst; clear H.
    rewrite (deq_eq_spec _ _ _ _ _ _ (HR k) (HR k')); cbn [bind].
    eexists; split; [reflexivity|]; assumption.
  - inversion H; subst; clear H. unfold deq_iter.
    pose proof (HR k) as RK. pose proof RK as (HS & _). rewrite HS.
    unfold zlen; rewrite Nat2Z.id.
    pose proof (deq_iter_loop_spec (t' k) [] (s k) (f k) RK) as EI.
    rewrite zlen_nil in EI. rewrite EI; cbn [bind].
    eexists; split; [reflexivity|]; assumption.
Qed.

Lemma drun_refines : forall os s t f t' rs,
  DRepr s t f -> copies_ok eqb f t os = true -> q_run eqb t os = Ok (t', rs) ->
  exists s' f', deq_run eqb s os = Ok (s', rs) /\ DRepr s' t' f'.
Proof.
  induction os as [|o os IH]; intros s t f t' rs HR HC H; cbn [q_run copies_ok] in *; cbn [deq_run].
  - inversion H; subst; exists s, f; split; [reflexivity|exact HR].
  - apply andb_true_iff in HC; destruct HC as [HC1 HC2].
    destruct (q_step eqb t o) as [[t1 r]| |] eqn:E; simpl in H; try discriminate.
    destruct (q_run eqb t1 os) as [[t2 rs2]| |] eqn:E2; simpl in H; try discriminate.
    inversion H; subst; clear H.
    destruct (dstep_refines s t f o t1 r HR HC1 E) as (s1 & F1 & R1).
    destruct (IH s1 t1 _ t' rs2 R1 HC2 E2) as (s2 & f2 & F2 & R2).
    rewrite F1; cbn [bind]. rewrite F2; cbn [bind].
    exists s2, f2; split; [reflexivity|exact R2].
Qed.

Lemma no_copies_ok : forall os f t t' rs,
  Forall (fun o => is_copy o = false) os -> q_run eqb t os = Ok (t', rs) ->
  copies_ok eqb f t os = true.
Proof.
  induction os as [|o os IH]; intros f t t' rs HN H; cbn [q_run copies_ok] in *; [reflexivity|].
  inversion HN; subst.
  destruct (q_step eqb t o) as [[t1 r]| |] eqn:E; simpl in H; try discriminate.
  destruct (q_run eqb t1 os) as [[t2 rs2]| |] eqn:E2; simpl in H; try discriminate.
  rewrite (IH _ t1 t2 rs2) by assumption.
  destruct o; try reflexivity; discriminate.
Qed.

Lemma DRepr_init : DRepr dstore_init qstore_init (fun _ => true).
Proof. intros k; apply drepr_empty. Qed.

Lemma drun_refines_init : forall os t' rs,
  copies_ok eqb (fun _ => true) qstore_init os = true ->
  q_run eqb qstore_init os = Ok (t', rs) ->
  exists s', deq_run eqb dstore_init os = Ok (s', rs) /\
    forall k, d_size (s' k) = zlen (t' k) /\
      0 <= d_first (s' k) /\ d_first (s' k) + d_size (s' k) <= d_cap (s' k) /\
      forall i, 0 <= i < zlen (t' k) -> d_buf (s' k) (d_first (s' k) + i) = znth (t' k) i.
Proof.
  intros os t' rs HC H.
  destruct (drun_refines os _ _ _ t' rs DRepr_init HC H) as (s' & f' & E & R).
  exists s'; split; [exact E|]. intros k.
  destruct (R k) as (H1 & H2 & H3 & H4 & H5 & H6). repeat split; auto.
Qed.

Lemma drun_refines_nocopy : forall os t' rs,
  Forall (fun o => is_copy o = false) os ->
  q_run eqb qstore_init os = Ok (t', rs) ->
  exists s', deq_run eqb dstore_init os = Ok (s', rs) /\
    forall k, d_size (s' k) = zlen (t' k) /\
      0 <= d_first (s' k) /\ d_first (s' k) + d_size (s' k) <= d_cap (s' k) /\
      forall i, 0 <= i < zlen (t' k) -> d_buf (s' k) (d_first (s' k) + i) = znth (t' k) i.
Proof.
  intros os t' rs HN H. apply drun_refines_init; [|exact H].
  eapply no_copies_ok; eassumption.
Qed.

(** Histories that only use the back of the deques may copy and assign freely. *)
Definition back_only (o : dop A) : Prop :=
  match o with DAddFront _ _ | DPopFront _ => False | DCopy k k' => k <> k' | _ => True end.

Lemma track_back_only : forall f (t : qstore A) o,
  back_only o -> (forall k, f k = true) -> forall k, track f t o k = true.
Proof.
  intros f t o HB HF k. destruct o; cbn [track back_only] in *; try contradiction; auto;
    try (unfold nupd; destruct (Nat.eqb k k0); [|apply HF]; auto).
  - rewrite HF; reflexivity.
  - destruct (Nat.eqb k0 k'); [apply HF|].
    unfold nupd; destruct (Nat.eqb k k0); [|apply HF]; auto.
Qed.

Lemma back_only_ok : forall os f t t' rs,
  Forall back_only os -> (forall k, f k = true) -> q_run eqb t os = Ok (t', rs) ->
  copies_ok eqb f t os = true.
Proof.
  induction os as [|o os IH]; intros f t t' rs HN HF H; cbn [q_run copies_ok] in *; [reflexivity|].
  inversion HN; subst.
  destruct (q_step eqb t o) as [[t1 r]| |] eqn:E; simpl in H; try discriminate.
  destruct (q_run eqb t1 os) as [[t2 rs2]| |] eqn:E2; simpl in H; try discriminate.
  rewrite (IH _ t1 t2 rs2); [|assumption|apply track_back_only; assumption|assumption].
  destruct o; cbn [copy_ok]; try reflexivity; rewrite HF; try reflexivity.
  destruct (Nat.eqb k k'); reflexivity.
Qed.

(** One-element FIFO use: the window creeps to the right and the buffer doubles. *)
Definition cycle (x : A) : list (dop A) := [DAddBack 0%nat x; DPopFront 0%nat].

Lemma cycle_cap : forall x n s y f,
  drepr (s 0%nat) [y] f -> 
  exists s' z f' outs, deq_run eqb s (concat (repeat (cycle x) n)) = Ok (s', outs) /\
    drepr (s' 0%nat) [z] f' /\
    (d_cap (s 0%nat) <= d_cap (s' 0%nat)) /\
    (Z.of_nat n >= d_cap (s 0%nat) - d_first (s 0%nat) - 1 ->
       d_cap (s 0%nat) < d_cap (s' 0%nat) \/ d_first (s' 0%nat) = d_cap (s 0%nat) - 1).
Proof.
  induction n as [|n IH]; intros s y f R.
  - exists s, y, f, []. split; [reflexivity|]. split; [exact R|]. split; [lia|].
    intros H. right. pose proof R as (H1 & H2 & H3 & _).
    rewrite zlen_cons, zlen_nil in H1. lia.
  - cbn [repeat concat cycle app deq_run deq_step].
    destruct (add_back_spec x _ _ _ R) as (d & E & R1). rewrite E; cbn [bind app] in *.
    rewrite nupd_same.
    destruct (pop_front_spec _ _ _ R1) as (d2 & E2 & R2). cbn [tl length Nat.leb] in R2.
    rewrite E2; cbn [bind].
    (* capacity and first index after one cycle *)
    assert (G : (d_cap (s 0%nat) < d_cap d2) \/
                (d_cap d2 = d_cap (s 0%nat) /\ d_first d2 = d_first (s 0%nat) + 1)).
    { unfold deq_add_back in E.
      pose proof R as (H1 & H2 & H3 & _). rewrite zlen_cons, zlen_nil in H1.
      assert (P2 : d_cap d2 = d_cap d /\ (d_size d = 2 -> d_first d2 = d_first d + 1)).
      { unfold deq_pop_front in E2.
        destruct (0 <? d_size d) eqn:Z0; [|inversion E2; subst; split; [reflexivity|]; intros X; rewrite X in Z0; discriminate].
        destruct (d_in d (d_first d)); [|discriminate].
        inversion E2; subst; cbn. split; [reflexivity|]. intros ->. reflexivity. }
      destruct P2 as [P2 P2'].
      destruct (Z.leb_spec (d_cap (s 0%nat)) (d_first (s 0%nat) + d_size (s 0%nat))) as [L|L].
      - left. destruct (next_cap_spec _ _ _ R) as (N1 & N2 & N3).
        destruct (dreserve_spec _ _ _ _ R N1 N2 (or_introl N3)) as (d1 & E1 & _ & C1 & _).
        rewrite E1 in E; cbn [bind] in E.
        destruct (d_in d1 (d_first d1 + d_size d1)); [|discriminate].
        inversion E; subst d; cbn in P2. lia.
      - right. cbn [bind] in E.
        destruct (d_in (s 0%nat) (d_first (s 0%nat) + d_size (s 0%nat))); [|discriminate].
        inversion E; subst d; cbn in P2, P2'. split; [exact P2|]. apply P2'. lia. }
    set (s2 := nupd (nupd s 0%nat d) 0%nat d2).
    assert (Es2 : s2 0%nat = d2) by (unfold s2; apply nupd_same).
    assert (R2' : drepr (s2 0%nat) [x] false) by (rewrite Es2; exact R2).
    destruct (IH s2 x false R2') as (s' & z & f' & outs & E3 & R3 & C3 & C4).
    fold s2. rewrite E3; cbn [bind].
    exists s', z, f', (AUnit :: AUnit :: outs). split; [reflexivity|]. split; [exact R3|].
    rewrite Es2 in *.
    destruct G as [G|[G1 G2]].
    + split; [lia|]. intros _. left; lia.
    + split; [lia|]. intros H. rewrite G1, G2 in *.
      apply C4. lia.
Qed.

(** The capacity exceeds any bound although the deque never holds more than two elements. *)
Lemma fifo_unbounded_from : forall x k s y f,
  drepr (s 0%nat) [y] f ->
  exists n s' z f' outs, deq_run eqb s (concat (repeat (cycle x) n)) = Ok (s', outs) /\
    drepr (s' 0%nat) [z] f' /\ d_cap (s 0%nat) + Z.of_nat k <= d_cap (s' 0%nat).
Proof.
  assert (RUNAPP : forall (l1 l2 : list (dop A)) (s : dstore A), deq_run eqb s (l1 ++ l2) =
    let* (s1, r1) := deq_run eqb s l1 in let* (s2, r2) := deq_run eqb s1 l2 in Ok (s2, r1 ++ r2)).
  { induction l1 as [|o l1 IH]; intros l2 s; cbn [app deq_run bind].
    - destruct (deq_run eqb s l2) as [[? ?]| |]; reflexivity.
    - destruct (deq_step eqb s o) as [[s1 r]| |]; cbn [bind]; try reflexivity.
      rewrite IH. destruct (deq_run eqb s1 l1) as [[s2 r2]| |]; cbn [bind]; try reflexivity.
      destruct (deq_run eqb s2 l2) as [[? ?]| |]; reflexivity. }
  intros x; induction k as [|k IH]; intros s y f R.
  - exists 0%nat, s, y, f, []. split; [reflexivity|]. split; [exact R|lia].
  - destruct (IH s y f R) as (n & s1 & z & f1 & o1 & E1 & R1 & C1).
    set (m := Z.to_nat (d_cap (s1 0%nat))).
    pose proof R1 as (X1 & X2 & X3 & _). rewrite zlen_cons, zlen_nil in X1.
    destruct (cycle_cap x m s1 z f1 R1) as (s2 & z2 & f2 & o2 & E2 & R2 & C2 & C3).
    specialize (C3 ltac:(unfold m; lia)).
    destruct (Z_lt_le_dec (d_cap (s1 0%nat)) (d_cap (s2 0%nat))) as [L|L].
    + exists (n + m)%nat, s2, z2, f2, (o1 ++ o2).
      rewrite repeat_app, concat_app, RUNAPP, E1; cbn [bind]. rewrite E2; cbn [bind].
      split; [reflexivity|]. split; [exact R2|lia].
    + destruct C3 as [C3|C3]; [lia|].
      (* one more cycle reallocates *)
      destruct (cycle_cap x 1 s2 z2 f2 R2) as (s3 & z3 & f3 & o3 & E3 & R3 & C4 & C5).
      assert (CE : d_cap (s2 0%nat) = d_cap (s1 0%nat)) by lia.
      assert (d_cap (s1 0%nat) < d_cap (s3 0%nat)).
      { destruct (C5 ltac:(lia)) as [C6|C6]; [lia|].
        (* impossible: the first index grew by one *)
        exfalso. cbn [repeat concat cycle app deq_run deq_step] in E3.
        unfold deq_add_back in E3. rewrite C3, CE in E3.
        pose proof R2 as (Y1 & Y2 & Y3 & _). rewrite zlen_cons, zlen_nil in Y1.
        rewrite Y1 in E3.
        destruct (Z.leb_spec (d_cap (s1 0%nat)) (d_cap (s1 0%nat) - 1 + (0 + 1))) as [_|Q]; [|lia].
        destruct (next_cap_spec _ _ _ R2) as (N1 & N2 & N3).
        destruct (dreserve_spec _ _ _ _ R2 N1 N2 (or_introl N3)) as (d1 & E4 & R4 & C7 & C8).
        rewrite E4 in E3; cbn [bind] in E3.
        destruct (d_in d1 (d_first d1 + d_size d1)); [|discriminate].
        cbn [bind] in E3. rewrite nupd_same in E3.
        unfold deq_pop_front in E3. cbn [d_size d_first d_cap d_buf] in E3.
        destruct R4 as (Z1 & _). rewrite zlen_cons, zlen_nil in Z1. rewrite Z1 in E3.
        change (0 <? 0 + 1 + 1) with true in E3. cbn iota in E3.
        match type of E3 with context [if d_in ?a ?b then _ else _] => destruct (d_in a b) end;
          [|discriminate].
        cbn [bind] in E3. inversion E3; subst s3. rewrite nupd_same in C6, C4.
        cbn in C6, C4. rewrite C7 in C4. rewrite C8 in C6.
        destruct (pow_cap_facts _ N1) as (_ & W & _). lia. }
      exists (n + m + 1)%nat, s3, z3, f3, ((o1 ++ o2) ++ o3).
      rewrite repeat_app, concat_app, RUNAPP, repeat_app, concat_app, RUNAPP, E1; cbn [bind].
      rewrite E2; cbn [bind]. rewrite E3; cbn [bind].
      split; [reflexivity|]. split; [exact R3|lia].
Qed.

End Proofs.
