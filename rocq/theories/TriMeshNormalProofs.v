(** Proofs about the normals of the vertices of a triangle mesh. *)
From Coq Require Import List Arith Lia Bool ZArith Sorted.
From Verif Require Import Base Decimal TreeModel VecModel VecProofs GeomSpec ShapeModel ShapeSpec TriMeshModel TriMeshSpec TriMeshProofs TriMeshTreeProofs TriMeshProofs2.
Import ListNotations.
Local Open Scope R_scope.

Lemma vlen_swap a b : vlen (vsub a b) = vlen (vsub b a).
Proof. unfold vlen, vlen2, vdot, vsub. cbn. f_equal. ring. Qed.
Lemma cross_pos_sides a b : 0 < vlen (vcross a b) -> 0 < vlen2 a /\ 0 < vlen2 b.
Proof.
  intros H. assert (L : vlen2 (vcross a b) = vlen2 a * vlen2 b - vdot a b * vdot a b) by (destruct a, b; unfold vlen2, vdot, vcross; cbn; ring).
  assert (P : 0 < vlen2 (vcross a b)).
  { assert (0 <= vlen2 (vcross a b)) by (unfold vlen2, vdot; nra). destruct (Req_dec (vlen2 (vcross a b)) 0) as [E|]; [|lra]. unfold vlen in H. rewrite E, sqrt_0 in H. lra. }
  assert (0 <= vlen2 a) by (unfold vlen2, vdot; nra). assert (0 <= vlen2 b) by (unfold vlen2, vdot; nra). split; nra.
Qed.
Lemma unit_normal eps c : 0 < eps -> eps <= vlen c -> unit_of c (vnormalize eps c).
Proof.
  intros Heps H. unfold vnormalize. replace (rlt (vlen c) eps) with false by (symmetry; apply rlt_false; exact H).
  assert (SQ : vlen c * vlen c = vlen2 c) by (unfold vlen; apply sqrt_sqrt; unfold vlen2, vdot; nra).
  split.
  - unfold vlen at 1. replace (vlen2 (V3 (vx c / vlen c) (vy c / vlen c) (vz c / vlen c))) with 1; [apply sqrt_1|]. unfold vlen2, vdot in *. cbn [vx vy vz]. field_simplify; [|lra].
    replace (vlen c ^ 2) with (vlen c * vlen c) by ring. rewrite SQ. field. rewrite <- SQ. nra.
  - exists (vlen c). split; [lra|]. destruct c as [a b d]. unfold vscale. cbn [vx vy vz]. f_equal; field; lra.
Qed.
Lemma contribution_ok eps p q r : 0 < eps -> eps <= double_area p q r -> 0 <= vdot (vsub q p) (vsub r p) ->
  exists t n, angle_of (vsub q p) (vsub r p) t /\ unit_of (vcross (vsub q p) (vsub r p)) n /\ contribution eps (p, q, r) = vscale t n.
Proof.
  intros Heps AR OB. unfold contribution, corner_normal. rewrite (vlen_swap p r). unfold double_area in AR. generalize dependent (vsub q p). intros a. generalize dependent (vsub r p). intros b AR OB.
  destruct (cross_pos_sides a b) as (PA & PB); [lra|]. assert (LA : 0 < vlen a) by (unfold vlen; now apply sqrt_lt_R0). assert (LB : 0 < vlen b) by (unfold vlen; now apply sqrt_lt_R0).
  assert (SA : vlen a * vlen a = vlen2 a) by (unfold vlen; apply sqrt_sqrt; lra). assert (SB : vlen b * vlen b = vlen2 b) by (unfold vlen; apply sqrt_sqrt; lra).
  assert (CS : vdot a b * vdot a b <= vlen2 a * vlen2 b).
  { assert (L : vlen2 (vcross a b) = vlen2 a * vlen2 b - vdot a b * vdot a b) by (destruct a, b; unfold vlen2, vdot, vcross; cbn; ring).
    assert (0 <= vlen2 (vcross a b)) by (unfold vlen2, vdot; nra). lra. }
  assert (DL : vdot a b <= vlen b * vlen a) by (apply Rnot_lt_le; intros N; assert (0 < vlen b * vlen a) by (apply Rmult_lt_0_compat; assumption); nra).
  assert (PP : 0 < vlen b * vlen a) by (apply Rmult_lt_0_compat; assumption).
  set (c := vdot a b / (vlen b * vlen a)). assert (C0 : 0 <= c) by (unfold c; apply Rmult_le_pos; [exact OB|left; now apply Rinv_0_lt_compat]).
  assert (C1 : c <= 1) by (unfold c; apply (Rmult_le_reg_r (vlen b * vlen a)); [exact PP|]; unfold Rdiv; rewrite Rmult_assoc, Rinv_l by lra; lra).
  assert (CL : Rmin (Rmax c 0) 1 = c) by (rewrite (Rmax_left c 0), (Rmin_left c 1); lra). rewrite CL.
  exists (acos c), (vnormalize eps (vcross a b)). split; [|split; [apply unit_normal; assumption|reflexivity]]. split; [apply acos_bound|].
  rewrite cos_acos by lra. unfold c. field. lra.
Qed.
Lemma add_up_ok eps : 0 < eps -> forall l n0, (forall p q r, In (p, q, r) l -> eps <= double_area p q r /\ 0 <= vdot (vsub q p) (vsub r p)) ->
  exists s, weighted l s /\ add_up eps l n0 = vadd n0 s.
Proof.
  intros Heps. induction l as [|[[p q] r] l IH]; intros n0 H.
  - exists vzero. split; [constructor|]. cbn. destruct n0. unfold vadd, vzero. cbn. f_equal; ring.
  - destruct (H p q r (or_introl eq_refl)) as (A & B). destruct (contribution_ok eps p q r Heps A B) as (t & n & AN & UN & E).
    destruct (IH (vadd n0 (vscale t n))) as (s & W & S); [intros; apply H; now right|]. exists (vadd (vscale t n) s). split; [now constructor|].
    unfold add_up in *. cbn [fold_left]. rewrite E, S. destruct n0, (vscale t n), s. unfold vadd. cbn. f_equal; ring.
Qed.

(** ** Meshes that are kept as they are *)
Lemma sorted_seq : forall (n a : nat) us, StronglySorted lt us -> (forall j, In j us <-> (a <= j < a + n)%nat) -> us = seq a n.
Proof.
  induction n as [|n IH]; intros a us S H.
  - destruct us as [|x us]; [reflexivity|]. destruct (proj1 (H x) (or_introl eq_refl)). lia.
  - destruct us as [|x us].
    + destruct (proj2 (H a)); lia.
    + inversion S as [|x' us' SU FA]; subst. rewrite Forall_forall in FA.
      assert (x = a). { destruct (proj2 (H a)) as [E|I]; [lia|exact E|]. specialize (FA a I). destruct (proj1 (H x) (or_introl eq_refl)). lia. }
      subst x. cbn. f_equal. apply IH; [exact SU|]. intros j. split.
      * intros I. pose proof (FA j I). destruct (proj1 (H j) (or_intror I)). lia.
      * intros J. destruct (proj2 (H j)) as [E|I]; [lia|lia|exact I].
Qed.
Lemma kept_all {A} (P : A -> Prop) : forall l k, kept P l k -> (forall a, In a l -> P a) -> k = l.
Proof. induction 1 as [|a l k PA K IH|a l k PA K IH]; intros H; [reflexivity|f_equal; apply IH; intros; apply H; now right|]. destruct PA. apply H. now left. Qed.
Lemma list_ext {A} : forall l k : list A, (forall i, nth_error l i = nth_error k i) -> l = k.
Proof.
  induction l as [|a l IH]; intros [|b k] H; [reflexivity|specialize (H 0%nat); discriminate|specialize (H 0%nat); discriminate|].
  pose proof (H 0%nat) as H0. injection H0 as ->. f_equal. apply IH. intros i. exact (H (S i)).
Qed.
Lemma given_mesh eps vs fs : 0 < eps -> (Z.of_nat (length fs) <= 32768)%Z -> vs <> [] -> fs <> [] ->
  (forall f, In f fs -> good (TriArray vs None fs) (mesh_epsilon eps vs) f) -> (forall j, (j < length vs)%nat -> exists f, In f fs /\ corner f j) ->
  exists m, create_mesh eps (TriArray vs None fs) = Ok (Some m, []) /\ tm_vertices m = vs /\ tm_faces m = fs /\ built m /\
    forall j, (j < length vs)%nat -> nth_error (tm_normals m) j = Some (vnormalize eps (add_up eps (concat (map (corners_at vs j) fs)) vzero)).
Proof.
  intros Heps SZ NV NF GD US. set (ta := TriArray vs None fs). assert (CP : complete ta) by (intros ns H; discriminate).
  destruct (init_mesh_ok eps ta Heps CP NV SZ) as (valid & m & ms & us & ns & E & CO & VA & SA & BM & NO). cbn [ta ta_vertices ta_normals ta_faces] in *. set (e := mesh_epsilon eps vs) in *.
  assert (RNG : forall f, In f fs -> in_range ta f).
  { intros f F. destruct (GD f F) as (p & q & r & P & _). intros j J. exact (points_corner _ _ _ _ _ P j J). }
  assert (SN : forall j, ~ small_normal ta e j) by (intros j (n1 & n & H & _); discriminate).
  assert (V : valid = true). { apply VA. split; [exact RNG|]. split; [|exact SN]. destruct fs as [|f fs]; [congruence|]. exists f. split; [now left|]. apply GD. now left. }
  assert (MS : ms = []).
  { destruct ms as [|x ms]; [reflexivity|]. exfalso. assert (K : to_be_said ta e x) by (apply SA; now left). destruct x; cbn in K.
    - destruct K as (g & G & C & L). apply nth_error_In in G. specialize (RNG g G v C). cbn in RNG. lia.
    - destruct K as (g & p & q & r & G & P & F). apply nth_error_In in G. destruct (GD g G) as (p' & q' & r' & P' & NF' & _). destruct (points_unique _ _ _ _ _ _ _ _ P P') as (-> & -> & ->). contradiction.
    - destruct K as (g & p & q & r & G & P & F). apply nth_error_In in G. destruct (GD g G) as (p' & q' & r' & P' & _ & NS'). destruct (points_unique _ _ _ _ _ _ _ _ P P') as (-> & -> & ->). contradiction.
    - exact (SN _ K).
    - destruct fs as [|f fs]; [congruence|]. apply (K f); [now left|]. apply GD. now left. }
  assert (CG : forall j, (j < length vs)%nat -> corner_of_good ta e j) by (intros j J; destruct (US j J) as (f & F & C); exists f; split; [exact F|]; split; [now apply GD|exact C]).
  assert (EU : us = seq 0 (length vs)).
  { apply sorted_seq; [exact (co_sorted _ _ _ _ _ _ CO)|]. intros j. split.
    - intros J. pose proof (co_bound _ _ _ _ _ _ CO j J) as K. cbn in K. lia.
    - intros J. apply (co_used _ _ _ _ _ _ CO). right. apply CG. lia. }
  destruct (co_vs _ _ _ _ _ _ CO) as (LV & KV). rewrite EU, seq_length in LV.
  assert (EV : tm_vertices m = vs).
  { apply list_ext. intros i. destruct (Nat.lt_ge_cases i (length vs)) as [L|L].
    - destruct (KV i i) as (A & _); [rewrite EU, (nth_error_nth' (seq 0 (length vs)) 0%nat) by (rewrite seq_length; exact L); f_equal; rewrite seq_nth by exact L; reflexivity|]. apply A. apply CG. exact L.
    - rewrite (proj2 (nth_error_None _ _)) by lia. symmetry. apply nth_error_None. exact L. }
  assert (EF : tm_faces m = fs).
  { pose proof (kept_all _ _ _ (co_faces _ _ _ _ _ _ CO) GD) as K. cbn [ta ta_faces] in K. rewrite <- K at 1. rewrite <- (map_id (tm_faces m)) at 1. apply map_ext_in. intros f F. symmetry. rewrite EU. apply renamed_seq.
    intros j J. pose proof (co_inside _ _ _ _ _ _ CO f j F J) as L. rewrite EU, seq_length in L. exact L. }
  exists m. split; [unfold create_mesh; rewrite E; cbn [bind]; now rewrite V, MS|]. split; [exact EV|]. split; [exact EF|]. split; [exact BM|].
  intros j J. rewrite (NO V j) by (rewrite EV; exact J). unfold all_corners. now rewrite EV, EF.
Qed.
