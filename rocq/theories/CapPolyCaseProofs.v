(** Proofs about the test of a capsule against a convex polyhedron: a capsule standing above a box. *)
From Coq Require Import Reals Lra Psatz List Bool Arith Lia ZArith.
From Verif Require Import Base VecModel VecProofs GeomModel GeomSpec GeomProofs HalfEdgeModel ShapeModel ShapeSpec ShapeProofs ShapeMeshProofs NarrowModel NarrowSpec NarrowProofs NarrowCapsuleProofs GjkModel GjkSpec GjkShapeProofs GjkVertexProofs GjkProperties SatModel SatSpec GeomProperties LinAlgProperties SatProofs SatEdgeProofs SatClipProofs CapSatModel CapSatSpec CapSatProofs CapSatContactProofs SatFullProofs SatRunProofs SatBoxProofs SatCaseProofs CapSatCaseProofs CapSatBoxProofs CapPolyModel CapPolySpec CapPolyProofs.
Import ListNotations.
Local Open Scope R_scope.

Lemma shallow_none eps fuel first hh r p tc tp c : (forall f, (f < length (so_faces p))%nat -> exists n, nth_error (so_normals p) f = Some n /\
    (orthogonal_vectors (quat_vec (t_rot tp) n) (vnormalize eps (quat_vec (t_rot tc) (vsub (seg_b hh) (seg_a hh)))) = false \/ parallel_vectors (quat_vec (t_rot tp) n) (c_normal c) = false)) ->
  forall fs, (forall f, In f fs -> (f < length (so_faces p))%nat) -> shallow_faces eps fuel first hh r p tc tp c fs = Ok [].
Proof.
  intros H. induction fs as [|f fs IH]; intros L; cbn [shallow_faces]; [reflexivity|]. destruct (H f (L f (or_introl eq_refl))) as (n & En & K). unfold normal. rewrite En. cbn [rd bind].
  destruct K as [K|K]; rewrite K; rewrite ?andb_false_r; cbn [andb]; apply IH; intros g Hg; apply L; now right.
Qed.
Definition cube : solid := the_box (V3 1 1 1).
Definition above : transform := place (V3 0 4 0).
Lemma in_cube x : body_of cube stay x <-> cuboid (V3 1 1 1) x.
Proof. unfold cube. rewrite box_body by (cbn; lra). split; [intros (q & Hq & ->); now rewrite stay_point|intros H; exists x; now rewrite stay_point]. Qed.
Lemma in_core y : cap_core 1 above y <-> vx y = 0 /\ vz y = 0 /\ 3 <= vy y <= 5.
Proof.
  unfold cap_core, cap_seg, moved, above. split.
  - intros (q & Hq & ->). apply segment_capsule in Hq; [|lra]. rewrite place_point. cbn [vx vy vz]. lra.
  - intros H. exists (V3 0 (vy y - 4) 0). split; [apply segment_capsule; cbn; lra|]. rewrite place_point. destruct y as [y1 y2 y3]. cbn [vx vy vz] in *. f_equal; lra.
Qed.
Lemma cube_setting r : 0 < r -> cap_poly_setting (/ 1000000) 1000 7 1 r cube above stay None.
Proof.
  intros Hr.
  split; [repeat (split; [first [lra|apply place_unit|apply stay_unit|apply box_ok; lra]|]); reflexivity|]. split; [lra|]. split; [lra|]. split; [|discriminate].
  intros a b Ha Hb. rewrite stay_point. unfold above. rewrite place_point. apply dist_le_sq; [lra|]. cbn [capsule_ends In] in Ha. cbn [cube the_box so_verts box_points In vx vy vz] in Hb.
  destruct Ha as [<-|[<-|[]]]; repeat (destruct Hb as [<-|Hb]; [unfold vlen2, vsub; cbn [vx vy vz]; lra|]); destruct Hb.
Qed.
Lemma whole_3 a b c : (exists i, a = IZR i) -> (exists i, b = IZR i) -> (exists i, c = IZR i) -> whole (V3 0 0 0) (V3 a b c).
Proof. intros (i & A) (j & B) (k & C). exists i, j, k. unfold vadd. cbn [vx vy vz]. f_equal; lra. Qed.
Ltac integer := first [exists (-1)%Z; lra|exists 1%Z; lra|exists 2%Z; lra|exists 4%Z; lra|exists 6%Z; lra|exists (-2)%Z; lra|exists (-4)%Z; lra|exists (-6)%Z; lra].
Lemma cube_no_slivers first : cap_no_slivers first 1 cube above stay.
Proof.
  unfold cap_no_slivers. destruct first; apply (whole_no_slivers (V3 0 0 0)), Forall_forall; intros x Hx; unfold differences in Hx; apply in_map_iff in Hx; destruct Hx as ((a, b) & <- & Hab); cbn [fst snd]; apply in_prod_iff in Hab; destruct Hab as (Ha & Hb).
  - rewrite stay_point. unfold above. rewrite place_point. cbn [capsule_ends In] in Ha. cbn [cube the_box so_verts box_points In vx vy vz] in Hb.
    destruct Ha as [<-|[<-|[]]]; repeat (destruct Hb as [<-|Hb]; [unfold vsub; cbn [vx vy vz]; apply whole_3; integer|]); destruct Hb.
  - rewrite stay_point. unfold above. rewrite place_point. cbn [capsule_ends In] in Hb. cbn [cube the_box so_verts box_points In vx vy vz] in Ha.
    destruct Hb as [<-|[<-|[]]]; repeat (destruct Ha as [<-|Ha]; [unfold vsub; cbn [vx vy vz]; apply whole_3; integer|]); destruct Ha.
Qed.
Lemma cube_error : gjk_error (/ 1000000) 7 < / 10.
Proof.
  unfold gjk_error. assert (S : sqrt (/ 1000000) = / 1000) by (rewrite <- (sqrt_square (/ 1000)) by lra; f_equal; lra). rewrite S. repeat apply Rmax_lub_lt; lra.
Qed.
(** The normal of a contact of the two is not parallel to one of the walls. *)
Lemma steep n k x y : vlen n = 1 -> cuboid (V3 1 1 1) x -> vx y = 0 -> vz y = 0 -> 3 <= vy y <= 5 -> vsub y x = vscale k n -> vx n * vx n + vz n * vz n <= 1 / 3.
Proof.
  intros U Hx Y1 Y2 Y3 E. apply vlen_1 in U. unfold cuboid in Hx. cbn [vx vy vz] in Hx. unfold vdot in U. destruct n as [a b c], x as [x1 x2 x3], y as [y1 y2 y3]. unfold vsub, vscale in E. cbn [vx vy vz] in *. inversion E as [[E1 E2 E3]].
  assert (K1 : (k * b) * (k * b) >= 4) by nra. assert (K2 : (k * a) * (k * a) <= 1) by nra. assert (K3 : (k * c) * (k * c) <= 1) by nra.
  assert (K : (k * k) * (2 * (a * a + c * c)) <= (k * k) * (b * b)) by nra. assert (0 < k * k) by nra. assert (2 * (a * a + c * c) <= b * b) by nra. lra.
Qed.
Lemma steep_none fuel first c : vlen (c_normal c) = 1 -> vx (c_normal c) * vx (c_normal c) + vz (c_normal c) * vz (c_normal c) <= 1 / 3 ->
  shallow_faces (/ 1000000) fuel first 1 (11 / 5) cube above stay c (seq 0 (length (so_faces cube))) = Ok [].
Proof.
  intros U L. apply vlen_1 in U. apply shallow_none; [|intros f Hf; apply in_seq in Hf; lia].
  assert (D : vnormalize (/ 1000000) (quat_vec (t_rot above) (vsub (seg_b 1) (seg_a 1))) = V3 0 1 0).
  { unfold above. rewrite place_vec. unfold vnormalize, vlen, vlen2, vsub, seg_b, seg_a. cbn [vx vy vz]. replace ((0 - 0) * (0 - 0) + (1 - - (1)) * (1 - - (1)) + (0 - 0) * (0 - 0)) with (2 * 2) by ring. rewrite sqrt_square by lra.
    destruct (rlt 2 (/ 1000000)) eqn:E; [apply rlt_true in E; lra|]. f_equal; field. }
  rewrite D. intros f Hf. cbn in Hf. destruct (c_normal c) as [a b d]. unfold vdot in U. cbn [vx vy vz] in *.
  assert (W : forall m, (vx m * vx m = 1 /\ vy m = 0 /\ vz m = 0) \/ (vx m = 0 /\ vy m = 0 /\ vz m * vz m = 1) -> parallel_vectors (quat_vec (t_rot stay) m) (V3 a b d) = false).
  { intros m K. rewrite stay_vec. unfold parallel_vectors. apply rlt_false. unfold vlen2, vcross. destruct m as [m1 m2 m3]. cbn [vx vy vz] in *. destruct K as [(K & -> & ->)|(-> & -> & K)].
    - replace ((0 * d - 0 * b) * (0 * d - 0 * b) + (0 * a - m1 * d) * (0 * a - m1 * d) + (m1 * b - 0 * a) * (m1 * b - 0 * a)) with ((m1 * m1) * (b * b + d * d)) by ring. rewrite K. nra.
    - replace ((0 * d - m3 * b) * (0 * d - m3 * b) + (m3 * a - 0 * d) * (m3 * a - 0 * d) + (0 * b - 0 * a) * (0 * b - 0 * a)) with ((m3 * m3) * (a * a + b * b)) by ring. rewrite K. nra. }
  assert (V : forall m, vy m * vy m = 1 -> orthogonal_vectors (quat_vec (t_rot stay) m) (V3 0 1 0) = false).
  { intros m K. rewrite stay_vec. unfold orthogonal_vectors. apply rlt_false. unfold vdot. destruct m as [m1 m2 m3]. cbn [vx vy vz] in *. replace (m1 * 0 + m2 * 1 + m3 * 0) with m2 by ring. pose proof (Rabs_pos m2). assert (Rabs m2 * Rabs m2 = 1) by (rewrite <- Rabs_mult, K; apply Rabs_R1). nra. }
  do 6 (destruct f as [|f]; [eexists; split; [reflexivity|]; first [left; apply V; cbn; lra|right; apply W; cbn; lra]|]). lia.
Qed.
Lemma cube_far x y : body_of cube stay x -> cap_core 1 above y -> 2 <= dist y x.
Proof.
  intros Hx Hy. apply in_cube in Hx. apply in_core in Hy. unfold cuboid in Hx. cbn [vx vy vz] in Hx. unfold dist. rewrite <- (sqrt_square 2) by lra. apply sqrt_le_1_alt.
  pose proof (Rle_0_sqr (vx y - vx x)) as Q1. pose proof (Rle_0_sqr (vz y - vz x)) as Q2. unfold Rsqr in *. nra.
Qed.
Lemma cube_near x y : body_of cube stay x -> cap_body 1 (11 / 5) above y -> dist x y <= 20.
Proof.
  intros Hx (q & (s & Hs & D) & ->). apply in_cube in Hx. apply segment_capsule in Hs; [|lra]. apply dist_le_sq in D; [|lra]. unfold above. rewrite place_point. apply dist_le_sq; [lra|].
  unfold cuboid in Hx. unfold vlen2, vsub in *. cbn [vx vy vz] in *. destruct q as [q1 q2 q3], s as [s1 s2 s3], x as [x1 x2 x3]. cbn [vx vy vz] in *. destruct Hs as (-> & -> & Hs).
  assert (K : forall a, a * a <= 11 / 5 * (11 / 5) -> -3 <= a <= 3) by (intros; nra).
  pose proof (Rle_0_sqr (q1 - 0)) as S1. pose proof (Rle_0_sqr (q2 - s2)) as S2. pose proof (Rle_0_sqr (q3 - 0)) as S3. unfold Rsqr in *.
  pose proof (K (q1 - 0) ltac:(lra)) as K1. pose proof (K (q2 - s2) ltac:(lra)) as K2. pose proof (K (q3 - 0) ltac:(lra)) as K3.
  assert (Q : forall a, -10 <= a <= 10 -> a * a <= 100) by (intros; nra). assert (A1 := Q (x1 - (q1 + 0)) ltac:(lra)). assert (A2 := Q (x2 - (q2 + 4)) ltac:(lra)). assert (A3 := Q (x3 - (q3 + 0)) ltac:(lra)). lra.
Qed.
Lemma standing_above fuel first : (16 * 16 * 16 + 16 * 16 + 16 + 2 < fuel)%nat -> exists c, capsule_polyhedron (/ 1000000) 1000 fuel true first 1 (11 / 5) cube above stay None = Ok (true, [c]).
Proof.
  intros L. pose proof (cube_setting (11 / 5) ltac:(lra)) as P. pose proof (cube_no_slivers first) as NS. pose proof cube_error as CE.
  assert (X0 : body_of cube stay (V3 0 1 0)) by (apply in_cube; unfold cuboid; cbn; lra). assert (Y0 : cap_core 1 above (V3 0 3 0)) by (apply in_core; cbn; lra).
  assert (D0 : dist (V3 0 3 0) (V3 0 1 0) = 2). { unfold dist. cbn [vx vy vz]. rewrite <- (sqrt_square 2) by lra. f_equal. ring. }
  pose proof cube_far as FAR.
  unfold capsule_polyhedron. cbv zeta. destruct first.
  - pose proof (cap_first _ _ _ _ _ _ _ _ _ P) as PL. destruct (C123_answers _ _ _ true _ _ _ _ _ _ _ fuel PL) as ([[x l] c'] & E); [cbn [length capsule_ends cube the_box so_verts box_points]; lia|]. rewrite E. cbn [bind fst snd]. destruct x.
    + exfalso. pose proof (C125_found_partial _ _ _ _ _ _ _ _ _ _ _ _ _ _ PL NS E _ _ (proj2 (core_capsule 1 above _ ltac:(lra)) Y0) X0) as K. cbn [cs_margin] in K. lra.
    + pose proof (C124_reported _ _ _ _ _ _ _ _ _ _ _ _ E) as Ll. cbn beta iota in Ll. destruct l as [|c [|? ?]]; try discriminate Ll. pose proof (C124_contact _ _ _ _ _ _ _ _ _ _ _ _ _ _ _ c PL E (or_introl eq_refl)) as [N1 N2 (q & Hq & N3) (q' & Hq' & N4) N5].
      cbn [cs_margin] in *. apply core_capsule in Hq; [|lra]. apply in_core in Hq. apply in_cube in Hq'. rewrite N3, N4 in N5. cbn [nth_error rd bind app].
      rewrite steep_none; [cbn [bind app]; eauto|exact N1|]. apply (steep (c_normal c) (c_depth c - 11 / 5) q' q); try tauto. revert N5. rewrite !shifted_eq. generalize (c_normal c), (c_depth c). clear. intros n d N5. destruct n as [n1 n2 n3], q as [q1 q2 q3], q' as [k1 k2 k3]. unfold vsub, vadd, vscale in *. cbn [vx vy vz] in *. inversion N5. f_equal; lra.
    + exfalso. destruct (C125_deep _ _ _ _ _ _ _ _ _ _ _ _ _ _ PL E) as (y & x & Hy & Hx & K). apply core_capsule in Hy; [|lra]. specialize (FAR x y Hx Hy). rewrite Rmax_right in K by lra. nra.
  - pose proof (cap_second _ _ _ _ _ _ _ _ _ P) as PL. destruct (C123_answers _ _ _ true _ _ _ _ _ _ _ fuel PL) as ([[x l] c'] & E); [cbn [length capsule_ends cube the_box so_verts box_points]; lia|]. rewrite E. cbn [bind fst snd]. destruct x.
    + exfalso. pose proof (C125_found_partial _ _ _ _ _ _ _ _ _ _ _ _ _ _ PL NS E _ _ X0 (proj2 (core_capsule 1 above _ ltac:(lra)) Y0)) as K. cbn [cs_margin] in K. rewrite dist_sym in K. lra.
    + pose proof (C124_reported _ _ _ _ _ _ _ _ _ _ _ _ E) as Ll. cbn beta iota in Ll. destruct l as [|c [|? ?]]; try discriminate Ll. pose proof (C124_contact _ _ _ _ _ _ _ _ _ _ _ _ _ _ _ c PL E (or_introl eq_refl)) as [N1 N2 (q & Hq & N3) (q' & Hq' & N4) N5].
      cbn [cs_margin] in *. apply core_capsule in Hq'; [|lra]. apply in_core in Hq'. apply in_cube in Hq. rewrite N3, N4 in N5. cbn [nth_error rd bind app].
      rewrite steep_none; [cbn [bind app]; eauto|exact N1|]. apply (steep (c_normal c) (11 / 5 - c_depth c) q q'); try tauto. revert N5. rewrite !shifted_eq. generalize (c_normal c), (c_depth c). clear. intros n d N5. destruct n as [n1 n2 n3], q as [q1 q2 q3], q' as [k1 k2 k3]. unfold vsub, vadd, vscale in *. cbn [vx vy vz] in *. inversion N5. f_equal; lra.
    + exfalso. destruct (C125_deep _ _ _ _ _ _ _ _ _ _ _ _ _ _ PL E) as (x & y & Hx & Hy & K). apply core_capsule in Hy; [|lra]. specialize (FAR x y Hx Hy). rewrite dist_sym in FAR. rewrite Rmax_right in K by lra. nra.
Qed.
