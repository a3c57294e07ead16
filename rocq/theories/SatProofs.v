(** Proofs about the separating axis test: the axes. *)
From Coq Require Import Reals Lra Psatz List Bool Arith Lia.
From Verif Require Import Base VecModel VecProofs GeomModel GeomSpec GeomProofs HalfEdgeModel ShapeModel ShapeSpec ShapeProofs ShapeMeshProofs GjkSpec NarrowModel NarrowSpec NarrowProofs NarrowCapsuleProofs GjkShapeProofs SatModel SatSpec.
Import ListNotations.
Local Open Scope R_scope.

Lemma vlen2_turned q v : quat_len2 q = 1 -> vlen2 (quat_vec q v) = vlen2 v.
Proof. intros Q. rewrite !vlen2_dot, quat_vec_dot, Q. ring. Qed.
(** ** Edges *)
Lemma vlen_1 a : vlen a = 1 -> vdot a a = 1.
Proof. intros H. rewrite <- vlen2_dot, <- vlen_sq, H. ring. Qed.
(** The expansion of a vector in three others. *)
Lemma expand p q r u : vscale (vdot (vcross p q) r) u = vadd (vadd (vscale (vdot u p) (vcross q r)) (vscale (vdot u q) (vcross r p))) (vscale (vdot u r) (vcross p q)).
Proof. vring. Qed.
Lemma cross3 a e : vcross a (vcross e a) = vsub (vscale (vdot a a) e) (vscale (vdot a e) a). Proof. vring. Qed.
Lemma cross3' a e : vcross (vcross e a) e = vsub (vscale (vdot e e) a) (vscale (vdot a e) e). Proof. vring. Qed.
Lemma frame a e u d : vdot a a = 1 -> vdot a e = 0 -> vdot e e * vdot u d = vdot u e * vdot e d + vdot e e * vdot u a * vdot a d + vdot u (vcross e a) * vdot (vcross e a) d.
Proof.
  intros U P. pose proof (expand e a (vcross e a) u) as K. rewrite cross3, cross3', U, P in K.
  assert (D : vdot (vcross e a) (vcross e a) = vdot e e). { rewrite <- vlen2_dot, lagrange, !vlen2_dot, U, (vdot_comm e a), P. ring. }
  rewrite D in K. apply (f_equal (fun w => vdot w d)) in K. rewrite !vdot_vadd_l, !vdot_vscale_l, !vdot_vsub_l, !vdot_vscale_l in K. rewrite K. ring.
Qed.
Lemma id_zero a d : vdot (vcross a vzero) d = 0. Proof. unfold vzero. vring. Qed.
Lemma id_swap e a d : vdot (vcross e a) d = - vdot (vcross a e) d. Proof. vring. Qed.
Lemma id_neg A B : vsub A B = vscale (-1) (vsub B A). Proof. vring. Qed.
Lemma id_dbl e a : vcross (vcross e a) a = vsub (vscale (vdot a e) a) (vscale (vdot a a) e). Proof. vring. Qed.
Lemma id_scl s b a : vscale s (vcross b a) = vcross (vscale s b) a. Proof. vring. Qed.
Lemma id_lin m a e s t r : vcross (vadd (vadd (vscale 0 (vsub (vscale 1 e) (vscale 0 a))) (vscale t (vsub (vscale s a) (vscale 0 e)))) (vscale r m)) a = vscale r (vcross m a). Proof. vring. Qed.
Lemma id_ss s t v : vscale s (vscale t v) = vscale (s * t) v. Proof. vring. Qed.
Lemma id_one v : vscale 1 v = v. Proof. vring. Qed.
Lemma id_tri k w E d : k * vdot (vcross w E) d = vdot (vcross (vscale k w) E) d. Proof. vring. Qed.
Lemma id_bac b a E d : vdot (vcross (vcross b a) E) d = vdot b E * vdot a d - vdot a E * vdot b d. Proof. vring. Qed.
Lemma id_perp A B E : vdot (vcross (vsub A B) E) (vsub B A) = 0. Proof. vring. Qed.
Lemma id_crcr A B E a : vdot (vcross (vsub A B) E) (vcross (vsub B A) a) = - (vdot (vsub B A) (vsub B A) * vdot a E) + vdot a (vsub B A) * vdot (vsub B A) E. Proof. vring. Qed.
Section Edge.
Variables (vs : list vec3) (a b A B E : vec3).
Hypothesis BA : border vs a A B.
Hypothesis BB : border vs b B A.
Hypothesis cross : vdot a E * vdot b E < 0.
Lemma edge_tilt : exists k, 0 <= k /\ vcross b a = vscale k (vsub A B) /\ vdot (vsub B A) (vsub B A) * k = vdot b (vcross (vsub B A) a) /\ 0 < vdot (vsub B A) (vsub B A).
Proof.
  destruct BA as [U P BH LF (x & Hx & X0 & X1)], BB as [U' P' BH' _ _]. apply vlen_1 in U, U'. set (e := vsub B A) in *.
  assert (P2 : vdot b e = 0). { unfold e. rewrite !vdot_vsub_r in *. lra. }
  assert (EE : 0 < vdot e e). { rewrite <- vlen2_dot. destruct (Rle_lt_or_eq_dec 0 (vlen2 e) (vlen2_nonneg e)) as [K|K]; [exact K|]. symmetry in K. apply vlen2_zero in K. rewrite K in X1. rewrite id_zero in X1. lra. }
  exists (vdot b (vcross e a) / vdot e e). split; [|split; [|split; [field; lra|exact EE]]].
  - pose proof (frame a e b (vsub x A) U P) as K. rewrite X0, P2 in K. rewrite (id_swap e a (vsub x A)) in K.
    assert (B1 : vdot b (vsub x A) <= 0). { specialize (BH' x Hx). unfold e in P2. rewrite !vdot_vsub_r in *. lra. }
    assert (B2 : 0 <= vdot b (vcross e a)) by nra. apply Rle_mult_inv_pos; assumption.
  - pose proof (expand e a (vcross e a) b) as K. rewrite cross3, cross3', U, P, P2 in K.
    assert (D : vdot (vcross e a) (vcross e a) = vdot e e). { rewrite <- vlen2_dot, lagrange, !vlen2_dot, U, (vdot_comm e a), P. ring. }
    rewrite D in K. apply (f_equal (fun w => vcross w a)) in K.
    rewrite (id_neg A B). fold e.
    assert (C : vcross (vcross e a) a = vscale (-1) e). { rewrite id_dbl, U, P. destruct a, e. unfold vsub, vscale; cbn. f_equal; ring. }
    assert (K2 : vscale (vdot e e) (vcross b a) = vscale (vdot b (vcross e a)) (vscale (-1) e)).
    { rewrite id_scl, K, id_lin, C. reflexivity. }
    apply (f_equal (vscale (/ vdot e e))) in K2. rewrite !id_ss, Rinv_l in K2 by lra. rewrite id_one in K2. rewrite K2, id_ss. f_equal. unfold Rdiv. ring.
Qed.
(** The cross product with the edge, turned by the sign of b.E, supports the polyhedron at the edge. *)
Lemma edge_supports x : In x vs -> vdot b E * vdot (vcross (vsub A B) E) (vsub x A) <= 0.
Proof.
  intros Hx. destruct edge_tilt as (k & K0 & K1 & K2 & EE). destruct BA as [U P BH LF _], BB as [U' P' BH' _ _]. apply vlen_1 in U, U'.
  set (d := vsub x A). assert (D1 : vdot a d <= 0) by (apply BH; exact Hx).
  assert (D2 : vdot b d <= 0). { specialize (BH' x Hx). unfold d. rewrite !vdot_vsub_r in *. lra. }
  destruct K0 as [K0|K0].
  - assert (I : k * vdot (vcross (vsub A B) E) d = vdot b E * vdot a d - vdot a E * vdot b d).
    { rewrite id_tri, <- K1. apply id_bac. }
    assert (J : k * (vdot b E * vdot (vcross (vsub A B) E) d) <= 0). { replace (k * (vdot b E * vdot (vcross (vsub A B) E) d)) with (vdot b E * (k * vdot (vcross (vsub A B) E) d)) by ring. rewrite I. nra. }
    nra.
  - subst k. assert (P2 : vdot b (vsub B A) = 0) by (rewrite !vdot_vsub_r in *; lra). rewrite Rmult_0_r in K2.
    (* b = (b.a) a *)
    assert (BAE : vdot b E = vdot b a * vdot a E). { pose proof (frame a (vsub B A) b E U P) as K. rewrite P2, <- K2 in K. assert (vdot (vsub B A) (vsub B A) <> 0) by lra. apply Rmult_eq_reg_l with (vdot (vsub B A) (vsub B A)); [|assumption]. lra. }
    assert (BAa : vdot b a * vdot b a = 1). { pose proof (frame a (vsub B A) b b U P) as K. rewrite P2, <- K2, U' in K. rewrite (vdot_comm a b) in K. assert (vdot (vsub B A) (vsub B A) <> 0) by lra. apply Rmult_eq_reg_l with (vdot (vsub B A) (vsub B A)); [|assumption]. lra. }
    assert (BAn0 : vdot b a < 0) by (rewrite BAE in cross; nra). assert (BAn : vdot b a = -1) by nra.
    assert (BAd : vdot b d = - vdot a d). { pose proof (frame a (vsub B A) b d U P) as K. rewrite P2, <- K2, BAn in K. assert (vdot (vsub B A) (vsub B A) <> 0) by lra. apply Rmult_eq_reg_l with (vdot (vsub B A) (vsub B A)); [|assumption]. lra. }
    assert (D0 : vdot a d = 0) by lra. pose proof (LF x Hx D0) as L. fold d in L.
    pose proof (frame a (vsub B A) (vcross (vsub A B) E) d U P) as K. rewrite D0 in K. rewrite id_perp in K.
    rewrite id_crcr, P in K.
    rewrite (id_swap (vsub B A) a d) in K.
    assert (K3 : vdot (vcross (vsub A B) E) d = vdot a E * vdot (vcross a (vsub B A)) d). { apply Rmult_eq_reg_l with (vdot (vsub B A) (vsub B A)); [|lra]. lra. }
    rewrite K3, BAE, BAn. nra.
Qed.
(** Strictly inside if the point is strictly behind both faces. *)
Lemma edge_inside c : vdot a (vsub c A) < 0 -> vdot b (vsub c A) < 0 -> vdot b E * vdot (vcross (vsub A B) E) (vsub c A) < 0.
Proof.
  intros D1 D2. destruct edge_tilt as (k & K0 & K1 & K2 & EE). destruct BA as [U P BH LF _], BB as [U' P' BH' _ _]. apply vlen_1 in U, U'.
  set (d := vsub c A) in *. destruct K0 as [K0|K0].
  - assert (I : k * vdot (vcross (vsub A B) E) d = vdot b E * vdot a d - vdot a E * vdot b d).
    { rewrite id_tri, <- K1. apply id_bac. }
    assert (J : k * (vdot b E * vdot (vcross (vsub A B) E) d) < 0). { replace (k * (vdot b E * vdot (vcross (vsub A B) E) d)) with (vdot b E * (k * vdot (vcross (vsub A B) E) d)) by ring. rewrite I.
      assert (vdot b E * vdot b E > 0) by (assert (vdot b E <> 0) by (intros Z; rewrite Z in cross; lra); nra). nra. }
    nra.
  - exfalso. subst k. assert (P2 : vdot b (vsub B A) = 0) by (rewrite !vdot_vsub_r in *; lra). rewrite Rmult_0_r in K2.
    assert (BAE : vdot b E = vdot b a * vdot a E). { pose proof (frame a (vsub B A) b E U P) as K. rewrite P2, <- K2 in K. apply Rmult_eq_reg_l with (vdot (vsub B A) (vsub B A)); [|lra]. lra. }
    assert (BAd : vdot b d = vdot b a * vdot a d). { pose proof (frame a (vsub B A) b d U P) as K. rewrite P2, <- K2 in K. apply Rmult_eq_reg_l with (vdot (vsub B A) (vsub B A)); [|lra]. lra. }
    assert (0 < vdot b a) by nra. rewrite BAE in cross. nra.
Qed.
End Edge.

(** ** Depths along directions *)
Lemma rd_ok {A} (o : option A) a : rd o = Ok a -> o = Some a.
Proof. destruct o; cbn; congruence. Qed.
Lemma depth_apart n A B d : depth_along n A B d -> d <= 0 -> apart_along n A B.
Proof.
  intros (U & M & p & q & Hp & Hq & E) L. split; [exact U|]. exists (vdot n p). split.
  - intros p' H. specialize (M p' q H Hq). rewrite vdot_vsub_r in *. lra.
  - intros q' H. specialize (M p q' Hp H). rewrite vdot_vsub_r in *. lra.
Qed.
Lemma depth_shift n A B d : depth_along n A B d -> apart_along n A (shifted_set B n d).
Proof.
  intros (U & M & p & q & Hp & Hq & E). split; [exact U|]. exists (vdot n p). split.
  - intros p' H. specialize (M p' q H Hq). rewrite vdot_vsub_r in *. lra.
  - intros q' (q0 & H & ->). specialize (M p q0 Hp H). rewrite shifted_eq, vdot_vadd_r, vdot_vscale_r, (vlen_1 n U). rewrite vdot_vsub_r in *. lra.
Qed.
Lemma depth_moved t n A B d : quat_len2 (t_rot t) = 1 -> depth_along n A B d -> depth_along (quat_vec (t_rot t) n) (moved t A) (moved t B) d.
Proof.
  intros Q (U & M & p & q & Hp & Hq & E). split; [|split].
  - unfold vlen in *. now rewrite vlen2_turned.
  - intros p' q' (x & Hx & ->) (y & Hy & ->). rewrite tr_diff, quat_vec_dot, Q. specialize (M x y Hx Hy). lra.
  - exists (tr_point t p), (tr_point t q). split; [now exists p|]. split; [now exists q|]. rewrite tr_diff, quat_vec_dot, Q. lra.
Qed.
Lemma depth_ext n (A A' B B' : vec3 -> Prop) d : (forall p, A p <-> A' p) -> (forall p, B p <-> B' p) -> depth_along n A B d -> depth_along n A' B' d.
Proof.
  intros EA EB (U & M & p & q & Hp & Hq & E). split; [exact U|]. split; [intros; apply M; [now apply EA|now apply EB]|]. exists p, q. now rewrite <- EA, <- EB.
Qed.
Lemma depth_flip n A B d : depth_along n A B d -> depth_along (vneg n) B A d.
Proof.
  intros (U & M & p & q & Hp & Hq & E). assert (N : forall x y, vdot (vneg n) (vsub x y) = vdot n (vsub y x)) by (clear; vring). split; [|split].
  - unfold vlen in *. now replace (vlen2 (vneg n)) with (vlen2 n) by (clear; vring).
  - intros p' q' H1 H2. rewrite N. now apply M.
  - exists q, p. now rewrite N.
Qed.
(** From the vertices to the hulls. *)
Lemma depth_hull n P Q d a b : vlen n = 1 -> hull P a -> hull Q b -> (forall x, In x P -> vdot n (vsub x a) <= 0) -> (forall y, In y Q -> 0 <= vdot n (vsub y b)) ->
  d = vdot n (vsub a b) -> depth_along n (hull P) (hull Q) d.
Proof.
  intros U Ha Hb HP HQ ->. split; [exact U|]. split.
  - intros p q Hp Hq. assert (K1 : vdot n p <= vdot n a). { apply hull_bound with P; [|exact Hp]. intros v Hv. specialize (HP v Hv). rewrite vdot_vsub_r in HP. lra. }
    assert (K2 : vdot (vneg n) q <= - vdot n b). { apply hull_bound with Q; [|exact Hq]. intros v Hv. specialize (HQ v Hv). rewrite vdot_vsub_r in HQ. replace (vdot (vneg n) v) with (- vdot n v) by (clear; vring). lra. }
    replace (vdot (vneg n) q) with (- vdot n q) in K2 by (clear; vring). rewrite !vdot_vsub_r. lra.
  - exists a, b. auto.
Qed.
Lemma image_moved t vs p : hull (map (tr_point t) vs) p <-> moved t (hull vs) p.
Proof. split; [intros H; destruct (hull_image _ _ _ H) as (y & Hy & E); now exists y|intros (y & Hy & ->); now apply image_hull]. Qed.
Lemma moved_both t1 t2 S p : quat_len2 (t_rot t2) = 1 -> moved t2 (moved (tr_mul (tr_inverse t2) t1) S) p <-> moved t1 S p.
Proof.
  intros Q. split.
  - intros (x & (y & Hy & ->) & ->). exists y. split; [exact Hy|now apply pass_through].
  - intros (y & Hy & ->). exists (tr_point (tr_mul (tr_inverse t2) t1) y). split; [now exists y|now rewrite pass_through].
Qed.

(** ** Faces *)
Lemma face_depth_ok big p1 p2 t f d : 4 < big -> quat_len2 (t_rot t) = 1 -> solid_ok big p1 -> solid_ok big p2 -> face_depth p1 p2 t f = Ok d ->
  exists n, nth_error (so_normals p1) f = Some n /\ depth_along (quat_vec (t_rot t) n) (moved t (hull (so_verts p1))) (hull (so_verts p2)) d.
Proof.
  intros Hb Q O1 O2 H. unfold face_depth, normal, vert in H.
  destruct (nth_error (so_faces p1) f) as [vs|] eqn:Ef; cbn [rd bind] in H; [|discriminate].
  destruct (nth_error (so_normals p1) f) as [n|] eqn:En; cbn [rd bind] in H; [|discriminate].
  destruct (nth_error vs 0) as [i|] eqn:Ei; cbn [rd bind] in H; [|discriminate].
  destruct (nth_error (so_verts p1) i) as [v|] eqn:Ev; cbn [rd bind] in H; [|discriminate]. inversion H; subst d; clear H. exists n. split; [reflexivity|].
  destruct (ok_faces _ _ O1 f vs n Ef En) as (U & _ & F). destruct (F i (nth_error_In _ _ Ei)) as (v' & Ev' & BH). rewrite Ev in Ev'. inversion Ev'; subst v'.
  assert (U2 : vlen (quat_vec (t_rot t) n) = 1) by (unfold vlen in *; now rewrite vlen2_turned).
  set (m := quat_vec (t_rot t) n) in *. destruct (ok_support _ _ O2 (vneg m)) as (S1 & S2).
  { change (4 * vlen2 (vneg m) < big). replace (vlen2 (vneg m)) with (vlen2 m) by (clear; generalize m; intros; vring). rewrite <- vlen_sq, U2. lra. }
  apply depth_ext with (A := hull (map (tr_point t) (so_verts p1))) (B := hull (so_verts p2)); [intros; apply image_moved|tauto|].
  apply depth_hull with (a := tr_point t v) (b := so_support p2 (vneg m)).
  - exact U2.
  - apply hull_vertex. apply in_map. now apply nth_error_In with i.
  - now apply hull_vertex.
  - intros x Hx. apply in_map_iff in Hx. destruct Hx as (y & <- & Hy). rewrite tr_diff. unfold m. rewrite quat_vec_dot, Q. specialize (BH y Hy). lra.
  - intros y Hy. specialize (S2 y Hy). rewrite vdot_vsub_r. revert S2. clear. generalize (so_support p2 (vneg m)). intros s K.
    replace (vdot m y) with (- vdot (vneg m) y) by (generalize m; clear; intros; vring). replace (vdot m s) with (- vdot (vneg m) s) by (generalize m; clear; intros; vring). unfold vdot in *. cbn in *. lra.
  - apply vdot_comm.
Qed.
Lemma tr_inverse_back ta tb v : quat_len2 (t_rot ta) = 1 -> quat_len2 (t_rot tb) = 1 -> quat_vec (t_rot ta) (quat_vec (t_rot (tr_inverse (tr_mul (tr_inverse tb) ta))) v) = quat_vec (t_rot tb) v.
Proof.
  intros Qa Qb. pose proof (pass_back ta tb v Qa Qb) as K1. pose proof (pass_back ta tb vzero Qa Qb) as K0.
  assert (Z : forall x, vsub x vzero = x) by (clear; intros [x y z]; unfold vsub, vzero; cbn; f_equal; ring).
  rewrite <- (Z v), <- !tr_diff. now rewrite K1, K0.
Qed.
Lemma tr_forth ta tb v : quat_len2 (t_rot tb) = 1 -> quat_vec (t_rot tb) (quat_vec (t_rot (tr_mul (tr_inverse tb) ta)) v) = quat_vec (t_rot ta) v.
Proof.
  intros Qb. assert (Z : forall x, vsub x vzero = x) by (clear; intros [x y z]; unfold vsub, vzero; cbn; f_equal; ring).
  rewrite <- (Z v), <- !tr_diff, !pass_through by exact Qb. reflexivity.
Qed.
Lemma moved_back t1 t2 S p : quat_len2 (t_rot t1) = 1 -> quat_len2 (t_rot t2) = 1 -> moved t1 (moved (tr_inverse (tr_mul (tr_inverse t2) t1)) S) p <-> moved t2 S p.
Proof.
  intros Q1 Q2. split.
  - intros (x & (y & Hy & ->) & ->). exists y. split; [exact Hy|now apply pass_back].
  - intros (y & Hy & ->). exists (tr_point (tr_inverse (tr_mul (tr_inverse t2) t1)) y). split; [now exists y|now rewrite pass_back].
Qed.
Section Two.
Variables (big : R) (p1 p2 : solid) (t1 t2 : transform).
Hypothesis Hb : 4 < big.
Hypothesis Q1 : quat_len2 (t_rot t1) = 1.
Hypothesis Q2 : quat_len2 (t_rot t2) = 1.
Hypothesis O1 : solid_ok big p1.
Hypothesis O2 : solid_ok big p2.
Let t12 := tr_mul (tr_inverse t2) t1.
Let t21 := tr_inverse t12.
Lemma unit12 : quat_len2 (t_rot t12) = 1. Proof. apply unit_mul; [now apply unit_inverse|exact Q1]. Qed.
Lemma unit21 : quat_len2 (t_rot t21) = 1. Proof. apply unit_inverse, unit12. Qed.
Lemma face_depth_world (first : bool) f d : (if first then face_depth p1 p2 t12 f else face_depth p2 p1 t21 f) = Ok d ->
  exists n, world_face first p1 p2 t1 t2 f = Some n /\ depth_along n (body_of p1 t1) (body_of p2 t2) d.
Proof.
  intros H. destruct first.
  - destruct (face_depth_ok big p1 p2 t12 f d Hb unit12 O1 O2 H) as (n & En & D). unfold world_face. rewrite En. cbn [option_map]. eexists. split; [reflexivity|].
    apply (depth_moved t2 _ _ _ _ Q2) in D. unfold t12 in D. rewrite tr_forth in D by exact Q2.
    revert D. apply depth_ext; [intros p; now apply moved_both|reflexivity].
  - destruct (face_depth_ok big p2 p1 t21 f d Hb unit21 O2 O1 H) as (n & En & D). unfold world_face. rewrite En. cbn [option_map]. eexists. split; [reflexivity|].
    apply (depth_moved t1 _ _ _ _ Q1) in D. unfold t21, t12 in D. rewrite tr_inverse_back in D by assumption.
    apply depth_flip. revert D. apply depth_ext; [intros p; now apply moved_back|reflexivity].
Qed.

(** ** Edges of both *)
Lemma border_moved t vs a A B : quat_len2 (t_rot t) = 1 -> border vs a A B -> border (map (tr_point t) vs) (quat_vec (t_rot t) a) (tr_point t A) (tr_point t B).
Proof.
  intros Q [U P BH LF (x & Hx & X0 & X1)].
  assert (D1 : forall y, vdot (quat_vec (t_rot t) a) (vsub (tr_point t y) (tr_point t A)) = vdot a (vsub y A)) by (intros; rewrite tr_diff, quat_vec_dot, Q; ring).
  assert (D2 : forall y, vdot (vcross (quat_vec (t_rot t) a) (vsub (tr_point t B) (tr_point t A))) (vsub (tr_point t y) (tr_point t A)) = vdot (vcross a (vsub B A)) (vsub y A)).
  { intros y. rewrite !tr_diff, quat_vec_cross, vdot_vscale_l, quat_vec_dot, Q. ring. }
  constructor.
  - unfold vlen in *. now rewrite vlen2_turned.
  - now rewrite D1.
  - intros y' Hy. apply in_map_iff in Hy. destruct Hy as (y & <- & Hy). rewrite D1. auto.
  - intros y' Hy. apply in_map_iff in Hy. destruct Hy as (y & <- & Hy). rewrite D1, D2. auto.
  - exists (tr_point t x). split; [now apply in_map|]. now rewrite D1, D2.
Qed.
Lemma runs_fun p i a A B a' A' B' : runs p i a A B -> runs p i a' A' B' -> a = a' /\ A = A' /\ B = B'.
Proof.
  intros (e & n & E1 & E2 & E3 & (k & E4 & E5) & E6) (e' & n' & E1' & E2' & E3' & (k' & E4' & E5') & E6'). rewrite E1 in E1'. inversion E1'; subst e'.
  rewrite E4 in E4'. inversion E4'; subst k'. rewrite E5 in E5'. inversion E5'; subst n'. repeat split; congruence.
Qed.
(** What an edge pair knows of one polyhedron. *)
Lemma half_edge_facts p e i A B w k a b u v : solid_ok big p -> half_edge p i = Ok e -> edge_ends p e = Ok (A, B) -> rd (e_twin e) = Ok k -> half_edge p k = Ok w ->
  normal p (e_face e) = Ok a -> normal p (e_face w) = Ok b -> vert p (e_vertex e) = Ok u -> vert p (e_vertex w) = Ok v ->
  u = A /\ v = B /\ border (so_verts p) a A B /\ border (so_verts p) b B A /\ In A (so_verts p) /\ In B (so_verts p) /\
  (so_triangle p = false -> vdot a (vsub (so_centroid p) A) < 0 /\ vdot b (vsub (so_centroid p) A) < 0).
Proof.
  intros O He HE HT Hw Ha Hb' Hu Hv. unfold half_edge, normal, vert in *. apply rd_ok in He, HT, Hw, Ha, Hb', Hu, Hv.
  destruct (ok_edges _ _ O i e He) as (a' & b' & A' & B' & k' & R1 & T & R2 & BA & BB).
  assert (RA : runs p i a A B). { unfold edge_ends, vert, half_edge in HE. rewrite Hu in HE. cbn [rd bind] in HE.
    destruct (e_next e) as [j|] eqn:Ej; cbn [rd bind] in HE; [|discriminate]. destruct (nth_error (st_edges (so_edges p)) j) as [n|] eqn:En; cbn [rd bind] in HE; [|discriminate].
    destruct (nth_error (so_verts p) (e_vertex n)) as [y|] eqn:Ey; cbn [rd bind] in HE; [|discriminate]. inversion HE; subst A B.
    exists e, n. repeat split; auto. now exists j. }
  destruct (runs_fun _ _ _ _ _ _ _ _ RA R1) as (<- & <- & <-). rewrite HT in T. inversion T; subst k'.
  assert (Eb : b' = b /\ v = B). { destruct R2 as (e' & n' & F1 & F2 & F3 & _). rewrite Hw in F1. inversion F1; subst e'. split; congruence. }
  destruct Eb as (-> & ->). assert (EA : u = A) by (destruct RA as (e' & n' & F1 & F2 & F3 & _); rewrite He in F1; inversion F1; subst e'; congruence). subst u.
  split; [reflexivity|]. split; [reflexivity|]. split; [exact BA|]. split; [exact BB|]. split; [now apply nth_error_In in Hu|]. split; [now apply nth_error_In in Hv|].
  intros NT. pose proof (ok_centroid _ _ O NT _ _ _ _ RA) as K1. pose proof (ok_centroid _ _ O NT _ _ _ _ R2) as K2. split; [exact K1|].
  pose proof (bo_along _ _ _ _ BB) as P. rewrite !vdot_vsub_r in *. lra.
Qed.
End Two.
