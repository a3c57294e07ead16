(** Proofs about the separating axis test: the cross products of edges. *)
From Coq Require Import Reals Lra Psatz List Bool Arith Lia.
From Verif Require Import Base VecModel VecProofs GeomModel GeomSpec GeomProofs HalfEdgeModel ShapeModel ShapeSpec ShapeProofs ShapeMeshProofs GjkSpec NarrowModel NarrowSpec NarrowProofs NarrowCapsuleProofs GjkShapeProofs SatModel SatSpec SatProofs.
Import ListNotations.
Local Open Scope R_scope.

Lemma id_crossneg a b : vcross a b = vneg (vcross b a). Proof. vring. Qed.
Lemma id_negdot a b : vdot (vneg a) b = - vdot a b. Proof. vring. Qed.
Lemma same_sign k s x : 0 < k * s -> s * x <= 0 -> k * x <= 0.
Proof. intros H1 H2. assert (s <> 0) by (intros ->; lra). assert (0 < s * s) by nra. assert (K : k * x * (s * s) = (k * s) * (s * x)) by ring. nra. Qed.
Lemma same_sign_lt k s x : 0 < k * s -> s * x < 0 -> k * x < 0.
Proof. intros H1 H2. assert (s <> 0) by (intros ->; lra). assert (0 < s * s) by nra. assert (K : k * x * (s * s) = (k * s) * (s * x)) by ring. nra. Qed.
Section Pair.
Variables (P Q : list vec3) (a b c d A1 B1 A2 B2 : vec3).
Hypothesis BA : border P a A1 B1.
Hypothesis BB : border P b B1 A1.
Hypothesis BC : border Q c A2 B2.
Hypothesis BD : border Q d B2 A2.
Hypothesis arcs : arcs_intersect a b (vneg c) (vneg d) (vsub A1 B1) (vsub A2 B2) = true.
Let n := vcross (vsub A1 B1) (vsub A2 B2).
Let s := vdot b (vsub A2 B2).
Lemma arcs_facts : vdot c (vsub A1 B1) * vdot d (vsub A1 B1) < 0 /\ vdot a (vsub A2 B2) * vdot b (vsub A2 B2) < 0 /\ 0 < vdot d (vsub A1 B1) * s.
Proof.
  unfold arcs_intersect in arcs. apply andb_prop in arcs. destruct arcs as (A0 & C). apply andb_prop in A0. destruct A0 as (A0 & B).
  apply rlt_true in A0, B, C. rewrite !id_negdot in A0. rewrite id_negdot in C. fold s in B, C |- *. split; [lra|]. split; [exact B|].
  assert (vdot c (vsub A1 B1) * s < 0) by lra. assert (K : vdot c (vsub A1 B1) * vdot d (vsub A1 B1) < 0) by lra.
  generalize dependent (vdot c (vsub A1 B1)). generalize (vdot d (vsub A1 B1)). intros y x _ _ H1 H2. assert (x <> 0) by (intros ->; lra). assert (0 < x * x) by nra. assert ((y * s) * (x * x) = (x * s) * (x * y)) by ring. assert (0 < (x * s) * (x * y)) by nra. nra.
Qed.
Lemma first_behind x : In x P -> s * vdot n (vsub x A1) <= 0.
Proof. intros Hx. apply (edge_supports P a b A1 B1 (vsub A2 B2) BA BB); [apply arcs_facts|exact Hx]. Qed.
Lemma second_front y : In y Q -> 0 <= s * vdot n (vsub y A2).
Proof.
  intros Hy. pose proof (edge_supports Q c d A2 B2 (vsub A1 B1) BC BD (proj1 arcs_facts) y Hy) as K. destruct arcs_facts as (_ & _ & G).
  rewrite id_crossneg in K. fold n in K. rewrite id_negdot in K. assert (K2 : s * - vdot n (vsub y A2) <= 0) by (apply same_sign with (vdot d (vsub A1 B1)); [rewrite Rmult_comm; exact G|exact K]). lra.
Qed.
Lemma first_centre c1 : vdot a (vsub c1 A1) < 0 -> vdot b (vsub c1 A1) < 0 -> s * vdot n (vsub c1 A1) < 0.
Proof. intros H1 H2. apply (edge_inside P a b A1 B1 (vsub A2 B2) BA BB); auto. apply arcs_facts. Qed.
Lemma second_centre c2 : vdot c (vsub c2 A2) < 0 -> vdot d (vsub c2 A2) < 0 -> 0 < s * vdot n (vsub c2 A2).
Proof.
  intros H1 H2. pose proof (edge_inside Q c d A2 B2 (vsub A1 B1) BC BD (proj1 arcs_facts) c2 H1 H2) as K. destruct arcs_facts as (_ & _ & G).
  rewrite id_crossneg in K. fold n in K. rewrite id_negdot in K. assert (K2 : s * - vdot n (vsub c2 A2) < 0) by (apply same_sign_lt with (vdot d (vsub A1 B1)); [rewrite Rmult_comm; exact G|exact K]). lra.
Qed.
(** The axis of the two edges. *)
Lemma edges_depth_ok eps big c1 c2 (tri1 : bool) : 0 < eps <= / 1000 ->
  (tri1 = false -> vdot a (vsub c1 A1) < 0 /\ vdot b (vsub c1 A1) < 0) -> (tri1 = true -> vdot c (vsub c2 A2) < 0 /\ vdot d (vsub c2 A2) < 0) ->
  are_parallel (vsub B1 A1) (vsub B2 A2) = false ->
  forall depth axis, edges_depth eps big A1 A2 c1 c2 (vsub B1 A1) (vsub B2 A2) tri1 = (depth, axis) ->
  vlen axis = 1 /\ (forall x, In x P -> vdot axis (vsub x A1) <= 0) /\ (forall y, In y Q -> 0 <= vdot axis (vsub y A2)) /\ depth = vdot axis (vsub A1 A2).
Proof.
  intros He C1 C2 NP depth axis H. unfold edges_depth in H. rewrite NP in H.
  assert (En : vcross (vsub B1 A1) (vsub B2 A2) = n). { unfold n. clear. destruct A1, B1, A2, B2. unfold vcross, vsub; cbn. f_equal; ring. }
  rewrite En in H. unfold are_parallel in NP. apply rlt_false in NP. rewrite En in NP.
  assert (L : eps <= vlen n). { unfold vlen. rewrite <- (sqrt_Rsqr eps) by lra. apply sqrt_le_1_alt. unfold Rsqr. nra. }
  assert (L0 : 0 < vlen n) by lra.
  pose proof (vlen2_vunit eps n ltac:(lra) L) as U. rewrite (vunit_scale eps n L) in H, U. set (k := 1 / vlen n) in *. assert (Hk : 0 < k) by (unfold k; apply Rdiv_lt_0_compat; lra).
  cbv zeta in H. set (t := if tri1 then vdot (vscale k n) (vsub A2 c2) else vdot (vscale k n) (vsub c1 A1)) in H.
  assert (St : s * t < 0).
  { unfold t. destruct tri1.
    - destruct (C2 eq_refl) as (X & Y). pose proof (second_centre c2 X Y) as Z. rewrite vdot_vscale_l. replace (vdot n (vsub A2 c2)) with (- vdot n (vsub c2 A2)) by (rewrite !vdot_vsub_r; ring). nra.
    - destruct (C1 eq_refl) as (X & Y). pose proof (first_centre c1 X Y) as Z. rewrite vdot_vscale_l. nra. }
  assert (D : forall m, vlen2 m = 1 -> vlen m = 1) by (intros m E; unfold vlen; rewrite E; apply sqrt_1).
  destruct (rlt 0 t) eqn:T; inversion H; subst depth axis; clear H.
  - apply rlt_true in T. assert (S0 : s < 0) by nra. split; [|split; [|split]].
    + apply D. replace (vlen2 (vneg (vscale k n))) with (vlen2 (vscale k n)) by (unfold vlen2, vneg; cbn; ring). exact U.
    + intros x Hx. pose proof (first_behind x Hx). rewrite id_negdot, vdot_vscale_l. assert (0 <= vdot n (vsub x A1)) by nra. nra.
    + intros y Hy. pose proof (second_front y Hy). rewrite id_negdot, vdot_vscale_l. assert (vdot n (vsub y A2) <= 0) by nra. nra.
    + rewrite !id_negdot, !vdot_vsub_r. ring.
  - apply rlt_false in T. assert (S0 : 0 < s) by nra. split; [|split; [|split]].
    + now apply D.
    + intros x Hx. pose proof (first_behind x Hx). rewrite vdot_vscale_l. assert (vdot n (vsub x A1) <= 0) by nra. nra.
    + intros y Hy. pose proof (second_front y Hy). rewrite vdot_vscale_l. assert (0 <= vdot n (vsub y A2)) by nra. nra.
    + rewrite !vdot_vsub_r. ring.
Qed.
End Pair.
Section Two.
Variables (eps big : R) (p1 p2 : solid) (t1 t2 : transform).
Hypothesis He : 0 < eps <= / 1000.
Hypothesis Hb : 4 < big.
Hypothesis Q1 : quat_len2 (t_rot t1) = 1.
Hypothesis Q2 : quat_len2 (t_rot t2) = 1.
Hypothesis O1 : solid_ok big p1.
Hypothesis O2 : solid_ok big p2.
Hypothesis NT : so_triangle p1 = false \/ so_triangle p2 = false.
Let t12 := tr_mul (tr_inverse t2) t1.
Let Q12 : quat_len2 (t_rot t12) = 1 := unit12 t1 t2 Q1 Q2.
Lemma ends_runs p i e A B : solid_ok big p -> half_edge p i = Ok e -> edge_ends p e = Ok (A, B) -> exists a, runs p i a A B.
Proof.
  intros O He1 HE. unfold half_edge in He1. apply rd_ok in He1. destruct (ok_edges _ _ O i e He1) as (a & b & A' & B' & k & (e' & n & F1 & F2 & F3 & (j & F4 & F5) & F6) & _).
  rewrite He1 in F1. inversion F1; subst e'. exists a. unfold edge_ends, vert, half_edge in HE. rewrite F3 in HE. cbn [rd bind] in HE. rewrite F4 in HE. cbn [rd bind] in HE. rewrite F5 in HE. cbn [rd bind] in HE. rewrite F6 in HE. cbn [rd bind] in HE.
  inversion HE; subst A' B'. exists e, n. repeat split; auto. now exists j.
Qed.
(** Ends of the edges, and the depth along the axis unless the edges are parallel. *)
Lemma edge_pair_ok i j x : edge_pair eps big p1 p2 t12 i j = Ok (Some x) ->
  (exists A B, edge_points p1 A B /\ ea_a1 x = tr_point t12 A /\ ea_b1 x = tr_point t12 B) /\
  edge_points p2 (ea_a2 x) (ea_b2 x) /\
  ((ea_depth x = big /\ ea_axis x = vzero) \/
   depth_along (ea_axis x) (hull (map (tr_point t12) (so_verts p1))) (hull (so_verts p2)) (ea_depth x)).
Proof.
  intros H. unfold edge_pair, minkowski_face in H.
  destruct (half_edge p1 i) as [e1| |] eqn:E1; cbn [bind] in H; try discriminate.
  destruct (edge_ends p1 e1) as [[A1 B1]| |] eqn:EE1; cbn [bind] in H; try discriminate.
  destruct (half_edge p2 j) as [e2| |] eqn:E2; cbn [bind] in H; try discriminate.
  destruct (edge_ends p2 e2) as [[A2 B2]| |] eqn:EE2; cbn [bind] in H; try discriminate.
  destruct (rd (e_twin e1)) as [k1| |] eqn:T1; cbn [bind] in H; try discriminate.
  destruct (half_edge p1 k1) as [w1| |] eqn:W1; cbn [bind] in H; try discriminate.
  destruct (rd (e_twin e2)) as [k2| |] eqn:T2; cbn [bind] in H; try discriminate.
  destruct (half_edge p2 k2) as [w2| |] eqn:W2; cbn [bind] in H; try discriminate.
  destruct (normal p1 (e_face e1)) as [a| |] eqn:Na; cbn [bind] in H; try discriminate.
  destruct (normal p1 (e_face w1)) as [b| |] eqn:Nb; cbn [bind] in H; try discriminate.
  destruct (normal p2 (e_face e2)) as [c| |] eqn:Nc; cbn [bind] in H; try discriminate.
  destruct (normal p2 (e_face w2)) as [d| |] eqn:Nd; cbn [bind] in H; try discriminate.
  destruct (vert p1 (e_vertex e1)) as [u1| |] eqn:U1; cbn [bind] in H; try discriminate.
  destruct (vert p1 (e_vertex w1)) as [u2| |] eqn:U2; cbn [bind] in H; try discriminate.
  destruct (vert p2 (e_vertex e2)) as [v1| |] eqn:V1; cbn [bind] in H; try discriminate.
  destruct (vert p2 (e_vertex w2)) as [v2| |] eqn:V2; cbn [bind] in H; try discriminate.
  destruct (half_edge_facts big p1 e1 i A1 B1 w1 k1 a b u1 u2 O1 E1 EE1 T1 W1 Na Nb U1 U2) as (-> & -> & BA & BB & IA1 & IB1 & C1).
  destruct (half_edge_facts big p2 e2 j A2 B2 w2 k2 c d v1 v2 O2 E2 EE2 T2 W2 Nc Nd V1 V2) as (-> & -> & BC & BD & IA2 & IB2 & C2).
  destruct (arcs_intersect _ _ _ _ _ _) eqn:AI; [|discriminate].
  rewrite <- (tr_diff t12 A1 B1) in AI.
  set (A := tr_point t12 A1) in *. set (B := tr_point t12 B1) in *.
  destruct (edges_depth eps big A A2 (tr_point t12 (so_centroid p1)) (so_centroid p2) (vsub B A) (vsub B2 A2) (so_triangle p1)) as [depth axis] eqn:ED.
  inversion H; subst x; clear H. cbn [ea_depth ea_axis ea_a1 ea_b1 ea_a2 ea_b2]. split; [exists A1, B1; split; [exists i; now apply ends_runs with e1|auto]|]. split; [exists j; now apply ends_runs with e2|].
  destruct (are_parallel (vsub B A) (vsub B2 A2)) eqn:PA.
  - left. unfold edges_depth in ED. rewrite PA in ED. inversion ED. auto.
  - right. pose proof (border_moved t12 _ _ _ _ Q12 BA) as BA'. pose proof (border_moved t12 _ _ _ _ Q12 BB) as BB'. fold A B in BA', BB'.
    destruct (edges_depth_ok _ _ _ _ c d A B A2 B2 BA' BB' BC BD AI eps big (tr_point t12 (so_centroid p1)) (so_centroid p2) (so_triangle p1) He) with (depth := depth) (axis := axis) as (U & F1 & F2 & ->); auto.
    + intros F. destruct (C1 F) as (X & Y). unfold A. rewrite !tr_diff, !quat_vec_dot, Q12. split; lra.
    + intros F. apply C2. destruct NT as [N|N]; [congruence|exact N].
    + apply depth_hull with (a := A) (b := A2); auto; apply hull_vertex; auto. unfold A. now apply in_map.
Qed.
(** In world space. *)
Lemma edge_pair_world i j x : edge_pair eps big p1 p2 t12 i j = Ok (Some x) -> (ea_depth x = big /\ ea_axis x = vzero) \/
  depth_along (quat_vec (t_rot t2) (ea_axis x)) (body_of p1 t1) (body_of p2 t2) (ea_depth x).
Proof.
  intros H. destruct (edge_pair_ok i j x H) as (_ & _ & [K|D]); [left; exact K|right]. apply (depth_moved t2 _ _ _ _ Q2) in D.
  revert D. apply depth_ext; [|reflexivity]. intros p. unfold body_of. rewrite <- (moved_both t1 t2 _ p Q2). split; intros (y & Hy & ->); exists y; split; auto; now apply image_moved.
Qed.
End Two.
