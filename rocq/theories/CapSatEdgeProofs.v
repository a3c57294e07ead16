(** Proofs about the separating axis test of a capsule and a convex polyhedron: no edge gives a smaller depth. *)
From Coq Require Import Reals Lra Psatz List Bool Arith Lia.
From Verif Require Import Base VecModel VecProofs GeomModel GeomSpec GeomProofs HalfEdgeModel ShapeModel ShapeSpec ShapeProofs ShapeMeshProofs GjkSpec NarrowModel NarrowSpec NarrowProofs NarrowCapsuleProofs GjkShapeProofs SatModel SatSpec GeomProperties LinAlgProperties SatProofs SatEdgeProofs SatClipProofs CapSatModel CapSatSpec CapSatProofs CapSatContactProofs SatFullProofs SatRunProofs CapSatCaseProofs.
From Verif Require JointPositionAxisProofs.
Import ListNotations.
Local Open Scope R_scope.

Lemma perp_cross m u v : vlen m = 1 -> vdot m u = 0 -> vdot m v = 0 -> vcross u v = vscale (vdot m (vcross u v)) m.
Proof.
  intros U A B. apply vlen_1 in U. set (w := vcross u v).
  assert (T : vcross m w = V3 0 0 0). { unfold w. replace (vcross m (vcross u v)) with (vsub (vscale (vdot m v) u) (vscale (vdot m u) v)) by (clear; vring). rewrite A, B. clear. vring. }
  assert (K : vscale (vdot m m) w = vsub (vscale (vdot m w) m) (vcross m (vcross m w))) by (generalize w; clear; intros; vring). rewrite T, U in K. revert K. generalize w. clear. intros w K.
  destruct w as [w1 w2 w3], m as [m1 m2 m3]. unfold vscale, vsub, vcross, vdot in *. cbn [vx vy vz] in *. inversion K. f_equal; lra.
Qed.
Lemma lagrange x y : vlen2 (vcross x y) = vlen2 x * vlen2 y - vdot x y * vdot x y. Proof. vring. Qed.
Lemma vlen_sq_1 x : vlen x = 1 -> vlen2 x = 1. Proof. intros U. rewrite <- vlen_sq, U. ring. Qed.
Section Edges.
Variables (eps big hh r : R) (p : solid) (tc tp : transform).
Hypothesis S : cap_setting eps big hh r p tc tp.
Let t := tr_mul (tr_inverse tc) tp.
Let He : 0 < eps <= / 1000. Proof. apply S. Qed.
Let Qc : quat_len2 (t_rot tc) = 1. Proof. apply S. Qed.
Let Qp : quat_len2 (t_rot tp) = 1. Proof. apply S. Qed.
Let O : solid_ok big p. Proof. apply S. Qed.
Let NT : so_triangle p = false. Proof. apply S. Qed.
Lemma wn' n : quat_vec (t_rot tc) (quat_vec (t_rot t) n) = quat_vec (t_rot tp) n. Proof. now apply world_n. Qed.
Lemma dot_world x y : vdot (quat_vec (t_rot tc) x) (quat_vec (t_rot tc) y) = vdot x y. Proof. rewrite quat_vec_dot, Qc. ring. Qed.
Lemma edges_least i e a b w k n1 n2 d axis : half_edge p i = Ok e -> edge_ends p e = Ok (a, b) -> rd (e_twin e) = Ok k -> half_edge p k = Ok w -> normal p (e_face e) = Ok n1 -> normal p (e_face w) = Ok n2 ->
  cap_minkowski (vsub (seg_b hh) (seg_a hh)) (quat_vec (t_rot t) n1) (quat_vec (t_rot t) n2) = true -> cap_edge_depth eps big hh r p t a (quat_vec (t_rot t) (vsub b a)) = (d, axis) ->
  forall is best x, In i is -> cap_edges eps big hh r p t is best = Ok (Some x) -> 0 < d /\ fst (fst x) <= d.
Proof.
  intros E1 E2 E3 E4 E5 E6 M E7. assert (MON : forall is best x, cap_edges eps big hh r p t is best = Ok (Some x) -> fst (fst x) <= fst (fst best)).
  { induction is as [|j is IH]; intros best x H; cbn [cap_edges] in H; [inversion H; lra|].
    destruct (half_edge p j) as [e'| |]; cbn [bind] in H; try discriminate. destruct (edge_ends p e') as [(a', b')| |]; cbn [bind] in H; try discriminate.
    destruct (rd (e_twin e')) as [k'| |]; cbn [bind] in H; try discriminate. destruct (half_edge p k') as [w'| |]; cbn [bind] in H; try discriminate.
    destruct (normal p (e_face e')) as [n1'| |]; cbn [bind] in H; try discriminate. destruct (normal p (e_face w')) as [n2'| |]; cbn [bind] in H; try discriminate.
    destruct (cap_minkowski _ _ _) in H; [|now apply IH]. destruct (cap_edge_depth eps big hh r p t a' _) as (d', axis'). destruct (rle d' 0); [discriminate|]. apply IH in H.
    destruct (rlt d' (fst (fst best))) eqn:L; [apply rlt_true in L; cbn [fst] in H; lra|exact H]. }
  induction is as [|j is IH]; intros best x Hi H; [destruct Hi|]. destruct Hi as [-> |Hi].
  - cbn [cap_edges] in H. rewrite E1 in H. cbn [bind] in H. rewrite E2 in H. cbn [bind] in H. rewrite E3 in H. cbn [bind] in H. rewrite E4 in H. cbn [bind] in H. rewrite E5 in H. cbn [bind] in H. rewrite E6 in H. cbn [bind] in H.
    rewrite M, E7 in H. destruct (rle d 0) eqn:L; [discriminate|]. apply rle_false in L. apply MON in H. destruct (rlt d (fst (fst best))) eqn:K; [cbn [fst] in H|apply rlt_false in K]; lra.
  - cbn [cap_edges] in H.
    destruct (half_edge p j) as [e'| |]; cbn [bind] in H; try discriminate. destruct (edge_ends p e') as [(a', b')| |]; cbn [bind] in H; try discriminate.
    destruct (rd (e_twin e')) as [k'| |]; cbn [bind] in H; try discriminate. destruct (half_edge p k') as [w'| |]; cbn [bind] in H; try discriminate.
    destruct (normal p (e_face e')) as [n1'| |]; cbn [bind] in H; try discriminate. destruct (normal p (e_face w')) as [n2'| |]; cbn [bind] in H; try discriminate.
    destruct (cap_minkowski _ _ _) in H; [|now apply (IH best)]. destruct (cap_edge_depth eps big hh r p t a' _) as (d', axis'). destruct (rle d' 0); [discriminate|]. now apply IH in H.
Qed.
Lemma crossing_runs m : crossing_axis hh p tc tp m -> exists i e a b w k n1 n2 d axis, In i (evens (length (st_edges (so_edges p)))) /\
  half_edge p i = Ok e /\ edge_ends p e = Ok (a, b) /\ rd (e_twin e) = Ok k /\ half_edge p k = Ok w /\ normal p (e_face e) = Ok n1 /\ normal p (e_face w) = Ok n2 /\
  cap_minkowski (vsub (seg_b hh) (seg_a hh)) (quat_vec (t_rot t) n1) (quat_vec (t_rot t) n2) = true /\ cap_edge_depth eps big hh r p t a (quat_vec (t_rot t) (vsub b a)) = (d, axis) /\
  quat_vec (t_rot tc) axis = m /\ depth_along m (body_of p tp) (cap_body hh r tc) d.
Proof.
  intros (i & k & e & n1 & n2 & A & B & EV & R1 & Ee & Et & R2 & X & L & U & M1 & M2 & M3).
  pose proof R1 as (e0 & nx & F1 & F2 & F3 & (j & F4 & F5) & F6). rewrite Ee in F1. inversion F1; subst e0. pose proof R2 as (w & nx2 & G1 & G2 & G3 & _).
  assert (H1 : half_edge p i = Ok e) by (unfold half_edge; now rewrite Ee). assert (H2 : edge_ends p e = Ok (A, B)) by (unfold edge_ends, vert, half_edge; rewrite F3; cbn [rd bind]; rewrite F4; cbn [rd bind]; rewrite F5; cbn [rd bind]; now rewrite F6).
  assert (H3 : rd (e_twin e) = Ok k) by now rewrite Et. assert (H4 : half_edge p k = Ok w) by (unfold half_edge; now rewrite G1). assert (H5 : normal p (e_face e) = Ok n1) by (unfold normal; now rewrite F2). assert (H6 : normal p (e_face w) = Ok n2) by (unfold normal; now rewrite G2).
  set (E := vsub (seg_b hh) (seg_a hh)). assert (EE : E = V3 0 (2 * hh) 0) by (unfold E, seg_b, seg_a, vsub; cbn [vx vy vz]; f_equal; ring). rewrite <- EE in *.
  set (m' := quat_vec (quat_inverse (t_rot tc)) m). assert (Em : quat_vec (t_rot tc) m' = m) by (unfold m'; now apply JointPositionAxisProofs.quat_vec_inverse_r).
  rewrite <- Em, dot_world in M1. rewrite <- Em, <- wn', dot_world in M2. rewrite <- Em, <- wn', dot_world in M3. rewrite <- !wn', !dot_world in X.
  assert (U' : vlen m' = 1) by (unfold vlen in *; rewrite <- Em, vlen2_turned in U by exact Qc; exact U).
  assert (MK : cap_minkowski E (quat_vec (t_rot t) n1) (quat_vec (t_rot t) n2) = true) by (unfold cap_minkowski; apply rlt_true; rewrite (vdot_comm E), (vdot_comm E); exact X).
  destruct (edge_steps eps big p He O NT i e A B w k n1 n2 H1 H2 H3 H4 H5 H6) as (BA & BB & Ia & C1 & C2 & EP).
  destruct (cap_edge_depth eps big hh r p t A (quat_vec (t_rot t) (vsub B A))) as (d, axis) eqn:H7.
  exists i, e, A, B, w, k, n1, n2, d, axis. split; [apply evens_in; split; [apply nth_error_Some; congruence|exact EV]|]. repeat (split; [assumption|]).
  assert (AX : axis = m' /\ depth_along axis (moved t (hull (so_verts p))) (capsule hh r) d).
  { set (Dv := quat_vec (t_rot t) (vsub B A)) in *.
    assert (LL : / 100000 <= vlen2 (vcross E Dv)). { rewrite <- wn' in L. fold Dv in L. rewrite lagrange, !vlen2_turned, dot_world, <- lagrange in L by exact Qc. exact L. }
    assert (Q : quat_len2 (t_rot t) = 1) by now apply unit_t. pose proof S as (_ & _ & Hh & Hr & _).
    assert (NZ : vdot (vcross E Dv) (quat_vec (t_rot t) (vsub A (so_centroid p))) <> 0).
    { pose proof (border_moved t _ _ _ _ Q BA) as BA'. pose proof (border_moved t _ _ _ _ Q BB) as BB'.
      assert (I : vdot (quat_vec (t_rot t) n2) E * vdot (vcross (vsub (tr_point t A) (tr_point t B)) E) (vsub (tr_point t (so_centroid p)) (tr_point t A)) < 0).
      { apply (edge_inside _ _ _ _ _ E BA' BB'); [exact X| |]; rewrite tr_diff, quat_vec_dot, Q; lra. }
      rewrite <- seg_cross, !tr_diff in I. fold Dv in I. intros Z.
      assert (Z' : vdot (vcross E Dv) (quat_vec (t_rot t) (vsub (so_centroid p) A)) = 0) by (rewrite <- tr_diff in Z |- *; rewrite !vdot_vsub_r in *; lra). rewrite Z' in I. lra. }
    pose proof (perp_cross m' E Dv U' M1 M2) as PC. set (ww := vcross E Dv) in *. set (g := vdot m' ww) in *. set (z := quat_vec (t_rot t) (vsub A (so_centroid p))) in *.
    assert (GZ : vdot ww z = g * vdot m' z) by (rewrite PC; apply vdot_vscale_l). assert (Wl : vlen2 ww = g * g) by (rewrite PC, vlen2_vscale, vlen_sq_1 by exact U'; ring).
    assert (H7' : cap_edge_depth eps (d + 1) hh r p t A Dv = (d, axis)) by (revert H7; unfold cap_edge_depth; cbv zeta; fold E; fold ww; rewrite (proj2 (rle_true _ _) LL); auto).
    split; [|destruct (cap_edge_depth_ok eps (d + 1) hh r p t He Hh Hr Q n1 n2 A B d axis BA BB Ia C1 C2 MK H7') as [Z|DA]; [lra|exact DA]].
    unfold cap_edge_depth in H7. cbv zeta in H7. fold E in H7. fold ww in H7. rewrite (proj2 (rle_true _ _) LL), tr_diff in H7. fold z in H7. injection H7 as _ <-.
    assert (NG : g <> 0) by (intros Z; apply NZ; rewrite GZ, Z; ring).
    destruct (rlt (vdot ww z) 0) eqn:K; [apply rlt_true in K|apply rlt_false in K].
    - assert (N : vlen2 (vneg ww) = vlen2 ww) by (generalize ww; clear; intros; vring). destruct (vnormalize_unit eps He (vneg ww) ltac:(lra)) as (-> & P & _).
      assert (Lw : vlen (vneg ww) = - g). { unfold vlen. rewrite N, Wl. replace (g * g) with ((- g) * (- g)) by ring. apply sqrt_square. nra. } rewrite Lw, PC. generalize m'. clear - NG. intros [a b c]. unfold vscale, vneg. cbn [vx vy vz]. f_equal; field; lra.
    - destruct (vnormalize_unit eps He ww LL) as (-> & P & _). assert (Lw : vlen ww = g). { unfold vlen. rewrite Wl. apply sqrt_square. nra. } rewrite Lw, PC. generalize m'. clear - NG. intros [a b c]. unfold vscale, vneg. cbn [vx vy vz]. f_equal; field; lra. }
  destruct AX as (-> & DA). split; [exact Em|]. rewrite <- Em. now apply (depth_world eps big hh r p tc tp S).
Qed.
Lemma crossing_least fuel report first b cs m d : sat_capsule eps big fuel report first hh r p tc tp = Ok (b, cs) -> crossing_axis hh p tc tp m -> depth_along m (body_of p tp) (cap_body hh r tc) d ->
  (b = true -> 0 < d) /\ forall c, In c cs -> c_depth c <= d.
Proof.
  intros H CA DA. destruct (crossing_runs m CA) as (i & e & a & b0 & w & k & n1 & n2 & d' & axis & Hi & H1 & H2 & H3 & H4 & H5 & H6 & MK & H7 & _ & DA'). rewrite (depth_unique _ _ _ _ _ DA DA').
  rewrite (sat_capsule_eq eps big hh r p tc tp) in H. fold t in H. destruct (cap_faces eps hh r p t _ _) as [[best|]| |]; cbn [bind] in H; try discriminate; [|inversion H; subst; split; [discriminate|intros c []]].
  destruct (cap_edges eps big hh r p t _ best) as [[x|]| |] eqn:Ee; cbn [bind] in H; try discriminate; [|inversion H; subst; split; [discriminate|intros c []]].
  destruct (edges_least i e a b0 w k n1 n2 d' axis H1 H2 H3 H4 H5 H6 MK H7 _ _ _ Hi Ee) as (P & L). split; [auto|]. intros c Hc. enough (E : c_depth c = fst (fst x)) by lra.
  destruct x as ((dx, what), ax). cbn [fst]. unfold answer in H. cbv zeta in H. destruct report; [|inversion H; subst; destruct Hc]. destruct what as [f|v1 v2].
  - unfold cap_face_contacts in H. destruct (nth_error _ f); cbn [rd bind] in H; [|discriminate]. destruct (normal p f); cbn [bind] in H; try discriminate. destruct (side_planes _ _ _ _ _); cbn [bind] in H; try discriminate.
    destruct (clip_segment _ _ _); cbn [bind] in H; try discriminate. destruct (nth_error _ 0); cbn [rd bind] in H; [|discriminate]. inversion H; subst cs. apply in_map_iff in Hc. destruct Hc as (y & <- & _). reflexivity.
  - destruct (closest_segments _ _ _ _ _). inversion H; subst cs. destruct Hc as [<-|[]]. reflexivity.
Qed.
End Edges.
