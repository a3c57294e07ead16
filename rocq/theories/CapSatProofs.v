(** Proofs about the separating axis test of a capsule and a convex polyhedron. *)
From Coq Require Import Reals Lra Psatz List Bool Arith Lia.
From Verif Require Import Base VecModel VecProofs GeomModel GeomSpec GeomProofs HalfEdgeModel ShapeModel ShapeSpec ShapeProofs ShapeMeshProofs GjkSpec NarrowModel NarrowSpec NarrowProofs NarrowCapsuleProofs GjkShapeProofs SatModel SatSpec GeomProperties LinAlgProperties SatProofs SatEdgeProofs SatClipProofs CapSatModel CapSatSpec.
Import ListNotations.
Local Open Scope R_scope.

Lemma neg_comm m x : vdot x (vneg m) = - vdot m x. Proof. vring. Qed.
Lemma seg_cross E A B : vcross E (vsub B A) = vcross (vsub A B) E. Proof. vring. Qed.
Lemma vlen_pm m : vlen (vneg m) = vlen m. Proof. unfold vlen. now replace (vlen2 (vneg m)) with (vlen2 m) by vring. Qed.
(** The depth along a unit vector [m] that supports the polyhedron at a point [v]. *)
Lemma cap_depth eps hh r (P : list vec3) m v d : 0 < eps < 1 -> 0 <= hh -> 0 <= r -> vlen m = 1 -> In v P -> (forall x, In x P -> vdot m (vsub x v) <= 0) ->
  d = vdot (vsub v (capsule_support eps hh r (vneg m))) m -> depth_along m (hull P) (capsule hh r) d.
Proof.
  intros He Hh Hr U Hv HP ->. destruct (capsule_support_ok eps hh r (vneg m)) as (S1 & S2); [lra|exact Hr|exact Hh|right; rewrite vlen_pm, U; lra|].
  change (forall p, capsule hh r p -> vdot p (vneg m) <= vdot (capsule_support eps hh r (vneg m)) (vneg m)) in S2. set (s := capsule_support eps hh r (vneg m)) in *. split; [exact U|]. split.
  - intros p q Hp Hq. assert (K1 : vdot m p <= vdot m v). { apply hull_bound with P; [|exact Hp]. intros x Hx. specialize (HP x Hx). rewrite vdot_vsub_r in HP. lra. }
    specialize (S2 q Hq). rewrite !neg_comm in S2. rewrite (vdot_comm (vsub v s) m), !vdot_vsub_r. lra.
  - exists v, s. split; [now apply hull_vertex|]. split; [exact S1|]. apply vdot_comm.
Qed.
Section Cap.
Variables (eps big hh r : R) (p : solid) (t : transform).
Hypothesis He : 0 < eps <= / 1000.
Hypothesis Hb : 4 < big.
Hypothesis Hh : 0 < hh.
Hypothesis Hr : 0 < r.
Hypothesis Q : quat_len2 (t_rot t) = 1.
Hypothesis O : solid_ok big p.
Hypothesis NT : so_triangle p = false.
Let A : vec3 -> Prop := moved t (hull (so_verts p)).
Let B : vec3 -> Prop := capsule hh r.
Lemma cap_face_depth_ok f d nc : cap_face_depth eps hh r p t f = Ok (d, nc) -> exists n, nth_error (so_normals p) f = Some n /\ nc = quat_vec (t_rot t) n /\ depth_along nc A B d.
Proof.
  intros H. unfold cap_face_depth, normal, vert in H.
  destruct (nth_error (so_faces p) f) as [vs|] eqn:Ef; cbn [rd bind] in H; [|discriminate].
  destruct (nth_error (so_normals p) f) as [n|] eqn:En; cbn [rd bind] in H; [|discriminate].
  destruct (nth_error vs 0) as [i|] eqn:Ei; cbn [rd bind] in H; [|discriminate].
  destruct (nth_error (so_verts p) i) as [v|] eqn:Ev; cbn [rd bind] in H; [|discriminate]. inversion H; subst d nc; clear H. exists n. split; [reflexivity|]. split; [reflexivity|].
  destruct (ok_faces _ _ O f vs n Ef En) as (U & _ & F). destruct (F i (nth_error_In _ _ Ei)) as (v' & Ev' & BH). rewrite Ev in Ev'. inversion Ev'; subst v'.
  apply depth_ext with (A := hull (map (tr_point t) (so_verts p))) (B := B); [intros; apply image_moved|tauto|].
  apply cap_depth with eps (tr_point t v); try lra.
  - unfold vlen in *. now rewrite vlen2_turned.
  - apply in_map. now apply nth_error_In with i.
  - intros x Hx. apply in_map_iff in Hx. destruct Hx as (y & <- & Hy). rewrite tr_diff, quat_vec_dot, Q. specialize (BH y Hy). lra.
Qed.
Lemma cap_face_depth_runs f : (f < length (so_faces p))%nat -> exists d nc, cap_face_depth eps hh r p t f = Ok (d, nc).
Proof.
  intros L. destruct (nth_error (so_faces p) f) as [vs|] eqn:Ef; [|apply nth_error_None in Ef; lia].
  destruct (nth_error (so_normals p) f) as [n|] eqn:En; [|apply nth_error_None in En; destruct (ok_count _ _ O); lia].
  destruct (ok_faces _ _ O f vs n Ef En) as (_ & NE & F). destruct vs as [|i vs]; [congruence|]. destruct (F i ltac:(now left)) as (v & Ev & _).
  unfold cap_face_depth, normal, vert. rewrite Ef, En. cbn [rd bind nth_error]. rewrite Ev. cbn [rd bind]. eauto.
Qed.
Lemma vnormalize_unit x : / 100000 <= vlen2 x -> vnormalize eps x = vscale (/ vlen x) x /\ 0 < vlen x /\ vlen (vscale (/ vlen x) x) = 1.
Proof.
  intros L. assert (K : eps <= vlen x). { unfold vlen. rewrite <- (sqrt_square eps) by lra. apply sqrt_le_1_alt. assert (eps * eps <= / 1000 * / 1000) by (apply Rmult_le_compat; lra). lra. }
  split; [|split; [lra|]].
  - unfold vnormalize. assert (X : rlt (vlen x) eps = false) by (apply rlt_false; exact K). rewrite X. unfold vscale. apply v3_eq; cbn [vx vy vz]; unfold Rdiv; ring.
  - unfold vlen at 1. rewrite vlen2_vscale, <- vlen_sq. replace (/ vlen x * / vlen x * (vlen x * vlen x)) with 1 by (field; lra). apply sqrt_1.
Qed.
Lemma cap_edge_depth_ok n1 n2 v1 v2 d axis : border (so_verts p) n1 v1 v2 -> border (so_verts p) n2 v2 v1 -> In v1 (so_verts p) ->
  vdot n1 (vsub (so_centroid p) v1) < 0 -> vdot n2 (vsub (so_centroid p) v1) < 0 ->
  cap_minkowski (vsub (seg_b hh) (seg_a hh)) (quat_vec (t_rot t) n1) (quat_vec (t_rot t) n2) = true ->
  cap_edge_depth eps big hh r p t v1 (quat_vec (t_rot t) (vsub v2 v1)) = (d, axis) -> d = big \/ depth_along axis A B d.
Proof.
  intros B1 B2 Hv C1 C2 M H. unfold cap_minkowski in M. apply rlt_true in M. unfold cap_edge_depth in H. cbv zeta in H.
  set (E := vsub (seg_b hh) (seg_a hh)) in *. pose proof (border_moved t _ _ _ _ Q B1) as BA. pose proof (border_moved t _ _ _ _ Q B2) as BB.
  set (m1 := quat_vec (t_rot t) n1) in *. set (m2 := quat_vec (t_rot t) n2) in *. set (V1 := tr_point t v1) in *. set (V2 := tr_point t v2) in *. set (c := tr_point t (so_centroid p)) in *.
  assert (X : vdot m1 E * vdot m2 E < 0) by (rewrite (vdot_comm m1), (vdot_comm m2); exact M).
  pose proof (edge_supports _ _ _ _ _ E BA BB X) as S.
  assert (I : vdot m2 E * vdot (vcross (vsub V1 V2) E) (vsub c V1) < 0).
  { apply (edge_inside _ _ _ _ _ E BA BB X); [unfold m1|unfold m2]; unfold c, V1; rewrite tr_diff, quat_vec_dot, Q; lra. }
  assert (D : quat_vec (t_rot t) (vsub v2 v1) = vsub V2 V1) by (unfold V1, V2; now rewrite tr_diff). rewrite D, seg_cross in H.
  set (w := vcross (vsub V1 V2) E) in *. destruct (rle (/ 100000) (vlen2 w)) eqn:L; [|inversion H; now left]. apply rle_true in L. right.
  set (w' := if rlt (vdot w (vsub V1 c)) 0 then vneg w else w) in *.
  assert (W : vlen2 w' = vlen2 w) by (unfold w'; destruct (rlt _ _); [|reflexivity]; generalize w; clear; intros; vring).
  destruct (vnormalize_unit w' ltac:(lra)) as (N1 & N2 & N3). rewrite N1 in H. inversion H; subst d axis; clear H.
  assert (G : forall x, In x (map (tr_point t) (so_verts p)) -> vdot w' (vsub x V1) <= 0).
  { intros x Hx. specialize (S x Hx). fold w in S. unfold w'. destruct (rlt (vdot w (vsub V1 c)) 0) eqn:R; [apply rlt_true in R; rewrite !id_negdot|apply rlt_false in R]; rewrite !vdot_vsub_r in S, I, R |- *; clear - S I R; nra. }
  apply depth_ext with (A := hull (map (tr_point t) (so_verts p))) (B := B); [intros; apply image_moved|tauto|].
  apply cap_depth with eps V1; try lra; [now apply in_map|].
  intros x Hx. specialize (G x Hx). rewrite vdot_vscale_l. assert (0 < / vlen w') by now apply Rinv_0_lt_compat. nra.
Qed.

(** ** The two loops *)
Definition best_fits (b : cap_best) : Prop := let '(d, what, axis) := b in match what with
  | CapFace f => exists n, nth_error (so_normals p) f = Some n /\ axis = quat_vec (t_rot t) n /\ depth_along axis A B d
  | CapEdge v1 v2 => d = big \/ (edge_points p v1 v2 /\ depth_along axis A B d) end.
Lemma cap_faces_ok : forall fs best out, cap_faces eps hh r p t fs best = Ok out -> best_fits best -> 0 < fst (fst best) ->
  match out with
  | None => exists f d nc, In f fs /\ cap_face_depth eps hh r p t f = Ok (d, nc) /\ d <= 0
  | Some b => best_fits b /\ 0 < fst (fst b) <= fst (fst best) /\ forall f d nc, In f fs -> cap_face_depth eps hh r p t f = Ok (d, nc) -> fst (fst b) <= d
  end.
Proof.
  induction fs as [|f fs IH]; intros best out H F P; cbn [cap_faces] in H.
  - inversion H; subst out. split; [exact F|]. split; [lra|]. intros f d nc [].
  - destruct (cap_face_depth eps hh r p t f) as [(d, n)| |] eqn:E; cbn [bind] in H; try discriminate. destruct (rle d 0) eqn:L.
    + inversion H; subst out. apply rle_true in L. exists f, d, n. split; [now left|auto].
    + apply rle_false in L. set (b' := if rlt d (fst (fst best)) then (d, CapFace f, n) else best) in *.
      assert (F' : best_fits b' /\ 0 < fst (fst b') /\ fst (fst b') <= fst (fst best) /\ fst (fst b') <= d).
      { unfold b'. destruct (rlt d (fst (fst best))) eqn:R; [apply rlt_true in R|apply rlt_false in R]; cbn [fst]; [|repeat split; auto; lra]. split; [|lra].
        destruct (cap_face_depth_ok _ _ _ E) as (m & M1 & M2 & M3). exists m. auto. }
      destruct F' as (F1 & F2 & F3 & F4). specialize (IH b' out H F1 F2). destruct out as [b|].
      * destruct IH as (I1 & I2 & I3). split; [exact I1|]. split; [lra|]. intros g d' nc [<-|Hg] E'; [rewrite E in E'; inversion E'; subst; lra|now apply (I3 g d' nc)].
      * destruct IH as (g & d' & nc & I1 & I2 & I3). exists g, d', nc. split; [now right|auto].
Qed.
Lemma cap_faces_runs : forall fs best, (forall f, In f fs -> (f < length (so_faces p))%nat) -> exists out, cap_faces eps hh r p t fs best = Ok out.
Proof.
  induction fs as [|f fs IH]; intros best L; cbn [cap_faces]; [eauto|]. destruct (cap_face_depth_runs f ltac:(apply L; now left)) as (d & n & ->). cbn [bind].
  destruct (rle d 0); [eauto|]. apply IH. intros g Hg. apply L. now right.
Qed.
Lemma edge_steps i e a b w k n1 n2 : half_edge p i = Ok e -> edge_ends p e = Ok (a, b) -> rd (e_twin e) = Ok k -> half_edge p k = Ok w -> normal p (e_face e) = Ok n1 -> normal p (e_face w) = Ok n2 ->
  border (so_verts p) n1 a b /\ border (so_verts p) n2 b a /\ In a (so_verts p) /\ vdot n1 (vsub (so_centroid p) a) < 0 /\ vdot n2 (vsub (so_centroid p) a) < 0 /\ edge_points p a b.
Proof.
  intros E1 E2 E3 E4 E5 E6. pose proof E1 as X. unfold half_edge in X. apply rd_ok in X. destruct (ok_edges _ _ O i e X) as (a' & b' & A' & B' & k' & R1 & T & R2 & BA & BB).
  destruct (ends_runs eps big He p i e a b O E1 E2) as (m & RA). destruct (runs_fun _ _ _ _ _ _ _ _ RA R1) as (<- & <- & <-).
  apply rd_ok in E3. rewrite E3 in T. inversion T; subst k'. unfold half_edge in E4. apply rd_ok in E4. unfold normal in E5, E6. apply rd_ok in E5, E6.
  assert (n1 = m) by (destruct RA as (e' & n' & F1 & F2 & _); congruence). subst m. assert (n2 = b') by (destruct R2 as (e' & n' & F1 & F2 & _); congruence). subst b'.
  split; [exact BA|]. split; [exact BB|]. split; [destruct RA as (e' & n' & _ & _ & F3 & _); now apply nth_error_In in F3|].
  pose proof (ok_centroid _ _ O NT _ _ _ _ RA) as K1. pose proof (ok_centroid _ _ O NT _ _ _ _ R2) as K2. split; [exact K1|]. split; [|now exists i, n1].
  pose proof (bo_along _ _ _ _ BB) as P. rewrite !vdot_vsub_r in *. lra.
Qed.
Lemma cap_edges_ok : forall is best out, cap_edges eps big hh r p t is best = Ok out -> best_fits best -> 0 < fst (fst best) ->
  match out with
  | None => exists axis d, depth_along axis A B d /\ d <= 0
  | Some b => best_fits b /\ 0 < fst (fst b) <= fst (fst best)
  end.
Proof.
  induction is as [|i is IH]; intros best out H F P; cbn [cap_edges] in H.
  - inversion H; subst out. split; [exact F|lra].
  - destruct (half_edge p i) as [e| |] eqn:E1; cbn [bind] in H; try discriminate. destruct (edge_ends p e) as [(a, b)| |] eqn:E2; cbn [bind] in H; try discriminate.
    destruct (rd (e_twin e)) as [k| |] eqn:E3; cbn [bind] in H; try discriminate. destruct (half_edge p k) as [w| |] eqn:E4; cbn [bind] in H; try discriminate.
    destruct (normal p (e_face e)) as [n1| |] eqn:E5; cbn [bind] in H; try discriminate. destruct (normal p (e_face w)) as [n2| |] eqn:E6; cbn [bind] in H; try discriminate.
    destruct (edge_steps i e a b w k n1 n2 E1 E2 E3 E4 E5 E6) as (BA & BB & Ia & C1 & C2 & EP).
    destruct (cap_minkowski _ _ _) eqn:M; [|now apply IH].
    destruct (cap_edge_depth eps big hh r p t a (quat_vec (t_rot t) (vsub b a))) as (d, axis) eqn:E7.
    pose proof (cap_edge_depth_ok n1 n2 a b d axis BA BB Ia C1 C2 M E7) as K. destruct (rle d 0) eqn:L.
    + inversion H; subst out. apply rle_true in L. destruct K as [K|K]; [lra|eauto].
    + apply rle_false in L. set (b' := if rlt d (fst (fst best)) then (d, CapEdge a b, axis) else best) in *.
      assert (F' : best_fits b' /\ 0 < fst (fst b') <= fst (fst best)).
      { unfold b'. destruct (rlt d (fst (fst best))) eqn:R; [apply rlt_true in R|apply rlt_false in R]; cbn [fst]; [|split; auto; lra]. split; [|lra]. destruct K as [K|K]; [now left|right; auto]. }
      destruct F' as (F1 & F2). specialize (IH b' out H F1 ltac:(lra)). destruct out as [x|]; [|exact IH]. destruct IH as (I1 & I2). split; [exact I1|lra].
Qed.
Lemma cap_edges_runs : forall is best, (forall i, In i is -> (i < length (st_edges (so_edges p)))%nat) -> exists out, cap_edges eps big hh r p t is best = Ok out.
Proof.
  induction is as [|i is IH]; intros best L; cbn [cap_edges]; [eauto|].
  destruct (nth_error (st_edges (so_edges p)) i) as [e|] eqn:Ee; [|apply nth_error_None in Ee; specialize (L i ltac:(now left)); lia].
  destruct (ok_edges _ _ O i e Ee) as (a' & b' & A' & B' & k & (e1 & m1 & F1 & F2 & F3 & (j & F4 & F5) & F6) & T & (e2 & m2 & G1 & G2 & G3 & _) & _).
  rewrite Ee in F1. inversion F1; subst e1. unfold half_edge, edge_ends, vert, normal, half_edge. rewrite Ee. cbn [rd bind]. rewrite F3. cbn [rd bind]. rewrite F4. cbn [rd bind]. rewrite F5. cbn [rd bind]. rewrite F6. cbn [rd bind].
  rewrite T. cbn [rd bind]. rewrite G1. cbn [rd bind]. rewrite F2. cbn [rd bind]. rewrite G2. cbn [rd bind].
  assert (L' : forall i, In i is -> (i < length (st_edges (so_edges p)))%nat) by (intros; apply L; now right).
  destruct (cap_minkowski _ _ _); [|now apply IH]. destruct (cap_edge_depth _ _ _ _ _ _ _ _) as (d, ax). destruct (rle d 0); [eauto|now apply IH].
Qed.
End Cap.
