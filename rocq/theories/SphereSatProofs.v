(** The test of a sphere against the faces of a polyhedron. *)
From Coq Require Import List Bool Arith Lia Lra Psatz.
From Verif Require Import Base VecModel VecProofs GeomSpec GeomProofs ShapeModel ShapeSpec ShapeProofs ShapeMeshProofs NarrowModel NarrowSpec NarrowProofs
  GjkModel GjkSpec VoronoiProofs GjkProofs GjkLoopProofs GjkShapeProofs.
Import ListNotations.
Local Open Scope R_scope.

Lemma sphere_faces_none r c fs best : sphere_faces r c fs best = None <-> exists f, In f fs /\ sphere_face_depth r c f <= 0.
Proof.
  revert best. induction fs as [|f fs IH]; intros best; cbn [sphere_faces]; [split; [discriminate|intros (f & [] & _)]|].
  cbv zeta. destruct (rle (sphere_face_depth r c f) 0) eqn:E.
  - rewrite rle_true in E. split; [intros _; exists f; split; [now left|exact E]|reflexivity].
  - rewrite rle_false in E. rewrite IH. split; intros (g & Hg & G); exists g.
    + split; [now right|exact G].
    + destruct Hg as [<-|Hg]; [lra|]. auto.
Qed.
Lemma sphere_faces_some r c fs best d n : sphere_faces r c fs best = Some (d, n) ->
  ((d, n) = best \/ exists f, In f fs /\ n = fst f /\ d = sphere_face_depth r c f) /\ d <= fst best /\
  (forall f, In f fs -> 0 < sphere_face_depth r c f /\ d <= sphere_face_depth r c f).
Proof.
  revert best. induction fs as [|f fs IH]; intros best; cbn [sphere_faces]; [intros E; injection E as ->; cbn [fst]; split; [now left|split; [lra|intros f []]]|].
  cbv zeta. destruct (rle (sphere_face_depth r c f) 0) eqn:E; [discriminate|]. rewrite rle_false in E. intros H. apply IH in H as (A & B & C).
  destruct (rlt (sphere_face_depth r c f) (fst best)) eqn:L; rewrite ?rlt_true, ?rlt_false in L; cbn [fst] in B.
  - split; [|split; [lra|intros g [<-|Hg]; [split; [exact E|lra]|now apply C]]].
    right. destruct A as [A|(g & Hg & A1 & A2)]; [injection A as -> ->; exists f; split; [now left|auto]|exists g; split; [now right|auto]].
  - split; [|split; [lra|intros g [<-|Hg]; [split; [exact E|lra]|now apply C]]].
    destruct A as [A|(g & Hg & A1 & A2)]; [now left|]. right. exists g. split; [now right|auto].
Qed.
Lemma behind_faces faces p : behind_all (map (fun f => (snd f, fst f)) faces) p <-> forall f, In f faces -> vdot (vsub p (snd f)) (fst f) <= 0.
Proof.
  unfold behind_all. rewrite Forall_map, Forall_forall. cbn [fst snd]. apply iff_sym. split; intros H f Hf; specialize (H f Hf); unfold offset, vdot, vsub in *; cbn [vx vy vz] in *; lra.
Qed.
Lemma dot_le_1 a b : vlen a = 1 -> vlen b = 1 -> vdot a b <= 1.
Proof. intros A B. pose proof (cauchy_schwarz a b). rewrite A, B in H. lra. Qed.

(** The centre of the sphere in the space of the polyhedron. *)
Definition centre_in (ts tp : transform) : vec3 := t_pos (tr_mul (tr_inverse tp) ts).
Lemma centre_world ts tp : quat_len2 (t_rot tp) = 1 -> tr_point tp (centre_in ts tp) = t_pos ts.
Proof. intros U. unfold centre_in. rewrite <- tr_point_zero, pass_through by exact U. apply tr_point_zero. Qed.

Lemma sat_found big report first r ts po tp vs : faces_of vs (po_faces po) ->
  (forall v, In v vs -> dist v (centre_in ts tp) + r < big) -> fst (sat_sphere big report first r ts po tp) = true ->
  exists f depth, In f (po_faces po) /\ depth = sphere_face_depth r (centre_in ts tp) f /\ 0 < depth /\
  (forall g, In g (po_faces po) -> depth <= sphere_face_depth r (centre_in ts tp) g) /\
  snd (sat_sphere big report first r ts po tp) =
    let nw := quat_vec (t_rot tp) (fst f) in let ls := quat_vec (t_rot (tr_inverse ts)) (vscale r (vneg nw)) in
    let lp := vadd (centre_in ts tp) (vscale (depth - r) (fst f)) in
    if report then [Contact (if first then vneg nw else nw) depth (if first then ls else lp) (if first then lp else ls)] else [].
Proof.
  intros (NE & UN & _) RG H. unfold sat_sphere in *. fold (centre_in ts tp) in *. cbv zeta in *.
  destruct (sphere_faces r (centre_in ts tp) (po_faces po) (big, fst (nth 0 (po_faces po) (vzero, vzero)))) as [[d n]|] eqn:E; [|discriminate H].
  apply sphere_faces_some in E as (A & B & C).
  assert (ALL : forall f, In f (po_faces po) -> sphere_face_depth r (centre_in ts tp) f < big).
  { intros f Hf. destruct (UN f Hf) as (Uf & If). specialize (RG _ If). rewrite dist_vlen in RG. unfold sphere_face_depth.
    pose proof (cauchy_schwarz (vsub (snd f) (centre_in ts tp)) (fst f)) as K. rewrite Uf in K. lra. }
  destruct A as [A|(f & Hf & -> & ->)].
  - exfalso. destruct (po_faces po) as [|f fs]; [now apply NE|]. injection A as -> _. destruct (C f (or_introl eq_refl)) as (_ & C2). specialize (ALL f (or_introl eq_refl)). lra.
  - exists f, (sphere_face_depth r (centre_in ts tp) f). split; [exact Hf|]. split; [reflexivity|]. split; [apply (C f Hf)|]. split; [intros g Hg; apply (C g Hg)|]. cbn [snd]. reflexivity.
Qed.

(** Moving along the normal of a face by the depth ends the overlap. *)
Lemma face_separates vs faces tp ts r f depth : quat_len2 (t_rot tp) = 1 -> faces_of vs faces -> In f faces -> depth = sphere_face_depth r (centre_in ts tp) f ->
  forall q, hull_core vs tp q -> r <= dist (t_pos ts) (shifted q (vneg (quat_vec (t_rot tp) (fst f))) depth).
Proof.
  intros U (NE & UN & HF) Hf -> q (q0 & Hq & ->). destruct (UN f Hf) as (Uf & _).
  apply HF in Hq. rewrite behind_faces in Hq. specialize (Hq f Hf).
  rewrite <- (centre_world ts tp U). rewrite <- quat_vec_vneg, <- tr_shifted, tr_isometry by exact U. set (c := centre_in ts tp). set (k := sphere_face_depth r c f).
  rewrite dist_vlen. unfold vlen. assert (U2 : vlen2 (fst f) = 1) by (rewrite <- vlen_sq, Uf; ring).
  apply (far_along (fst f)); rewrite U2, ?sqrt_1; [lra|]. rewrite shifted_eq, Rmult_1_r.
  replace (vdot (fst f) (vsub c (vadd q0 (vscale k (vneg (fst f)))))) with (k * vlen2 (fst f) - vdot (vsub q0 (snd f)) (fst f) - vdot (vsub (snd f) c) (fst f)) by (generalize (fst f), (snd f), c, q0, k; clear; vring).
  rewrite U2. unfold k, sphere_face_depth. lra.
Qed.
Lemma deep_contact vs faces tp ts r f depth : quat_len2 (t_rot tp) = 1 -> quat_len2 (t_rot ts) = 1 -> faces_of vs faces -> In f faces -> 0 < r -> depth = sphere_face_depth r (centre_in ts tp) f ->
  (forall g, In g faces -> depth <= sphere_face_depth r (centre_in ts tp) g) -> hull_core vs tp (t_pos ts) ->
  let nw := quat_vec (t_rot tp) (fst f) in
  good_contact 0 (sphere_core ts) (hull_core vs tp) r 0 (vneg nw) depth (tr_point ts (quat_vec (t_rot (tr_inverse ts)) (vscale r (vneg nw))))
    (tr_point tp (vadd (centre_in ts tp) (vscale (depth - r) (fst f)))).
Proof.
  intros U Us FO Hf Hr Ed MIN IN nw. pose proof FO as (NE & UN & HF). destruct (UN f Hf) as (Uf & _).
  assert (CI : forall g, In g faces -> vdot (vsub (centre_in ts tp) (snd g)) (fst g) <= 0).
  { destruct IN as (c0 & Hc & Ec). rewrite <- (centre_world ts tp U) in Ec. apply tr_point_inj in Ec; [|exact U]. subst c0. apply HF in Hc. now rewrite behind_faces in Hc. }
  assert (DR : forall g, sphere_face_depth r (centre_in ts tp) g = r - vdot (vsub (centre_in ts tp) (snd g)) (fst g)).
  { intros g. unfold sphere_face_depth. generalize (centre_in ts tp), (snd g), (fst g). clear. vring. }
  assert (Dr : r <= depth) by (rewrite Ed, DR; specialize (CI f Hf); lra).
  assert (W1 : tr_point ts (quat_vec (t_rot (tr_inverse ts)) (vscale r (vneg nw))) = shifted (t_pos ts) (vneg nw) r).
  { rewrite shifted_eq. unfold tr_point, tr_inverse. cbn [t_rot]. rewrite <- quat_vec_mul, quat_mul_inverse, Us. generalize (t_pos ts), (vscale r (vneg nw)); clear; qring. }
  assert (W2 : tr_point tp (vadd (centre_in ts tp) (vscale (depth - r) (fst f))) = shifted (t_pos ts) (vneg nw) (r - depth)).
  { rewrite <- (centre_world ts tp U), shifted_eq. unfold tr_point. rewrite quat_vec_vadd, quat_vec_vscale. unfold nw.
    generalize (quat_vec (t_rot tp) (centre_in ts tp)), (quat_vec (t_rot tp) (fst f)), (t_pos tp), depth, r. clear. vring. }
  rewrite W1, W2. constructor.
  - unfold vlen. replace (vlen2 (vneg nw)) with (vlen2 nw) by (generalize nw; clear; vring). unfold nw. rewrite rot_len2 by exact U. exact Uf.
  - lra.
  - exists (t_pos ts). split; reflexivity.
  - exists (shifted (t_pos ts) (vneg nw) (r - depth)). split; [|rewrite shifted_shifted; f_equal; ring].
    rewrite <- W2. exists (vadd (centre_in ts tp) (vscale (depth - r) (fst f))). split; [|reflexivity]. apply HF. rewrite behind_faces. intros g Hg.
    specialize (MIN g Hg). rewrite DR in MIN. destruct (UN g Hg) as (Ug & _). pose proof (dot_le_1 (fst f) (fst g) Uf Ug) as K.
    replace (vdot (vsub (vadd (centre_in ts tp) (vscale (depth - r) (fst f))) (snd g)) (fst g))
      with (vdot (vsub (centre_in ts tp) (snd g)) (fst g) + (depth - r) * vdot (fst f) (fst g)) by (generalize (centre_in ts tp), (fst f), (fst g), (snd g), depth, r; clear; vring).
    nra.
  - exists depth. split; [rewrite shifted_shifted; f_equal; ring|lra].
  - intros p q -> Hq. rewrite Rplus_0_r. apply (face_separates vs faces tp ts r f depth); assumption.
Qed.
(** No shorter translation of the sphere ends the overlap. *)
Lemma deep_minimal vs faces tp ts r depth : quat_len2 (t_rot tp) = 1 -> faces_of vs faces -> 0 < r ->
  (forall g, In g faces -> depth <= sphere_face_depth r (centre_in ts tp) g) -> r <= depth ->
  forall m, vlen m < depth -> exists q, hull_core vs tp q /\ dist (vadd (t_pos ts) m) q < r.
Proof.
  intros U (NE & UN & HF) Hr MIN Dr m Hm.
  set (x := if rle (vlen m) (depth - r) then 1 else (depth - r) / vlen m).
  pose proof (sqrt_pos (vlen2 m)) as P. fold (vlen m) in P.
  assert (X : 0 <= x <= 1 /\ x * vlen m <= depth - r /\ (1 - x) * vlen m < r).
  { unfold x. destruct (rle (vlen m) (depth - r)) eqn:E; rewrite ?rle_true, ?rle_false in E; [lra|].
    assert (K : (depth - r) / vlen m * vlen m = depth - r) by (field; lra). repeat split; [apply Rmult_le_pos; [lra|left; apply Rinv_0_lt_compat; lra]| |lra|rewrite Rmult_minus_distr_r, K; lra].
    apply (Rmult_le_reg_r (vlen m)); lra. }
  destruct X as (X1 & X2 & X3).
  set (y := quat_vec (quat_inverse (t_rot tp)) m).
  assert (Y : quat_vec (t_rot tp) y = m) by (unfold y; rewrite <- quat_vec_mul, quat_mul_inverse, U; generalize m; clear; qring).
  assert (Yl : vlen y = vlen m) by (unfold vlen; rewrite <- Y, rot_len2; auto).
  exists (tr_point tp (vadd (centre_in ts tp) (vscale x y))). split.
  - exists (vadd (centre_in ts tp) (vscale x y)). split; [|reflexivity]. apply HF. rewrite behind_faces. intros g Hg. specialize (MIN g Hg). destruct (UN g Hg) as (Ug & _).
    pose proof (cauchy_schwarz y (fst g)) as K. rewrite Ug, Yl, Rmult_1_r in K. unfold sphere_face_depth in MIN.
    replace (vdot (vsub (vadd (centre_in ts tp) (vscale x y)) (snd g)) (fst g)) with (x * vdot y (fst g) - vdot (vsub (snd g) (centre_in ts tp)) (fst g))
      by (generalize (centre_in ts tp), y, (fst g), (snd g), x; clear; vring).
    nra.
  - rewrite <- (centre_world ts tp U). unfold tr_point. rewrite quat_vec_vadd, quat_vec_vscale, Y. rewrite dist_vlen.
    replace (vsub _ _) with (vscale (1 - x) m) by (generalize (quat_vec (t_rot tp) (centre_in ts tp)), (t_pos tp), m, x; clear; vring).
    rewrite vlen_vscale, Rabs_right by lra. exact X3.
Qed.

Lemma sat_apart big report first r ts po tp vs : quat_len2 (t_rot tp) = 1 -> faces_of vs (po_faces po) -> fst (sat_sphere big report first r ts po tp) = false ->
  forall q, hull_core vs tp q -> r <= dist (t_pos ts) q.
Proof.
  intros U FO H q Hq. unfold sat_sphere in H. cbv zeta in H. fold (centre_in ts tp) in H.
  destruct (sphere_faces r (centre_in ts tp) (po_faces po) _) as [[d n]|] eqn:E; [discriminate H|].
  apply sphere_faces_none in E as (f & Hf & L). destruct FO as (NE & UN & HF). destruct (UN f Hf) as (Uf & _).
  destruct Hq as (q0 & Hq & ->). apply HF in Hq. rewrite behind_faces in Hq. specialize (Hq f Hf). rewrite <- (centre_world ts tp U), tr_isometry by exact U.
  rewrite dist_vlen. unfold vlen. assert (U2 : vlen2 (fst f) = 1) by (rewrite <- vlen_sq, Uf; ring).
  apply (far_along (fst f)); rewrite U2, ?sqrt_1; [lra|]. unfold sphere_face_depth in L.
  replace (vdot (fst f) (vsub (centre_in ts tp) q0)) with (- vdot (vsub q0 (snd f)) (fst f) - vdot (vsub (snd f) (centre_in ts tp)) (fst f)) by (generalize (fst f), (snd f), (centre_in ts tp), q0; clear; vring).
  lra.
Qed.
Lemma sat_inside big report first r ts po tp vs : quat_len2 (t_rot tp) = 1 -> faces_of vs (po_faces po) -> 0 < r -> hull_core vs tp (t_pos ts) -> fst (sat_sphere big report first r ts po tp) = true.
Proof.
  intros U FO Hr IN. destruct (fst (sat_sphere big report first r ts po tp)) eqn:E; [reflexivity|]. exfalso.
  pose proof (sat_apart _ _ _ _ _ _ _ _ U FO E (t_pos ts) IN) as H. rewrite dist_vlen in H. replace (vsub (t_pos ts) (t_pos ts)) with (V3 0 0 0) in H by (generalize (t_pos ts); clear; vring).
  unfold vlen, vlen2 in H. cbn [vx vy vz] in H. replace (0 * 0 + 0 * 0 + 0 * 0) with 0 in H by ring. rewrite sqrt_0 in H. lra.
Qed.
