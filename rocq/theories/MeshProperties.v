(** C99 - C102: creating convex meshes; their volume, normals and centre. *)
From Verif Require Import Base VecModel VecProofs ShapeProofs ShapeMeshProofs HalfEdgeModel HalfEdgeSpec HalfEdgeProofs MeshModel MeshSpec MeshProofs BodyModel.
Open Scope R_scope.

(** ** C99: polygon data *)

(** A mesh is returned for good data only, and then its half-edge structure is consistent. *)
Theorem C99_accepted_partial : forall eps vs faces m, create_mesh eps vs faces = Ok (Some m) ->
  good eps vs faces /\ consistent (length vs) faces (me_half m) /\ me_vertices m = vs /\ me_faces m = faces.
Proof.
  intros eps vs faces m H. pose proof (create_accepts _ _ _ _ H) as G. split; [exact G|].
  unfold create_mesh, create_half_edges in H.
  apply bind_ok in H. destruct H as [[v2 h] [Q H]]. apply bind_ok in Q. destruct Q as [h' [Q Q']]. injection Q' as <- <-.
  destruct (half_edges_closed _ _ _ Q) as [C1 [C2 [C3 C4]]].
  destruct (half_edges_ok _ _ C1 C2 C3 C4) as [h2 [Q2 K]]. rewrite Q in Q2. injection Q2 as <-.
  apply bind_ok in H. destruct H as [[ns v3] [N H]]. apply bind_ok in H. destruct H as [sum [V H]].
  match type of H with Ok (if ?c then _ else _) = _ => destruct c; [|discriminate H] end.
  injection H as <-. cbn. split; [exact K|]. split; reflexivity.
Qed.
Print Assumptions C99_accepted_partial.
(** Good data gives a mesh. *)
Theorem C99_good_data_partial : forall eps vs faces, 0 <= eps -> good eps vs faces -> exists m, create_mesh eps vs faces = Ok (Some m).
Proof. intros eps vs faces E G. destruct (create_good eps vs faces E G) as [h [_ [_ H]]]. eexists. exact H. Qed.
Print Assumptions C99_good_data_partial.
(** Any data whose faces form a closed surface and have at least three vertices is answered: by a mesh if
    and only if it is good. *)
Theorem C99_closed_data_partial : forall eps vs faces, 0 <= eps -> faces <> [] -> in_range (length vs) faces -> closed faces ->
  (forall face, In face faces -> (3 <= length face)%nat) ->
  exists o, create_mesh eps vs faces = Ok o /\ (o <> None <-> good eps vs faces).
Proof.
  intros eps vs faces E N R C T. destruct (create_answers eps vs faces N R C T) as [o H]. exists o. split; [exact H|]. split.
  - destruct o as [m|]; [|congruence]. intros _. exact (create_accepts _ _ _ _ H).
  - intros G. destruct (create_good eps vs faces E G) as [h [_ [_ H']]]. rewrite H in H'. injection H' as ->. discriminate.
Qed.
Print Assumptions C99_closed_data_partial.

(** Polygon data with all indices in range may be answered by undefined behaviour instead of an error:
    a surface with a border, no face at all, or a face with two vertices before another face. *)
Theorem C99_open_surface_refuted : exists vs faces, faces <> [] /\ in_range (length vs) faces /\
  (forall face, In face faces -> length face = 3%nat) /\ forall eps, create_mesh eps vs faces = Ub.
Proof.
  exists [V3 0 0 0; V3 1 0 0; V3 0 1 0], [[0; 1; 2]%nat].
  split; [discriminate|]. split; [apply in_rangeb_ok; reflexivity|]. split; [intros face [<-|[]]; reflexivity|].
  intros eps. unfold create_mesh. replace (create_half_edges (length [V3 0 0 0; V3 1 0 0; V3 0 1 0]) [[0; 1; 2]%nat]) with (Ub : res (bool * structure)) by (vm_compute; reflexivity).
  reflexivity.
Qed.
Print Assumptions C99_open_surface_refuted.
Theorem C99_no_face_refuted : forall eps vs, create_mesh eps vs [] = Ub.
Proof. reflexivity. Qed.
Print Assumptions C99_no_face_refuted.
Definition tet_faces : list (list nat) := [[0;2;1];[0;1;3];[1;2;3];[0;3;2]]%nat.
Theorem C99_short_face_refuted : exists vs faces, in_range (length vs) faces /\ closed faces /\ forall eps, create_mesh eps vs faces = Ub.
Proof.
  exists [V3 0 0 0; V3 1 0 0; V3 0 1 0; V3 0 0 1; V3 1 1 1; V3 1 1 0], ([4; 5]%nat :: tet_faces).
  split; [apply in_rangeb_ok; reflexivity|]. split; [apply closedb_ok; reflexivity|].
  intros eps. unfold create_mesh.
  assert (H : exists b h, create_half_edges (length [V3 0 0 0; V3 1 0 0; V3 0 1 0; V3 0 0 1; V3 1 1 1; V3 1 1 0]) ([4; 5]%nat :: tet_faces) = Ok (b, h)).
  { unfold create_half_edges. destruct (half_edges_ok 6 ([4; 5]%nat :: tet_faces)) as [h [H _]].
    - discriminate.
    - intros f Hf ->. cbn in Hf. repeat (destruct Hf as [Hf|Hf]; [discriminate|]). exact Hf.
    - apply in_rangeb_ok. reflexivity.
    - apply closedb_ok. reflexivity.
    - change (length [V3 0 0 0; V3 1 0 0; V3 0 1 0; V3 0 0 1; V3 1 1 1; V3 1 1 0]) with 6%nat. rewrite H. cbn [bind]. eexists. eexists. reflexivity. }
  destruct H as [b [h H]]. rewrite H. cbn. reflexivity.
Qed.
Print Assumptions C99_short_face_refuted.

(** ** C100: the volume *)

(** The volume reported is the volume enclosed by the faces, computed from any point. *)
Theorem C100_volume : forall eps vs faces m p, 0 <= eps -> create_mesh eps vs faces = Ok (Some m) ->
  me_volume m = Rabs (signed_volume p vs faces).
Proof.
  intros eps vs faces m p E H. pose proof (create_accepts _ _ _ _ H) as G. destruct (create_good _ _ _ E G) as [h [_ [_ H']]].
  rewrite H in H'. injection H' as ->. cbn. rewrite (volume_base p); [reflexivity|apply G].
Qed.
Print Assumptions C100_volume.

Lemma area_moved : forall t vs face, quat_len2 (t_rot t) = 1 -> (forall i, In i face -> (i < length vs)%nat) ->
  area_vector (map (tr_point t) vs) face = quat_vec (t_rot t) (area_vector vs face).
Proof.
  intros t vs face U R. rewrite !area_cr. rewrite quat_vec_vscale. f_equal.
  rewrite (map_ext_in _ (fun e => vadd (quat_vec (t_rot t) (cr vs e)) (vcross (t_pos t) (quat_vec (t_rot t) (vsub (at_ vs (snd e)) (at_ vs (fst e))))))).
  2:{ intros [a b] H. apply around_in in H. destruct H as [Ha Hb]. unfold cr. cbn [fst snd]. rewrite !at_map by (apply R; assumption).
      unfold tr_point. rewrite quat_vec_vsub.
      pose proof (quat_vec_cross (t_rot t) (at_ vs a) (at_ vs b)) as C. rewrite U in C.
      replace (vscale 1 (quat_vec (t_rot t) (vcross (at_ vs a) (at_ vs b)))) with (quat_vec (t_rot t) (vcross (at_ vs a) (at_ vs b))) in C by vr.
      rewrite <- C. vr. }
  assert (Q0 : quat_vec (t_rot t) vzero = vzero) by (apply vext; unfold quat_vec, vzero; cbn; ring).
  assert (SP : forall l : list vpair, vsum (map (fun e => vadd (quat_vec (t_rot t) (cr vs e)) (vcross (t_pos t) (quat_vec (t_rot t) (vsub (at_ vs (snd e)) (at_ vs (fst e)))))) l) =
          vadd (quat_vec (t_rot t) (vsum (map (cr vs) l))) (vcross (t_pos t) (quat_vec (t_rot t) (vsum (map (fun e => vsub (at_ vs (snd e)) (at_ vs (fst e))) l))))).
  { induction l as [|e l IH]; cbn [map vsum]; [rewrite Q0; vr|]. rewrite IH, !quat_vec_vadd. vr. }
  rewrite SP. rewrite around_telescope, Q0. vr.
Qed.
(** It does not depend on where the mesh is and how it is turned. *)
Theorem C100_moved : forall eps vs faces m t, 0 <= eps -> quat_len2 (t_rot t) = 1 -> create_mesh eps vs faces = Ok (Some m) ->
  exists m', create_mesh eps (map (tr_point t) vs) faces = Ok (Some m') /\ me_volume m' = me_volume m.
Proof.
  intros eps vs faces m t E U H. pose proof (create_accepts _ _ _ _ H) as G.
  assert (G' : good eps (map (tr_point t) vs) faces).
  { destruct G as [G1 [G2 [G3 [G4 [G5 G6]]]]]. rewrite <- (map_length (tr_point t) vs) in G3, G5 at 1.
    split; [destruct vs; [congruence|discriminate]|]. split; [exact G2|]. split; [exact G3|]. split; [exact G4|]. split; [exact G5|].
    intros face Hf. destruct (G6 _ Hf) as [A B]. split; [exact A|]. rewrite area_moved.
    - rewrite vlen_rotated by exact U. exact B.
    - exact U.
    - intros i Hi. specialize (G3 _ _ Hf Hi). rewrite map_length in G3. exact G3. }
  destruct (create_good _ _ _ E G') as [h [_ [_ H']]]. eexists. split; [exact H'|].
  pose proof (C100_volume _ _ _ _ vzero E H) as V. pose proof (C100_volume _ _ _ _ (tr_point t vzero) E H') as V'. rewrite V, V'.
  assert (RG : in_range (length vs) faces) by apply G.
  pose proof (volume_affine (quat_matrix (t_rot t)) (t_pos t) vzero vs faces RG) as VA.
  assert (AE : forall p, affine (quat_matrix (t_rot t)) (t_pos t) p = tr_point t p).
  { intros p. unfold affine, tr_point. rewrite quat_matrix_vec by exact U. reflexivity. }
  rewrite (map_ext _ _ AE), AE in VA. rewrite VA. rewrite Rabs_mult.
  destruct (quat_matrix_rotation _ U) as [_ D]. rewrite D, Rabs_R1. ring.
Qed.
Print Assumptions C100_moved.
(** The volume of a scaled shape is the volume enclosed by the scaled faces. *)
Theorem C100_scaled : forall eps vs faces m s p, 0 <= eps -> create_mesh eps vs faces = Ok (Some m) -> 0 <= vx s -> 0 <= vy s -> 0 <= vz s ->
  scaled_volume m s = Rabs (signed_volume p (map (fun v => vmul v s) vs) faces).
Proof.
  intros eps vs faces m s p E H X Y Z. pose proof (create_accepts _ _ _ _ H) as G.
  assert (RG : in_range (length vs) faces) by apply G. assert (C : closed faces) by apply G.
  rewrite (volume_base p) by exact C.
  unfold scaled_volume. rewrite (C100_volume _ _ _ _ vzero E H).
  pose proof (volume_affine (mk_mat (vx s) 0 0 0 (vy s) 0 0 0 (vz s)) vzero vzero vs faces RG) as VA.
  assert (AE : forall q, affine (mk_mat (vx s) 0 0 0 (vy s) 0 0 0 (vz s)) vzero q = vmul q s).
  { intros q. apply vext; unfold affine, mat_vec, mk_mat, vadd, vmul, vzero, vdot, m00, m01, m02, m10, m11, m12, m20, m21, m22; cbn; ring. }
  rewrite (map_ext _ _ AE), AE in VA. replace (vmul vzero s) with vzero in VA by (apply vext; unfold vmul, vzero; cbn; ring).
  rewrite VA, Rabs_mult. unfold mat_det, mk_mat, m00, m01, m02, m10, m11, m12, m20, m21, m22. cbn.
  rewrite (Rabs_right (_ - _ + _)).
  - ring.
  - assert (0 <= vx s * vy s * vz s) by (repeat apply Rmult_le_pos; assumption). nra.
Qed.
Print Assumptions C100_scaled.

(** What the enclosed volume is for a tetrahedron and for a box. *)
Example C100_tetrahedron : forall p a b c d, signed_volume p [a; b; c; d] tet_faces = det a b c d / 6.
Proof. intros. unfold signed_volume, tet_faces, at_. cbn. unfold det, vdot, vcross, vsub. cbn. field. Qed.
Definition box_faces : list (list nat) := [[0;1;2;3];[1;5;6;2];[4;7;6;5];[4;0;3;7];[4;5;1;0];[2;6;7;3]]%nat.
Definition box_at (c e : vec3) : list vec3 := map (fun v => vadd c (vmul v e))
  [V3 (-1) (-1) 1; V3 1 (-1) 1; V3 1 1 1; V3 (-1) 1 1; V3 (-1) (-1) (-1); V3 1 (-1) (-1); V3 1 1 (-1); V3 (-1) 1 (-1)].
Example C100_box : forall p c e, signed_volume p (box_at c e) box_faces = 2 * vx e * (2 * vy e) * (2 * vz e).
Proof. intros. unfold signed_volume, box_faces, box_at, at_. cbn. unfold det, vdot, vcross, vsub, vadd, vmul. cbn. field. Qed.

(** A box is accepted by the engine. *)
Lemma vlen_big : forall e v, 0 <= e -> e * e < vlen2 v -> e < vlen v.
Proof. intros e v E H. unfold vlen. rewrite <- (sqrt_square e E). apply sqrt_lt_1; [nra|apply vlen2_nonneg|exact H]. Qed.
Lemma box_good : forall eps c, 0 <= eps < 1 -> good eps (box_at c (V3 1 1 1)) box_faces.
Proof.
  intros eps c E. split; [discriminate|]. split; [discriminate|]. split; [apply in_rangeb_ok; reflexivity|].
  split; [apply closedb_ok; reflexivity|]. split; [reflexivity|].
  intros face Hf. rewrite <- vlen_scale2. unfold box_faces in Hf. cbn [In] in Hf.
  repeat (destruct Hf as [<-|Hf]; [split; [cbn; lia|]; apply vlen_big; [lra|];
    unfold area_vector, vlen2, box_at, at_; cbn; unfold vcross, vmul, vadd; cbn; nra|]).
  contradiction.
Qed.
Example C99_C100_not_vacuous : exists m, create_mesh (1 / 1000000) (box_at vzero (V3 1 1 1)) box_faces = Ok (Some m) /\ me_volume m = 8.
Proof.
  destruct (C99_good_data_partial (1 / 1000000) (box_at vzero (V3 1 1 1)) box_faces) as [m H]; [lra|apply box_good; lra|].
  exists m. split; [exact H|]. assert (E : 0 <= 1 / 1000000) by lra. rewrite (C100_volume _ _ _ _ vzero E H), C100_box. cbn [vx vy vz]. rewrite Rabs_right; lra.
Qed.

(** ** C101: the normals *)

(** Every face has a unit normal, along its area vector; the normal of a flat face is perpendicular to it. *)
Theorem C101_normals : forall eps vs faces m f face, 0 <= eps -> create_mesh eps vs faces = Ok (Some m) -> nth_error faces f = Some face ->
  exists n, nth_error (me_normals m) f = Some n /\ vlen n = 1 /\ area_vector vs face = vscale (vlen (area_vector vs face)) n /\
    forall u d, u <> vzero -> in_plane vs face u d -> forall i j, In i face -> In j face -> vdot n (vsub (at_ vs i) (at_ vs j)) = 0.
Proof.
  intros eps vs faces m f face E H F. pose proof (create_accepts _ _ _ _ H) as G. destruct (create_good _ _ _ E G) as [h [_ [_ H']]].
  rewrite H in H'. injection H' as ->. cbn [me_normals]. exists (nrm eps vs face).
  split; [apply map_nth_error; exact F|].
  destruct G as [_ [_ [_ [_ [_ G]]]]]. destruct (G face (nth_error_In _ _ F)) as [_ L].
  set (A := area_vector vs face) in *.
  assert (B : big_enough eps vs face = true).
  { unfold big_enough. fold A. rewrite vlen_scale2. destruct (rlt eps (2 * vlen A)) eqn:Q; [reflexivity|]. apply rlt_false in Q. lra. }
  assert (N : nrm eps vs face = vscale (/ vlen A) A).
  { unfold nrm. cbv zeta. fold A. unfold big_enough in B. fold A in B. rewrite B, vlen_scale2. apply vext; unfold vdiv, vscale; cbn; field; lra. }
  assert (PL : 0 < vlen A) by lra.
  rewrite N. split; [|split].
  - unfold vlen at 1. replace (vlen2 (vscale (/ vlen A) A)) with (/ vlen A * / vlen A * vlen2 A) by (unfold vlen2, vscale; cbn; ring).
    replace (vlen2 A) with (vlen A * vlen A) by (unfold vlen; apply sqrt_sqrt; apply vlen2_nonneg).
    replace (/ vlen A * / vlen A * (vlen A * vlen A)) with 1 by (field; lra). apply sqrt_1.
  - apply vext; unfold vscale; cbn; field; lra.
  - intros u d U P i j Hi Hj. pose proof (planar_area _ _ _ _ P) as C. fold A in C.
    pose proof (P _ Hi) as Pi. pose proof (P _ Hj) as Pj.
    set (w := vsub (at_ vs i) (at_ vs j)).
    assert (W : vdot u w = 0) by (unfold w, vdot, vsub; unfold vdot in Pi, Pj; cbn; lra).
    (* u.u (A.w) = (u.A)(u.w) + (A x u).(w x u)-like identity *)
    assert (I : vlen2 u * vdot A w = vdot u A * vdot u w + vdot (vcross A u) (vcross w u)).
    { unfold vlen2, vdot, vcross. cbn. ring. }
    rewrite C, W in I. replace (vdot vzero (vcross w u)) with 0 in I by (unfold vdot, vzero; cbn; ring).
    assert (UL : 0 < vlen2 u).
    { destruct (Rle_lt_dec (vlen2 u) 0) as [Q|Q]; [|exact Q]. exfalso. apply U. destruct u as [x y z]. unfold vlen2 in Q. cbn in Q.
      assert (x = 0) by nra. assert (y = 0) by nra. assert (z = 0) by nra. subst. reflexivity. }
    assert (Z : vdot A w = 0) by nra.
    replace (vdot (vscale (/ vlen A) A) w) with (/ vlen A * vdot A w) by (unfold vdot, vscale; cbn [vx vy vz]; ring). rewrite Z. ring.
Qed.
Print Assumptions C101_normals.
Example C101_not_vacuous : exists m, create_mesh (1 / 1000000) (box_at vzero (V3 1 1 1)) box_faces = Ok (Some m) /\
  exists n, nth_error (me_normals m) 0 = Some n /\ vz n = 1.
Proof.
  destruct (C99_good_data_partial (1 / 1000000) (box_at vzero (V3 1 1 1)) box_faces) as [m H]; [lra|apply box_good; lra|].
  exists m. split; [exact H|]. assert (E : 0 <= 1 / 1000000) by lra. destruct (C101_normals _ _ _ _ 0 _ E H eq_refl) as [n [N [L [A P]]]]. exists n. split; [exact N|].
  assert (EA : area_vector (box_at vzero (V3 1 1 1)) [0; 1; 2; 3]%nat = V3 0 0 4).
  { apply vext; unfold area_vector, box_at, at_; cbn; unfold vcross, vmul, vadd; cbn; field. }
  rewrite EA in A. apply (f_equal vz) in A. cbn in A.
  replace (vlen (V3 0 0 4)) with 4 in A; [lra|]. unfold vlen, vlen2. cbn. replace (0 * 0 + 0 * 0 + 4 * 4) with (4 * 4) by ring. rewrite sqrt_square; lra.
Qed.

(** ** C102: centre and bounds *)

(** The bounds are the smallest box around the vertices; the centroid lies in it. *)
Theorem C102_bounds_partial : forall eps vs faces m, create_mesh eps vs faces = Ok (Some m) ->
  tight (me_bounds m) vs /\
  (vx (fst (me_bounds m)) <= vx (me_centroid m) <= vx (snd (me_bounds m)) /\
   vy (fst (me_bounds m)) <= vy (me_centroid m) <= vy (snd (me_bounds m)) /\
   vz (fst (me_bounds m)) <= vz (me_centroid m) <= vz (snd (me_bounds m))).
Proof.
  intros eps vs faces m H. pose proof (create_accepts _ _ _ _ H) as G. destruct G as [NE _].
  assert (MB : me_bounds m = mesh_bounds vs /\ me_centroid m = mesh_centroid vs).
  { unfold create_mesh in H. apply bind_ok in H. destruct H as [[v2 h] [_ H]]. apply bind_ok in H. destruct H as [[ns v3] [_ H]].
    apply bind_ok in H. destruct H as [sum [_ H]]. match type of H with Ok (if ?c then _ else _) = _ => destruct c; [|discriminate H] end.
    injection H as <-. split; reflexivity. }
  destruct MB as [-> ->]. pose proof (bounds_tight vs NE) as T. split; [exact T|]. destruct T as [T _].
  split; [|split]; (apply centroid_between; [exact NE|intros; reflexivity|intros; reflexivity|reflexivity|intros v Hv; apply T; exact Hv]).
Qed.
Print Assumptions C102_bounds_partial.
(** The centroid of a tetrahedron is its centre of mass. *)
Theorem C102_tetrahedron_partial : forall p a b c d, det a b c d <> 0 -> mesh_centroid [a; b; c; d] = solid_center p [a; b; c; d] tet_faces.
Proof.
  intros p a b c d D.
  assert (V : signed_volume p [a; b; c; d] tet_faces = det a b c d / 6) by apply C100_tetrahedron.
  unfold solid_center. rewrite V. unfold mesh_centroid, tet_faces, at_. cbn [length INR fold_left flat_map triangles fan app map vsum nth].
  assert (P : det a b c d = det p a c b + det p a b d + det p b c d + det p a d c).
  { unfold det, vdot, vcross, vsub. cbn. ring. }
  apply vext; unfold vdiv, vadd, vscale, vzero; cbn [vx vy vz].
  - apply (Rmult_eq_reg_r (det a b c d / 6)); [|lra]. unfold Rdiv at 3. rewrite Rmult_assoc, Rinv_l by lra.
    unfold det, vdot, vcross, vsub. cbn. field.
  - apply (Rmult_eq_reg_r (det a b c d / 6)); [|lra]. unfold Rdiv at 3. rewrite Rmult_assoc, Rinv_l by lra.
    unfold det, vdot, vcross, vsub. cbn. field.
  - apply (Rmult_eq_reg_r (det a b c d / 6)); [|lra]. unfold Rdiv at 3. rewrite Rmult_assoc, Rinv_l by lra.
    unfold det, vdot, vcross, vsub. cbn. field.
Qed.
Print Assumptions C102_tetrahedron_partial.

(** A square pyramid: the engine's centroid is not its centre of mass. *)
Definition pyramid : list vec3 := [V3 1 1 0; V3 (-1) 1 0; V3 (-1) (-1) 0; V3 1 (-1) 0; V3 0 0 1].
Definition pyramid_faces : list (list nat) := [[3;2;1;0];[0;1;4];[1;2;4];[2;3;4];[3;0;4]]%nat.
Lemma pyramid_good : forall eps, 0 <= eps < 1 / 2 -> good eps pyramid pyramid_faces.
Proof.
  intros eps E. split; [discriminate|]. split; [discriminate|]. split; [apply in_rangeb_ok; reflexivity|].
  split; [apply closedb_ok; reflexivity|]. split; [reflexivity|].
  intros face Hf. rewrite <- vlen_scale2. unfold pyramid_faces in Hf. cbn [In] in Hf.
  repeat (destruct Hf as [<-|Hf]; [split; [cbn; lia|]; apply vlen_big; [lra|];
    unfold area_vector, vlen2, pyramid, at_; cbn; unfold vcross, vmul, vadd; cbn; nra|]).
  contradiction.
Qed.
Theorem C102_centroid_refuted : exists vs faces m, create_mesh (1 / 1000000) vs faces = Ok (Some m) /\
  vz (me_centroid m) = 1 / 5 /\ forall p, vz (solid_center p vs faces) = 1 / 4.
Proof.
  exists pyramid, pyramid_faces. assert (E : 0 <= 1 / 1000000) by lra.
  destruct (create_good (1 / 1000000) pyramid pyramid_faces E) as [h [_ [_ H]]]; [apply pyramid_good; lra|].
  eexists. split; [exact H|]. split.
  - cbn [me_centroid]. unfold mesh_centroid, pyramid. cbn. field.
  - intros p. assert (V : signed_volume p pyramid pyramid_faces = 4 / 3).
    { unfold signed_volume, pyramid, pyramid_faces, at_. cbn. unfold det, vdot, vcross, vsub. cbn. field. }
    unfold solid_center. rewrite V. unfold pyramid, pyramid_faces, at_. cbn. unfold det, vdot, vcross, vsub. cbn. field.
Qed.
Print Assumptions C102_centroid_refuted.

(** ** The centre of mass of a body with convex mesh colliders *)
Definition mesh_collider (m : mesh) (s : vec3) (density : R) (t w : transform) : collider :=
  Collider (scaled_volume m s) density (fun mass => scaled_inertia m mass s) t w.
(** A collider of the list below: its mesh, its scale, its density, its place in the body. *)
Record placed := Placed { pl_mesh : mesh; pl_scale : vec3; pl_density : R; pl_local : transform; pl_world : transform }.
Definition as_collider (x : placed) : collider := mesh_collider (pl_mesh x) (pl_scale x) (pl_density x) (pl_local x) (pl_world x).
(** The mass of the solid and its centre in body space. *)
Definition solid_mass (x : placed) : R :=
  pl_density x * Rabs (signed_volume vzero (map (fun v => vmul v (pl_scale x)) (me_vertices (pl_mesh x))) (me_faces (pl_mesh x))).
Definition solid_place (x : placed) : vec3 :=
  tr_point (pl_local x) (solid_center vzero (map (fun v => vmul v (pl_scale x)) (me_vertices (pl_mesh x))) (me_faces (pl_mesh x))).
Definition made_by (eps : R) (x : placed) : Prop :=
  (exists vs faces, create_mesh eps vs faces = Ok (Some (pl_mesh x))) /\
  0 <= vx (pl_scale x) /\ 0 <= vy (pl_scale x) /\ 0 <= vz (pl_scale x).

(** The centre of mass computed from the colliders is that of the solids, when the centre of every solid is
    the origin of its mesh. *)
Theorem C102_center_of_mass_partial : forall eps l, 0 <= eps -> Forall (made_by eps) l ->
  (forall x, In x l -> solid_center vzero (map (fun v => vmul v (pl_scale x)) (me_vertices (pl_mesh x))) (me_faces (pl_mesh x)) = vzero) ->
  0 < rsum (map solid_mass l) ->
  vscale (rsum (map solid_mass l)) (center_of_mass (map as_collider l)) = vsum (map (fun x => vscale (solid_mass x) (solid_place x)) l).
Proof.
  intros eps l E F Z M.
  assert (MS : forall x, In x l -> collider_mass (as_collider x) = solid_mass x).
  { intros x Hx. rewrite Forall_forall in F. destruct (F x Hx) as [[vs [faces C]] [S1 [S2 S3]]].
    destruct (C99_accepted_partial _ _ _ _ C) as [_ [_ [E1 E2]]].
    unfold collider_mass, as_collider, mesh_collider, solid_mass. cbn [c_volume c_density].
    rewrite (C100_scaled _ _ _ _ (pl_scale x) vzero E C S1 S2 S3). rewrite E1, E2. ring. }
  assert (PS : forall x, In x l -> t_pos (c_local (as_collider x)) = solid_place x).
  { intros x Hx. unfold solid_place. rewrite (Z x Hx). apply vext; unfold tr_point, quat_vec, vadd, vzero; cbn; ring. }
  assert (FL : forall l', (forall x, In x l' -> In x l) -> forall a b,
    fold_left (fun '(m, s) c => (m + collider_mass c, vadd s (vscale (collider_mass c) (t_pos (c_local c))))) (map as_collider l') (a, b) =
    (a + rsum (map solid_mass l'), vadd b (vsum (map (fun x => vscale (solid_mass x) (solid_place x)) l')))).
  { induction l' as [|x l' IH]; intros I a b; cbn [map fold_left rsum vsum].
    - f_equal; [ring|vr].
    - rewrite IH by (intros; apply I; right; assumption). rewrite (MS x), (PS x) by (apply I; left; reflexivity). f_equal; [ring|vr]. }
  unfold center_of_mass. rewrite FL by auto. replace (0 + rsum (map solid_mass l)) with (rsum (map solid_mass l)) by ring.
  destruct (rlt 0 (rsum (map solid_mass l))) eqn:Q; [|apply rlt_false in Q; lra].
  apply vext; unfold vscale, vdiv, vadd, vzero; cbn [vx vy vz]; field; lra.
Qed.
Print Assumptions C102_center_of_mass_partial.
Example C102_not_vacuous : exists m x, create_mesh (1 / 1000000) (box_at vzero (V3 1 1 1)) box_faces = Ok (Some m) /\ pl_mesh x = m /\ made_by (1 / 1000000) x /\
  solid_center vzero (map (fun v => vmul v (pl_scale x)) (me_vertices (pl_mesh x))) (me_faces (pl_mesh x)) = vzero /\ solid_mass x = 16 /\ solid_place x = V3 1 2 3.
Proof.
  destruct (C99_good_data_partial (1 / 1000000) (box_at vzero (V3 1 1 1)) box_faces) as [m H]; [lra|apply box_good; lra|].
  destruct (C99_accepted_partial _ _ _ _ H) as [_ [_ [E1 E2]]].
  exists m, (Placed m (V3 1 1 1) 2 (Tr (V3 1 2 3) quat_id) tr_id).
  assert (SC : map (fun v => vmul v (V3 1 1 1)) (box_at vzero (V3 1 1 1)) = box_at vzero (V3 1 1 1)).
  { rewrite <- (map_id (box_at vzero (V3 1 1 1))) at 2. apply map_ext. intros v. apply vext; unfold vmul; cbn; ring. }
  assert (ZC : solid_center vzero (box_at vzero (V3 1 1 1)) box_faces = vzero).
  { unfold solid_center. rewrite C100_box. apply vext; unfold box_at, box_faces, at_; cbn; unfold det, vdot, vcross, vsub, vadd, vmul; cbn; field. }
  split; [exact H|]. split; [reflexivity|]. cbn [pl_mesh pl_scale].
  split; [split; [eexists; eexists; exact H|cbn; lra]|].
  unfold solid_mass, solid_place. cbn [pl_mesh pl_scale pl_density pl_local]. rewrite E1, E2, SC, ZC, C100_box. cbn [vx vy vz].
  split; [reflexivity|]. split; [rewrite Rabs_right; lra|]. apply vext; unfold tr_point, quat_vec, vadd, vzero; cbn; ring.
Qed.
(** A cube whose vertices are not around the origin of the mesh: the body is given a centre of mass
    five lengths away from the cube's centre. *)
Theorem C102_center_of_mass_refuted : exists m, create_mesh (1 / 1000000) (box_at (V3 5 0 0) (V3 1 1 1)) box_faces = Ok (Some m) /\
  me_centroid m = V3 5 0 0 /\ (forall p, solid_center p (me_vertices m) (me_faces m) = V3 5 0 0) /\
  forall density w, 0 < density -> center_of_mass [mesh_collider m (V3 1 1 1) density tr_id w] = vzero.
Proof.
  assert (E : 0 <= 1 / 1000000) by lra.
  destruct (create_good (1 / 1000000) (box_at (V3 5 0 0) (V3 1 1 1)) box_faces E) as [h [_ [_ H]]]; [apply box_good; lra|].
  eexists. split; [exact H|]. cbn [me_centroid me_vertices me_faces]. split; [|split].
  - unfold mesh_centroid, box_at. apply vext; cbn; field.
  - intros p. unfold solid_center. rewrite C100_box. apply vext; unfold box_at, box_faces, at_; cbn; unfold det, vdot, vcross, vsub, vadd, vmul; cbn; field.
  - intros d w D. unfold center_of_mass, mesh_collider. cbn [fold_left collider_mass c_volume c_density c_local].
    match goal with |- (if ?c then _ else _) = _ => destruct c end; apply vext; unfold tr_id, vadd, vscale, vdiv, vzero; cbn; unfold Rdiv; ring.
Qed.
Print Assumptions C102_center_of_mass_refuted.
