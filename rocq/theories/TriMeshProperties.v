(** Properties of triangle meshes and of the shapes made of them. *)
From Coq Require Import List Arith Lia Bool ZArith Sorted.
From Verif Require Import Base Decimal HashSpec TreeModel TreeSpec RayModel RaySpec TreeProofs TreeProofs2 TreeProofs3 TreeProofs4 TreeProofs5 TreeProofs6 RayProofs TreeProperties
  VecModel VecProofs GeomSpec ShapeModel ShapeSpec ShapeMeshProofs TriMeshModel TriMeshSpec TriMeshProofs TriMeshTreeProofs TriMeshProofs2 TriMeshRayProofs TriMeshNormalProofs.
Import ListNotations.
Local Open Scope R_scope.

(** A tree of boxes holds this many triangles. *)
Definition fits (ta : tri_array) : Prop := (Z.of_nat (length (ta_faces ta)) <= 32768)%Z.

(** C127: making a mesh of at least one vertex ends without undefined behaviour; the messages are exactly those that are due; the
    mesh is accepted when its indices are in range, a triangle is good and the normals used are not too short; its triangles
    are then exactly the good triangles of the user, in their order, with the points of the user. *)
Theorem C127_triangles : forall eps ta e, 0 < eps -> complete ta -> fits ta -> ta_vertices ta <> [] -> tolerance eps (ta_vertices ta) e ->
  exists answer ms, create_mesh eps ta = Ok (answer, ms) /\ (forall x, In x ms <-> to_be_said ta e x) /\ (answer <> None <-> acceptable ta e) /\
    forall m, answer = Some m -> exists kept_faces, kept (good ta e) (ta_faces ta) kept_faces /\
      Forall2 (fun f g => exists p q r, points_of (ta_vertices ta) f p q r /\ points_of (tm_vertices m) g p q r) kept_faces (tm_faces m).
Proof.
  intros eps ta e Heps CP FI NV TO. apply tolerance_iff in TO. subst e.
  destruct (init_mesh_ok eps ta Heps CP NV FI) as (valid & m & ms & us & ns & E & CO & VA & SA & BM & NO). unfold create_mesh. rewrite E. cbn [bind].
  exists (if valid then Some m else None), ms. split; [reflexivity|]. split; [exact SA|]. split; [rewrite <- VA; destruct valid; split; congruence|].
  intros m' EM. destruct valid; [|discriminate]. injection EM as <-. exists (map (renamed us) (tm_faces m)). split; [exact (co_faces _ _ _ _ _ _ CO)|].
  pose proof (kept_iff _ _ _ (co_faces _ _ _ _ _ _ CO)) as KI.
  assert (ALL : forall g, In g (tm_faces m) -> exists p q r, points_of (ta_vertices ta) (renamed us g) p q r /\ points_of (tm_vertices m) g p q r).
  { intros g G. destruct (proj1 (KI (renamed us g)) (in_map _ _ _ G)) as (IF & GD). pose proof GD as (p & q & r & P & _). exists p, q, r. split; [exact P|].
    pose proof (co_inside _ _ _ _ _ _ CO) as IN. destruct (co_vs _ _ _ _ _ _ CO) as (LV & KV).
    assert (ONE : forall k, corner g k -> nth_error (tm_vertices m) k = nth_error (ta_vertices ta) (nth k us 0%nat)).
    { intros k C. specialize (IN g k G C). destruct (KV k (nth k us 0%nat)) as (A & _); [apply nth_error_nth'; exact IN|]. apply A. exists (renamed us g). split; [exact IF|]. split; [exact GD|].
      destruct g as [[a b] c]. cbn in C |- *. destruct C as [->|[->| ->]]; auto. }
    destruct g as [[a b] c]. cbn in P |- *. rewrite !ONE by (cbn; auto). exact P. }
  clear -ALL. induction (tm_faces m) as [|g l IH]; cbn; constructor; [apply ALL; now left|]. apply IH. intros h H. apply ALL. now right.
Qed.
(** C127: when the first vertex of the user belongs to a good triangle, the mesh has exactly the vertices of the user that good
    triangles use, in their order, and their normals if the user gives normals. *)
Theorem C127_vertices_partial : forall eps ta e m ms, 0 < eps -> complete ta -> fits ta -> tolerance eps (ta_vertices ta) e -> create_mesh eps ta = Ok (Some m, ms) ->
  corner_of_good ta e 0 -> exists us, mesh_of ta e us m /\ (forall j, In j us <-> corner_of_good ta e j) /\
    forall ns, ta_normals ta = Some ns -> map Some (tm_normals m) = map (nth_error ns) us.
Proof.
  intros eps ta e m ms Heps CP FI TO CM C0. apply tolerance_iff in TO. subst e. destruct (create_inv _ _ _ _ Heps CP FI CM) as (NV & IM & _).
  destruct (init_mesh_ok eps ta Heps CP NV FI) as (valid & m' & ms' & us & ns & E & CO & VA & SA & BM & NO). rewrite IM in E. injection E as <- <- <-.
  set (e := mesh_epsilon eps (ta_vertices ta)) in *.
  assert (US : forall j, In j us <-> corner_of_good ta e j) by (intros j; rewrite (co_used _ _ _ _ _ _ CO); split; [intros [->|H]; assumption|auto]).
  assert (EXT : forall (A : Type) (l : list A) (g : nat -> option A), length l = length us -> (forall k j, nth_error us k = Some j -> nth_error l k = g j) -> map Some l = map g us).
  { intros A l g L H. apply list_ext. intros i. rewrite !nth_error_map. destruct (Nat.lt_ge_cases i (length us)) as [I|I].
    - destruct (nth_some us i I) as [j J]. rewrite J. specialize (H i j J). cbn. rewrite <- H. destruct (nth_some l i) as [a A']; [lia|]. now rewrite A'.
    - rewrite (proj2 (nth_error_None us i)) by exact I. rewrite (proj2 (nth_error_None l i)) by lia. reflexivity. }
  exists us. split; [|split; [exact US|]].
  - constructor.
    + exact (co_sorted _ _ _ _ _ _ CO).
    + destruct (co_vs _ _ _ _ _ _ CO) as (LV & KV). apply EXT; [exact LV|]. intros k j K. apply KV; [exact K|]. apply US. eapply nth_error_In; eauto.
    + exact (co_faces _ _ _ _ _ _ CO).
    + exact (co_inside _ _ _ _ _ _ CO).
  - intros un UN. rewrite UN in NO. rewrite NO. destruct (co_ns _ _ _ _ _ _ CO) as (LN & KN). apply EXT; [exact LN|]. intros k j K.
    destruct (KN k j K) as (A & _). rewrite A by (apply US; eapply nth_error_In; eauto). unfold normal_of. rewrite UN. symmetry. apply nth_error_nth'.
    rewrite (CP un UN). apply (co_bound _ _ _ _ _ _ CO). eapply nth_error_In; eauto.
Qed.
Print Assumptions C127_triangles.
Print Assumptions C127_vertices_partial.

(** A floor of two triangles and other examples. *)
Lemma dist2 p q : dist p q = sqrt ((vx p - vx q) * (vx p - vx q) + (vy p - vy q) * (vy p - vy q) + (vz p - vz q) * (vz p - vz q)).
Proof. reflexivity. Qed.
Lemma sqrt_ge x e : 0 <= e -> e * e <= x -> e <= sqrt x.
Proof. intros E H. replace e with (sqrt (e * e)) by (now apply sqrt_square). now apply sqrt_le_1_alt. Qed.
Ltac is_good := eexists _, _, _; split; [cbn; repeat split; reflexivity|]; unfold flat, short, double_area, vlen, vlen2, vdot, vcross, vsub, dist; cbn [vx vy vz]; split;
  [apply Rle_not_lt, sqrt_ge; nra|intros [H|[H|H]]; revert H; apply Rle_not_lt, sqrt_ge; nra].
Lemma extents_at eps vs x y z : largest vx vs x -> largest vy vs y -> largest vz vs z -> mesh_epsilon eps vs = 3 * (x + y + z) * eps.
Proof. intros X Y Z. symmetry. apply tolerance_iff. exists x, y, z. auto. Qed.
Ltac is_largest := split; [intros v V; cbn in V; repeat (destruct V as [<-|V]; [cbn [vx vy vz]; unfold Rabs; destruct Rcase_abs; lra|]); destruct V|].

Ltac box_calc := unfold triangle_box, lower, upper; cbn [vx vy vz];
  repeat match goal with |- context [rlt ?a ?b] => lazymatch constr:((a, b)) with context [rlt] => fail | _ => let E := fresh in destruct (rlt a b) eqn:E; [apply rlt_true in E|apply rlt_false in E]; try lra end end; reflexivity.

Definition floor_vertices : list vec3 := [V3 0 0 (-1); V3 0 0 1; V3 (-1) 0 0; V3 1 0 0].
Definition floor_faces : list face := [(1, 0, 2); (0, 1, 3)]%nat.
Lemma floor_epsilon eps : mesh_epsilon eps floor_vertices = 6 * eps.
Proof.
  rewrite (extents_at eps floor_vertices 1 0 1); [ring| | |]; is_largest; right.
  - exists (V3 1 0 0). split; [cbn; auto|]. cbn. apply Rabs_pos_eq. lra.
  - exists (V3 1 0 0). split; [cbn; auto|]. cbn. apply Rabs_R0.
  - exists (V3 0 0 1). split; [cbn; auto|]. cbn. apply Rabs_pos_eq. lra.
Qed.
Lemma floor_made eps : 0 < eps <= 1 / 100 -> exists m, create_mesh eps (TriArray floor_vertices None floor_faces) = Ok (Some m, []) /\ tm_vertices m = floor_vertices /\ tm_faces m = floor_faces /\ built m /\
    forall j, (j < 4)%nat -> nth_error (tm_normals m) j = Some (vnormalize eps (add_up eps (concat (map (corners_at floor_vertices j) floor_faces)) vzero)).
Proof.
  intros Heps. apply given_mesh; [lra|cbn; lia|discriminate|discriminate| |].
  - rewrite floor_epsilon. intros f F. cbn in F. destruct F as [<-|[<-|[]]]; is_good.
  - intros j J. cbn in J. destruct j as [|[|[|[|j]]]]; [| | | |lia];
    [exists (1, 0, 2)%nat|exists (1, 0, 2)%nat|exists (1, 0, 2)%nat|exists (0, 1, 3)%nat]; cbn; auto.
Qed.
Example C127_not_vacuous : let ta := TriArray floor_vertices None floor_faces in
  complete ta /\ fits ta /\ ta_vertices ta <> [] /\ tolerance (1/1000) (ta_vertices ta) (6 * (1/1000)) /\ corner_of_good ta (6 * (1/1000)) 0 /\ exists m, create_mesh (1/1000) ta = Ok (Some m, []).
Proof.
  cbv zeta. split; [intros ns H; discriminate|]. split; [unfold fits; cbn; lia|]. split; [discriminate|]. split; [apply tolerance_iff; symmetry; apply floor_epsilon|]. split.
  - exists (1, 0, 2)%nat. split; [cbn; auto|]. split; [is_good|cbn; auto].
  - destruct (floor_made (1/1000)) as (m & C & _); [lra|]. eauto.
Qed.

(** C127: a first vertex that no triangle uses stays in the mesh, at the origin. *)
Theorem C127_first_vertex_refuted : forall eps, 0 < eps <= 1 / 100 ->
  let ta := TriArray [V3 1 1 1; V3 1 0 0; V3 0 1 0; V3 0 0 1] None [(1, 2, 3)]%nat in
  exists m, create_mesh eps ta = Ok (Some m, []) /\ length (tm_vertices m) = 4%nat /\ nth_error (tm_vertices m) 0 = Some vzero /\ ~ In vzero (ta_vertices ta) /\
    forall f, In f (tm_faces m) -> ~ corner f 0.
Proof.
  intros eps Heps ta. assert (EE : mesh_epsilon eps (ta_vertices ta) = 9 * eps).
  { rewrite (extents_at eps _ 1 1 1); [ring| | |]; is_largest; right; exists (V3 1 1 1); (split; [cbn; auto|]); cbn; apply Rabs_pos_eq; lra. }
  assert (CP : complete ta) by (intros ns H; discriminate). assert (GD : good ta (9 * eps) (1, 2, 3)%nat) by is_good.
  destruct (init_mesh_ok eps ta) as (valid & m & ms & us & ns & E & CO & VA & SA & BM & NO); [lra|exact CP|discriminate|cbn; lia|]. rewrite EE in *.
  assert (CG : forall j, corner_of_good ta (9 * eps) j <-> corner (1, 2, 3)%nat j).
  { intros j. split; [intros (f & [<-|[]] & _ & C); exact C|]. intros C. exists (1, 2, 3)%nat. split; [now left|]. auto. }
  assert (EU : us = seq 0 4).
  { apply sorted_seq; [exact (co_sorted _ _ _ _ _ _ CO)|]. intros j. rewrite (co_used _ _ _ _ _ _ CO), CG. cbn. lia. }
  assert (V : valid = true).
  { apply VA. split; [|split].
    - intros f [<-|[]] j J. cbn in J |- *. lia.
    - exists (1, 2, 3)%nat. split; [now left|exact GD].
    - intros j (n1 & n & H & _). discriminate. }
  assert (MS : ms = []).
  { destruct ms as [|x ms]; [reflexivity|]. exfalso. assert (K : to_be_said ta (9 * eps) x) by (apply SA; now left). destruct GD as (p & q & r & P & NF & NS). destruct x; cbn [to_be_said ta_faces ta] in K.
    - destruct K as (g & G & C & L). apply nth_error_In in G. destruct G as [<-|[]]. cbn in C, L. lia.
    - destruct K as (g & p' & q' & r' & G & P' & F). apply nth_error_In in G. destruct G as [<-|[]]. destruct (points_unique _ _ _ _ _ _ _ _ P P') as (<- & <- & <-). contradiction.
    - destruct K as (g & p' & q' & r' & G & P' & F). apply nth_error_In in G. destruct G as [<-|[]]. destruct (points_unique _ _ _ _ _ _ _ _ P P') as (<- & <- & <-). contradiction.
    - destruct K as (n1 & n & H & _). discriminate.
    - apply (K (1, 2, 3)%nat); [now left|]. exists p, q, r. auto. }
  subst valid ms us. exists m. split; [unfold create_mesh; rewrite E; reflexivity|].
  destruct (co_vs _ _ _ _ _ _ CO) as (LV & KV). split; [exact LV|]. split.
  - apply (KV 0%nat 0%nat); [reflexivity|]. rewrite CG. cbn. lia.
  - split.
    + cbn. unfold vzero. intros [H|[H|[H|[H|[]]]]]; injection H; lra.
    + intros f F C. pose proof (kept_iff _ _ _ (co_faces _ _ _ _ _ _ CO) (renamed (seq 0 4) f)) as KI. destruct (proj1 KI (in_map _ _ _ F)) as ([E1|[]] & _).
      rewrite renamed_seq in E1; [subst f; cbn in C; lia|]. intros j J. exact (co_inside _ _ _ _ _ _ CO f j F J).
Qed.
(** C127: without vertices the removal of the unused ones reads out of the array. *)
Theorem C127_no_vertices_refuted : forall eps ns fs, create_mesh eps (TriArray [] ns fs) = Ub.
Proof. intros eps ns fs. unfold create_mesh. now rewrite init_mesh_empty. Qed.
(** C127: with all the vertices at the origin, a triangle without area is accepted without a message. *)
Theorem C127_degenerate_refuted : forall eps, 0 < eps -> let ta := TriArray [vzero; vzero; vzero] None [(0, 1, 2)]%nat in
  exists m, create_mesh eps ta = Ok (Some m, []) /\ tm_faces m = [(0, 1, 2)]%nat /\ tm_vertices m = [vzero; vzero; vzero].
Proof.
  intros eps Heps. destruct (given_mesh eps [vzero; vzero; vzero] [(0, 1, 2)]%nat) as (m & C & V & F & _); [exact Heps|cbn; lia|discriminate|discriminate| | |exists m; auto].
  - assert (EE : mesh_epsilon eps [vzero; vzero; vzero] = 0).
    { unfold vzero. rewrite (extents_at eps _ 0 0 0); [ring| | |]; is_largest; right; exists (V3 0 0 0); (split; [cbn; auto|]); cbn; apply Rabs_R0. }
    rewrite EE. intros f [<-|[]]. exists vzero, vzero, vzero. split; [cbn; auto|]. unfold flat, short, double_area, vlen, dist. split; [apply Rle_not_lt, sqrt_pos|]. intros [H|[H|H]]; revert H; apply Rle_not_lt, sqrt_pos.
  - intros j J. cbn in J. exists (0, 1, 2)%nat. split; [now left|]. cbn. lia.
Qed.
Print Assumptions C127_first_vertex_refuted.
Print Assumptions C127_no_vertices_refuted.
Print Assumptions C127_degenerate_refuted.

(** C128: without normals of the user, and when no corner at a vertex is obtuse, its normal has length one and the direction of the
    sum of the unit normals of its triangles, each times the angle of the triangle at the vertex. *)
Theorem C128_weighted_partial : forall eps ta m ms j, 0 < eps -> complete ta -> fits ta -> create_mesh eps ta = Ok (Some m, ms) -> ta_normals ta = None ->
  (j < length (tm_vertices m))%nat -> (forall p q r, In (p, q, r) (all_corners m j) -> eps <= double_area p q r /\ 0 <= vdot (vsub q p) (vsub r p)) ->
  exists s n, weighted (all_corners m j) s /\ nth_error (tm_normals m) j = Some n /\ (eps <= vlen s -> unit_of s n).
Proof.
  intros eps ta m ms j Heps CP FI CM UN J H. destruct (create_inv _ _ _ _ Heps CP FI CM) as (NV & IM & _).
  destruct (init_mesh_ok eps ta Heps CP NV FI) as (valid & m' & ms' & us & ns & E & CO & VA & SA & BM & NO). rewrite IM in E. injection E as <- <- <-. rewrite UN in NO.
  destruct (add_up_ok eps Heps (all_corners m j) vzero H) as (s & W & S). exists s, (vnormalize eps s). split; [exact W|]. split; [|intros L; now apply unit_normal].
  rewrite (NO eq_refl j J), S. do 2 f_equal. destruct s. unfold vadd, vzero. cbn. f_equal; ring.
Qed.
Print Assumptions C128_weighted_partial.
(** The corners of the floor. *)
Example C128_not_vacuous : exists m, create_mesh (1/1000) (TriArray floor_vertices None floor_faces) = Ok (Some m, []) /\ (2 < length (tm_vertices m))%nat /\ all_corners m 2 <> [] /\
  forall p q r, In (p, q, r) (all_corners m 2) -> 1/1000 <= double_area p q r /\ 0 <= vdot (vsub q p) (vsub r p).
Proof.
  destruct (floor_made (1/1000)) as (m & C & V & F & _); [lra|]. exists m. split; [exact C|]. split; [rewrite V; cbn; lia|].
  unfold all_corners. rewrite V, F. split; [discriminate|]. intros p q r H. cbn in H. destruct H as [H|[]]. injection H as <- <- <-.
  unfold double_area, vlen, vlen2, vdot, vcross, vsub. cbn [vx vy vz]. split; [apply sqrt_ge; lra|lra].
Qed.

(** C128: an obtuse corner counts as a right angle. *)
Definition bent_vertices : list vec3 := [V3 0 0 0; V3 1 0 0; V3 (-1) 1 0; V3 0 1 0; V3 0 0 1].
Definition bent_faces : list face := [(0, 1, 2); (0, 3, 4)]%nat.
Lemma right_angle t : 0 <= t <= PI -> cos t = 0 -> t = PI / 2.
Proof. intros T C. rewrite <- (acos_cos t T), C. apply acos_0. Qed.
Theorem C128_obtuse_refuted : forall eps, 0 < eps <= 1 / 100 ->
  exists m, create_mesh eps (TriArray bent_vertices None bent_faces) = Ok (Some m, []) /\
    forall s n, weighted (all_corners m 0) s -> nth_error (tm_normals m) 0 = Some n -> ~ unit_of s n.
Proof.
  intros eps Heps. assert (EE : mesh_epsilon eps bent_vertices = 9 * eps).
  { rewrite (extents_at eps _ 1 1 1); [ring| | |]; is_largest; right; [exists (V3 1 0 0)|exists (V3 0 1 0)|exists (V3 0 0 1)]; (split; [cbn; auto 6|]); cbn; apply Rabs_pos_eq; lra. }
  destruct (given_mesh eps bent_vertices bent_faces) as (m & C & V & F & _ & NO); [lra|cbn; lia|discriminate|discriminate| | |].
  - rewrite EE. intros f G. cbn in G. destruct G as [<-|[<-|[]]]; is_good.
  - intros j J. cbn in J. destruct j as [|[|[|[|[|j]]]]]; [| | | | |lia];
    [exists (0, 1, 2)%nat|exists (0, 1, 2)%nat|exists (0, 1, 2)%nat|exists (0, 3, 4)%nat|exists (0, 3, 4)%nat]; cbn; auto.
  - exists m. split; [exact C|]. intros s n W N U. rewrite (NO 0%nat) in N by (cbn; lia). injection N as <-.
    assert (AC : all_corners m 0 = [(V3 0 0 0, V3 1 0 0, V3 (-1) 1 0); (V3 0 0 0, V3 0 1 0, V3 0 0 1)]) by (unfold all_corners; rewrite V, F; reflexivity). rewrite AC in W.
    change (concat (map (corners_at bent_vertices 0) bent_faces)) with [(V3 0 0 0, V3 1 0 0, V3 (-1) 1 0); (V3 0 0 0, V3 0 1 0, V3 0 0 1)] in U.
    assert (C1 : contribution eps (V3 0 0 0, V3 1 0 0, V3 (-1) 1 0) = V3 0 0 (PI / 2)).
    { unfold contribution, corner_normal. replace (Rmin (Rmax (vdot (vsub (V3 1 0 0) (V3 0 0 0)) (vsub (V3 (-1) 1 0) (V3 0 0 0)) / (vlen (vsub (V3 0 0 0) (V3 (-1) 1 0)) * vlen (vsub (V3 1 0 0) (V3 0 0 0)))) 0) 1) with 0.
      - rewrite acos_0. replace (vcross (vsub (V3 1 0 0) (V3 0 0 0)) (vsub (V3 (-1) 1 0) (V3 0 0 0))) with (V3 0 0 1) by (unfold vcross, vsub; cbn; f_equal; ring).
        assert (L1 : vlen (V3 0 0 1) = 1) by (unfold vlen, vlen2, vdot; cbn; replace (0 * 0 + 0 * 0 + 1 * 1) with 1 by ring; apply sqrt_1).
        unfold vnormalize. rewrite L1. replace (rlt 1 eps) with false by (symmetry; apply rlt_false; lra). unfold vscale. cbn [vx vy vz]. f_equal; field.
      - assert (LP : 0 < vlen (vsub (V3 0 0 0) (V3 (-1) 1 0)) * vlen (vsub (V3 1 0 0) (V3 0 0 0))).
        { apply Rmult_lt_0_compat; unfold vlen, vlen2, vdot, vsub; cbn; apply sqrt_lt_R0; lra. }
        rewrite Rmax_right, Rmin_left; [reflexivity|lra|]. replace (vdot (vsub (V3 1 0 0) (V3 0 0 0)) (vsub (V3 (-1) 1 0) (V3 0 0 0))) with (-1) by (unfold vdot, vsub; cbn; ring).
        apply Rmult_le_reg_r with (1 := LP). unfold Rdiv. rewrite Rmult_assoc, Rinv_l by lra. lra. }
    assert (C2 : contribution eps (V3 0 0 0, V3 0 1 0, V3 0 0 1) = V3 (PI / 2) 0 0).
    { unfold contribution, corner_normal. replace (vdot (vsub (V3 0 1 0) (V3 0 0 0)) (vsub (V3 0 0 1) (V3 0 0 0))) with 0 by (unfold vdot, vsub; cbn; ring).
      unfold Rdiv at 1. rewrite Rmult_0_l. rewrite Rmax_left, Rmin_left by lra. rewrite acos_0.
      replace (vcross (vsub (V3 0 1 0) (V3 0 0 0)) (vsub (V3 0 0 1) (V3 0 0 0))) with (V3 1 0 0) by (unfold vcross, vsub; cbn; f_equal; ring).
      assert (L1 : vlen (V3 1 0 0) = 1) by (unfold vlen, vlen2, vdot; cbn; replace (1 * 1 + 0 * 0 + 0 * 0) with 1 by ring; apply sqrt_1).
      unfold vnormalize. rewrite L1. replace (rlt 1 eps) with false by (symmetry; apply rlt_false; lra). unfold vscale. cbn [vx vy vz]. f_equal; field. }
    assert (EQ : vx (vnormalize eps (add_up eps [(V3 0 0 0, V3 1 0 0, V3 (-1) 1 0); (V3 0 0 0, V3 0 1 0, V3 0 0 1)] vzero)) = vz (vnormalize eps (add_up eps [(V3 0 0 0, V3 1 0 0, V3 (-1) 1 0); (V3 0 0 0, V3 0 1 0, V3 0 0 1)] vzero))).
    { unfold add_up. cbn [fold_left]. rewrite C1, C2. unfold vnormalize, vadd, vzero. cbn [vx vy vz].
      replace (0 + 0 + PI / 2) with (PI / 2) by ring. replace (0 + PI / 2 + 0) with (PI / 2) by ring. destruct (rlt _ eps); reflexivity. }
    destruct U as (_ & k & K & ES). assert (XZ : vx s = vz s) by (rewrite ES; unfold vscale; cbn [vx vy vz]; apply f_equal; exact EQ). clear ES EQ C1 C2.
    inversion W as [|p q r l t1 n1 s1 A1 U1 W1]; subst. inversion W1 as [|p q r l t2 n2 s2 A2 U2 W2]; subst. inversion W2; subst.
    destruct A1 as (T1 & A1). destruct A2 as (T2 & A2). destruct U1 as (L1 & k1 & K1 & E1). destruct U2 as (L2 & k2 & K2 & E2).
    destruct n1 as [a1 b1 c1], n2 as [a2 b2 c2]. unfold vcross, vsub, vscale in E1, E2. cbn [vx vy vz] in E1, E2. injection E1 as EA EB EC. injection E2 as EA' EB' EC'.
    assert (a1 = 0) by nra. assert (b1 = 0) by nra. assert (b2 = 0) by nra. assert (c2 = 0) by nra. subst.
    assert (ONE : forall x, 0 < x -> sqrt (x * x) = 1 -> x = 1) by (intros x X E; rewrite sqrt_square in E; lra).
    assert (c1 = 1). { apply ONE; [nra|]. unfold vlen, vlen2, vdot in L1. cbn in L1. rewrite <- L1. f_equal. ring. }
    assert (a2 = 1). { apply ONE; [nra|]. unfold vlen, vlen2, vdot in L2. cbn in L2. rewrite <- L2. f_equal. ring. }
    subst. unfold vadd, vscale, vzero in XZ. cbn [vx vy vz] in XZ. assert (T12 : t1 = t2) by lra. subst t2.
    assert (DZ : vdot (vsub (V3 0 1 0) (V3 0 0 0)) (vsub (V3 0 0 1) (V3 0 0 0)) = 0) by (unfold vdot, vsub; cbn; ring).
    assert (DN : vdot (vsub (V3 1 0 0) (V3 0 0 0)) (vsub (V3 (-1) 1 0) (V3 0 0 0)) = -1) by (unfold vdot, vsub; cbn; ring). rewrite DZ in A2. rewrite DN in A1.
    assert (P1 : 0 < vlen (vsub (V3 0 1 0) (V3 0 0 0)) * vlen (vsub (V3 0 0 1) (V3 0 0 0))) by (apply Rmult_lt_0_compat; unfold vlen, vlen2, vdot, vsub; cbn; apply sqrt_lt_R0; lra).
    assert (CZ : cos t1 = 0) by nra. rewrite CZ in A1. lra.
Qed.
(** C128: the normals of a sheet with triangles on both sides are zero. *)
Theorem C128_sheet_refuted : forall eps, 0 < eps <= 1 / 100 ->
  exists m, create_mesh eps (TriArray [V3 0 0 0; V3 1 0 0; V3 0 1 0] None [(0, 1, 2); (0, 2, 1)]%nat) = Ok (Some m, []) /\ tm_normals m = [vzero; vzero; vzero].
Proof.
  intros eps Heps. set (vs := [V3 0 0 0; V3 1 0 0; V3 0 1 0]). set (fs := [(0, 1, 2); (0, 2, 1)]%nat). assert (EE : mesh_epsilon eps vs = 6 * eps).
  { rewrite (extents_at eps _ 1 1 0); [ring| | |]; is_largest; right; [exists (V3 1 0 0)|exists (V3 0 1 0)|exists (V3 0 0 0)]; (split; [cbn; auto 6|]); cbn; try apply Rabs_R0; apply Rabs_pos_eq; lra. }
  destruct (given_mesh eps vs fs) as (m & C & V & F & BM & NO); [lra|cbn; lia|discriminate|discriminate| | |].
  - rewrite EE. intros f G. cbn in G. destruct G as [<-|[<-|[]]]; is_good.
  - intros j J. cbn in J. exists (0, 1, 2)%nat. split; [now left|]. cbn. lia.
  - exists m. split; [exact C|].
    assert (FLIP : forall p q r, vadd (vadd vzero (contribution eps (p, q, r))) (contribution eps (p, r, q)) = vzero).
    { intros p q r. unfold contribution, corner_normal. rewrite (vlen_swap p r), (vlen_swap p q). replace (vdot (vsub r p) (vsub q p)) with (vdot (vsub q p) (vsub r p)) by (unfold vdot; ring).
      rewrite (Rmult_comm (vlen (vsub q p))). set (t := acos _). clearbody t. unfold vnormalize. rewrite <- (vlen_cross_swap (vsub q p) (vsub r p)). generalize (vlen (vcross (vsub q p) (vsub r p))). intros l.
      generalize (vsub q p), (vsub r p). intros [a b c] [a' b' c']. unfold vcross. cbn [vx vy vz]. destruct (rlt l eps); unfold vadd, vscale, vzero; cbn [vx vy vz]; f_equal; unfold Rdiv; ring. }
    assert (NZ : vnormalize eps vzero = vzero).
    { unfold vnormalize. replace (vlen vzero) with 0 by (unfold vlen, vlen2, vdot, vzero; cbn; rewrite !Rmult_0_l, !Rplus_0_l; symmetry; apply sqrt_0). replace (rlt 0 eps) with true by (symmetry; apply rlt_true; lra). reflexivity. }
    apply list_ext. intros [|[|[|i]]].
    + rewrite NO by (cbn; lia). cbn [nth_error]. apply f_equal. etransitivity; [|exact NZ]. apply f_equal. apply FLIP.
    + rewrite NO by (cbn; lia). cbn [nth_error]. apply f_equal. etransitivity; [|exact NZ]. apply f_equal. apply FLIP.
    + rewrite NO by (cbn; lia). cbn [nth_error]. apply f_equal. etransitivity; [|exact NZ]. apply f_equal. apply FLIP.
    + rewrite (proj2 (nth_error_None _ _)); [destruct i; reflexivity|]. rewrite (bt_normals _ BM), V. cbn. lia.
Qed.
Print Assumptions C128_obtuse_refuted.
Print Assumptions C128_sheet_refuted.

(** C129: with a positive scale, a box query on a shape reports each triangle whose smallest box meets the given box once, and no
    other triangle, with its scaled vertices and normals. *)
Theorem C129_query_partial : forall eps ta m ms k d b, 0 < eps -> complete ta -> fits ta -> create_mesh eps ta = Ok (Some m, ms) -> positive_scale k ->
  (exists x, in_bounds b x) ->
  exists l, overlapping_triangles (set_side d (new_shape m k)) b = Ok l /\ NoDup (map rp_id l) /\
    (forall x, In x l -> exists i p q r n1 n2 n3 t, x = Reported (p, q, r) (n1, n2, n3) (length (tm_faces m) + i) /\
       scaled_triangle m k i p q r /\ scaled_normals m k i n1 n2 n3 /\ box_of p q r t /\ boxes_meet t b) /\
    (forall i p q r t, scaled_triangle m k i p q r -> box_of p q r t -> boxes_meet t b -> exists x, In x l /\ rp_id x = (length (tm_faces m) + i)%nat).
Proof.
  intros eps ta m ms k d b Heps CP FI CM KP (x & X). destruct (create_inv _ _ _ _ Heps CP FI CM) as (_ & _ & BM). pose proof BM as [_ _ (ids & boxes & HO & HF)].
  apply (query_shape m ids boxes); auto. unfold box_ok. unfold in_bounds in X. lra.
Qed.
(** C129: the local bounds of a shape with a positive scale are the smallest box around its surface. *)
Theorem C129_bounds_partial : forall eps ta m ms k d, 0 < eps -> complete ta -> fits ta -> create_mesh eps ta = Ok (Some m, ms) -> positive_scale k ->
  exists b, concave_bounds (set_side d (new_shape m k)) = Ok b /\ tight_bounds (surface m k) b.
Proof.
  intros eps ta m ms k d Heps CP FI CM KP. destruct (create_inv _ _ _ _ Heps CP FI CM) as (NV & IM & BM). pose proof BM as [_ _ (ids & boxes & HO & HF)].
  apply (bounds_shape m ids boxes); auto. destruct (C127_triangles eps ta _ Heps CP FI NV (proj2 (tolerance_iff _ _ _) eq_refl)) as (answer & ms' & E & _ & AC & TR).
  rewrite CM in E. injection E as <- <-. destruct (TR m eq_refl) as (kf & K & F2). destruct (proj1 AC ltac:(discriminate)) as (_ & (f & F & G) & _).
  intros EM. rewrite EM in F2. inversion F2; subst kf. exact (proj2 (kept_iff _ _ _ K f) (conj F G)).
Qed.
(** Changing the scale gives the shape that would have been made with it. *)
Theorem C129_set_scale : forall m k k' d, set_shape_scale k' (set_side d (new_shape m k)) = set_side d (new_shape m k').
Proof. reflexivity. Qed.
Print Assumptions C129_query_partial.
Print Assumptions C129_bounds_partial.
Print Assumptions C129_set_scale.
Example C129_not_vacuous : exists m, create_mesh (1/1000) (TriArray floor_vertices None floor_faces) = Ok (Some m, []) /\ positive_scale (V3 2 1 3) /\
  scaled_triangle m (V3 2 1 3) 1 (V3 0 0 (-3)) (V3 0 0 3) (V3 2 0 0) /\ box_of (V3 0 0 (-3)) (V3 0 0 3) (V3 2 0 0) (Box3 (V3 0 0 (-3)) (V3 2 0 3)) /\
  boxes_meet (Box3 (V3 0 0 (-3)) (V3 2 0 3)) (Box3 (V3 1 (-1) (-1)) (V3 5 1 1)).
Proof.
  destruct (floor_made (1/1000)) as (m & C & V & F & _); [lra|]. exists m. split; [exact C|]. split; [unfold positive_scale; cbn; lra|]. split.
  - exists (0, 1, 3)%nat, (V3 0 0 (-1)), (V3 0 0 1), (V3 1 0 0). rewrite V, F. split; [reflexivity|]. split; [cbn; auto|]. unfold vmul. cbn. repeat split; f_equal; ring.
  - split.
    + unfold box_of. replace (Box3 (V3 0 0 (-3)) (V3 2 0 3)) with (triangle_box (V3 0 0 (-3)) (V3 0 0 3) (V3 2 0 0)); [apply triangle_box_tight|].
      box_calc.
    + exists (V3 1 0 0). unfold in_bounds. cbn. lra.
Qed.

(** C129: with a negative scale a query misses triangles that lie inside the given box, and the bounds are empty. *)
Theorem C129_mirror_refuted : forall eps, 0 < eps <= 1 / 100 ->
  let k := V3 (-1) 1 1 in let b := Box3 (V3 (-4) (-1) (-1)) (V3 0 2 2) in
  exists m, create_mesh eps (TriArray [V3 1 0 0; V3 3 0 0; V3 1 1 0] None [(0, 1, 2)]%nat) = Ok (Some m, []) /\ nonzero_scale k /\
    overlapping_triangles (new_shape m k) b = Ok [] /\ (exists p q r, scaled_triangle m k 0 p q r) /\ (forall x, surface m k x -> in_bounds b x) /\
    (exists c, concave_bounds (new_shape m k) = Ok c /\ forall x, ~ in_bounds c x).
Proof.
  intros eps Heps k b. set (vs := [V3 1 0 0; V3 3 0 0; V3 1 1 0]). set (fs := [(0, 1, 2)]%nat). assert (EE : mesh_epsilon eps vs = 12 * eps).
  { rewrite (extents_at eps _ 3 1 0); [ring| | |]; is_largest; right; [exists (V3 3 0 0)|exists (V3 1 1 0)|exists (V3 1 1 0)]; (split; [cbn; auto 6|]); cbn; try apply Rabs_R0; apply Rabs_pos_eq; lra. }
  destruct (given_mesh eps vs fs) as (m & C & V & F & BM & NO); [lra|cbn; lia|discriminate|discriminate| | |].
  - rewrite EE. intros f G. cbn in G. destruct G as [<-|[]]; is_good.
  - intros j J. cbn in J. exists (0, 1, 2)%nat. split; [now left|]. cbn. lia.
  - exists m. split; [exact C|]. split; [unfold nonzero_scale; cbn; lra|]. pose proof BM as [_ _ (ids & boxes & HO & HF)].
    assert (ES : forall i p q r, scaled_triangle m k i p q r -> i = 0%nat /\ p = V3 (-1) 0 0 /\ q = V3 (-3) 0 0 /\ r = V3 (-1) 1 0).
    { intros i p q r (f & p0 & q0 & r0 & FI & P & -> & -> & ->). rewrite F in FI. destruct i as [|[|i]]; cbn in FI; try discriminate. injection FI as <-. rewrite V in P. cbn in P. destruct P as (P & Q & R).
      injection P as <-. injection Q as <-. injection R as <-. unfold vmul, k. cbn. repeat split; f_equal; ring. }
    assert (EB : boxes = [triangle_box (V3 1 0 0) (V3 3 0 0) (V3 1 1 0)]).
    { rewrite F in HF. inversion HF as [|x y l l' (p & q & r & P & ->) HL]; subst. inversion HL; subst. rewrite V in P. cbn in P. destruct P as (P & Q & R). injection P as <-. injection Q as <-. injection R as <-. reflexivity. }
    assert (TB : triangle_box (V3 1 0 0) (V3 3 0 0) (V3 1 1 0) = Box3 (V3 1 0 0) (V3 3 1 0)).
    { box_calc. }
    rewrite TB in EB. split; [|split; [|split]].
    + unfold overlapping_triangles. change (cs_mesh (new_shape m k)) with m. change (cs_scale (new_shape m k)) with k. destruct (holds_query _ _ _ (apply_scale (inverse k) b) HO) as (out & Q & ND & IN). rewrite Q. cbn [bind].
      destruct out as [|id out]; [reflexivity|]. exfalso. destruct (proj1 (IN id) (or_introl eq_refl)) as (i & bi & _ & B & ((M & _) & _)). rewrite EB in B. destruct i as [|[|i]]; cbn in B; try discriminate. injection B as <-.
      cbn in M. apply rle_iff in M. lra.
    + exists (vmul (V3 1 0 0) k), (vmul (V3 3 0 0) k), (vmul (V3 1 1 0) k), (0, 1, 2)%nat, (V3 1 0 0), (V3 3 0 0), (V3 1 1 0). rewrite V, F. cbn. auto.
    + intros x (i & p & q & r & S & (u & v & w & U & VV & W & SU & ->)). destruct (ES _ _ _ _ S) as (-> & -> & -> & ->). unfold in_bounds, b. cbn. lra.
    + unfold concave_bounds, mesh_bounds. change (cs_mesh (new_shape m k)) with m. change (cs_scale (new_shape m k)) with k. destruct (holds_root _ _ _ HO) as (rb & G & UP & LE); [rewrite EB; discriminate|]. rewrite G. cbn [bind].
      eexists. split; [reflexivity|]. intros x X. assert (B1 : inside_box (Box3 (V3 1 0 0) (V3 3 1 0)) rb) by (apply UP; rewrite EB; now left). apply inside_iff in B1.
      destruct rb as [[x1 y1 z1] [x2 y2 z2]]. unfold in_bounds, apply_scale, vmul, k in X. cbn in X, B1. lra.
Qed.
Print Assumptions C129_mirror_refuted.

(** C130: for a scale without zeros and a ray that is exact for the triangles it can see and runs along no coordinate plane
    through their vertices, the ray cast answers the nearest hit of a triangle, and nothing only when it misses them all. *)
Theorem C130_nearest_partial : forall eps ta m ms k d y, 0 < eps -> complete ta -> fits ta -> create_mesh eps ta = Ok (Some m, ms) -> nonzero_scale k -> 0 < ray_max y ->
  (forall i p q r, scaled_triangle m k i p q r -> off_planes y p q r /\ (eps <= double_area p q r /\ triangle_exact eps p q r y d \/ turned_away d p q r y)) ->
  exists answer, concave_cast eps (set_side d (new_shape m k)) y = Ok answer /\
  match answer with
  | Some (h, i) => exists p q r, scaled_triangle m k i p q r /\ triangle_hit p q r y h /\
      forall j p' q' r' u, scaled_triangle m k j p' q' r' -> ~ turned_away d p' q' r' y -> 0 <= u < hit_fraction h -> ~ triangle_set p' q' r' (ray_at y u)
  | None => forall i p q r, scaled_triangle m k i p q r -> ~ turned_away d p q r y -> misses_closed (triangle_set p q r) y
  end.
Proof.
  intros eps ta m ms k d y Heps CP FI CM KN MX ALL. destruct (create_inv _ _ _ _ Heps CP FI CM) as (_ & _ & BM). pose proof BM as [_ _ (ids & boxes & HO & HF)].
  apply (cast_shape eps m ids boxes); auto.
Qed.
Print Assumptions C130_nearest_partial.
(** C130: a new shape is tested from the front, until setRaycastTestType is called. *)
Theorem C130_default_side : forall eps m k y, concave_cast eps (new_shape m k) y = concave_cast eps (set_side Front (new_shape m k)) y.
Proof. reflexivity. Qed.
Print Assumptions C130_default_side.
Lemma floor_scaled m k i p q r : tm_vertices m = floor_vertices -> tm_faces m = floor_faces -> k = V3 1 1 1 -> scaled_triangle m k i p q r ->
  i = 0%nat /\ p = V3 0 0 1 /\ q = V3 0 0 (-1) /\ r = V3 (-1) 0 0 \/ i = 1%nat /\ p = V3 0 0 (-1) /\ q = V3 0 0 1 /\ r = V3 1 0 0.
Proof.
  intros V F -> (f & p0 & q0 & r0 & FI & P & -> & -> & ->). rewrite F in FI. rewrite V in P. destruct i as [|[|[|i]]]; cbn in FI; try discriminate; injection FI as <-; cbn in P; destruct P as (P & Q & R);
  injection P as <-; injection Q as <-; injection R as <-; [left|right]; unfold vmul; cbn; repeat split; f_equal; ring.
Qed.
Example C130_not_vacuous : let y := Ray (V3 (1/4) 1 (1/8)) (V3 (1/3) (-1) (1/4)) 1 in
  exists m, create_mesh (1/1000) (TriArray floor_vertices None floor_faces) = Ok (Some m, []) /\ nonzero_scale (V3 1 1 1) /\ 0 < ray_max y /\
  (forall i p q r, scaled_triangle m (V3 1 1 1) i p q r -> off_planes y p q r /\ (1/1000 <= double_area p q r /\ triangle_exact (1/1000) p q r y Front \/ turned_away Front p q r y)) /\
  (exists p q r u, scaled_triangle m (V3 1 1 1) 1 p q r /\ 0 <= u <= 1 /\ triangle_set p q r (ray_at y u)).
Proof.
  intros y. destruct (floor_made (1/1000)) as (m & C & V & F & _); [lra|]. exists m. split; [exact C|]. split; [unfold nonzero_scale; cbn; lra|]. split; [cbn; lra|]. split.
  - intros i p q r S. destruct (floor_scaled _ _ _ _ _ _ V F eq_refl S) as [(-> & -> & -> & ->)|(-> & -> & -> & ->)]; (split; [unfold off_planes, off_plane; cbn; lra|left]); (split; [unfold double_area, vlen, vlen2, vdot, vcross, vsub; cbn [vx vy vz]; apply sqrt_ge; lra|]);
    unfold triangle_exact, y, vdot, vcross, vsub; cbn [ray_p1 ray_p2 vx vy vz]; lra.
  - exists (V3 0 0 (-1)), (V3 0 0 1), (V3 1 0 0), (1/2). split; [|split; [lra|]].
    + exists (0, 1, 3)%nat, (V3 0 0 (-1)), (V3 0 0 1), (V3 1 0 0). rewrite V, F. split; [reflexivity|]. split; [cbn; auto|]. unfold vmul. cbn. repeat split; f_equal; ring.
    + exists (25/96), (43/96), (7/24). unfold ray_at, lerp, y. cbn [ray_p1 ray_p2 vx vy vz]. split; [lra|]. split; [lra|]. split; [lra|]. split; [lra|]. f_equal; lra.
Qed.
(** C130: a ray that runs straight down onto the edge between two triangles of a floor falls through, although it hits both. *)
Theorem C130_edge_refuted : forall eps, 0 < eps <= 1 / 100 -> let y := Ray (V3 0 1 0) (V3 0 (-1) 0) 1 in let k := V3 1 1 1 in
  exists m, create_mesh eps (TriArray floor_vertices None floor_faces) = Ok (Some m, []) /\ concave_cast eps (new_shape m k) y = Ok None /\
  (exists p q r, scaled_triangle m k 0 p q r) /\ (exists p q r, scaled_triangle m k 1 p q r) /\
  forall i p q r, scaled_triangle m k i p q r -> eps <= double_area p q r /\ triangle_exact eps p q r y Front /\ triangle_set p q r (ray_at y (1/2)) /\
    exists h, triangle_cast eps Front p q r y = Some h.
Proof.
  intros eps Heps y k. destruct (floor_made eps Heps) as (m & C & V & F & BM & _). exists m. split; [exact C|]. pose proof BM as [_ _ (ids & boxes & HO & HF)].
  assert (EB : boxes = [triangle_box (V3 0 0 1) (V3 0 0 (-1)) (V3 (-1) 0 0); triangle_box (V3 0 0 (-1)) (V3 0 0 1) (V3 1 0 0)]).
  { rewrite F in HF. inversion HF as [|f b l l' (p & q & r & P & ->) HL]; subst. inversion HL as [|f' b' l2 l2' (p' & q' & r' & P' & ->) HL2]; subst. inversion HL2; subst. rewrite V in P, P'. cbn in P, P'.
    destruct P as (P & Q & R). injection P as <-. injection Q as <-. injection R as <-. destruct P' as (P & Q & R). injection P as <-. injection Q as <-. injection R as <-. reflexivity. }
  assert (TB1 : triangle_box (V3 0 0 1) (V3 0 0 (-1)) (V3 (-1) 0 0) = Box3 (V3 (-1) 0 (-1)) (V3 0 0 1)).
  { box_calc. }
  assert (TB2 : triangle_box (V3 0 0 (-1)) (V3 0 0 1) (V3 1 0 0) = Box3 (V3 0 0 (-1)) (V3 1 0 1)).
  { box_calc. }
  rewrite TB1, TB2 in EB.
  assert (D0 : d_eq0 real_ops (0 * (1 / 1) - 0 * (1 / 1)) = true) by (apply real_zero; ring).
  assert (TI : forall x neg, x < 0 -> times_inverse real_ops Rinv x (0 * (1 / 1) - 0 * (1 / 1)) neg = if neg then PInf else NInf).
  { intros x neg X. unfold times_inverse. rewrite D0. cbn [d_lt d_zero real_ops]. rewrite (proj2 (rlt_false 0 x)) by lra. now rewrite (proj2 (rlt_true x 0)) by lra. }
  assert (TP : forall x neg, 0 < x -> times_inverse real_ops Rinv x (0 * (1 / 1) - 0 * (1 / 1)) neg = if neg then NInf else PInf).
  { intros x neg X. unfold times_inverse. rewrite D0. cbn [d_lt d_zero real_ops]. now rewrite (proj2 (rlt_true 0 x)) by lra. }
  assert (TN : forall x neg, x = 0 -> times_inverse real_ops Rinv x (0 * (1 / 1) - 0 * (1 / 1)) neg = NaN).
  { intros x neg ->. unfold times_inverse. rewrite D0. cbn [d_lt d_zero real_ops]. now rewrite (proj2 (rlt_false 0 0)) by lra. }
  assert (M1 : test_ray real_ops Rinv (tree_ray k y) (tree_box (Box3 (V3 (-1) 0 (-1)) (V3 0 0 1))) 1 = false).
  { unfold test_ray, tree_ray, k, y, tree_box, tree_vec, vmul, vsub, inverse, slab. cbn [r_neg r_origin r_dir b_min b_max bmin bmax TreeModel.vx TreeModel.vy TreeModel.vz vx vy vz ray_p1 ray_p2 d_sub real_ops].
    rewrite (TI (-1 - 0 * (1 / 1))), (TN (0 - 0 * (1 / 1))) by lra. rewrite (TP (1 - 0 * (1 / 1))) by lra.
    assert (NM : forall a, emin real_ops NInf a = NInf) by (intros [| | |]; reflexivity). change (emax real_ops (@NInf R) NaN) with (@NInf R). rewrite !NM.
    generalize (times_inverse real_ops Rinv (0 - 1 * (1 / 1)) (-1 * (1 / 1) - 1 * (1 / 1)) false). intros t.
    assert (EI : emin real_ops t t = t) by (unfold emin; destruct (elt real_ops t t); reflexivity). rewrite EI. destruct t; cbn; try reflexivity. unfold emax. cbn. destruct (rlt x 0); reflexivity. }
  assert (M2 : test_ray real_ops Rinv (tree_ray k y) (tree_box (Box3 (V3 0 0 (-1)) (V3 1 0 1))) 1 = false).
  { unfold test_ray, tree_ray, k, y, tree_box, tree_vec, vmul, vsub, inverse, slab. cbn [r_neg r_origin r_dir b_min b_max bmin bmax TreeModel.vx TreeModel.vy TreeModel.vz vx vy vz ray_p1 ray_p2 d_sub real_ops].
    rewrite (TN (0 - 0 * (1 / 1))) by lra. assert (NM : forall a, emin real_ops NaN a = NaN) by (intros [| | |]; reflexivity). rewrite NM. reflexivity. }
  assert (ES := fun i p q r => floor_scaled m k i p q r V F eq_refl).
  split; [|split; [|split]].
  - unfold concave_cast. change (cs_mesh (new_shape m k)) with m. change (cs_scale (new_shape m k)) with k.
    destruct (holds_cast _ _ _ (tree_ray k y) (ray_max y) HO) as (out & RC & ND & SO & _); [cbn; lra|]. rewrite RC. cbn [bind]. destruct out as [|id out]; [reflexivity|]. exfalso.
    destruct (SO id (or_introl eq_refl)) as (i & b & _ & B & T). rewrite EB in B. change (ray_max y) with 1 in T. destruct i as [|[|[|i]]]; cbn in B; try discriminate; injection B as <-; congruence.
  - exists (vmul (V3 0 0 1) k), (vmul (V3 0 0 (-1)) k), (vmul (V3 (-1) 0 0) k), (1, 0, 2)%nat, (V3 0 0 1), (V3 0 0 (-1)), (V3 (-1) 0 0). rewrite V, F. cbn. auto 8.
  - exists (vmul (V3 0 0 (-1)) k), (vmul (V3 0 0 1) k), (vmul (V3 1 0 0) k), (0, 1, 3)%nat, (V3 0 0 (-1)), (V3 0 0 1), (V3 1 0 0). rewrite V, F. cbn. auto 8.
  - intros i p q r S. assert (A : eps <= double_area p q r /\ triangle_exact eps p q r y Front /\ triangle_set p q r (ray_at y (1/2))).
    { destruct (ES _ _ _ _ S) as [(-> & -> & -> & ->)|(-> & -> & -> & ->)]; (split; [unfold double_area, vlen, vlen2, vdot, vcross, vsub; cbn [vx vy vz]; apply sqrt_ge; nra|]);
      (split; [unfold triangle_exact, y, vdot, vcross, vsub; cbn [ray_p1 ray_p2 vx vy vz]; lra|]); exists (1/2), (1/2), 0; (repeat split; try lra); unfold ray_at, lerp, y; cbn; f_equal; lra. }
    destruct A as (A1 & A2 & A3). repeat split; auto. pose proof (triangle_cast_ok eps p q r y Front ltac:(lra) A1 A2) as TC. destruct (triangle_cast eps Front p q r y) as [h|]; [eauto|]. exfalso. apply (TC (1/2)); [cbn; lra|exact A3].
Qed.
Print Assumptions C130_edge_refuted.
