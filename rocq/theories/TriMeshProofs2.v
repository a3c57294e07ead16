(** Proofs about triangle meshes: the whole mesh, box queries, ray casts. *)
From Coq Require Import List Arith Lia Bool ZArith.
From Verif Require Import Base Decimal HashSpec TreeModel TreeSpec RayModel RaySpec TreeProofs TreeProofs2 TreeProofs3 TreeProofs4 TreeProofs5 TreeProofs6 RayProofs TreeProperties
  VecModel VecProofs GeomSpec ShapeModel ShapeSpec ShapeMeshProofs HeightWalkProofs TriMeshModel TriMeshSpec TriMeshProofs TriMeshTreeProofs.
Import ListNotations.
Local Open Scope R_scope.

Lemma face_points_ok vs f p q r : face_points vs f = Ok (p, q, r) <-> points_of vs f p q r.
Proof.
  destruct f as [[a b] c]. unfold face_points, points_of. destruct (nth_error vs a), (nth_error vs b), (nth_error vs c); cbn; split; intros H; try discriminate; try (destruct H as (? & ? & ?); discriminate).
  - injection H as -> -> ->. auto.
  - destruct H as (A & B & C). injection A as ->. injection B as ->. injection C as ->. reflexivity.
Qed.
Lemma points_exist vs f : (forall j, corner f j -> (j < length vs)%nat) -> exists p q r, points_of vs f p q r.
Proof.
  destruct f as [[a b] c]. intros H. destruct (nth_some vs a) as [p P]; [apply H; cbn; auto|]. destruct (nth_some vs b) as [q Q]; [apply H; cbn; auto|].
  destruct (nth_some vs c) as [r R]; [apply H; cbn; auto|]. exists p, q, r. cbn. auto.
Qed.

(** ** The sums of the normals *)
Definition contribution (eps : R) (c : vec3 * vec3 * vec3) : vec3 := let '(p, q, r) := c in corner_normal eps p q r (vlen (vsub p r)) (vlen (vsub q p)).
Definition add_up (eps : R) (l : list (vec3 * vec3 * vec3)) (n : vec3) : vec3 := fold_left (fun s c => vadd s (contribution eps c)) l n.
Lemma add_normal_ok i x ns : (i < length ns)%nat -> exists ns', add_normal i x ns = Ok ns' /\ length ns' = length ns /\
  forall j n, nth_error ns j = Some n -> nth_error ns' j = Some (if Nat.eqb i j then vadd n x else n).
Proof.
  intros I. destruct (nth_some ns i I) as [m M]. unfold add_normal. rewrite M. cbn [rd bind]. eexists. split; [reflexivity|]. split; [apply put_length|].
  intros j n N. destruct (Nat.eqb_spec i j) as [<-|D]; [rewrite put_same by exact I; congruence|]. now rewrite put_other by congruence.
Qed.
Lemma nth_of vs (j : nat) p : nth_error vs j = Some p -> nth j vs vzero = p.
Proof. intros H. now apply nth_error_nth. Qed.
Lemma add_face_ok eps vs f ns p q r : points_of vs f p q r -> length ns = length vs -> exists ns', add_face_normals eps vs f ns = Ok ns' /\ length ns' = length ns /\
  forall j n, nth_error ns j = Some n -> nth_error ns' j = Some (add_up eps (corners_at vs j f) n).
Proof.
  intros P L. pose proof (points_corner _ _ _ _ _ P) as IN. unfold add_face_normals. rewrite (proj2 (face_points_ok _ _ _ _ _) P).
  destruct f as [[a b] c]. destruct P as (A & B & C). cbn [bind].
  destruct (add_normal_ok a (corner_normal eps p q r (vlen (vsub p r)) (vlen (vsub q p))) ns) as (n1 & E1 & L1 & K1); [rewrite L; apply IN; cbn; auto|]. rewrite E1. cbn [bind].
  destruct (add_normal_ok b (corner_normal eps q r p (vlen (vsub q p)) (vlen (vsub r q))) n1) as (n2 & E2 & L2 & K2); [rewrite L1, L; apply IN; cbn; auto|]. rewrite E2. cbn [bind].
  destruct (add_normal_ok c (corner_normal eps r p q (vlen (vsub r q)) (vlen (vsub p r))) n2) as (n3 & E3 & L3 & K3); [rewrite L2, L1, L; apply IN; cbn; auto|]. rewrite E3.
  exists n3. split; [reflexivity|]. split; [congruence|]. intros j n N. rewrite (K3 _ _ (K2 _ _ (K1 _ _ N))). f_equal. unfold corners_at.
  rewrite (nth_of _ _ _ A), (nth_of _ _ _ B), (nth_of _ _ _ C). destruct (Nat.eqb a j), (Nat.eqb b j), (Nat.eqb c j); reflexivity.
Qed.
Lemma add_up_app eps l1 l2 n : add_up eps (l1 ++ l2) n = add_up eps l2 (add_up eps l1 n).
Proof. apply fold_left_app. Qed.
Lemma sum_normals_ok eps vs : forall fs ns, (forall f, In f fs -> exists p q r, points_of vs f p q r) -> length ns = length vs ->
  exists ns', sum_normals eps vs fs ns = Ok ns' /\ length ns' = length ns /\
  forall j n, nth_error ns j = Some n -> nth_error ns' j = Some (add_up eps (concat (map (corners_at vs j) fs)) n).
Proof.
  induction fs as [|f fs IH]; intros ns PO L; cbn [sum_normals].
  - exists ns. auto.
  - destruct (PO f (or_introl eq_refl)) as (p & q & r & P). destruct (add_face_ok eps vs f ns p q r P L) as (n1 & E1 & L1 & K1). rewrite E1. cbn [bind].
    destruct (IH n1) as (n2 & E2 & L2 & K2); [intros g G; apply PO; now right|congruence|]. exists n2. split; [exact E2|]. split; [congruence|].
    intros j n N. rewrite (K2 _ _ (K1 _ _ N)). cbn [map concat]. now rewrite add_up_app.
Qed.
Lemma compute_normals_ok eps vs fs ns : (forall f, In f fs -> exists p q r, points_of vs f p q r) -> length ns = length vs -> (forall n, In n ns -> n = vzero) ->
  exists ns', compute_normals eps vs fs ns = Ok ns' /\ length ns' = length vs /\
  forall j, (j < length vs)%nat -> nth_error ns' j = Some (vnormalize eps (add_up eps (concat (map (corners_at vs j) fs)) vzero)).
Proof.
  intros PO L Z. destruct (sum_normals_ok eps vs fs ns PO L) as (n1 & E1 & L1 & K1). unfold compute_normals. rewrite E1. cbn [bind].
  eexists. split; [reflexivity|]. split; [rewrite map_length; congruence|]. intros j J. destruct (nth_some ns j) as [n N]; [lia|].
  rewrite nth_error_map, (K1 _ _ N). cbn. do 2 f_equal. rewrite (Z n); [reflexivity|]. eapply nth_error_In; eauto.
Qed.

(** ** The whole mesh *)
Record built (m : tmesh) : Prop :=
  { bt_points : forall f, In f (tm_faces m) -> exists p q r, points_of (tm_vertices m) f p q r
  ; bt_normals : length (tm_normals m) = length (tm_vertices m)
  ; bt_tree : exists ids boxes, holds (tm_tree m) ids boxes /\
      Forall2 (fun f b => exists p q r, points_of (tm_vertices m) f p q r /\ b = triangle_box p q r) (tm_faces m) boxes }.
Lemma Forall2_same {A B} (P : A -> B -> Prop) : forall l k, Forall2 P l k -> length l = length k.
Proof. induction 1; cbn; congruence. Qed.
Lemma Forall2_nth {A B} (P : A -> B -> Prop) : forall l k, Forall2 P l k -> forall i a b, nth_error l i = Some a -> nth_error k i = Some b -> P a b.
Proof. induction 1 as [|x y l k XY _ IH]; intros [|i] a b E1 E2; cbn in *; try discriminate; [congruence|eauto]. Qed.
Lemma kept_length {A} (P : A -> Prop) : forall l k, kept P l k -> (length k <= length l)%nat.
Proof. induction 1; cbn; lia. Qed.
Lemma init_mesh_ok eps ta : 0 < eps -> complete ta -> ta_vertices ta <> [] -> (Z.of_nat (length (ta_faces ta)) <= 32768)%Z ->
  exists valid m ms us ns, init_mesh eps ta = Ok (valid, m, ms) /\ copied ta (mesh_epsilon eps (ta_vertices ta)) (tm_vertices m) ns (tm_faces m) us /\
    (valid = true <-> acceptable ta (mesh_epsilon eps (ta_vertices ta))) /\ (forall x, In x ms <-> to_be_said ta (mesh_epsilon eps (ta_vertices ta)) x) /\ built m /\
    match ta_normals ta with
    | Some _ => tm_normals m = ns
    | None => valid = true -> forall j, (j < length (tm_vertices m))%nat -> nth_error (tm_normals m) j = Some (vnormalize eps (add_up eps (all_corners m j) vzero))
    end.
Proof.
  intros Heps CP NV SZ. set (e := mesh_epsilon eps (ta_vertices ta)). assert (E0 : 0 <= e) by (apply mesh_epsilon_nonneg; exact Heps).
  destruct (copy_data_ok ta e E0 CP NV) as (vs & ns & fs & valid & ms & us & E & CO & VA & SA). unfold init_mesh. fold e. rewrite E. cbn [bind].
  assert (LV : length vs = length us) by (apply (co_vs _ _ _ _ _ _ CO)). assert (LN : length ns = length us) by (apply (co_ns _ _ _ _ _ _ CO)).
  assert (PO : forall f, In f fs -> exists p q r, points_of vs f p q r).
  { intros f F. apply points_exist. intros j J. rewrite LV. exact (co_inside _ _ _ _ _ _ CO _ _ F J). }
  assert (LF : (length fs <= length (ta_faces ta))%nat) by (pose proof (kept_length _ _ _ (co_faces _ _ _ _ _ _ CO)) as K; rewrite map_length in K; exact K).
  assert (HN : exists ns', match ta_normals ta with None => if valid then compute_normals eps vs fs ns else Ok ns | Some _ => Ok ns end = Ok ns' /\ length ns' = length vs /\
    match ta_normals ta with Some _ => ns' = ns | None => valid = true -> forall j, (j < length vs)%nat -> nth_error ns' j = Some (vnormalize eps (add_up eps (concat (map (corners_at vs j) fs)) vzero)) end).
  { destruct (ta_normals ta) as [un|] eqn:UN; [exists ns; repeat split; congruence|]. destruct valid; [|exists ns; repeat split; congruence].
    destruct (compute_normals_ok eps vs fs ns PO) as (n1 & E1 & L1 & K1); [congruence| |exists n1; auto].
    intros n I. apply In_nth_error in I. destruct I as [k K]. destruct (nth_some us k) as [j J]; [rewrite <- LN; eapply some_lt; eauto|].
    destruct (co_ns _ _ _ _ _ _ CO) as [_ CN]. destruct (CN _ _ J) as [A B].
    assert (NO : normal_of ta j = vzero) by (unfold normal_of; now rewrite UN).
    assert (DE : corner_of_good ta e j \/ ~ corner_of_good ta e j) by apply Classical_Prop.classic.
    destruct DE as [D|D]; [specialize (A D); congruence|specialize (B D); congruence]. }
  destruct HN as (ns' & EN & LN' & KN). rewrite EN. cbn [bind].
  destruct (build_tree_ok vs fs (init_tree real_ops) [] [] holds_init) as (t & ids & boxes & ET & HT & FT); [cbn [length]; lia|exact PO|]. cbn [length app] in *. rewrite ET. cbn [bind].
  exists valid, (TMesh vs ns' fs t), ms, us, ns. cbn [tm_vertices tm_normals tm_faces tm_tree]. split; [reflexivity|]. split; [exact CO|]. split; [exact VA|]. split; [exact SA|].
  split.
  - constructor; cbn [tm_vertices tm_normals tm_faces tm_tree]; [exact PO|exact LN'|]. exists ids, boxes. auto.
  - destruct (ta_normals ta); exact KN.
Qed.
Lemma bad_copy ta e : forall fs i s, ta_vertices ta = [] -> b_vertices s = [] -> exists s', copy_faces e ta i fs s = Ok s' /\ b_vertices s' = [].
Proof.
  induction fs as [|f fs IH]; intros i s NV B; cbn [copy_faces]; [eauto|]. unfold copy_face. rewrite NV. destruct f as [[a b] c]. cbn [length bad_indices filter Nat.leb bind].
  apply IH; [exact NV|]. exact B.
Qed.
Lemma init_mesh_empty eps ta : ta_vertices ta = [] -> init_mesh eps ta = Ub.
Proof.
  intros NV. unfold init_mesh, copy_data. destruct (bad_copy ta (mesh_epsilon eps (ta_vertices ta) * mesh_epsilon eps (ta_vertices ta)) (ta_faces ta) 0%nat (start (length (ta_vertices ta)))) as (s & E & B); [exact NV|rewrite NV; reflexivity|].
  rewrite E. cbn [bind]. unfold remove_unused. rewrite B. reflexivity.
Qed.
Lemma create_inv eps ta m ms : 0 < eps -> complete ta -> (Z.of_nat (length (ta_faces ta)) <= 32768)%Z -> create_mesh eps ta = Ok (Some m, ms) ->
  ta_vertices ta <> [] /\ init_mesh eps ta = Ok (true, m, ms) /\ built m.
Proof.
  intros Heps CP SZ C. assert (NV : ta_vertices ta <> []) by (intros NV; unfold create_mesh in C; rewrite (init_mesh_empty _ _ NV) in C; discriminate).
  split; [exact NV|]. destruct (init_mesh_ok eps ta Heps CP NV SZ) as (valid & m' & ms' & us & ns & E & _ & _ & _ & B & _). unfold create_mesh in C. rewrite E in C. cbn [bind] in C.
  destruct valid; [|discriminate]. injection C as <- <-. auto.
Qed.

(** ** The triangles of a shape *)
Lemma shape_triangle_iff s i p q r : shape_triangle s i = Ok (p, q, r) <-> scaled_triangle (cs_mesh s) (cs_scale s) i p q r.
Proof.
  unfold shape_triangle, scaled_triangle. destruct (nth_error (tm_faces (cs_mesh s)) i) as [f|] eqn:F; cbn [rd bind].
  - split.
    + intros H. destruct (face_points (tm_vertices (cs_mesh s)) f) as [[[p0 q0] r0]| |] eqn:FP; cbn in H; try discriminate. injection H as <- <- <-. apply face_points_ok in FP. exists f, p0, q0, r0. auto 8.
    + intros (f' & p0 & q0 & r0 & E & P & -> & -> & ->). injection E as <-. apply face_points_ok in P. rewrite P. reflexivity.
  - split; [discriminate|]. intros (f' & p0 & q0 & r0 & E & _). discriminate.
Qed.
Lemma scaled_unique m k i p q r p' q' r' : scaled_triangle m k i p q r -> scaled_triangle m k i p' q' r' -> p = p' /\ q = q' /\ r = r'.
Proof.
  intros (f & a & b & c & F & P & -> & -> & ->) (f' & a' & b' & c' & F' & P' & -> & -> & ->). rewrite F in F'. injection F' as <-.
  destruct (points_unique _ _ _ _ _ _ _ _ P P') as (-> & -> & ->). auto.
Qed.
Section Shape.
Variables (m : tmesh) (ids : list Z) (boxes : list box3).
Hypothesis BM : built m.
Hypothesis HO : holds (tm_tree m) ids boxes.
Hypothesis HF : Forall2 (fun f b => exists p q r, points_of (tm_vertices m) f p q r /\ b = triangle_box p q r) (tm_faces m) boxes.
Lemma node_of i b : nth_error boxes i = Some b -> exists f p q r id, nth_error (tm_faces m) i = Some f /\ points_of (tm_vertices m) f p q r /\ b = triangle_box p q r /\ nth_error ids i = Some id.
Proof.
  intros B. pose proof (some_lt _ _ _ B) as LT. destruct (nth_some (tm_faces m) i) as [f F]; [rewrite (Forall2_same _ _ _ HF); exact LT|].
  destruct (nth_some ids i) as [id ID]; [rewrite (h_len _ _ _ HO); exact LT|].
  assert (K : exists p q r, points_of (tm_vertices m) f p q r /\ b = triangle_box p q r).
  { exact (Forall2_nth _ _ _ HF _ _ _ F B). }
  destruct K as (p & q & r & P & E). exists f, p, q, r, id. auto.
Qed.
Lemma box_at i f p q r : nth_error (tm_faces m) i = Some f -> points_of (tm_vertices m) f p q r -> exists id, nth_error ids i = Some id /\ nth_error boxes i = Some (triangle_box p q r).
Proof.
  intros F P. pose proof (some_lt _ _ _ F) as LT. destruct (nth_some boxes i) as [b B]; [rewrite <- (Forall2_same _ _ _ HF); exact LT|].
  destruct (node_of i b B) as (f' & p' & q' & r' & id & F' & P' & -> & ID). rewrite F in F'. injection F' as <-. destruct (points_unique _ _ _ _ _ _ _ _ P P') as (-> & -> & ->). eauto.
Qed.
Lemma normals_at k f : In f (tm_faces m) -> exists n1 n2 n3, face_points (map (scale_normal k) (tm_normals m)) f = Ok (n1, n2, n3) /\
  exists m1 m2 m3, points_of (tm_normals m) f m1 m2 m3 /\ n1 = scale_normal k m1 /\ n2 = scale_normal k m2 /\ n3 = scale_normal k m3.
Proof.
  intros F. destruct (bt_points _ BM f F) as (p & q & r & P). destruct (points_exist (tm_normals m) f) as (m1 & m2 & m3 & M).
  { intros j J. rewrite (bt_normals _ BM). exact (points_corner _ _ _ _ _ P j J). }
  exists (scale_normal k m1), (scale_normal k m2), (scale_normal k m3). split; [|exists m1, m2, m3; auto]. apply face_points_ok.
  destruct f as [[a b] c]. destruct M as (A & B & C). cbn. rewrite !nth_error_map, A, B, C. auto.
Qed.

(** Reading a shape at the nodes found. *)
Definition reads (s : cshape) (id : Z) (i : nat) (p q r n1 n2 n3 : vec3) : Prop :=
  get_data id (tm_tree (cs_mesh s)) = Ok (Z.of_nat i) /\ shape_triangle s i = Ok (p, q, r) /\ shape_normals s i = Ok (n1, n2, n3).
Lemma reads_ok s k id i b : cs_mesh s = m -> cs_scale s = k -> cs_normals s = map (scale_normal k) (tm_normals m) -> nth_error ids i = Some id -> nth_error boxes i = Some b ->
  exists f p q r n1 n2 n3, reads s id i (vmul p k) (vmul q k) (vmul r k) n1 n2 n3 /\ nth_error (tm_faces m) i = Some f /\ points_of (tm_vertices m) f p q r /\ b = triangle_box p q r /\
    exists m1 m2 m3, points_of (tm_normals m) f m1 m2 m3 /\ n1 = scale_normal k m1 /\ n2 = scale_normal k m2 /\ n3 = scale_normal k m3.
Proof.
  intros EM EK EN ID B. destruct (node_of i b B) as (f & p & q & r & id' & F & P & -> & ID'). destruct (normals_at k f) as (n1 & n2 & n3 & N & M); [eapply nth_error_In; eauto|].
  exists f, p, q, r, n1, n2, n3. split; [|auto]. split; [|split].
  - rewrite EM. apply (holds_data _ _ _ HO); exact ID.
  - apply shape_triangle_iff. rewrite EM, EK. exists f, p, q, r. auto.
  - unfold shape_normals. rewrite EM, F. cbn [rd bind]. rewrite EN. exact N.
Qed.
End Shape.

(** ** Box queries *)
Lemma report_ok s : forall ids, (forall id, In id ids -> exists i p q r n1 n2 n3, reads s id i p q r n1 n2 n3) ->
  exists l, report_nodes s ids = Ok l /\ length l = length ids /\
    (forall x, In x l <-> exists id i p q r n1 n2 n3, In id ids /\ reads s id i p q r n1 n2 n3 /\ x = Reported (p, q, r) (n1, n2, n3) (triangle_id s i)) /\
    (NoDup ids -> (forall id id' i p q r n1 n2 n3 p' q' r' n1' n2' n3', In id ids -> In id' ids -> reads s id i p q r n1 n2 n3 -> reads s id' i p' q' r' n1' n2' n3' -> id = id') -> NoDup (map rp_id l)).
Proof.
  induction ids as [|id ids IH]; intros H; cbn [report_nodes].
  - exists []. split; [reflexivity|]. split; [reflexivity|]. split; [|intros; constructor]. intros x. split; [intros []|]. intros (id & i & p & q & r & n1 & n2 & n3 & [] & _).
  - destruct (H id (or_introl eq_refl)) as (i & p & q & r & n1 & n2 & n3 & R). pose proof R as (RD & RT & RN). rewrite RD. cbn [bind]. rewrite Nat2Z.id, RT. cbn [bind]. rewrite RN. cbn [bind].
    destruct (IH (fun x X => H x (or_intror X))) as (l & E & LE & IN & ND). rewrite E. cbn [bind]. eexists. split; [reflexivity|]. split; [cbn; congruence|]. split.
    + intros x. cbn [In]. rewrite IN. split.
      * intros [<-|(id' & i' & p' & q' & r' & a & b & c & I & R' & ->)]; [exists id, i, p, q, r, n1, n2, n3; auto|exists id', i', p', q', r', a, b, c; auto].
      * intros (id' & i' & p' & q' & r' & a & b & c & [<-|I] & R' & ->); [|right; exists id', i', p', q', r', a, b, c; auto]. left. destruct R' as (RD' & RT' & RN').
        rewrite RD in RD'. injection RD' as EI. apply Nat2Z.inj in EI. subst i'. rewrite RT in RT'. rewrite RN in RN'. injection RT' as -> -> ->. injection RN' as -> -> ->. reflexivity.
    + intros N U. inversion N as [|x' l' NI N' EX]; subst. cbn [map rp_id]. constructor.
      * intros I. apply in_map_iff in I. destruct I as (x & EX & I). apply IN in I. destruct I as (id' & i' & p' & q' & r' & a & b & c & I & R' & ->). cbn [rp_id] in EX.
        unfold triangle_id in EX. assert (i' = i) by lia. subst i'. apply NI. rewrite (U id id' i p q r n1 n2 n3 p' q' r' a b c); auto; [now left|now right].
      * apply ND; [exact N'|]. intros id1 id2 j p1 q1 r1 a1 b1 c1 p2 q2 r2 a2 b2 c2 I1 I2. apply U; now right.
Qed.
Lemma scale_box_ok k p q r : positive_scale k -> tight_bounds (triangle_set (vmul p k) (vmul q k) (vmul r k)) (apply_scale k (triangle_box p q r)).
Proof.
  intros (KX & KY & KZ). destruct (triangle_box_tight p q r) as (B0 & BX & BX' & BY & BY' & BZ & BZ'). destruct (triangle_box p q r) as [[lx ly lz] [hx hy hz]].
  unfold apply_scale, vmul. cbn [bmin bmax vx vy vz] in *.
  assert (SC : forall x, triangle_set p q r x -> triangle_set (V3 (vx p * vx k) (vy p * vy k) (vz p * vz k)) (V3 (vx q * vx k) (vy q * vy k) (vz q * vz k)) (V3 (vx r * vx k) (vy r * vy k) (vz r * vz k)) (V3 (vx x * vx k) (vy x * vy k) (vz x * vz k))).
  { intros x (u & v & w & U & V & W & S & ->). exists u, v, w. repeat split; auto. cbn. f_equal; ring. }
  split; [|repeat split].
  - intros x (u & v & w & U & V & W & S & ->). cbn [vx vy vz]. 
    assert (T : triangle_set p q r (V3 (u * vx p + v * vx q + w * vx r) (u * vy p + v * vy q + w * vy r) (u * vz p + v * vz q + w * vz r))) by (exists u, v, w; auto).
    apply B0 in T. unfold in_bounds in *. cbn [bmin bmax vx vy vz] in *. destruct T as ((X1 & X2) & (Y1 & Y2) & (Z1 & Z2)).
    assert (M : forall a b c, 0 < c -> a <= b -> a * c <= b * c) by (intros; nra).
    pose proof (M _ _ _ KX X1). pose proof (M _ _ _ KX X2). pose proof (M _ _ _ KY Y1). pose proof (M _ _ _ KY Y2). pose proof (M _ _ _ KZ Z1). pose proof (M _ _ _ KZ Z2). lra.
  - destruct BX as (x & T & <-). eexists. split; [apply SC; exact T|reflexivity].
  - destruct BX' as (x & T & <-). eexists. split; [apply SC; exact T|reflexivity].
  - destruct BY as (x & T & <-). eexists. split; [apply SC; exact T|reflexivity].
  - destruct BY' as (x & T & <-). eexists. split; [apply SC; exact T|reflexivity].
  - destruct BZ as (x & T & <-). eexists. split; [apply SC; exact T|reflexivity].
  - destruct BZ' as (x & T & <-). eexists. split; [apply SC; exact T|reflexivity].
Qed.
Lemma boxes_meet_iff a b : box_ok a -> box_ok b -> (boxes_meet a b <->
  (vx (bmin a) <= vx (bmax b) /\ vx (bmin b) <= vx (bmax a)) /\ (vy (bmin a) <= vy (bmax b) /\ vy (bmin b) <= vy (bmax a)) /\ (vz (bmin a) <= vz (bmax b) /\ vz (bmin b) <= vz (bmax a))).
Proof.
  unfold box_ok, boxes_meet, in_bounds. intros A B. split.
  - intros (x & X). lra.
  - intros X. exists (V3 (Rmax (vx (bmin a)) (vx (bmin b))) (Rmax (vy (bmin a)) (vy (bmin b))) (Rmax (vz (bmin a)) (vz (bmin b)))). cbn [vx vy vz]. unfold Rmax.
    destruct (Rle_dec (vx (bmin a)) (vx (bmin b))), (Rle_dec (vy (bmin a)) (vy (bmin b))), (Rle_dec (vz (bmin a)) (vz (bmin b))); lra.
Qed.
Lemma meets_scaled k b t : positive_scale k -> box_ok b -> box_ok t -> (meets_box (apply_scale (inverse k) b) t <-> boxes_meet (apply_scale k t) b).
Proof.
  intros (KX & KY & KZ) B T. assert (M : forall a c k, 0 < k -> (a * (1 / k) <= c <-> a <= c * k)).
  { intros a c h H. split; intros L; [apply (Rmult_le_compat_r h) in L; [|lra]|apply (Rmult_le_compat_r (1 / h)) in L]; field_simplify in L; try lra.
    apply Rlt_le. now apply Rdiv_lt_0_compat; lra. }
  assert (M' : forall a c k, 0 < k -> (c <= a * (1 / k) <-> c * k <= a)).
  { intros a c h H. split; intros L; [apply (Rmult_le_compat_r h) in L; [|lra]|apply (Rmult_le_compat_r (1 / h)) in L]; field_simplify in L; try lra.
    apply Rlt_le. now apply Rdiv_lt_0_compat; lra. }
  assert (TS : box_ok (apply_scale k t)) by (unfold box_ok, apply_scale, vmul in *; cbn [bmin bmax vx vy vz] in *; nra).
  rewrite (boxes_meet_iff _ _ TS B). unfold meets_box, overlap, apply_scale, inverse, tree_box, tree_vec, vmul. cbn [bmin bmax vx vy vz b_min b_max TreeModel.vx TreeModel.vy TreeModel.vz d_le real_ops].
  rewrite !rle_iff, !M, !M' by assumption. tauto.
Qed.
Lemma scale_normal_ok k n : nonzero_scale k -> normal_image k n (scale_normal k n).
Proof.
  intros (KX & KY & KZ) NZ. unfold scale_normal, vmul, inverse. cbn [vx vy vz].
  replace (V3 (1 / vx k * vx n) (1 / vy k * vy n) (1 / vz k * vz n)) with (V3 (vx n / vx k) (vy n / vy k) (vz n / vz k)) by (f_equal; field; assumption).
  set (d := V3 (vx n / vx k) (vy n / vy k) (vz n / vz k)).
  assert (D : d <> vzero).
  { intros E. apply NZ. unfold d in E. injection E as E1 E2 E3. destruct n as [a b c]. cbn [vx vy vz] in *. unfold vzero. f_equal; [replace a with (a / vx k * vx k) by (field; assumption); rewrite E1; ring|
      replace b with (b / vy k * vy k) by (field; assumption); rewrite E2; ring|replace c with (c / vz k * vz k) by (field; assumption); rewrite E3; ring]. }
  clearbody d. clear -D. assert (P : 0 < vlen2 d).
  { destruct d as [a b c]. unfold vlen2, vdot. cbn. destruct (Req_dec a 0) as [->|A]; [|nra]. destruct (Req_dec b 0) as [->|B]; [|nra]. destruct (Req_dec c 0) as [->|C]; [|nra]. exfalso. now apply D. }
  assert (LP : 0 < vlen d) by (unfold vlen; now apply sqrt_lt_R0). assert (SQ : vlen d * vlen d = vlen2 d) by (unfold vlen; apply sqrt_sqrt; lra).
  split.
  - unfold vlen at 1. replace (vlen2 (vdiv d (vlen d))) with 1; [apply sqrt_1|]. unfold vdiv, vlen2, vdot in *. cbn [vx vy vz]. field_simplify; [|lra].
    replace (vlen d ^ 2) with (vlen d * vlen d) by ring. rewrite SQ. field. rewrite <- SQ. nra.
  - exists (vlen d). split; [exact LP|]. destruct d as [a b c]. unfold vdiv, vscale. cbn [vx vy vz]. f_equal; field; lra.
Qed.
Lemma query_shape m ids boxes k d b : built m -> holds (tm_tree m) ids boxes ->
  Forall2 (fun f b => exists p q r, points_of (tm_vertices m) f p q r /\ b = triangle_box p q r) (tm_faces m) boxes -> positive_scale k -> box_ok b ->
  exists l, overlapping_triangles (set_side d (new_shape m k)) b = Ok l /\ NoDup (map rp_id l) /\
    (forall x, In x l -> exists i p q r n1 n2 n3 t, x = Reported (p, q, r) (n1, n2, n3) (length (tm_faces m) + i) /\ scaled_triangle m k i p q r /\ scaled_normals m k i n1 n2 n3 /\ box_of p q r t /\ boxes_meet t b) /\
    (forall i p q r t, scaled_triangle m k i p q r -> box_of p q r t -> boxes_meet t b -> exists x, In x l /\ rp_id x = (length (tm_faces m) + i)%nat).
Proof.
  intros BM HO HF KP BO. set (s := set_side d (new_shape m k)). unfold overlapping_triangles. 
  destruct (holds_query _ _ _ (apply_scale (inverse k) b) HO) as (out & Q & ND & IN). change (cs_scale s) with k. change (cs_mesh s) with m. rewrite Q. cbn [bind].
  assert (KN : nonzero_scale k) by (destruct KP as (? & ? & ?); repeat split; lra).
  assert (RE : forall id, In id out -> exists i bi, nth_error ids i = Some id /\ nth_error boxes i = Some bi /\ meets_box (apply_scale (inverse k) b) bi) by (intros id I; now apply IN).
  destruct (report_ok s out) as (l & E & LE & INL & NDL).
  { intros id I. destruct (RE id I) as (i & bi & ID & B & _). destruct (reads_ok m ids boxes BM HO HF s k id i bi) as (f & p & q & r & n1 & n2 & n3 & R & _); auto. exists i, (vmul p k), (vmul q k), (vmul r k), n1, n2, n3. exact R. }
  exists l. split; [exact E|]. split; [|split].
  - apply NDL; [exact ND|]. intros id id' i p q r n1 n2 n3 p' q' r' n1' n2' n3' I I' (R & _) (R' & _). change (cs_mesh s) with m in *.
    destruct (RE id I) as (j & bj & ID & _). destruct (RE id' I') as (j' & bj' & ID' & _). rewrite (holds_data _ _ _ HO _ _ ID) in R. rewrite (holds_data _ _ _ HO _ _ ID') in R'.
    injection R as R. injection R' as R'. apply Nat2Z.inj in R, R'. subst j j'. congruence.
  - intros x X. apply INL in X. destruct X as (id & i & p & q & r & n1 & n2 & n3 & I & R & ->). destruct (RE id I) as (j & bj & ID & B & ME).
    destruct (reads_ok m ids boxes BM HO HF s k id j bj) as (f & p0 & q0 & r0 & a1 & a2 & a3 & R' & F & P & -> & m1 & m2 & m3 & M & -> & -> & ->); auto.
    destruct R as (RD & RT & RN). destruct R' as (RD' & RT' & RN'). rewrite RD in RD'. injection RD' as EI. apply Nat2Z.inj in EI. subst j. rewrite RT in RT'. injection RT' as -> -> ->. rewrite RN in RN'. injection RN' as -> -> ->.
    exists i, (vmul p0 k), (vmul q0 k), (vmul r0 k), (scale_normal k m1), (scale_normal k m2), (scale_normal k m3), (apply_scale k (triangle_box p0 q0 r0)).
    split; [reflexivity|]. split; [exists f, p0, q0, r0; auto|]. split; [exists f, m1, m2, m3; split; [exact F|]; split; [exact M|]; auto using scale_normal_ok|].
    split; [apply scale_box_ok; exact KP|]. apply meets_scaled; auto using triangle_box_ok.
  - intros i p q r t (f & p0 & q0 & r0 & F & P & -> & -> & ->) T ME. destruct (box_at m ids boxes HO HF i f p0 q0 r0 F P) as (id & ID & B).
    assert (ET : t = apply_scale k (triangle_box p0 q0 r0)) by (eapply tight_unique; [exact T|apply scale_box_ok; exact KP]). subst t.
    apply meets_scaled in ME; auto using triangle_box_ok. assert (I : In id out) by (apply IN; eauto).
    destruct (reads_ok m ids boxes BM HO HF s k id i (triangle_box p0 q0 r0)) as (f' & p1 & q1 & r1 & n1 & n2 & n3 & R & _); auto.
    exists (Reported (vmul p1 k, vmul q1 k, vmul r1 k) (n1, n2, n3) (triangle_id s i)). split; [|reflexivity]. apply INL. exists id, i, (vmul p1 k), (vmul q1 k), (vmul r1 k), n1, n2, n3. auto.
Qed.

(** ** The bounds *)
Lemma inside_iff b c : inside_box b c <-> (vx (bmin c) <= vx (bmin b) /\ vx (bmax b) <= vx (bmax c)) /\ (vy (bmin c) <= vy (bmin b) /\ vy (bmax b) <= vy (bmax c)) /\ (vz (bmin c) <= vz (bmin b) /\ vz (bmax b) <= vz (bmax c)).
Proof. unfold inside_box, within. cbn. rewrite !rle_iff. tauto. Qed.
(** The least value of a list is in it. *)
Lemma least_in (g : box3 -> R) : forall l lo, l <> [] -> (forall b, In b l -> lo <= g b) -> (forall lo', (forall b, In b l -> lo' <= g b) -> lo' <= lo) -> exists b, In b l /\ g b = lo.
Proof.
  intros l lo NE LO GR. assert (M : exists b, In b l /\ forall c, In c l -> g b <= g c).
  { clear LO GR. induction l as [|b l IH]; [congruence|]. destruct l as [|c l]; [exists b; split; [now left|]; intros c [<-|[]]; lra|].
    destruct IH as (d & D & K); [discriminate|]. destruct (Rle_dec (g b) (g d)) as [L|L].
    - exists b. split; [now left|]. intros x [<-|X]; [lra|]. specialize (K x X). lra.
    - exists d. split; [now right|]. intros x [<-|X]; [lra|auto]. }
  destruct M as (b & B & K). exists b. split; [exact B|]. specialize (LO b B). specialize (GR (g b) K). lra.
Qed.
Lemma bounds_shape m ids boxes k d : built m -> holds (tm_tree m) ids boxes ->
  Forall2 (fun f b => exists p q r, points_of (tm_vertices m) f p q r /\ b = triangle_box p q r) (tm_faces m) boxes -> positive_scale k -> tm_faces m <> [] ->
  exists b, concave_bounds (set_side d (new_shape m k)) = Ok b /\ tight_bounds (surface m k) b.
Proof.
  intros BM HO HF KP NE. assert (NB : boxes <> []) by (intros ->; inversion HF; congruence).
  destruct (holds_root _ _ _ HO NB) as (rb & G & UP & LE). unfold concave_bounds, mesh_bounds. change (cs_mesh (set_side d (new_shape m k))) with m. rewrite G. cbn [bind].
  assert (RB : real_box (tree_box rb) = rb) by (destruct rb as [[x y z] [x' y' z']]; reflexivity). rewrite RB. eexists. split; [reflexivity|]. change (cs_scale (set_side d (new_shape m k))) with k.
  assert (UPc : forall b, In b boxes -> (vx (bmin rb) <= vx (bmin b) /\ vx (bmax b) <= vx (bmax rb)) /\ (vy (bmin rb) <= vy (bmin b) /\ vy (bmax b) <= vy (bmax rb)) /\ (vz (bmin rb) <= vz (bmin b) /\ vz (bmax b) <= vz (bmax rb))) by (intros b B; apply inside_iff; auto).
  assert (TB : forall b, In b boxes -> exists i p q r, scaled_triangle m k i (vmul p k) (vmul q k) (vmul r k) /\ b = triangle_box p q r).
  { intros b B. apply In_nth_error in B. destruct B as [i B]. destruct (node_of m ids boxes HO HF i b B) as (f & p & q & r & id & F & P & -> & _). exists i, p, q, r. split; [exists f, p, q, r; auto|reflexivity]. }
  destruct KP as (KX & KY & KZ). assert (KP : positive_scale k) by (repeat split; assumption).
  assert (SIDE : forall (g : box3 -> R), (exists b, In b boxes /\ g b = g rb) -> exists i p q r, scaled_triangle m k i (vmul p k) (vmul q k) (vmul r k) /\ g (triangle_box p q r) = g rb).
  { intros g (b & B & E). destruct (TB b B) as (i & p & q & r & S & ->). eauto 8. }
  split; [|repeat split].
  - intros x (i & p & q & r & (f & p0 & q0 & r0 & F & P & -> & -> & ->) & T). destruct (box_at m ids boxes HO HF i f p0 q0 r0 F P) as (id & ID & B). apply nth_error_In in B. specialize (UPc _ B).
    destruct (scale_box_ok k p0 q0 r0 KP) as (B0 & _). specialize (B0 _ T). unfold in_bounds, apply_scale, vmul in *. cbn [bmin bmax vx vy vz] in *. nra.
  - destruct (SIDE (fun b => vx (bmin b))) as (i & p & q & r & S & E).
    { apply least_in; [exact NB|intros b B; apply UPc; exact B|]. intros lo' H. destruct (LE (Box3 (V3 lo' (vy (bmin rb)) (vz (bmin rb))) (bmax rb))) as ((L & _) & _); [|cbn in L; now apply rle_iff in L].
      intros b B. apply inside_iff. specialize (UPc b B). specialize (H b B). cbn [bmin bmax vx vy vz]. lra. }
    destruct (scale_box_ok k p q r KP) as (_ & (x & T & X) & _). exists x. split; [exists i, (vmul p k), (vmul q k), (vmul r k); auto|]. rewrite X. unfold apply_scale, vmul. cbn [bmin bmax vx vy vz]. now rewrite E.
  - destruct (SIDE (fun b => vx (bmax b))) as (i & p & q & r & S & E).
    { destruct (least_in (fun b => - vx (bmax b)) boxes (- vx (bmax rb)) NB) as (b & B & EB); [intros b B; specialize (UPc b B); lra| |exists b; split; [exact B|lra]].
      intros lo' H. destruct (LE (Box3 (bmin rb) (V3 (- lo') (vy (bmax rb)) (vz (bmax rb))))) as ((_ & L) & _); [|cbn in L; apply rle_iff in L; lra].
      intros b B. apply inside_iff. specialize (UPc b B). specialize (H b B). cbn [bmin bmax vx vy vz]. lra. }
    destruct (scale_box_ok k p q r KP) as (_ & _ & (x & T & X) & _). exists x. split; [exists i, (vmul p k), (vmul q k), (vmul r k); auto|]. rewrite X. unfold apply_scale, vmul. cbn [bmin bmax vx vy vz]. now rewrite E.
  - destruct (SIDE (fun b => vy (bmin b))) as (i & p & q & r & S & E).
    { apply least_in; [exact NB|intros b B; apply UPc; exact B|]. intros lo' H. destruct (LE (Box3 (V3 (vx (bmin rb)) lo' (vz (bmin rb))) (bmax rb))) as (_ & (L & _) & _); [|cbn in L; now apply rle_iff in L].
      intros b B. apply inside_iff. specialize (UPc b B). specialize (H b B). cbn [bmin bmax vx vy vz]. lra. }
    destruct (scale_box_ok k p q r KP) as (_ & _ & _ & (x & T & X) & _). exists x. split; [exists i, (vmul p k), (vmul q k), (vmul r k); auto|]. rewrite X. unfold apply_scale, vmul. cbn [bmin bmax vx vy vz]. now rewrite E.
  - destruct (SIDE (fun b => vy (bmax b))) as (i & p & q & r & S & E).
    { destruct (least_in (fun b => - vy (bmax b)) boxes (- vy (bmax rb)) NB) as (b & B & EB); [intros b B; specialize (UPc b B); lra| |exists b; split; [exact B|lra]].
      intros lo' H. destruct (LE (Box3 (bmin rb) (V3 (vx (bmax rb)) (- lo') (vz (bmax rb))))) as (_ & (_ & L) & _); [|cbn in L; apply rle_iff in L; lra].
      intros b B. apply inside_iff. specialize (UPc b B). specialize (H b B). cbn [bmin bmax vx vy vz]. lra. }
    destruct (scale_box_ok k p q r KP) as (_ & _ & _ & _ & (x & T & X) & _). exists x. split; [exists i, (vmul p k), (vmul q k), (vmul r k); auto|]. rewrite X. unfold apply_scale, vmul. cbn [bmin bmax vx vy vz]. now rewrite E.
  - destruct (SIDE (fun b => vz (bmin b))) as (i & p & q & r & S & E).
    { apply least_in; [exact NB|intros b B; apply UPc; exact B|]. intros lo' H. destruct (LE (Box3 (V3 (vx (bmin rb)) (vy (bmin rb)) lo') (bmax rb))) as (_ & _ & (L & _)); [|cbn in L; now apply rle_iff in L].
      intros b B. apply inside_iff. specialize (UPc b B). specialize (H b B). cbn [bmin bmax vx vy vz]. lra. }
    destruct (scale_box_ok k p q r KP) as (_ & _ & _ & _ & _ & (x & T & X) & _). exists x. split; [exists i, (vmul p k), (vmul q k), (vmul r k); auto|]. rewrite X. unfold apply_scale, vmul. cbn [bmin bmax vx vy vz]. now rewrite E.
  - destruct (SIDE (fun b => vz (bmax b))) as (i & p & q & r & S & E).
    { destruct (least_in (fun b => - vz (bmax b)) boxes (- vz (bmax rb)) NB) as (b & B & EB); [intros b B; specialize (UPc b B); lra| |exists b; split; [exact B|lra]].
      intros lo' H. destruct (LE (Box3 (bmin rb) (V3 (vx (bmax rb)) (vy (bmax rb)) (- lo')))) as (_ & _ & (_ & L)); [|cbn in L; apply rle_iff in L; lra].
      intros b B. apply inside_iff. specialize (UPc b B). specialize (H b B). cbn [bmin bmax vx vy vz]. lra. }
    destruct (scale_box_ok k p q r KP) as (_ & _ & _ & _ & _ & _ & (x & T & X)). exists x. split; [exists i, (vmul p k), (vmul q k), (vmul r k); auto|]. rewrite X. unfold apply_scale, vmul. cbn [bmin bmax vx vy vz]. now rewrite E.
Qed.
