(** Proofs about convex meshes. *)
From Coq Require Import Permutation.
From Verif Require Import Base VecModel VecProofs HalfEdgeModel HalfEdgeSpec HalfEdgeProofs MeshModel MeshSpec.
Open Scope R_scope.

Lemma vext : forall a b, vx a = vx b -> vy a = vy b -> vz a = vz b -> a = b.
Proof. intros [a b c] [d e f]. cbn. congruence. Qed.
Ltac vr := apply vext; unfold vadd, vsub, vneg, vscale, vcross, vzero, vdot; cbn [vx vy vz]; try field; ring.
Lemma vsum_app : forall l r, vsum (l ++ r) = vadd (vsum l) (vsum r).
Proof. induction l as [|x l IH]; intros r; cbn [vsum app]; [|rewrite IH]; vr. Qed.
Lemma vsum_perm : forall l r, Permutation l r -> vsum l = vsum r.
Proof. intros l r P. induction P; cbn [vsum]; [reflexivity|rewrite IHP; reflexivity|vr|congruence]. Qed.
Lemma rsum_app : forall l r, rsum (l ++ r) = rsum l + rsum r.
Proof. induction l as [|x l IH]; intros r; cbn [rsum app]; [|rewrite IH]; ring. Qed.
Lemma vsum_opp : forall A (f : A -> vec3) l, vsum (map (fun x => vneg (f x)) l) = vneg (vsum (map f l)).
Proof. intros A f l. induction l as [|x l IH]; cbn [vsum map]; [|rewrite IH]; vr. Qed.
Lemma vdot_vsum : forall p l, vdot p (vsum l) = rsum (map (vdot p) l).
Proof.
  intros p l. induction l as [|x l IH]; cbn [vsum map rsum]; [unfold vdot; cbn; ring|].
  rewrite <- IH. unfold vdot, vadd. cbn. ring.
Qed.

(** ** Newell's sum is twice the area vector *)
Fixpoint path (a : nat) (l : list nat) : list vpair := match l with [] => [] | b :: r => (a, b) :: path b r end.
Lemma last_cons : forall (l : list nat) a d, last (a :: l) d = last l a.
Proof. induction l as [|b l IH]; intros a d; [reflexivity|]. change (last (a :: b :: l) d) with (last (b :: l) d). rewrite IH. cbn. destruct l; reflexivity || apply IH. Qed.
Lemma around_path : forall a r, around (a :: r) = path a r ++ [(last r a, a)].
Proof.
  intros a r. unfold around.
  assert (H : forall l x z, combine (x :: l) (l ++ [z]) = path x l ++ [(last l x, z)]).
  { induction l as [|b l IH]; intros x z; [reflexivity|]. change (combine (x :: b :: l) ((b :: l) ++ [z])) with ((x, b) :: combine (b :: l) (l ++ [z])).
    rewrite IH. cbn [path app]. rewrite last_cons. reflexivity. }
  apply H.
Qed.
Definition cr (vs : list vec3) (e : vpair) : vec3 := vcross (at_ vs (fst e)) (at_ vs (snd e)).
Lemma area_cr : forall vs face, area_vector vs face = vscale (1 / 2) (vsum (map (cr vs) (around face))).
Proof. reflexivity. Qed.
Definition gg (v : vec3) : vec3 := V3 (vy v * vz v) (vz v * vx v) (vx v * vy v).
Lemma vertex_ok : forall vs i, (i < length vs)%nat -> vertex vs i = Ok (at_ vs i).
Proof. intros vs i H. unfold vertex, at_. rewrite (nth_error_nth' _ vzero H). reflexivity. Qed.
Lemma newell_loop_ok : forall vs face prev n, (forall i, In i (prev :: face) -> (i < length vs)%nat) ->
  newell_loop vs prev face n = Ok (vadd n (vadd (vsum (map (cr vs) (path prev face))) (vsub (gg (at_ vs prev)) (gg (at_ vs (last face prev)))))).
Proof.
  intros vs face. induction face as [|j r IH]; intros prev n H.
  - cbn [newell_loop path map vsum last]. f_equal. vr.
  - cbn [newell_loop]. rewrite !vertex_ok by (apply H; cbn; tauto). cbn [bind].
    rewrite IH by (intros i Hi; apply H; right; exact Hi). f_equal. cbn [path map vsum]. rewrite last_cons.
    unfold cr at 2. cbn [fst snd]. unfold newell, vcross, gg. vr.
Qed.
Lemma last_in : forall (l : list nat) a, In (last l a) (a :: l).
Proof.
  induction l as [|b l IH]; intros a; [left; reflexivity|]. rewrite last_cons.
  right. apply (IH b).
Qed.
Lemma face_normal_ok : forall vs face, face <> [] -> (forall i, In i face -> (i < length vs)%nat) ->
  face_normal vs face = Ok (vscale 2 (area_vector vs face)).
Proof.
  intros vs [|a r] NE H; [congruence|]. unfold face_normal. rewrite last_cons.
  rewrite newell_loop_ok.
  - f_equal. rewrite last_cons. rewrite area_cr. rewrite around_path, map_app, vsum_app. cbn [path map vsum].
    replace (last r (last r a)) with (last r a).
    2:{ destruct r as [|b r]; [reflexivity|]. rewrite !last_cons. reflexivity. }
    vr.
  - intros i [<-|Hi]; [|apply H; exact Hi]. apply H. apply last_in.
Qed.

(** ** The area vectors of a closed mesh add up to zero *)
Lemma closed_perm : forall faces, closed faces -> Permutation (map rev_edge (mesh_edges faces)) (mesh_edges faces).
Proof.
  intros faces [ND CL]. apply NoDup_Permutation.
  - apply nodup_map_in; [|exact ND]. intros x y _ _ E. apply (f_equal rev_edge) in E. rewrite !rev_rev in E. exact E.
  - exact ND.
  - intros k. rewrite in_map_iff. split.
    + intros [k' [<- Hk]]. exact (proj2 (CL _ Hk)).
    + intros Hk. exists (rev_edge k). split; [apply rev_rev|exact (proj2 (CL _ Hk))].
Qed.
Lemma closed_area : forall vs faces, closed faces -> vsum (map (cr vs) (mesh_edges faces)) = vzero.
Proof.
  intros vs faces C. pose proof (vsum_perm _ _ (Permutation_map (cr vs) (closed_perm _ C))) as P.
  rewrite map_map in P. rewrite (map_ext (fun x => cr vs (rev_edge x)) (fun x => vneg (cr vs x))) in P.
  2:{ intros [a b]. unfold cr, rev_edge, vcross. cbn. vr. }
  rewrite vsum_opp in P. remember (vsum (map (cr vs) (mesh_edges faces))) as S eqn:E. clear E.
  destruct S as [x y z]. unfold vneg in P. cbn in P. injection P as Px Py Pz. unfold vzero. f_equal; lra.
Qed.

(** ** Fans *)
Definition tri (p : vec3) (vs : list vec3) (t : nat * nat * nat) : R := let '(a, b, c) := t in det p (at_ vs a) (at_ vs b) (at_ vs c).
Lemma fan_zero : forall vs a r b, rsum (map (tri vzero vs) (fan a (b :: r))) = vdot (at_ vs a) (vsum (map (cr vs) (path b r))).
Proof.
  intros vs a r. induction r as [|c r IH]; intros b.
  - cbn. unfold vdot. cbn. ring.
  - change (fan a (b :: c :: r)) with ((a, b, c) :: fan a (c :: r)). cbn [map rsum path vsum]. rewrite IH.
    unfold tri, det, cr. cbn [fst snd]. unfold vdot, vcross, vsub, vadd, vzero. cbn. ring.
Qed.
Lemma triangles_zero : forall vs face, face <> [] ->
  rsum (map (tri vzero vs) (triangles face)) = vdot (at_ vs (hd O face)) (vscale 2 (area_vector vs face)).
Proof.
  intros vs [|a r] NE; [congruence|]. cbn [triangles hd]. rewrite area_cr. rewrite around_path, map_app, vsum_app.
  destruct r as [|b r].
  - cbn. unfold cr, vdot, vcross. cbn. ring.
  - rewrite fan_zero, last_cons. cbn [path map vsum]. set (S := vsum (map (cr vs) (path b r))). unfold cr. cbn [fst snd].
    unfold vdot, vscale, vadd, vcross. cbn [vx vy vz vzero]. field.
Qed.
Lemma det_shift : forall p a b c, det p a b c = det vzero a b c - vdot p (vadd (vcross a b) (vadd (vcross b c) (vcross c a))).
Proof. intros. unfold det, vdot, vcross, vsub, vadd, vzero. cbn. ring. Qed.
Lemma fan_shift : forall p vs a r b, rsum (map (tri p vs) (fan a (b :: r))) =
  rsum (map (tri vzero vs) (fan a (b :: r))) - vdot p (vadd (cr vs (a, b)) (vadd (vsum (map (cr vs) (path b r))) (cr vs (last r b, a)))).
Proof.
  intros p vs a r. induction r as [|c r IH]; intros b.
  - cbn. unfold cr, vdot, vcross. cbn. ring.
  - change (fan a (b :: c :: r)) with ((a, b, c) :: fan a (c :: r)). cbn [map rsum path vsum]. rewrite IH. rewrite last_cons.
    unfold tri at 1 3. rewrite det_shift. unfold cr. cbn [fst snd]. unfold vdot, vcross, vadd. cbn. ring.
Qed.
Lemma triangles_shift : forall p vs face,
  rsum (map (tri p vs) (triangles face)) = rsum (map (tri vzero vs) (triangles face)) - vdot p (vsum (map (cr vs) (around face))).
Proof.
  intros p vs [|a r]; [cbn; unfold vdot; cbn; ring|]. rewrite around_path, map_app, vsum_app. cbn [triangles].
  destruct r as [|b r].
  - cbn. unfold cr, vdot, vcross. cbn. ring.
  - rewrite fan_shift. cbn [path map vsum]. rewrite last_cons. unfold vdot, vadd. cbn. ring.
Qed.
Lemma signed_volume_sum : forall p vs faces, signed_volume p vs faces = rsum (map (tri p vs) (flat_map triangles faces)) / 6.
Proof. reflexivity. Qed.
Lemma volume_base : forall p vs faces, closed faces -> signed_volume p vs faces = signed_volume vzero vs faces.
Proof.
  intros p vs faces C. rewrite !signed_volume_sum. f_equal.
  assert (H : forall fs, rsum (map (tri p vs) (flat_map triangles fs)) =
              rsum (map (tri vzero vs) (flat_map triangles fs)) - vdot p (vsum (map (cr vs) (mesh_edges fs)))).
  { induction fs as [|f fs IH]; cbn [flat_map mesh_edges map rsum vsum].
    - unfold vdot; cbn; ring.
    - rewrite !map_app, !rsum_app, vsum_app, IH, triangles_shift. unfold mesh_edges. unfold vdot, vadd. cbn. ring. }
  rewrite H, closed_area by exact C. unfold vdot, vzero. cbn. ring.
Qed.

(** ** The normals and the volume computed *)
Definition nrm (eps : R) (vs : list vec3) (face : list nat) : vec3 :=
  let n := vscale 2 (area_vector vs face) in if rlt eps (vlen n) then vdiv n (vlen n) else n.
Definition big_enough (eps : R) (vs : list vec3) (face : list nat) : bool := rlt eps (vlen (vscale 2 (area_vector vs face))).
Lemma faces_normals_ok : forall eps vs faces f ns valid,
  (forall face, In face faces -> (3 <= length face)%nat /\ forall i, In i face -> (i < length vs)%nat) -> length ns = f ->
  faces_normals eps vs f faces ns valid = Ok (ns ++ map (nrm eps vs) faces, (valid && forallb (big_enough eps vs) faces)%bool).
Proof.
  intros eps vs faces. induction faces as [|face r IH]; intros f ns valid H L.
  - cbn. rewrite app_nil_r, Bool.andb_true_r. reflexivity.
  - cbn [faces_normals map forallb]. destruct (H face) as [H1 H2]; [left; reflexivity|].
    destruct (Nat.leb_spec 3 (length face)) as [_|X]; [|lia].
    rewrite face_normal_ok by (try assumption; intros ->; cbn in H1; lia). cbn [bind].
    rewrite nth_error_app2 by lia. rewrite L, Nat.sub_diag. cbn [nth_error rd bind].
    change (nrm eps vs face) with (if big_enough eps vs face then vdiv (vscale 2 (area_vector vs face)) (vlen (vscale 2 (area_vector vs face))) else vscale 2 (area_vector vs face)).
    change (rlt eps (vlen (vscale 2 (area_vector vs face)))) with (big_enough eps vs face).
    destruct (big_enough eps vs face) eqn:B.
    + assert (WR : forall (l : list vec3) x y, wr (l ++ [x]) (length l) y = Ok (l ++ [y])).
      { induction l as [|z l IHl]; intros x y; cbn; [reflexivity|]. rewrite IHl. reflexivity. }
      rewrite <- L, WR. cbn [bind]. rewrite (IH (S (length ns))).
      * rewrite <- app_assoc. cbn [app andb]. reflexivity.
      * intros g Hg. apply H. right; exact Hg.
      * rewrite app_length. cbn. lia.
    + rewrite (IH (S f)).
      * rewrite <- app_assoc. cbn [app]. rewrite Bool.andb_false_r. reflexivity.
      * intros g Hg. apply H. right; exact Hg.
      * rewrite app_length. cbn. lia.
Qed.
Lemma volume_sum_ok : forall vs faces ns0 ns f sum,
  (forall face, In face faces -> (3 <= length face)%nat /\ forall i, In i face -> (i < length vs)%nat) -> length ns0 = f ->
  length ns = length faces ->
  exists r, volume_sum vs (ns0 ++ ns) f faces sum = Ok r.
Proof.
  intros vs faces. induction faces as [|face r IH]; intros ns0 ns f sum H L LN; [exists sum; reflexivity|].
  cbn [volume_sum]. destruct (H face) as [H1 H2]; [left; reflexivity|].
  rewrite face_normal_ok by (try assumption; intros ->; cbn in H1; lia). cbn [bind].
  pose proof LN as LN'.
  destruct ns as [|n ns]; [cbn in LN'; lia|].
  rewrite nth_error_app2 by lia. rewrite L, Nat.sub_diag. cbn [nth_error rd bind].
  destruct face as [|i face]; [cbn in H1; lia|]. cbn [nth_error rd bind]. rewrite vertex_ok by (apply H2; left; reflexivity). cbn [bind].
  destruct (IH (ns0 ++ [n]) ns (S f) (sum + vdot (at_ vs i) n * (vlen (vscale 2 (area_vector vs (i :: face))) * (1 / 2)))) as [x X].
  - intros g Hg. apply H. right; exact Hg.
  - rewrite app_length. cbn. lia.
  - cbn in LN'. lia.
  - rewrite <- app_assoc in X. cbn [app] in X. exists x. exact X.
Qed.
Lemma volume_sum_value : forall eps vs faces ns0 f sum, 0 <= eps ->
  (forall face, In face faces -> (3 <= length face)%nat /\ forall i, In i face -> (i < length vs)%nat) -> length ns0 = f ->
  forallb (big_enough eps vs) faces = true ->
  volume_sum vs (ns0 ++ map (nrm eps vs) faces) f faces sum = Ok (sum + rsum (map (tri vzero vs) (flat_map triangles faces)) / 2).
Proof.
  intros eps vs faces. induction faces as [|face r IH]; intros ns0 f sum E H L B; [cbn; f_equal; field|].
  cbn [volume_sum map flat_map]. destruct (H face) as [H1 H2]; [left; reflexivity|].
  assert (NE : face <> []) by (intros ->; cbn in H1; lia).
  rewrite face_normal_ok by assumption. cbn [bind].
  rewrite nth_error_app2 by lia. rewrite L, Nat.sub_diag. cbn [nth_error rd bind].
  cbn [forallb] in B. apply andb_prop in B. destruct B as [B1 B2].
  pose proof (triangles_zero vs face NE) as TZ.
  destruct face as [|i face]; [congruence|]. cbn [nth_error rd bind]. rewrite vertex_ok by (apply H2; left; reflexivity). cbn [bind].
  pose proof (IH (ns0 ++ [nrm eps vs (i :: face)]) (S f)
    (sum + vdot (at_ vs i) (nrm eps vs (i :: face)) * (vlen (vscale 2 (area_vector vs (i :: face))) * (1 / 2)))) as X.
  rewrite <- app_assoc in X. cbn [app] in X. rewrite X; clear X.
  - f_equal. rewrite map_app, rsum_app, TZ. cbn [hd]. unfold nrm. cbv zeta. unfold big_enough in B1. rewrite B1.
    apply rlt_true in B1. set (N := vscale 2 (area_vector vs (i :: face))) in *.
    assert (vlen N <> 0) by lra. unfold vdot, vdiv. cbn. field. exact H0.
  - exact E.
  - intros g Hg. apply H. right; exact Hg.
  - rewrite app_length. cbn. lia.
  - exact B2.
Qed.

(** ** Creation *)
Lemma euler_iff : forall nv faces, euler_ok nv faces = true <-> euler nv faces.
Proof. intros nv faces. unfold euler_ok, euler. rewrite Z.eqb_eq. lia. Qed.
Lemma forallb_in : forall A (p : A -> bool) l, forallb p l = true <-> forall x, In x l -> p x = true.
Proof. intros. apply forallb_forall. Qed.
Lemma vlen_scale2 : forall v, vlen (vscale 2 v) = 2 * vlen v.
Proof.
  intros v. unfold vlen. replace (vlen2 (vscale 2 v)) with (2 * 2 * vlen2 v) by (unfold vlen2, vscale; cbn; ring).
  rewrite sqrt_mult by (try lra; apply vlen2_nonneg). rewrite sqrt_square by lra. reflexivity.
Qed.
Theorem create_good : forall eps vs faces, 0 <= eps -> good eps vs faces ->
  exists h, compute_half_edges (length vs) faces = Ok h /\ consistent (length vs) faces h /\
    create_mesh eps vs faces = Ok (Some (mk_mesh vs faces h (map (nrm eps vs) faces) (mesh_centroid vs) (mesh_bounds vs)
      (Rabs (signed_volume vzero vs faces)))).
Proof.
  intros eps vs faces E [G1 [G2 [G3 [G4 [G5 G6]]]]].
  destruct (half_edges_ok (length vs) faces) as [h [H1 H2]]; try assumption.
  { intros f Hf ->. destruct (G6 _ Hf) as [X _]. cbn in X. lia. }
  exists h. split; [exact H1|]. split; [exact H2|].
  assert (F : forall face, In face faces -> (3 <= length face)%nat /\ forall i, In i face -> (i < length vs)%nat).
  { intros face Hf. split; [apply G6; exact Hf|]. intros i Hi. exact (G3 _ _ Hf Hi). }
  assert (B : forallb (big_enough eps vs) faces = true).
  { apply forallb_in. intros face Hf. unfold big_enough. rewrite vlen_scale2. destruct (G6 _ Hf) as [_ X].
    destruct (rlt eps (2 * vlen (area_vector vs face))) eqn:Q; [reflexivity|]. apply rlt_false in Q. lra. }
  assert (T : forallb (fun f => Nat.leb 3 (length f)) faces = true).
  { apply forallb_in. intros face Hf. apply Nat.leb_le. apply G6. exact Hf. }
  unfold create_mesh, create_half_edges. rewrite H1. cbn [bind].
  rewrite (faces_normals_ok eps vs faces 0 [] true F eq_refl). cbn [bind app].
  pose proof (volume_sum_value eps vs faces [] 0 0 E F eq_refl B) as V. cbn [app] in V. rewrite V. cbn [bind].
  rewrite T, B. rewrite (proj2 (euler_iff _ _) G5). cbn [andb]. destruct vs as [|v vs]; [congruence|]. cbn [andb].
  do 3 f_equal. rewrite signed_volume_sum. rewrite Rplus_0_l.
  unfold Rdiv. rewrite !Rabs_mult. rewrite (Rabs_right (/ 2)) by lra. rewrite (Rabs_right (/ 6)) by lra. field.
Qed.
Theorem create_accepts : forall eps vs faces m, create_mesh eps vs faces = Ok (Some m) -> good eps vs faces.
Proof.
  intros eps vs faces m H. unfold create_mesh, create_half_edges in H.
  apply bind_ok in H. destruct H as [[v2 h] [Q H]]. apply bind_ok in Q. destruct Q as [h' [Q Q']]. injection Q' as <- <-.
  destruct (half_edges_closed _ _ _ Q) as [C1 [C2 [C3 C4]]].
  apply bind_ok in H. destruct H as [[ns v3] [N H]]. apply bind_ok in H. destruct H as [sum [V H]].
  match type of H with Ok (if ?c then _ else _) = _ => destruct c eqn:B0; [|discriminate H] end.
  apply andb_prop in B0. destruct B0 as [B0 ->]. apply andb_prop in B0. destruct B0 as [EV B0]. apply andb_prop in B0. destruct B0 as [T EU].
  rewrite forallb_in in T.
  assert (F : forall face, In face faces -> (3 <= length face)%nat /\ forall i, In i face -> (i < length vs)%nat).
  { intros face Hf. split; [apply Nat.leb_le, T; exact Hf|]. intros i Hi. exact (C3 _ _ Hf Hi). }
  rewrite (faces_normals_ok eps vs faces 0 [] true F eq_refl) in N. cbn [app andb] in N. injection N as _ B.
  rewrite forallb_in in B.
  split; [intros ->; discriminate|]. split; [exact C1|]. split; [exact C3|]. split; [exact C4|]. split; [apply euler_iff; exact EU|].
  intros face Hf. split; [apply F; exact Hf|]. specialize (B _ Hf). unfold big_enough in B. apply rlt_true in B. rewrite vlen_scale2 in B. exact B.
Qed.

(** ** Affine maps *)
Definition affine (M : mat3) (t : vec3) (p : vec3) : vec3 := vadd (mat_vec M p) t.
Lemma at_map : forall (f : vec3 -> vec3) vs i, (i < length vs)%nat -> at_ (map f vs) i = f (at_ vs i).
Proof. intros f vs i H. unfold at_. rewrite (nth_indep (map f vs) vzero (f vzero)) by (rewrite map_length; exact H). apply map_nth. Qed.
Lemma triangles_in : forall face a b c, In (a, b, c) (triangles face) -> In a face /\ In b face /\ In c face.
Proof.
  intros [|x r] a b c; [contradiction|]. cbn [triangles].
  assert (H : forall l, In (a, b, c) (fan x l) -> a = x /\ In b l /\ In c l).
  { induction l as [|y l IH]; [contradiction|]. destruct l as [|z l]; [contradiction|].
    change (fan x (y :: z :: l)) with ((x, y, z) :: fan x (z :: l)). intros [E|Q].
    - injection E as <- <- <-. cbn. tauto.
    - apply IH in Q. cbn in *. tauto. }
  intros Q. apply H in Q. destruct Q as [-> [Q1 Q2]]. cbn. tauto.
Qed.
Lemma det_affine : forall M t p a b c, det (affine M t p) (affine M t a) (affine M t b) (affine M t c) = mat_det M * det p a b c.
Proof.
  intros [[a1 a2 a3] [b1 b2 b3] [c1 c2 c3]] t p a b c.
  unfold det, affine, mat_vec, mat_det, vdot, vcross, vsub, vadd, m00, m01, m02, m10, m11, m12, m20, m21, m22. cbn. unfold vdot. cbn. ring.
Qed.
Lemma volume_affine : forall M t p vs faces, in_range (length vs) faces ->
  signed_volume (affine M t p) (map (affine M t) vs) faces = mat_det M * signed_volume p vs faces.
Proof.
  intros M t p vs faces RG. unfold signed_volume.
  assert (H : forall l, (forall a b c, In (a, b, c) l -> (a < length vs)%nat /\ (b < length vs)%nat /\ (c < length vs)%nat) ->
    rsum (map (fun u => let '(a, b, c) := u in det (affine M t p) (at_ (map (affine M t) vs) a) (at_ (map (affine M t) vs) b) (at_ (map (affine M t) vs) c)) l) =
    mat_det M * rsum (map (fun u => let '(a, b, c) := u in det p (at_ vs a) (at_ vs b) (at_ vs c)) l)).
  { induction l as [|[[a b] c] l IH]; intros Hl; cbn [map rsum]; [ring|].
    rewrite IH by (intros; apply Hl; right; assumption).
    destruct (Hl a b c) as [Ha [Hb Hc]]; [left; reflexivity|]. rewrite !at_map by assumption. rewrite det_affine. ring. }
  rewrite H.
  - field.
  - intros a b c Q. apply in_flat_map in Q. destruct Q as [face [Q1 Q2]]. apply triangles_in in Q2. destruct Q2 as [Qa [Qb Qc]].
    split; [|split]; apply (RG face); assumption.
Qed.

(** ** Planes *)
Lemma path_telescope : forall vs r a, vsum (map (fun e => vsub (at_ vs (snd e)) (at_ vs (fst e))) (path a r)) = vsub (at_ vs (last r a)) (at_ vs a).
Proof.
  intros vs r. induction r as [|b r IH]; intros a.
  - cbn. vr.
  - rewrite last_cons. cbn [path map vsum]. rewrite IH. cbn [fst snd]. vr.
Qed.
Lemma around_telescope : forall vs face, vsum (map (fun e => vsub (at_ vs (snd e)) (at_ vs (fst e))) (around face)) = vzero.
Proof.
  intros vs [|a r]; [reflexivity|]. rewrite around_path, map_app, vsum_app, path_telescope. cbn. vr.
Qed.
Lemma cross_vsum : forall l u, vcross (vsum l) u = vsum (map (fun x => vcross x u) l).
Proof.
  induction l as [|x l IH]; intros u; cbn [vsum map]; [unfold vcross; vr|]. rewrite <- IH. unfold vcross. vr.
Qed.
Lemma vsum_scale : forall A k (f : A -> vec3) l, vsum (map (fun x => vscale k (f x)) l) = vscale k (vsum (map f l)).
Proof. intros A k f l. induction l as [|x l IH]; cbn [vsum map]; [|rewrite IH]; vr. Qed.
Lemma planar_area : forall vs face u d, in_plane vs face u d -> vcross (area_vector vs face) u = vzero.
Proof.
  intros vs face u d P. rewrite area_cr.
  replace (vcross (vscale (1 / 2) (vsum (map (cr vs) (around face)))) u) with (vscale (1 / 2) (vcross (vsum (map (cr vs) (around face))) u)) by (unfold vcross; vr).
  rewrite cross_vsum, map_map.
  rewrite (map_ext_in _ (fun e => vscale d (vsub (at_ vs (snd e)) (at_ vs (fst e))))).
  - rewrite vsum_scale, around_telescope. vr.
  - intros [a b] Hab. apply around_in in Hab. destruct Hab as [Ha Hb]. pose proof (P _ Ha) as Pa. pose proof (P _ Hb) as Pb.
    cbn [fst snd]. unfold cr. cbn [fst snd]. rewrite <- Pa at 1.
    transitivity (vsub (vscale (vdot u (at_ vs a)) (at_ vs b)) (vscale (vdot u (at_ vs b)) (at_ vs a))).
    + unfold vcross, vdot. vr.
    + rewrite Pa, Pb. vr.
Qed.

(** ** Bounds and centroid *)
Lemma inflate_bounds : forall vs b v0 seen, In v0 seen -> tight b seen -> tight (fold_left inflate_point vs b) (seen ++ vs).
Proof.
  induction vs as [|v vs IH]; intros b v0 seen H0 T; [rewrite app_nil_r; exact T|].
  cbn [fold_left]. replace (seen ++ v :: vs) with ((seen ++ [v]) ++ vs) by (rewrite <- app_assoc; reflexivity).
  apply (IH _ v0); [apply in_app_iff; left; exact H0|].
  destruct T as [T [X1 [Y1 [Z1 [X2 [Y2 Z2]]]]]].
  assert (KE : forall P : vec3 -> Prop, (exists w, In w seen /\ P w) -> exists w, In w (seen ++ [v]) /\ P w).
  { intros P [w [Hw Pw]]. exists w. split; [apply in_app_iff; left; exact Hw|exact Pw]. }
  assert (NE : forall P : vec3 -> Prop, P v -> exists w, In w (seen ++ [v]) /\ P w).
  { intros P Pv. exists v. split; [apply in_app_iff; right; left; reflexivity|exact Pv]. }
  assert (LO : forall c : vec3 -> R, forall m, (if rlt (c v) m then c v else m) <= m /\ (if rlt (c v) m then c v else m) <= c v).
  { intros c m. destruct (rlt (c v) m) eqn:Q; [apply rlt_true in Q|apply rlt_false in Q]; lra. }
  assert (HI : forall c : vec3 -> R, forall m, m <= (if rlt m (c v) then c v else m) /\ c v <= (if rlt m (c v) then c v else m)).
  { intros c m. destruct (rlt m (c v)) eqn:Q; [apply rlt_true in Q|apply rlt_false in Q]; lra. }
  split.
  - unfold inflate_point. cbn [fst snd vx vy vz].
    pose proof (LO vx (vx (fst b))). pose proof (LO vy (vy (fst b))). pose proof (LO vz (vz (fst b))).
    pose proof (HI vx (vx (snd b))). pose proof (HI vy (vy (snd b))). pose proof (HI vz (vz (snd b))).
    intros w Hw. apply in_app_iff in Hw. destruct Hw as [Hw|[<-|[]]]; [specialize (T _ Hw)|]; lra.
  - unfold inflate_point. cbn [fst snd vx vy vz].
    split; [destruct (rlt (vx v) (vx (fst b))); [apply NE; reflexivity|apply (KE _ X1)]|].
    split; [destruct (rlt (vy v) (vy (fst b))); [apply NE; reflexivity|apply (KE _ Y1)]|].
    split; [destruct (rlt (vz v) (vz (fst b))); [apply NE; reflexivity|apply (KE _ Z1)]|].
    split; [destruct (rlt (vx (snd b)) (vx v)); [apply NE; reflexivity|apply (KE _ X2)]|].
    split; [destruct (rlt (vy (snd b)) (vy v)); [apply NE; reflexivity|apply (KE _ Y2)]|].
    destruct (rlt (vz (snd b)) (vz v)); [apply NE; reflexivity|apply (KE _ Z2)].
Qed.
Lemma bounds_tight : forall vs, vs <> [] -> tight (mesh_bounds vs) vs.
Proof.
  intros [|v vs] NE; [congruence|]. unfold mesh_bounds. cbn [fold_left].
  assert (TT : tight (v, v) [v]).
  { split; [intros w [<-|[]]; cbn; lra|]. repeat split; exists v; split; try reflexivity; left; reflexivity. }
  pose proof (inflate_bounds [v] (v, v) v [v] (or_introl eq_refl) TT) as T1. cbn [fold_left app] in T1.
  assert (T2 : tight (inflate_point (v, v) v) [v]).
  { destruct T1 as [A [X1 [Y1 [Z1 [X2 [Y2 Z2]]]]]]. split; [intros w Hw; apply A; right; exact Hw|].
    repeat split; [destruct X1 as [w [Hw E]]|destruct Y1 as [w [Hw E]]|destruct Z1 as [w [Hw E]]|destruct X2 as [w [Hw E]]|destruct Y2 as [w [Hw E]]|destruct Z2 as [w [Hw E]]];
    exists w; (split; [destruct Hw as [<-|Hw]; [left; reflexivity|exact Hw]|exact E]). }
  exact (inflate_bounds vs _ v [v] (or_introl eq_refl) T2).
Qed.

Theorem create_answers : forall eps vs faces, faces <> [] -> in_range (length vs) faces -> closed faces ->
  (forall face, In face faces -> (3 <= length face)%nat) -> exists o, create_mesh eps vs faces = Ok o.
Proof.
  intros eps vs faces G2 G3 G4 G6.
  destruct (half_edges_ok (length vs) faces) as [h [H1 H2]]; try assumption.
  { intros f Hf ->. specialize (G6 _ Hf). cbn in G6. lia. }
  assert (F : forall face, In face faces -> (3 <= length face)%nat /\ forall i, In i face -> (i < length vs)%nat).
  { intros face Hf. split; [apply G6; exact Hf|]. intros i Hi. exact (G3 _ _ Hf Hi). }
  unfold create_mesh, create_half_edges. rewrite H1. cbn [bind].
  rewrite (faces_normals_ok eps vs faces 0 [] true F eq_refl). cbn [bind app].
  destruct (volume_sum_ok vs faces [] (map (nrm eps vs) faces) 0 0 F eq_refl) as [r V]; [apply map_length|].
  cbn [app] in V. rewrite V. cbn [bind]. eexists. reflexivity.
Qed.

(** ** Deciding closedness of concrete meshes *)
Definition closedb (faces : list (list nat)) : bool :=
  (forallb (fun k => negb (Nat.eqb (fst k) (snd k)) && existsb (vpair_eqb (rev_edge k)) (mesh_edges faces))%bool (mesh_edges faces) &&
   (fix nd l := match l with [] => true | k :: r => (negb (existsb (vpair_eqb k) r) && nd r)%bool end) (mesh_edges faces))%bool.
Lemma existsb_vpair : forall k l, existsb (vpair_eqb k) l = true <-> In k l.
Proof.
  intros k l. rewrite existsb_exists. split.
  - intros [x [H E]]. destruct (vpair_eqb_spec k x); congruence.
  - intros H. exists k. split; [exact H|]. destruct (vpair_eqb_spec k k); congruence.
Qed.
Lemma closedb_ok : forall faces, closedb faces = true -> closed faces.
Proof.
  intros faces H. unfold closedb in H. apply andb_prop in H. destruct H as [H1 H2]. split.
  - induction (mesh_edges faces) as [|k r IH]; [constructor|]. apply andb_prop in H2. destruct H2 as [A B].
    constructor; [|].
    + intros Q. apply existsb_vpair in Q. rewrite Q in A. discriminate.
    + clear - B. revert B. induction r as [|k r IH]; [constructor|]. intros B. apply andb_prop in B. destruct B as [A B].
      constructor; [|apply IH; exact B]. intros Q. apply existsb_vpair in Q. rewrite Q in A. discriminate.
  - rewrite forallb_in in H1. intros k Hk. specialize (H1 _ Hk). apply andb_prop in H1. destruct H1 as [A B]. split.
    + intros E. rewrite E, Nat.eqb_refl in A. discriminate.
    + apply existsb_vpair. exact B.
Qed.
Definition in_rangeb (nv : nat) (faces : list (list nat)) : bool := forallb (forallb (fun v => Nat.ltb v nv)) faces.
Lemma in_rangeb_ok : forall nv faces, in_rangeb nv faces = true -> in_range nv faces.
Proof.
  intros nv faces H vs v Hvs Hv. unfold in_rangeb in H. rewrite forallb_in in H. specialize (H _ Hvs). rewrite forallb_in in H.
  apply Nat.ltb_lt. exact (H _ Hv).
Qed.

(** ** Centroid *)
Lemma fold_vadd : forall vs a, fold_left vadd vs a = vadd a (vsum vs).
Proof. induction vs as [|v vs IH]; intros a; cbn [fold_left vsum]; [vr|]. rewrite IH. vr. Qed.
Lemma mean_between : forall (c : vec3 -> R) vs lo hi, (forall a b, c (vadd a b) = c a + c b) -> c vzero = 0 ->
  (forall v, In v vs -> lo <= c v <= hi) -> INR (length vs) * lo <= c (vsum vs) <= INR (length vs) * hi.
Proof.
  intros c vs lo hi A Z H. induction vs as [|v vs IH]; [cbn; rewrite Z; lra|].
  cbn [vsum length]. rewrite S_INR, A. specialize (H v (or_introl eq_refl)) as Hv.
  assert (INR (length vs) * lo <= c (vsum vs) <= INR (length vs) * hi) by (apply IH; intros w Hw; apply H; right; exact Hw). lra.
Qed.
Lemma centroid_between : forall (c : vec3 -> R) vs lo hi, vs <> [] -> (forall a b, c (vadd a b) = c a + c b) -> (forall a k, c (vdiv a k) = c a / k) -> c vzero = 0 ->
  (forall v, In v vs -> lo <= c v <= hi) -> lo <= c (mesh_centroid vs) <= hi.
Proof.
  intros c vs lo hi NE A D Z H. replace (mesh_centroid vs) with (vdiv (fold_left vadd vs vzero) (INR (length vs))) by (destruct vs; [congruence|reflexivity]).
  rewrite fold_vadd, D, A, Z, Rplus_0_l. pose proof (mean_between c vs lo hi A Z H) as B.
  assert (P : 0 < INR (length vs)) by (apply lt_0_INR; destruct vs; [congruence|cbn; lia]).
  split; apply (Rmult_le_reg_l (INR (length vs))); try exact P; unfold Rdiv;
    rewrite (Rmult_comm (c (vsum vs))), <- Rmult_assoc, Rinv_r, Rmult_1_l by lra; tauto.
Qed.
