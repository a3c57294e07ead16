(** Proofs about the ray casts of a triangle mesh. *)
From Coq Require Import List Arith Lia Bool ZArith.
From Verif Require Import Base Decimal HashSpec TreeModel TreeSpec RayModel RaySpec TreeProofs TreeProofs2 TreeProofs3 TreeProofs4 TreeProofs5 TreeProofs6 RayProofs TreeProperties
  VecModel VecProofs GeomSpec ShapeModel ShapeSpec ShapeMeshProofs HeightWalkProofs TriMeshModel TriMeshSpec TriMeshProofs TriMeshTreeProofs TriMeshProofs2.
Import ListNotations.
Local Open Scope R_scope.

(** ** A ray with a point in a box passes its test *)
Lemma slab_real mn mx og d neg t : off_face real_ops mn mx og d -> mn <= og + d * t <= mx ->
  ele real_ops (lo real_ops (slab real_ops Rinv mn mx og d neg)) (Fin t) = true /\ ele real_ops (Fin t) (hi real_ops (slab real_ops Rinv mn mx og d neg)) = true.
Proof.
  intros OF V. destruct (d_eq0 real_ops d) eqn:Z.
  - pose proof Z as Z'. apply real_zero in Z'. subst d.
    destruct (slab_zero real_ops real_laws Rinv real_ray_laws mn mx og 0 neg Z OF) as [(P1 & P2 & P3 & P4)|(P1 & P2 & P3)]; [cbn; apply rle_iff; lra| |].
    + rewrite P3, P4. cbn. auto.
    + cbn in P1. rewrite !rlt_iff in P1. exfalso. lra.
  - apply real_nonzero in Z. unfold slab, times_inverse, lo, hi. rewrite (proj2 (real_nonzero d) Z). cbn [fst snd d_sub d_mul real_ops].
    set (a := (mn - og) * / d). set (b := (mx - og) * / d).
    assert (EA : a * d = mn - og) by (unfold a; field; exact Z). assert (EB : b * d = mx - og) by (unfold b; field; exact Z). clearbody a b.
    assert (MM : forall x y z, (x <= z \/ y <= z) -> ele real_ops (emin real_ops (Fin x) (Fin y)) (Fin z) = true).
    { intros x y z H. unfold emin. cbn. unfold rlt. destruct (Rlt_dec y x); cbn; apply rle_iff; lra. }
    assert (MX : forall x y z, (z <= x \/ z <= y) -> ele real_ops (Fin z) (emax real_ops (Fin x) (Fin y)) = true).
    { intros x y z H. unfold emax. cbn. unfold rlt. destruct (Rlt_dec x y); cbn; apply rle_iff; lra. }
    destruct (Rlt_dec 0 d) as [D|D].
    + split; [apply MM; left|apply MX; right]; apply Rnot_lt_le; intros Q; nra.
    + assert (d < 0) by lra. split; [apply MM; right|apply MX; left]; apply Rnot_lt_le; intros Q; nra.
Qed.
Lemma ray_passes ry b m t : off_faces real_ops ry b -> 0 <= t <= m -> point_in real_ops (ray_point real_ops ry t) b -> test_ray real_ops Rinv ry b m = true.
Proof.
  intros (FX & FY & FZ) T P. unfold point_in, ray_point in P. cbn in P. rewrite !rle_iff in P. destruct P as (PX & PY & PZ).
  apply (test_ray_iff real_ops real_laws Rinv); [apply (slab_num real_ops Rinv real_ray_laws); assumption ..|].
  pose proof (slab_real _ _ _ _ (fst (fst (r_neg ry))) t FX PX) as (X1 & X2). pose proof (slab_real _ _ _ _ (snd (fst (r_neg ry))) t FY PY) as (Y1 & Y2).
  pose proof (slab_real _ _ _ _ (snd (r_neg ry)) t FZ PZ) as (Z1 & Z2).
  intros l h IL IH. apply (ele_trans real_ops real_laws) with (b := Fin t).
  - cbn [In] in IL. destruct IL as [<-|[<-|[<-|[<-|[]]]]]; [exact X1|exact Y1|exact Z1|]. cbn. apply rle_iff. lra.
  - cbn [In] in IH. destruct IH as [<-|[<-|[<-|[<-|[]]]]]; [exact X2|exact Y2|exact Z2|]. cbn. apply rle_iff. lra.
Qed.
Lemma ray_off k y p q r : nonzero_scale k -> off_planes y (vmul p k) (vmul q k) (vmul r k) -> off_faces real_ops (tree_ray k y) (tree_box (triangle_box p q r)).
Proof.
  intros (KX & KY & KZ) (X & Y & Z).
  assert (ONE : forall a b h l u p q r, h <> 0 -> (l = p \/ l = q \/ l = r) -> (u = p \/ u = q \/ u = r) -> (a <> b \/ a <> p * h /\ a <> q * h /\ a <> r * h) ->
    off_face real_ops l u (a * (1 / h)) (b * (1 / h) - a * (1 / h))).
  { clear. intros a b h l u p q r H L U O. unfold off_face. rewrite real_nonzero. cbn [d_lt real_ops]. rewrite !rlt_iff. destruct (Req_dec a b) as [->|D].
    - destruct O as [O|(O1 & O2 & O3)]; [congruence|]. right.
      assert (K : forall v, b <> v * h -> v < b * (1 / h) \/ b * (1 / h) < v).
      { intros v N. destruct (Rtotal_order v (b * (1 / h))) as [A|[A|A]]; [now left| |now right]. exfalso. apply N. rewrite A. field. exact H. }
      split; apply K; [destruct L as [->|[->| ->]]|destruct U as [->|[->| ->]]]; assumption.
    - left. intros E. apply D. replace a with (a * (1 / h) * h) by (field; exact H). replace b with (b * (1 / h) * h) by (field; exact H). f_equal. lra. }
  unfold off_planes, off_plane in *. cbn [vx vy vz vmul] in *. unfold off_faces, tree_ray, tree_box, tree_vec, triangle_box, vmul, vsub, inverse.
  cbn [b_min b_max bmin bmax r_origin r_dir TreeModel.vx TreeModel.vy TreeModel.vz vx vy vz].
  split; [|split].
  - eapply ONE; [exact KX|exact (proj2 (proj2 (proj2 (lower3 (vx p) (vx q) (vx r)))))|exact (proj2 (proj2 (proj2 (upper3 (vx p) (vx q) (vx r)))))|exact X].
  - eapply ONE; [exact KY|exact (proj2 (proj2 (proj2 (lower3 (vy p) (vy q) (vy r)))))|exact (proj2 (proj2 (proj2 (upper3 (vy p) (vy q) (vy r)))))|exact Y].
  - eapply ONE; [exact KZ|exact (proj2 (proj2 (proj2 (lower3 (vz p) (vz q) (vz r)))))|exact (proj2 (proj2 (proj2 (upper3 (vz p) (vz q) (vz r)))))|exact Z].
Qed.
Lemma ray_inside k y p q r u : nonzero_scale k -> triangle_set (vmul p k) (vmul q k) (vmul r k) (ray_at y u) ->
  point_in real_ops (ray_point real_ops (tree_ray k y) u) (tree_box (triangle_box p q r)).
Proof.
  intros (KX & KY & KZ) (a & b & c & A & B & C & S & E). destruct (triangle_box_tight p q r) as (T & _).
  specialize (T (V3 (a * vx p + b * vx q + c * vx r) (a * vy p + b * vy q + c * vy r) (a * vz p + b * vz q + c * vz r))).
  assert (I : triangle_set p q r (V3 (a * vx p + b * vx q + c * vx r) (a * vy p + b * vy q + c * vy r) (a * vz p + b * vz q + c * vz r))) by (exists a, b, c; auto).
  specialize (T I). unfold in_bounds in T. cbn [vx vy vz] in T. unfold ray_at, lerp, vmul in E. cbn [vx vy vz] in E. injection E as EX EY EZ.
  unfold point_in, ray_point, tree_ray, tree_box, tree_vec, vmul, vsub, inverse, TreeModel.vadd, TreeModel.vscale.
  cbn [b_min b_max r_origin r_dir TreeModel.vx TreeModel.vy TreeModel.vz vx vy vz d_add d_mul d_le real_ops].
  assert (ONE : forall p1 p2 h v, h <> 0 -> p1 + u * (p2 - p1) = v * h -> p1 * (1 / h) + (p2 * (1 / h) - p1 * (1 / h)) * u = v).
  { intros p1 p2 h v H V. replace (p1 * (1 / h) + (p2 * (1 / h) - p1 * (1 / h)) * u) with ((p1 + u * (p2 - p1)) / h) by (field; exact H). rewrite V. field. exact H. }
  rewrite (ONE _ _ _ (a * vx p + b * vx q + c * vx r) KX) by (rewrite EX; ring). rewrite (ONE _ _ _ (a * vy p + b * vy q + c * vy r) KY) by (rewrite EY; ring).
  rewrite (ONE _ _ _ (a * vz p + b * vz q + c * vz r) KZ) by (rewrite EZ; ring). rewrite !rle_iff. tauto.
Qed.

(** ** The answer *)
Definition answers (eps : R) (s : cshape) (y : ray) (id : Z) (i : nat) (p q r : vec3) (h : hit) : Prop :=
  (exists n1 n2 n3, reads s id i p q r n1 n2 n3) /\ triangle_cast eps (cs_side s) p q r y = Some h.
Lemma cast_nodes_ok eps s y : forall ids smallest best, (forall id, In id ids -> exists i p q r n1 n2 n3, reads s id i p q r n1 n2 n3) ->
  exists out, cast_nodes eps s y ids smallest best = Ok out /\
   (out = best /\ (forall id i p q r h, In id ids -> answers eps s y id i p q r h -> smallest < hit_fraction h) \/
    exists id i p q r h, In id ids /\ answers eps s y id i p q r h /\ out = Some (h, i) /\ hit_fraction h <= smallest /\
      forall id' i' p' q' r' h', In id' ids -> answers eps s y id' i' p' q' r' h' -> hit_fraction h <= hit_fraction h').
Proof.
  induction ids as [|id ids IH]; intros smallest best H; cbn [cast_nodes].
  - exists best. split; [reflexivity|]. left. split; [reflexivity|]. intros ? ? ? ? ? ? [].
  - destruct (H id (or_introl eq_refl)) as (i & p & q & r & n1 & n2 & n3 & R). pose proof R as (RD & RT & RN). rewrite RD. cbn [bind]. rewrite Nat2Z.id, RT. cbn [bind]. rewrite RN. cbn [bind].
    assert (UQ : forall i' p' q' r' h', answers eps s y id i' p' q' r' h' -> i' = i /\ p' = p /\ q' = q /\ r' = r).
    { intros i' p' q' r' h' ((a & b & c & RD' & RT' & _) & _). rewrite RD in RD'. injection RD' as E. apply Nat2Z.inj in E. subst i'. rewrite RT in RT'. injection RT' as -> -> ->. auto. }
    destruct (triangle_cast eps (cs_side s) p q r y) as [h|] eqn:TC.
    + assert (AH : answers eps s y id i p q r h) by (split; eauto).
      destruct (rle (hit_fraction h) smallest) eqn:LE.
      * apply rle_iff in LE. destruct (IH (hit_fraction h) (Some (h, i)) (fun x X => H x (or_intror X))) as (out & E & [(-> & K)|(id' & i' & p' & q' & r' & h' & I & A & -> & L & K)]).
        -- exists (Some (h, i)). split; [exact E|]. right. exists id, i, p, q, r, h. split; [now left|]. split; [exact AH|]. split; [reflexivity|]. split; [exact LE|].
           intros id' i' p' q' r' h' [<-|I] A; [|apply Rlt_le; eauto]. destruct (UQ _ _ _ _ _ A) as (-> & -> & -> & ->). destruct A as (_ & A). rewrite TC in A. injection A as <-. lra.
        -- exists (Some (h', i')). split; [exact E|]. right. exists id', i', p', q', r', h'. split; [now right|]. split; [exact A|]. split; [reflexivity|]. split; [lra|].
           intros id2 i2 p2 q2 r2 h2 [<-|I2] A2; [|eauto]. destruct (UQ _ _ _ _ _ A2) as (-> & -> & -> & ->). destruct A2 as (_ & A2). rewrite TC in A2. injection A2 as <-. lra.
      * apply rle_false in LE. destruct (IH smallest best (fun x X => H x (or_intror X))) as (out & E & [(-> & K)|(id' & i' & p' & q' & r' & h' & I & A & -> & L & K)]).
        -- exists best. split; [exact E|]. left. split; [reflexivity|]. intros id' i' p' q' r' h' [<-|I] A; [|eauto]. destruct (UQ _ _ _ _ _ A) as (-> & -> & -> & ->). destruct A as (_ & A). rewrite TC in A. injection A as <-. lra.
        -- exists (Some (h', i')). split; [exact E|]. right. exists id', i', p', q', r', h'. split; [now right|]. split; [exact A|]. split; [reflexivity|]. split; [exact L|].
           intros id2 i2 p2 q2 r2 h2 [<-|I2] A2; [|eauto]. destruct (UQ _ _ _ _ _ A2) as (-> & -> & -> & ->). destruct A2 as (_ & A2). rewrite TC in A2. injection A2 as <-. lra.
    + assert (NO : forall i' p' q' r' h', ~ answers eps s y id i' p' q' r' h').
      { intros i' p' q' r' h' A. destruct (UQ _ _ _ _ _ A) as (-> & -> & -> & ->). destruct A as (_ & A). congruence. }
      destruct (IH smallest best (fun x X => H x (or_intror X))) as (out & E & [(-> & K)|(id' & i' & p' & q' & r' & h' & I & A & -> & L & K)]).
      * exists best. split; [exact E|]. left. split; [reflexivity|]. intros id' i' p' q' r' h' [<-|I] A; [|eauto]. destruct (NO _ _ _ _ _ A).
      * exists (Some (h', i')). split; [exact E|]. right. exists id', i', p', q', r', h'. split; [now right|]. split; [exact A|]. split; [reflexivity|]. split; [exact L|].
        intros id2 i2 p2 q2 r2 h2 [<-|I2] A2; [|eauto]. destruct (NO _ _ _ _ _ A2).
Qed.
Lemma cast_shape eps m ids boxes k d y : 0 < eps -> built m -> holds (tm_tree m) ids boxes ->
  Forall2 (fun f b => exists p q r, points_of (tm_vertices m) f p q r /\ b = triangle_box p q r) (tm_faces m) boxes -> nonzero_scale k -> 0 < ray_max y ->
  (forall i p q r, scaled_triangle m k i p q r -> off_planes y p q r /\ (eps <= double_area p q r /\ triangle_exact eps p q r y d \/ turned_away d p q r y)) ->
  exists answer, concave_cast eps (set_side d (new_shape m k)) y = Ok answer /\
  match answer with
  | Some (h, i) => exists p q r, scaled_triangle m k i p q r /\ triangle_hit p q r y h /\
      forall j p' q' r' u, scaled_triangle m k j p' q' r' -> ~ turned_away d p' q' r' y -> 0 <= u < hit_fraction h -> ~ triangle_set p' q' r' (ray_at y u)
  | None => forall i p q r, scaled_triangle m k i p q r -> ~ turned_away d p q r y -> misses_closed (triangle_set p q r) y
  end.
Proof.
  intros Heps BM HO HF KN MX ALL. set (s := set_side d (new_shape m k)). unfold concave_cast. change (cs_scale s) with k. change (cs_mesh s) with m.
  destruct (holds_cast _ _ _ (tree_ray k y) (ray_max y) HO) as (out & RC & ND & SO & CO); [lra|]. rewrite RC. cbn [bind].
  destruct (cast_nodes_ok eps s y out (ray_max y) None) as (answer & E & K).
  { intros id I. destruct (SO id I) as (i & b & ID & B & _). destruct (reads_ok m ids boxes BM HO HF s k id i b) as (f & p & q & r & n1 & n2 & n3 & R & _); auto. exists i, (vmul p k), (vmul q k), (vmul r k), n1, n2, n3. exact R. }
  exists answer. split; [exact E|]. change (cs_side s) with d in *.
  assert (HIT : forall i p q r u, scaled_triangle m k i p q r -> ~ turned_away d p q r y -> 0 <= u <= ray_max y -> triangle_set p q r (ray_at y u) ->
    exists id h, In id out /\ answers eps s y id i p q r h /\ hit_fraction h = u).
  { intros i p q r u S NT U T. pose proof S as (f & p0 & q0 & r0 & F & P & -> & -> & ->). destruct (box_at m ids boxes HO HF i f p0 q0 r0 F P) as (id & ID & B).
    destruct (ALL _ _ _ _ S) as (OP & [(AR & EX)|TA]); [|contradiction].
    assert (I : In id out). { eapply CO; [exact ID|exact B| |apply ray_off; assumption]. apply (ray_passes _ _ _ u); [apply ray_off; assumption|exact U|]. apply ray_inside; assumption. }
    pose proof (triangle_cast_ok eps _ _ _ y d Heps AR EX) as TC. destruct (triangle_cast eps d (vmul p0 k) (vmul q0 k) (vmul r0 k) y) as [h|] eqn:TR.
    - exists id, h. split; [exact I|]. split; [|symmetry; apply TC; exact T]. split; [|exact TR].
      destruct (reads_ok m ids boxes BM HO HF s k id i (triangle_box p0 q0 r0)) as (f' & p1 & q1 & r1 & n1 & n2 & n3 & (R1 & R2 & R3) & _); auto. exists n1, n2, n3. split; [exact R1|]. split; [|exact R3].
      apply shape_triangle_iff. exact S.
    - exfalso. exact (TC u U T). }
  assert (SC : forall id i p q r h, answers eps s y id i p q r h -> scaled_triangle m k i p q r /\ triangle_hit p q r y h).
  { intros id i p q r h ((n1 & n2 & n3 & _ & RT & _) & TC). apply shape_triangle_iff in RT. split; [exact RT|]. destruct (ALL _ _ _ _ RT) as (_ & [(AR & EX)|TA]).
    - pose proof (triangle_cast_ok eps p q r y d Heps AR EX) as TK. change (cs_side s) with d in TC. rewrite TC in TK. exact TK.
    - exfalso. change (cs_side s) with d in TC. destruct (triangle_cast_wrong_side eps p q r y Heps) as (W1 & W2). unfold turned_away in TA. destruct d; [rewrite (W1 TA) in TC; discriminate|rewrite (W2 TA) in TC; discriminate|exact TA]. }
  destruct K as [(-> & K)|(id & i & p & q & r & h & I & A & -> & L & K)].
  - intros i p q r S NT u U T. destruct (HIT _ _ _ _ _ S NT U T) as (id & h & I & A & F). specialize (K _ _ _ _ _ _ I A). lra.
  - destruct (SC _ _ _ _ _ _ A) as (S & TH). exists p, q, r. split; [exact S|]. split; [exact TH|]. intros j p' q' r' u S' NT U T.
    assert (U' : 0 <= u <= ray_max y) by lra. destruct (HIT _ _ _ _ _ S' NT U' T) as (id' & h' & I' & A' & F). specialize (K _ _ _ _ _ _ I' A'). lra.
Qed.
