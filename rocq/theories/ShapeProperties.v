(** Properties of the collision shapes: bounding boxes, support points, point tests and ray casts. *)
From Coq Require Import Reals Lra Psatz List Bool.
From Verif Require Import Base VecModel VecProofs GeomModel GeomSpec GeomProofs ShapeModel ShapeSpec ShapeProofs ShapeCastProofs ShapeMeshProofs.
Import ListNotations.
Local Open Scope R_scope.

(** A quarter turn about the third axis, with a translation. *)
Definition turned : transform := Tr (V3 5 0 1) (Q4 0 0 (3/5) (4/5)).
Lemma turned_unit : quat_len2 (t_rot turned) = 1.
Proof. unfold turned, quat_len2. cbn [t_rot qx qy qz qw]. lra. Qed.

(** ** C41: world boxes *)
Theorem C41_sphere : forall r t, 0 <= r -> quat_len2 (t_rot t) = 1 -> tight_bounds (moved t (ball vzero r)) (sphere_world_bounds r t).
Proof. intros. now apply sphere_bounds_tight. Qed.
Print Assumptions C41_sphere.
Example C41_sphere_case : tight_bounds (moved turned (ball vzero 2)) (sphere_world_bounds 2 turned).
Proof. apply C41_sphere; [lra|apply turned_unit]. Qed.
Theorem C41_box : forall h t, 0 <= vx h -> 0 <= vy h -> 0 <= vz h -> quat_len2 (t_rot t) = 1 ->
  tight_bounds (moved t (cuboid h)) (transformed_bounds (box_bounds h) t).
Proof.
  intros h t Hx Hy Hz Ht.
  assert (T : tight_bounds (moved t (in_bounds (box_bounds h))) (transformed_bounds (box_bounds h) t)).
  { apply transformed_bounds_tight; [exact Ht| | |]; unfold box_bounds, vneg; cbn [bmin bmax vx vy vz]; lra. }
  assert (E : forall p, moved t (cuboid h) p <-> moved t (in_bounds (box_bounds h)) p).
  { intros p. unfold moved. split; intros (q & Hq & ->); exists q; (split; [now apply cuboid_bounds|reflexivity]). }
  destruct T as (T0 & T1 & T2 & T3 & T4 & T5 & T6). unfold tight_bounds. splits.
  - intros p Hp. apply T0. now apply E.
  - destruct T1 as (p & Hp & X). exists p. split; [now apply E|exact X].
  - destruct T2 as (p & Hp & X). exists p. split; [now apply E|exact X].
  - destruct T3 as (p & Hp & X). exists p. split; [now apply E|exact X].
  - destruct T4 as (p & Hp & X). exists p. split; [now apply E|exact X].
  - destruct T5 as (p & Hp & X). exists p. split; [now apply E|exact X].
  - destruct T6 as (p & Hp & X). exists p. split; [now apply E|exact X].
Qed.
Print Assumptions C41_box.
Example C41_box_case : tight_bounds (moved turned (cuboid (V3 1 2 3))) (transformed_bounds (box_bounds (V3 1 2 3)) turned).
Proof. apply C41_box; cbn [vx vy vz]; try lra. apply turned_unit. Qed.
Theorem C41_capsule : forall hh r t, 0 <= hh -> 0 <= r -> quat_len2 (t_rot t) = 1 ->
  forall p, moved t (capsule hh r) p -> in_bounds (transformed_bounds (capsule_bounds hh r) t) p.
Proof. intros hh r t Hh Hr Ht p (q & Hq & ->). apply transformed_bounds_in; [exact Ht|]. now apply capsule_in_bounds. Qed.
Print Assumptions C41_capsule.
(** The top of the capsule is such a point. *)
Example C41_capsule_case : moved turned (capsule 1 (1/2)) (tr_point turned (V3 0 (3/2) 0)).
Proof.
  exists (V3 0 (3/2) 0). split; [|reflexivity]. apply capsule_iff; try lra. exists 1. cbn [vx vy vz]. lra.
Qed.
(** A capsule that is not turned has exactly the box reported. *)
Theorem C41_capsule_local : forall hh r, 0 <= hh -> 0 <= r -> tight_bounds (capsule hh r) (capsule_bounds hh r).
Proof.
  intros hh r Hh Hr. unfold tight_bounds. split; [intros p; now apply capsule_in_bounds|].
  unfold capsule_bounds. cbn [bmin bmax vx vy vz].
  splits.
  - exists (V3 (- r) 0 0). split; [apply capsule_iff; try lra; exists 0; cbn [vx vy vz]; lra|reflexivity].
  - exists (V3 r 0 0). split; [apply capsule_iff; try lra; exists 0; cbn [vx vy vz]; lra|reflexivity].
  - exists (V3 0 (- hh - r) 0). split; [apply capsule_iff; try lra; exists (- hh); cbn [vx vy vz]; lra|reflexivity].
  - exists (V3 0 (hh + r) 0). split; [apply capsule_iff; try lra; exists hh; cbn [vx vy vz]; lra|reflexivity].
  - exists (V3 0 0 (- r)). split; [apply capsule_iff; try lra; exists 0; cbn [vx vy vz]; lra|reflexivity].
  - exists (V3 0 0 r). split; [apply capsule_iff; try lra; exists 0; cbn [vx vy vz]; lra|reflexivity].
Qed.
Print Assumptions C41_capsule_local.
Theorem C41_triangle : forall a b c t, tight_bounds (moved t (triangle_set a b c)) (triangle_world_bounds a b c t).
Proof. intros. apply triangle_bounds_tight. Qed.
Print Assumptions C41_triangle.

(** ** C42: support points *)
Theorem C42_sphere : forall eps r d, 0 < eps -> 0 <= r -> d = V3 0 0 0 \/ eps < vlen d -> is_support (ball vzero r) d (sphere_support eps r d).
Proof. intros. now apply sphere_support_ok. Qed.
Print Assumptions C42_sphere.
Theorem C42_box : forall eps h d, 0 <= vx h -> 0 <= vy h -> 0 <= vz h -> is_support (cuboid h) d (box_support eps h d).
Proof. intros. now apply box_support_ok. Qed.
Print Assumptions C42_box.
Theorem C42_capsule : forall eps hh r d, 0 < eps -> 0 <= r -> 0 <= hh -> d = V3 0 0 0 \/ eps < vlen d ->
  is_support (capsule hh r) d (capsule_support eps hh r d).
Proof. intros. now apply capsule_support_ok. Qed.
Print Assumptions C42_capsule.
Example C42_case : is_support (capsule 1 2) (V3 0 3 4) (capsule_support (1/1000) 1 2 (V3 0 3 4)).
Proof.
  apply C42_capsule; try lra. right. unfold vlen, vlen2. cbn [vx vy vz]. replace (0 * 0 + 3 * 3 + 4 * 4) with (5 * 5) by ring.
  rewrite sqrt_square by lra. lra.
Qed.

(** ** C43: sphere ray casts *)
Theorem C43_exact : forall eps r y, 0 < eps -> 0 < r -> eps <= vlen2 (vsub (ray_p2 y) (ray_p1 y)) -> ~ ball vzero r (ray_p1 y) ->
  match sphere_cast eps r y with
  | Some h => first_hit (ball vzero r) y h /\ hit_fraction h < ray_max y /\ dist (hit_point h) vzero = r
  | None => misses (ball vzero r) y
  end.
Proof.
  intros eps r y He Hr Hl Ho. unfold sphere_cast. destruct (sphere_cast_at eps r vzero y) as [[t p]|] eqn:E.
  - apply sphere_cast_at_some in E as (Ht & Hp & Hd & Hf); [|lra..].
    assert (Ed : dist p vzero = r).
    { rewrite dist_vlen. unfold vlen. rewrite Hd. apply sqrt_square. lra. }
    cbn [hit_fraction hit_point hit_normal]. splits; try lra; try assumption. unfold first_hit, outward. cbn [hit_fraction hit_point hit_normal].
    splits; try lra; try assumption.
    + unfold ball. lra.
    + intros u Hu. apply Hf. lra.
    + intros Z. rewrite Z in Ed. change (V3 0 0 0) with vzero in Ed. rewrite dist_vlen in Ed.
      replace (vsub vzero vzero) with vzero in Ed by vring. rewrite vlen_vzero in Ed. lra.
    + intros q Hq. unfold ball in Hq. apply dist_le_sq in Hq; [|lra].
      assert (Q : vlen2 q <= r * r) by (replace q with (vsub q vzero) by vring; exact Hq).
      assert (P : vlen2 p = r * r) by (rewrite <- Hd; f_equal; vring).
      rewrite <- offset_dot. pose proof (vlen2_nonneg (vsub q p)) as N.
      replace (vlen2 (vsub q p)) with (vlen2 q + vlen2 p - 2 * vdot q p) in N by vring.
      replace (vdot (vsub q p) p) with (vdot q p - vlen2 p) by vring. lra.
  - apply sphere_cast_at_none in E; try lra; assumption.
Qed.
Print Assumptions C43_exact.
Theorem C43_inside : forall eps r y, 0 <= r -> dist (ray_p1 y) vzero < r -> sphere_cast eps r y = None.
Proof. intros eps r y Hr Hd. unfold sphere_cast. now rewrite sphere_cast_at_inside. Qed.
Print Assumptions C43_inside.
Definition down_ray : ray := Ray (V3 0 0 5) (V3 0 0 0) 1.
Example C43_case : exists h, sphere_cast (1/1000) 1 down_ray = Some h /\ first_hit (ball vzero 1) down_ray h.
Proof.
  assert (D : forall p, vlen2 (vsub p vzero) = vx p * vx p + vy p * vy p + vz p * vz p) by (intros; vring).
  pose proof (C43_exact (1/1000) 1 down_ray) as C.
  destruct (sphere_cast (1/1000) 1 down_ray) as [h|].
  - exists h. split; [reflexivity|]. apply C; try lra.
    + unfold down_ray, vlen2, vsub. cbn [ray_p1 ray_p2 vx vy vz]. lra.
    + unfold ball. intros X. apply dist_le_sq in X; [|lra]. rewrite D in X. unfold down_ray in X. cbn [ray_p1 vx vy vz] in X. lra.
  - exfalso. assert (M : misses (ball vzero 1) down_ray).
    { apply C; try lra.
      + unfold down_ray, vlen2, vsub. cbn [ray_p1 ray_p2 vx vy vz]. lra.
      + unfold ball. intros X. apply dist_le_sq in X; [|lra]. rewrite D in X. unfold down_ray in X. cbn [ray_p1 vx vy vz] in X. lra. }
    apply (M (9/10)); [cbn [ray_max down_ray]; lra|]. unfold ball. apply dist_le_sq; [lra|]. rewrite D.
    unfold ray_at, down_ray, lerp. cbn [ray_p1 ray_p2 vx vy vz]. lra.
Qed.

(** ** C44: box ray casts *)
Theorem C44_exact : forall eps big h y, 0 < eps -> 0 < big -> ray_max y <= big -> 0 < vx h /\ 0 < vy h /\ 0 < vz h ->
  (forall i, comp (vsub (ray_p2 y) (ray_p1 y)) i = 0 \/ eps <= Rabs (comp (vsub (ray_p2 y) (ray_p1 y)) i)) ->
  match box_cast eps big h y with
  | Some r => first_hit (cuboid h) y r /\
      (exists i s, (s = 1 \/ s = -1) /\ hit_normal r = axis i (s * comp h i) /\ comp (hit_point r) i = s * comp h i /\
                   s * comp (vsub (ray_p2 y) (ray_p1 y)) i < 0)
  | None => cuboid h (ray_p1 y) \/ misses_closed (cuboid h) y
  end.
Proof. intros eps big h y H1 H2 H3 H4 H5. now apply box_cast_ok. Qed.
Print Assumptions C44_exact.
Lemma down_ray_dirs eps : eps <= 5 -> forall i, comp (vsub (ray_p2 down_ray) (ray_p1 down_ray)) i = 0 \/ eps <= Rabs (comp (vsub (ray_p2 down_ray) (ray_p1 down_ray)) i).
Proof.
  intros He i. unfold down_ray, vsub, comp. cbn [ray_p1 ray_p2 vx vy vz]. destruct i as [|[|i]]; [left; ring|left; ring|right].
  rewrite Rabs_left; lra.
Qed.
Example C44_case : exists h, box_cast (1/1000) 1000 (V3 1 2 3) down_ray = Some h /\ first_hit (cuboid (V3 1 2 3)) down_ray h.
Proof.
  assert (C := C44_exact (1/1000) 1000 (V3 1 2 3) down_ray).
  assert (M : ray_max down_ray <= 1000) by (cbn [ray_max down_ray]; lra).
  assert (P : 0 < vx (V3 1 2 3) /\ 0 < vy (V3 1 2 3) /\ 0 < vz (V3 1 2 3)) by (cbn [vx vy vz]; lra).
  specialize (C ltac:(lra) ltac:(lra) M P (down_ray_dirs (1/1000) ltac:(lra))).
  destruct (box_cast (1/1000) 1000 (V3 1 2 3) down_ray) as [h|].
  - exists h. tauto.
  - exfalso. destruct C as [C|C].
    + unfold cuboid, down_ray in C. cbn [ray_p1 vx vy vz] in C. lra.
    + apply (C (1/2)); [cbn [ray_max down_ray]; lra|]. unfold cuboid, ray_at, down_ray, lerp. cbn [ray_p1 ray_p2 vx vy vz]. lra.
Qed.

(** ** C45: capsule ray casts *)
(** Missing for the full claim: rays whose extent across the axis is small without being zero, and fractions above one;
    the two refutations show that the answer can be wrong there. *)
Theorem C45_exact_partial : forall eps hh r y, 0 < eps -> 0 < hh -> 0 < r -> ~ capsule hh r (ray_p1 y) ->
  eps <= vlen2 (vsub (ray_p2 y) (ray_p1 y)) -> ray_max y <= 1 ->
  (let nx := vx (ray_p2 y) - vx (ray_p1 y) in let nz := vz (ray_p2 y) - vz (ray_p1 y) in
   nx * nx + nz * nz = 0 \/ / 100 <= 4 * (hh * hh) * (nx * nx + nz * nz)) ->
  match capsule_cast eps hh r y with Some h => first_hit (capsule hh r) y h | None => misses (capsule hh r) y end.
Proof. intros eps hh r y H1 H2 H3 H4 H5 H6 H7. now apply capsule_cast_ok. Qed.
Print Assumptions C45_exact_partial.
Example C45_case : exists h, capsule_cast (1/1000) 2 1 (Ray (V3 3 1 0) (V3 0 1 0) 1) = Some h.
Proof.
  set (y := Ray (V3 3 1 0) (V3 0 1 0) 1).
  assert (C := C45_exact_partial (1/1000) 2 1 y ltac:(lra) ltac:(lra) ltac:(lra)).
  assert (O : ~ capsule 2 1 (ray_p1 y)).
  { intros X. apply capsule_iff in X as (y0 & Hy & X); try lra. unfold y in X. cbn [ray_p1 vx vy vz] in X.
    pose proof (Rle_0_sqr (1 - y0)). unfold Rsqr in *. lra. }
  assert (L : 1 / 1000 <= vlen2 (vsub (ray_p2 y) (ray_p1 y))) by (unfold y, vlen2, vsub; cbn [ray_p1 ray_p2 vx vy vz]; lra).
  assert (M : ray_max y <= 1) by (cbn [ray_max y]; lra).
  specialize (C O L M).
  assert (A : let nx := vx (ray_p2 y) - vx (ray_p1 y) in let nz := vz (ray_p2 y) - vz (ray_p1 y) in
     nx * nx + nz * nz = 0 \/ / 100 <= 4 * (2 * 2) * (nx * nx + nz * nz)) by (right; unfold y; cbn [ray_p1 ray_p2 vx vy vz]; lra).
  specialize (C A). destruct (capsule_cast (1/1000) 2 1 y) as [h|]; [now exists h|]. exfalso.
  apply (C (9/10)); [cbn [ray_max y]; lra|]. apply capsule_iff; try lra. exists 1.
  unfold ray_at, lerp, y. cbn [ray_p1 ray_p2 vx vy vz]. lra.
Qed.
(** A short ray into the side of a capsule is reported as a miss, whatever the threshold for short rays. *)
Theorem C45_short_ray_refuted : exists hh r y, 0 < hh /\ 0 < r /\ ~ capsule hh r (ray_p1 y) /\ ray_max y <= 1 /\
  (exists u, 0 <= u < ray_max y /\ interior (capsule hh r) (ray_at y u)) /\ forall eps, capsule_cast eps hh r y = None.
Proof.
  exists (1/2), 1, (Ray (V3 (26/25) 0 0) (V3 (24/25) 0 0) 1). cbn [ray_p1 ray_max]. splits; try lra.
  - intros X. apply capsule_iff in X as (y0 & Hy & X); try lra. cbn [vx vy vz] in X. pose proof (Rle_0_sqr (0 - y0)). unfold Rsqr in *. lra.
  - exists (3/4). split; [lra|]. apply (capsule_open_interior (1/2) 1 _ 0); try lra. unfold ray_at, lerp. cbn [ray_p1 ray_p2 vx vy vz]. lra.
  - intros eps. unfold capsule_cast, vdot, vsub. cbn [ray_p1 ray_p2 ray_max vx vy vz].
    assert (R1 : forall a b, b <= a -> rlt a b = false) by (intros; now apply rlt_false).
    assert (R2 : forall a b, a < b -> rlt a b = true) by (intros; now apply rlt_true).
    rewrite R1 by lra. cbn [andb]. rewrite R1 by lra. cbn [andb]. rewrite R2; [rewrite R2 by lra; reflexivity|].
    apply Rabs_def1; lra.
Qed.
Print Assumptions C45_short_ray_refuted.
(** A ray with a maximum fraction above one misses a capsule that lies beyond its second point. *)
Theorem C45_large_fraction_refuted : exists hh r y, 0 < hh /\ 0 < r /\ ~ capsule hh r (ray_p1 y) /\
  (exists u, 0 <= u < ray_max y /\ interior (capsule hh r) (ray_at y u)) /\ forall eps, capsule_cast eps hh r y = None.
Proof.
  exists (1/2), 1, (Ray (V3 0 5 0) (V3 0 4 0) 10). cbn [ray_p1 ray_max]. splits; try lra.
  - intros X. apply capsule_iff in X as (y0 & Hy & X); try lra. cbn [vx vy vz] in X. nra.
  - exists 5. split; [lra|]. apply (capsule_open_interior (1/2) 1 _ 0); try lra. unfold ray_at, lerp. cbn [ray_p1 ray_p2 vx vy vz]. lra.
  - intros eps. unfold capsule_cast, vdot, vsub. cbn [ray_p1 ray_p2 ray_max vx vy vz].
    assert (R1 : forall a b, b <= a -> rlt a b = false) by (intros; now apply rlt_false).
    assert (R2 : forall a b, a < b -> rlt a b = true) by (intros; now apply rlt_true).
    rewrite R1 by lra. cbn [andb]. rewrite R2 by lra. rewrite R2 by lra. reflexivity.
Qed.
Print Assumptions C45_large_fraction_refuted.

(** ** C46: point tests *)
Theorem C46_sphere : forall r p, 0 < r -> (sphere_inside r p = true <-> interior (ball vzero r) p).
Proof. intros. now apply sphere_inside_ok. Qed.
Print Assumptions C46_sphere.
Theorem C46_box : forall h p, box_inside h p = true <-> interior (cuboid h) p.
Proof. intros. apply box_inside_ok. Qed.
Print Assumptions C46_box.
Theorem C46_capsule : forall hh r p, 0 <= hh -> 0 < r -> (capsule_inside hh r p = true <-> interior (capsule hh r) p).
Proof. intros. now apply capsule_inside_ok. Qed.
Print Assumptions C46_capsule.
Example C46_case : interior (capsule 1 1) (V3 0 (3/2) (1/2)).
Proof.
  apply C46_capsule; try lra. unfold capsule_inside. cbn [vx vy vz].
  rewrite orb_true_iff, orb_true_iff. left. right. apply rlt_true. lra.
Qed.

(** ** C75: triangle ray casts *)
Theorem C75_exact_partial : forall eps a b c y s, 0 < eps -> eps <= vlen (vcross (vsub b a) (vsub c a)) -> triangle_exact eps a b c y s ->
  match triangle_cast eps s a b c y with Some h => triangle_hit a b c y h | None => misses_closed (triangle_set a b c) y end.
Proof. intros. now apply triangle_cast_ok. Qed.
Print Assumptions C75_exact_partial.
Theorem C75_wrong_side : forall eps a b c y, 0 < eps ->
  let k := vdot (vsub (ray_p2 y) (ray_p1 y)) (vcross (vsub b a) (vsub c a)) in
  (0 <= k -> triangle_cast eps Front a b c y = None) /\ (k <= 0 -> triangle_cast eps Back a b c y = None).
Proof. intros. now apply triangle_cast_wrong_side. Qed.
Print Assumptions C75_wrong_side.
Definition tri_a : vec3 := V3 0 0 0.
Definition tri_b : vec3 := V3 1 0 0.
Definition tri_c : vec3 := V3 0 1 0.
Example C75_case : exists h, triangle_cast (1/1000) Front tri_a tri_b tri_c (Ray (V3 (1/4) (1/4) 1) (V3 (1/4) (1/4) (-1)) 1) = Some h.
Proof.
  set (y := Ray (V3 (1/4) (1/4) 1) (V3 (1/4) (1/4) (-1)) 1).
  assert (N : vcross (vsub tri_b tri_a) (vsub tri_c tri_a) = V3 0 0 1) by (unfold tri_a, tri_b, tri_c, vcross, vsub; cbn [vx vy vz]; f_equal; ring).
  assert (L : vlen (V3 0 0 1) = 1) by (rewrite vlen_axis_z; apply Rabs_pos_eq; lra).
  assert (C := C75_exact_partial (1/1000) tri_a tri_b tri_c y Front ltac:(lra)). rewrite N, L in C.
  assert (X : triangle_exact (1/1000) tri_a tri_b tri_c y Front).
  { unfold triangle_exact. rewrite N. unfold y, vdot, vsub. cbn [ray_p1 ray_p2 vx vy vz]. lra. }
  specialize (C ltac:(lra) X). destruct (triangle_cast (1/1000) Front tri_a tri_b tri_c y) as [h|]; [now exists h|].
  exfalso. apply (C (1/2)); [cbn [ray_max y]; lra|]. exists (1/2), (1/4), (1/4). splits; try lra.
  unfold ray_at, lerp, y, tri_a, tri_b, tri_c. cbn [ray_p1 ray_p2 vx vy vz]. f_equal; lra.
Qed.
(** With both sides tested, a ray across the prolongation of one edge is reported as a hit outside the triangle. *)
Theorem C75_both_sides_refuted : exists a b c y h, (forall eps, 0 < eps -> eps <= 1 -> eps <= vlen (vcross (vsub b a) (vsub c a))) /\
  (forall eps, 0 < eps -> eps < 1/2 -> triangle_cast eps FrontAndBack a b c y = Some h) /\ ~ triangle_set a b c (hit_point h) /\
  (forall u, ~ triangle_set a b c (ray_at y u)).
Proof.
  assert (L : vlen (V3 0 0 1) = 1) by (rewrite vlen_axis_z; apply Rabs_pos_eq; lra).
  exists tri_a, tri_b, tri_c, (Ray (V3 2 (-1) 1) (V3 2 (-1) (-1)) 1), (Hit (1/2) (V3 2 (-1) 0) (V3 0 0 1)). splits.
  - intros eps _ He. replace (vcross (vsub tri_b tri_a) (vsub tri_c tri_a)) with (V3 0 0 1); [lra|].
    unfold tri_a, tri_b, tri_c, vcross, vsub; cbn [vx vy vz]; f_equal; ring.
  - intros eps He1 He2. unfold triangle_cast. cbn [ray_p1 ray_p2 ray_max].
    assert (EU : vdot (vsub tri_b (V3 2 (-1) 1)) (vcross (vsub (V3 2 (-1) (-1)) (V3 2 (-1) 1)) (vsub tri_c (V3 2 (-1) 1))) = 0)
      by (unfold tri_a, tri_b, tri_c, vdot, vcross, vsub; cbn [vx vy vz]; ring).
    assert (EV : vdot (vsub tri_a (V3 2 (-1) 1)) (vcross (vsub (V3 2 (-1) (-1)) (V3 2 (-1) 1)) (vsub tri_c (V3 2 (-1) 1))) = -4)
      by (unfold tri_a, tri_b, tri_c, vdot, vcross, vsub; cbn [vx vy vz]; ring).
    assert (EW : vdot (vsub tri_a (V3 2 (-1) 1)) (vcross (vsub (V3 2 (-1) (-1)) (V3 2 (-1) 1)) (vsub tri_b (V3 2 (-1) 1))) = -2)
      by (unfold tri_a, tri_b, tri_c, vdot, vcross, vsub; cbn [vx vy vz]; ring).
    rewrite EU, EV, EW. cbn [side_rejects]. unfold same_sign.
    assert (S0 : forall k, rle 0 (0 * k) = true) by (intros; apply rle_true; lra). rewrite !S0. cbn [negb].
    assert (AV : approx_equal eps (- -4) 0 = false) by (unfold approx_equal; apply rlt_false; rewrite Rabs_pos_eq; lra).
    rewrite AV, andb_false_r. cbn [andb].
    assert (HP : vadd (vadd (vscale (0 * (1 / (0 + - -4 + -2))) tri_a) (vscale (- -4 * (1 / (0 + - -4 + -2))) tri_b)) (vscale (-2 * (1 / (0 + - -4 + -2))) tri_c) = V3 2 (-1) 0).
    { unfold vadd, vscale, tri_a, tri_b, tri_c. cbn [vx vy vz]. f_equal; field. }
    rewrite HP.
    assert (HF : vdot (vsub (V3 2 (-1) 0) (V3 2 (-1) 1)) (vsub (V3 2 (-1) (-1)) (V3 2 (-1) 1)) / vlen2 (vsub (V3 2 (-1) (-1)) (V3 2 (-1) 1)) = 1 / 2)
      by (unfold vlen2, vdot, vsub; cbn [vx vy vz]; field).
    rewrite HF. assert (F1 : rlt (1/2) 0 = false) by (apply rlt_false; lra). assert (F2 : rlt 1 (1/2) = false) by (apply rlt_false; lra).
    rewrite F1, F2. cbn [orb]. do 2 f_equal.
    assert (HN : vnormalize eps (vcross (vsub tri_b tri_a) (vsub tri_c tri_a)) = V3 0 0 1).
    { replace (vcross (vsub tri_b tri_a) (vsub tri_c tri_a)) with (V3 0 0 1)
        by (unfold tri_a, tri_b, tri_c, vcross, vsub; cbn [vx vy vz]; f_equal; ring).
      rewrite normalize_long by (rewrite L; lra). rewrite L. unfold vscale. cbn [vx vy vz]. f_equal; field. }
    rewrite HN. replace (rlt 0 (vdot (V3 0 0 1) (vsub (V3 2 (-1) (-1)) (V3 2 (-1) 1)))) with false; [reflexivity|].
    symmetry. apply rlt_false. unfold vdot, vsub. cbn [vx vy vz]. lra.
  - cbn [hit_point]. intros (u & v & w & Hu & Hv & Hw & Hs & E). pose proof (f_equal vx E) as Ex. unfold tri_a, tri_b, tri_c in Ex. cbn [vx] in Ex. lra.
  - intros k (u & v & w & Hu & Hv & Hw & Hs & E). pose proof (f_equal vx E) as Ex. unfold ray_at, lerp, tri_a, tri_b, tri_c in Ex. cbn [ray_p1 ray_p2 vx] in Ex. lra.
Qed.
Print Assumptions C75_both_sides_refuted.

(** ** C76: support points of convex meshes *)
Theorem C76_uniform_partial : forall big m k d, 0 < k -> cm_vertices m <> [] -> (forall v, In v (cm_vertices m) -> - big < vdot d v) ->
  is_support (hull (map (fun v => V3 (vx v * k) (vy v * k) (vz v * k)) (cm_vertices m))) d (cmesh_support0 big m (V3 k k k) d).
Proof. intros. now apply cmesh_support_ok. Qed.
Print Assumptions C76_uniform_partial.
Definition corner : cmesh := CMesh [V3 0 0 0; V3 1 0 0; V3 0 1 0; V3 0 0 1] [].
Example C76_case : forall v, In v (cm_vertices corner) -> - 1000 < vdot (V3 1 2 3) v.
Proof. intros v H. cbn in H. destruct H as [<-|[<-|[<-|[<-|[]]]]]; unfold vdot; cbn [vx vy vz]; lra. Qed.
(** With different scales along the axes the point returned need not be a support point. *)
Theorem C76_scale_refuted : exists m k d, 0 < vx k /\ 0 < vy k /\ 0 < vz k /\ forall big, 1 < big ->
  ~ is_support (hull (map (fun v => V3 (vx v * vx k) (vy v * vy k) (vz v * vz k)) (cm_vertices m))) d (cmesh_support0 big m k d).
Proof.
  exists corner, (V3 1 10 1), (V3 1 (1/2) 0). cbn [vx vy vz]. splits; try lra. intros big Hb (_ & H).
  assert (E : cmesh_support0 big corner (V3 1 10 1) (V3 1 (1/2) 0) = V3 1 0 0).
  { unfold cmesh_support0, corner, cm_vertex. cbn [cm_vertices support_scan]. unfold vdot. cbn [vx vy vz].
    assert (R1 : forall a b, b <= a -> rlt a b = false) by (intros; now apply rlt_false).
    assert (R2 : forall a b, a < b -> rlt a b = true) by (intros; now apply rlt_true).
    rewrite (R2 (- big)) by lra. rewrite (R2 _ (1 * 1 + 1 / 2 * 0 + 0 * 0)) by lra. rewrite R1 by lra. rewrite R1 by lra.
    cbn [nth]. unfold vmul. cbn [vx vy vz]. f_equal; ring. }
  rewrite E in H. specialize (H (V3 0 10 0)). cbn [vx vy vz] in H.
  assert (In0 : hull (map (fun v => V3 (vx v * 1) (vy v * 10) (vz v * 1)) (cm_vertices corner)) (V3 0 10 0)).
  { apply hull_vertex. apply in_map_iff. exists (V3 0 1 0). split; [cbn [vx vy vz]; f_equal; ring|cbn; auto]. }
  specialize (H In0). lra.
Qed.
Print Assumptions C76_scale_refuted.

(** ** C77 and C78: ray casts and point tests of convex meshes *)
Theorem C77_exact_partial : forall m y, 0 <= ray_max y -> (forall f, In f (cm_faces m) -> fst f <> V3 0 0 0) ->
  match cmesh_cast m (V3 1 1 1) y with
  | Some h => first_hit (mesh_set m) y h /\ vlen (hit_normal h) = 1
  | None => mesh_set m (ray_p1 y) \/ misses_closed (mesh_set m) y
  end.
Proof. intros. now apply cmesh_cast_ok. Qed.
Print Assumptions C77_exact_partial.
Theorem C78_exact_partial : forall m p, (forall f, In f (cm_faces m) -> fst f <> V3 0 0 0) ->
  (cmesh_inside m (V3 1 1 1) p = true <-> mesh_set m p).
Proof. intros. now apply cmesh_inside_ok. Qed.
Print Assumptions C78_exact_partial.
(** A cube of side two. *)
Definition cube : cmesh :=
  CMesh [V3 (-1) (-1) (-1); V3 1 (-1) (-1); V3 1 1 (-1); V3 (-1) 1 (-1); V3 (-1) (-1) 1; V3 1 (-1) 1; V3 1 1 1; V3 (-1) 1 1]
        [(V3 1 0 0, 6%nat); (V3 (-1) 0 0, 0%nat); (V3 0 1 0, 6%nat); (V3 0 (-1) 0, 0%nat); (V3 0 0 1, 6%nat); (V3 0 0 (-1), 0%nat)].
Lemma cube_set p : mesh_set cube p <-> cuboid (V3 1 1 1) p.
Proof.
  unfold mesh_set, behind_all, cube, cuboid. rewrite Forall_map, Forall_forall. cbn [cm_faces]. split.
  - intros H. pose proof (H _ (or_introl eq_refl)) as H1. pose proof (H _ (or_intror (or_introl eq_refl))) as H2.
    pose proof (H _ (or_intror (or_intror (or_introl eq_refl)))) as H3. pose proof (H _ (or_intror (or_intror (or_intror (or_introl eq_refl))))) as H4.
    pose proof (H _ (or_intror (or_intror (or_intror (or_intror (or_introl eq_refl)))))) as H5.
    pose proof (H _ (or_intror (or_intror (or_intror (or_intror (or_intror (or_introl eq_refl))))))) as H6.
    unfold offset, cm_vertex in *. cbn [fst snd cm_vertices nth vx vy vz] in *. lra.
  - intros H f Hf. cbn [In] in Hf. unfold offset, cm_vertex. cbn [cm_vertices].
    destruct Hf as [<-|[<-|[<-|[<-|[<-|[<-|[]]]]]]]; cbn [fst snd nth vx vy vz] in *; lra.
Qed.
Lemma cube_normals f : In f (cm_faces cube) -> fst f <> V3 0 0 0.
Proof.
  intros H. cbn [cube cm_faces In] in H. intros Z. pose proof (f_equal vx Z) as Zx. pose proof (f_equal vy Z) as Zy. pose proof (f_equal vz Z) as Zz.
  destruct H as [<-|[<-|[<-|[<-|[<-|[<-|[]]]]]]]; cbn [fst vx vy vz] in *; lra.
Qed.
Example C77_case : exists h, cmesh_cast cube (V3 1 1 1) down_ray = Some h.
Proof.
  assert (C := C77_exact_partial cube down_ray ltac:(cbn [ray_max down_ray]; lra) cube_normals).
  destruct (cmesh_cast cube (V3 1 1 1) down_ray) as [h|]; [now exists h|]. exfalso. destruct C as [C|C].
  - apply cube_set in C. unfold cuboid, down_ray in C. cbn [ray_p1 vx vy vz] in C. lra.
  - apply (C 1); [cbn [ray_max down_ray]; lra|]. apply cube_set. unfold cuboid, ray_at, down_ray, lerp. cbn [ray_p1 ray_p2 vx vy vz]. lra.
Qed.
Lemma double_cube p : scaled (V3 2 2 2) (mesh_set cube) p <-> cuboid (V3 2 2 2) p.
Proof.
  unfold scaled. split.
  - intros (q & Hq & ->). apply cube_set in Hq. unfold cuboid in *. cbn [vx vy vz] in *. lra.
  - intros H. exists (V3 (vx p / 2) (vy p / 2) (vz p / 2)). split.
    + apply cube_set. unfold cuboid in *. cbn [vx vy vz] in *. lra.
    + destruct p as [p1 p2 p3]. cbn [vx vy vz]. f_equal; field.
Qed.
(** The planes used for the cube scaled by two still bound the small cube. *)
Lemma cube_planes_small p : behind_all (code_planes cube (V3 2 2 2) (cm_faces cube)) p -> vz p <= 1.
Proof.
  unfold behind_all, code_planes. rewrite Forall_map, Forall_forall. intros H.
  specialize (H _ (or_intror (or_intror (or_intror (or_intror (or_introl eq_refl)))))). cbn [fst snd] in H. unfold cm_vertex in H. cbn [cube cm_vertices nth] in H.
  assert (E : scaled_normal (V3 2 2 2) (V3 0 0 1) = V3 0 0 1).
  { unfold scaled_normal. replace (vmul (V3 (1 / vx (V3 2 2 2)) (1 / vy (V3 2 2 2)) (1 / vz (V3 2 2 2))) (V3 0 0 1)) with (V3 0 0 (1/2))
      by (unfold vmul; cbn [vx vy vz]; f_equal; field).
    rewrite vlen_axis_z, Rabs_pos_eq by lra. unfold vdiv. cbn [vx vy vz]. f_equal; field. }
  rewrite E in H. unfold offset in H. cbn [vx vy vz] in H. lra.
Qed.
(** A scaled mesh: the ray cast reports a point inside the shape, or nothing. *)
Theorem C77_scale_refuted : exists m k y, 0 < k /\ (forall f, In f (cm_faces m) -> fst f <> V3 0 0 0) /\
  ~ scaled (V3 k k k) (mesh_set m) (ray_p1 y) /\ (exists u, 0 <= u < ray_max y /\ interior (scaled (V3 k k k) (mesh_set m)) (ray_at y u)) /\
  forall h, cmesh_cast m (V3 k k k) y = Some h -> ~ first_hit (scaled (V3 k k k) (mesh_set m)) y h.
Proof.
  exists cube, 2, down_ray. splits; [lra|exact cube_normals| | |].
  - rewrite double_cube. unfold cuboid, down_ray. cbn [ray_p1 vx vy vz]. lra.
  - exists (4/5). cbn [ray_max down_ray]. split; [lra|].
    assert (I : interior (cuboid (V3 2 2 2)) (ray_at down_ray (4/5))).
    { apply C46_box. unfold box_inside, ray_at, lerp, down_ray. cbn [ray_p1 ray_p2 vx vy vz]. rewrite !andb_true_iff, !rlt_true. lra. }
    destruct I as (e & He & I). exists e. split; [exact He|]. intros q Hq. apply double_cube. now apply I.
  - intros h E (H1 & H2 & H3 & H4 & _).
    assert (U : forall f, In f (cm_faces cube) -> scaled_normal (V3 2 2 2) (fst f) <> V3 0 0 0).
    { intros f Hf. apply unit_nonzero, scaled_normal_unit; cbn [vx vy vz]; try lra. now apply cube_normals. }
    pose proof (cmesh_cast_code cube (V3 2 2 2) down_ray ltac:(cbn [ray_max down_ray]; lra) U) as C. cbv zeta in C. rewrite E in C.
    destruct C as [(C1 & C2 & C3 & _) _]. apply cube_planes_small in C3. rewrite C2 in C3.
    unfold ray_at, lerp, down_ray in C3. cbn [ray_p1 ray_p2 vz] in C3.
    apply (H4 (3/5)); [lra|]. apply double_cube. unfold cuboid, ray_at, lerp, down_ray. cbn [ray_p1 ray_p2 vx vy vz]. lra.
Qed.
Print Assumptions C77_scale_refuted.
Theorem C78_scale_refuted : exists m k p, 0 < k /\ (forall f, In f (cm_faces m) -> fst f <> V3 0 0 0) /\
  interior (scaled (V3 k k k) (mesh_set m)) p /\ cmesh_inside m (V3 k k k) p = false.
Proof.
  exists cube, 2, (V3 0 0 (3/2)). splits; [lra|exact cube_normals| |].
  - assert (I : interior (cuboid (V3 2 2 2)) (V3 0 0 (3/2))).
    { apply C46_box. unfold box_inside. cbn [vx vy vz]. rewrite !andb_true_iff, !rlt_true. lra. }
    destruct I as (e & He & I). exists e. split; [exact He|]. intros q Hq. apply double_cube. now apply I.
  - destruct (cmesh_inside cube (V3 2 2 2) (V3 0 0 (3/2))) eqn:E; [|reflexivity]. exfalso.
    apply cmesh_inside_code, cube_planes_small in E. cbn [vz] in E. lra.
Qed.
Print Assumptions C78_scale_refuted.

(** ** C79: colliders in world space *)
(** The ray seen from a collider. *)
Definition seen (t : transform) (y : ray) : ray := Ray (tr_point (tr_inverse t) (ray_p1 y)) (tr_point (tr_inverse t) (ray_p2 y)) (ray_max y).
(** If the shape answers correctly for the ray seen from the collider, then the collider answers correctly for the moved shape. *)
Theorem C79_cast : forall eps cast t (S : vec3 -> Prop) y, 0 < eps -> quat_len2 (t_rot t) = 1 ->
  match cast (seen t y) with Some h => first_hit S (seen t y) h /\ eps <= vlen (hit_normal h) | None => misses S (seen t y) end ->
  match collider_cast eps cast t y with
  | Some h => first_hit (moved t S) y h /\ vlen (hit_normal h) = 1
  | None => misses (moved t S) y
  end.
Proof.
  intros eps cast t S y He Ht H. destruct (cast (seen t y)) as [h'|] eqn:E.
  - destruct H as [H1 H2]. destruct (collider_cast_hit eps cast t S y h' He Ht E H1 H2) as (h & -> & A). exact A.
  - destruct (collider_cast_none eps cast t S y Ht E) as (-> & A & _). now apply A.
Qed.
Print Assumptions C79_cast.
(** For spheres, with nothing assumed about the shape. *)
Theorem C79_sphere : forall eps r t y, 0 < eps -> eps <= r -> quat_len2 (t_rot t) = 1 ->
  eps <= vlen2 (vsub (ray_p2 y) (ray_p1 y)) -> ~ moved t (ball vzero r) (ray_p1 y) ->
  match collider_cast eps (sphere_cast eps r) t y with
  | Some h => first_hit (moved t (ball vzero r)) y h /\ vlen (hit_normal h) = 1
  | None => misses (moved t (ball vzero r)) y
  end.
Proof.
  intros eps r t y He Hr Ht Hl Ho. apply C79_cast; [exact He|exact Ht|].
  assert (C := C43_exact eps r (seen t y) He ltac:(lra)).
  assert (L : eps <= vlen2 (vsub (ray_p2 (seen t y)) (ray_p1 (seen t y)))).
  { unfold seen. cbn [ray_p1 ray_p2]. unfold tr_point, tr_inverse. cbn [t_pos t_rot].
    replace (vsub (vadd (quat_vec (quat_inverse (t_rot t)) (ray_p2 y)) (quat_vec (quat_inverse (t_rot t)) (vneg (t_pos t))))
                  (vadd (quat_vec (quat_inverse (t_rot t)) (ray_p1 y)) (quat_vec (quat_inverse (t_rot t)) (vneg (t_pos t)))))
      with (quat_vec (quat_inverse (t_rot t)) (vsub (ray_p2 y) (ray_p1 y))).
    - rewrite vlen2_dot, quat_vec_dot, quat_len2_inverse, Ht, <- vlen2_dot. lra.
    - rewrite quat_vec_vsub. generalize (quat_vec (quat_inverse (t_rot t)) (ray_p2 y)) (quat_vec (quat_inverse (t_rot t)) (ray_p1 y)) (quat_vec (quat_inverse (t_rot t)) (vneg (t_pos t))).
      intros. vring. }
  assert (O : ~ ball vzero r (ray_p1 (seen t y))).
  { intros X. apply Ho. exists (ray_p1 (seen t y)). split; [exact X|]. unfold seen. cbn [ray_p1]. now rewrite tr_inverse_point. }
  specialize (C L O). unfold sphere_cast in *. destruct (sphere_cast_at eps r vzero (seen t y)) as [[f p]|]; [|exact C].
  destruct C as (C1 & C2 & C3). cbn [hit_normal hit_point] in *. split; [exact C1|].
  rewrite dist_vlen in C3. replace (vsub p vzero) with p in C3 by vring. lra.
Qed.
Print Assumptions C79_sphere.
Theorem C79_inside : forall inside body local (S : vec3 -> Prop) p, quat_len2 (t_rot (tr_mul body local)) = 1 ->
  (forall q, inside q = true <-> S q) -> (collider_inside inside body local p = true <-> moved (tr_mul body local) S p).
Proof. intros. now apply collider_inside_ok. Qed.
Print Assumptions C79_inside.
Example C79_case : quat_len2 (t_rot (tr_mul turned turned)) = 1 /\ (forall q, sphere_inside 1 q = true <-> interior (ball vzero 1) q).
Proof.
  split; [|intros q; apply C46_sphere; lra]. unfold tr_mul, turned, quat_len2. cbn [t_pos t_rot qx qy qz qw vx vy vz]. lra.
Qed.
