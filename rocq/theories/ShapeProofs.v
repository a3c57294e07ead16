(** Proofs about the shapes. *)
From Coq Require Import Reals Lra Psatz List Bool.
From Verif Require Import Base VecModel VecProofs GeomModel GeomSpec GeomProofs ShapeModel ShapeSpec.
Import ListNotations.
Local Open Scope R_scope.


Lemma dist_le_sq p q k : 0 <= k -> dist p q <= k <-> vlen2 (vsub p q) <= k * k.
Proof. intros Hk. rewrite dist_vlen. now apply vlen_le_iff. Qed.
Lemma dist_lt_sq p q k : 0 <= k -> dist p q < k <-> vlen2 (vsub p q) < k * k.
Proof. intros Hk. rewrite dist_vlen. now apply vlen_lt_iff. Qed.
Lemma ray_at_eq y u : ray_at y u = vadd (ray_p1 y) (vscale u (vsub (ray_p2 y) (ray_p1 y))).
Proof. apply lerp_eq. Qed.

(** ** Spheres *)
Section Quadratic.
Variables (l2 b c : R).
Hypothesis Hl : 0 < l2.
Lemma quadratic_split u disc : disc = b * b - l2 * c -> 0 <= disc ->
  l2 * (l2 * u * u + 2 * b * u + c) = (l2 * u + b + sqrt disc) * (l2 * u + b - sqrt disc).
Proof. intros Hd H0. pose proof (sqrt_sqrt disc H0) as S. nra. Qed.
Lemma quadratic_before u disc : disc = b * b - l2 * c -> 0 <= disc -> l2 * u < - b - sqrt disc ->
  0 < l2 * u * u + 2 * b * u + c.
Proof.
  intros Hd H0 Hu. pose proof (quadratic_split u disc Hd H0) as S. pose proof (sqrt_pos disc) as P.
  assert (0 < (l2 * u + b + sqrt disc) * (l2 * u + b - sqrt disc)) by nra. rewrite <- S in H.
  apply (Rmult_lt_reg_l l2); lra.
Qed.
Lemma quadratic_root disc : disc = b * b - l2 * c -> 0 <= disc ->
  let u := (- b - sqrt disc) / l2 in l2 * u * u + 2 * b * u + c = 0.
Proof.
  intros Hd H0 u. pose proof (quadratic_split u disc Hd H0) as S.
  assert (E : l2 * u = - b - sqrt disc) by (unfold u; field; lra).
  replace (l2 * u + b + sqrt disc) with 0 in S by lra.
  rewrite Rmult_0_l in S. apply Rmult_integral in S. destruct S; [lra | assumption].
Qed.
Lemma quadratic_never u : b * b - l2 * c < 0 -> 0 < l2 * u * u + 2 * b * u + c.
Proof. intros H. assert (0 < l2 * (l2 * u * u + 2 * b * u + c)) by (pose proof (Rle_0_sqr (l2 * u + b)) as Q; unfold Rsqr in Q; lra). apply (Rmult_lt_reg_l l2); lra. Qed.
Lemma quadratic_first_nonneg disc : disc = b * b - l2 * c -> 0 <= c -> b <= 0 -> 0 <= disc -> 0 <= - b - sqrt disc.
Proof.
  intros Hd Hc Hb H0. assert (sqrt disc <= - b); [|lra]. apply sq_le_le; [lra|]. rewrite sqrt_sqrt by lra. nra.
Qed.
End Quadratic.

Lemma sphere_poly y ctr r u : vlen2 (vsub (ray_at y u) ctr) - r * r =
  vlen2 (vsub (ray_p2 y) (ray_p1 y)) * u * u + 2 * vdot (vsub (ray_p1 y) ctr) (vsub (ray_p2 y) (ray_p1 y)) * u
  + (vdot (vsub (ray_p1 y) ctr) (vsub (ray_p1 y) ctr) - r * r).
Proof. unfold ray_at, lerp. dv. destruct (ray_p1 y), (ray_p2 y). vunf; cbn [VecModel.vx VecModel.vy VecModel.vz]. ring. Qed.

Lemma sphere_cast_at_some eps r ctr y t p : 0 < eps -> 0 <= r -> sphere_cast_at eps r ctr y = Some (t, p) ->
  0 <= t < ray_max y /\ p = ray_at y t /\ vlen2 (vsub p ctr) = r * r /\ forall u, u < t -> ~ ball ctr r (ray_at y u).
Proof.
  intros He Hr. unfold sphere_cast_at. set (m := vsub (ray_p1 y) ctr). set (d := vsub (ray_p2 y) (ray_p1 y)).
  rcase; [easy|]. rcase; [easy|]. rcase; [easy|]. cbn [orb]. rcase; [easy|]. rcase; [|easy].
  intros E; injection E as E1 E2. set (disc := vdot m d * vdot m d - vlen2 d * (vdot m m - r * r)) in *.
  assert (Hl : 0 < vlen2 d) by lra.
  assert (R0 := quadratic_first_nonneg (vlen2 d) (vdot m d) (vdot m m - r * r) Hl disc eq_refl C C0 C1).
  assert (Et : vlen2 d * t = - vdot m d - sqrt disc) by (subst t; field; lra).
  splits.
  - apply (Rmult_le_reg_l (vlen2 d)); lra.
  - apply (Rmult_lt_reg_l (vlen2 d)); lra.
  - subst p t. now rewrite ray_at_eq.
  - subst p. replace (vadd (ray_p1 y) (vscale _ d)) with (ray_at y t) by (rewrite ray_at_eq; subst t; reflexivity).
    pose proof (sphere_poly y ctr r t) as P. fold m d in P.
    pose proof (quadratic_root (vlen2 d) (vdot m d) (vdot m m - r * r) Hl disc eq_refl C1) as Q. cbv zeta in Q.
    rewrite E1 in Q. lra.
  - intros u Hu B. unfold ball in B. apply dist_le_sq in B; [|easy].
    pose proof (sphere_poly y ctr r u) as P. fold m d in P.
    pose proof (quadratic_before (vlen2 d) (vdot m d) (vdot m m - r * r) Hl u disc eq_refl C1) as Q.
    assert (vlen2 d * u < - vdot m d - sqrt disc) by (rewrite <- Et; now apply Rmult_lt_compat_l).
    specialize (Q H). lra.
Qed.
Lemma sphere_cast_at_none eps r ctr y : 0 <= r -> eps <= vlen2 (vsub (ray_p2 y) (ray_p1 y)) -> 0 < eps ->
  ~ ball ctr r (ray_p1 y) -> sphere_cast_at eps r ctr y = None -> misses (ball ctr r) y.
Proof.
  intros Hr He Hp Ho. unfold ball in Ho.
  assert (Ho' : r * r < vlen2 (vsub (ray_p1 y) ctr)).
  { apply Rnot_le_lt. intros X. apply Ho. now apply dist_le_sq. }
  rewrite vlen2_dot in Ho'.
  unfold sphere_cast_at. set (m := vsub (ray_p1 y) ctr) in *. set (d := vsub (ray_p2 y) (ray_p1 y)) in *.
  intros E u Hu B. unfold ball in B. apply dist_le_sq in B; [|easy].
  pose proof (sphere_poly y ctr r u) as P. fold m d in P. revert E.
  assert (Hl : 0 < vlen2 d) by lra.
  rcase; [lra|]. rcase.
  { intros _. assert (0 <= vlen2 d * u * u) by nra. nra. }
  set (disc := vdot m d * vdot m d - vlen2 d * (vdot m m - r * r)) in *.
  rcase.
  { intros _. pose proof (quadratic_never (vlen2 d) (vdot m d) (vdot m m - r * r) Hl u C1). lra. }
  cbn [orb]. rcase; [lra|]. rcase; [easy|]. intros _.
  pose proof (quadratic_before (vlen2 d) (vdot m d) (vdot m m - r * r) Hl u disc eq_refl C1) as Q.
  assert (vlen2 d * u < ray_max y * vlen2 d) by nra. lapply Q; [lra|]. lra.
Qed.
Lemma sphere_cast_at_inside eps r ctr y : 0 <= r -> dist (ray_p1 y) ctr < r -> sphere_cast_at eps r ctr y = None.
Proof.
  intros Hr Hd. apply dist_lt_sq in Hd; [|easy]. rewrite vlen2_dot in Hd. unfold sphere_cast_at.
  rcase; [easy|lra].
Qed.

(** ** Bounding boxes *)
Lemma extend_eq m mn mx acc : extend m mn mx acc = (fst acc + Rmin (m * mn) (m * mx), snd acc + Rmax (m * mn) (m * mx)).
Proof.
  unfold extend. rcase.
  - now rewrite Rmin_left, Rmax_right by lra.
  - now rewrite Rmin_right, Rmax_left by lra.
Qed.
Lemma between_prod m mn mx x : mn <= x <= mx -> Rmin (m * mn) (m * mx) <= m * x <= Rmax (m * mn) (m * mx).
Proof.
  intros H. unfold Rmin, Rmax. destruct (Rle_dec (m * mn) (m * mx)) as [L|L].
  - destruct (Rle_dec 0 m); [split; nra|]. assert (mn = mx) by nra. assert (x = mn) by lra. subst. lra.
  - assert (m < 0) by nra. split; nra.
Qed.
Lemma transform_row_bounds row p b q : in_bounds b q ->
  fst (transform_row row p b) <= vdot row q + p <= snd (transform_row row p b).
Proof.
  intros (Hx & Hy & Hz). unfold transform_row. rewrite !extend_eq. cbn [fst snd]. unfold vdot.
  pose proof (between_prod (vx row) _ _ _ Hx). pose proof (between_prod (vy row) _ _ _ Hy). pose proof (between_prod (vz row) _ _ _ Hz).
  lra.
Qed.
Lemma rmin_attained m mn mx : mn <= mx -> exists x, (x = mn \/ x = mx) /\ m * x = Rmin (m * mn) (m * mx).
Proof. intros H. unfold Rmin. destruct (Rle_dec (m * mn) (m * mx)); eauto. Qed.
Lemma rmax_attained m mn mx : mn <= mx -> exists x, (x = mn \/ x = mx) /\ m * x = Rmax (m * mn) (m * mx).
Proof. intros H. unfold Rmax. destruct (Rle_dec (m * mn) (m * mx)); eauto. Qed.
Lemma transform_row_attained row p b : vx (bmin b) <= vx (bmax b) -> vy (bmin b) <= vy (bmax b) -> vz (bmin b) <= vz (bmax b) ->
  (exists q, in_bounds b q /\ vdot row q + p = fst (transform_row row p b)) /\
  (exists q, in_bounds b q /\ vdot row q + p = snd (transform_row row p b)).
Proof.
  intros Hx Hy Hz. unfold transform_row. rewrite !extend_eq. cbn [fst snd]. unfold vdot, in_bounds. split.
  - destruct (rmin_attained (vx row) _ _ Hx) as (x & Ix & Ex). destruct (rmin_attained (vy row) _ _ Hy) as (y & Iy & Ey).
    destruct (rmin_attained (vz row) _ _ Hz) as (z & Iz & Ez).
    exists (V3 x y z). cbn [vx vy vz]. splits; lra.
  - destruct (rmax_attained (vx row) _ _ Hx) as (x & Ix & Ex). destruct (rmax_attained (vy row) _ _ Hy) as (y & Iy & Ey).
    destruct (rmax_attained (vz row) _ _ Hz) as (z & Iz & Ez).
    exists (V3 x y z). cbn [vx vy vz]. splits; lra.
Qed.
Lemma tr_point_rows t q : quat_len2 (t_rot t) = 1 ->
  tr_point t q = V3 (vdot (row0 (quat_matrix (t_rot t))) q + vx (t_pos t)) (vdot (row1 (quat_matrix (t_rot t))) q + vy (t_pos t))
                    (vdot (row2 (quat_matrix (t_rot t))) q + vz (t_pos t)).
Proof. intros H. unfold tr_point. rewrite <- (quat_matrix_vec _ _ H). reflexivity. Qed.
Lemma transformed_bounds_in b t q : quat_len2 (t_rot t) = 1 -> in_bounds b q -> in_bounds (transformed_bounds b t) (tr_point t q).
Proof.
  intros Ht Hq. rewrite (tr_point_rows _ _ Ht). unfold transformed_bounds, in_bounds at 1. cbn [bmin bmax vx vy vz].
  splits; now apply transform_row_bounds.
Qed.
Lemma transformed_bounds_tight b t : quat_len2 (t_rot t) = 1 ->
  vx (bmin b) <= vx (bmax b) -> vy (bmin b) <= vy (bmax b) -> vz (bmin b) <= vz (bmax b) ->
  tight_bounds (moved t (in_bounds b)) (transformed_bounds b t).
Proof.
  intros Ht Hx Hy Hz. unfold tight_bounds, moved. split.
  { intros p (q & Hq & ->). now apply transformed_bounds_in. }
  unfold transformed_bounds. cbn [bmin bmax vx vy vz].
  destruct (transform_row_attained (row0 (quat_matrix (t_rot t))) (vx (t_pos t)) b Hx Hy Hz) as [(q1 & I1 & E1) (q2 & I2 & E2)].
  destruct (transform_row_attained (row1 (quat_matrix (t_rot t))) (vy (t_pos t)) b Hx Hy Hz) as [(q3 & I3 & E3) (q4 & I4 & E4)].
  destruct (transform_row_attained (row2 (quat_matrix (t_rot t))) (vz (t_pos t)) b Hx Hy Hz) as [(q5 & I5 & E5) (q6 & I6 & E6)].
  splits; [exists (tr_point t q1)|exists (tr_point t q2)|exists (tr_point t q3)|exists (tr_point t q4)|exists (tr_point t q5)|exists (tr_point t q6)];
    (split; [eexists; split; [|reflexivity]; assumption|]); rewrite (tr_point_rows _ _ Ht); cbn [vx vy vz]; assumption.
Qed.
Lemma cuboid_bounds h p : cuboid h p <-> in_bounds (box_bounds h) p.
Proof. unfold cuboid, in_bounds, box_bounds. cbn [bmin bmax vx vy vz vneg]. reflexivity. Qed.
Lemma sq_bound x r : 0 <= r -> x * x <= r * r -> - r <= x <= r.
Proof. intros Hr H. split; [|now apply sq_le_le]. assert (- x <= r); [|lra]. apply sq_le_le; lra. Qed.
Lemma sum_bound x y z r : 0 <= r -> x * x + y * y + z * z <= r * r -> - r <= x <= r /\ - r <= y <= r /\ - r <= z <= r.
Proof.
  intros Hr H. pose proof (Rle_0_sqr x) as X. pose proof (Rle_0_sqr y) as Y. pose proof (Rle_0_sqr z) as Z. unfold Rsqr in *.
  split; [|split]; apply sq_bound; lra.
Qed.
Lemma segment_capsule hh q : 0 <= hh -> on_segment (V3 0 (- hh) 0) (V3 0 hh 0) q <-> vx q = 0 /\ vz q = 0 /\ - hh <= vy q <= hh.
Proof.
  intros Hh. unfold on_segment, lerp. cbn [vx vy vz]. split.
  - intros (t & Ht & ->). cbn [vx vy vz]. splits; try ring; nra.
  - intros (E1 & E2 & H). destruct q as [x y z]. cbn [vx vy vz] in *. subst. destruct (Req_dec hh 0) as [->|Hn].
    + exists 0. split; [lra|]. f_equal; lra.
    + exists ((y + hh) / (2 * hh)). split.
      * split; [apply (Rmult_le_reg_r (2 * hh))|apply (Rmult_le_reg_r (2 * hh))]; try lra;
        unfold Rdiv; rewrite Rmult_assoc, Rinv_l; lra.
      * f_equal; field; lra.
Qed.
(** Membership in a capsule, in coordinates. *)
Lemma capsule_iff hh r p : 0 <= hh -> 0 <= r ->
  capsule hh r p <-> exists y0, - hh <= y0 <= hh /\ vx p * vx p + vz p * vz p + (vy p - y0) * (vy p - y0) <= r * r.
Proof.
  intros Hh Hr. unfold capsule. split.
  - intros (q & Hq & Hd). apply segment_capsule in Hq as (E1 & E2 & H); [|easy]. apply dist_le_sq in Hd; [|easy].
    exists (vy q). split; [easy|]. destruct p, q; vunf; cbn [VecModel.vx VecModel.vy VecModel.vz] in *. subst. lra.
  - intros (y0 & H & Hd). exists (V3 0 y0 0). split; [apply segment_capsule; cbn [vx vy vz]; try easy; splits; lra|].
    apply dist_le_sq; [easy|]. destruct p; vunf; cbn [VecModel.vx VecModel.vy VecModel.vz] in *. lra.
Qed.
Lemma capsule_in_bounds hh r p : 0 <= hh -> 0 <= r -> capsule hh r p -> in_bounds (capsule_bounds hh r) p.
Proof.
  intros Hh Hr H. apply capsule_iff in H as (y0 & Hy & Hd); [|easy..]. unfold in_bounds, capsule_bounds. cbn [bmin bmax vx vy vz].
  destruct (sum_bound (vx p) (vz p) (vy p - y0) r) as (X & Z & Y); lra.
Qed.
Lemma tr_point_zero t : tr_point t vzero = t_pos t.
Proof. unfold tr_point. destruct t as [p q]. dv. unfold quat_vec. vunf. cbn [t_pos t_rot qx qy qz qw VecModel.vx VecModel.vy VecModel.vz]. compw; ring. Qed.
Lemma tr_isometry t p q : quat_len2 (t_rot t) = 1 -> dist (tr_point t p) (tr_point t q) = dist p q.
Proof.
  intros Ht. rewrite !dist_vlen. unfold tr_point.
  replace (vsub (vadd (quat_vec (t_rot t) p) (t_pos t)) (vadd (quat_vec (t_rot t) q) (t_pos t))) with (quat_vec (t_rot t) (vsub p q)).
  - unfold vlen. f_equal. rewrite !vlen2_dot, quat_vec_dot, Ht. ring.
  - rewrite quat_vec_vsub. generalize (quat_vec (t_rot t) p) (quat_vec (t_rot t) q). intros; destruct (t_pos t). vring.
Qed.
Lemma tr_inverse_point t p : quat_len2 (t_rot t) = 1 -> tr_point t (tr_point (tr_inverse t) p) = p.
Proof.
  intros H. unfold tr_point, tr_inverse. cbn [t_pos t_rot]. rewrite <- quat_vec_vadd.
  rewrite <- (quat_inverse_inverse (t_rot t)) at 1. rewrite quat_vec_inverse, quat_len2_inverse, H.
  destruct p, (t_pos t). vunf; cbn [VecModel.vx VecModel.vy VecModel.vz]. compw; ring.
Qed.
Lemma tr_point_inverse t p : quat_len2 (t_rot t) = 1 -> tr_point (tr_inverse t) (tr_point t p) = p.
Proof.
  intros H. unfold tr_point, tr_inverse. cbn [t_pos t_rot]. rewrite <- quat_vec_vadd.
  replace (vadd (vadd (quat_vec (t_rot t) p) (t_pos t)) (vneg (t_pos t))) with (quat_vec (t_rot t) p).
  - rewrite quat_vec_inverse, H. destruct p. vunf; cbn [VecModel.vx VecModel.vy VecModel.vz]. compw; ring.
  - generalize (quat_vec (t_rot t) p). intros. destruct (t_pos t). vring.
Qed.
Lemma sphere_bounds_tight r t : 0 <= r -> quat_len2 (t_rot t) = 1 -> tight_bounds (moved t (ball vzero r)) (sphere_world_bounds r t).
Proof.
  intros Hr Ht. split.
  - intros p (q & Hq & ->). unfold ball in Hq. rewrite <- (tr_isometry t q vzero Ht), tr_point_zero in Hq.
    apply dist_le_sq in Hq; [|easy]. revert Hq. generalize (tr_point t q). intros p Hq.
    unfold in_bounds, sphere_world_bounds. cbn [bmin bmax]. destruct p as [x y z], (t_pos t) as [a b c].
    vunf; cbn [vx vy vz] in *.
    destruct (sum_bound (x - a) (y - b) (z - c) r) as (X & Y & Z); lra.
  - assert (W : forall v, vlen2 v = r * r -> moved t (ball vzero r) (vadd (t_pos t) v)).
    { intros v Hv. exists (tr_point (tr_inverse t) (vadd (t_pos t) v)). split; [|now rewrite tr_inverse_point].
      unfold ball. rewrite <- (tr_isometry t _ vzero Ht), tr_inverse_point, tr_point_zero by easy. apply dist_le_sq; [easy|].
      replace (vsub (vadd (t_pos t) v) (t_pos t)) with v; [lra|]. destruct (t_pos t). vring. }
    unfold sphere_world_bounds. cbn [bmin bmax].
    splits; [exists (vadd (t_pos t) (V3 (- r) 0 0))|exists (vadd (t_pos t) (V3 r 0 0))|exists (vadd (t_pos t) (V3 0 (- r) 0))
      |exists (vadd (t_pos t) (V3 0 r 0))|exists (vadd (t_pos t) (V3 0 0 (- r)))|exists (vadd (t_pos t) (V3 0 0 r))];
      (split; [apply W; vunf; cbn [vx vy vz]; ring | vunf; cbn [vx vy vz]; ring]).
Qed.
Lemma min3_le a b c u v w : 0 <= u -> 0 <= v -> 0 <= w -> u + v + w = 1 ->
  min3 a b c <= u * a + v * b + w * c <= max3 a b c.
Proof.
  intros Hu Hv Hw Hs.
  assert (A : min3 a b c <= a /\ min3 a b c <= b /\ min3 a b c <= c /\ a <= max3 a b c /\ b <= max3 a b c /\ c <= max3 a b c).
  { unfold min3, max3. pose proof (Rmin_l (Rmin a b) c). pose proof (Rmin_r (Rmin a b) c). pose proof (Rmin_l a b). pose proof (Rmin_r a b).
    pose proof (Rmax_l (Rmax a b) c). pose proof (Rmax_r (Rmax a b) c). pose proof (Rmax_l a b). pose proof (Rmax_r a b). lra. }
  destruct A as (A1 & A2 & A3 & B1 & B2 & B3). set (mn := min3 a b c) in *. set (mx := max3 a b c) in *.
  pose proof (Rmult_le_compat_l u _ _ Hu A1). pose proof (Rmult_le_compat_l v _ _ Hv A2). pose proof (Rmult_le_compat_l w _ _ Hw A3).
  pose proof (Rmult_le_compat_l u _ _ Hu B1). pose proof (Rmult_le_compat_l v _ _ Hv B2). pose proof (Rmult_le_compat_l w _ _ Hw B3).
  assert (E : forall k, u * k + v * k + w * k = k) by (intros k; rewrite <- !Rmult_plus_distr_r, Hs; ring).
  pose proof (E mn). pose proof (E mx). lra.
Qed.
Lemma tr_point_mix t a b c u v w : u + v + w = 1 ->
  tr_point t (V3 (u * vx a + v * vx b + w * vx c) (u * vy a + v * vy b + w * vy c) (u * vz a + v * vz b + w * vz c)) =
  let a := tr_point t a in let b := tr_point t b in let c := tr_point t c in
  V3 (u * vx a + v * vx b + w * vx c) (u * vy a + v * vy b + w * vy c) (u * vz a + v * vz b + w * vz c).
Proof.
  intros H. assert (E : w = 1 - u - v) by lra. subst w. cbv zeta. unfold tr_point. destruct t as [p q]. dv. unfold quat_vec. vunf.
  cbn [t_pos t_rot qx qy qz qw VecModel.vx VecModel.vy VecModel.vz]. compw; ring.
Qed.
Lemma triangle_vertices a b c : triangle_set a b c a /\ triangle_set a b c b /\ triangle_set a b c c.
Proof.
  splits; [exists 1, 0, 0|exists 0, 1, 0|exists 0, 0, 1]; splits; try lra; apply v3_eq; cbn [vx vy vz]; ring.
Qed.
Lemma triangle_bounds_tight a b c t : tight_bounds (moved t (triangle_set a b c)) (triangle_world_bounds a b c t).
Proof.
  split.
  - intros p (q & (u & v & w & Hu & Hv & Hw & Hs & ->) & ->). rewrite tr_point_mix by easy. cbv zeta.
    unfold in_bounds, triangle_world_bounds. cbn [bmin bmax vx vy vz]. splits; now apply min3_le.
  - destruct (triangle_vertices a b c) as (Ta & Tb & Tc). unfold triangle_world_bounds. cbn [bmin bmax vx vy vz].
    assert (Mn : forall x y z (P : R -> Prop), P x -> P y -> P z -> P (min3 x y z)).
    { intros x y z P ? ? ?. unfold min3, Rmin. repeat destruct (Rle_dec _ _); assumption. }
    assert (Mx : forall x y z (P : R -> Prop), P x -> P y -> P z -> P (max3 x y z)).
    { intros x y z P ? ? ?. unfold max3, Rmax. repeat destruct (Rle_dec _ _); assumption. }
    assert (Ma : moved t (triangle_set a b c) (tr_point t a)) by (eexists; split; [exact Ta|reflexivity]).
    assert (Mb : moved t (triangle_set a b c) (tr_point t b)) by (eexists; split; [exact Tb|reflexivity]).
    assert (Mc : moved t (triangle_set a b c) (tr_point t c)) by (eexists; split; [exact Tc|reflexivity]).
    splits;
      first [apply Mn with (P := fun k => exists p, moved t (triangle_set a b c) p /\ _ p = k)
            |apply Mx with (P := fun k => exists p, moved t (triangle_set a b c) p /\ _ p = k)]; eauto.
Qed.

(** ** Support points *)
Lemma with_margin_support eps r (S : vec3 -> Prop) (s d : vec3) : 0 < eps -> 0 <= r -> d = vzero \/ eps < vlen d ->
  (forall p, S p -> vdot p d <= vdot s d) -> S s ->
  let s' := with_margin eps r s d in
  (dist s' s <= r) /\ (forall p e, S p -> dist e p <= r -> vdot e d <= vdot s' d).
Proof.
  intros He Hr Hd HS Hs s'.
  assert (D : forall p e, dist e p <= r -> vdot e d <= vdot p d + r * vlen d).
  { intros p e H. rewrite dist_vlen in H. pose proof (cauchy_schwarz (vsub e p) d) as C. rewrite vdot_vsub_l in C.
    pose proof (vlen_nonneg d). assert (vlen (vsub e p) * vlen d <= r * vlen d) by (apply Rmult_le_compat_r; lra). lra. }
  subst s'. unfold with_margin. destruct (req r 0) eqn:C; [apply req_true in C | apply req_false in C].
  { subst r. split; [apply dist_le_sq; [lra|]; dv; vunf; cbn [vx vy vz]; lra|].
    intros p e Hp H. specialize (D p e H). specialize (HS p Hp). lra. }
  rcase.
  - assert (He2 : eps <= vlen d).
    { apply sq_le_le; [apply vlen_nonneg|]. rewrite vlen_sq. lra. }
    rewrite (vunit_scale _ _ He2). assert (Hp : 0 < vlen d) by lra. split.
    + rewrite dist_vlen. replace (vsub _ s) with (vscale r (vscale (1 / vlen d) d)) by (generalize (vscale (1 / vlen d) d); intros; destruct s; vring).
      rewrite !vlen_vscale. rewrite (Rabs_pos_eq r Hr).
      rewrite (Rabs_pos_eq (1 / vlen d)) by (apply Rlt_le; unfold Rdiv; rewrite Rmult_1_l; now apply Rinv_0_lt_compat).
      unfold Rdiv. rewrite Rmult_1_l, Rinv_l by lra. lra.
    + intros p e Hq H. specialize (D p e H). specialize (HS p Hq). rewrite vdot_vadd_l, !vdot_vscale_l.
      rewrite <- vlen2_dot, <- vlen_sq. replace (1 / vlen d * (vlen d * vlen d)) with (vlen d) by (field; lra). lra.
  - destruct Hd as [-> |Hd].
    + split.
      * rewrite dist_vlen. replace (vsub _ s) with (vscale r (V3 0 (-1) 0)) by (destruct s; vring).
        rewrite vlen_vscale, (Rabs_pos_eq r Hr). replace (vlen (V3 0 (-1) 0)) with 1; [lra|].
        unfold vlen, vlen2. cbn [vx vy vz]. replace (0 * 0 + -1 * -1 + 0 * 0) with 1 by ring. now rewrite sqrt_1.
      * intros p e _ _. unfold vdot, vzero. cbn [vx vy vz]. lra.
    + exfalso. pose proof (vlen_sq d) as Q. nra.
Qed.
Lemma is_support_dot S d s : is_support S d s <-> S s /\ forall p, S p -> vdot p d <= vdot s d.
Proof. reflexivity. Qed.
Lemma sphere_support_ok eps r d : 0 < eps -> 0 <= r -> d = vzero \/ eps < vlen d -> is_support (ball vzero r) d (sphere_support eps r d).
Proof.
  intros He Hr Hd. apply is_support_dot. unfold sphere_support.
  destruct (with_margin_support eps r (fun p => p = vzero) (sphere_support0 d) d He Hr Hd) as [A B].
  - intros p ->. apply Rle_refl.
  - reflexivity.
  - split; [exact A|]. intros p Hp. exact (B vzero p eq_refl Hp).
Qed.
Lemma box_support_ok eps h d : 0 <= vx h -> 0 <= vy h -> 0 <= vz h -> is_support (cuboid h) d (box_support eps h d).
Proof.
  intros Hx Hy Hz. unfold box_support, with_margin. destruct (req 0 0) eqn:E; [|apply req_false in E; now elim E].
  unfold is_support, cuboid, box_support0. cbn [vx vy vz]. split.
  - splits; rcase; lra.
  - intros p (A & B & C).
    assert (X : forall k a b, - b <= a <= b -> a * k <= (if rlt k 0 then - b else b) * k) by (intros k a b H; rcase; nra).
    pose proof (X (vx d) _ _ A). pose proof (X (vy d) _ _ B). pose proof (X (vz d) _ _ C). lra.
Qed.
Lemma capsule_support_ok eps hh r d : 0 < eps -> 0 <= r -> 0 <= hh -> d = vzero \/ eps < vlen d ->
  is_support (capsule hh r) d (capsule_support eps hh r d).
Proof.
  intros He Hr Hh Hd. apply is_support_dot. unfold capsule_support.
  destruct (with_margin_support eps r (on_segment (V3 0 (- hh) 0) (V3 0 hh 0)) (capsule_support0 hh d) d He Hr Hd) as [A B].
  - intros p Hp. apply segment_capsule in Hp as (E1 & E2 & Hp); [|easy]. unfold capsule_support0. destruct p as [x y z]. cbn [vx vy vz] in *. subst.
    rcase; unfold vdot; cbn [vx vy vz]; destruct (Rle_dec 0 (vy d)); nra.
  - apply segment_capsule; [easy|]. unfold capsule_support0. rcase; cbn [vx vy vz]; lra.
  - split.
    + eexists. split; [|exact A]. apply segment_capsule; [easy|]. unfold capsule_support0. rcase; cbn [vx vy vz]; lra.
    + intros p (q & Hq & Hpq). eapply B; eauto.
Qed.

(** ** Point tests *)
Lemma open_interior (S Q : vec3 -> Prop) r p q : (forall x, dist x q <= r -> S x) -> dist p q < r -> interior S p.
Proof.
  intros H Hp. exists (r - dist p q). split; [lra|]. intros x Hx. apply H. pose proof (triangle x p q). rewrite dist_sym in Hx. lra.
Qed.
Lemma sphere_inside_ok r p : 0 < r -> sphere_inside r p = true <-> interior (ball vzero r) p.
Proof.
  intros Hr. unfold sphere_inside. rewrite rlt_true. split.
  - intros H. eapply (open_interior _ (fun _ => True) r p vzero); [easy|]. apply dist_lt_sq; [lra|].
    replace (vsub p vzero) with p; [easy|]. vring.
  - intros (e & He & H). destruct (Rlt_dec (vlen2 p) (r * r)) as [|C]; [easy|]. exfalso.
    assert (Hl : r <= vlen p). { apply sq_le_le; [apply vlen_nonneg|]. rewrite vlen_sq. lra. }
    set (k := e / (2 * vlen p)). assert (Hk : 0 < k) by (unfold k; apply Rdiv_lt_0_compat; lra).
    assert (Ek : k * vlen p = e / 2) by (unfold k; field; lra).
    specialize (H (vscale (1 + k) p)).
    assert (X : dist p (vscale (1 + k) p) < e).
    { rewrite dist_vlen. replace (vsub p (vscale (1 + k) p)) with (vscale (- k) p) by vring.
      rewrite vlen_vscale, Rabs_Ropp, Rabs_pos_eq by lra. lra. }
    specialize (H X). unfold ball in H. rewrite dist_vlen in H. replace (vsub (vscale (1 + k) p) vzero) with (vscale (1 + k) p) in H by vring.
    rewrite vlen_vscale, Rabs_pos_eq in H by lra. nra.
Qed.
Lemma vlen_axis_x k : vlen (V3 k 0 0) = Rabs k.
Proof. unfold vlen, vlen2. cbn [vx vy vz]. replace (k * k + 0 * 0 + 0 * 0) with (Rsqr k) by (unfold Rsqr; ring). apply sqrt_Rsqr_abs. Qed.
Lemma vlen_axis_y k : vlen (V3 0 k 0) = Rabs k.
Proof. unfold vlen, vlen2. cbn [vx vy vz]. replace (0 * 0 + k * k + 0 * 0) with (Rsqr k) by (unfold Rsqr; ring). apply sqrt_Rsqr_abs. Qed.
Lemma vlen_axis_z k : vlen (V3 0 0 k) = Rabs k.
Proof. unfold vlen, vlen2. cbn [vx vy vz]. replace (0 * 0 + 0 * 0 + k * k) with (Rsqr k) by (unfold Rsqr; ring). apply sqrt_Rsqr_abs. Qed.
Lemma box_inside_ok h p : box_inside h p = true <-> interior (cuboid h) p.
Proof.
  unfold box_inside. rewrite !andb_true_iff, !rlt_true. split.
  - intros (((((A & B) & C) & D) & E) & F).
    set (e := Rmin (Rmin (Rmin (vx h - vx p) (vx h + vx p)) (Rmin (vy h - vy p) (vy h + vy p))) (Rmin (vz h - vz p) (vz h + vz p))).
    assert (He : 0 < e /\ e <= vx h - vx p /\ e <= vx h + vx p /\ e <= vy h - vy p /\ e <= vy h + vy p /\ e <= vz h - vz p /\ e <= vz h + vz p).
    { unfold e. set (a1 := vx h - vx p). set (a2 := vx h + vx p). set (a3 := vy h - vy p). set (a4 := vy h + vy p). set (a5 := vz h - vz p). set (a6 := vz h + vz p).
      assert (0 < a1 /\ 0 < a2 /\ 0 < a3 /\ 0 < a4 /\ 0 < a5 /\ 0 < a6) by (unfold a1, a2, a3, a4, a5, a6; lra).
      pose proof (Rmin_l a1 a2). pose proof (Rmin_r a1 a2). pose proof (Rmin_l a3 a4). pose proof (Rmin_r a3 a4).
      pose proof (Rmin_l a5 a6). pose proof (Rmin_r a5 a6). pose proof (Rmin_l (Rmin a1 a2) (Rmin a3 a4)). pose proof (Rmin_r (Rmin a1 a2) (Rmin a3 a4)).
      pose proof (Rmin_l (Rmin (Rmin a1 a2) (Rmin a3 a4)) (Rmin a5 a6)). pose proof (Rmin_r (Rmin (Rmin a1 a2) (Rmin a3 a4)) (Rmin a5 a6)).
      splits; try lra. repeat apply Rmin_glb_lt; lra. }
    exists e. split; [lra|]. intros q Hq. apply Rlt_le in Hq. apply dist_le_sq in Hq; [|lra].
    destruct p as [x y z], q as [a b c], h as [hx hy hz]. vunf. cbn [vx vy vz] in *.
    destruct (sum_bound (x - a) (y - b) (z - c) e) as (X & Y & Z); [lra|easy|]. unfold cuboid. cbn [vx vy vz]. lra.
  - intros (e & He & H). destruct p as [x y z].
    assert (K : forall v, vlen v < e -> cuboid h (vsub (V3 x y z) v)).
    { intros v Hv. apply H. rewrite dist_vlen. replace (vsub _ _) with v; [easy|]. vring. }
    assert (Hk : Rabs (e / 2) < e) by (rewrite Rabs_pos_eq; lra). assert (Hk' : Rabs (- (e / 2)) < e) by (rewrite Rabs_Ropp; easy).
    pose proof (K (V3 (e / 2) 0 0) ltac:(now rewrite vlen_axis_x)) as K1. pose proof (K (V3 (- (e / 2)) 0 0) ltac:(now rewrite vlen_axis_x)) as K2.
    pose proof (K (V3 0 (e / 2) 0) ltac:(now rewrite vlen_axis_y)) as K3. pose proof (K (V3 0 (- (e / 2)) 0) ltac:(now rewrite vlen_axis_y)) as K4.
    pose proof (K (V3 0 0 (e / 2)) ltac:(now rewrite vlen_axis_z)) as K5. pose proof (K (V3 0 0 (- (e / 2))) ltac:(now rewrite vlen_axis_z)) as K6.
    unfold cuboid, vsub in *. cbn [vx vy vz] in *. lra.
Qed.
(** The open capsule. *)
Lemma capsule_open_interior hh r p y0 : 0 <= hh -> 0 <= r -> - hh <= y0 <= hh ->
  vx p * vx p + vz p * vz p + (vy p - y0) * (vy p - y0) < r * r -> interior (capsule hh r) p.
Proof.
  intros Hh Hr Hy H. apply (open_interior _ (fun _ => True) r p (V3 0 y0 0)).
  - intros x Hx. exists (V3 0 y0 0). split; [|easy]. apply segment_capsule; [easy|]. cbn [vx vy vz]. lra.
  - apply dist_lt_sq; [easy|]. destruct p; vunf. cbn [VecModel.vx VecModel.vy VecModel.vz] in *. lra.
Qed.
Lemma clamp_cases y hh : 0 <= hh -> exists y0, - hh <= y0 <= hh /\ (y = y0 \/ (y0 = hh /\ hh < y) \/ (y0 = - hh /\ y < - hh)).
Proof.
  intros H. destruct (Rle_dec y hh); [destruct (Rle_dec (- hh) y)|].
  - exists y. lra.
  - exists (- hh). lra.
  - exists hh. lra.
Qed.
Lemma capsule_inside_ok hh r p : 0 <= hh -> 0 < r -> capsule_inside hh r p = true <-> interior (capsule hh r) p.
Proof.
  intros Hh Hr. unfold capsule_inside. rewrite !orb_true_iff, !andb_true_iff, !rlt_true. split.
  - intros [[((A & B) & C)|A]|A].
    + apply (capsule_open_interior hh r p (vy p)); lra.
    + apply (capsule_open_interior hh r p hh); lra.
    + apply (capsule_open_interior hh r p (- hh)); lra.
  - intros (e & He & H). destruct (clamp_cases (vy p) hh Hh) as (y0 & Hy & Cy).
    assert (G : vx p * vx p + vz p * vz p + (vy p - y0) * (vy p - y0) < r * r).
    { apply Rnot_le_lt. intros C. set (v := V3 (vx p) (vy p - y0) (vz p)).
      assert (Hv : vlen2 v = vx p * vx p + vz p * vz p + (vy p - y0) * (vy p - y0)) by (unfold v, vlen2; cbn [vx vy vz]; ring).
      assert (Hl : r <= vlen v). { apply sq_le_le; [apply vlen_nonneg|]. rewrite vlen_sq. lra. }
      set (k := e / (2 * vlen v)). assert (Hk : 0 < k) by (unfold k; apply Rdiv_lt_0_compat; lra).
      assert (Ek : k * vlen v = e / 2) by (unfold k; field; lra).
      specialize (H (vadd p (vscale k v))).
      assert (X : dist p (vadd p (vscale k v)) < e).
      { rewrite dist_vlen. replace (vsub _ _) with (vscale (- k) v) by (generalize v; intros; vring).
        rewrite vlen_vscale, Rabs_Ropp, Rabs_pos_eq by lra. lra. }
      specialize (H X). apply capsule_iff in H; [|lra..]. destruct H as (y1 & Hy1 & Hd).
      unfold v in Hd. destruct p as [x y z]. unfold vadd, vscale in Hd. cbn [vx vy vz] in *.
      set (w := y - y0) in *. replace (y + k * w - y1) with ((1 + k) * w + (y0 - y1)) in Hd by (unfold w; ring).
      assert (W : 0 <= w * (y0 - y1)) by (unfold w; destruct Cy as [-> |[(-> & ?)|(-> & ?)]]; nra).
      assert ((1 + k) * (1 + k) * (x * x + z * z + w * w) <= r * r).
      { assert (0 <= (y0 - y1) * (y0 - y1)) by apply Rle_0_sqr. nra. }
      assert (1 < (1 + k) * (1 + k)) by nra. assert (0 < r * r) by nra. nra. }
    destruct Cy as [Cy|[(-> & C)|(-> & C)]].
    + destruct (Rlt_dec (vy p) hh) as [L|L]; [destruct (Rlt_dec (- hh) (vy p)) as [L'|L']|].
      * left. left. rewrite Cy in G. replace ((y0 - y0) * (y0 - y0)) with 0 in G by ring. lra.
      * right. assert (vy p = - hh) by lra. replace (vy p + hh) with (vy p - y0) by lra. lra.
      * left. right. assert (vy p = hh) by lra. replace (vy p - hh) with (vy p - y0) by lra. lra.
    + left. right. exact G.
    + right. replace (vy p + hh) with (vy p - - hh) by ring. exact G.
Qed.
