(** Theorems about transforms, matrices and quaternions (exact arithmetic). *)
From Coq Require Import Reals Lra Psatz List Nsatz.
From Verif Require Import VecModel VecProofs.
Import ListNotations.
Local Open Scope R_scope.

(** ** C34: transforms form a group acting isometrically *)
Definition unit_quat (q : quat) : Prop := qx q * qx q + qy q * qy q + qz q * qz q + qw q * qw q = 1.
Definition dist2 (a b : vec3) : R :=
  (vx a - vx b) * (vx a - vx b) + (vy a - vy b) * (vy a - vy b) + (vz a - vz b) * (vz a - vz b).
(** Triple product: the oriented volume spanned by three vectors. *)
Definition volume (a b c : vec3) : R :=
  vx a * (vy b * vz c - vz b * vy c) - vy a * (vx b * vz c - vz b * vx c) + vz a * (vx b * vy c - vy b * vx c).

Theorem C34_compose : forall a b p, tr_point (tr_mul a b) p = tr_point a (tr_point b p).
Proof. qring. Qed.
Print Assumptions C34_compose.
Theorem C34_group_laws : forall a b c,
  tr_mul a (tr_mul b c) = tr_mul (tr_mul a b) c /\ tr_mul tr_id a = a /\ tr_mul a tr_id = a
  /\ (unit_quat (t_rot a) -> tr_mul (tr_inverse a) a = tr_id /\ tr_mul a (tr_inverse a) = tr_id).
Proof.
  intros a b c. unfold tr_id. repeat split; try solve [clear; qring].
  - unfold unit_quat in H. clear b c. dv. cbn [t_rot qx qy qz qw] in H.
    unfold tr_mul, tr_inverse, quat_vec, quat_inverse, quat_id, vneg, vzero; cbn [t_pos t_rot vx vy vz qx qy qz qw].
    compw; nsatz.
  - unfold unit_quat in H. clear b c. dv. cbn [t_rot qx qy qz qw] in H.
    unfold tr_mul, tr_inverse, quat_vec, quat_inverse, quat_id, vneg, vzero; cbn [t_pos t_rot vx vy vz qx qy qz qw].
    compw; nsatz.
Qed.
Print Assumptions C34_group_laws.
Theorem C34_inverse : forall t p, unit_quat (t_rot t) ->
  tr_point (tr_inverse t) (tr_point t p) = p /\ tr_point t (tr_point (tr_inverse t) p) = p /\ unit_quat (t_rot (tr_inverse t)).
Proof.
  intros t p H. destruct (C34_group_laws t t t) as (_ & _ & _ & G). destruct (G H) as [G1 G2].
  rewrite <- !C34_compose, G1, G2. split; [clear; unfold tr_id; qring|]. split; [clear; unfold tr_id; qring|].
  unfold unit_quat in *. clear - H. dv. unfold tr_inverse, quat_inverse; cbn [t_rot qx qy qz qw] in *. lra.
Qed.
Print Assumptions C34_inverse.
(** Unit orientations are closed under composition, so the laws apply to every product of transforms. *)
Theorem C34_closed : forall a b, unit_quat (t_rot a) -> unit_quat (t_rot b) -> unit_quat (t_rot (tr_mul a b)).
Proof.
  intros a b Ha Hb. change (quat_len2 (quat_mul (t_rot a) (t_rot b)) = 1). rewrite quat_len2_mul.
  change (quat_len2 (t_rot a)) with (qx (t_rot a) * qx (t_rot a) + qy (t_rot a) * qy (t_rot a) + qz (t_rot a) * qz (t_rot a) + qw (t_rot a) * qw (t_rot a)).
  change (quat_len2 (t_rot b)) with (qx (t_rot b) * qx (t_rot b) + qy (t_rot b) * qy (t_rot b) + qz (t_rot b) * qz (t_rot b) + qw (t_rot b) * qw (t_rot b)).
  unfold unit_quat in *. rewrite Ha, Hb. ring.
Qed.
Print Assumptions C34_closed.
Theorem C34_isometry : forall t p q, unit_quat (t_rot t) -> dist2 (tr_point t p) (tr_point t q) = dist2 p q.
Proof.
  intros t p q H. assert (E : dist2 (tr_point t p) (tr_point t q) = quat_len2 (t_rot t) * quat_len2 (t_rot t) * dist2 p q).
  { clear. unfold dist2. qring. }
  rewrite E. change (quat_len2 (t_rot t)) with (qx (t_rot t) * qx (t_rot t) + qy (t_rot t) * qy (t_rot t) + qz (t_rot t) * qz (t_rot t) + qw (t_rot t) * qw (t_rot t)).
  unfold unit_quat in H. rewrite H. ring.
Qed.
Print Assumptions C34_isometry.
Theorem C34_rotation : forall q a b c, unit_quat q ->
  vdot (quat_vec q a) (quat_vec q b) = vdot a b /\ vlen (quat_vec q a) = vlen a
  /\ vcross (quat_vec q a) (quat_vec q b) = quat_vec q (vcross a b)
  /\ volume (quat_vec q a) (quat_vec q b) (quat_vec q c) = volume a b c.
Proof.
  intros q a b c H. assert (L : quat_len2 q = 1) by exact H.
  assert (D : forall u v, vdot (quat_vec q u) (quat_vec q v) = vdot u v) by (intros; rewrite quat_vec_dot, L; ring).
  assert (X : vcross (quat_vec q a) (quat_vec q b) = quat_vec q (vcross a b)) by (rewrite quat_vec_cross, L; apply vscale_1).
  repeat split; auto.
  - unfold vlen. rewrite vlen2_dot, D. reflexivity.
  - assert (V : forall u v w, volume u v w = vdot (vcross u v) w) by (clear; unfold volume; vring).
    rewrite !V, X, D. reflexivity.
Qed.
Print Assumptions C34_rotation.
Theorem C34_matrix : forall q v, unit_quat q -> mat_vec (quat_matrix q) v = quat_vec q v.
Proof. intros q v H. apply quat_matrix_vec. exact H. Qed.
Print Assumptions C34_matrix.
(** A quarter turn about the z axis, then a translation. *)
Definition quarter : quat := Q4 0 0 (sqrt 2 / 2) (sqrt 2 / 2).
Lemma sqrt2_half : sqrt 2 / 2 * (sqrt 2 / 2) = / 2.
Proof. replace (sqrt 2 / 2 * (sqrt 2 / 2)) with (sqrt 2 * sqrt 2 / 4) by field. rewrite sqrt_sqrt; lra. Qed.
Example C34_example : unit_quat quarter /\ tr_point (Tr (V3 5 0 0) quarter) (V3 1 2 3) = V3 3 1 3.
Proof.
  pose proof sqrt2_half as S. split.
  - unfold unit_quat, quarter; cbn [qx qy qz qw]. lra.
  - unfold tr_point, quat_vec, quarter, vadd. cbn [qx qy qz qw vx vy vz t_pos t_rot].
    set (k := sqrt 2 / 2) in *. clearbody k. compw; lra.
Qed.

(** ** C35: the matrix inverse is a two-sided inverse *)
Theorem C35_inverse3 : forall m, mat_det m <> 0 -> mat_mul (mat_inverse m) m = mat_id /\ mat_mul m (mat_inverse m) = mat_id.
Proof. intros m H. split; [now apply mat_inverse_l|now apply mat_inverse_r]. Qed.
Print Assumptions C35_inverse3.
Theorem C35_inverse2 : forall m, mat2_det m <> 0 -> mat2_mul (mat2_inverse m) m = mat2_id /\ mat2_mul m (mat2_inverse m) = mat2_id.
Proof. intros m H. split; [now apply mat2_inverse_l|now apply mat2_inverse_r]. Qed.
Print Assumptions C35_inverse2.
(** Solving with the inverse solves the linear system. *)
Theorem C35_solves : forall m b, mat_det m <> 0 -> mat_vec m (mat_vec (mat_inverse m) b) = b
  /\ forall x, mat_vec m x = b -> x = mat_vec (mat_inverse m) b.
Proof.
  intros m b H. split.
  - rewrite <- mat_vec_mul, mat_inverse_r, mat_vec_id; auto.
  - intros x <-. rewrite <- mat_vec_mul, mat_inverse_l, mat_vec_id; auto.
Qed.
Print Assumptions C35_solves.
Example C35_example : mat_det (mk_mat 2 0 1 0 3 0 1 0 1) <> 0 /\ mat_inverse (mk_mat 2 0 1 0 3 0 1 0 1) = mk_mat 1 0 (-1) 0 (/3) 0 (-1) 0 2
  /\ mat2_det (M2 1 2 3 4) <> 0.
Proof.
  split; [|split].
  - unfold mat_det, mk_mat, m00, m01, m02, m10, m11, m12, m20, m21, m22; cbn [vx vy vz row0 row1 row2]. lra.
  - unfold mat_inverse, mat_inverse_det, mat_scale, mat_det, mk_mat, m00, m01, m02, m10, m11, m12, m20, m21, m22; cbn [vx vy vz row0 row1 row2].
    compw; lra.
  - unfold mat2_det; cbn. lra.
Qed.

(** ** C68: orientations survive the conversion to matrices and back *)
Definition rotation_matrix (m : mat3) : Prop :=
  mat_mul (mat_transpose m) m = mat_id /\ mat_det m = 1.
Theorem C68_matrix_of_quaternion : forall q, unit_quat q -> rotation_matrix (quat_matrix q).
Proof. intros q H. apply quat_matrix_rotation. exact H. Qed.
Print Assumptions C68_matrix_of_quaternion.
Theorem C68_quaternion_of_matrix : forall m, rotation_matrix m -> unit_quat (matrix_quat m) /\ quat_matrix (matrix_quat m) = m.
Proof.
  intros m H. destruct (matrix_quat_products m H) as (A & B & C & D & E & F & G & I & J & K). now apply quat_products.
Qed.
Print Assumptions C68_quaternion_of_matrix.
(** Starting from a quaternion the same rotation comes back, up to the common sign of the four numbers. *)
Lemma sq_sign a b : a * a = b * b -> a = b \/ a = - b.
Proof. intros H. assert (E : (a - b) * (a + b) = 0) by lra. apply Rmult_integral in E. destruct E; [left|right]; lra. Qed.
Theorem C68_round_trip : forall q, unit_quat q ->
  let q' := matrix_quat (quat_matrix q) in q' = q \/ q' = Q4 (- qx q) (- qy q) (- qz q) (- qw q).
Proof.
  intros q H. destruct (matrix_quat_products _ (C68_matrix_of_quaternion q H)) as (A & B & C & D & E & F & G & I & J & K).
  unfold unit_quat in H. destruct q as [x y z w]. cbv zeta. set (q' := matrix_quat _) in *. destruct q' as [x' y' z' w'].
  cbn [qx qy qz qw] in *. rewrite quat_matrix_unit in * by exact H.
  unfold mk_mat, m00, m01, m02, m10, m11, m12, m20, m21, m22 in *. cbn [vx vy vz row0 row1 row2] in *.
  assert (X : x' * x' = x * x) by lra. assert (Y : y' * y' = y * y) by lra. assert (Z : z' * z' = z * z) by lra. assert (W : w' * w' = w * w) by lra.
  assert (XY : x' * y' = x * y) by lra. assert (XZ : x' * z' = x * z) by lra. assert (YZ : y' * z' = y * z) by lra.
  assert (WX : w' * x' = w * x) by lra. assert (WY : w' * y' = w * y) by lra. assert (WZ : w' * z' = w * z) by lra.
  clear A B C D E F G I J K.
  destruct (Req_EM_T w 0) as [W0|W0].
  - assert (w' = 0) by nra. destruct (Req_EM_T x 0) as [X0|X0].
    + assert (x' = 0) by nra. destruct (Req_EM_T y 0) as [Y0|Y0].
      * assert (y' = 0) by nra. destruct (sq_sign _ _ Z); [left|right]; f_equal; lra.
      * destruct (sq_sign _ _ Y) as [-> | ->]; [left|right]; f_equal; try lra; apply (Rmult_eq_reg_l y); lra.
    + destruct (sq_sign _ _ X) as [-> | ->]; [left|right]; f_equal; try lra; apply (Rmult_eq_reg_l x); lra.
  - destruct (sq_sign _ _ W) as [-> | ->]; [left|right]; f_equal; try lra; apply (Rmult_eq_reg_l w); lra.
Qed.
Print Assumptions C68_round_trip.
(** The sixteen OpenGL numbers determine the transform: reading them back gives a transform that moves every point alike. *)
Theorem C68_opengl : forall t p, unit_quat (t_rot t) -> tr_point (tr_from_opengl (tr_to_opengl t)) p = tr_point t p.
Proof.
  intros t p H. unfold tr_from_opengl, tr_to_opengl. cbn [List.nth].
  set (m := quat_matrix (t_rot t)).
  assert (E : mk_mat (m00 m) (m01 m) (m02 m) (m10 m) (m11 m) (m12 m) (m20 m) (m21 m) (m22 m) = m) by (destruct m as [[] [] []]; reflexivity).
  rewrite E. unfold tr_point at 1. cbn [t_rot t_pos].
  pose proof (C68_quaternion_of_matrix m (C68_matrix_of_quaternion _ H)) as [U R].
  rewrite <- C34_matrix by exact U. rewrite R. unfold m. rewrite C34_matrix by exact H.
  destruct t as [[] ?]; reflexivity.
Qed.
Print Assumptions C68_opengl.
(** Half turns about the three axes reach the three branches for a negative trace. *)
Example C68_example :
  rotation_matrix (mk_mat 1 0 0 0 (-1) 0 0 0 (-1)) /\ rotation_matrix (mk_mat (-1) 0 0 0 1 0 0 0 (-1)) /\
  rotation_matrix (mk_mat (-1) 0 0 0 (-1) 0 0 0 1) /\ rotation_matrix (mk_mat 0 (-1) 0 1 0 0 0 0 1).
Proof.
  unfold rotation_matrix, mat_mul, mat_transpose, mat_id, mat_det, mk_mat, m00, m01, m02, m10, m11, m12, m20, m21, m22. cbn [vx vy vz row0 row1 row2].
  repeat split; try (compw; lra); lra.
Qed.

(** ** C69: interpolation of orientations *)
Definition same_rotation (a b : quat) : Prop := forall p, quat_vec a p = quat_vec b p.
Lemma quat_dot_bound a b : unit_quat a -> unit_quat b -> -1 <= quat_dot a b <= 1.
Proof.
  unfold unit_quat, quat_dot. destruct a as [a1 a2 a3 a4], b as [b1 b2 b3 b4]; cbn [qx qy qz qw]. intros.
  assert (0 <= (a1-b1)*(a1-b1) + (a2-b2)*(a2-b2) + (a3-b3)*(a3-b3) + (a4-b4)*(a4-b4)) by (repeat apply Rplus_le_le_0_compat; apply Rle_0_sqr).
  assert (0 <= (a1+b1)*(a1+b1) + (a2+b2)*(a2+b2) + (a3+b3)*(a3+b3) + (a4+b4)*(a4+b4)) by (repeat apply Rplus_le_le_0_compat; apply Rle_0_sqr).
  lra.
Qed.
Lemma combine_len2 a b k l : unit_quat a -> unit_quat b ->
  quat_len2 (quat_add (quat_scale k a) (quat_scale l b)) = k * k + l * l + 2 * (k * l) * quat_dot a b.
Proof.
  intros Ha Hb. assert (E : quat_len2 (quat_add (quat_scale k a) (quat_scale l b)) = k * k * quat_len2 a + l * l * quat_len2 b + 2 * (k * l) * quat_dot a b).
  { clear. qring. }
  rewrite E. unfold unit_quat in *. unfold quat_len2. rewrite Ha, Hb. ring.
Qed.
Lemma combine_dot a b k l : unit_quat a -> quat_dot a (quat_add (quat_scale k a) (quat_scale l b)) = k + l * quat_dot a b.
Proof.
  intros Ha. assert (E : quat_dot a (quat_add (quat_scale k a) (quat_scale l b)) = k * quat_len2 a + l * quat_dot a b) by (clear; qring).
  rewrite E. unfold unit_quat in *. unfold quat_len2. rewrite Ha. ring.
Qed.
(** The absolute cosine of half the angle between two orientations. *)
Definition half_angle (a b : quat) : R := acos (Rabs (quat_dot a b)).
Lemma slerp_eq a b t : exists s, (s = 1 \/ s = -1) /\ s * quat_dot a b = Rabs (quat_dot a b) /\
  quat_slerp a b t = if rlt (1 - Rabs (quat_dot a b)) (/ 100000) then quat_add (quat_scale (1 - t) a) (quat_scale (t * s) b)
    else quat_add (quat_scale (sin ((1 - t) * half_angle a b) / sin (half_angle a b)) a)
                  (quat_scale (sin (t * half_angle a b) / sin (half_angle a b) * s) b).
Proof.
  unfold quat_slerp, half_angle. destruct (rlt (quat_dot a b) 0) eqn:E.
  - apply rlt_true in E. exists (-1). rewrite Rabs_left by auto. repeat split; auto; lra.
  - apply rlt_false in E. exists 1. rewrite Rabs_pos_eq by auto. repeat split; auto; lra.
Qed.
Lemma sin_acos_pos c : -1 < c < 1 -> 0 < sin (acos c).
Proof. intros H. rewrite sin_acos by lra. apply sqrt_lt_R0. unfold Rsqr. nra. Qed.
(** Away from equal orientations the result is a unit quaternion on the arc, at constant angular speed. *)
Theorem C69_unit_on_arc_partial : forall a b t, unit_quat a -> unit_quat b ->
  Rabs (quat_dot a b) <= 1 - / 100000 -> unit_quat (quat_slerp a b t) /\ quat_dot a (quat_slerp a b t) = cos (t * half_angle a b).
Proof.
  intros a b t Ha Hb Hd. destruct (slerp_eq a b t) as (s & Hs & Es & ->). rcase; [lra|]. clear C.
  pose proof (Rabs_pos (quat_dot a b)). set (c := Rabs (quat_dot a b)) in *. unfold half_angle. fold c. set (h := acos c).
  assert (Hc : cos h = c) by (apply cos_acos; lra). assert (Hp : 0 < sin h) by (apply sin_acos_pos; lra).
  assert (SS : s * s = 1) by (destruct Hs; subst s; ring).
  assert (Pt : sin (t*h) * sin (t*h) + cos (t*h) * cos (t*h) = 1) by apply sin2_cos2.
  assert (Ph : sin h * sin h + cos h * cos h = 1) by apply sin2_cos2.
  replace ((1 - t) * h) with (h - t * h) by ring. rewrite sin_minus.
  split.
  - change (quat_len2 (quat_add (quat_scale ((sin h * cos (t * h) - cos h * sin (t * h)) / sin h) a) (quat_scale (sin (t * h) / sin h * s) b)) = 1).
    rewrite combine_len2 by auto.
    transitivity (((sin h * cos (t*h) - cos h * sin (t*h)) * (sin h * cos (t*h) - cos h * sin (t*h)) + sin (t*h) * sin (t*h) * (s * s)
      + 2 * ((sin h * cos (t*h) - cos h * sin (t*h)) * sin (t*h)) * (s * quat_dot a b)) / (sin h * sin h)).
    { field; lra. }
    rewrite Es, SS, <- Hc. set (st := sin (t*h)) in *. set (ct := cos (t*h)) in *. set (sh := sin h) in *. set (ch := cos h) in *. clearbody st ct sh ch.
    match goal with |- ?e / _ = 1 => assert (N : e = sh * sh) end.
    { transitivity (sh * sh * (ct * ct) + st * st * (1 - ch * ch)); [ring|].
      replace (1 - ch * ch) with (sh * sh) by lra. replace (ct * ct) with (1 - st * st) by lra. ring. }
    rewrite N. field. lra.
  - rewrite combine_dot by auto.
    transitivity ((sin h * cos (t*h) - cos h * sin (t*h)) / sin h + sin (t*h) / sin h * (s * quat_dot a b)); [field; lra|].
    rewrite Es, <- Hc. field. lra.
Qed.
Print Assumptions C69_unit_on_arc_partial.
(** The endpoints are the two given orientations. *)
Theorem C69_endpoints : forall a b, unit_quat a -> unit_quat b ->
  same_rotation (quat_slerp a b 0) a /\ same_rotation (quat_slerp a b 1) b.
Proof.
  intros a b Ha Hb.
  assert (N : forall s, (s = 1 \/ s = -1) -> forall q p, quat_vec (quat_scale s q) p = quat_vec q p).
  { intros s [-> | ->]; clear; qring. }
  assert (B : forall a k q, k = 0 -> quat_add (quat_scale k a) q = q).
  { clear. intros a k [x y z w] ->. unfold quat_add, quat_scale; cbn [qx qy qz qw]. f_equal; ring. }
  assert (B' : forall a k q, k = 0 -> quat_add q (quat_scale k a) = q).
  { clear. intros a k [x y z w] ->. unfold quat_add, quat_scale; cbn [qx qy qz qw]. f_equal; ring. }
  assert (D : forall x, x <> 0 -> x / x = 1) by (intros; field; auto).
  pose proof (quat_dot_bound a b Ha Hb) as Hq. pose proof (Rabs_pos (quat_dot a b)) as Hp.
  split; intros p.
  - destruct (slerp_eq a b 0) as (s & Hs & Es & ->). rcase.
    + rewrite B' by ring. apply N. left; ring.
    + assert (P : 0 < sin (half_angle a b)) by (apply sin_acos_pos; lra).
      rewrite B'. { apply N. left. replace ((1 - 0) * half_angle a b) with (half_angle a b) by ring. apply D. lra. }
      replace (0 * half_angle a b) with 0 by ring. rewrite sin_0. field. lra.
  - destruct (slerp_eq a b 1) as (s & Hs & Es & ->). rcase.
    + rewrite B by ring. apply N. destruct Hs; subst; [left|right]; ring.
    + assert (P : 0 < sin (half_angle a b)) by (apply sin_acos_pos; lra).
      rewrite B. { apply N. replace (1 * half_angle a b) with (half_angle a b) by ring. rewrite D by lra. destruct Hs; subst; [left|right]; ring. }
      replace ((1 - 1) * half_angle a b) with 0 by ring. rewrite sin_0. field. lra.
Qed.
Print Assumptions C69_endpoints.
(** Close to equal orientations the result is shorter than one, by less than the code's tolerance. *)
Theorem C69_near_unit : forall a b t, unit_quat a -> unit_quat b -> 0 <= t <= 1 ->
  1 - / 200000 <= quat_len2 (quat_slerp a b t) <= 1.
Proof.
  intros a b t Ha Hb Ht. pose proof (quat_dot_bound a b Ha Hb) as Hq.
  destruct (Rle_dec (Rabs (quat_dot a b)) (1 - / 100000)) as [L|L].
  - destruct (C69_unit_on_arc_partial a b t Ha Hb L) as [U _]. change (quat_len2 (quat_slerp a b t) = 1) in U. rewrite U. lra.
  - destruct (slerp_eq a b t) as (s & Hs & Es & ->). rcase; [|lra].
    rewrite combine_len2 by auto.
    assert (SS : s * s = 1) by (destruct Hs; subst s; ring).
    replace ((1 - t) * (1 - t) + t * s * (t * s) + 2 * ((1 - t) * (t * s)) * quat_dot a b)
      with ((1 - t) * (1 - t) + t * t * (s * s) + 2 * ((1 - t) * t) * (s * quat_dot a b)) by ring.
    rewrite SS, Es. assert (A1 : Rabs (quat_dot a b) <= 1) by (apply Rabs_le; lra).
    set (c := Rabs (quat_dot a b)) in *. clearbody c.
    assert (P : 0 <= t * (1 - t) <= / 4) by (pose proof (Rle_0_sqr (t - / 2)) as Q; unfold Rsqr in Q; split; [apply Rmult_le_pos; lra|lra]).
    replace ((1 - t) * (1 - t) + t * t * 1 + 2 * ((1 - t) * t) * c) with (1 - 2 * (t * (1 - t)) * (1 - c)) by ring.
    set (u := t * (1 - t)) in *. clearbody u. assert (0 <= u * (1 - c) <= / 4 * / 100000) by (split; [apply Rmult_le_pos; lra|apply Rmult_le_compat; lra]). lra.
Qed.
Print Assumptions C69_near_unit.
(** Half way between two different orientations that are that close the result is not a unit quaternion. *)
Theorem C69_near_refuted : exists a b t, unit_quat a /\ unit_quat b /\ 0 <= t <= 1 /\ ~ unit_quat (quat_slerp a b t).
Proof.
  exists quat_id, (Q4 (20/1000001*100) 0 0 (999999/1000001)), (/ 2). split; [|split; [|split]].
  - unfold unit_quat, quat_id; cbn [qx qy qz qw]; lra.
  - unfold unit_quat; cbn [qx qy qz qw]; field.
  - lra.
  - unfold quat_slerp, quat_dot, quat_id; cbn [qx qy qz qw].
    match goal with |- context [rlt ?e 0] => assert (E : rlt e 0 = false) by (apply rlt_false; lra); rewrite E end. clear E.
    rcase; [|lra].
    unfold unit_quat, quat_add, quat_scale; cbn [qx qy qz qw]. lra.
Qed.
Print Assumptions C69_near_refuted.
Example C69_example : Rabs (quat_dot quat_id (Q4 1 0 0 0)) <= 1 - / 100000 /\ unit_quat (Q4 1 0 0 0).
Proof.
  unfold quat_dot, unit_quat, quat_id; cbn [qx qy qz qw]. split; [|lra]. replace (0 * 1 + 0 * 0 + 0 * 0 + 1 * 0) with 0 by ring. rewrite Rabs_R0. lra.
Qed.

(** ** C70: Euler angles *)
Definition axis_quat (ax ay az angle : R) : quat := Q4 (ax * sin (angle / 2)) (ay * sin (angle / 2)) (az * sin (angle / 2)) (cos (angle / 2)).
Lemma quat_normalize_unit q : quat_len2 q = 1 -> quat_normalize q = q.
Proof. intros H. unfold quat_normalize. rewrite H, sqrt_1. destruct q; cbn. f_equal; field. Qed.
(** The quaternion of three angles is the rotation about x, then about y, then about z. *)
Theorem C70_euler : forall ax ay az,
  quat_euler ax ay az = quat_mul (axis_quat 0 0 1 az) (quat_mul (axis_quat 0 1 0 ay) (axis_quat 1 0 0 ax)) /\ unit_quat (quat_euler ax ay az).
Proof.
  intros ax ay az. unfold quat_euler. cbv zeta.
  set (q := Q4 _ _ _ _).
  assert (E : q = quat_mul (axis_quat 0 0 1 az) (quat_mul (axis_quat 0 1 0 ay) (axis_quat 1 0 0 ax))).
  { unfold q, quat_mul, axis_quat; cbn [qx qy qz qw]. unfold Rdiv. f_equal; ring. }
  assert (L : quat_len2 q = 1).
  { rewrite E, !quat_len2_mul. unfold quat_len2, axis_quat; cbn [qx qy qz qw].
    pose proof (sin2_cos2 (ax / 2)). pose proof (sin2_cos2 (ay / 2)). pose proof (sin2_cos2 (az / 2)). unfold Rsqr in *.
    transitivity ((sin (az/2) * sin (az/2) + cos (az/2) * cos (az/2)) * ((sin (ay/2) * sin (ay/2) + cos (ay/2) * cos (ay/2)) * (sin (ax/2) * sin (ax/2) + cos (ax/2) * cos (ax/2)))); [ring|].
    rewrite H, H0, H1. ring. }
  rewrite quat_normalize_unit by auto. split; auto.
Qed.
Print Assumptions C70_euler.
(** [axis_quat] is the rotation by the angle: it turns the x axis by the angle about the z axis. *)
Example C70_example : forall angle, quat_vec (axis_quat 0 0 1 angle) (V3 1 0 0) = V3 (cos angle) (sin angle) 0.
Proof.
  intros a. unfold quat_vec, axis_quat; cbn [qx qy qz qw vx vy vz].
  assert (C : cos a = cos (a/2) * cos (a/2) - sin (a/2) * sin (a/2)) by (rewrite <- cos_plus; f_equal; field).
  assert (S : sin a = 2 * sin (a/2) * cos (a/2)) by (replace a with (2 * (a/2)) at 1 by field; apply sin_2a).
  rewrite C, S. f_equal; ring.
Qed.

(** ** C71: unit vectors and orthogonal directions *)
Theorem C71_unit : forall eps v, 0 < eps -> eps <= vlen v ->
  vlen (vunit eps v) = 1 /\ vnormalize eps v = vunit eps v /\ exists k, 0 < k /\ vunit eps v = vscale k v.
Proof.
  intros eps v He H. split; [|split].
  - unfold vlen. rewrite vlen2_vunit by auto. apply sqrt_1.
  - unfold vnormalize, vunit. rcase; [lra|]. cbv zeta. f_equal; field; lra.
  - exists (1 / vlen v). split; [|now apply vunit_scale]. apply Rdiv_lt_0_compat; lra.
Qed.
Print Assumptions C71_unit.
Theorem C71_orthogonal : forall v, vlen v <> 0 -> vlen (orthogonal_unit v) = 1 /\ vdot (orthogonal_unit v) v = 0.
Proof.
  intros v H.
  assert (H2 : vlen2 v <> 0) by (intros E; apply H; unfold vlen; rewrite E; apply sqrt_0).
  pose proof (vlen2_nonneg v) as Hn.
  assert (K : forall a b, 0 < a * a + b * b -> (a / sqrt (a*a+b*b)) * (a / sqrt (a*a+b*b)) + (b / sqrt (a*a+b*b)) * (b / sqrt (a*a+b*b)) = 1 /\ 0 < sqrt (a*a+b*b)).
  { intros a b P. destruct (half_sqrt _ P) as [S Q]. split; auto.
    transitivity ((a*a+b*b) / (sqrt (a*a+b*b) * sqrt (a*a+b*b))); [field; lra|]. rewrite S. field. lra. }
  assert (one : forall w, vlen2 w = 1 -> vlen w = 1) by (intros w E; unfold vlen; rewrite E; apply sqrt_1).
  destruct v as [x y z]. unfold vlen2 in H2, Hn; cbn [vx vy vz] in *.
  unfold orthogonal_unit, min_axis, vabs. cbn [vx vy vz].
  pose proof (Rsqr_abs x). pose proof (Rsqr_abs y). pose proof (Rsqr_abs z). unfold Rsqr in *.
  pose proof (Rabs_pos x). pose proof (Rabs_pos y). pose proof (Rabs_pos z).
  repeat rcase.
  1: assert (P : 0 < y * y + z * z) by nra. 2: assert (P : 0 < x * x + y * y) by nra. 3: assert (P : 0 < x * x + z * z) by nra. 4: assert (P : 0 < x * x + y * y) by nra.
  all: destruct (K _ _ P) as [K1 K2]; split;
    [apply one; unfold vdiv, vlen2; cbn [vx vy vz]; unfold Rdiv in *; lra | unfold vdiv, vdot; cbn [vx vy vz]; field; lra].
Qed.
Print Assumptions C71_orthogonal.
Example C71_example : vlen (V3 3 4 0) = 5 /\ vlen (V3 3 4 0) <> 0.
Proof.
  assert (E : vlen (V3 3 4 0) = 5).
  { unfold vlen, vlen2; cbn [vx vy vz]. replace (3*3+4*4+0*0) with (5*5) by ring. apply sqrt_square; lra. }
  rewrite E. split; lra.
Qed.

(** ** C72: angle and axis of an orientation *)
(** The reported angle and axis describe the orientation, for every unit quaternion whose axis part is not below the
    tolerance of the normalisation. *)
Theorem C72_angle_axis : forall eps q angle axis, unit_quat q -> 0 < eps -> eps <= vlen (V3 (qx q) (qy q) (qz q)) ->
  quat_angle_axis eps q = (angle, axis) ->
  vlen axis = 1 /\ 0 <= angle <= 2 * PI /\ q = axis_quat (vx axis) (vy axis) (vz axis) angle.
Proof.
  intros eps q angle axis H He Hl E. unfold quat_angle_axis in E. inversion E; subst; clear E.
  pose proof (C71_unit eps _ He Hl) as [U _]. split; [exact U|].
  assert (B : -1 <= qw q <= 1).
  { unfold unit_quat in H. destruct q as [x y z w]; cbn [qx qy qz qw] in *. split; nra. }
  pose proof (acos_bound (qw q)) as AB. split; [lra|].
  unfold axis_quat. replace (acos (qw q) * 2 / 2) with (acos (qw q)) by field. rewrite cos_acos, sin_acos by auto.
  rewrite vunit_scale by auto.
  assert (L : sqrt (1 - Rsqr (qw q)) = vlen (V3 (qx q) (qy q) (qz q))).
  { unfold vlen, vlen2; cbn [vx vy vz]. f_equal. unfold unit_quat in H. unfold Rsqr. lra. }
  rewrite L. set (l := vlen _) in *. unfold vscale; cbn [vx vy vz]. destruct q as [x y z w]; cbn [qx qy qz qw]. f_equal; field; lra.
Qed.
Print Assumptions C72_angle_axis.
Example C72_example : unit_quat (Q4 (3/5) 0 0 (4/5)) /\ vlen (V3 (3/5) 0 0) = 3/5.
Proof.
  split. { unfold unit_quat; cbn [qx qy qz qw]; lra. }
  unfold vlen, vlen2; cbn [vx vy vz]. replace (3/5*(3/5)+0*0+0*0) with (3/5*(3/5)) by ring. apply sqrt_square; lra.
Qed.
