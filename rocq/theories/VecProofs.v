(** Algebra of vectors, matrices, quaternions and transforms. *)
From Coq Require Import Reals Lra Psatz List Nsatz.
From Verif Require Import VecModel.
Import ListNotations.
Local Open Scope R_scope.

Ltac dv :=
  repeat match goal with
  | v : vec3 |- _ => let x := fresh "x" in let y := fresh "y" in let z := fresh "z" in destruct v as [x y z]
  | m : mat3 |- _ => let a := fresh "r" in let b := fresh "r" in let c := fresh "r" in destruct m as [a b c]
  | q : quat |- _ => let x := fresh "x" in let y := fresh "y" in let z := fresh "z" in let w := fresh "w" in destruct q as [x y z w]
  | t : transform |- _ => let p := fresh "p" in let q := fresh "q" in destruct t as [p q]
  end.
(** Componentwise equality of records of reals. *)
Ltac compw := lazymatch goal with |- @eq R _ _ => idtac | |- @eq _ _ _ => f_equal; compw | |- _ => idtac end.
Ltac vunf := unfold vadd, vsub, vneg, vscale, vmul, vdiv, vdot, vlen2, vcross, vzero in *.
Ltac vring := intros; dv; vunf; cbn [vx vy vz] in *; compw; ring.

Lemma rlt_true a b : rlt a b = true <-> a < b.
Proof. unfold rlt; destruct (Rlt_dec a b); split; intros; try easy; contradiction. Qed.
Lemma rlt_false a b : rlt a b = false <-> b <= a.
Proof. unfold rlt; destruct (Rlt_dec a b); split; intros; try easy; lra. Qed.
Lemma rle_true a b : rle a b = true <-> a <= b.
Proof. unfold rle; destruct (Rle_dec a b); split; intros; try easy; contradiction. Qed.
Lemma rle_false a b : rle a b = false <-> b < a.
Proof. unfold rle; destruct (Rle_dec a b); split; intros; try easy; lra. Qed.
Lemma req_true a b : req a b = true <-> a = b.
Proof. unfold req; destruct (Req_EM_T a b); split; intros; try easy; contradiction. Qed.
Lemma req_false a b : req a b = false <-> a <> b.
Proof. unfold req; destruct (Req_EM_T a b); split; intros; try easy; contradiction. Qed.
(** Case analysis on the decimal comparisons of a goal. *)
Ltac rcase :=
  match goal with
  | |- context [rlt ?a ?b] => let H := fresh "C" in destruct (rlt a b) eqn:H; [apply rlt_true in H | apply rlt_false in H]
  | |- context [rle ?a ?b] => let H := fresh "C" in destruct (rle a b) eqn:H; [apply rle_true in H | apply rle_false in H]
  | |- context [req ?a ?b] => let H := fresh "C" in destruct (req a b) eqn:H; [apply req_true in H | apply req_false in H]
  end.
Ltac rcase_in G :=
  match type of G with
  | context [rlt ?a ?b] => let H := fresh "C" in destruct (rlt a b) eqn:H; [apply rlt_true in H | apply rlt_false in H]
  | context [rle ?a ?b] => let H := fresh "C" in destruct (rle a b) eqn:H; [apply rle_true in H | apply rle_false in H]
  | context [req ?a ?b] => let H := fresh "C" in destruct (req a b) eqn:H; [apply req_true in H | apply req_false in H]
  end.

Lemma vlen2_nonneg a : 0 <= vlen2 a.
Proof. dv; unfold vlen2; cbn [vx vy vz]; nra. Qed.
Lemma vlen_nonneg a : 0 <= vlen a.
Proof. apply sqrt_pos. Qed.
Lemma vlen_sq a : vlen a * vlen a = vlen2 a.
Proof. apply sqrt_sqrt, vlen2_nonneg. Qed.
Lemma vlen2_dot a : vlen2 a = vdot a a.
Proof. reflexivity. Qed.
Lemma vlen2_zero a : vlen2 a = 0 -> a = vzero.
Proof. destruct a as [x y z]; unfold vlen2, vzero; cbn [vx vy vz]. intros H. f_equal; nra. Qed.
Lemma vlen_zero a : vlen a = 0 -> a = vzero.
Proof. intros H. apply vlen2_zero. rewrite <- vlen_sq, H. ring. Qed.
Lemma vlen_vzero : vlen vzero = 0.
Proof. unfold vlen, vlen2, vzero; cbn [vx vy vz]. replace (0*0+0*0+0*0) with 0 by ring. apply sqrt_0. Qed.
Lemma vlen2_vscale k a : vlen2 (vscale k a) = k * k * vlen2 a.
Proof. vring. Qed.
Lemma vlen_vscale k a : vlen (vscale k a) = Rabs k * vlen a.
Proof.
  unfold vlen. rewrite vlen2_vscale, sqrt_mult; [|nra|apply vlen2_nonneg]. f_equal.
  replace (k * k) with (Rsqr k) by reflexivity. apply sqrt_Rsqr_abs.
Qed.
Lemma vdot_comm a b : vdot a b = vdot b a. Proof. vring. Qed.
Lemma vdot_vadd_l a b c : vdot (vadd a b) c = vdot a c + vdot b c. Proof. vring. Qed.
Lemma vdot_vadd_r a b c : vdot c (vadd a b) = vdot c a + vdot c b. Proof. vring. Qed.
Lemma vdot_vsub_l a b c : vdot (vsub a b) c = vdot a c - vdot b c. Proof. vring. Qed.
Lemma vdot_vsub_r a b c : vdot c (vsub a b) = vdot c a - vdot c b. Proof. vring. Qed.
Lemma vdot_vscale_l k a b : vdot (vscale k a) b = k * vdot a b. Proof. vring. Qed.
Lemma vdot_vscale_r k a b : vdot a (vscale k b) = k * vdot a b. Proof. vring. Qed.
Lemma vdot_vneg_l a b : vdot (vneg a) b = - vdot a b. Proof. vring. Qed.
Lemma vdot_vneg_r a b : vdot a (vneg b) = - vdot a b. Proof. vring. Qed.
Lemma vcross_dot_l a b : vdot (vcross a b) a = 0. Proof. vring. Qed.
Lemma vcross_dot_r a b : vdot (vcross a b) b = 0. Proof. vring. Qed.
(** Lagrange's identity and the Cauchy-Schwarz inequality. *)
Lemma lagrange a b : vlen2 (vcross a b) = vlen2 a * vlen2 b - vdot a b * vdot a b. Proof. vring. Qed.
Lemma cauchy_schwarz2 a b : vdot a b * vdot a b <= vlen2 a * vlen2 b.
Proof. generalize (lagrange a b) (vlen2_nonneg (vcross a b)). lra. Qed.
Lemma sq_le_le a b : 0 <= b -> a * a <= b * b -> a <= b.
Proof. intros Hb H. destruct (Rle_dec a b); auto. exfalso. nra. Qed.
Lemma cauchy_schwarz a b : vdot a b <= vlen a * vlen b.
Proof.
  apply sq_le_le.
  - apply Rmult_le_pos; apply vlen_nonneg.
  - replace (vlen a * vlen b * (vlen a * vlen b)) with ((vlen a * vlen a) * (vlen b * vlen b)) by ring.
    rewrite !vlen_sq. apply cauchy_schwarz2.
Qed.
Lemma vlen_lt_iff a k : 0 <= k -> vlen a < k <-> vlen2 a < k * k.
Proof. intros Hk. rewrite <- vlen_sq. pose proof (vlen_nonneg a). split; nra. Qed.
Lemma vlen_le_iff a k : 0 <= k -> vlen a <= k <-> vlen2 a <= k * k.
Proof. intros Hk. rewrite <- vlen_sq. pose proof (vlen_nonneg a). split; intros; [nra|]. apply sq_le_le; auto. Qed.
Lemma vlen_pos a : vlen2 a <> 0 -> 0 < vlen a.
Proof. intros H. apply sqrt_lt_R0. pose proof (vlen2_nonneg a). lra. Qed.
Lemma vlen2_vneg a : vlen2 (vneg a) = vlen2 a. Proof. vring. Qed.
Lemma vlen_vneg a : vlen (vneg a) = vlen a. Proof. unfold vlen. now rewrite vlen2_vneg. Qed.

Lemma v3_eq a b : vx a = vx b -> vy a = vy b -> vz a = vz b -> a = b.
Proof. dv; cbn [vx vy vz]; intros; subst; reflexivity. Qed.

(** Unit vectors. *)
Lemma vunit_scale eps a : eps <= vlen a -> vunit eps a = vscale (1 / vlen a) a.
Proof.
  intros H. unfold vunit. rcase; [lra|]. cbv zeta. unfold vscale. f_equal; ring.
Qed.
Lemma vlen2_vunit eps a : 0 < eps -> eps <= vlen a -> vlen2 (vunit eps a) = 1.
Proof.
  intros He H. rewrite vunit_scale, vlen2_vscale, <- vlen_sq; auto. field. lra.
Qed.

Ltac mring := intros; dv;
  unfold mat_mul, mat_vec, mat_transpose, mat_add, mat_sub, mat_scale, mat_id, mat_zero, mat_det, mat_skew, mk_mat, m00, m01, m02, m10, m11, m12, m20, m21, m22 in *;
  vunf; cbn [vx vy vz row0 row1 row2] in *; compw; try ring.
Lemma mat_mul_assoc a b c : mat_mul a (mat_mul b c) = mat_mul (mat_mul a b) c.
Proof. mring. Qed.
Lemma mat_mul_id_l a : mat_mul mat_id a = a. Proof. mring. Qed.
Lemma mat_mul_id_r a : mat_mul a mat_id = a. Proof. mring. Qed.
Lemma mat_vec_mul a b v : mat_vec (mat_mul a b) v = mat_vec a (mat_vec b v). Proof. mring. Qed.
Lemma mat_vec_id v : mat_vec mat_id v = v. Proof. mring. Qed.
Lemma mat_transpose_mul a b : mat_transpose (mat_mul a b) = mat_mul (mat_transpose b) (mat_transpose a). Proof. mring. Qed.
Lemma mat_transpose_transpose a : mat_transpose (mat_transpose a) = a. Proof. mring. Qed.
Lemma mat_vec_transpose m a b : vdot (mat_vec m a) b = vdot a (mat_vec (mat_transpose m) b). Proof. mring. Qed.
Lemma mat_det_mul a b : mat_det (mat_mul a b) = mat_det a * mat_det b. Proof. mring. Qed.
Lemma mat_vec_vadd m a b : mat_vec m (vadd a b) = vadd (mat_vec m a) (mat_vec m b). Proof. mring. Qed.
Lemma mat_vec_vscale m k a : mat_vec m (vscale k a) = vscale k (mat_vec m a). Proof. mring. Qed.
Lemma mat_vec_zero m : mat_vec m vzero = vzero. Proof. mring. Qed.
Lemma mat_skew_cross a b : mat_vec (mat_skew a) b = vcross a b. Proof. mring. Qed.

Lemma mat3_eq a b : m00 a = m00 b -> m01 a = m01 b -> m02 a = m02 b -> m10 a = m10 b -> m11 a = m11 b -> m12 a = m12 b
  -> m20 a = m20 b -> m21 a = m21 b -> m22 a = m22 b -> a = b.
Proof. dv; unfold m00, m01, m02, m10, m11, m12, m20, m21, m22; cbn; intros; subst; reflexivity. Qed.

Ltac mat_entries E :=
  pose proof (f_equal m00 E); pose proof (f_equal m01 E); pose proof (f_equal m02 E);
  pose proof (f_equal m10 E); pose proof (f_equal m11 E); pose proof (f_equal m12 E);
  pose proof (f_equal m20 E); pose proof (f_equal m21 E); pose proof (f_equal m22 E); clear E;
  unfold m00, m01, m02, m10, m11, m12, m20, m21, m22 in *; cbn [vx vy vz row0 row1 row2] in *.
Ltac munf := unfold mat_inverse, mat_inverse_det, mat_mul, mat_scale, mat_id, mat_det, mk_mat, m00, m01, m02, m10, m11, m12, m20, m21, m22 in *; cbn [vx vy vz row0 row1 row2] in *.
Lemma mat_inverse_l m : mat_det m <> 0 -> mat_mul (mat_inverse m) m = mat_id.
Proof. destruct m as [[a b c] [d e f] [g h i]]. munf. intros. compw; field; auto. Qed.
Lemma mat_inverse_r m : mat_det m <> 0 -> mat_mul m (mat_inverse m) = mat_id.
Proof. destruct m as [[a b c] [d e f] [g h i]]. munf. intros. compw; field; auto. Qed.
Lemma mat2_inverse_l m : mat2_det m <> 0 -> mat2_mul (mat2_inverse m) m = mat2_id.
Proof. destruct m as [a b c d]; unfold mat2_inverse, mat2_mul, mat2_scale, mat2_id, mat2_det; cbn. intros. compw; field; auto. Qed.
Lemma mat2_inverse_r m : mat2_det m <> 0 -> mat2_mul m (mat2_inverse m) = mat2_id.
Proof. destruct m as [a b c d]; unfold mat2_inverse, mat2_mul, mat2_scale, mat2_id, mat2_det; cbn. intros. compw; field; auto. Qed.

(** Quaternions. *)
Ltac qring := intros; dv;
  unfold tr_mul, tr_point, tr_inverse, quat_vec, quat_mul, quat_inverse, quat_len2, quat_id, quat_scale, quat_add, quat_dot in *; vunf;
  cbn [vx vy vz qx qy qz qw t_pos t_rot] in *; compw; try ring.
Lemma quat_vec_mul a b v : quat_vec (quat_mul a b) v = quat_vec a (quat_vec b v). Proof. qring. Qed.
Lemma quat_mul_assoc a b c : quat_mul a (quat_mul b c) = quat_mul (quat_mul a b) c. Proof. qring. Qed.
Lemma quat_len2_mul a b : quat_len2 (quat_mul a b) = quat_len2 a * quat_len2 b. Proof. qring. Qed.
Lemma quat_len2_inverse a : quat_len2 (quat_inverse a) = quat_len2 a. Proof. qring. Qed.
Lemma quat_inverse_mul q : quat_mul (quat_inverse q) q = Q4 0 0 0 (quat_len2 q). Proof. qring. Qed.
Lemma quat_mul_inverse q : quat_mul q (quat_inverse q) = Q4 0 0 0 (quat_len2 q). Proof. qring. Qed.
Lemma quat_vec_inverse q v : quat_vec (quat_inverse q) (quat_vec q v) = vscale (quat_len2 q * quat_len2 q) v. Proof. qring. Qed.
Lemma quat_inverse_inverse q : quat_inverse (quat_inverse q) = q. Proof. qring. Qed.
Lemma quat_vec_vadd q a b : quat_vec q (vadd a b) = vadd (quat_vec q a) (quat_vec q b). Proof. qring. Qed.
Lemma quat_vec_vsub q a b : quat_vec q (vsub a b) = vsub (quat_vec q a) (quat_vec q b). Proof. qring. Qed.
Lemma quat_vec_vneg q a : quat_vec q (vneg a) = vneg (quat_vec q a). Proof. qring. Qed.
Lemma quat_vec_vscale q k a : quat_vec q (vscale k a) = vscale k (quat_vec q a). Proof. qring. Qed.
Lemma quat_vec_dot q a b : vdot (quat_vec q a) (quat_vec q b) = quat_len2 q * quat_len2 q * vdot a b. Proof. qring. Qed.
Lemma quat_vec_cross q a b : vcross (quat_vec q a) (quat_vec q b) = vscale (quat_len2 q) (quat_vec q (vcross a b)). Proof. qring. Qed.
Lemma vscale_1 a : vscale 1 a = a. Proof. vring. Qed.
Lemma quat_matrix_vec q v : quat_len2 q = 1 -> mat_vec (quat_matrix q) v = quat_vec q v.
Proof.
  intros H. unfold quat_matrix. rewrite H. rcase; [|lra].
  destruct q as [x y z w], v as [a b c]. unfold mat_vec, mk_mat, m00, m01, m02, m10, m11, m12, m20, m21, m22, quat_vec, quat_len2 in *.
  cbn [vx vy vz row0 row1 row2 qx qy qz qw] in *.
  compw; field_simplify; replace (w^2) with (1 - x^2 - y^2 - z^2) by (rewrite <- H; ring); ring.
Qed.

Lemma quat_matrix_unit x y z w : x * x + y * y + z * z + w * w = 1 -> quat_matrix (Q4 x y z w) =
  mk_mat (1 - 2*y*y - 2*z*z) (2*x*y - 2*w*z) (2*x*z + 2*w*y)
         (2*x*y + 2*w*z) (1 - 2*x*x - 2*z*z) (2*y*z - 2*w*x)
         (2*x*z - 2*w*y) (2*y*z + 2*w*x) (1 - 2*x*x - 2*y*y).
Proof.
  intros H. unfold quat_matrix, quat_len2. cbn [qx qy qz qw]. rewrite H. rcase; [|lra]. unfold mk_mat. compw; field.
Qed.

Definition mat_rotation (m : mat3) : Prop := mat_mul (mat_transpose m) m = mat_id /\ mat_det m = 1.
Lemma quat_matrix_rotation q : quat_len2 q = 1 -> mat_rotation (quat_matrix q).
Proof.
  destruct q as [x y z w]. unfold quat_len2; cbn [qx qy qz qw]. intros H. rewrite quat_matrix_unit; auto.
  assert (E : w * w = 1 - x * x - y * y - z * z) by lra.
  assert (E4 : w * w * (w * w) = (1 - x * x - y * y - z * z) * (1 - x * x - y * y - z * z)) by (rewrite E; auto).
  split.
  - unfold mat_mul, mat_transpose, mat_id, mk_mat, m00, m01, m02, m10, m11, m12, m20, m21, m22. cbn [vx vy vz row0 row1 row2].
    compw; nsatz.
  - unfold mat_det, mk_mat, m00, m01, m02, m10, m11, m12, m20, m21, m22. cbn [vx vy vz row0 row1 row2]. nsatz.
Qed.

(** ** Rotation matrices and quaternions *)
Lemma rotation_inverse m : mat_rotation m -> mat_transpose m = mat_inverse m.
Proof.
  intros [Ht Hd]. rewrite <- (mat_mul_id_r (mat_transpose m)). rewrite <- (mat_inverse_r m) by lra.
  rewrite mat_mul_assoc, Ht, mat_mul_id_l. reflexivity.
Qed.
Lemma rotation_r m : mat_rotation m -> mat_mul m (mat_transpose m) = mat_id.
Proof. intros H. rewrite rotation_inverse; auto. apply mat_inverse_r. destruct H; lra. Qed.

(** The entries of a rotation matrix are its cofactors, rows and columns have length one. *)
Lemma rotation_entries m : mat_rotation m ->
  (m00 m = m11 m * m22 m - m21 m * m12 m /\ m01 m = m12 m * m20 m - m10 m * m22 m /\ m02 m = m10 m * m21 m - m20 m * m11 m) /\
  (m10 m = m21 m * m02 m - m01 m * m22 m /\ m11 m = m00 m * m22 m - m20 m * m02 m /\ m12 m = m20 m * m01 m - m00 m * m21 m) /\
  (m20 m = m01 m * m12 m - m02 m * m11 m /\ m21 m = m10 m * m02 m - m00 m * m12 m /\ m22 m = m00 m * m11 m - m01 m * m10 m).
Proof.
  intros H. pose proof (rotation_inverse _ H) as E. destruct H as [_ Hd]. unfold mat_inverse in E. rewrite Hd in E.
  destruct m as [[a b c] [d e f] [g h i]].
  unfold mat_inverse_det, mat_transpose, mat_scale, mk_mat, m00, m01, m02, m10, m11, m12, m20, m21, m22 in *.
  cbn [vx vy vz row0 row1 row2] in *. mat_entries E.
  repeat split; lra.
Qed.
Lemma rotation_columns m : mat_rotation m ->
  m00 m * m00 m + m10 m * m10 m + m20 m * m20 m = 1 /\ m01 m * m01 m + m11 m * m11 m + m21 m * m21 m = 1 /\
  m02 m * m02 m + m12 m * m12 m + m22 m * m22 m = 1 /\ m00 m * m01 m + m10 m * m11 m + m20 m * m21 m = 0 /\
  m00 m * m02 m + m10 m * m12 m + m20 m * m22 m = 0 /\ m01 m * m02 m + m11 m * m12 m + m21 m * m22 m = 0.
Proof.
  intros [E _]. destruct m as [[a b c] [d e f] [g h i]].
  unfold mat_mul, mat_transpose, mat_id, mk_mat, m00, m01, m02, m10, m11, m12, m20, m21, m22 in *.
  cbn [vx vy vz row0 row1 row2] in *. mat_entries E. repeat split; lra.
Qed.
Lemma rotation_transpose m : mat_rotation m -> mat_rotation (mat_transpose m).
Proof.
  intros H. split.
  - rewrite mat_transpose_transpose. now apply rotation_r.
  - rewrite <- (proj2 H). mring.
Qed.
Lemma rotation_rows m : mat_rotation m ->
  m00 m * m00 m + m01 m * m01 m + m02 m * m02 m = 1 /\ m10 m * m10 m + m11 m * m11 m + m12 m * m12 m = 1 /\
  m20 m * m20 m + m21 m * m21 m + m22 m * m22 m = 1 /\ m00 m * m10 m + m01 m * m11 m + m02 m * m12 m = 0 /\
  m00 m * m20 m + m01 m * m21 m + m02 m * m22 m = 0 /\ m10 m * m20 m + m11 m * m21 m + m12 m * m22 m = 0.
Proof. intros H. apply (rotation_columns _ (rotation_transpose _ H)). Qed.

(** One of the four branches of the conversion: the quaternion whose largest entry is computed by a square root. *)
Lemma half_sqrt r : 0 < r -> sqrt r * sqrt r = r /\ 0 < sqrt r.
Proof. intros H. split. apply sqrt_sqrt; lra. now apply sqrt_lt_R0. Qed.

Ltac rot_facts m H :=
  pose proof (rotation_entries m H) as ((?e0 & ?e1 & ?e2) & (?e3 & ?e4 & ?e5) & (?e6 & ?e7 & ?e8));
  pose proof (rotation_columns m H) as (?c0 & ?c1 & ?c2 & ?c3 & ?c4 & ?c5);
  pose proof (rotation_rows m H) as (?w0 & ?w1 & ?w2 & ?w3 & ?w4 & ?w5).

(** What each branch needs: with 4 k^2 the quantity under the root, all products of entries of the quaternion are
    read off the matrix. *)
Lemma quat_products m q :
  mat_rotation m ->
  4 * (qx q * qx q) = 1 + m00 m - m11 m - m22 m -> 4 * (qy q * qy q) = 1 - m00 m + m11 m - m22 m ->
  4 * (qz q * qz q) = 1 - m00 m - m11 m + m22 m -> 4 * (qw q * qw q) = 1 + m00 m + m11 m + m22 m ->
  4 * (qx q * qy q) = m01 m + m10 m -> 4 * (qx q * qz q) = m02 m + m20 m -> 4 * (qy q * qz q) = m12 m + m21 m ->
  4 * (qw q * qx q) = m21 m - m12 m -> 4 * (qw q * qy q) = m02 m - m20 m -> 4 * (qw q * qz q) = m10 m - m01 m ->
  quat_len2 q = 1 /\ quat_matrix q = m.
Proof.
  intros _ X Y Z W XY XZ YZ WX WY WZ. destruct q as [x y z w]. cbn [qx qy qz qw] in *.
  assert (N : x * x + y * y + z * z + w * w = 1) by lra.
  split; [exact N|]. rewrite quat_matrix_unit; auto.
  apply mat3_eq; unfold mk_mat, m00, m01, m02, m10, m11, m12, m20, m21, m22 in *; cbn [vx vy vz row0 row1 row2] in *; lra.
Qed.
Lemma matrix_quat_products m : mat_rotation m -> let q := matrix_quat m in
  4 * (qx q * qx q) = 1 + m00 m - m11 m - m22 m /\ 4 * (qy q * qy q) = 1 - m00 m + m11 m - m22 m /\
  4 * (qz q * qz q) = 1 - m00 m - m11 m + m22 m /\ 4 * (qw q * qw q) = 1 + m00 m + m11 m + m22 m /\
  4 * (qx q * qy q) = m01 m + m10 m /\ 4 * (qx q * qz q) = m02 m + m20 m /\ 4 * (qy q * qz q) = m12 m + m21 m /\
  4 * (qw q * qx q) = m21 m - m12 m /\ 4 * (qw q * qy q) = m02 m - m20 m /\ 4 * (qw q * qz q) = m10 m - m01 m.
Proof.
  intros H. rot_facts m H. unfold matrix_quat, mat_trace. cbv zeta.
  set (a := m00 m) in *. set (b := m01 m) in *. set (c := m02 m) in *. set (d := m10 m) in *. set (e := m11 m) in *.
  set (f := m12 m) in *. set (g := m20 m) in *. set (h := m21 m) in *. set (i := m22 m) in *. clearbody a b c d e f g h i.
  assert (WX : (1 + a + e + i) * (1 + a - e - i) = (h - f) * (h - f)) by lra.
  assert (WY : (1 + a + e + i) * (1 - a + e - i) = (c - g) * (c - g)) by lra.
  assert (WZ : (1 + a + e + i) * (1 - a - e + i) = (d - b) * (d - b)) by lra.
  assert (XY : (1 + a - e - i) * (1 - a + e - i) = (b + d) * (b + d)) by lra.
  assert (XZ : (1 + a - e - i) * (1 - a - e + i) = (c + g) * (c + g)) by lra.
  assert (YZ : (1 - a + e - i) * (1 - a - e + i) = (f + h) * (f + h)) by lra.
  (* products of the skew and symmetric parts *)
  assert (P1 : (h - f) * (c - g) = (1 + a + e + i) * (b + d)) by lra.
  assert (P2 : (h - f) * (d - b) = (1 + a + e + i) * (c + g)) by lra.
  assert (P3 : (c - g) * (d - b) = (1 + a + e + i) * (f + h)) by lra.
  assert (P4 : (b + d) * (c + g) = (1 + a - e - i) * (f + h)) by lra.
  assert (P5 : (h - f) * (b + d) = (1 + a - e - i) * (c - g)) by lra.
  assert (P6 : (h - f) * (c + g) = (1 + a - e - i) * (d - b)) by lra.
  assert (P7 : (b + d) * (f + h) = (1 - a + e - i) * (c + g)) by lra.
  assert (P8 : (c - g) * (b + d) = (1 - a + e - i) * (h - f)) by lra.
  assert (P9 : (c - g) * (f + h) = (1 - a + e - i) * (d - b)) by lra.
  assert (P10 : (c + g) * (f + h) = (1 - a - e + i) * (b + d)) by lra.
  assert (P11 : (d - b) * (c + g) = (1 - a - e + i) * (h - f)) by lra.
  assert (P12 : (d - b) * (f + h) = (1 - a - e + i) * (c - g)) by lra.
  clear e0 e1 e2 e3 e4 e5 e6 e7 e8 c0 c1 c2 c3 c4 c5 w0 w1 w2 w3 w4 w5.
  assert (D : forall r p q, 0 < r -> 4 * (p * (/ 2 / sqrt r) * (q * (/ 2 / sqrt r))) = p * q / r).
  { intros r p q Hr. destruct (half_sqrt r Hr) as [S P]. rewrite <- S at 3. field. lra. }
  assert (D2 : forall r p, 0 < r -> 4 * (/ 2 * sqrt r * (p * (/ 2 / sqrt r))) = p).
  { intros r p Hr. destruct (half_sqrt r Hr) as [S P]. field. lra. }
  assert (D3 : forall r p, 0 < r -> 4 * (p * (/ 2 / sqrt r) * (/ 2 * sqrt r)) = p).
  { intros r p Hr. destruct (half_sqrt r Hr) as [S P]. field. lra. }
  assert (D4 : forall r, 0 < r -> 4 * (/ 2 * sqrt r * (/ 2 * sqrt r)) = r).
  { intros r Hr. destruct (half_sqrt r Hr) as [S P]. lra. }
  assert (Q : forall r u v, 0 < r -> u = r * v -> u / r = v) by (intros r u v Hr E; rewrite E; field; lra).
  repeat rcase; cbn [qx qy qz qw];
  repeat split;
  try (rewrite D4 by lra; lra); try (rewrite D2 by lra; lra); try (rewrite D3 by lra; lra);
  (rewrite D by lra; apply Q; lra).
Qed.
