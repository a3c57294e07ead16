(** Vectors, matrices, quaternions and transforms over the real numbers.  The engine's [decimal] is a
    floating point type: the models of this file and of the files using it compute exactly. *)
From Coq Require Export Reals Lra Psatz.
Local Open Scope R_scope.

(** Comparisons of decimals. *)
Definition rlt (a b : R) : bool := if Rlt_dec a b then true else false.
Definition rle (a b : R) : bool := if Rle_dec a b then true else false.
Definition req (a b : R) : bool := if Req_EM_T a b then true else false.

(** include/reactphysics3d/mathematics/Vector3.h. *)
Record vec3 : Type := V3 { vx : R; vy : R; vz : R }.
(** Vector3.h:313-325, 328-330 and 347-354. *)
Definition vadd (a b : vec3) : vec3 := V3 (vx a + vx b) (vy a + vy b) (vz a + vz b).
Definition vsub (a b : vec3) : vec3 := V3 (vx a - vx b) (vy a - vy b) (vz a - vz b).
Definition vneg (a : vec3) : vec3 := V3 (- vx a) (- vy a) (- vz a).
Definition vscale (k : R) (a : vec3) : vec3 := V3 (k * vx a) (k * vy a) (k * vz a).
Definition vmul (a b : vec3) : vec3 := V3 (vx a * vx b) (vy a * vy b) (vz a * vz b).
Definition vzero : vec3 := V3 0 0 0.
(** Vector3.h:333-336; the assertion is not modelled. *)
Definition vdiv (a : vec3) (k : R) : vec3 := V3 (vx a / k) (vy a / k) (vz a / k).
(** Vector3.h:196-216. *)
Definition vdot (a b : vec3) : R := vx a * vx b + vy a * vy b + vz a * vz b.
Definition vlen2 (a : vec3) : R := vx a * vx a + vy a * vy a + vz a * vz a.
Definition vlen (a : vec3) : R := sqrt (vlen2 a).
Definition vcross (a b : vec3) : vec3 :=
  V3 (vy a * vz b - vz a * vy b) (vz a * vx b - vx a * vz b) (vx a * vy b - vy a * vx b).
(** Vector3.h:361-373. *)
Definition vmin (a b : vec3) : vec3 := V3 (Rmin (vx a) (vx b)) (Rmin (vy a) (vy b)) (Rmin (vz a) (vz b)).
Definition vmax (a b : vec3) : vec3 := V3 (Rmax (vx a) (vx b)) (Rmax (vy a) (vy b)) (Rmax (vz a) (vz b)).
(** Vector3.h:229-242. *)
Definition vabs (a : vec3) : vec3 := V3 (Rabs (vx a)) (Rabs (vy a)) (Rabs (vz a)).
Definition min_axis (a : vec3) : nat :=
  if rlt (vx a) (vy a) then (if rlt (vx a) (vz a) then 0 else 2)%nat else (if rlt (vy a) (vz a) then 1 else 2)%nat.
Definition max_axis (a : vec3) : nat :=
  if rlt (vx a) (vy a) then (if rlt (vy a) (vz a) then 2 else 1)%nat else (if rlt (vx a) (vz a) then 2 else 0)%nat.
(** src/mathematics/Vector3.cpp:33-43 getUnit; [eps] is MACHINE_EPSILON. *)
Definition vunit (eps : R) (a : vec3) : vec3 :=
  if rlt (vlen a) eps then a
  else let li := 1 / vlen a in V3 (vx a * li) (vy a * li) (vz a * li).
(** Vector3.h:218-227 normalize. *)
Definition vnormalize (eps : R) (a : vec3) : vec3 :=
  if rlt (vlen a) eps then a else V3 (vx a / vlen a) (vy a / vlen a) (vz a / vlen a).
(** src/mathematics/Vector3.cpp:46-65 getOneUnitOrthogonalVector. *)
Definition orthogonal_unit (a : vec3) : vec3 :=
  match min_axis (vabs a) with
  | 0%nat => vdiv (V3 0 (- vz a) (vy a)) (sqrt (vy a * vy a + vz a * vz a))
  | 1%nat => vdiv (V3 (- vz a) 0 (vx a)) (sqrt (vx a * vx a + vz a * vz a))
  | _ => vdiv (V3 (- vy a) (vx a) 0) (sqrt (vx a * vx a + vy a * vy a))
  end.

(** include/reactphysics3d/mathematics/Matrix3x3.h: three rows. *)
Record mat3 : Type := M3 { row0 : vec3; row1 : vec3; row2 : vec3 }.
(** Matrix3x3.h:165-180, constructor from nine numbers. *)
Definition mk_mat (a1 a2 a3 b1 b2 b3 c1 c2 c3 : R) : mat3 := M3 (V3 a1 a2 a3) (V3 b1 b2 b3) (V3 c1 c2 c3).
Definition m00 (m : mat3) := vx (row0 m). Definition m01 (m : mat3) := vy (row0 m). Definition m02 (m : mat3) := vz (row0 m).
Definition m10 (m : mat3) := vx (row1 m). Definition m11 (m : mat3) := vy (row1 m). Definition m12 (m : mat3) := vz (row1 m).
Definition m20 (m : mat3) := vx (row2 m). Definition m21 (m : mat3) := vy (row2 m). Definition m22 (m : mat3) := vz (row2 m).
Definition mat_id : mat3 := mk_mat 1 0 0 0 1 0 0 0 1.
Definition mat_zero : mat3 := mk_mat 0 0 0 0 0 0 0 0 0.
(** Matrix3x3.h:201-260. *)
Definition mat_transpose (m : mat3) : mat3 :=
  mk_mat (m00 m) (m10 m) (m20 m) (m01 m) (m11 m) (m21 m) (m02 m) (m12 m) (m22 m).
Definition mat_det (m : mat3) : R :=
  m00 m * (m11 m * m22 m - m21 m * m12 m) - m01 m * (m10 m * m22 m - m20 m * m12 m) + m02 m * (m10 m * m21 m - m20 m * m11 m).
Definition mat_trace (m : mat3) : R := m00 m + m11 m + m22 m.
Definition mat_skew (v : vec3) : mat3 := mk_mat 0 (- vz v) (vy v) (vz v) 0 (- vx v) (- vy v) (vx v) 0.
Definition mat_abs (m : mat3) : mat3 :=
  mk_mat (Rabs (m00 m)) (Rabs (m01 m)) (Rabs (m02 m)) (Rabs (m10 m)) (Rabs (m11 m)) (Rabs (m12 m)) (Rabs (m20 m)) (Rabs (m21 m)) (Rabs (m22 m)).
(** Matrix3x3.h:262-331. *)
Definition mat_add (a b : mat3) : mat3 := M3 (vadd (row0 a) (row0 b)) (vadd (row1 a) (row1 b)) (vadd (row2 a) (row2 b)).
Definition mat_sub (a b : mat3) : mat3 := M3 (vsub (row0 a) (row0 b)) (vsub (row1 a) (row1 b)) (vsub (row2 a) (row2 b)).
Definition mat_scale (k : R) (m : mat3) : mat3 :=
  mk_mat (m00 m * k) (m01 m * k) (m02 m * k) (m10 m * k) (m11 m * k) (m12 m * k) (m20 m * k) (m21 m * k) (m22 m * k).
Definition mat_mul (a b : mat3) : mat3 :=
  mk_mat (m00 a * m00 b + m01 a * m10 b + m02 a * m20 b) (m00 a * m01 b + m01 a * m11 b + m02 a * m21 b) (m00 a * m02 b + m01 a * m12 b + m02 a * m22 b)
         (m10 a * m00 b + m11 a * m10 b + m12 a * m20 b) (m10 a * m01 b + m11 a * m11 b + m12 a * m21 b) (m10 a * m02 b + m11 a * m12 b + m12 a * m22 b)
         (m20 a * m00 b + m21 a * m10 b + m22 a * m20 b) (m20 a * m01 b + m21 a * m11 b + m22 a * m21 b) (m20 a * m02 b + m21 a * m12 b + m22 a * m22 b).
Definition mat_vec (m : mat3) (v : vec3) : vec3 :=
  V3 (m00 m * vx v + m01 m * vy v + m02 m * vz v) (m10 m * vx v + m11 m * vy v + m12 m * vz v) (m20 m * vx v + m21 m * vy v + m22 m * vz v).
(** src/mathematics/Matrix3x3.cpp:33-54 getInverse(determinant) and Matrix3x3.h:244-247. *)
Definition mat_inverse_det (m : mat3) (d : R) : mat3 :=
  mat_scale (1 / d)
    (mk_mat (m11 m * m22 m - m21 m * m12 m) (- (m01 m * m22 m - m21 m * m02 m)) (m01 m * m12 m - m02 m * m11 m)
            (- (m10 m * m22 m - m20 m * m12 m)) (m00 m * m22 m - m20 m * m02 m) (- (m00 m * m12 m - m10 m * m02 m))
            (m10 m * m21 m - m20 m * m11 m) (- (m00 m * m21 m - m20 m * m01 m)) (m00 m * m11 m - m01 m * m10 m)).
Definition mat_inverse (m : mat3) : mat3 := mat_inverse_det m (mat_det m).

(** include/reactphysics3d/mathematics/Matrix2x2.h and src/mathematics/Matrix2x2.cpp:33-44. *)
Record mat2 : Type := M2 { n00 : R; n01 : R; n10 : R; n11 : R }.
Definition mat2_id : mat2 := M2 1 0 0 1.
Definition mat2_det (m : mat2) : R := n00 m * n11 m - n10 m * n01 m.
Definition mat2_scale (k : R) (m : mat2) : mat2 := M2 (n00 m * k) (n01 m * k) (n10 m * k) (n11 m * k).
Definition mat2_mul (a b : mat2) : mat2 :=
  M2 (n00 a * n00 b + n01 a * n10 b) (n00 a * n01 b + n01 a * n11 b) (n10 a * n00 b + n11 a * n10 b) (n10 a * n01 b + n11 a * n11 b).
Definition mat2_inverse (m : mat2) : mat2 := mat2_scale (1 / mat2_det m) (M2 (n11 m) (- n01 m) (- n10 m) (n00 m)).

(** include/reactphysics3d/mathematics/Quaternion.h. *)
Record quat : Type := Q4 { qx : R; qy : R; qz : R; qw : R }.
Definition quat_id : quat := Q4 0 0 0 1.
Definition quat_len2 (q : quat) : R := qx q * qx q + qy q * qy q + qz q * qz q + qw q * qw q.
(** Quaternion.h:237-249 normalize; the assertion is not modelled. *)
Definition quat_normalize (q : quat) : quat :=
  let l := sqrt (quat_len2 q) in Q4 (qx q / l) (qy q / l) (qz q / l) (qw q / l).
(** Quaternion.h:277-286 getConjugate and getInverse. *)
Definition quat_inverse (q : quat) : quat := Q4 (- qx q) (- qy q) (- qz q) (qw q).
(** Quaternion.h:349-362 operator*(Quaternion). *)
Definition quat_mul (a b : quat) : quat :=
  Q4 (qw a * qx b + qw b * qx a + qy a * qz b - qz a * qy b)
     (qw a * qy b + qw b * qy a + qz a * qx b - qx a * qz b)
     (qw a * qz b + qw b * qz a + qx a * qy b - qy a * qx b)
     (qw a * qw b - qx a * qx b - qy a * qy b - qz a * qz b).
Definition quat_add (a b : quat) : quat := Q4 (qx a + qx b) (qy a + qy b) (qz a + qz b) (qw a + qw b).
Definition quat_scale (k : R) (a : quat) : quat := Q4 (k * qx a) (k * qy a) (k * qz a) (k * qw a).
(** Quaternion.h:365-381 operator*(Vector3). *)
Definition quat_vec (q : quat) (p : vec3) : vec3 :=
  let px := qw q * vx p + qy q * vz p - qz q * vy p in
  let py := qw q * vy p + qz q * vx p - qx q * vz p in
  let pz := qw q * vz p + qx q * vy p - qy q * vx p in
  let pw := - qx q * vx p - qy q * vy p - qz q * vz p in
  V3 (qw q * px - py * qz q + pz * qy q - pw * qx q)
     (qw q * py - pz * qx q + px * qz q - pw * qy q)
     (qw q * pz - px * qy q + py * qx q - pw * qz q).
(** src/mathematics/Quaternion.cpp:138-165 getMatrix. *)
Definition quat_matrix (q : quat) : mat3 :=
  let n := quat_len2 q in
  let s := if rlt 0 n then 2 / n else 0 in
  let xs := qx q * s in let ys := qy q * s in let zs := qz q * s in
  let wxs := qw q * xs in let wys := qw q * ys in let wzs := qw q * zs in
  let xxs := qx q * xs in let xys := qx q * ys in let xzs := qx q * zs in
  let yys := qy q * ys in let yzs := qy q * zs in let zzs := qz q * zs in
  mk_mat (1 - yys - zzs) (xys - wzs) (xzs + wys)
         (xys + wzs) (1 - xxs - zzs) (yzs - wxs)
         (xzs - wys) (yzs + wxs) (1 - xxs - yys).
(** src/mathematics/Quaternion.cpp:55-117, constructor from a rotation matrix. *)
Definition matrix_quat (m : mat3) : quat :=
  let case_z := let r := sqrt (m22 m - m00 m - m11 m + 1) in let s := / 2 / r in
                Q4 ((m20 m + m02 m) * s) ((m12 m + m21 m) * s) (/ 2 * r) ((m10 m - m01 m) * s) in
  if rlt (mat_trace m) 0 then
    if rlt (m00 m) (m11 m) then
      if rlt (m11 m) (m22 m) then case_z
      else let r := sqrt (m11 m - m22 m - m00 m + 1) in let s := / 2 / r in
           Q4 ((m01 m + m10 m) * s) (/ 2 * r) ((m12 m + m21 m) * s) ((m02 m - m20 m) * s)
    else if rlt (m00 m) (m22 m) then case_z
    else let r := sqrt (m00 m - m11 m - m22 m + 1) in let s := / 2 / r in
         Q4 (/ 2 * r) ((m01 m + m10 m) * s) ((m20 m + m02 m) * s) ((m21 m - m12 m) * s)
  else let r := sqrt (mat_trace m + 1) in let s := / 2 / r in
       Q4 ((m21 m - m12 m) * s) ((m02 m - m20 m) * s) ((m10 m - m01 m) * s) (/ 2 * r).
(** src/mathematics/Quaternion.cpp:207-235 initWithEulerAngles. *)
Definition quat_euler (ax ay az : R) : quat :=
  let sX := sin (ax * / 2) in let cX := cos (ax * / 2) in
  let sY := sin (ay * / 2) in let cY := cos (ay * / 2) in
  let sZ := sin (az * / 2) in let cZ := cos (az * / 2) in
  quat_normalize (Q4 (sX * (cY * cZ) - cX * (sY * sZ)) (cX * (sY * cZ) + sX * (cY * sZ))
                     (cX * (cY * sZ) - sX * (sY * cZ)) (cX * (cY * cZ) + sX * (sY * sZ))).
(** src/mathematics/Quaternion.cpp:169-204 slerp; the assertion on [t] is not modelled. *)
Definition quat_dot (a b : quat) : R := qx a * qx b + qy a * qy b + qz a * qz b + qw a * qw b.
Definition quat_slerp (a b : quat) (t : R) : quat :=
  let c := quat_dot a b in
  let invert := if rlt c 0 then -1 else 1 in
  let c := if rlt c 0 then - c else c in
  if rlt (1 - c) (/ 100000) then quat_add (quat_scale (1 - t) a) (quat_scale (t * invert) b)
  else
    let theta := acos c in
    let st := sin theta in
    quat_add (quat_scale (sin ((1 - t) * theta) / st) a) (quat_scale (sin (t * theta) / st * invert) b).

(** include/reactphysics3d/mathematics/Transform.h. *)
Record transform : Type := Tr { t_pos : vec3; t_rot : quat }.
Definition tr_id : transform := Tr vzero quat_id.
(** Transform.h:162-165 getInverse. *)
Definition tr_inverse (t : transform) : transform :=
  let q := quat_inverse (t_rot t) in Tr (quat_vec q (vneg (t_pos t))) q.
(** Transform.h:193-195 operator*(Vector3). *)
Definition tr_point (t : transform) (p : vec3) : vec3 := vadd (quat_vec (t_rot t) p) (t_pos t).
(** Transform.h:198-229 operator*(Transform): the written-out products, sums in the order of the code. *)
Definition tr_mul (a b : transform) : transform :=
  let o := t_rot a in let p := t_pos b in let o2 := t_rot b in
  let px := qw o * vx p + qy o * vz p - qz o * vy p in
  let py := qw o * vy p + qz o * vx p - qx o * vz p in
  let pz := qw o * vz p + qx o * vy p - qy o * vx p in
  let pw := - qx o * vx p - qy o * vy p - qz o * vz p in
  Tr (V3 (vx (t_pos a) + qw o * px - py * qz o + pz * qy o - pw * qx o)
         (vy (t_pos a) + qw o * py - pz * qx o + px * qz o - pw * qy o)
         (vz (t_pos a) + qw o * pz - px * qy o + py * qx o - pw * qz o))
     (Q4 (qw o * qx o2 + qw o2 * qx o + qy o * qz o2 - qz o * qy o2)
         (qw o * qy o2 + qw o2 * qy o + qz o * qx o2 - qx o * qz o2)
         (qw o * qz o2 + qw o2 * qz o + qx o * qy o2 - qy o * qx o2)
         (qw o * qw o2 - qx o * qx o2 - qy o * qy o2 - qz o * qz o2)).
(** Transform.h:168-180 interpolateTransforms. *)
Definition tr_interpolate (a b : transform) (t : R) : transform :=
  Tr (vadd (vscale (1 - t) (t_pos a)) (vscale t (t_pos b))) (quat_slerp (t_rot a) (t_rot b) t).

(** src/mathematics/Transform.cpp:34-55: the sixteen numbers of an OpenGL matrix, column by column. *)
Definition tr_to_opengl (t : transform) : list R :=
  let m := quat_matrix (t_rot t) in
  (m00 m :: m10 m :: m20 m :: 0 :: m01 m :: m11 m :: m21 m :: 0 :: m02 m :: m12 m :: m22 m :: 0
   :: vx (t_pos t) :: vy (t_pos t) :: vz (t_pos t) :: 1 :: nil)%list.
Definition tr_from_opengl (g : list R) : transform :=
  let e := fun k => List.nth k g 0 in
  Tr (V3 (e 12%nat) (e 13%nat) (e 14%nat))
     (matrix_quat (mk_mat (e 0%nat) (e 4%nat) (e 8%nat) (e 1%nat) (e 5%nat) (e 9%nat) (e 2%nat) (e 6%nat) (e 10%nat))).
(** src/mathematics/Quaternion.cpp:122-135 getRotationAngleAxis. *)
Definition quat_angle_axis (eps : R) (q : quat) : R * vec3 := (acos (qw q) * 2, vunit eps (V3 (qx q) (qy q) (qz q))).
