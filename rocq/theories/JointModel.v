(** The velocity part of the four joint solvers (src/systems/Solve*JointSystem.cpp) over the real numbers.  Bodies are numbered; the
    references v1, w1, v2, w2 of the code always show the present velocities (ContactModel.v).  Warm starting is always active: nothing
    changes ConstraintSolverSystem::mIsWarmStartingActive (ConstraintSolverSystem.cpp:43). *)
From Coq Require Import List Reals Bool.
From Verif Require Import VecModel ContactModel.
Import ListNotations.
Local Open Scope R_scope.

(** What the solvers read of a body: the components of [rigid], whether its type is DYNAMIC, its orientation and its local centre of mass. *)
Record jbody : Type := JBody { jb : rigid; jb_dynamic : bool; jb_q : quat; jb_com : vec3 }.
Definition jbodies : Type := nat -> jbody.
(** JointComponents.h: the two bodies, the local anchor points (BallAndSocketJointComponents.h and others: mLocalAnchorPointBody1, 2) and
    whether the position correction technique is BAUMGARTE_JOINTS. *)
Record link : Type := Link { l_b1 : nat; l_b2 : nat; l_p1 : vec3; l_p2 : vec3; l_baumgarte : bool }.

(** v += mInverseMasses * mLinearLockAxisFactors * lin; w += mAngularLockAxisFactors * (I * ang), in all four files. *)
Definition push (env : jbodies) (b : nat) (lin ang : vec3) (st : velocities) : velocities :=
  let a := jb (env b) in
  shift_c b (vmul (vscale (r_im a) (r_ll a)) lin) (vmul (r_al a) (mat_vec (r_iw a) ang)) st.
Definition push_lin (env : jbodies) (b : nat) (lin : vec3) (st : velocities) : velocities :=
  let a := jb (env b) in
  shift_c b (vmul (vscale (r_im a) (r_ll a)) lin) vzero st.
Definition push_ang (env : jbodies) (b : nat) (ang : vec3) (st : velocities) : velocities :=
  let a := jb (env b) in
  shift_c b vzero (vmul (r_al a) (mat_vec (r_iw a) ang)) st.
(** SolveBallAndSocketJointSystem.cpp:79-80, SolveFixedJointSystem.cpp:76-77, SolveHingeJointSystem.cpp:76-77,
    SolveSliderJointSystem.cpp:76-77: from the centre of mass of a body to the anchor point. *)
Definition arm (env : jbodies) (b : nat) (p : vec3) : vec3 := quat_vec (jb_q (env b)) (vsub p (jb_com (env b))).
Definition arm1 (env : jbodies) (l : link) : vec3 := arm env (l_b1 l) (l_p1 l).
Definition arm2 (env : jbodies) (l : link) : vec3 := arm env (l_b2 l) (l_p2 l).
Definition any_dynamic (env : jbodies) (l : link) : bool := jb_dynamic (env (l_b1 l)) || jb_dynamic (env (l_b2 l)).
Definition sum_mass (env : jbodies) (l : link) : R := r_im (jb (env (l_b1 l))) + r_im (jb (env (l_b2 l))).
Definition i1_of (env : jbodies) (l : link) : mat3 := r_iw (jb (env (l_b1 l))).
Definition i2_of (env : jbodies) (l : link) : mat3 := r_iw (jb (env (l_b2 l))).
(** SolveBallAndSocketJointSystem.cpp:89-100 and the same lines of the fixed and the hinge joint: matrix of the three translation
    constraints. *)
Definition mass_matrix (env : jbodies) (l : link) (r1 r2 : vec3) : mat3 :=
  let m := sum_mass env l in
  mat_add (mat_add (mk_mat m 0 0 0 m 0 0 0 m) (mat_mul (mat_mul (mat_skew r1) (i1_of env l)) (mat_transpose (mat_skew r1))))
    (mat_mul (mat_mul (mat_skew r2) (i2_of env l)) (mat_transpose (mat_skew r2))).
(** SolveBallAndSocketJointSystem.cpp:103-110: zero unless the determinant exceeds MACHINE_EPSILON [eps] and a body is dynamic. *)
Definition invert_mass (eps : R) (dynamic : bool) (k : mat3) : mat3 :=
  if rlt eps (Rabs (mat_det k)) then if dynamic then mat_inverse_det k (mat_det k) else mat_zero else mat_zero.
(** SolveFixedJointSystem.cpp:117-124, SolveSliderJointSystem.cpp:198-206: the same without the reset to zero. *)
Definition invert_rotation (eps : R) (dynamic : bool) (k : mat3) : mat3 :=
  if rlt eps (Rabs (mat_det k)) then if dynamic then mat_inverse_det k (mat_det k) else k else k.
(** Matrix2x2.h: getInverse(determinant), zero matrix, product with a vector. *)
Definition mat2_inverse_det (m : mat2) (d : R) : mat2 := mat2_scale (1 / d) (M2 (n11 m) (- n01 m) (- n10 m) (n00 m)).
Definition mat2_zero : mat2 := M2 0 0 0 0.
Definition mat2_vec (m : mat2) (v : R * R) : R * R := (n00 m * fst v + n01 m * snd v, n10 m * fst v + n11 m * snd v).
(** SolveHingeJointSystem.cpp:145-152, SolveSliderJointSystem.cpp:186-194. *)
Definition invert_mass2 (eps : R) (dynamic : bool) (k : mat2) : mat2 :=
  if rlt eps (Rabs (mat2_det k)) then if dynamic then mat2_inverse_det k (mat2_det k) else mat2_zero else mat2_zero.
(** BETA / mTimeStep. *)
Definition bias_factor (dt : R) : R := (2 / 10) / dt.
(** SolveBallAndSocketJointSystem.cpp:116-119 and others: bias of the three translation constraints. *)
Definition gap (env : jbodies) (l : link) (r1 r2 : vec3) : vec3 :=
  vsub (vsub (vadd (r_x (jb (env (l_b2 l)))) r2) (r_x (jb (env (l_b1 l))))) r1.
Definition translation_bias (dt : R) (env : jbodies) (l : link) (r1 r2 : vec3) : vec3 :=
  if l_baumgarte l then vscale (bias_factor dt) (gap env l r1 r2) else vzero.
(** mathematics_functions.h:55-58 clamp(value, -limit, limit). *)
Definition clamp_sym (limit x : R) : R := Rmin (Rmax x (- limit)) limit.
(** The jumps of the code over the three translation constraints (SolveBallAndSocketJointSystem.cpp:274-294,
    SolveFixedJointSystem.cpp:237-262, SolveHingeJointSystem.cpp:444-465). *)
Definition translation_step (env : jbodies) (l : link) (r1 r2 : vec3) (inv : mat3) (bias : vec3) (st : velocities) : vec3 * velocities :=
  let a := st (l_b1 l) in
  let b := st (l_b2 l) in
  let jv := relative (cv a) (cw a) (cv b) (cw b) r1 r2 in
  let d := mat_vec inv (vsub (vneg jv) bias) in
  let st := push env (l_b1 l) (vneg d) (vcross d r1) st in
  (d, push env (l_b2 l) d (vneg (vcross d r2)) st).
(** SolveFixedJointSystem.cpp:267-283, SolveSliderJointSystem.cpp:464-481. *)
Definition rotation_step (env : jbodies) (l : link) (inv : mat3) (bias : vec3) (st : velocities) : vec3 * velocities :=
  let jv := vsub (cw (st (l_b2 l))) (cw (st (l_b1 l))) in
  let d := mat_vec inv (vsub (vneg jv) bias) in
  let st := push_ang env (l_b1 l) (vneg d) st in
  (d, push_ang env (l_b2 l) d st).

(** ** Ball-and-socket joint *)
(** BallAndSocketJointComponents.h: configuration, then what lasts from update to update. *)
Record ball : Type := Ball { bl_link : link; bl_cone : bool; bl_half : R }.
Record ball_mem : Type := BallMem { bm_imp : vec3; bm_cone : R; bm_violated : bool }.
(** What initBeforeSolve computes for the iterations. *)
Record ball_data : Type := BallData { bd_r1 : vec3; bd_r2 : vec3; bd_inv : mat3; bd_bias : vec3; bd_axis : vec3; bd_cinv : R; bd_cbias : R }.
(** SolveBallAndSocketJointSystem.h:150-154. *)
Definition cone_angle (a b : vec3) : R := acos (vdot a b).
(** SolveBallAndSocketJointSystem.cpp:49-159 initBeforeSolve. *)
Definition ball_init (eps dt : R) (env : jbodies) (j : ball) (m : ball_mem) : ball_data * ball_mem :=
  let l := bl_link j in
  let r1 := arm1 env l in
  let r2 := arm2 env l in
  let u1 := vunit eps r1 in
  let u2 := vneg (vunit eps r2) in
  let axis := vcross u1 u2 in
  let err := bl_half j - cone_angle u1 u2 in
  let violated := rlt err 0 in
  let cimp := if negb violated || negb (eqb violated (bm_violated m)) then 0 else bm_cone m in
  let ck := vdot axis (mat_vec (i1_of env l) axis) + vdot axis (mat_vec (i2_of env l) axis) in
  (BallData r1 r2 (invert_mass eps (any_dynamic env l) (mass_matrix env l r1 r2)) (translation_bias dt env l r1 r2) axis
     (inverse_if_positive ck) (if l_baumgarte l then bias_factor dt * err else 0),
   BallMem (bm_imp m) cimp violated).
(** SolveBallAndSocketJointSystem.cpp:162-213 warmstart. *)
Definition ball_warm (env : jbodies) (j : ball) (d : ball_data) (m : ball_mem) (st : velocities) : velocities :=
  let l := bl_link j in
  let p := bm_imp m in
  let c := vscale (bm_cone m) (bd_axis d) in
  let st := push env (l_b1 l) (vneg p) (vadd (vcross p (bd_r1 d)) c) st in
  push env (l_b2 l) p (vadd (vneg (vcross p (bd_r2 d))) (vneg c)) st.
(** SolveBallAndSocketJointSystem.cpp:242-269: the cone limit. *)
Definition ball_limit (env : jbodies) (j : ball) (d : ball_data) (m : ball_mem) (st : velocities) : R * velocities :=
  let l := bl_link j in
  if bl_cone j && bm_violated m then
    let jv := vdot (bd_axis d) (vsub (cw (st (l_b1 l))) (cw (st (l_b2 l)))) in
    let c := Rmax (bm_cone m + bd_cinv d * (- jv - bd_cbias d)) 0 in
    let dl := c - bm_cone m in
    let st := push_ang env (l_b1 l) (vscale dl (bd_axis d)) st in
    (c, push_ang env (l_b2 l) (vscale (- dl) (bd_axis d)) st)
  else (bm_cone m, st).
(** SolveBallAndSocketJointSystem.cpp:216-295 solveVelocityConstraint. *)
Definition ball_solve (env : jbodies) (j : ball) (d : ball_data) (m : ball_mem) (st : velocities) : ball_mem * velocities :=
  let '(c, st) := ball_limit env j d m st in
  let '(dl, st) := translation_step env (bl_link j) (bd_r1 d) (bd_r2 d) (bd_inv d) (bd_bias d) st in
  (BallMem (vadd (bm_imp m) dl) c (bm_violated m), st).

(** ** Fixed joint *)
(** FixedJointComponents.h. *)
Record fixed : Type := Fixed { fx_link : link; fx_diff : quat }.
Record fixed_mem : Type := FixedMem { fm_imp : vec3; fm_rot : vec3 }.
Record fixed_data : Type := FixedData { fd_r1 : vec3; fd_r2 : vec3; fd_inv : mat3; fd_bias : vec3; fd_rinv : mat3; fd_rbias : vec3 }.
(** Quaternion.h getVectorV. *)
Definition quat_v (q : quat) : vec3 := V3 (qx q) (qy q) (qz q).
(** SolveFixedJointSystem.cpp:127-132, SolveSliderJointSystem.cpp:209-213. *)
Definition rotation_bias (dt : R) (env : jbodies) (l : link) (diff : quat) : vec3 :=
  if l_baumgarte l
  then vscale (bias_factor dt * 2) (quat_v (quat_mul (quat_mul (jb_q (env (l_b2 l))) diff) (quat_inverse (jb_q (env (l_b1 l)))))) else vzero.
(** SolveFixedJointSystem.cpp:48-142 initBeforeSolve. *)
Definition fixed_init (eps dt : R) (env : jbodies) (j : fixed) (m : fixed_mem) : fixed_data * fixed_mem :=
  let l := fx_link j in
  let r1 := arm1 env l in
  let r2 := arm2 env l in
  (FixedData r1 r2 (invert_mass eps (any_dynamic env l) (mass_matrix env l r1 r2)) (translation_bias dt env l r1 r2)
     (invert_rotation eps (any_dynamic env l) (mat_add (i1_of env l) (i2_of env l))) (rotation_bias dt env l (fx_diff j)), m).
(** SolveFixedJointSystem.cpp:145-202 warmstart. *)
Definition fixed_warm (env : jbodies) (j : fixed) (d : fixed_data) (m : fixed_mem) (st : velocities) : velocities :=
  let l := fx_link j in
  let p := fm_imp m in
  let st := push env (l_b1 l) (vneg p) (vadd (vcross p (fd_r1 d)) (vneg (fm_rot m))) st in
  push env (l_b2 l) p (vadd (vneg (vcross p (fd_r2 d))) (fm_rot m)) st.
(** SolveFixedJointSystem.cpp:205-285 solveVelocityConstraint. *)
Definition fixed_solve (env : jbodies) (j : fixed) (d : fixed_data) (m : fixed_mem) (st : velocities) : fixed_mem * velocities :=
  let '(dl, st) := translation_step env (fx_link j) (fd_r1 d) (fd_r2 d) (fd_inv d) (fd_bias d) st in
  let '(dr, st) := rotation_step env (fx_link j) (fd_rinv d) (fd_rbias d) st in
  (FixedMem (vadd (fm_imp m) dl) (vadd (fm_rot m) dr), st).

(** ** Hinge joint *)
(** HingeJointComponents.h; [hg_diff] is mInitOrientationDifferenceInv. *)
Record hinge : Type := Hinge {
  hg_link : link; hg_a1 : vec3; hg_a2 : vec3; hg_diff : quat; hg_limit : bool; hg_lower : R; hg_upper : R; hg_motor : bool; hg_speed : R; hg_torque : R
}.
Record hinge_mem : Type := HingeMem {
  hm_imp : vec3; hm_rot : R * R; hm_low : R; hm_up : R; hm_motor : R; hm_lviol : bool; hm_uviol : bool
}.
Record hinge_data : Type := HingeData {
  hd_r1 : vec3; hd_r2 : vec3; hd_a1 : vec3; hd_b : vec3; hd_c : vec3; hd_inv : mat3; hd_bias : vec3; hd_rinv : mat2; hd_rbias : R * R;
  hd_minv : R; hd_lbias : R; hd_ubias : R
}.
(** std::fmod for a positive second argument, std::atan2. *)
Definition fmod (x y : R) : R := if rle 0 x then x - y * IZR (Int_part (x / y)) else x + y * IZR (Int_part (- x / y)).
Definition atan2 (y x : R) : R :=
  if rlt 0 x then atan (y / x)
  else if rlt x 0 then if rle 0 y then atan (y / x) + PI else atan (y / x) - PI
  else if rlt 0 y then PI / 2 else if rlt y 0 then - (PI / 2) else 0.
(** SolveHingeJointSystem.cpp:719-735 computeNormalizedAngle. *)
Definition normalized_angle (angle : R) : R :=
  let a := fmod angle (2 * PI) in
  if rlt a (- PI) then a + 2 * PI else if rlt PI a then a - 2 * PI else a.
(** SolveHingeJointSystem.cpp:739-756 computeCorrespondingAngleNearLimits. *)
Definition angle_near_limits (angle lower upper : R) : R :=
  if rle upper lower then angle
  else if rlt upper angle then
    if rlt (Rabs (normalized_angle (angle - lower))) (Rabs (normalized_angle (angle - upper))) then angle - 2 * PI else angle
  else if rlt angle lower then
    if rlt (Rabs (normalized_angle (lower - angle))) (Rabs (normalized_angle (upper - angle))) then angle else angle + 2 * PI
  else angle.
(** SolveHingeJointSystem.cpp:759-798 computeCurrentHingeAngle. *)
Definition hinge_angle (q1 q2 diff : quat) (a1 : vec3) (lower upper : R) : R :=
  let current := quat_normalize (quat_mul q2 (quat_inverse q1)) in
  let rel := quat_normalize (quat_mul current diff) in
  let s := vlen (quat_v rel) in
  let angle := if rle 0 (vdot (quat_v rel) a1) then 2 * atan2 s (qw rel) else 2 * atan2 s (- qw rel) in
  angle_near_limits (normalized_angle angle) lower upper.
(** HingeJoint.cpp:80-84: initial orientation difference, from the orientations at creation. *)
Definition hinge_difference (q1 q2 : quat) : quat := quat_inverse (quat_normalize (quat_mul q2 (quat_inverse q1))).
(** SolveHingeJointSystem.cpp:136-144: matrix of the two rotation constraints. *)
Definition hinge_matrix (env : jbodies) (l : link) (b c : vec3) : mat2 :=
  let i1 := i1_of env l in
  let i2 := i2_of env l in
  M2 (vdot b (mat_vec i1 b) + vdot b (mat_vec i2 b)) (vdot b (mat_vec i1 c) + vdot b (mat_vec i2 c))
     (vdot c (mat_vec i1 b) + vdot c (mat_vec i2 b)) (vdot c (mat_vec i1 c) + vdot c (mat_vec i2 c)).
(** A limit that is not violated, or was not in the update before, starts with no impulse: SolveHingeJointSystem.cpp:171-182,
    SolveSliderJointSystem.cpp:105-114. *)
Definition limit_start (violated before : bool) (imp : R) : R := if negb violated || negb (eqb violated before) then 0 else imp.
(** SolveHingeJointSystem.cpp:48-213 initBeforeSolve. *)
Definition hinge_init (eps dt : R) (env : jbodies) (j : hinge) (m : hinge_mem) : hinge_data * hinge_mem :=
  let l := hg_link j in
  let q1 := jb_q (env (l_b1 l)) in
  let q2 := jb_q (env (l_b2 l)) in
  let r1 := arm1 env l in
  let r2 := arm2 env l in
  let a1 := vnormalize eps (quat_vec q1 (hg_a1 j)) in
  let a2 := vnormalize eps (quat_vec q2 (hg_a2 j)) in
  let b2 := orthogonal_unit a2 in
  let c2 := vcross a2 b2 in
  let b := vcross b2 a1 in
  let c := vcross c2 a1 in
  let rbias := if l_baumgarte l then (bias_factor dt * vdot a1 b2, bias_factor dt * vdot a1 c2) else (0, 0) in
  let angle := hinge_angle q1 q2 (hg_diff j) a1 (hg_lower j) (hg_upper j) in
  let lerr := angle - hg_lower j in
  let uerr := hg_upper j - angle in
  let lviol := rle lerr 0 in
  let uviol := rle uerr 0 in
  let mk := vdot a1 (mat_vec (i1_of env l) a1) + vdot a1 (mat_vec (i2_of env l) a1) in
  (HingeData r1 r2 a1 b c (invert_mass eps (any_dynamic env l) (mass_matrix env l r1 r2)) (translation_bias dt env l r1 r2)
     (invert_mass2 eps (any_dynamic env l) (hinge_matrix env l b c)) rbias (inverse_if_positive mk)
     (if l_baumgarte l then bias_factor dt * lerr else 0) (if l_baumgarte l then bias_factor dt * uerr else 0),
   HingeMem (hm_imp m) (hm_rot m) (limit_start lviol (hm_lviol m) (hm_low m)) (limit_start uviol (hm_uviol m) (hm_up m)) (hm_motor m) lviol uviol).
(** SolveHingeJointSystem.cpp:216-293 warmstart. *)
Definition hinge_warm (env : jbodies) (j : hinge) (d : hinge_data) (m : hinge_mem) (st : velocities) : velocities :=
  let l := hg_link j in
  let p := hm_imp m in
  let rot := vsub (vscale (fst (hm_rot m)) (vneg (hd_b d))) (vscale (snd (hm_rot m)) (hd_c d)) in
  let lim := vscale (hm_up m - hm_low m) (hd_a1 d) in
  let mot := vscale (- hm_motor m) (hd_a1 d) in
  let st := push env (l_b1 l) (vneg p) (vadd (vadd (vadd (vcross p (hd_r1 d)) rot) lim) mot) st in
  push env (l_b2 l) p (vadd (vadd (vadd (vneg (vcross p (hd_r2 d))) (vneg rot)) (vneg lim)) (vneg mot)) st.
(** SolveHingeJointSystem.cpp:337-358, 361-384: the limits. *)
Definition hinge_lower (env : jbodies) (j : hinge) (d : hinge_data) (m : hinge_mem) (st : velocities) : R * velocities :=
  let l := hg_link j in
  if hg_limit j && hm_lviol m then
    let jv := vdot (vsub (cw (st (l_b2 l))) (cw (st (l_b1 l)))) (hd_a1 d) in
    let x := Rmax (hm_low m + hd_minv d * (- jv - hd_lbias d)) 0 in
    let dl := x - hm_low m in
    let st := push_ang env (l_b1 l) (vscale (- dl) (hd_a1 d)) st in
    (x, push_ang env (l_b2 l) (vscale dl (hd_a1 d)) st)
  else (hm_low m, st).
Definition hinge_upper (env : jbodies) (j : hinge) (d : hinge_data) (m : hinge_mem) (st : velocities) : R * velocities :=
  let l := hg_link j in
  if hg_limit j && hm_uviol m then
    let jv := - vdot (vsub (cw (st (l_b2 l))) (cw (st (l_b1 l)))) (hd_a1 d) in
    let x := Rmax (hm_up m + hd_minv d * (- jv - hd_ubias d)) 0 in
    let dl := x - hm_up m in
    let st := push_ang env (l_b1 l) (vscale dl (hd_a1 d)) st in
    (x, push_ang env (l_b2 l) (vscale (- dl) (hd_a1 d)) st)
  else (hm_up m, st).
(** SolveHingeJointSystem.cpp:390-412: the motor. *)
Definition hinge_drive (dt : R) (env : jbodies) (j : hinge) (d : hinge_data) (m : hinge_mem) (st : velocities) : R * velocities :=
  let l := hg_link j in
  if hg_motor j then
    let jv := vdot (hd_a1 d) (vsub (cw (st (l_b1 l))) (cw (st (l_b2 l)))) in
    let x := clamp_sym (hg_torque j * dt) (hm_motor m + hd_minv d * (- jv - hg_speed j)) in
    let dl := x - hm_motor m in
    let st := push_ang env (l_b1 l) (vscale (- dl) (hd_a1 d)) st in
    (x, push_ang env (l_b2 l) (vscale dl (hd_a1 d)) st)
  else (hm_motor m, st).
(** SolveHingeJointSystem.cpp:418-439: the two rotation constraints. *)
Definition hinge_turn (env : jbodies) (j : hinge) (d : hinge_data) (st : velocities) : (R * R) * velocities :=
  let l := hg_link j in
  let w1 := cw (st (l_b1 l)) in
  let w2 := cw (st (l_b2 l)) in
  let jx := - vdot (hd_b d) w1 + vdot (hd_b d) w2 in
  let jy := - vdot (hd_c d) w1 + vdot (hd_c d) w2 in
  let dr := mat2_vec (hd_rinv d) (- jx - fst (hd_rbias d), - jy - snd (hd_rbias d)) in
  let st := push_ang env (l_b1 l) (vsub (vscale (fst dr) (vneg (hd_b d))) (vscale (snd dr) (hd_c d))) st in
  (dr, push_ang env (l_b2 l) (vadd (vscale (fst dr) (hd_b d)) (vscale (snd dr) (hd_c d))) st).
(** SolveHingeJointSystem.cpp:296-466 solveVelocityConstraint. *)
Definition hinge_solve (dt : R) (env : jbodies) (j : hinge) (d : hinge_data) (m : hinge_mem) (st : velocities) : hinge_mem * velocities :=
  let '(low, st) := hinge_lower env j d m st in
  let '(up, st) := hinge_upper env j d m st in
  let '(mot, st) := hinge_drive dt env j d m st in
  let '(dr, st) := hinge_turn env j d st in
  let '(dl, st) := translation_step env (hg_link j) (hd_r1 d) (hd_r2 d) (hd_inv d) (hd_bias d) st in
  (HingeMem (vadd (hm_imp m) dl) (fst (hm_rot m) + fst dr, snd (hm_rot m) + snd dr) low up mot (hm_lviol m) (hm_uviol m), st).

(** ** Slider joint *)
(** SliderJointComponents.h; [sm_r2a] is mR2CrossSliderAxis, which initBeforeSolve reads before it writes it. *)
Record slider : Type := Slider {
  sl_link : link; sl_axis : vec3; sl_diff : quat; sl_limit : bool; sl_lower : R; sl_upper : R; sl_motor : bool; sl_speed : R; sl_force : R
}.
Record slider_mem : Type := SliderMem {
  sm_imp : R * R; sm_rot : vec3; sm_low : R; sm_up : R; sm_motor : R; sm_lviol : bool; sm_uviol : bool; sm_r2a : vec3
}.
Record slider_data : Type := SliderData {
  sd_axis : vec3; sd_n1 : vec3; sd_n2 : vec3; sd_r1n1 : vec3; sd_r1n2 : vec3; sd_r1a : vec3; sd_r2n1 : vec3; sd_r2n2 : vec3; sd_r2a : vec3;
  sd_inv : mat2; sd_bias : R * R; sd_rinv : mat3; sd_rbias : vec3; sd_linv : R; sd_lbias : R; sd_ubias : R; sd_minv : R
}.
(** SolveSliderJointSystem.cpp:170-185: matrix of the two translation constraints. *)
Definition slider_matrix (env : jbodies) (l : link) (r1n1 r1n2 r2n1 r2n2 : vec3) : mat2 :=
  let m := sum_mass env l in
  let i1 := i1_of env l in
  let i2 := i2_of env l in
  M2 (m + vdot r1n1 (mat_vec i1 r1n1) + vdot r2n1 (mat_vec i2 r2n1)) (vdot r1n1 (mat_vec i1 r1n2) + vdot r2n1 (mat_vec i2 r2n2))
     (vdot r1n2 (mat_vec i1 r1n1) + vdot r2n2 (mat_vec i2 r2n1)) (m + vdot r1n2 (mat_vec i1 r1n2) + vdot r2n2 (mat_vec i2 r2n2)).
(** SolveSliderJointSystem.cpp:48-239 initBeforeSolve. *)
Definition slider_init (eps dt : R) (env : jbodies) (j : slider) (m : slider_mem) : slider_data * slider_mem :=
  let l := sl_link j in
  let r1 := arm1 env l in
  let r2 := arm2 env l in
  let axis := vnormalize eps (quat_vec (jb_q (env (l_b1 l))) (sl_axis j)) in
  let n1 := orthogonal_unit axis in
  let n2 := vcross axis n1 in
  let u := gap env l r1 r2 in
  let r1u := vadd r1 u in
  let r1n1 := vcross r1u n1 in
  let r1n2 := vcross r1u n2 in
  let r1a := vcross r1u axis in
  let lerr := vdot u axis - sl_lower j in
  let uerr := sl_upper j - vdot u axis in
  let lviol := rle lerr 0 in
  let uviol := rle uerr 0 in
  let bias := if l_baumgarte l then (vdot u n1 * bias_factor dt, vdot u n2 * bias_factor dt) else (0, 0) in
  let lk := sum_mass env l + vdot r1a (mat_vec (i1_of env l) r1a) + vdot (sm_r2a m) (mat_vec (i2_of env l) (sm_r2a m)) in
  let r2n1 := vcross r2 n1 in
  let r2n2 := vcross r2 n2 in
  let r2a := vcross r2 axis in
  (SliderData axis n1 n2 r1n1 r1n2 r1a r2n1 r2n2 r2a
     (invert_mass2 eps (any_dynamic env l) (slider_matrix env l r1n1 r1n2 r2n1 r2n2)) bias
     (invert_rotation eps (any_dynamic env l) (mat_add (i1_of env l) (i2_of env l))) (rotation_bias dt env l (sl_diff j))
     (inverse_if_positive lk) (if l_baumgarte l then bias_factor dt * lerr else 0) (if l_baumgarte l then bias_factor dt * uerr else 0)
     (inverse_if_positive (sum_mass env l)),
   SliderMem (sm_imp m) (sm_rot m) (limit_start lviol (sm_lviol m) (sm_low m)) (limit_start uviol (sm_uviol m) (sm_up m)) (sm_motor m)
     lviol uviol r2a).
(** SolveSliderJointSystem.cpp:242-319 warmstart. *)
Definition slider_warm (env : jbodies) (j : slider) (d : slider_data) (m : slider_mem) (st : velocities) : velocities :=
  let l := sl_link j in
  let lim := sm_up m - sm_low m in
  let llim := vscale lim (sd_axis d) in
  let mot := vscale (sm_motor m) (sd_axis d) in
  let x := fst (sm_imp m) in
  let y := snd (sm_imp m) in
  let st := push env (l_b1 l)
      (vadd (vadd (vsub (vscale x (vneg (sd_n1 d))) (vscale y (sd_n2 d))) llim) mot)
      (vadd (vadd (vsub (vscale x (vneg (sd_r1n1 d))) (vscale y (sd_r1n2 d))) (vneg (sm_rot m))) (vscale lim (sd_r1a d))) st in
  push env (l_b2 l)
      (vadd (vadd (vadd (vscale x (sd_n1 d)) (vscale y (sd_n2 d))) (vneg llim)) (vneg mot))
      (vadd (vadd (vadd (vscale x (sd_r2n1 d)) (vscale y (sd_r2n2 d))) (sm_rot m)) (vscale (- lim) (sd_r2a d))) st.
(** SolveSliderJointSystem.cpp:371-398, 401-431: the limits. *)
Definition slider_speed (l : link) (axis r1a r2a : vec3) (st : velocities) : R :=
  vdot axis (cv (st (l_b2 l))) + vdot r2a (cw (st (l_b2 l))) - vdot axis (cv (st (l_b1 l))) - vdot r1a (cw (st (l_b1 l))).
Definition slider_lower (env : jbodies) (j : slider) (d : slider_data) (m : slider_mem) (st : velocities) : R * velocities :=
  let l := sl_link j in
  if sl_limit j && sm_lviol m then
    let jv := slider_speed l (sd_axis d) (sd_r1a d) (sd_r2a d) st in
    let x := Rmax (sm_low m + sd_linv d * (- jv - sd_lbias d)) 0 in
    let dl := x - sm_low m in
    let st := push env (l_b1 l) (vscale (- dl) (sd_axis d)) (vscale (- dl) (sd_r1a d)) st in
    (x, push env (l_b2 l) (vscale dl (sd_axis d)) (vscale dl (sd_r2a d)) st)
  else (sm_low m, st).
Definition slider_upper (env : jbodies) (j : slider) (d : slider_data) (m : slider_mem) (st : velocities) : R * velocities :=
  let l := sl_link j in
  if sl_limit j && sm_uviol m then
    let jv := vdot (sd_axis d) (cv (st (l_b1 l))) + vdot (sd_r1a d) (cw (st (l_b1 l)))
              - vdot (sd_axis d) (cv (st (l_b2 l))) - vdot (sd_r2a d) (cw (st (l_b2 l))) in
    let x := Rmax (sm_up m + sd_linv d * (- jv - sd_ubias d)) 0 in
    let dl := x - sm_up m in
    let st := push env (l_b1 l) (vscale dl (sd_axis d)) (vscale dl (sd_r1a d)) st in
    (x, push env (l_b2 l) (vscale (- dl) (sd_axis d)) (vscale (- dl) (sd_r2a d)) st)
  else (sm_up m, st).
(** SolveSliderJointSystem.cpp:437-459: the motor. *)
Definition slider_drive (dt : R) (env : jbodies) (j : slider) (d : slider_data) (m : slider_mem) (st : velocities) : R * velocities :=
  let l := sl_link j in
  if sl_motor j then
    let jv := vdot (sd_axis d) (cv (st (l_b1 l))) - vdot (sd_axis d) (cv (st (l_b2 l))) in
    let x := clamp_sym (sl_force j * dt) (sm_motor m + sd_minv d * (- jv - sl_speed j)) in
    let dl := x - sm_motor m in
    let st := push_lin env (l_b1 l) (vscale dl (sd_axis d)) st in
    (x, push_lin env (l_b2 l) (vscale (- dl) (sd_axis d)) st)
  else (sm_motor m, st).
(** SolveSliderJointSystem.cpp:486-512: the two translation constraints. *)
Definition slider_slide (env : jbodies) (j : slider) (d : slider_data) (st : velocities) : (R * R) * velocities :=
  let l := sl_link j in
  let a := st (l_b1 l) in
  let b := st (l_b2 l) in
  let e1 := - vdot (sd_n1 d) (cv a) - vdot (cw a) (sd_r1n1 d) + vdot (sd_n1 d) (cv b) + vdot (cw b) (sd_r2n1 d) in
  let e2 := - vdot (sd_n2 d) (cv a) - vdot (cw a) (sd_r1n2 d) + vdot (sd_n2 d) (cv b) + vdot (cw b) (sd_r2n2 d) in
  let dl := mat2_vec (sd_inv d) (- e1 - fst (sd_bias d), - e2 - snd (sd_bias d)) in
  let lin := vsub (vscale (fst dl) (vneg (sd_n1 d))) (vscale (snd dl) (sd_n2 d)) in
  let st := push env (l_b1 l) lin (vsub (vscale (fst dl) (vneg (sd_r1n1 d))) (vscale (snd dl) (sd_r1n2 d))) st in
  (dl, push env (l_b2 l) (vneg lin) (vadd (vscale (fst dl) (sd_r2n1 d)) (vscale (snd dl) (sd_r2n2 d))) st).
(** SolveSliderJointSystem.cpp:322-513 solveVelocityConstraint. *)
Definition slider_solve (dt : R) (env : jbodies) (j : slider) (d : slider_data) (m : slider_mem) (st : velocities) : slider_mem * velocities :=
  let '(low, st) := slider_lower env j d m st in
  let '(up, st) := slider_upper env j d m st in
  let '(mot, st) := slider_drive dt env j d m st in
  let '(dr, st) := rotation_step env (sl_link j) (sd_rinv d) (sd_rbias d) st in
  let '(dl, st) := slider_slide env j d st in
  (SliderMem (fst (sm_imp m) + fst dl, snd (sm_imp m) + snd dl) (vadd (sm_rot m) dr) low up mot (sm_lviol m) (sm_uviol m) (sm_r2a m), st).

(** ** All joints *)
(** A joint with what it keeps between updates, and with what the present update computed for it. *)
Inductive joint : Type :=
| JBall (j : ball) (m : ball_mem) | JFixed (j : fixed) (m : fixed_mem) | JHinge (j : hinge) (m : hinge_mem) | JSlider (j : slider) (m : slider_mem).
Inductive ready : Type :=
| RBall (j : ball) (d : ball_data) (m : ball_mem) | RFixed (j : fixed) (d : fixed_data) (m : fixed_mem)
| RHinge (j : hinge) (d : hinge_data) (m : hinge_mem) | RSlider (j : slider) (d : slider_data) (m : slider_mem).
Definition init_joint (eps dt : R) (env : jbodies) (j : joint) : ready :=
  match j with
  | JBall j m => let '(d, m) := ball_init eps dt env j m in RBall j d m
  | JFixed j m => let '(d, m) := fixed_init eps dt env j m in RFixed j d m
  | JHinge j m => let '(d, m) := hinge_init eps dt env j m in RHinge j d m
  | JSlider j m => let '(d, m) := slider_init eps dt env j m in RSlider j d m
  end.
Definition warm_joint (env : jbodies) (r : ready) (st : velocities) : velocities :=
  match r with
  | RBall j d m => ball_warm env j d m st
  | RFixed j d m => fixed_warm env j d m st
  | RHinge j d m => hinge_warm env j d m st
  | RSlider j d m => slider_warm env j d m st
  end.
Definition solve_joint (dt : R) (env : jbodies) (r : ready) (st : velocities) : ready * velocities :=
  match r with
  | RBall j d m => let '(m, st) := ball_solve env j d m st in (RBall j d m, st)
  | RFixed j d m => let '(m, st) := fixed_solve env j d m st in (RFixed j d m, st)
  | RHinge j d m => let '(m, st) := hinge_solve dt env j d m st in (RHinge j d m, st)
  | RSlider j d m => let '(m, st) := slider_solve dt env j d m st in (RSlider j d m, st)
  end.
Definition keep_joint (r : ready) : joint :=
  match r with RBall j _ m => JBall j m | RFixed j _ m => JFixed j m | RHinge j _ m => JHinge j m | RSlider j _ m => JSlider j m end.
(** ConstraintSolverSystem.cpp:58-94 initialize and 97-105 solveVelocityConstraints go through the enabled joints of the four kinds in
    turn: the list is those of the first kind, then of the second and so on. *)
Fixpoint solve_joints (dt : R) (env : jbodies) (l : list ready) (st : velocities) : list ready * velocities :=
  match l with
  | [] => ([], st)
  | r :: l =>
      let '(r, st) := solve_joint dt env r st in
      let '(l, st) := solve_joints dt env l st in
      (r :: l, st)
  end.
Fixpoint iterate_joints (n : nat) (dt : R) (env : jbodies) (l : list ready) (st : velocities) : list ready * velocities :=
  match n with
  | O => (l, st)
  | S n => let '(l, st) := solve_joints dt env l st in iterate_joints n dt env l st
  end.
(** PhysicsWorld.cpp:321-346 solveContactsAndConstraints without contacts: initialize with warm start, then [n] iterations. *)
Definition joints_step (eps dt : R) (n : nat) (env : jbodies) (l : list joint) (st : velocities) : list ready * velocities :=
  let rs := map (init_joint eps dt env) l in
  let st := fold_left (fun st r => warm_joint env r st) rs st in
  iterate_joints n dt env rs st.

(** ** What the user reads *)
(** BallAndSocketJoint.cpp:136-153, FixedJoint.cpp:78-90, HingeJoint.cpp:276-303, SliderJoint.cpp:301-327 getReactionForce and
    getReactionTorque, read before solvePositionConstraint turns the axes of hinges and sliders. *)
Definition reaction_force (dt : R) (r : ready) : vec3 :=
  match r with
  | RBall _ _ m => vdiv (bm_imp m) dt
  | RFixed _ _ m => vdiv (fm_imp m) dt
  | RHinge _ _ m => vdiv (hm_imp m) dt
  | RSlider _ d m =>
      vdiv (vadd (vadd (vadd (vadd (vscale (fst (sm_imp m)) (sd_n1 d)) (vscale (snd (sm_imp m)) (sd_n2 d))) (vscale (sm_low m) (sd_axis d)))
                       (vscale (- sm_up m) (sd_axis d))) (vscale (- sm_motor m) (sd_axis d))) dt
  end.
Definition reaction_torque (dt : R) (r : ready) : vec3 :=
  match r with
  | RBall _ _ _ => vzero
  | RFixed _ _ m => vdiv (fm_rot m) dt
  | RHinge _ d m =>
      vdiv (vadd (vadd (vadd (vadd (vscale (fst (hm_rot m)) (hd_b d)) (vscale (snd (hm_rot m)) (hd_c d))) (vscale (hm_low m) (hd_a1 d)))
                       (vscale (- hm_up m) (hd_a1 d))) (vscale (hm_motor m) (hd_a1 d))) dt
  | RSlider _ _ m => vdiv (sm_rot m) dt
  end.
(** HingeJoint.cpp:251-253 getMotorTorque, SliderJoint.cpp:244-246 getMotorForce. *)
Definition motor_effort (dt : R) (r : ready) : R :=
  match r with RHinge _ _ m => hm_motor m / dt | RSlider _ _ m => sm_motor m / dt | _ => 0 end.
