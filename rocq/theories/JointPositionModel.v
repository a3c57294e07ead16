(** The position part of the four joint solvers (solvePositionConstraint in src/systems/Solve*JointSystem.cpp) over the real numbers. *)
From Coq Require Import List Reals Bool.
From Verif Require Import VecModel ContactModel BodyModel JointModel.
Import ListNotations.
Local Open Scope R_scope.

(** RigidBodyComponents.h: mConstrainedPositions, mConstrainedOrientations of a body. *)
Record pose : Type := Pose { po_x : vec3; po_q : quat }.
Definition poses : Type := nat -> pose.
(** What the solvers read of a body besides its pose: mInverseMasses, mInverseInertiaTensorsLocal, mLinearLockAxisFactors,
    mAngularLockAxisFactors, whether the type is DYNAMIC, mCentersOfMassLocal. *)
Record pbody : Type := PBody { pb_im : R; pb_il : vec3; pb_ll : vec3; pb_al : vec3; pb_dynamic : bool; pb_com : vec3 }.
Definition pbodies : Type := nat -> pbody.
(** The bodies as the velocity solvers would see them in the present poses, with the inverse inertia tensors recomputed: for example
    SolveBallAndSocketJointSystem.cpp:317-331. *)
Definition at_poses (env : pbodies) (ps : poses) : jbodies :=
  fun b => JBody (Rigid (pb_im (env b)) (world_inverse (quat_matrix (po_q (ps b))) (pb_il (env b))) (pb_ll (env b)) (pb_al (env b)) (po_x (ps b)) vzero vzero)
                 (pb_dynamic (env b)) (po_q (ps b)) (pb_com (env b)).
Definition put_pose (b : nat) (p : pose) (ps : poses) : poses := fun i => if Nat.eqb i b then p else ps i.
(** q += Quaternion(0, w) * q * 0.5; q.normalize(), in all four files. *)
Definition spin (w : vec3) (q : quat) : quat := quat_normalize (turn w 1 q).
(** The updates of x and q of one body by an impulse; [env] has the inertia of the start of the joint. *)
Definition move (env : jbodies) (b : nat) (lin ang : vec3) (ps : poses) : poses :=
  let a := jb (env b) in
  put_pose b (Pose (vadd (po_x (ps b)) (vmul (vscale (r_im a) (r_ll a)) lin)) (spin (vmul (r_al a) (mat_vec (r_iw a) ang)) (po_q (ps b)))) ps.
Definition move_ang (env : jbodies) (b : nat) (ang : vec3) (ps : poses) : poses :=
  let a := jb (env b) in
  put_pose b (Pose (po_x (ps b)) (spin (vmul (r_al a) (mat_vec (r_iw a) ang)) (po_q (ps b)))) ps.
(** Difference of the anchor points with the present positions and given arms. *)
Definition gap_now (ps : poses) (l : link) (r1 r2 : vec3) : vec3 := vsub (vsub (vadd (po_x (ps (l_b2 l))) r2) (po_x (ps (l_b1 l)))) r1.

(** SolveBallAndSocketJointSystem.cpp:392-441, SolveFixedJointSystem.cpp:334-384, SolveHingeJointSystem.cpp:655-713: the three translation
    constraints.  The matrix is zero if no body is dynamic; nothing happens if the determinant is at most MACHINE_EPSILON [eps]. *)
Definition correct_translation (eps : R) (env : jbodies) (l : link) (r1 r2 : vec3) (ps : poses) : poses :=
  let k := mass_matrix env l r1 r2 in
  if rlt eps (Rabs (mat_det k)) then
    let d := mat_vec (invert_mass eps (any_dynamic env l) k) (vneg (gap_now ps l r1 r2)) in
    let ps := move env (l_b1 l) (vneg d) (vcross d r1) ps in
    move env (l_b2 l) d (vneg (vcross d r2)) ps
  else ps.
(** SolveFixedJointSystem.cpp:386-446, SolveSliderJointSystem.cpp:699-750: the three rotation constraints. *)
Definition correct_rotation (eps : R) (env : jbodies) (l : link) (diff : quat) (ps : poses) : poses :=
  let k := mat_add (i1_of env l) (i2_of env l) in
  if rlt eps (Rabs (mat_det k)) then
    let err := vscale 2 (quat_v (quat_mul (quat_mul (po_q (ps (l_b2 l))) diff) (quat_inverse (po_q (ps (l_b1 l)))))) in
    let d := mat_vec (invert_rotation eps (any_dynamic env l) k) (vneg err) in
    let ps := move_ang env (l_b1 l) (vneg d) ps in
    move_ang env (l_b2 l) d ps
  else ps.

(** SolveBallAndSocketJointSystem.cpp:346-388: the cone limit. *)
Definition correct_cone (eps : R) (env : jbodies) (j : ball) (r1 r2 : vec3) (m : ball_mem) (ps : poses) : ball_mem * poses :=
  let l := bl_link j in
  if bl_cone j then
    let u1 := vunit eps r1 in
    let u2 := vneg (vunit eps r2) in
    let axis := vcross u1 u2 in
    let err := bl_half j - cone_angle u1 u2 in
    let m := BallMem (bm_imp m) (bm_cone m) (rlt err 0) in
    if rlt err 0 then
      let d := inverse_if_positive (vdot axis (mat_vec (i1_of env l) axis) + vdot axis (mat_vec (i2_of env l) axis)) * (- err) in
      let ps := move_ang env (l_b1 l) (vscale d axis) ps in
      (m, move_ang env (l_b2 l) (vscale (- d) axis) ps)
    else (m, ps)
  else (m, ps).
(** SolveBallAndSocketJointSystem.cpp:317-442: one joint.  Of what the solver stores only the flag is read before it is computed anew. *)
Definition ball_correct (eps : R) (env : pbodies) (j : ball) (m : ball_mem) (ps : poses) : ball_mem * poses :=
  let e := at_poses env ps in
  let l := bl_link j in
  let r1 := arm1 e l in
  let r2 := arm2 e l in
  let '(m, ps) := correct_cone eps e j r1 r2 m ps in
  (m, correct_translation eps e l r1 r2 ps).

(** SolveFixedJointSystem.cpp:308-446: one joint. *)
Definition fixed_correct (eps : R) (env : pbodies) (j : fixed) (ps : poses) : poses :=
  let e := at_poses env ps in
  let l := fx_link j in
  let ps := correct_translation eps e l (arm1 e l) (arm2 e l) ps in
  correct_rotation eps e l (fx_diff j) ps.

(** SolveHingeJointSystem.cpp:561-599: the lower and the upper limit; [d] is the multiplier of the second body. *)
Definition correct_hinge_limit (env : jbodies) (l : link) (a1 : vec3) (d : R) (ps : poses) : poses :=
  let ps := move_ang env (l_b1 l) (vscale (- d) a1) ps in
  move_ang env (l_b2 l) (vscale d a1) ps.
(** SolveHingeJointSystem.cpp:604-652: the two rotation constraints. *)
Definition correct_hinge_axis (eps : R) (env : jbodies) (l : link) (a1 b2 c2 : vec3) (ps : poses) : poses :=
  let b := vcross b2 a1 in
  let c := vcross c2 a1 in
  let k := hinge_matrix env l b c in
  if rlt eps (Rabs (mat2_det k)) then
    let d := mat2_vec (invert_mass2 eps (any_dynamic env l) k) (- vdot a1 b2, - vdot a1 c2) in
    let ps := move_ang env (l_b1 l) (vsub (vscale (fst d) (vneg b)) (vscale (snd d) c)) ps in
    move_ang env (l_b2 l) (vadd (vscale (fst d) b) (vscale (snd d) c)) ps
  else ps.
(** SolveHingeJointSystem.cpp:489-714: one joint.  The limits use mInverseMassMatrixLimitMotor as it was before ([hd_minv]); the new
    value is stored for the next iteration.  The axes are stored too: HingeJoint::getReactionTorque reads them. *)
Definition hinge_correct (eps : R) (env : pbodies) (j : hinge) (d : hinge_data) (m : hinge_mem) (ps : poses) : hinge_data * hinge_mem * poses :=
  let e := at_poses env ps in
  let l := hg_link j in
  let q1 := po_q (ps (l_b1 l)) in
  let q2 := po_q (ps (l_b2 l)) in
  let r1 := arm1 e l in
  let r2 := arm2 e l in
  let a1 := vnormalize eps (quat_vec q1 (hg_a1 j)) in
  let a2 := vnormalize eps (quat_vec q2 (hg_a2 j)) in
  let b2 := orthogonal_unit a2 in
  let c2 := vcross a2 b2 in
  let angle := hinge_angle q1 q2 (hg_diff j) a1 (hg_lower j) (hg_upper j) in
  let lerr := angle - hg_lower j in
  let uerr := hg_upper j - angle in
  let lviol := rle lerr 0 in
  let uviol := rle uerr 0 in
  let old := hd_minv d in
  let new := if hg_limit j && (lviol || uviol)
             then if rlt 0 old then 1 / (vdot a1 (mat_vec (i1_of e l) a1) + vdot a1 (mat_vec (i2_of e l) a1)) else 0
             else old in
  let d := HingeData (hd_r1 d) (hd_r2 d) a1 (vcross b2 a1) (vcross c2 a1) (hd_inv d) (hd_bias d) (hd_rinv d) (hd_rbias d)
             new (hd_lbias d) (hd_ubias d) in
  let m := HingeMem (hm_imp m) (hm_rot m) (hm_low m) (hm_up m) (hm_motor m) lviol uviol in
  let ps := if hg_limit j && lviol then correct_hinge_limit e l a1 (old * (- lerr)) ps else ps in
  let ps := if hg_limit j && uviol then correct_hinge_limit e l a1 (- (old * (- uerr))) ps else ps in
  let ps := correct_hinge_axis eps e l a1 b2 c2 ps in
  (d, m, correct_translation eps e l r1 r2 ps).

(** SolveSliderJointSystem.cpp:616-696: the limits; [d] is the multiplier of the second body. *)
Definition correct_slider_limit (env : jbodies) (l : link) (axis r1a r2a : vec3) (d : R) (ps : poses) : poses :=
  let ps := move env (l_b1 l) (vscale (- d) axis) (vscale (- d) r1a) ps in
  move env (l_b2 l) (vscale d axis) (vscale d r2a) ps.
(** SolveSliderJointSystem.cpp:753-826: the two translation constraints; [u] is the difference of the anchor points at the start. *)
Definition correct_slide (eps : R) (env : jbodies) (l : link) (n1 n2 r1n1 r1n2 r2n1 r2n2 u : vec3) (ps : poses) : poses :=
  let k := slider_matrix env l r1n1 r1n2 r2n1 r2n2 in
  if rlt eps (Rabs (mat2_det k)) then
    let d := mat2_vec (invert_mass2 eps (any_dynamic env l) k) (- vdot u n1, - vdot u n2) in
    let lin := vsub (vscale (fst d) (vneg n1)) (vscale (snd d) n2) in
    let ps := move env (l_b1 l) lin (vsub (vscale (fst d) (vneg r1n1)) (vscale (snd d) r1n2)) ps in
    move env (l_b2 l) (vneg lin) (vadd (vscale (fst d) r2n1) (vscale (snd d) r2n2)) ps
  else ps.
(** SolveSliderJointSystem.cpp:535-828: one joint. *)
Definition slider_correct (eps : R) (env : pbodies) (j : slider) (d : slider_data) (m : slider_mem) (ps : poses) : slider_data * slider_mem * poses :=
  let e := at_poses env ps in
  let l := sl_link j in
  let r1 := arm1 e l in
  let r2 := arm2 e l in
  let u := gap_now ps l r1 r2 in
  let axis := vnormalize eps (quat_vec (po_q (ps (l_b1 l))) (sl_axis j)) in
  let n1 := orthogonal_unit axis in
  let n2 := vcross axis n1 in
  let lviol := rle (vdot u axis - sl_lower j) 0 in
  let uviol := rle (sl_upper j - vdot u axis) 0 in
  let r2n1 := vcross r2 n1 in
  let r2n2 := vcross r2 n2 in
  let r2a := vcross r2 axis in
  let r1u := vadd r1 u in
  let r1n1 := vcross r1u n1 in
  let r1n2 := vcross r1u n2 in
  let r1a := vcross r1u axis in
  let linv := inverse_if_positive (sum_mass e l + vdot r1a (mat_vec (i1_of e l) r1a) + vdot r2a (mat_vec (i2_of e l) r2a)) in
  let d := SliderData axis n1 n2 r1n1 r1n2 r1a r2n1 r2n2 r2a (sd_inv d) (sd_bias d) (sd_rinv d) (sd_rbias d) (sd_linv d) (sd_lbias d)
             (sd_ubias d) (sd_minv d) in
  let m := SliderMem (sm_imp m) (sm_rot m) (sm_low m) (sm_up m) (sm_motor m) lviol uviol r2a in
  let ps := if sl_limit j && lviol
            then correct_slider_limit e l axis r1a r2a (linv * (- (vdot (gap_now ps l r1 r2) axis - sl_lower j))) ps else ps in
  let ps := if sl_limit j && uviol
            then correct_slider_limit e l axis r1a r2a (- (linv * (- (sl_upper j - vdot (gap_now ps l r1 r2) axis)))) ps else ps in
  let ps := correct_rotation eps e l (sl_diff j) ps in
  (d, m, correct_slide eps e l n1 n2 r1n1 r1n2 r2n1 r2n2 u ps).

(** The loops over the joints of each kind.  Joints with another technique than NON_LINEAR_GAUSS_SEIDEL are skipped
    (SolveBallAndSocketJointSystem.cpp:309, SolveFixedJointSystem.cpp:299, SolveHingeJointSystem.cpp:480), but the loop over the sliders
    ends at the first of them (SolveSliderJointSystem.cpp:526). *)
Fixpoint correct_joints (eps : R) (env : pbodies) (l : list ready) (ps : poses) : list ready * poses :=
  match l with
  | [] => ([], ps)
  | RBall j d m :: l =>
      let '(m, ps) := if l_baumgarte (bl_link j) then (m, ps) else ball_correct eps env j m ps in
      let '(l, ps) := correct_joints eps env l ps in
      (RBall j d m :: l, ps)
  | RFixed j d m :: l =>
      let ps := if l_baumgarte (fx_link j) then ps else fixed_correct eps env j ps in
      let '(l, ps) := correct_joints eps env l ps in
      (RFixed j d m :: l, ps)
  | RHinge j d m :: l =>
      let '(d, m, ps) := if l_baumgarte (hg_link j) then (d, m, ps) else hinge_correct eps env j d m ps in
      let '(l, ps) := correct_joints eps env l ps in
      (RHinge j d m :: l, ps)
  | RSlider j d m :: l =>
      if l_baumgarte (sl_link j) then (RSlider j d m :: l, ps)
      else
        let '(d, m, ps) := slider_correct eps env j d m ps in
        let '(l, ps) := correct_joints eps env l ps in
        (RSlider j d m :: l, ps)
  end.
(** PhysicsWorld.cpp:348-360 solvePositionCorrection: [n] iterations over the joints in the order of the four kinds (ConstraintSolverSystem.cpp:105-113). *)
Fixpoint correct_positions (n : nat) (eps : R) (env : pbodies) (l : list ready) (ps : poses) : list ready * poses :=
  match n with
  | O => (l, ps)
  | S n => let '(l, ps) := correct_joints eps env l ps in correct_positions n eps env l ps
  end.
