(** What joints are meant to do. *)
From Coq Require Import List Reals Bool.
From Verif Require Import VecModel ContactModel ContactSpec JointModel.
Import ListNotations.
Local Open Scope R_scope.

Definition rigids (env : jbodies) : nat -> rigid := fun i => jb (env i).
Definition link_of (j : joint) : link :=
  match j with JBall j _ => bl_link j | JFixed j _ => fx_link j | JHinge j _ => hg_link j | JSlider j _ => sl_link j end.
(** The world position of the point [p] of a body. *)
Definition place (env : jbodies) (b : nat) (p : vec3) : vec3 :=
  vadd (r_x (jb (env b))) (quat_vec (jb_q (env b)) (vsub p (jb_com (env b)))).
Definition anchor1 (env : jbodies) (l : link) : vec3 := place env (l_b1 l) (l_p1 l).
Definition anchor2 (env : jbodies) (l : link) : vec3 := place env (l_b2 l) (l_p2 l).
(** Opposite impulses on the two bodies of a joint: [lin] at the world points [p1] and [p2], and the angular impulse [ang]; the signs are
    those of the second body. *)
Definition exchange (env : jbodies) (l : link) (p1 p2 lin ang : vec3) : list impulse :=
  [Impulse (l_b1 l) (vneg lin) (vsub p1 (r_x (jb (env (l_b1 l))))) (vneg ang); Impulse (l_b2 l) lin (vsub p2 (r_x (jb (env (l_b2 l))))) ang].
(** Where the force between the bodies acts: at the anchor points; that of a slider at the anchor point of its second body. *)
Definition acts_at1 (env : jbodies) (j : joint) : vec3 :=
  match j with JSlider j _ => anchor2 env (sl_link j) | _ => anchor1 env (link_of j) end.
(** The impulses a joint reports as force and torque after a step of length [dt]. *)
Definition reported (dt : R) (env : jbodies) (r : ready) : list impulse :=
  let j := keep_joint r in
  exchange env (link_of j) (acts_at1 env j) (anchor2 env (link_of j)) (vscale dt (reaction_force dt r)) (vscale dt (reaction_torque dt r)).
(** A joint without torque or force it does not report: no cone limit, no motor of a slider.  Switching these off erases their impulses
    (BallAndSocketJoint.cpp:71-75 and 130-136, SliderJoint.cpp:116-124). *)
Definition plain (j : joint) : Prop :=
  match j with JBall j m => bl_cone j = false /\ bm_cone m = 0 | JSlider j m => sl_motor j = false /\ sm_motor m = 0 | _ => True end.
(** A joint without any impulse from an update before. *)
Definition unused (j : joint) : Prop :=
  match j with
  | JBall _ m => bm_imp m = vzero /\ bm_cone m = 0
  | JFixed _ m => fm_imp m = vzero /\ fm_rot m = vzero
  | JHinge _ m => hm_imp m = vzero /\ hm_rot m = (0, 0) /\ hm_low m = 0 /\ hm_up m = 0 /\ hm_motor m = 0
  | JSlider _ m => sm_imp m = (0, 0) /\ sm_rot m = vzero /\ sm_low m = 0 /\ sm_up m = 0 /\ sm_motor m = 0
  end.
(** Both bodies of a joint in the list or none. *)
Definition joint_inside (bodies : list nat) (j : joint) : Prop := In (l_b1 (link_of j)) bodies <-> In (l_b2 (link_of j)) bodies.
(** Joints whose anchor points coincide; a slider needs no such condition but must not be driven. *)
Definition closed (env : jbodies) (j : joint) : Prop :=
  match j with
  | JSlider j m => sl_motor j = false /\ sm_motor m = 0
  | _ => anchor1 env (link_of j) = anchor2 env (link_of j)
  end.
(** The impulses of limits a joint keeps are not negative. *)
Definition sane (j : joint) : Prop :=
  match j with
  | JBall _ m => 0 <= bm_cone m
  | JFixed _ _ => True
  | JHinge _ m => 0 <= hm_low m /\ 0 <= hm_up m
  | JSlider _ m => 0 <= sm_low m /\ 0 <= sm_up m
  end.
(** No motor runs and positions are corrected separately. *)
Definition passive (j : joint) : Prop :=
  l_baumgarte (link_of j) = false /\
  match j with JHinge j m => hg_motor j = false /\ hm_motor m = 0 | JSlider j m => sl_motor j = false /\ sm_motor m = 0 | _ => True end.
(** The axes of a hinge and of a slider in the world. *)
Definition hinge_axis (env : jbodies) (j : hinge) : vec3 := quat_vec (jb_q (env (l_b1 (hg_link j)))) (hg_a1 j).
Definition slider_axis (env : jbodies) (j : slider) : vec3 := quat_vec (jb_q (env (l_b1 (sl_link j)))) (sl_axis j).
(** The body moves as part of one rigid body with velocity [v] at the origin and angular velocity [w]. *)
Definition moves_with (env : jbodies) (v w : vec3) (st : velocities) (b : nat) : Prop :=
  cv (st b) = vadd v (vcross w (r_x (jb (env b)))) /\ cw (st b) = w.
(** How far a slider is out: the distance of the anchor points along the axis. *)
Definition extension (env : jbodies) (j : slider) : R := vdot (vsub (anchor2 env (sl_link j)) (anchor1 env (sl_link j))) (slider_axis env j).
Definition angle_of (env : jbodies) (j : hinge) : R :=
  hinge_angle (jb_q (env (l_b1 (hg_link j)))) (jb_q (env (l_b2 (hg_link j)))) (hg_diff j) (hinge_axis env j) (hg_lower j) (hg_upper j).
(** The force (torque) a joint without motor reports along its axis: none into the inside of the limits is lacking, none outwards. *)
Definition pushes_inwards (dt : R) (env : jbodies) (j : joint) (r : ready) : Prop :=
  match j with
  | JHinge j _ => vlen2 (hinge_axis env j) = 1 -> hg_motor j = false ->
      let t := vdot (reaction_torque dt r) (hinge_axis env j) in
      (hg_lower j < angle_of env j -> t <= 0) /\ (angle_of env j < hg_upper j -> 0 <= t)
  | JSlider j _ => vlen2 (slider_axis env j) = 1 -> sl_motor j = false ->
      let f := vdot (reaction_force dt r) (slider_axis env j) in
      (sl_lower j < extension env j -> f <= 0) /\ (extension env j < sl_upper j -> 0 <= f)
  | _ => True
  end.
(** The effort of the motor stays within the maximum the user set. *)
Definition motor_max (j : joint) : R := match j with JHinge j _ => hg_torque j | JSlider j _ => sl_force j | _ => 0 end.
Definition motor_on (j : joint) : bool := match j with JHinge j _ => hg_motor j | JSlider j _ => sl_motor j | _ => false end.
(** Motors that are switched off have no impulse (HingeJoint.cpp:166-174, SliderJoint.cpp:126-134 erase it). *)
Definition motor_idle (j : joint) : Prop :=
  match j with JHinge j m => hg_motor j = false -> hm_motor m = 0 | JSlider j m => sl_motor j = false -> sm_motor m = 0 | _ => True end.
(** A history of updates: each with its time step, number of iterations, bodies and velocities. *)
Record update : Type := Update { u_dt : R; u_n : nat; u_env : jbodies; u_st : velocities }.
Fixpoint live (eps : R) (us : list update) (js : list joint) : list joint :=
  match us with [] => js | u :: us => live eps us (map keep_joint (fst (joints_step eps (u_dt u) (u_n u) (u_env u) js (u_st u)))) end.
