(** What the position correction of joints is meant to do. *)
From Coq Require Import List Reals Bool.
From Verif Require Import VecModel ContactModel JointModel JointSpec JointPositionModel.
Import ListNotations.
Local Open Scope R_scope.

(** Where a point [p] of a body is: the orientation is a rotation whatever the length of its quaternion, and the body turns about its
    centre of mass. *)
Definition point_at (env : pbodies) (ps : poses) (b : nat) (p : vec3) : vec3 :=
  vadd (po_x (ps b)) (quat_vec (quat_normalize (po_q (ps b))) (vsub p (pb_com (env b)))).
(** From the anchor point of the first body of a joint to that of the second. *)
Definition opening (env : pbodies) (ps : poses) (l : link) : vec3 := vsub (point_at env ps (l_b2 l) (l_p2 l)) (point_at env ps (l_b1 l) (l_p1 l)).
Definition unit_pose (ps : poses) (b : nat) : Prop := quat_len2 (po_q (ps b)) = 1.
(** The joint of a solver entry is one whose positions are corrected. *)
Definition corrects (r : ready) : bool := negb (l_baumgarte (link_of (keep_joint r))).
Definition touches (b : nat) (r : ready) : Prop := l_b1 (link_of (keep_joint r)) = b \/ l_b2 (link_of (keep_joint r)) = b.
(** Sum of mass times position. *)
Fixpoint weighted (env : pbodies) (bodies : list nat) (ps : poses) : vec3 :=
  match bodies with [] => vzero | b :: l => vadd (vscale (/ pb_im (env b)) (po_x (ps b))) (weighted env l ps) end.
(** The second body is turned against the first as the joint wants it: [diff] is the inverse of the wanted difference. *)
Definition turned (diff q1 q2 : quat) : Prop :=
  quat_len2 diff = 1 /\ (q2 = quat_mul q1 (quat_inverse diff) \/ q2 = quat_scale (- 1) (quat_mul q1 (quat_inverse diff))).
(** From the centre of mass of a body to an anchor point, in the world. *)
Definition lever (env : pbodies) (ps : poses) (b : nat) (p : vec3) : vec3 := quat_vec (quat_normalize (po_q (ps b))) (vsub p (pb_com (env b))).
(** The angle of a ball-and-socket joint with cone limit. *)
Definition cone_at (eps : R) (env : pbodies) (ps : poses) (l : link) : R :=
  acos (vdot (vunit eps (lever env ps (l_b1 l) (l_p1 l))) (vneg (vunit eps (lever env ps (l_b2 l) (l_p2 l))))).
(** How far a slider is out. *)
Definition axis_at (ps : poses) (j : slider) : vec3 := quat_vec (quat_normalize (po_q (ps (l_b1 (sl_link j))))) (sl_axis j).
Definition extension_at (env : pbodies) (ps : poses) (j : slider) : R := vdot (opening env ps (sl_link j)) (axis_at ps j).
(** A joint that is assembled as it should be and within its limits. *)
Definition fitted (eps : R) (env : pbodies) (ps : poses) (r : ready) : Prop :=
  let q b := quat_normalize (po_q (ps b)) in
  match r with
  | RBall j _ _ => opening env ps (bl_link j) = vzero /\ (bl_cone j = true -> cone_at eps env ps (bl_link j) <= bl_half j)
  | RFixed j _ _ => opening env ps (fx_link j) = vzero /\ turned (fx_diff j) (q (l_b1 (fx_link j))) (q (l_b2 (fx_link j)))
  | RHinge j _ _ =>
      opening env ps (hg_link j) = vzero /\ vlen2 (hg_a1 j) = 1 /\ vlen2 (hg_a2 j) = 1 /\
      quat_vec (q (l_b1 (hg_link j))) (hg_a1 j) = quat_vec (q (l_b2 (hg_link j))) (hg_a2 j) /\
      (hg_limit j = true ->
       hg_lower j <= hinge_angle (q (l_b1 (hg_link j))) (q (l_b2 (hg_link j))) (hg_diff j) (quat_vec (q (l_b1 (hg_link j))) (hg_a1 j)) (hg_lower j) (hg_upper j) <= hg_upper j)
  | RSlider j _ _ =>
      (exists k, opening env ps (sl_link j) = vscale k (axis_at ps j)) /\ vlen2 (sl_axis j) = 1 /\
      turned (sl_diff j) (q (l_b1 (sl_link j))) (q (l_b2 (sl_link j))) /\
      (sl_limit j = true -> sl_lower j <= extension_at env ps j <= sl_upper j)
  end.
(** Inverse principal moments between 0 and [k]. *)
Definition tensor_within (i : vec3) (k : R) : Prop := 0 <= vx i <= k /\ 0 <= vy i <= k /\ 0 <= vz i <= k.
(** A body whose inverse inertia is at most [k] and that is free to move or immovable. *)
Definition sound (env : pbodies) (k : R) (b : nat) : Prop :=
  0 <= pb_im (env b) /\ 0 <= k /\ tensor_within (pb_il (env b)) k /\
  (pb_ll (env b) = V3 1 1 1 /\ pb_al (env b) = V3 1 1 1 \/ pb_im (env b) = 0 /\ pb_il (env b) = vzero).
(** Distance of an anchor point from the centre of mass. *)
Definition reach (env : pbodies) (b : nat) (p : vec3) : R := vlen (vsub p (pb_com (env b))).
(** Bound on the part of the squared gap that an iteration leaves. *)
Definition factor (env : pbodies) (l : link) (k1 k2 : R) : R :=
  (reach env (l_b1 l) (l_p1 l) ^ 3 * k1 ^ 2 + reach env (l_b2 l) (l_p2 l) ^ 3 * k2 ^ 2) / 2 / (pb_im (env (l_b1 l)) + pb_im (env (l_b2 l))) ^ 2.
(** Not a slider corrected through the velocities. *)
Definition patient (r : ready) : Prop := match r with RSlider j _ _ => l_baumgarte (sl_link j) = false | _ => True end.
(** The correction of another joint does not touch the two bodies of [l]. *)
Definition apart_from (l : link) (r : ready) : Prop := corrects r = true -> ~ touches (l_b1 l) r /\ ~ touches (l_b2 l) r.
(** A body that does not turn. *)
Definition frozen (env : pbodies) (b : nat) : Prop := 0 <= pb_im (env b) /\ pb_il (env b) = vzero /\ (pb_ll (env b) = V3 1 1 1 \/ pb_im (env b) = 0).
(** By how much the second body is turned against what a joint with orientation difference [diff] wants: the rotation from the wanted
    orientation to the present one; its vector part has the length of the sine of half the angle. *)
Definition twist_at (ps : poses) (l : link) (diff : quat) : quat :=
  quat_mul (quat_mul (quat_normalize (po_q (ps (l_b2 l)))) diff) (quat_inverse (quat_normalize (po_q (ps (l_b1 l))))).
(** Inverse principal moments of at least [k]. *)
Definition tensor_above (i : vec3) (k : R) : Prop := k <= vx i /\ k <= vy i /\ k <= vz i.
(** Constants of the convergence of the orientations, for moments between [lo] and [hi]. *)
Definition turn_factor (lo hi1 hi2 : R) : R := 1 + (hi1 + hi2) / lo + hi1 * hi2 / lo ^ 2.
(** Half the turn that closing a gap of length [g] may cause. *)
Definition side_turn (env : pbodies) (l : link) (hi1 hi2 g : R) : R :=
  let m := pb_im (env (l_b1 l)) + pb_im (env (l_b2 l)) in
  let b1 := hi1 * reach env (l_b1 l) (l_p1 l) / m in
  let b2 := hi2 * reach env (l_b2 l) (l_p2 l) / m in
  (b1 + b2) * g / 2 + b1 * b2 * g ^ 2 / 4.
(** The axes of a hinge in the world, and the sine of the angle between them. *)
Definition hinge_axis1 (ps : poses) (j : hinge) : vec3 := quat_vec (quat_normalize (po_q (ps (l_b1 (hg_link j))))) (hg_a1 j).
Definition hinge_axis2 (ps : poses) (j : hinge) : vec3 := quat_vec (quat_normalize (po_q (ps (l_b2 (hg_link j))))) (hg_a2 j).
Definition misalignment (ps : poses) (j : hinge) : R := vlen (vcross (hinge_axis1 ps j) (hinge_axis2 ps j)).
(** Constant of the convergence of the axes of a hinge. *)
Definition hinge_factor (lo hi1 hi2 : R) : R := (2 * (hi1 + hi2) / lo) ^ 2.
