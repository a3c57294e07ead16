(** The mechanics the theorems about rigid bodies are stated in: sums of forces, motion of material points, moments of inertia. *)
From Coq Require Import List Reals.
From Verif Require Import VecModel BodyModel.
Import ListNotations.
Local Open Scope R_scope.

Definition unit_rotation (t : transform) : Prop := quat_len2 (t_rot t) = 1.
(** The transforms handed to the library are rotations with a translation and time steps are not negative. *)
Definition proper (o : bop) : Prop :=
  match o with
  | SetTransform t => unit_rotation t
  | Update s => 0 <= s_dt s
  | _ => True
  end.

Fixpoint rsum (l : list R) : R := match l with [] => 0 | x :: l => x + rsum l end.
Fixpoint vsum (l : list vec3) : vec3 := match l with [] => V3 0 0 0 | x :: l => vadd x (vsum l) end.

(** The world-space force and the torque about the centre of mass [c] of one call, for a body with transform [t]. *)
Definition force_of (t : transform) (o : bop) : vec3 :=
  match o with
  | WorldForce f | WorldForceAtWorld f _ | WorldForceAtLocal f _ => f
  | LocalForce f | LocalForceAtWorld f _ | LocalForceAtLocal f _ => quat_vec (t_rot t) f
  | _ => V3 0 0 0
  end.
Definition torque_of (t : transform) (c : vec3) (o : bop) : vec3 :=
  match o with
  | WorldForceAtWorld f p => vcross (vsub p c) f
  | LocalForceAtWorld f p => vcross (vsub p c) (quat_vec (t_rot t) f)
  | WorldForceAtLocal f p => vcross (vsub (tr_point t p) c) f
  | LocalForceAtLocal f p => vcross (vsub (tr_point t p) c) (quat_vec (t_rot t) f)
  | WorldTorque q => q
  | LocalTorque q => quat_vec (t_rot t) q
  | _ => V3 0 0 0
  end.
Definition is_push (o : bop) : Prop :=
  match o with
  | WorldForce _ | LocalForce _ | WorldForceAtWorld _ _ | LocalForceAtWorld _ _ | WorldForceAtLocal _ _ | LocalForceAtLocal _ _
  | WorldTorque _ | LocalTorque _ => True
  | _ => False
  end.

(** Velocity of the material point at the world position [p]. *)
Definition point_velocity (b : body) (p : vec3) : vec3 := vadd (b_v b) (vcross (b_w b) (vsub p (b_comw b))).

(** The same update without gravity and without anything the solvers do. *)
Definition undisturbed (s : step_in) : step_in := StepIn (s_dt s) None (s_split s) no_impulses (s_sleep s).
(** An update during which nothing but the forces applied by the user and gravity acts on the body and it does not fall asleep. *)
Definition free_step (dt : R) (g : option vec3) : step_in := StepIn dt g true no_impulses false.
(** Acceleration due to gravity if both the world and the body have it enabled. *)
Definition gravity_on (b : body) (g : option vec3) : vec3 := match g with Some g => if b_grav b then g else V3 0 0 0 | None => V3 0 0 0 end.

(** Point masses and rigid parts: the mass of a part, the distance rule, the moment of inertia about the axis through [c] with unit
    direction [u].  A part has the moments [c_inertia] about its own axes; its centre is at the position of its transform. *)
Definition part_mass (c : collider) : R := c_volume c * c_density c.
Definition along (u a : vec3) : R := vx u * vx a + vy u * vy a + vz u * vz a.
Definition own_moment (c : collider) (u : vec3) : R :=
  let i := c_inertia c (part_mass c) in
  let a := fun e => along u (quat_vec (t_rot (c_local c)) e) in
  vx i * (a (V3 1 0 0) * a (V3 1 0 0)) + vy i * (a (V3 0 1 0) * a (V3 0 1 0)) + vz i * (a (V3 0 0 1) * a (V3 0 0 1)).
Definition axis_distance2 (c u p : vec3) : R := along (vsub p c) (vsub p c) - along u (vsub p c) * along u (vsub p c).
Definition moment_about (l : list collider) (c u : vec3) : R :=
  rsum (map (fun p => own_moment p u + part_mass p * axis_distance2 c u (t_pos (c_local p))) l).
(** The moment about [u] of a body whose tensor is diagonal with entries [i]. *)
Definition stored_moment (i u : vec3) : R := vx i * (vx u * vx u) + vy i * (vy u * vy u) + vz i * (vz u * vz u).

(** Histories. *)
Definition no_update (o : bop) : Prop := match o with Update _ => False | _ => True end.
Definition no_type (o : bop) : Prop := match o with SetType _ => False | _ => True end.
Definition no_activation (o : bop) : Prop := match o with SetIsActive true => False | _ => True end.
(** [setType] is only called while the body is active. *)
Fixpoint types_while_active (l : list bop) (b : body) : Prop :=
  match l with
  | [] => True
  | o :: l => (match o with SetType _ => b_active b = true | _ => True end) /\ types_while_active l (apply o b)
  end.
(** Every update happens while the body is static. *)
Fixpoint updates_while_static (l : list bop) (b : body) : Prop :=
  match l with
  | [] => True
  | o :: l => (match o with Update _ => b_type b = Static | _ => True end) /\ updates_while_static l (apply o b)
  end.

(** The rotation by the angle [a] about the unit axis [n]. *)
Definition rotated (n : vec3) (a : R) (u : vec3) : vec3 :=
  vadd (vadd (vscale (cos a) u) (vscale (sin a) (vcross n u))) (vscale ((1 - cos a) * along n u) n).
(** An update in which no position is corrected by joints or split impulses and the body does not fall asleep; gravity, forces and the
    velocity changes by contacts and joints are arbitrary. *)
Definition uncorrected (s : step_in) : Prop :=
  i_sp (s_imp s) = V3 0 0 0 /\ i_sl (s_imp s) = V3 0 0 0 /\ i_corr (s_imp s) = [] /\ s_sleep s = false.
