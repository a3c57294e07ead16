(** What the contact solver is meant to do: laws of mechanics for impulses between bodies. *)
From Coq Require Import List Reals.
From Verif Require Import VecModel ContactModel.
Import ListNotations.
Local Open Scope R_scope.

(** A body free on all axes; a body of infinite mass and inertia. *)
Definition unlocked (a : rigid) : Prop := r_ll a = V3 1 1 1 /\ r_al a = V3 1 1 1.
Definition immovable (a : rigid) : Prop := r_im a = 0 /\ r_iw a = mat_zero.
Definition symmetric (m : mat3) : Prop := mat_transpose m = m.
Definition positive (m : mat3) : Prop := symmetric m /\ forall v, 0 <= vdot v (mat_vec m v).
(** A body with mass 1 / [r_im] and inertia tensor [j]. *)
Definition inertia_is (j : mat3) (a : rigid) : Prop := symmetric j /\ mat_mul j (r_iw a) = mat_id.

Fixpoint total (f : nat -> vec3) (l : list nat) : vec3 :=
  match l with [] => vzero | i :: l => vadd (f i) (total f l) end.
Fixpoint rtotal (f : nat -> R) (l : list nat) : R :=
  match l with [] => 0 | i :: l => f i + rtotal f l end.
Definition mass (env : nat -> rigid) (i : nat) : R := / r_im (env i).
(** Linear momentum, angular momentum about the origin and kinetic energy of the bodies of a list. *)
Definition momentum (env : nat -> rigid) (bodies : list nat) (st : velocities) : vec3 :=
  total (fun i => vscale (mass env i) (cv (st i))) bodies.
Definition split_momentum (env : nat -> rigid) (bodies : list nat) (st : velocities) : vec3 :=
  total (fun i => vscale (mass env i) (sv (st i))) bodies.
Definition angular_momentum (env : nat -> rigid) (inertia : nat -> mat3) (bodies : list nat) (st : velocities) : vec3 :=
  total (fun i => vadd (vcross (r_x (env i)) (vscale (mass env i) (cv (st i)))) (mat_vec (inertia i) (cw (st i)))) bodies.
Definition energy (env : nat -> rigid) (inertia : nat -> mat3) (bodies : list nat) (st : velocities) : R :=
  rtotal (fun i => / 2 * (mass env i * vlen2 (cv (st i)) + vdot (cw (st i)) (mat_vec (inertia i) (cw (st i))))) bodies.
(** A manifold with both bodies in the list or none. *)
Definition inside (bodies : list nat) (m : manifold) : Prop := In (x_b1 m) bodies <-> In (x_b2 m) bodies.

(** Friction of a pair is the geometric mean of the coefficients, whose square roots the materials keep. *)
Definition friction_of (m : manifold) : R := sqrt ((x_mu1 m * x_mu1 m) * (x_mu2 m * x_mu2 m)).
Definition pushing (m : manifold) : R := fold_right (fun e s => e_imp e + s) 0 (x_points m).

(** An impulse [lin] at the offset [at_] from the centre of mass of a body and an angular impulse [ang]. *)
Record impulse : Type := Impulse { i_body : nat; i_lin : vec3; i_at : vec3; i_ang : vec3 }.
Definition receive (env : nat -> rigid) (i : impulse) (st : velocities) : velocities := fun k =>
  if Nat.eqb k (i_body i) then
    let a := env k in
    Vel (vadd (cv (st k)) (vmul (r_ll a) (vscale (r_im a) (i_lin i))))
        (vadd (cw (st k)) (vmul (r_al a) (mat_vec (r_iw a) (vadd (vcross (i_at i) (i_lin i)) (i_ang i))))) (sv (st k)) (sw (st k))
  else st k.
Definition receive_all (env : nat -> rigid) (l : list impulse) (st : velocities) : velocities :=
  fold_left (fun st i => receive env i st) l st.
(** A pair of opposite impulses at world points [p1] and [p2] of the two bodies. *)
Definition opposite (env : nat -> rigid) (m : manifold) (p1 p2 lin ang : vec3) : list impulse :=
  [Impulse (x_b1 m) (vneg lin) (vsub p1 (r_x (env (x_b1 m)))) (vneg ang); Impulse (x_b2 m) lin (vsub p2 (r_x (env (x_b2 m)))) ang].
(** Mean of points, mean direction of normals, part of a vector orthogonal to a unit vector. *)
Definition mean (l : list vec3) : vec3 := vscale (/ INR (length l)) (fold_right vadd vzero l).
Definition points1 (m : manifold) : list vec3 := map (fun e => tr_point (x_t1 m) (e_p1 e)) (x_points m).
Definition points2 (m : manifold) : list vec3 := map (fun e => tr_point (x_t2 m) (e_p2 e)) (x_points m).
Definition normal_sum (m : manifold) : vec3 := fold_right vadd vzero (map e_n (x_points m)).
Definition normal_of (m : manifold) : vec3 := vscale (/ vlen (normal_sum m)) (normal_sum m).
Definition tangential (n v : vec3) : vec3 := vsub v (vscale (vdot v n) n).
(** The impulses kept from the update before: of the resting contacts along their normals, and, if there is one, friction in the
    tangent plane and twist about the normal of the manifold. *)
Definition kept_impulses (env : nat -> rigid) (m : manifold) : list impulse :=
  concat (map (fun e => if e_resting e
                        then opposite env m (tr_point (x_t1 m) (e_p1 e)) (tr_point (x_t2 m) (e_p2 e)) (vscale (e_imp e) (e_n e)) vzero else [])
              (x_points m)) ++
  if existsb e_resting (x_points m)
  then opposite env m (mean (points1 m)) (mean (points2 m))
         (tangential (normal_of m) (vadd (vscale (x_f1 m) (x_v1 m)) (vscale (x_f2 m) (x_v2 m)))) (vscale (x_tw m) (normal_of m))
  else [].

(** Speed at which the bodies of a manifold move apart along the normal at a contact. *)
Definition point_velocity (env : nat -> rigid) (b : nat) (x : vec3) (st : velocities) : vec3 :=
  vadd (cv (st b)) (vcross (cw (st b)) (vsub x (r_x (env b)))).
Definition separation (env : nat -> rigid) (m : manifold) (e : contact) (st : velocities) : R :=
  vdot (vsub (point_velocity env (x_b2 m) (tr_point (x_t2 m) (e_p2 e)) st) (point_velocity env (x_b1 m) (tr_point (x_t1 m) (e_p1 e)) st)) (e_n e).
(** The solver starts with the velocities it measures bounces with: no force acted in this update. *)
Definition undisturbed (env : nat -> rigid) (st : velocities) : Prop := forall i, cv (st i) = r_v (env i) /\ cw (st i) = r_w (env i).
Definition bounciness (m : manifold) : R := Rmax (x_e1 m) (x_e2 m).
(** A new contact in a manifold without friction. *)
Definition frictionless (m : manifold) : Prop := friction_of m = 0.
Definition fresh (m : manifold) : Prop := forall e, In e (x_points m) -> e_resting e = false.
(** Contacts that differ in their penetration depths only. *)
Definition alike_point (e e' : contact) : Prop := exists d, e' = Contact (e_n e) (e_p1 e) (e_p2 e) d (e_resting e) (e_imp e).
Definition alike (m m' : manifold) : Prop := exists l,
  m' = Manifold (x_b1 m) (x_b2 m) (x_t1 m) (x_t2 m) (x_mu1 m) (x_mu2 m) (x_e1 m) (x_e2 m) l (x_f1 m) (x_f2 m) (x_tw m) (x_v1 m) (x_v2 m) /\
  Forall2 alike_point (x_points m) l.
(** The same velocities, whatever the corrections of the positions. *)
Definition moving_alike (st st' : velocities) : Prop := forall b, cv (st b) = cv (st' b) /\ cw (st b) = cw (st' b).
