(** The contact solver (src/systems/ContactSolverSystem.cpp) over the real numbers.  Velocities of the bodies are a function of the body
    index; the references v1, w1, v2, w2 of the code always show the present velocities. *)
From Coq Require Import List Reals.
From Verif Require Import VecModel.
Import ListNotations.
Local Open Scope R_scope.

(** RigidBodyComponents.h: mConstrainedLinearVelocities, mConstrainedAngularVelocities, mSplitLinearVelocities, mSplitAngularVelocities. *)
Record vel : Type := Vel { cv : vec3; cw : vec3; sv : vec3; sw : vec3 }.
Definition velocities : Type := nat -> vel.
(** Assignments to the two constrained and to the two split velocities of body [i]. *)
Definition shift_c (i : nat) (dv dw : vec3) (st : velocities) : velocities :=
  fun k => if Nat.eqb k i then Vel (vadd (cv (st k)) dv) (vadd (cw (st k)) dw) (sv (st k)) (sw (st k)) else st k.
Definition shift_s (i : nat) (dv dw : vec3) (st : velocities) : velocities :=
  fun k => if Nat.eqb k i then Vel (cv (st k)) (cw (st k)) (vadd (sv (st k)) dv) (vadd (sw (st k)) dw) else st k.

(** What the solver reads of a body: inverse mass, world inverse inertia tensor, lock factors, world centre of mass, velocities before
    the step. *)
Record rigid : Type := Rigid { r_im : R; r_iw : mat3; r_ll : vec3; r_al : vec3; r_x : vec3; r_v : vec3; r_w : vec3 }.
(** ContactPoint.h and ContactManifold.h with the world transforms and the materials of the two colliders
    (square roots of the friction coefficients and bounciness, Material.h:44-52). *)
Record contact : Type := Contact { e_n : vec3; e_p1 : vec3; e_p2 : vec3; e_depth : R; e_resting : bool; e_imp : R }.
Record manifold : Type := Manifold {
  x_b1 : nat; x_b2 : nat; x_t1 : transform; x_t2 : transform; x_mu1 : R; x_mu2 : R; x_e1 : R; x_e2 : R;
  x_points : list contact; x_f1 : R; x_f2 : R; x_tw : R; x_v1 : vec3; x_v2 : vec3
}.

(** ContactSolverSystem.h:130-180 ContactPointSolver, 182-275 ContactManifoldSolver. *)
Record cpoint : Type := CPoint {
  p_n : vec3; p_r1 : vec3; p_r2 : vec3; p_depth : R; p_bias : R; p_imp : R; p_simp : R; p_inv : R; p_i1 : vec3; p_i2 : vec3; p_resting : bool
}.
Record constraint : Type := Constraint {
  k_b1 : nat; k_b2 : nat; k_im1 : R; k_im2 : R; k_iw1 : mat3; k_iw2 : mat3; k_ll1 : vec3; k_ll2 : vec3; k_al1 : vec3; k_al2 : vec3;
  k_mu : R; k_n : vec3; k_r1 : vec3; k_r2 : vec3; k_t1 : vec3; k_t2 : vec3; k_o1 : vec3; k_o2 : vec3;
  k_c11 : vec3; k_c12 : vec3; k_c21 : vec3; k_c22 : vec3; k_inv1 : R; k_inv2 : R; k_invt : R;
  k_f1 : R; k_f2 : R; k_tw : R; k_points : list cpoint
}.
Definition with_state (f1 f2 tw : R) (l : list cpoint) (k : constraint) : constraint :=
  Constraint (k_b1 k) (k_b2 k) (k_im1 k) (k_im2 k) (k_iw1 k) (k_iw2 k) (k_ll1 k) (k_ll2 k) (k_al1 k) (k_al2 k) (k_mu k) (k_n k) (k_r1 k) (k_r2 k)
    (k_t1 k) (k_t2 k) (k_o1 k) (k_o2 k) (k_c11 k) (k_c12 k) (k_c21 k) (k_c22 k) (k_inv1 k) (k_inv2 k) (k_invt k) f1 f2 tw l.
Definition with_imp (imp simp : R) (p : cpoint) : cpoint :=
  CPoint (p_n p) (p_r1 p) (p_r2 p) (p_depth p) (p_bias p) imp simp (p_inv p) (p_i1 p) (p_i2 p) (p_resting p).

(** ContactSolverSystem.cpp:43-45 BETA, BETA_SPLIT_IMPULSE, SLOP. *)
Definition beta : R := 2 / 10.
Definition slop : R := 1 / 100.
(** ContactSolverSystem.h:412-419 computeMixedRestitutionFactor, 422-426 computeMixedFrictionCoefficient. *)
Definition mixed_restitution (e1 e2 : R) : R := if rlt e2 e1 then e1 else e2.
Definition mixed_friction (m : manifold) : R := x_mu1 m * x_mu2 m.
(** ContactSolverSystem.cpp:199-207, 287-298, 508-514, 560-567, 604-613, 660-668: velocity of the second body relative to the first at a
    contact. *)
Definition relative (v1 w1 v2 w2 r1 r2 : vec3) : vec3 := vsub (vsub (vadd v2 (vcross w2 r2)) v1) (vcross w1 r1).
Definition inverse_if_positive (x : R) : R := if rlt 0 x then 1 / x else 0.

(** ContactSolverSystem.cpp:172-256: one contact point. *)
Definition init_point (threshold : R) (m : manifold) (a b : rigid) (e : contact) : cpoint :=
  let p1 := tr_point (x_t1 m) (e_p1 e) in
  let p2 := tr_point (x_t2 m) (e_p2 e) in
  let r1 := vsub p1 (r_x a) in
  let r2 := vsub p2 (r_x b) in
  let dv := relative (r_v a) (r_w a) (r_v b) (r_w b) r1 r2 in
  let n := e_n e in
  let i1 := mat_vec (r_iw a) (vcross r1 n) in
  let i2 := mat_vec (r_iw b) (vcross r2 n) in
  let mass := r_im a + r_im b + vdot (vcross i1 r1) n + vdot (vcross i2 r2) n in
  let jv := vdot dv n in
  let bias := if rlt jv (- threshold) then mixed_restitution (x_e1 m) (x_e2 m) * jv else 0 in
  CPoint n r1 r2 (e_depth e) bias (e_imp e) 0 (inverse_if_positive mass) i1 i2 (e_resting e).
Definition world_points (m : manifold) : list (vec3 * vec3) :=
  map (fun e => (tr_point (x_t1 m) (e_p1 e), tr_point (x_t2 m) (e_p2 e))) (x_points m).
Definition vtotal (l : list vec3) : vec3 := fold_left vadd l vzero.
(** ContactSolverSystem.cpp:788-818 computeFrictionVectors; [eps] is MACHINE_EPSILON. *)
Definition friction_vector1 (eps : R) (dv n : vec3) : vec3 :=
  let t := vsub dv (vscale (vdot dv n) n) in
  if rlt eps (vlen t) then vdiv t (vlen t) else orthogonal_unit n.
Definition friction_vector2 (n t1 : vec3) : vec3 := vcross n t1.
(** ContactSolverSystem.cpp:308-317: effective mass of a friction direction. *)
Definition friction_mass (a b : rigid) (r1 r2 t : vec3) : R :=
  r_im a + r_im b + vdot (vcross (mat_vec (r_iw a) (vcross r1 t)) r1) t + vdot (vcross (mat_vec (r_iw b) (vcross r2 t)) r2) t.
(** ContactSolverSystem.cpp:125-321 initializeForIsland, one manifold. *)
Definition init_manifold (eps threshold : R) (env : nat -> rigid) (m : manifold) : constraint :=
  let a := env (x_b1 m) in
  let b := env (x_b2 m) in
  let n := INR (length (x_points m)) in
  let r1 := vsub (vdiv (vtotal (map fst (world_points m))) n) (r_x a) in
  let r2 := vsub (vdiv (vtotal (map snd (world_points m))) n) (r_x b) in
  let normal := vnormalize eps (vtotal (map e_n (x_points m))) in
  let dv := relative (r_v a) (r_w a) (r_v b) (r_w b) r1 r2 in
  let t1 := friction_vector1 eps dv normal in
  let t2 := friction_vector2 normal t1 in
  let twist := vdot normal (mat_vec (r_iw a) normal) + vdot normal (mat_vec (r_iw b) normal) in
  Constraint (x_b1 m) (x_b2 m) (r_im a) (r_im b) (r_iw a) (r_iw b) (r_ll a) (r_ll b) (r_al a) (r_al b) (mixed_friction m) normal r1 r2 t1 t2
    (x_v1 m) (x_v2 m) (vcross r1 t1) (vcross r1 t2) (vcross r2 t1) (vcross r2 t2)
    (inverse_if_positive (friction_mass a b r1 r2 t1)) (inverse_if_positive (friction_mass a b r1 r2 t2)) (inverse_if_positive twist)
    (x_f1 m) (x_f2 m) (x_tw m) (map (init_point threshold m a b) (x_points m)).

(** ContactSolverSystem.cpp:346-371, 538-557: an impulse [l] along the normal of a contact point. *)
Definition push_normal (k : constraint) (p : cpoint) (l : R) (st : velocities) : velocities :=
  let imp := vscale l (p_n p) in
  let st := shift_c (k_b1 k) (vneg (vmul (vscale (k_im1 k) imp) (k_ll1 k))) (vneg (vscale l (vmul (p_i1 p) (k_al1 k)))) st in
  shift_c (k_b2 k) (vmul (vscale (k_im2 k) imp) (k_ll2 k)) (vscale l (vmul (p_i2 p) (k_al2 k))) st.
(** ContactSolverSystem.cpp:584-601: the same on the split velocities. *)
Definition push_split (k : constraint) (p : cpoint) (l : R) (st : velocities) : velocities :=
  let imp := vscale l (p_n p) in
  let st := shift_s (k_b1 k) (vneg (vmul (vscale (k_im1 k) imp) (k_ll1 k))) (vneg (vscale l (vmul (p_i1 p) (k_al1 k)))) st in
  shift_s (k_b2 k) (vmul (vscale (k_im2 k) imp) (k_ll2 k)) (vscale l (vmul (p_i2 p) (k_al2 k))) st.
(** ContactSolverSystem.cpp:396-418, 421-443, 628-655, 682-712: an impulse [l] along a friction direction. *)
Definition push_friction (k : constraint) (t c1 c2 : vec3) (l : R) (st : velocities) : velocities :=
  let a1 := vscale (- l) c1 in
  let lin := vscale l t in
  let a2 := vscale l c2 in
  let st := shift_c (k_b1 k) (vneg (vmul (vscale (k_im1 k) lin) (k_ll1 k))) (vmul (k_al1 k) (mat_vec (k_iw1 k) a1)) st in
  shift_c (k_b2 k) (vmul (vscale (k_im2 k) lin) (k_ll2 k)) (vmul (k_al2 k) (mat_vec (k_iw2 k) a2)) st.
(** ContactSolverSystem.cpp:735-755: an angular impulse [l] about the normal of the manifold. *)
Definition push_twist (k : constraint) (l : R) (st : velocities) : velocities :=
  let a2 := vscale l (k_n k) in
  let st := shift_c (k_b1 k) vzero (vneg (vmul (k_al1 k) (mat_vec (k_iw1 k) a2))) st in
  shift_c (k_b2 k) vzero (vmul (k_al2 k) (mat_vec (k_iw2 k) a2)) st.

(** ContactSolverSystem.cpp:337-379: the points of a manifold in warmStart. *)
Fixpoint warm_points (k : constraint) (l : list cpoint) (st : velocities) : list cpoint * bool * velocities :=
  match l with
  | [] => ([], false, st)
  | p :: l =>
      let '(p', st) := if p_resting p then (p, push_normal k p (p_imp p) st) else (with_imp 0 (p_simp p) p, st) in
      let '(l', r, st) := warm_points k l st in
      (p' :: l', orb (p_resting p) r, st)
  end.
(** ContactSolverSystem.cpp:334-474 warmStart, one manifold. *)
Definition warm_manifold (k : constraint) (st : velocities) : constraint * velocities :=
  let '(l, resting, st) := warm_points k (k_points k) st in
  if resting then
    let old := vadd (vscale (k_f1 k) (k_o1 k)) (vscale (k_f2 k) (k_o2 k)) in
    let f1 := vdot old (k_t1 k) in
    let f2 := vdot old (k_t2 k) in
    let st := push_friction k (k_t1 k) (k_c11 k) (k_c21 k) f1 st in
    let st := push_friction k (k_t2 k) (k_c12 k) (k_c22 k) f2 st in
    (* 445-459, then once more 461-465 *)
    let a1 := vscale (- k_tw k) (k_n k) in
    let a2 := vscale (k_tw k) (k_n k) in
    let st := shift_c (k_b1 k) vzero (vmul (k_al1 k) (mat_vec (k_iw1 k) a1)) st in
    let st := shift_c (k_b2 k) vzero (vmul (k_al2 k) (mat_vec (k_iw2 k) a2)) st in
    let st := shift_c (k_b1 k) vzero (vneg (vmul (k_al1 k) (mat_vec (k_iw1 k) a2))) st in
    let st := shift_c (k_b2 k) vzero (vmul (k_al2 k) (mat_vec (k_iw2 k) a2)) st in
    (with_state f1 f2 (k_tw k) l k, st)
  else (with_state 0 0 0 l k, st).

(** ContactSolverSystem.cpp:519-523; the conversion to float is left out. *)
Definition depth_bias (dt : R) (p : cpoint) : R := if rlt slop (p_depth p) then - (beta / dt) * Rmax 0 (p_depth p - slop) else 0.
(** ContactSolverSystem.cpp:503-606: one contact point in solve. *)
Definition solve_point (split : bool) (dt : R) (k : constraint) (p : cpoint) (st : velocities) : cpoint * velocities :=
  let a := st (k_b1 k) in
  let b := st (k_b2 k) in
  let jv := vdot (relative (cv a) (cw a) (cv b) (cw b) (p_r1 p) (p_r2 p)) (p_n p) in
  let bias := depth_bias dt p in
  let dl := if split then - (jv + p_bias p) * p_inv p else - (jv + (bias + p_bias p)) * p_inv p in
  let imp := Rmax (p_imp p + dl) 0 in
  let st := push_normal k p (imp - p_imp p) st in
  if split then
    let a := st (k_b1 k) in
    let b := st (k_b2 k) in
    let js := vdot (relative (sv a) (sw a) (sv b) (sw b) (p_r1 p) (p_r2 p)) (p_n p) in
    let ds := - (js + bias) * p_inv p in
    let simp := Rmax (p_simp p + ds) 0 in
    (with_imp imp simp p, push_split k p (simp - p_simp p) st)
  else (with_imp imp (p_simp p) p, st).
(** The points of a manifold in turn with the sum of their impulses. *)
Fixpoint solve_points (split : bool) (dt : R) (k : constraint) (l : list cpoint) (sum : R) (st : velocities) : list cpoint * R * velocities :=
  match l with
  | [] => ([], sum, st)
  | p :: l =>
      let '(p, st) := solve_point split dt k p st in
      let '(l, sum, st) := solve_points split dt k l (sum + p_imp p) st in
      (p :: l, sum, st)
  end.
(** std::max(-limit, std::min(x, limit)), 620-623, 676-679, 727-730. *)
Definition clamp_to (limit x : R) : R := Rmax (- limit) (Rmin x limit).
(** ContactSolverSystem.cpp:610-655, 659-712: one friction direction. *)
Definition solve_friction (k : constraint) (t c1 c2 : vec3) (inv f limit : R) (st : velocities) : R * velocities :=
  let a := st (k_b1 k) in
  let b := st (k_b2 k) in
  let jv := vdot (relative (cv a) (cw a) (cv b) (cw b) (k_r1 k) (k_r2 k)) t in
  let f' := clamp_to limit (f + - jv * inv) in
  (f', push_friction k t c1 c2 (f' - f) st).
(** ContactSolverSystem.cpp:714-755: twist friction. *)
Definition solve_twist (k : constraint) (limit : R) (st : velocities) : R * velocities :=
  let jv := vdot (vsub (cw (st (k_b2 k))) (cw (st (k_b1 k)))) (k_n k) in
  let f' := clamp_to limit (k_tw k + - jv * k_invt k) in
  (f', push_twist k (f' - k_tw k) st).
(** ContactSolverSystem.cpp:490-757 solve, one manifold. *)
Definition solve_manifold (split : bool) (dt : R) (k : constraint) (st : velocities) : constraint * velocities :=
  let '(l, sum, st) := solve_points split dt k (k_points k) 0 st in
  let limit := k_mu k * sum in
  let '(f1, st) := solve_friction k (k_t1 k) (k_c11 k) (k_c21 k) (k_inv1 k) (k_f1 k) limit st in
  let '(f2, st) := solve_friction k (k_t2 k) (k_c12 k) (k_c22 k) (k_inv2 k) (k_f2 k) limit st in
  let '(tw, st) := solve_twist k limit st in
  (with_state f1 f2 tw l k, st).
(** The loops over all manifolds. *)
Fixpoint each (f : constraint -> velocities -> constraint * velocities) (l : list constraint) (st : velocities) : list constraint * velocities :=
  match l with
  | [] => ([], st)
  | k :: l => let '(k, st) := f k st in let '(l, st) := each f l st in (k :: l, st)
  end.
Definition warm_start (l : list constraint) (st : velocities) : list constraint * velocities := each warm_manifold l st.
Definition solve (split : bool) (dt : R) (l : list constraint) (st : velocities) : list constraint * velocities := each (solve_manifold split dt) l st.
Fixpoint iterate (n : nat) (split : bool) (dt : R) (l : list constraint) (st : velocities) : list constraint * velocities :=
  match n with
  | O => (l, st)
  | S n => let '(l, st) := solve split dt l st in iterate n split dt l st
  end.
(** ContactSolverSystem.cpp:761-785 storeImpulses; 181 marks every contact as resting. *)
Definition store_contact (e : contact) (p : cpoint) : contact := Contact (e_n e) (e_p1 e) (e_p2 e) (e_depth e) true (p_imp p).
Definition store_manifold (m : manifold) (k : constraint) : manifold :=
  Manifold (x_b1 m) (x_b2 m) (x_t1 m) (x_t2 m) (x_mu1 m) (x_mu2 m) (x_e1 m) (x_e2 m)
    (map (fun '(e, p) => store_contact e p) (combine (x_points m) (k_points k))) (k_f1 k) (k_f2 k) (k_tw k) (k_t1 k) (k_t2 k).
(** PhysicsWorld.cpp:322-346 solveContactsAndConstraints without the joints: [n] iterations. *)
Definition start (eps threshold : R) (env : nat -> rigid) (ms : list manifold) (st : velocities) : list constraint * velocities :=
  warm_start (map (init_manifold eps threshold env) ms) st.
Definition contacts_step (eps threshold : R) (env : nat -> rigid) (split : bool) (dt : R) (n : nat) (ms : list manifold) (st : velocities)
  : list manifold * velocities :=
  let '(l, st) := start eps threshold env ms st in
  let '(l, st) := iterate n split dt l st in
  (map (fun '(m, k) => store_manifold m k) (combine ms l), st).
