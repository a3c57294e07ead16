(** Properties of rigid bodies: mass, forces, damping, centre of mass, pose. *)
From Coq Require Import List Reals Lra Permutation Bool.
From Verif Require Import VecModel VecProofs BodyModel BodySpec BodyProofs BodyLawProofs.
Import ListNotations.
Local Open Scope R_scope.
Local Ltac splits := repeat match goal with |- _ /\ _ => split end.

(** * C24 *)
Theorem C24_inverse_mass : forall t l, let b := after t l in
  (b_type b = Dynamic -> 0 < b_mass b -> b_imass b * b_mass b = 1) /\
  (b_type b = Dynamic -> b_mass b <= 0 -> b_imass b = 0) /\
  (b_type b <> Dynamic -> b_imass b = 0).
Proof.
  intros t l b. pose proof (mass_ok_after t l) as M. fold b in M. unfold mass_ok in M. clearbody b. splits.
  - intros T P. rewrite T in M. destruct M as [M _]. rewrite M. unfold inverse_mass.
    destruct (rlt 0 (b_mass b)) eqn:C; [field; lra | apply rlt_false in C; lra].
  - intros T P. rewrite T in M. destruct M as [M _]. rewrite M. unfold inverse_mass.
    destruct (rlt 0 (b_mass b)) eqn:C; [apply rlt_true in C; lra | reflexivity].
  - intros N. destruct (b_type b); intuition congruence.
Qed.
(** The same for the moments of inertia; a zero moment counts as infinite (documentation of setLocalInertiaTensor). *)
Definition inverse_of (i x : R) : Prop := (x <> 0 -> i * x = 1) /\ (x = 0 -> i = 0).
Theorem C24_inverse_inertia : forall t l, let b := after t l in
  (b_type b = Dynamic -> inverse_of (vx (b_iinertia b)) (vx (b_inertia b)) /\ inverse_of (vy (b_iinertia b)) (vy (b_inertia b))
                         /\ inverse_of (vz (b_iinertia b)) (vz (b_inertia b))) /\
  (b_type b <> Dynamic -> b_iinertia b = V3 0 0 0).
Proof.
  intros t l b. pose proof (mass_ok_after t l) as M. fold b in M. unfold mass_ok in M. clearbody b. split.
  - intros T. rewrite T in M. destruct M as [_ M]. rewrite M. unfold inverse_inertia, inverse_or_zero, inverse_of. cbn [vx vy vz].
    splits; intros H; match goal with |- context [req ?a 0] => destruct (req a 0) eqn:C; [apply req_true in C | apply req_false in C] end;
      try contradiction; try reflexivity; try congruence; field; assumption.
  - intros N. destruct (b_type b); intuition congruence.
Qed.
(** Whatever gravity and the solvers of contacts and joints do, an update gives a static or kinematic body the same velocities and pose
    as without them. *)
Theorem C24_not_accelerated : forall t l s, unit_rotation t -> Forall proper l -> b_type (after t l) <> Dynamic ->
  let b := step s (after t l) in let c := step (undisturbed s) (after t l) in
  b_v b = b_v c /\ b_w b = b_w c /\ b_tr b = b_tr c /\ b_comw b = b_comw c.
Proof. intros t l s U P N. apply not_accelerated; [now apply body_ok_after | exact N]. Qed.
(** Forces and torques applied to it are ignored. *)
Theorem C24_forces_ignored : forall b o, b_type b <> Dynamic -> is_push o -> apply o b = b.
Proof.
  intros b o N P. assert (Y : is_dynamic b = false) by (unfold is_dynamic; destruct (b_type b); (reflexivity || contradiction)).
  destruct o; try contradiction; cbn [apply];
    unfold local_force_at_com, local_force_at_world, local_force_at_local, local_torque,
      world_force_at_com, world_force_at_world, world_force_at_local, world_torque; now rewrite Y.
Qed.
(** Static bodies are at rest for ever: zero velocities, and no update moves them. *)
Theorem C24_static_at_rest : forall t l s, unit_rotation t -> Forall proper l -> b_type (after t l) = Static ->
  b_v (after t l) = V3 0 0 0 /\ b_w (after t l) = V3 0 0 0 /\ b_tr (step s (after t l)) = b_tr (after t l).
Proof.
  intros t l s U P T. destruct (body_ok_after t l U P) as [_ _ _ R _ _ _]. destruct (R T) as (V & W & D & _).
  splits; [exact V | exact W |]. rewrite step_disabled by exact D. unfold settle, set_is_sleeping, touched. bs. repeat (bcase; bs); reflexivity.
Qed.
Lemma rid : unit_rotation tr_id. Proof. unfold unit_rotation, tr_id, quat_id, quat_len2. cbn [t_rot qx qy qz qw]. ring. Qed.
Lemma rlt_yes a b : a < b -> rlt a b = true. Proof. apply rlt_true. Qed.
Lemma rlt_no a b : b <= a -> rlt a b = false. Proof. apply rlt_false. Qed.
Example C24_example :
  let b := after tr_id [SetMass 4; SetType Kinematic; SetMass 5; SetType Dynamic] in
  b_type b = Dynamic /\ b_mass b = 5 /\ b_imass b = 1 / 5 /\
  let c := after tr_id [SetLinearVelocity (V3 1 0 0); SetType Kinematic; SetMass 7] in
  b_type c = Kinematic /\ b_mass c = 7 /\ b_imass c = 0 /\ b_v c = V3 1 0 0.
Proof.
  intros b. unfold b. clear b. ev. bs. splits; reflexivity.
Qed.

(** * C31 *)
Lemma scale_one v : v = vscale 1 v. Proof. destruct v as [x y z]. unfold vscale. cbn [vx vy vz]. f_equal; ring. Qed.
Lemma scale_twice a c v : vscale a (vscale c v) = vscale (a * c) v. Proof. destruct v as [x y z]. unfold vscale. cbn [vx vy vz]. f_equal; ring. Qed.
(** Any number of updates without forces, gravity and solver impulses multiplies the velocities by factors between 0 and 1. *)
Theorem C31_damping : forall t l us, Forall (fun s => 0 <= s_dt s) us ->
  let b := after t l in b_force b = V3 0 0 0 -> b_torque b = V3 0 0 0 ->
  let b' := run (map (fun s => Update (undisturbed s)) us) b in
  (exists k, 0 <= k <= 1 /\ b_v b' = vscale k (b_v b)) /\ (exists k, 0 <= k <= 1 /\ b_w b' = vscale k (b_w b)).
Proof.
  intros t l us T b F Q.
  assert (D : damp_ok b).
  { unfold b, after. assert (G : forall l c, damp_ok c -> damp_ok (run l c)).
    { clear. induction l as [| o l IH]; intros c B; [exact B |]. cbn [run fold_left]. apply IH. now apply damp_ok_apply. }
    apply G. unfold damp_ok, create. bs. lra. }
  clearbody b. revert b F Q D. induction T as [| s us T _ IH]; intros b F Q D b'; subst b'.
  - cbn [map run fold_left]. split; exists 1; (split; [lra | apply scale_one]).
  - cbn [map run fold_left]. destruct (damped_step s b T D F Q) as (D' & F' & Q' & (k & K & V) & (h & H & W)).
    destruct (IH (step (undisturbed s) b) F' Q' D') as ((k' & K' & V') & (h' & H' & W')).
    unfold run in V', W'. cbn [apply]. rewrite V in V'. rewrite W in W'. split.
    + exists (k' * k). split; [nra |]. rewrite V'. apply scale_twice.
    + exists (h' * h). split; [nra |]. rewrite W'. apply scale_twice.
Qed.
(** Hence the speed never increases. *)
Theorem C31_speed : forall t l us, Forall (fun s => 0 <= s_dt s) us ->
  let b := after t l in b_force b = V3 0 0 0 -> b_torque b = V3 0 0 0 ->
  let b' := run (map (fun s => Update (undisturbed s)) us) b in
  vlen (b_v b') <= vlen (b_v b) /\ vlen (b_w b') <= vlen (b_w b).
Proof.
  intros t l us T b F Q b'. destruct (C31_damping t l us T F Q) as ((k & K & V) & (h & H & W)). fold b in V, W. fold b' in V, W.
  rewrite V, W, !vlen_vscale, !Rabs_pos_eq by lra. pose proof (vlen_nonneg (b_v b)). pose proof (vlen_nonneg (b_w b)). nra.
Qed.
Example C31_example :
  let b := after tr_id [SetLinearDamping 2; SetLinearVelocity (V3 3 0 0)] in
  b_force b = V3 0 0 0 /\ b_torque b = V3 0 0 0 /\ b_v (step (undisturbed (StepIn 1 None true no_impulses false)) b) = V3 1 0 0.
Proof.
  intros b. unfold b. clear b. ev. bs. splits; try reflexivity. rewrite step_enabled by reflexivity. unfold settle, moved. bs. cbn [s_sleep undisturbed]. bs.
  match goal with |- step_cv (undisturbed ?s) ?b = _ => destruct (undisturbed_velocities s b) as [E _]; [reflexivity | reflexivity |]; rewrite E end.
  unfold damped, vscale. bs. cbn [s_dt vx vy vz]. apply v3_eq; cbn [vx vy vz]; field.
Qed.

(** * C32 *)
(** Forces add up, whatever their number; nothing else of the motion changes. *)
Theorem C32_accumulate : forall b fs, b_type b = Dynamic -> Forall is_push fs ->
  let b' := run fs b in
  b_force b' = vadd (b_force b) (vsum (map (force_of (b_tr b)) fs)) /\
  b_torque b' = vadd (b_torque b) (vsum (map (torque_of (b_tr b) (b_comw b)) fs)) /\
  b_v b' = b_v b /\ b_w b' = b_w b /\ b_tr b' = b_tr b /\ b_comw b' = b_comw b.
Proof. intros b fs T P b'. destruct (pushes_eq fs P b T) as (s & d & E). unfold b'. rewrite E. splits; reflexivity. Qed.
(** The velocities after an update during which only the user's forces and gravity act. *)
Theorem C32_update : forall t l dt g, unit_rotation t -> Forall proper l ->
  let b := after t l in b_type b = Dynamic -> b_disabled b = false -> 0 < b_mass b ->
  let b' := step (free_step dt g) b in
  let q := t_rot (b_tr b) in
  b_v b' = vscale (1 / (1 + b_ldamp b * dt))
             (vadd (b_v b) (vscale dt (vmul (b_llock b) (vadd (vscale (1 / b_mass b) (b_force b)) (gravity_on b g))))) /\
  b_w b' = vscale (1 / (1 + b_adamp b * dt))
             (vadd (b_w b) (vscale dt (vmul (b_alock b) (quat_vec q (vmul (b_iinertia b) (quat_vec (quat_inverse q) (b_torque b))))))).
Proof.
  intros t l dt g U P b T D M b' q. subst b'. destruct (body_ok_after t l U P) as [MK _ RK _ _ _ _]. fold b in MK, RK. subst q. clearbody b.
  rewrite step_enabled by exact D. unfold settle, moved. cbn [s_sleep free_step]. bs.
  unfold step_cv, step_cw, push_v, push_w, free_v, free_w. cbn [s_imp free_step i_p i_l no_impulses s_g s_dt].
  rewrite !vadd_mul_zero, !vmul_zero_r, !vadd_zero_r. unfold world_tensor. rewrite apply_tensor_spec by exact RK.
  unfold mass_ok in MK. rewrite T in MK. destruct MK as [MK _]. unfold inverse_mass in MK. rewrite rlt_yes in MK by exact M. rewrite MK. unfold damped.
  split; f_equal.
  - unfold gravity_on. assert (Z : forall f, vadd f (V3 0 0 0) = f) by (intros; vring).
    destruct g as [g |]; [destruct (b_grav b) |]; rewrite ?Z, ?vadd_assoc; f_equal.
    + generalize (b_llock b) (b_force b) g (b_mass b) M. clear. intros [a b c] [d e f] [h i j] m M. unfold vadd, vmul, vscale. cbn [vx vy vz]. f_equal; field; lra.
    + vring.
    + vring.
  - f_equal. vring.
Qed.
(** Together: a list of forces applied between two updates acts with its sums, and only in the next update. *)
Theorem C32_forces_act : forall t l fs dt g, unit_rotation t -> Forall proper l -> Forall is_push fs ->
  let b := after t l in b_type b = Dynamic -> b_sleeping b = false -> b_disabled b = false -> 0 < b_mass b ->
  b_force b = V3 0 0 0 -> b_torque b = V3 0 0 0 ->
  let b' := run (fs ++ [Update (free_step dt g)]) b in
  let q := t_rot (b_tr b) in
  b_v b' = vscale (1 / (1 + b_ldamp b * dt))
             (vadd (b_v b) (vscale dt (vmul (b_llock b)
                (vadd (vscale (1 / b_mass b) (vsum (map (force_of (b_tr b)) fs))) (gravity_on b g))))) /\
  b_w b' = vscale (1 / (1 + b_adamp b * dt))
             (vadd (b_w b) (vscale dt (vmul (b_alock b)
                (quat_vec q (vmul (b_iinertia b) (quat_vec (quat_inverse q) (vsum (map (torque_of (b_tr b) (b_comw b)) fs)))))))) /\
  b_force b' = V3 0 0 0 /\ b_torque b' = V3 0 0 0.
Proof.
  intros t l fs dt g U P FP b T S D M F Q b' q. subst b' q.
  unfold run. rewrite fold_left_app. cbn [fold_left apply]. fold (run fs b).
  assert (E : after t (l ++ fs) = run fs b) by (unfold after, run; now rewrite fold_left_app).
  assert (PP : Forall proper (l ++ fs)).
  { apply Forall_app. split; [exact P |]. eapply Forall_impl; [| exact FP]. intros o Ho. destruct o; try contradiction; exact I. }
  destruct (pushes_eq fs FP b T) as (s & d & R). destruct (pushes_enabled fs FP b S D) as [_ D'].
  assert (Z : forall f, vadd (V3 0 0 0) f = f) by (intros; vring).
  rewrite F, Q, !Z in R.
  assert (T' : b_type (after t (l ++ fs)) = Dynamic) by (rewrite E, R; exact T).
  assert (D2 : b_disabled (after t (l ++ fs)) = false) by (rewrite E; exact D').
  assert (M' : 0 < b_mass (after t (l ++ fs))) by (rewrite E, R; exact M).
  destruct (C32_update t (l ++ fs) dt g U PP T' D2 M') as [V W]. rewrite E, R in V, W. rewrite R.
  split; [exact V |]. split; [exact W |]. split; reflexivity.
Qed.
(** Every update clears the accumulators, also of bodies that are not integrated. *)
Theorem C32_accumulators_cleared : forall s b, b_force (step s b) = V3 0 0 0 /\ b_torque (step s b) = V3 0 0 0.
Proof. intros s b. split; reflexivity. Qed.
(** A locked axis: no force and no gravity changes the velocity along it (full lock of the x axis). *)
Theorem C32_locked : forall t l dt g, unit_rotation t -> Forall proper l ->
  let b := after t l in b_type b = Dynamic -> b_disabled b = false -> 0 < b_mass b -> vx (b_llock b) = 0 ->
  vx (b_v (step (free_step dt g) b)) = vx (b_v b) / (1 + b_ldamp b * dt).
Proof.
  intros t l dt g U P b T D M L. destruct (C32_update t l dt g U P T D M) as [V _]. fold b in V. rewrite V.
  unfold vscale, vadd, vmul. cbn [vx]. rewrite L. unfold Rdiv. ring.
Qed.
(** Bodies that are not dynamic keep their velocities if they are not damped. *)
Theorem C32_other_bodies_partial : forall t l s, unit_rotation t -> Forall proper l ->
  let b := after t l in b_type b <> Dynamic -> b_ldamp b = 0 -> b_adamp b = 0 -> s_sleep s = false ->
  b_v (step s b) = b_v b /\ b_w (step s b) = b_w b.
Proof.
  intros t l s U P b N L A S. destruct (body_ok_after t l U P) as [MK _ _ _ _ _ _]. fold b in MK.
  destruct (nondynamic b MK N) as (M & I & _). clearbody b.
  assert (K : forall v, damped 0 (s_dt s) v = v) by (intros [x y z]; unfold damped, vscale; cbn [vx vy vz]; f_equal; field; nra).
  destruct (b_disabled b) eqn:D; [rewrite step_disabled by exact D | rewrite step_enabled by exact D]; unfold settle, moved, touched; rewrite S; bs.
  - split; reflexivity.
  - destruct (immovable_velocities s b M I) as (E1 & E2 & _). rewrite E1, E2, L, A. split; apply K.
Qed.
(** Damping slows kinematic bodies down although their velocity is the user's. *)
Theorem C32_kinematic_refuted : exists l s, Forall proper l /\ proper (Update s) /\ s_sleep s = false /\
  b_type (after tr_id l) = Kinematic /\ b_v (after tr_id l) = V3 2 0 0 /\ b_v (step s (after tr_id l)) = V3 1 0 0.
Proof.
  exists [SetType Kinematic; SetLinearDamping 1; SetLinearVelocity (V3 2 0 0)], (free_step 1 None).
  splits; [repeat constructor | cbn; lra | reflexivity | | |].
  - ev. reflexivity.
  - ev. reflexivity.
  - set (b := after tr_id [SetType Kinematic; SetLinearDamping 1; SetLinearVelocity (V3 2 0 0)]).
    assert (E : b_disabled b = false /\ b_imass b = 0 /\ b_iinertia b = vzero /\ b_v b = V3 2 0 0 /\ b_ldamp b = 1).
    { unfold b. clear b. ev. bs. splits; reflexivity. }
    destruct E as (D & M & I & V & L). clearbody b. rewrite step_enabled by exact D. unfold settle, moved. cbn [s_sleep free_step]. bs.
    destruct (immovable_velocities (free_step 1 None) b M I) as (E1 & _). rewrite E1, V, L. unfold damped, vscale. cbn [vx vy vz s_dt free_step].
    f_equal; field.
Qed.
Example C32_example : let b := after tr_id [SetMass 2] in
  b_type b = Dynamic /\ b_sleeping b = false /\ b_disabled b = false /\ b_mass b = 2 /\ b_force b = V3 0 0 0 /\ b_torque b = V3 0 0 0 /\
  Forall is_push [WorldForce (V3 2 0 0); WorldForceAtLocal (V3 0 4 0) (V3 1 0 0)].
Proof.
  intros b. unfold b. clear b. ev. bs. splits; try reflexivity. repeat constructor.
Qed.

(** * C33 *)
Theorem C33_center_of_mass : forall t l, b_comw (after t l) = tr_point (b_tr (after t l)) (b_com (after t l)).
Proof. exact com_ok_after. Qed.
Example C33_example : forall t s, b_com (after t [SetCom (V3 1 2 3); Update s]) = V3 1 2 3.
Proof.
  intros t s. unfold after. rewrite run_cons. cbn [run fold_left]. msteps; unfold set_is_sleeping, moved, touched; bs; repeat (bcase; bs); reflexivity.
Qed.
Print Assumptions C24_inverse_mass.
Print Assumptions C24_inverse_inertia.
Print Assumptions C24_not_accelerated.
Print Assumptions C24_forces_ignored.
Print Assumptions C24_static_at_rest.
Print Assumptions C31_damping.
Print Assumptions C31_speed.
Print Assumptions C32_accumulate.
Print Assumptions C32_update.
Print Assumptions C32_forces_act.
Print Assumptions C32_accumulators_cleared.
Print Assumptions C32_locked.
Print Assumptions C32_other_bodies_partial.
Print Assumptions C32_kinematic_refuted.
Print Assumptions C33_center_of_mass.
