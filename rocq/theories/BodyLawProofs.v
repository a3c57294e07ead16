(** Laws of a single update and of the mass properties of a rigid body. *)
From Coq Require Import List Reals Lra Permutation Bool.
From Verif Require Import VecModel VecProofs BodyModel BodySpec BodyProofs.
Import ListNotations.
Local Open Scope R_scope.

(** Falling asleep and the end of an update only look at the flags. *)
Lemma settle_fields s b b' :
  b_sleeping b' = b_sleeping b -> b_type b' = b_type b -> b_active b' = b_active b ->
  b_v b' = b_v b -> b_w b' = b_w b -> b_tr b' = b_tr b -> b_comw b' = b_comw b ->
  b_v (settle s b') = b_v (settle s b) /\ b_w (settle s b') = b_w (settle s b) /\ b_tr (settle s b') = b_tr (settle s b)
  /\ b_comw (settle s b') = b_comw (settle s b).
Proof.
  intros E1 E2 E3 E4 E5 E6 E7. unfold settle, set_is_sleeping, is_static. rewrite E1, E2, E3.
  bs. repeat (bcase; bs); auto.
Qed.
Lemma quat_normalize_idem q : 0 < quat_len2 q -> quat_normalize (quat_normalize q) = quat_normalize q.
Proof. intros H. apply quat_normalize_1. now apply quat_normalize_len2. Qed.
Lemma immovable_pose' b l : b_imass b = 0 -> b_iinertia b = vzero -> forall p q, 0 < quat_len2 q ->
  fst (fold_left (pose_step b) l (p, q)) = p /\ quat_normalize (snd (fold_left (pose_step b) l (p, q))) = quat_normalize q.
Proof.
  intros M I. destruct l as [| c l]; intros p q Q; [split; reflexivity |]. cbn [fold_left].
  replace (pose_step b (p, q) c) with (p, quat_normalize q).
  - rewrite immovable_pose by (assumption || now apply quat_normalize_len2). split; [reflexivity | now apply quat_normalize_idem].
  - unfold pose_step. cbn [fst snd]. now rewrite M, I, world_inverse_zero, mat_zero_vec, vmul_zero_r, vmul_zero_scale, vadd_zero_r, turn_zero.
Qed.
Lemma vscale_zero k : vscale k vzero = vzero. Proof. vring. Qed.
Lemma vmul_scale0 m l g : vmul (vscale m (vscale 0 l)) g = vzero. Proof. vring. Qed.
Lemma immovable_tensor b : b_iinertia b = vzero -> world_tensor b = mat_zero.
Proof. unfold world_tensor. intros ->. apply world_inverse_zero. Qed.
Lemma immovable_velocities s b : b_imass b = 0 -> b_iinertia b = vzero ->
  step_cv s b = damped (b_ldamp b) (s_dt s) (b_v b) /\ step_cw s b = damped (b_adamp b) (s_dt s) (b_w b)
  /\ step_sv s b = vzero /\ step_sw s b = vzero.
Proof.
  intros M I. pose proof (immovable_tensor b I) as T. unfold step_cv, step_cw, step_sv, step_sw, push_v, push_w, free_v, free_w. rewrite T, M, !mat_zero_vec, !vmul_zero_r.
  rewrite !Rmult_0_r, !vmul_zero_scale, !vadd_zero_r. repeat split; try reflexivity.
  destruct (s_g s) as [g |]; [destruct (b_grav b) |]; rewrite ?vmul_scale0, ?vadd_zero_r; reflexivity.
Qed.
Lemma nondynamic b : mass_ok b -> b_type b <> Dynamic -> b_imass b = 0 /\ b_iinertia b = vzero /\ b_iworld b = mat_zero.
Proof. unfold mass_ok. destruct (b_type b); intuition congruence. Qed.
Lemma not_accelerated s b : body_ok b -> b_type b <> Dynamic ->
  b_v (step s b) = b_v (step (undisturbed s) b) /\ b_w (step s b) = b_w (step (undisturbed s) b) /\ b_tr (step s b) = b_tr (step (undisturbed s) b)
  /\ b_comw (step s b) = b_comw (step (undisturbed s) b).
Proof.
  intros K N. destruct (nondynamic b (k_mass b K) N) as (M & I & W).
  destruct (b_disabled b) eqn:D.
  - rewrite !step_disabled by exact D. now apply (settle_fields s (touched (undisturbed s) b) (touched s b)).
  - rewrite !step_enabled by exact D.
    destruct (immovable_velocities s b M I) as (E1 & E2 & E3 & E4).
    destruct (immovable_velocities (undisturbed s) b M I) as (F1 & F2 & F3 & F4).
    assert (P : fst (step_pose s b) = fst (step_pose (undisturbed s) b)
                /\ quat_normalize (snd (step_pose s b)) = quat_normalize (snd (step_pose (undisturbed s) b))).
    { unfold step_pose. rewrite E1, E2, E3, E4, F1, F2, F3, F4.
      change (split_factor (undisturbed s)) with (split_factor s). change (s_dt (undisturbed s)) with (s_dt s).
      change (i_corr (s_imp (undisturbed s))) with (@nil (vec3 * vec3)). cbn [fold_left fst snd].
      apply immovable_pose'; [exact M | exact I |]. apply turn_pos. exact (k_rot b K). }
    destruct P as [P1 P2].
    apply (settle_fields s (moved (undisturbed s) b) (moved s b)); unfold moved, new_transform; bs; try reflexivity; try congruence.
    + rewrite E1, F1. reflexivity.
    + rewrite E2, F2. reflexivity.
Qed.

(** Damping. *)
Lemma damped_factor c dt : 0 <= c -> 0 <= dt -> 0 < 1 / (1 + c * dt) <= 1.
Proof.
  intros C T. assert (H : 1 <= 1 + c * dt) by nra. split.
  - apply Rdiv_lt_0_compat; lra.
  - apply Rmult_le_reg_r with (1 + c * dt); [lra |]. unfold Rdiv. rewrite Rmult_assoc, Rinv_l by lra. lra.
Qed.
Lemma vadd_mul_zero v l m : vadd v (vmul l (mat_vec m vzero)) = v. Proof. rewrite mat_vec_zero, vmul_zero_r. apply vadd_zero_r. Qed.
Lemma undisturbed_velocities s b : b_force b = vzero -> b_torque b = vzero ->
  step_cv (undisturbed s) b = damped (b_ldamp b) (s_dt s) (b_v b) /\ step_cw (undisturbed s) b = damped (b_adamp b) (s_dt s) (b_w b).
Proof.
  intros F T. unfold step_cv, step_cw, push_v, push_w, free_v, free_w. cbn [s_imp undisturbed i_p i_l no_impulses s_g s_dt].
  rewrite F, T, !vadd_mul_zero, !vmul_zero_r, !vadd_zero_r. split; reflexivity.
Qed.
Lemma damped_step s b : 0 <= s_dt s -> damp_ok b -> b_force b = vzero -> b_torque b = vzero ->
  let b' := step (undisturbed s) b in
  damp_ok b' /\ b_force b' = vzero /\ b_torque b' = vzero /\
  (exists k, 0 <= k <= 1 /\ b_v b' = vscale k (b_v b)) /\ (exists k, 0 <= k <= 1 /\ b_w b' = vscale k (b_w b)).
Proof.
  intros T [D1 D2] F Q b'. subst b'.
  destruct (undisturbed_velocities s b F Q) as [E1 E2].
  destruct (damped_factor _ _ D1 T) as [K1 K2]. destruct (damped_factor _ _ D2 T) as [L1 L2].
  assert (Z : forall v, vzero = vscale 0 v) by (intros; vring).
  assert (O : forall v, v = vscale 1 v) by (intros; vring).
  destruct (b_disabled b) eqn:D; [rewrite step_disabled by exact D | rewrite step_enabled by exact D];
    unfold settle, set_is_sleeping, is_static, damp_ok, moved, touched; bs; repeat (bcase; bs);
    (split; [split; assumption |]); (split; [reflexivity |]); (split; [reflexivity |]);
    rewrite ?E1, ?E2; unfold damped;
    (split; [first [exists 0; split; [lra | apply Z] | exists 1; split; [lra | apply O] | eexists; split; [| reflexivity]; lra]
           | first [exists 0; split; [lra | apply Z] | exists 1; split; [lra | apply O] | eexists; split; [| reflexivity]; lra]]).
Qed.

(** Forces. *)
Lemma set_sleeping_false b : b_sleeping b = true -> exists s d, set_is_sleeping false b = set_disabled d (set_sleeping s b).
Proof.
  intros S. unfold set_is_sleeping. rewrite S. bs. destruct (is_static b); [exists (b_sleeping b), (b_disabled b); destruct b; reflexivity |].
  destruct (b_active b); bs; [exists false, false; reflexivity | exists (b_sleeping b), (b_disabled b); destruct b; reflexivity].
Qed.
Lemma awake_eq b : exists s d, awake b = set_disabled d (set_sleeping s b).
Proof.
  unfold awake. destruct (b_sleeping b) eqn:S; [now apply set_sleeping_false |].
  exists (b_sleeping b), (b_disabled b). destruct b; reflexivity.
Qed.
Lemma push_eq o b : is_push o -> b_type b = Dynamic -> exists s d,
  apply o b = set_torque (vadd (b_torque b) (torque_of (b_tr b) (b_comw b) o)) (set_force (vadd (b_force b) (force_of (b_tr b) o))
               (set_disabled d (set_sleeping s b))).
Proof.
  intros P T.
  assert (Y : is_dynamic b = true) by (unfold is_dynamic; rewrite T; reflexivity).
  destruct (awake_eq b) as (s & d & E). exists s, d.
  assert (Z : forall v, vadd v (V3 0 0 0) = v) by (intros; vring).
  destruct o; try contradiction; cbn [apply force_of torque_of];
    unfold local_force_at_com, local_force_at_world, local_force_at_local, local_torque,
      world_force_at_com, world_force_at_world, world_force_at_local, world_torque; rewrite Y, E, ?Z; destruct b; reflexivity.
Qed.
Lemma vsum_cons x l : vsum (x :: l) = vadd x (vsum l). Proof. reflexivity. Qed.
Lemma vadd_assoc a b c : vadd (vadd a b) c = vadd a (vadd b c). Proof. vring. Qed.
Lemma pushes_eq l : Forall is_push l -> forall b, b_type b = Dynamic -> exists s d,
  run l b = set_torque (vadd (b_torque b) (vsum (map (torque_of (b_tr b) (b_comw b)) l)))
              (set_force (vadd (b_force b) (vsum (map (force_of (b_tr b)) l))) (set_disabled d (set_sleeping s b))).
Proof.
  induction 1 as [| o l P _ IH]; intros b T.
  - exists (b_sleeping b), (b_disabled b). cbn [run fold_left map vsum]. assert (Z : forall v, vadd v (V3 0 0 0) = v) by (intros; vring).
    rewrite !Z. destruct b; reflexivity.
  - cbn [run fold_left map]. destruct (push_eq o b P T) as (s & d & E). fold (run l (apply o b)).
    assert (T' : b_type (apply o b) = Dynamic) by (rewrite E; exact T).
    destruct (IH (apply o b) T') as (s' & d' & E'). exists s', d'. rewrite E'. rewrite !vsum_cons, <- !vadd_assoc. rewrite E. reflexivity.
Qed.
(** The flags of a body that is enabled do not change when it is pushed. *)
Lemma pushes_enabled l : Forall is_push l -> forall b, b_sleeping b = false -> b_disabled b = false ->
  b_sleeping (run l b) = false /\ b_disabled (run l b) = false.
Proof.
  induction 1 as [| o l P _ IH]; intros b S D; [auto |]. cbn [run fold_left].
  apply IH; destruct o; try contradiction; crunch; congruence.
Qed.
Lemma apply_tensor_spec q i v : quat_len2 q = 1 ->
  mat_vec (world_inverse (quat_matrix q) i) v = quat_vec q (vmul i (quat_vec (quat_inverse q) v)).
Proof.
  intros Q.
  assert (E : world_inverse (quat_matrix q) i = mat_mul (quat_matrix q) (row_scale i (mat_transpose (quat_matrix q)))).
  { unfold world_inverse. f_equal. generalize (quat_matrix q). intros [[a b c] [d e f] [g h k]]. destruct i as [x y z].
    unfold row_scale, mat_transpose, mk_mat, vscale, m00, m01, m02, m10, m11, m12, m20, m21, m22. cbn [row0 row1 row2 vx vy vz].
    compw; ring. }
  rewrite E, mat_vec_mul, quat_matrix_vec by exact Q. f_equal.
  assert (R : forall m w, mat_vec (row_scale i m) w = vmul i (mat_vec m w)).
  { intros [[a b c] [d e f] [g h k]] [x y z]. destruct i as [i j l]. unfold row_scale, mat_vec, vmul, vscale, m00, m01, m02, m10, m11, m12, m20, m21, m22.
    cbn [row0 row1 row2 vx vy vz]. apply v3_eq; cbn [vx vy vz]; ring. }
  rewrite R. f_equal. rewrite <- (quat_matrix_vec (quat_inverse q)) by now rewrite quat_len2_inverse.
  f_equal. destruct q as [x y z w]. unfold quat_len2 in Q. cbn [qx qy qz qw] in Q. unfold quat_inverse. cbn [qx qy qz qw].
  rewrite !quat_matrix_unit by nra. unfold mat_transpose, mk_mat, m00, m01, m02, m10, m11, m12, m20, m21, m22. cbn [row0 row1 row2 vx vy vz].
  compw; ring.
Qed.

(** Mass properties. *)
Lemma rsum_app l l' : rsum (l ++ l') = rsum l + rsum l'. Proof. induction l as [| x l IH]; cbn [rsum app]; [ring | rewrite IH; ring]. Qed.
Lemma rsum_perm l l' : Permutation l l' -> rsum l = rsum l'.
Proof. induction 1; cbn [rsum]; [reflexivity | rewrite IHPermutation; ring | ring | congruence]. Qed.
Lemma vsum_perm l l' : Permutation l l' -> vsum l = vsum l'.
Proof.
  induction 1; cbn [vsum]; [reflexivity | rewrite IHPermutation; reflexivity | | congruence].
  rewrite <- !vadd_assoc. f_equal. vring.
Qed.
Definition weighted (c : collider) : vec3 := vscale (part_mass c) (t_pos (c_local c)).
Lemma center_fold l : forall m s,
  fold_left (fun '(m, s) c => (m + collider_mass c, vadd s (vscale (collider_mass c) (t_pos (c_local c))))) l (m, s)
  = (m + rsum (map part_mass l), vadd s (vsum (map weighted l))).
Proof.
  induction l as [| c l IH]; intros m s; cbn [fold_left map rsum vsum].
  - f_equal; [ring | vring].
  - rewrite IH. unfold weighted at 2. change (collider_mass c) with (part_mass c). rewrite vadd_assoc. f_equal. ring.
Qed.
Lemma center_eq l : center_of_mass l =
  if rlt 0 (rsum (map part_mass l)) then vdiv (vsum (map weighted l)) (rsum (map part_mass l)) else vsum (map weighted l).
Proof. unfold center_of_mass. rewrite center_fold. now rewrite Rplus_0_l, vadd_zero_l. Qed.
Lemma total_fold l : forall m, fold_left (fun m c => m + collider_mass c) l m = m + rsum (map part_mass l).
Proof.
  induction l as [| c l IH]; intros m; cbn [fold_left map rsum]; [ring |].
  rewrite IH. change (collider_mass c) with (part_mass c). ring.
Qed.
Lemma total_eq l : total_mass l = rsum (map part_mass l).
Proof. unfold total_mass. rewrite total_fold. ring. Qed.
Definition tensor_sum (com : vec3) (l : list collider) : mat3 := fold_right (fun c t => mat_add (collider_tensor com c) t) mat_zero l.
Lemma mat_add_assoc a b c : mat_add (mat_add a b) c = mat_add a (mat_add b c). Proof. unfold mat_add. cbn [row0 row1 row2]. now rewrite !vadd_assoc. Qed.
Lemma mat_add_zero_r a : mat_add a mat_zero = a. Proof. destruct a as [a b c]. unfold mat_add, mat_zero, mk_mat. cbn [row0 row1 row2]. f_equal; apply vadd_zero_r. Qed.
Lemma mat_add_zero_l a : mat_add mat_zero a = a. Proof. destruct a as [a b c]. unfold mat_add, mat_zero, mk_mat. cbn [row0 row1 row2]. f_equal; apply vadd_zero_l. Qed.
Lemma inertia_fold com l : forall m t,
  fold_left (fun '(m, t) c => (m + collider_mass c, mat_add t (collider_tensor com c))) l (m, t)
  = (m + rsum (map part_mass l), mat_add t (tensor_sum com l)).
Proof.
  induction l as [| c l IH]; intros m t; cbn [fold_left map rsum tensor_sum fold_right].
  - f_equal; [ring | now rewrite mat_add_zero_r].
  - rewrite IH. change (collider_mass c) with (part_mass c). fold (tensor_sum com l). rewrite mat_add_assoc. f_equal. ring.
Qed.
Lemma mass_inertia_eq com l : mass_and_inertia com l =
  (rsum (map part_mass l), V3 (m00 (tensor_sum com l)) (m11 (tensor_sum com l)) (m22 (tensor_sum com l))).
Proof. unfold mass_and_inertia. rewrite inertia_fold, mat_add_zero_l, Rplus_0_l. reflexivity. Qed.

Definition form (m : mat3) (u : vec3) : R := vdot u (mat_vec m u).
Lemma form_add a b u : form (mat_add a b) u = form a u + form b u.
Proof. unfold form, mat_add. mring. Qed.
Lemma form_rotated m d u : form (rotated_tensor m d) u =
  vx d * (vdot u (mat_vec m (V3 1 0 0)) * vdot u (mat_vec m (V3 1 0 0))) + vy d * (vdot u (mat_vec m (V3 0 1 0)) * vdot u (mat_vec m (V3 0 1 0)))
  + vz d * (vdot u (mat_vec m (V3 0 0 1)) * vdot u (mat_vec m (V3 0 0 1))).
Proof. unfold form, rotated_tensor, row_scale. mring. Qed.
Lemma form_offset k o u : vlen2 u = 1 -> form (offset_tensor k o) u = k * (vdot o o - vdot u o * vdot u o).
Proof.
  intros U. replace (form (offset_tensor k o) u) with (k * (vdot o o * vlen2 u - vdot u o * vdot u o)); [rewrite U; ring |].
  unfold form, offset_tensor, mat_scale. mring.
Qed.
Lemma form_collider com c u : vlen2 u = 1 -> unit_rotation (c_local c) ->
  form (collider_tensor com c) u = own_moment c u + part_mass c * axis_distance2 com u (t_pos (c_local c)).
Proof.
  intros U Q. unfold collider_tensor. rewrite form_add, form_rotated, form_offset by exact U.
  rewrite !quat_matrix_vec by exact Q. reflexivity.
Qed.
Lemma form_sum com l u : vlen2 u = 1 -> Forall (fun c => unit_rotation (c_local c)) l -> form (tensor_sum com l) u = moment_about l com u.
Proof.
  intros U. unfold moment_about. induction 1 as [| c l Q _ IH]; cbn [tensor_sum fold_right map rsum].
  - unfold form, mat_zero. mring.
  - fold (tensor_sum com l). rewrite form_add, IH, form_collider by assumption. reflexivity.
Qed.
Lemma form_diagonal m : form m (V3 1 0 0) = m00 m /\ form m (V3 0 1 0) = m11 m /\ form m (V3 0 0 1) = m22 m.
Proof. unfold form. repeat split; mring. Qed.
Lemma moment_perm l l' com u : Permutation l l' -> moment_about l com u = moment_about l' com u.
Proof. intros P. unfold moment_about. apply rsum_perm. now apply Permutation_map. Qed.
Lemma tensor_perm com l l' : Permutation l l' -> tensor_sum com l = tensor_sum com l'.
Proof.
  induction 1; cbn [tensor_sum fold_right]; [reflexivity | | | congruence].
  - fold (tensor_sum com l). fold (tensor_sum com l'). now rewrite IHPermutation.
  - rewrite <- !mat_add_assoc. f_equal. unfold mat_add. f_equal; vring.
Qed.

(** Turning. *)
Lemma quat_vec_normalize q v : 0 < quat_len2 q -> quat_vec (quat_normalize q) v = vscale (/ quat_len2 q) (quat_vec q v).
Proof.
  intros H. unfold quat_normalize. set (l := sqrt (quat_len2 q)).
  assert (L : l * l = quat_len2 q) by (apply sqrt_sqrt; lra).
  assert (P : 0 < l) by (now apply sqrt_lt_R0). clearbody l. rewrite <- L. destruct q as [x y z w], v as [a b c].
  unfold quat_vec, vscale. cbn [qx qy qz qw vx vy vz]. f_equal; field; lra.
Qed.
Lemma quat_vec_turn w dt q v : quat_vec (turn w dt q) v =
  let u := quat_vec q v in
  vadd (vadd (vscale (1 - dt * dt * / 4 * vlen2 w) u) (vscale dt (vcross w u))) (vscale (dt * dt * / 2 * vdot w u) w).
Proof.
  destruct w as [a b c], q as [x y z s], v as [l m n]. unfold turn, quat_add, quat_scale, quat_mul, quat_vec, vadd, vscale, vcross, vdot, vlen2.
  cbn [qx qy qz qw vx vy vz]. f_equal; field.
Qed.
Lemma cos_sin_double a : cos (2 * atan a) = (1 - a * a) / (1 + a * a) /\ sin (2 * atan a) = 2 * a / (1 + a * a).
Proof.
  assert (P : 0 < 1 + a * a) by nra.
  assert (S : sqrt (1 + a²) * sqrt (1 + a²) = 1 + a * a) by (unfold Rsqr; apply sqrt_sqrt; lra).
  assert (N : 0 < sqrt (1 + a²)) by (apply sqrt_lt_R0; unfold Rsqr; lra).
  rewrite cos_2a, sin_2a, cos_atan, sin_atan. unfold Rsqr in *. set (r := sqrt (1 + a * a)) in *. clearbody r. rewrite <- S.
  split; [| field; lra].
  replace (1 / r * (1 / r) - a / r * (a / r)) with ((1 - a * a) / (r * r)) by (field; lra). reflexivity.
Qed.

(** Evaluation of concrete histories. *)
Lemma run_cons o l b : run (o :: l) b = run l (apply o b). Proof. reflexivity. Qed.
Ltac decide_reals := repeat match goal with
  | |- context [rlt ?a ?b] => first [rewrite (proj2 (rlt_true a b)) by lra | rewrite (proj2 (rlt_false a b)) by lra]
  | |- context [rle ?a ?b] => first [rewrite (proj2 (rle_true a b)) by lra | rewrite (proj2 (rle_false a b)) by lra]
  | |- context [req ?a ?b] => first [rewrite (proj2 (req_true a b)) by lra | rewrite (proj2 (req_false a b)) by lra]
  end.
Ltac ev1 := rewrite run_cons; match goal with |- context [run ?l (apply ?o ?b)] =>
  let r := eval cbv [apply set_type_of set_mass_of set_inertia_of set_com_of update_com set_transform set_linear_velocity set_angular_velocity
    set_linear_damping set_angular_damping world_force_at_com set_is_active awake shift_velocity place_colliders is_dynamic is_static
    set_is_sleeping inverse_mass inverse_inertia inverse_or_zero add_collider
    b_type b_mass b_imass b_inertia b_iinertia b_iworld b_com b_comw b_tr b_v b_w b_force b_torque b_ldamp b_adamp b_grav b_llock
    b_alock b_sleeping b_active b_disabled b_cv b_cw b_sv b_sw b_cpos b_crot b_cols
    set_type set_mass set_imass set_inertia set_iinertia set_iworld set_com set_comw set_tr set_v set_w set_force set_torque set_ldamp set_adamp
    set_grav set_llock set_alock set_sleeping set_active set_disabled set_cv set_cw set_sv set_sw set_cpos set_crot set_cols
    btype_eqb t_pos t_rot vx vy vz fst snd Bool.eqb negb map app vlen2 tr_id quat_id vzero] in (apply o b) in
  change (run l (apply o b)) with (run l r) end; decide_reals; cbv beta iota.
Ltac ev := unfold after, create; cbn [t_pos t_rot tr_id]; repeat ev1; cbv [run fold_left].
