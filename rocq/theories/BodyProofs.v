(** Invariants of a rigid body over all histories. *)
From Coq Require Import List Reals Lra Permutation Bool.
From Verif Require Import VecModel VecProofs BodyModel BodySpec.
Import ListNotations.
Local Open Scope R_scope.

(** Reads of a body after writes. *)
Ltac bs := cbn [b_type b_mass b_imass b_inertia b_iinertia b_iworld b_com b_comw b_tr b_v b_w b_force b_torque b_ldamp b_adamp b_grav b_llock
  b_alock b_sleeping b_active b_disabled b_cv b_cw b_sv b_sw b_cpos b_crot b_cols
  set_type set_mass set_imass set_inertia set_iinertia set_iworld set_com set_comw set_tr set_v set_w set_force set_torque set_ldamp set_adamp
  set_grav set_llock set_alock set_sleeping set_active set_disabled set_cv set_cw set_sv set_sw set_cpos set_crot set_cols
  is_dynamic is_static btype_eqb t_pos t_rot fst snd Bool.eqb negb] in *.

(** An update in explicit form. *)
Definition pose_step (b : body) (pq : vec3 * quat) (c : vec3 * vec3) : vec3 * quat :=
  (vadd (fst pq) (vmul (vscale (b_imass b) (b_llock b)) (fst c)),
   quat_normalize (turn (vmul (b_alock b) (mat_vec (world_inverse (quat_matrix (snd pq)) (b_iinertia b)) (snd c))) 1 (snd pq))).
Lemma corrections_eq l : forall b, fold_left correct_position l b =
  set_crot (snd (fold_left (pose_step b) l (b_cpos b, b_crot b))) (set_cpos (fst (fold_left (pose_step b) l (b_cpos b, b_crot b))) b).
Proof.
  induction l as [| c l IH]; intros b; [destruct b; reflexivity |].
  cbn [fold_left]. rewrite IH. destruct b; reflexivity.
Qed.
Lemma pose_step_ext b b' l : b_imass b' = b_imass b -> b_llock b' = b_llock b -> b_alock b' = b_alock b -> b_iinertia b' = b_iinertia b ->
  forall pq, fold_left (pose_step b') l pq = fold_left (pose_step b) l pq.
Proof.
  intros E1 E2 E3 E4. induction l as [| c l IH]; intros pq; [reflexivity |]. cbn [fold_left]. rewrite IH. f_equal.
  unfold pose_step. now rewrite E1, E2, E3, E4.
Qed.
Definition damped (c dt : R) (v : vec3) : vec3 := vscale (1 / (1 + c * dt)) v.
Definition world_tensor (b : body) : mat3 := world_inverse (quat_matrix (t_rot (b_tr b))) (b_iinertia b).
Definition free_v (dt : R) (g : option vec3) (b : body) : vec3 :=
  let v := vadd (b_v b) (vmul (vscale (dt * b_imass b) (b_llock b)) (b_force b)) in
  damped (b_ldamp b) dt
    (match g with Some g => if b_grav b then vadd v (vmul (vscale (b_mass b) (vscale (dt * b_imass b) (b_llock b))) g) else v | None => v end).
Definition free_w (dt : R) (b : body) : vec3 :=
  damped (b_adamp b) dt (vadd (b_w b) (vmul (vscale dt (b_alock b)) (mat_vec (world_tensor b) (b_torque b)))).
Definition push_v (b : body) (v p : vec3) : vec3 := vadd v (vmul (vscale (b_imass b) (b_llock b)) p).
Definition push_w (b : body) (iw : mat3) (w l : vec3) : vec3 := vadd w (vmul (b_alock b) (mat_vec iw l)).
Definition step_cv (s : step_in) (b : body) : vec3 := push_v b (free_v (s_dt s) (s_g s) b) (i_p (s_imp s)).
Definition step_cw (s : step_in) (b : body) : vec3 := push_w b (world_tensor b) (free_w (s_dt s) b) (i_l (s_imp s)).
Definition step_sv (s : step_in) (b : body) : vec3 := push_v b vzero (i_sp (s_imp s)).
Definition step_sw (s : step_in) (b : body) : vec3 := push_w b (world_tensor b) vzero (i_sl (s_imp s)).
Definition split_factor (s : step_in) : R := if s_split s then 1 else 0.
Definition step_pose (s : step_in) (b : body) : vec3 * quat :=
  fold_left (pose_step b) (i_corr (s_imp s))
    (vadd (b_comw b) (vscale (s_dt s) (vadd (step_cv s b) (vscale (split_factor s) (step_sv s b)))),
     turn (vadd (step_cw s b) (vscale (split_factor s) (step_sw s b))) (s_dt s) (t_rot (b_tr b))).
Definition new_transform (p : vec3) (q : quat) (com : vec3) : transform := Tr (vsub p (quat_vec (quat_normalize q) com)) (quat_normalize q).
(** The body before it may fall asleep. *)
Definition moved (s : step_in) (b : body) : body :=
  let p := fst (step_pose s b) in
  let q := snd (step_pose s b) in
  let t := new_transform p q (b_com b) in
  Body (b_type b) (b_mass b) (b_imass b) (b_inertia b) (b_iinertia b) (world_tensor b) (b_com b) p t (step_cv s b) (step_cw s b) (b_force b)
    (b_torque b) (b_ldamp b) (b_adamp b) (b_grav b) (b_llock b) (b_alock b) (b_sleeping b) (b_active b) (b_disabled b) (step_cv s b) (step_cw s b)
    (step_sv s b) (step_sw s b) p q
    (map (fun c => Collider (c_volume c) (c_density c) (c_inertia c) (c_local c) (tr_mul t (c_local c))) (b_cols b)).
(** A disabled body: only what the solvers write. *)
Definition touched (s : step_in) (b : body) : body :=
  let pq := fold_left (pose_step b) (i_corr (s_imp s)) (b_cpos b, b_crot b) in
  Body (b_type b) (b_mass b) (b_imass b) (b_inertia b) (b_iinertia b) (b_iworld b) (b_com b) (b_comw b) (b_tr b) (b_v b) (b_w b) (b_force b)
    (b_torque b) (b_ldamp b) (b_adamp b) (b_grav b) (b_llock b) (b_alock b) (b_sleeping b) (b_active b) (b_disabled b)
    (push_v b (b_cv b) (i_p (s_imp s))) (push_w b (b_iworld b) (b_cw b) (i_l (s_imp s)))
    (push_v b (b_sv b) (i_sp (s_imp s))) (push_w b (b_iworld b) (b_sw b) (i_sl (s_imp s))) (fst pq) (snd pq) (b_cols b).
Definition settle (s : step_in) (b : body) : body :=
  set_torque vzero (set_force vzero (if s_sleep s then set_is_sleeping true b else b)).
Lemma integrate_velocities_eq dt g b : b_disabled b = false -> b_iworld b = world_tensor b ->
  integrate_velocities dt g b = set_cw (free_w dt b) (set_cv (free_v dt g b) (set_sw vzero (set_sv vzero b))).
Proof.
  intros D W. unfold integrate_velocities, free_w. rewrite D, <- W. clear W. destruct b. bs. subst.
  destruct g as [g |], b_grav; reflexivity.
Qed.
Lemma step_enabled s b : b_disabled b = false -> step s b = settle s (moved s b).
Proof.
  intros D. unfold step, settle. do 2 f_equal.
  match goal with |- (if _ then set_is_sleeping true ?x else _) = (if _ then set_is_sleeping true ?y else _) => enough (E : x = y) by now rewrite E end.
  unfold update_iworld. rewrite D. fold (world_tensor b).
  rewrite integrate_velocities_eq; [| exact D | reflexivity].
  change (free_w (s_dt s) (set_iworld (world_tensor b) b)) with (free_w (s_dt s) b).
  change (free_v (s_dt s) (s_g s) (set_iworld (world_tensor b) b)) with (free_v (s_dt s) (s_g s) b).
  assert (E3 : solve_velocities (s_imp s) (set_cw (free_w (s_dt s) b) (set_cv (free_v (s_dt s) (s_g s) b) (set_sw vzero (set_sv vzero (set_iworld (world_tensor b) b)))))
             = set_sw (step_sw s b) (set_sv (step_sv s b) (set_cw (step_cw s b) (set_cv (step_cv s b) (set_iworld (world_tensor b) b))))) by reflexivity.
  rewrite E3. clear E3.
  assert (E4 : integrate_positions (s_dt s) (s_split s) (set_sw (step_sw s b) (set_sv (step_sv s b) (set_cw (step_cw s b) (set_cv (step_cv s b) (set_iworld (world_tensor b) b)))))
    = set_crot (turn (vadd (step_cw s b) (vscale (split_factor s) (step_sw s b))) (s_dt s) (t_rot (b_tr b)))
       (set_cpos (vadd (b_comw b) (vscale (s_dt s) (vadd (step_cv s b) (vscale (split_factor s) (step_sv s b)))))
         (set_sw (step_sw s b) (set_sv (step_sv s b) (set_cw (step_cw s b) (set_cv (step_cv s b) (set_iworld (world_tensor b) b))))))).
  { unfold integrate_positions. bs. rewrite D. reflexivity. }
  rewrite E4. clear E4. rewrite corrections_eq. unfold update_state. bs. rewrite D.
  rewrite (pose_step_ext b) by reflexivity. fold (step_pose s b). reflexivity.
Qed.
Lemma step_disabled s b : b_disabled b = true -> step s b = settle s (touched s b).
Proof.
  intros D. unfold step, settle. do 2 f_equal.
  match goal with |- (if _ then set_is_sleeping true ?x else _) = (if _ then set_is_sleeping true ?y else _) => enough (E : x = y) by now rewrite E end.
  unfold update_iworld. rewrite D. unfold integrate_velocities. rewrite D. unfold integrate_positions.
  replace (b_disabled (solve_velocities (s_imp s) b)) with true by (symmetry; exact D).
  rewrite corrections_eq. rewrite (pose_step_ext b) by reflexivity. unfold update_state. bs.
  replace (b_disabled (solve_velocities (s_imp s) b)) with true by (symmetry; exact D). reflexivity.
Qed.
Ltac msteps := unfold apply; match goal with |- context [step ?s ?b] => let D := fresh "D" in
  destruct (b_disabled b) eqn:D; [rewrite (step_disabled s b D) | rewrite (step_enabled s b D)] end; unfold settle.

Lemma vmul_zero_scale l p : vmul (vscale 0 l) p = vzero. Proof. vring. Qed.
Lemma vadd_zero_r v : vadd v vzero = v. Proof. vring. Qed.
Lemma vadd_zero_l v : vadd vzero v = v. Proof. vring. Qed.
Lemma vmul_zero_r l : vmul l vzero = vzero. Proof. vring. Qed.
Lemma mat_zero_vec v : mat_vec mat_zero v = vzero. Proof. mring. Qed.
Lemma world_inverse_zero m : world_inverse m vzero = mat_zero.
Proof. unfold world_inverse, mat_zero, vzero. cbn [vx vy vz]. mring. Qed.
Lemma quat_normalize_len2 q : 0 < quat_len2 q -> quat_len2 (quat_normalize q) = 1.
Proof.
  intros H. unfold quat_normalize. set (l := sqrt (quat_len2 q)).
  assert (L : l * l = quat_len2 q) by (apply sqrt_sqrt; lra).
  assert (P : 0 < l) by (now apply sqrt_lt_R0). clearbody l. destruct q as [x y z w]. unfold quat_len2 in *. cbn [qx qy qz qw] in *.
  replace (x / l * (x / l) + y / l * (y / l) + z / l * (z / l) + w / l * (w / l)) with ((x * x + y * y + z * z + w * w) / (l * l)) by (field; lra).
  rewrite <- L. field. lra.
Qed.
Lemma quat_normalize_1 q : quat_len2 q = 1 -> quat_normalize q = q.
Proof. intros H. unfold quat_normalize. rewrite H, sqrt_1. destruct q as [x y z u]; cbn [qx qy qz qw]. f_equal; field. Qed.
Lemma turn_len2 w dt q : quat_len2 (turn w dt q) = quat_len2 q * (1 + dt * dt * / 4 * vlen2 w).
Proof. destruct w as [a b c], q as [x y z u]. unfold turn, quat_add, quat_scale, quat_mul, quat_len2, vlen2. cbn [qx qy qz qw vx vy vz]. field. Qed.
Lemma turn_pos w dt q : quat_len2 q = 1 -> 0 < quat_len2 (turn w dt q).
Proof. intros H. rewrite turn_len2, H. pose proof (vlen2_nonneg w). nra. Qed.
Lemma turn_zero q : turn vzero 1 q = q.
Proof. destruct q as [x y z u]. unfold turn, quat_add, quat_scale, quat_mul, vzero. cbn [qx qy qz qw vx vy vz]. f_equal; field. Qed.

(** Mass and inverse mass. *)
Definition mass_ok (b : body) : Prop :=
  match b_type b with
  | Dynamic => b_imass b = inverse_mass (b_mass b) /\ b_iinertia b = inverse_inertia (b_inertia b)
  | _ => b_imass b = 0 /\ b_iinertia b = vzero /\ b_iworld b = mat_zero
  end.

(** Case analysis on the tests of the model. *)
Ltac bcase := match goal with
  | |- context [if ?x then _ else _] => match x with context [if _ then _ else _] => fail 1 | _ => destruct x eqn:? end
  | |- context [match b_type ?b with _ => _ end] => destruct (b_type b) eqn:?
  end.
Ltac ops := unfold apply, set_type_of, set_mass_of, set_inertia_of, set_com_of, update_com, update_inertia, update_mass, update_mass_properties,
  set_transform, set_linear_velocity, set_angular_velocity, set_linear_damping, set_angular_damping, world_force_at_com, local_force_at_com,
  world_force_at_world, local_force_at_world, world_force_at_local, local_force_at_local, world_torque, local_torque, reset_force, reset_torque,
  add_collider, remove_collider, move_collider, set_density, change_collider, set_is_active, awake, set_mass_unchecked, shift_velocity, place_colliders,
  set_com_of, set_inertia_of, is_dynamic, is_static, set_is_sleeping.
Ltac pairs := repeat match goal with |- context [let '(_, _) := ?x in _] => destruct x as [? ?] eqn:? end.
Ltac crunch := repeat (progress ops); pairs; bs; repeat (bcase; bs).
Lemma mass_ok_apply o b : mass_ok b -> mass_ok (apply o b).
Proof.
  unfold mass_ok. intros H. destruct o.
  1: destruct t.
  all: try (crunch; try congruence; intuition (auto using world_inverse_zero; congruence); fail).
  msteps; unfold set_is_sleeping, is_static, moved, touched; bs; repeat (bcase; bs).
  all: intuition (try congruence).
  all: unfold world_tensor; match goal with H : b_iinertia _ = _ |- _ => rewrite H end; apply world_inverse_zero.
Qed.

(** The world centre of mass. *)
Definition com_ok (b : body) : Prop := b_comw b = tr_point (b_tr b) (b_com b).
Lemma vsub_vadd a b : vadd b (vsub a b) = a. Proof. vring. Qed.
Lemma com_ok_apply o b : com_ok b -> com_ok (apply o b).
Proof.
  unfold com_ok. intros H. destruct o.
  1: destruct t.
  all: try (crunch; congruence).
  msteps; unfold set_is_sleeping, is_static, moved, touched; bs; repeat (bcase; bs).
  all: try assumption.
  all: unfold tr_point; bs; symmetry; apply vsub_vadd.
Qed.

(** Orientations have unit length. *)
Definition rot_ok (b : body) : Prop := unit_rotation (b_tr b).
Lemma corrected_pos b l : forall pq, 0 < quat_len2 (snd pq) -> 0 < quat_len2 (snd (fold_left (pose_step b) l pq)).
Proof.
  induction l as [| c l IH]; intros pq H; [exact H |]. cbn [fold_left]. apply IH. unfold pose_step. cbn [fst snd].
  rewrite quat_normalize_len2; [lra |]. rewrite turn_len2.
  match goal with |- context [vlen2 ?w] => pose proof (vlen2_nonneg w) end. nra.
Qed.
Lemma step_pose_pos s b : rot_ok b -> 0 < quat_len2 (snd (step_pose s b)).
Proof. intros H. apply corrected_pos. apply turn_pos, H. Qed.
Lemma rot_ok_apply o b : proper o -> rot_ok b -> rot_ok (apply o b).
Proof.
  unfold rot_ok. intros P H. destruct o.
  1: destruct t.
  all: try (crunch; assumption).
  pose proof (step_pose_pos s b H) as C.
  msteps; unfold set_is_sleeping, is_static, moved, touched; bs; repeat (bcase; bs); try assumption;
    unfold unit_rotation, new_transform; bs; apply quat_normalize_len2, C.
Qed.

(** Static bodies are at rest, disabled, and the pose the joints see is their transform. *)
Definition rest_ok (b : body) : Prop :=
  b_type b = Static -> b_v b = vzero /\ b_w b = vzero /\ b_disabled b = true /\ b_cpos b = t_pos (b_tr b) /\ b_crot b = t_rot (b_tr b).
Lemma vcross_zero v : vcross vzero v = vzero. Proof. vring. Qed.
Lemma immovable_pose b l q : b_imass b = 0 -> b_iinertia b = vzero -> quat_len2 q = 1 ->
  forall p, fold_left (pose_step b) l (p, q) = (p, q).
Proof.
  intros M I Q. induction l as [| c l IH]; intros p; [reflexivity |]. cbn [fold_left].
  replace (pose_step b (p, q) c) with (p, q); [apply IH |].
  unfold pose_step. cbn [fst snd]. rewrite M, I, world_inverse_zero, mat_zero_vec, vmul_zero_r, vmul_zero_scale, vadd_zero_r, turn_zero.
  now rewrite quat_normalize_1.
Qed.
Lemma rest_ok_apply o b : mass_ok b -> rot_ok b -> rest_ok b -> rest_ok (apply o b).
Proof.
  unfold rest_ok. intros M R H. destruct o.
  1: destruct t.
  all: try (crunch; intros E; try congruence; destruct (H E) as (H1 & H2 & H3 & H4 & H5); repeat split;
            rewrite ?H1, ?H2, ?vcross_zero, ?vadd_zero_r; congruence).
  all: try (crunch; intros E; destruct (H E) as (H1 & H2 & H3 & H4 & H5); rewrite ?E in *; cbn [btype_eqb] in *; try discriminate; repeat split;
      rewrite ?H1, ?H2, ?vcross_zero, ?vadd_zero_r; congruence).
  - crunch; intros E; try (apply H; exact E); repeat split; congruence.
  - unfold mass_ok in M. msteps; unfold set_is_sleeping, is_static, moved, touched; bs; repeat (bcase; bs); intros E; try congruence;
      destruct (H E) as (H1 & H2 & H3 & H4 & H5); rewrite ?E in *; cbn [btype_eqb] in *; try congruence; repeat split; try congruence;
      destruct M as (M1 & M2 & M3); rewrite H4, H5, immovable_pose by assumption; reflexivity.
Qed.

(** Forces only ever act on dynamic bodies; dampings are not negative. *)
Definition force_ok (b : body) : Prop := b_type b <> Dynamic -> b_force b = vzero /\ b_torque b = vzero.
Lemma force_ok_apply o b : force_ok b -> force_ok (apply o b).
Proof.
  unfold force_ok. intros H. destruct o.
  1: destruct t.
  all: try (crunch; intros N; try congruence; intuition (try congruence); fail).
  all: try (crunch; intros N; try (destruct (b_type b); cbn [btype_eqb] in *; congruence); intuition (try congruence); fail).
Qed.
Definition damp_ok (b : body) : Prop := 0 <= b_ldamp b /\ 0 <= b_adamp b.
Lemma damp_ok_apply o b : damp_ok b -> damp_ok (apply o b).
Proof.
  unfold damp_ok. intros H. destruct o.
  1: destruct t.
  all: try (crunch; assumption).
  all: try (crunch; try assumption; match goal with H : rle _ _ = true |- _ => apply rle_true in H end; tauto).
  msteps; unfold set_is_sleeping, is_static, moved, touched; bs; repeat (bcase; bs); assumption.
Qed.

(** Colliders are where their body is. *)
Definition cols_ok (b : body) : Prop := Forall (fun c => c_world c = tr_mul (b_tr b) (c_local c)) (b_cols b).
Lemma cols_ok_apply o b : cols_ok b -> cols_ok (apply o b).
Proof.
  unfold cols_ok. intros H. destruct o.
  1: destruct t.
  all: try (crunch; try assumption; apply Forall_forall; intros c I; apply in_map_iff in I; destruct I as (d & <- & _); reflexivity).
  - crunch. apply Forall_app. split; [assumption |]. now constructor.
  - crunch. apply Forall_forall. intros c I. rewrite Forall_forall in H. apply H. apply in_app_or in I.
    destruct I as [I | I]; [rewrite <- (firstn_skipn k (b_cols b)) | rewrite <- (firstn_skipn (S k) (b_cols b))]; apply in_or_app; tauto.
  - assert (K : Forall (fun c => c_world c = tr_mul (b_tr b) (c_local c)) (b_cols (change_collider k (fun c => Collider (c_volume c) (c_density c) (c_inertia c) t (tr_mul (b_tr b) t)) b))).
    { unfold change_collider. bs. rewrite <- (firstn_skipn k (b_cols b)), Forall_app in H. destruct H as [H1 H2].
      apply Forall_app. split; [assumption |]. destruct (skipn k (b_cols b)); [constructor |]. inversion H2; subst. constructor; [reflexivity | assumption]. }
    crunch; assumption.
  - crunch. rewrite <- (firstn_skipn k (b_cols b)), Forall_app in H. destruct H as [H1 H2].
    apply Forall_app. split; [assumption |]. destruct (skipn k (b_cols b)); [constructor |]. inversion H2; subst. constructor; [assumption | assumption].
  - msteps; unfold set_is_sleeping, is_static, moved, touched; bs; repeat (bcase; bs); try assumption;
    apply Forall_forall; intros c I; apply in_map_iff in I; destruct I as (d & <- & _); reflexivity.
Qed.

(** Everything together, for histories of proper calls. *)
Record body_ok (b : body) : Prop := BodyOk {
  k_mass : mass_ok b; k_com : com_ok b; k_rot : rot_ok b; k_rest : rest_ok b; k_force : force_ok b; k_damp : damp_ok b; k_cols : cols_ok b
}.
Lemma body_ok_apply o b : proper o -> body_ok b -> body_ok (apply o b).
Proof.
  intros P [? ? ? ? ? ? ?]. constructor;
    auto using mass_ok_apply, com_ok_apply, rot_ok_apply, rest_ok_apply, force_ok_apply, damp_ok_apply, cols_ok_apply.
Qed.
Lemma body_ok_run l : Forall proper l -> forall b, body_ok b -> body_ok (run l b).
Proof. induction 1 as [| o l P _ IH]; intros b B; [exact B |]. cbn [run fold_left]. apply IH. now apply body_ok_apply. Qed.
Lemma body_ok_create t : unit_rotation t -> body_ok (create t).
Proof.
  intros U. constructor.
  - unfold mass_ok, create. bs. unfold inverse_mass, inverse_inertia, inverse_or_zero. cbn [vx vy vz]. split.
    + destruct (rlt 0 1) eqn:C; [reflexivity | apply rlt_false in C; lra].
    + destruct (req 1 0) eqn:C; [apply req_true in C; lra |]. now replace (1 / 1) with 1 by field.
  - unfold com_ok, create, tr_point. bs. destruct t as [[x y z] [a b c d]]. unfold quat_vec, vadd, vzero. cbn [t_pos t_rot vx vy vz qx qy qz qw].
    f_equal; ring.
  - exact U.
  - unfold rest_ok, create. bs. discriminate.
  - unfold force_ok, create. bs. tauto.
  - unfold damp_ok, create. bs. lra.
  - constructor.
Qed.
Lemma body_ok_after t l : unit_rotation t -> Forall proper l -> body_ok (after t l).
Proof. intros U P. apply body_ok_run; [exact P |]. now apply body_ok_create. Qed.
(** The invariants that need no proper calls. *)
Lemma mass_ok_after t l : mass_ok (after t l).
Proof.
  assert (G : forall b, mass_ok b -> mass_ok (run l b)).
  { induction l as [| o l IH]; intros b B; [exact B |]. cbn [run fold_left]. apply IH. now apply mass_ok_apply. }
  apply G. unfold mass_ok, create. bs. unfold inverse_mass, inverse_inertia, inverse_or_zero. cbn [vx vy vz]. split.
  - destruct (rlt 0 1) eqn:C; [reflexivity | apply rlt_false in C; lra].
  - destruct (req 1 0) eqn:C; [apply req_true in C; lra |]. now replace (1 / 1) with 1 by field.
Qed.
Lemma com_ok_after t l : com_ok (after t l).
Proof.
  assert (G : forall b, com_ok b -> com_ok (run l b)).
  { induction l as [| o l IH]; intros b B; [exact B |]. cbn [run fold_left]. apply IH. now apply com_ok_apply. }
  apply G. unfold com_ok, create, tr_point. bs. destruct t as [[x y z] [a b c d]]. unfold quat_vec, vadd, vzero. cbn [t_pos t_rot vx vy vz qx qy qz qw].
  f_equal; ring.
Qed.
