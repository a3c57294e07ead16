(** Energy, limits, motors and angles of joints (C110-C113). *)
From Coq Require Import List Reals Lra Psatz Bool Arith ZArith.
From Verif Require Import VecModel VecProofs LinAlgProperties ContactModel ContactSpec ContactProofs ContactLawProofs ContactBounceProofs ContactLawProperties.
From Verif Require Import JointModel JointSpec JointProofs JointLawProofs JointSolveProofs JointDriveProofs JointEnergyProofs JointRestProofs JointAngleProofs JointProperties.
Import ListNotations.
Local Open Scope R_scope.

(** ** C110: joints take energy away *)
(** A joint as created, without motor and without position correction in the velocities, whose bodies have meaningful masses and inertias.
    For joints that hold orientations the inertias must not be too large; a slider with limits must know the arm of its second body, which
    the code takes from the update before. *)
Definition inert (eps : R) (env : jbodies) (bodies : list nat) (st : velocities) (j : joint) : Prop :=
  let l := link_of j in
  unused j /\ passive j /\ l_b1 l <> l_b2 l /\
  (forall b, b = l_b1 l \/ b = l_b2 l -> standing (rigids env) bodies st b /\ positive (r_iw (jb (env b))) /\ 0 <= r_im (jb (env b))) /\
  match j with
  | JFixed _ _ | JSlider _ _ =>
      (jb_dynamic (env (l_b1 l)) = true \/ jb_dynamic (env (l_b2 l)) = true) /\ eps < Rabs (mat_det (mat_add (r_iw (jb (env (l_b1 l)))) (r_iw (jb (env (l_b2 l))))))
  | _ => True
  end /\
  match j with
  | JSlider j m => vlen2 (slider_axis env j) = 1 /\
      (sl_limit j = false \/ sm_r2a m = vcross (vsub (anchor2 env l) (r_x (jb (env (l_b2 l))))) (slider_axis env j))
  | _ => True
  end.
Theorem C110_energy_partial : forall eps dt n env inertia bodies js st, 0 <= eps <= 1 ->
  known (rigids env) inertia bodies -> (forall j, In j js -> inert eps env bodies st j) ->
  energy (rigids env) inertia bodies (snd (joints_step eps dt n env js st)) <= energy (rigids env) inertia bodies st.
Proof.
  intros eps dt n env inertia bodies js st He [N K] H. apply step_energy; try assumption. intros j Hj. destruct (H j Hj) as (U & P & D & B & F & S).
  destruct (B _ (or_introl eq_refl)) as (Q1 & P1 & M1), (B _ (or_intror eq_refl)) as (Q2 & P2 & M2).
  split; [exact U |]. split; [exact P |]. split; [| split; [split; [exact P1 | split; [exact P2 | unfold sum_mass; lra]] | split; [exact D | split; [exact Q1 | exact Q2]]]].
  destruct j as [j m | j m | j m | j m]; cbn [firm link_of] in *; try exact I.
  - destruct F as [F1 F2]. split; [unfold any_dynamic; now apply orb_true_iff | exact F2].
  - destruct F as [F1 F2]. split; [unfold any_dynamic; now apply orb_true_iff |]. split; [exact F2 |]. destruct S as [S1 S2]. split; [exact S1 |]. destruct S2 as [S2 | S2]; [now left | right]. rewrite S2. f_equal.
    unfold anchor2, place, arm2, arm. generalize (r_x (jb (env (l_b2 (sl_link j))))), (quat_vec (jb_q (env (l_b2 (sl_link j)))) (vsub (l_p2 (sl_link j)) (jb_com (env (l_b2 (sl_link j)))))). vsolve.
Qed.
Print Assumptions C110_energy_partial.
Definition welded : joint := JFixed (Fixed (Link 0 1 vzero vzero false) (Q4 0 0 0 1)) (FixedMem vzero vzero).
Example C110_not_vacuous : known (rigids stacked) (fun _ => mat_id) [0%nat; 1%nat] /\ inert (/ 8388608) stacked [0%nat; 1%nat] leaving welded /\
  0 < energy (rigids stacked) (fun _ => mat_id) [0%nat; 1%nat] leaving.
Proof.
  split; [exact stacked_known |]. split.
  - split; [now split |]. split; [now split |]. split; [discriminate |]. split; [| split; [| exact I]].
    + intros b Hb. split; [left; destruct Hb as [-> | ->]; cbn; auto |]. split; [exact id_positive | cbn; lra].
    + split; [now left |]. replace (mat_det _) with 8; [rewrite Rabs_right; lra |]. unfold mat_det, mat_add, stacked, cube, mat_id, mk_mat. cbn. ring.
  - unfold energy, rtotal, mass, rigids, stacked, cube, leaving. cbn. unfold vdot, vlen2, mat_vec, mat_id, mk_mat, vzero, vdot. cbn. lra.
Qed.
(** Two beams of two tonnes, thin: easy to turn about the z axis only.  Welded together, with the second one turning about that axis. *)
Definition beam_inverse : mat3 := mk_mat (/ 20000) 0 0 0 (/ 20000) 0 0 0 2.
Definition beam_inertia : mat3 := mk_mat 20000 0 0 0 20000 0 0 0 (/ 2).
Definition beams : jbodies := fun _ => JBody (Rigid (/ 2000) beam_inverse (V3 1 1 1) (V3 1 1 1) vzero vzero vzero) true (Q4 0 0 0 1) vzero.
Definition twisting : velocities := fun b => match b with 1%nat => Vel vzero (V3 0 0 1) vzero vzero | _ => Vel vzero vzero vzero vzero end.
Lemma beams_known : known (rigids beams) (fun _ => beam_inertia) [0%nat; 1%nat].
Proof.
  split; [repeat constructor; cbn; intuition discriminate |]. intros i _. cbn [rigids beams jb r_im r_ll r_al r_iw]. unfold rigids, beams. cbn [jb].
  split; [cbn; lra |]. split; [split; reflexivity |]. split; [reflexivity |]. unfold mat_mul, beam_inertia, beam_inverse, mat_id, mk_mat. cbn. f_equal; f_equal; field.
Qed.
Lemma beams_step : forall b, snd (joints_step (/ 8388608) 1 1 beams [welded] twisting) b =
  match b with 0%nat => Vel vzero (V3 0 0 8) vzero vzero | 1%nat => Vel vzero (V3 0 0 (-7)) vzero vzero | _ => Vel vzero vzero vzero vzero end.
Proof.
  intros b. unfold joints_step. cbn [map].
  assert (O : Forall2 (of_joint (/ 8388608) 1 beams) [welded] [init_joint (/ 8388608) 1 beams welded]) by (constructor; [apply init_of_joint | constructor]).
  assert (V : Forall (fun r => unused (keep_joint r)) [init_joint (/ 8388608) 1 beams welded]) by (constructor; [apply idle_init; cbn; auto 7 | constructor]).
  rewrite (idle_warms (/ 8388608) 1 beams twisting _ _ O V). clear O V. cbn [iterate_joints solve_joints]. unfold welded. cbn [init_joint fixed_init]. unfold solve_joint, fixed_solve. cbn [fx_link fd_r1 fd_r2 fd_bias fd_rinv fd_rbias fd_inv].
  set (l := Link 0 1 vzero vzero false). unfold translation_bias, rotation_bias. cbn [l_baumgarte l].
  assert (A : arm1 beams l = vzero /\ arm2 beams l = vzero) by (unfold arm1, arm2, arm, beams, quat_vec, vsub, vzero; cbn; split; f_equal; ring). destruct A as [-> ->].
  rewrite idle_translation by (unfold rel, relative, twisting; cbn; unfold vsub, vadd, vcross, vzero; cbn; f_equal; ring).
  unfold invert_rotation.
  destruct (rlt (/ 8388608) (Rabs (mat_det (mat_add (i1_of beams l) (i2_of beams l))))) eqn:E.
  { apply rlt_true in E. exfalso. revert E. unfold i1_of, i2_of, beams. cbn [jb r_iw]. replace (mat_det _) with (4 / 100000000); [rewrite Rabs_right; lra |].
    unfold mat_det, mat_add, beam_inverse, mk_mat. cbn. field. }
  unfold rotation_step, i1_of, i2_of, push_ang, shift_c, beams, twisting. cbn [jb r_iw r_al l_b1 l_b2 l fst snd].
  destruct b as [| [| b]]; cbn [Nat.eqb cv cw sv sw]; unfold vmul, vadd, vsub, vneg, mat_vec, mat_add, beam_inverse, mk_mat, vdot, vzero; cbn; try reflexivity; f_equal; f_equal; field.
Qed.
Theorem C110_beams_refuted : known (rigids beams) (fun _ => beam_inertia) [0%nat; 1%nat] /\ unused welded /\ passive welded /\
  anchor1 beams (link_of welded) = anchor2 beams (link_of welded) /\
  energy (rigids beams) (fun _ => beam_inertia) [0%nat; 1%nat] (snd (joints_step (/ 8388608) 1 1 beams [welded] twisting)) =
  113 * energy (rigids beams) (fun _ => beam_inertia) [0%nat; 1%nat] twisting /\
  energy (rigids beams) (fun _ => beam_inertia) [0%nat; 1%nat] twisting = / 4.
Proof.
  split; [exact beams_known |]. split; [now split |]. split; [now split |]. split; [reflexivity |]. unfold energy, rtotal. rewrite !beams_step.
  unfold mass, rigids, beams, twisting. cbn. unfold vlen2, vdot, mat_vec, beam_inertia, mk_mat, vdot, vzero. cbn. split; field.
Qed.
Print Assumptions C110_beams_refuted.
(** A small body on the end of a long one, at the lower limit of a slider along the x axis and moving on: the first update. *)
Definition lever : jbodies := fun b => match b with
  | 0%nat => JBody (Rigid 1 (mk_mat 999 0 0 0 999 0 0 0 999) (V3 1 1 1) (V3 1 1 1) vzero vzero vzero) true (Q4 0 0 0 1) vzero
  | _ => JBody (Rigid 1 mat_id (V3 1 1 1) (V3 1 1 1) (V3 0 (-2) 0) vzero vzero) true (Q4 0 0 0 1) vzero end.
Definition lever_inertia : nat -> mat3 := fun b => match b with 0%nat => mk_mat (/ 999) 0 0 0 (/ 999) 0 0 0 (/ 999) | _ => mat_id end.
Definition bounded_slider : slider := Slider (Link 0 1 vzero (V3 0 2 0) false) (V3 1 0 0) (Q4 0 0 0 1) true 0 1 false 0 0.
Definition new_slider : slider_mem := SliderMem (0, 0) vzero 0 0 0 false false vzero.
Definition retracting : velocities := fun b => match b with 1%nat => Vel (V3 (-1) 0 0) vzero vzero vzero | _ => Vel vzero vzero vzero vzero end.
Definition whirling : velocities := fun b => match b with
  | 0%nat => Vel (V3 (- / 2) 0 0) (V3 0 0 (- 999 / 1000)) vzero vzero | 1%nat => Vel (V3 (- / 2) 0 0) (V3 0 0 (- 999 / 1000)) vzero vzero | _ => Vel vzero vzero vzero vzero end.
Lemma lever_known : known (rigids lever) lever_inertia [0%nat; 1%nat].
Proof.
  split; [repeat constructor; cbn; intuition discriminate |]. intros i _. unfold rigids. split; [destruct i; cbn; lra |].
  split; [destruct i; split; reflexivity |]. split; [destruct i; reflexivity |]. destruct i as [| i]; cbn [lever lever_inertia jb r_iw]; unfold mat_mul, mat_id, mk_mat; cbn; f_equal; f_equal; field.
Qed.
Lemma lever_data : let r := slider_init (/ 8388608) 1 lever bounded_slider new_slider in
  sd_axis (fst r) = V3 1 0 0 /\ sd_r1a (fst r) = vzero /\ sd_r2a (fst r) = V3 0 0 (-2) /\ sd_linv (fst r) = / 2 /\ sd_lbias (fst r) = 0 /\ sd_rbias (fst r) = vzero /\
  sm_lviol (snd r) = true /\ sm_uviol (snd r) = false /\ sm_low (snd r) = 0 /\
  sd_rinv (fst r) = mk_mat (/ 1000) 0 0 0 (/ 1000) 0 0 0 (/ 1000).
Proof.
  cbv zeta. unfold bounded_slider. cbn [slider_init fst snd sl_link sd_axis sd_r1a sd_r2a sd_linv sd_lbias sd_rbias sm_lviol sm_uviol sm_low l_baumgarte sl_lower sl_upper sd_rinv sl_axis new_slider sm_r2a l_b1].
  set (l := Link 0 1 vzero (V3 0 2 0) false).
  assert (A1 : arm1 lever l = vzero) by (unfold arm1, arm, lever, quat_vec, vsub, vzero; cbn; f_equal; ring).
  assert (A2 : arm2 lever l = V3 0 2 0) by (unfold arm2, arm, lever, quat_vec, vsub, vzero; cbn; f_equal; ring).
  assert (G : gap lever l vzero (V3 0 2 0) = vzero) by (unfold gap, lever, vadd, vsub, vzero; cbn; f_equal; ring).
  assert (Ax : vnormalize (/ 8388608) (quat_vec (jb_q (lever 0%nat)) (V3 1 0 0)) = V3 1 0 0).
  { replace (quat_vec (jb_q (lever 0%nat)) (V3 1 0 0)) with (V3 1 0 0) by (unfold lever, quat_vec; cbn; f_equal; ring). apply vnormalize_unit; [unfold vlen2; cbn; ring | lra]. }
  rewrite A1, A2, G, Ax. split; [reflexivity |].
  assert (Z : vcross (vadd vzero vzero) (V3 1 0 0) = vzero) by (unfold vcross, vadd, vzero; cbn; f_equal; ring). rewrite Z. split; [reflexivity |].
  split; [unfold vcross; cbn; f_equal; ring |]. assert (U : vdot vzero (V3 1 0 0) = 0) by (unfold vdot, vzero; cbn; ring). rewrite U.
  split. { unfold inverse_if_positive, sum_mass. match goal with |- context [rlt 0 ?x] => replace x with 2 by (unfold lever, vdot, mat_vec, vdot, i1_of, i2_of, vzero; cbn; ring) end. destruct (rlt 0 2) eqn:F; [field | apply rlt_false in F; lra]. }
  split; [reflexivity |]. split; [reflexivity |].
  split; [destruct (rle (0 - 0) 0) eqn:F; [reflexivity | apply rle_false in F; lra] |].
  split; [destruct (rle (1 - 0) 0) eqn:F; [apply rle_true in F; lra | reflexivity] |].
  split; [unfold limit_start; destruct (_ || _); reflexivity |].
  assert (K : mat_add (i1_of lever l) (i2_of lever l) = mk_mat 1000 0 0 0 1000 0 0 0 1000) by (unfold mat_add, i1_of, i2_of, lever, mat_id, mk_mat, vadd; cbn; f_equal; f_equal; ring).
  rewrite K. assert (D : mat_det (mk_mat 1000 0 0 0 1000 0 0 0 1000) = 1000000000) by (unfold mat_det, mk_mat; cbn; ring). unfold invert_rotation. rewrite D.
  destruct (rlt _ _) eqn:F; [| apply rlt_false in F; rewrite Rabs_right in F; lra]. cbn [any_dynamic lever l l_b1 l_b2 jb_dynamic orb]. unfold mat_inverse_det, mat_scale, mk_mat, vscale. cbn. f_equal; f_equal; field.
Qed.
Lemma lever_step : forall b, snd (joints_step (/ 8388608) 1 1 lever [JSlider bounded_slider new_slider] retracting) b = whirling b.
Proof.
  intros b. unfold joints_step. cbn [map].
  assert (O : Forall2 (of_joint (/ 8388608) 1 lever) [JSlider bounded_slider new_slider] [init_joint (/ 8388608) 1 lever (JSlider bounded_slider new_slider)]) by (constructor; [apply init_of_joint | constructor]).
  assert (V : Forall (fun r => unused (keep_joint r)) [init_joint (/ 8388608) 1 lever (JSlider bounded_slider new_slider)]) by (constructor; [apply idle_init; cbn; auto 7 | constructor]).
  rewrite (idle_warms (/ 8388608) 1 lever retracting _ _ O V). clear O V. cbn [iterate_joints solve_joints init_joint]. assert (D := lever_data).
  assert (Sl := slider_slides (/ 8388608) 1 lever bounded_slider new_slider).
  assert (St : straight lever bounded_slider) by (split; [unfold unit_quat; cbn; ring | unfold vlen2; cbn; ring]).
  destruct (slider_frame (/ 8388608) 1 lever bounded_slider new_slider) as (_ & F & _); [lra | exact St |].
  assert (Bi : sd_bias (fst (slider_init (/ 8388608) 1 lever bounded_slider new_slider)) = (0, 0)) by reflexivity.
  destruct (slider_init (/ 8388608) 1 lever bounded_slider new_slider) as [d m]. cbn [fst snd] in *. destruct D as (D1 & D2 & D3 & D4 & D5 & D6 & D7 & D8 & D9 & D10).
  unfold solve_joint, slider_solve, slider_lower, slider_upper, slider_drive. rewrite D7, D8. cbn [bounded_slider sl_limit andb sl_motor sl_link l_b1 l_b2].
  unfold slider_speed. rewrite D1, D2, D3, D4, D5, D9. cbn [l_b1 l_b2].
  replace (Rmax _ 0) with (/ 2) by (rewrite Rmax_left; unfold vdot, retracting; cbn; unfold vzero; cbn; lra).
  unfold rotation_step. cbn [l_b1 l_b2]. rewrite D6, D10.
  set (s1 := push lever 1 _ _ _).
  assert (S1 : forall i, s1 i = match i with 0%nat => Vel (V3 (- / 2) 0 0) vzero vzero vzero | 1%nat => Vel (V3 (- / 2) 0 0) (V3 0 0 (-1)) vzero vzero | _ => Vel vzero vzero vzero vzero end).
  { intros [| [| i]]; unfold s1, push, shift_c, lever, retracting; cbn [Nat.eqb jb r_im r_ll r_al r_iw cv cw sv sw]; unfold vmul, vscale, vadd, vzero, mat_vec, mat_id, mk_mat, vdot; cbn; try reflexivity; f_equal; f_equal; field. }
  clearbody s1. set (s2 := push_ang lever 1 _ _).
  assert (S2 : forall i, s2 i = whirling i).
  { intros [| [| i]]; unfold s2, push_ang, shift_c, lever; cbn [Nat.eqb jb r_im r_ll r_al r_iw]; rewrite !S1; unfold whirling; cbn [cv cw sv sw]; unfold vmul, vscale, vadd, vsub, vneg, vzero, mat_vec, mat_id, mk_mat, vdot; cbn; try reflexivity; f_equal; f_equal; field. }
  clearbody s2.
  assert (Rl : rel (sl_link bounded_slider) (offset1 lever bounded_slider) (arm2 lever (sl_link bounded_slider)) s2 = vscale (1998 / 1000) (V3 1 0 0)).
  { assert (A2 : arm2 lever (sl_link bounded_slider) = V3 0 2 0) by (unfold arm2, arm, lever, quat_vec, vsub, vzero; cbn; f_equal; ring).
    assert (A1 : offset1 lever bounded_slider = vzero) by (unfold offset1, gap, arm1, arm2, arm, lever, quat_vec, vadd, vsub, vzero; cbn; f_equal; ring).
    unfold rel. rewrite A1, A2. cbn [sl_link bounded_slider l_b1 l_b2]. rewrite !S2. unfold relative, whirling. cbn [cv cw]. unfold vsub, vadd, vcross, vzero, vscale. cbn. f_equal; field. }
  change (Link 0 1 vzero (V3 0 2 0) false) with (sl_link bounded_slider). fold bounded_slider.
  destruct F as (_ & _ & _ & F4 & F5 & _). rewrite D1 in F4, F5. rewrite idle_slide; [apply S2 | exact Sl | rewrite Rl, vdot_vscale_r, F4; ring | rewrite Rl, vdot_vscale_r, F5; ring | exact Bi].
Qed.
Theorem C110_limit_refuted : let j := JSlider bounded_slider new_slider in known (rigids lever) lever_inertia [0%nat; 1%nat] /\ unused j /\ passive j /\
  anchor1 lever (link_of j) = anchor2 lever (link_of j) /\
  energy (rigids lever) lever_inertia [0%nat; 1%nat] retracting <
  energy (rigids lever) lever_inertia [0%nat; 1%nat] (snd (joints_step (/ 8388608) 1 1 lever [j] retracting)).
Proof.
  cbv zeta. split; [exact lever_known |]. split; [cbn; auto 7 |]. split; [split; [reflexivity | now split] |]. split; [unfold anchor1, anchor2, place, lever; cbn; unfold quat_vec, vadd, vsub, vzero; cbn; f_equal; ring |].
  unfold energy, rtotal. rewrite !lever_step. unfold mass, rigids, lever, retracting, whirling, lever_inertia. cbn. unfold vlen2, vdot, mat_vec, mat_id, mk_mat, vdot, vzero. cbn. lra.
Qed.
Print Assumptions C110_limit_refuted.

(** ** C111: limits push inwards only, motors stay within their maximum *)
Theorem C111_limits : forall eps us js u, eps <= 1 -> 0 < u_dt u -> (forall j, In j js -> unused j) ->
  let l := live eps us js in
  Forall2 (pushes_inwards (u_dt u) (u_env u)) l (fst (joints_step eps (u_dt u) (u_n u) (u_env u) l (u_st u))).
Proof.
  intros eps us js u He Hd H l.
  assert (A : Forall sane l /\ Forall motor_idle l).
  { assert (B : Forall sane js /\ Forall motor_idle js).
    { split; apply Forall_forall; intros j Hj; specialize (H j Hj); destruct j; cbn in *; decompose [and] H; repeat match goal with E : _ = 0 |- _ => rewrite E end; try lra; auto. }
    unfold l. clear l H. revert js B. induction us as [| a us IH]; intros js [B C]; cbn [live]; [now split |]. apply IH. split; [now apply step_sane | now apply step_motor_idle]. }
  destruct A as [A B]. clearbody l. clear H js us. destruct u as [dt n env st]. cbn [u_dt u_n u_env u_st] in *.
  assert (C := step_lawful eps dt env n l st A). assert (D := step_motor_idle eps dt env n l st B). revert C D. generalize (fst (joints_step eps dt n env l st)). clear - He Hd.
  intros rs C D. induction C as [| j r js rs [O L] C IH]; [constructor |]. cbn [map] in D. inversion D; subst. constructor; [now apply (inwards eps) | now apply IH].
Qed.
Print Assumptions C111_limits.
Theorem C111_motor : forall eps dt n env js st r, 0 < dt -> In r (fst (joints_step eps dt (S n) env js st)) ->
  motor_on (keep_joint r) = true -> 0 <= motor_max (keep_joint r) -> - motor_max (keep_joint r) <= motor_effort dt r <= motor_max (keep_joint r).
Proof. intros. now apply (motor_bounded eps dt env n js st). Qed.
Print Assumptions C111_motor.
(** The slider above is at its lower limit and gets a positive force. *)
Example C111_not_vacuous : unused (JSlider bounded_slider new_slider) /\ vlen2 (slider_axis lever bounded_slider) = 1 /\ sl_motor bounded_slider = false /\
  extension lever bounded_slider < sl_upper bounded_slider /\ motor_on driven = true /\ 0 <= motor_max driven.
Proof.
  split; [cbn; auto 7 |]. split; [unfold vlen2, slider_axis, lever, quat_vec; cbn; ring |]. split; [reflexivity |].
  split; [unfold extension, anchor1, anchor2, place, slider_axis, lever, quat_vec, vdot, vadd, vsub, vzero; cbn; lra |]. split; [reflexivity | cbn; lra].
Qed.

(** ** C112: motors *)
(** The motor brought the speed to the wanted one, or uses all its force and has not brought it beyond. *)
Definition motor_reached (wanted most effort speed : R) : Prop :=
  speed = wanted \/ (effort = most /\ wanted <= speed) \/ (effort = - most /\ speed <= wanted).
Theorem C112_slider_partial : forall eps dt n env js j m st, eps <= 1 -> 0 < dt -> let l := sl_link j in
  holdable env l -> 0 < sum_inverse env l -> unit_quat (jb_q (env (l_b1 l))) -> vlen2 (sl_axis j) = 1 -> sl_motor j = true -> 0 <= sl_force j ->
  let res := joints_step eps dt (S n) env (js ++ [JSlider j m]) st in
  exists r, last (fst res) r = r /\ In r (fst res) /\ (exists m', keep_joint r = JSlider j m') /\
    motor_reached (sl_speed j) (sl_force j) (motor_effort dt r) (vdot (slider_axis env j) (vsub (cv (snd res (l_b2 l))) (cv (snd res (l_b1 l))))).
Proof.
  intros eps dt n env js j m st He Hd l H M U A On F res. destruct (holdable_loose env _ H) as (Lo & _ & _).
  destruct (slider_motor_last eps dt env j m n js st He (conj U A) Lo M On) as (pre & d & m' & E & B & S); [nra |]. fold res in E, S.
  exists (RSlider j d m'). rewrite E. split; [apply last_last |]. split; [apply in_or_app; right; now left |]. split; [now exists m' |]. cbn [motor_effort]. unfold motor_reached. unfold speed_of, along in S. fold l in S.
  destruct S as [S | [[S T] | [S T]]]; [now left | right; left | right; right]; (split; [rewrite S; field; lra | exact T]).
Qed.
Print Assumptions C112_slider_partial.
Example C112_not_vacuous : exists j m, driven = JSlider j m /\ holdable stacked (sl_link j) /\ 0 < sum_inverse stacked (sl_link j) /\ vlen2 (sl_axis j) = 1 /\ sl_motor j = true /\ sl_speed j = 1.
Proof.
  do 2 eexists. split; [reflexivity |]. cbn [sl_link sl_axis sl_motor sl_speed]. split; [apply stacked_holdable; discriminate |]. split; [unfold sum_inverse; cbn; lra |].
  split; [unfold vlen2; cbn; ring | split; reflexivity].
Qed.
(** Two cubes at the same place, hinged at their centres about the z axis, at rest; the motor is to turn them at speed 1. *)
Definition twins : jbodies := fun _ => cube vzero.
Definition wheel (torque : R) : hinge := Hinge (Link 0 1 vzero vzero false) (V3 0 0 1) (V3 0 0 1) (Q4 0 0 0 1) false (-1) 1 true 1 torque.
Definition new_hinge : hinge_mem := HingeMem vzero (0, 0) 0 0 0 false false.
Definition spun (w : R) : velocities := fun b => match b with 0%nat => Vel vzero (V3 0 0 (- w)) vzero vzero | 1%nat => Vel vzero (V3 0 0 w) vzero vzero | _ => Vel vzero vzero vzero vzero end.
Lemma wheel_data torque : let d := fst (hinge_init (/ 8388608) 1 twins (wheel torque) new_hinge) in
  hd_r1 d = vzero /\ hd_r2 d = vzero /\ hd_a1 d = V3 0 0 1 /\ hd_minv d = / 2 /\ hd_bias d = vzero /\ hd_rbias d = (0, 0) /\ vdot (hd_b d) (hd_a1 d) = 0 /\ vdot (hd_c d) (hd_a1 d) = 0.
Proof.
  cbv zeta. unfold wheel. cbn [hinge_init fst hd_r1 hd_r2 hd_a1 hd_minv hd_bias hd_rbias hd_b hd_c hg_link hg_a1 hg_a2 l_b1 l_b2]. set (l := Link 0 1 vzero vzero false).
  assert (A1 : arm1 twins l = vzero) by (unfold arm1, arm, twins, cube, quat_vec, vsub, vzero; cbn; f_equal; ring).
  assert (A2 : arm2 twins l = vzero) by (unfold arm2, arm, twins, cube, quat_vec, vsub, vzero; cbn; f_equal; ring).
  assert (Ax : vnormalize (/ 8388608) (quat_vec (jb_q (twins 0%nat)) (V3 0 0 1)) = V3 0 0 1).
  { replace (quat_vec (jb_q (twins 0%nat)) (V3 0 0 1)) with (V3 0 0 1) by (unfold twins, cube, quat_vec; cbn; f_equal; ring). apply vnormalize_unit; [unfold vlen2; cbn; ring | lra]. }
  rewrite A1, A2, Ax. split; [reflexivity |]. split; [reflexivity |]. split; [reflexivity |].
  split. { unfold inverse_if_positive. match goal with |- context [rlt 0 ?x] => replace x with 2 by (unfold twins, cube, vdot, mat_vec, vdot, i1_of, i2_of, mat_id, mk_mat; cbn; ring) end. destruct (rlt 0 2) eqn:F; [field | apply rlt_false in F; lra]. }
  split; [reflexivity |]. split; [reflexivity |]. generalize (orthogonal_unit (vnormalize (/ 8388608) (quat_vec (jb_q (twins 1%nat)) (V3 0 0 1)))), (vnormalize (/ 8388608) (quat_vec (jb_q (twins 1%nat)) (V3 0 0 1))).
  intros b c. generalize (vcross c b). intros e. destruct b, e. unfold vdot, vcross. cbn. split; ring.
Qed.
Lemma wheel_solve torque d m w : d = fst (hinge_init (/ 8388608) 1 twins (wheel torque) new_hinge) -> hm_motor m = w -> w <= 0 -> - torque <= 2 * w - / 2 ->
  forall s, (forall b, s b = spun w b) ->
  exists m', solve_joint 1 twins (RHinge (wheel torque) d m) s = (RHinge (wheel torque) d m', snd (solve_joint 1 twins (RHinge (wheel torque) d m) s)) /\
  hm_motor m' = 2 * w - / 2 /\ forall b, snd (solve_joint 1 twins (RHinge (wheel torque) d m) s) b = spun (2 * w - / 2) b.
Proof.
  intros Ed Hm Hw Ht s S. assert (D := wheel_data torque). cbv zeta in D. rewrite <- Ed in D. clear Ed. destruct D as (D1 & D2 & D3 & D4 & D5 & D6 & D7 & D8). rewrite D3 in D7, D8.
  unfold solve_joint, hinge_solve, hinge_lower, hinge_upper. cbn [wheel hg_limit andb]. unfold hinge_drive. cbn [wheel hg_motor hg_link l_b1 l_b2 hg_speed hg_torque]. rewrite D3, D4, Hm.
  replace (clamp_sym _ _) with (2 * w - / 2).
  2: { rewrite !S. unfold spun. cbn [cw]. replace (vdot _ _) with (- 2 * w) by (unfold vdot, vsub; cbn; ring). unfold clamp_sym. rewrite Rmax_left, Rmin_left; lra. }
  set (s1 := push_ang twins 1 _ _).
  assert (S1 : forall b, s1 b = spun (2 * w - / 2) b).
  { intros [| [| i]]; unfold s1, push_ang, shift_c, twins, cube; cbn [Nat.eqb jb r_im r_ll r_al r_iw]; rewrite !S; unfold spun; cbn [cv cw sv sw]; unfold vmul, vscale, vadd, vsub, vneg, vzero, mat_vec, mat_id, mk_mat, vdot; cbn; try reflexivity; f_equal; f_equal; field. }
  clearbody s1.
  assert (T : turn (hg_link (wheel torque)) s1 = vscale (2 * (2 * w - / 2)) (V3 0 0 1)) by (unfold turn; cbn [hg_link wheel l_b1 l_b2]; rewrite !S1; unfold spun, vsub, vscale; cbn; f_equal; ring).
  fold (wheel torque). rewrite (idle_turn twins s1 (wheel torque) d); [| rewrite T, vdot_vscale_r, D7; ring | rewrite T, vdot_vscale_r, D8; ring | exact D6]. cbn [fst snd]. rewrite D1, D2, D5.
  change (Link 0 1 vzero vzero false) with (hg_link (wheel torque)). rewrite idle_translation.
  - cbn [fst snd]. eexists. split; [reflexivity |]. split; [reflexivity | exact S1].
  - unfold rel. cbn [hg_link wheel l_b1 l_b2]. rewrite !S1. unfold relative, spun. cbn [cv cw]. unfold vsub, vadd, vcross, vzero. cbn. f_equal; ring.
Qed.
Lemma wheel_iterate torque n : forall d m w s, d = fst (hinge_init (/ 8388608) 1 twins (wheel torque) new_hinge) -> hm_motor m = w -> w <= 0 ->
  - torque <= / 2 - (/ 2 - w) * 2 ^ n -> (forall b, s b = spun w b) ->
  forall b, snd (iterate_joints n 1 twins [RHinge (wheel torque) d m] s) b = spun (/ 2 - (/ 2 - w) * 2 ^ n) b.
Proof.
  induction n as [| n IH]; intros d m w s Ed Hm Hw Ht S b; cbn [iterate_joints solve_joints]; [cbn [snd]; rewrite S; f_equal; cbn; ring |].
  assert (P : 1 <= 2 ^ n) by (apply pow_R1_Rle; lra). cbn [pow] in Ht.
  destruct (wheel_solve torque d m w Ed Hm) with (s := s) as (m' & E & Hm' & S'); [lra | nra | exact S |]. rewrite E. cbn [solve_joints fst snd].
  rewrite (IH d m' (2 * w - / 2)); [f_equal; cbn [pow]; field | exact Ed | exact Hm' | lra | nra | exact S'].
Qed.
Theorem C112_hinge_refuted : holdable twins (hg_link (wheel 1)) /\ forall n torque, 2 ^ n <= torque ->
  let st' := snd (joints_step (/ 8388608) 1 n twins [JHinge (wheel torque) new_hinge] at_peace) in
  vdot (hinge_axis twins (wheel torque)) (vsub (cw (st' 1%nat)) (cw (st' 0%nat))) = 1 - 2 ^ n.
Proof.
  split; [split; [discriminate |]; split; [now left |]; intros b _; split; [left; now split | exact id_positive] |]. intros n torque Ht st'.
  assert (E : forall b, st' b = spun (/ 2 - (/ 2 - 0) * 2 ^ n) b).
  { intros b. unfold st', joints_step. cbn [map].
    assert (O : Forall2 (of_joint (/ 8388608) 1 twins) [JHinge (wheel torque) new_hinge] [init_joint (/ 8388608) 1 twins (JHinge (wheel torque) new_hinge)]) by (constructor; [apply init_of_joint | constructor]).
    assert (V : Forall (fun r => unused (keep_joint r)) [init_joint (/ 8388608) 1 twins (JHinge (wheel torque) new_hinge)]) by (constructor; [apply idle_init; cbn; auto 7 | constructor]).
    rewrite (idle_warms (/ 8388608) 1 twins at_peace _ _ O V). clear O V. cbn [init_joint].
    assert (Mo : hm_motor (snd (hinge_init (/ 8388608) 1 twins (wheel torque) new_hinge)) = 0) by reflexivity.
    rewrite (surjective_pairing (hinge_init (/ 8388608) 1 twins (wheel torque) new_hinge)). apply wheel_iterate; [reflexivity | exact Mo | lra | assert (0 < 2 ^ n) by (apply pow_lt; lra); lra |].
    intros [| [| i]]; unfold at_peace, spun; [rewrite Ropp_0 | |]; reflexivity. }
  rewrite !E. unfold spun, hinge_axis, twins, cube, wheel. cbn [cw]. unfold vdot, vsub, quat_vec. cbn. field.
Qed.
Print Assumptions C112_hinge_refuted.

(** ** C113: the angle of a hinge *)
Theorem C113_normal : forall x, - PI <= normalized_angle x <= PI /\ exists k, normalized_angle x = x + 2 * PI * IZR k.
Proof. exact normalized_range. Qed.
Print Assumptions C113_normal.
(** An angle that some number of full turns brings between the limits is brought there. *)
Theorem C113_near_limits : forall a lower upper k, - PI <= a <= PI -> - (2 * PI) <= lower <= 0 -> 0 <= upper <= 2 * PI -> lower < upper -> upper - lower < 2 * PI ->
  lower <= a + 2 * PI * IZR k <= upper ->
  lower <= angle_near_limits a lower upper <= upper /\ exists i, angle_near_limits a lower upper = a + 2 * PI * IZR i.
Proof.
  intros a lower upper k Ha Hl Hu Lu W K. split; [now apply (near_inside a lower upper k) |]. destruct (near_choice a lower upper) as [-> | [-> | ->]]; [exists 0%Z | exists (-1)%Z | exists 1%Z]; lra.
Qed.
Print Assumptions C113_near_limits.
(** The bodies had the orientations [q1] and [q2] when the hinge was made; since then both were turned by [g] and the second, in addition, by
    [t] about the axis.  Either of the two quaternions of an orientation may be given.  The turn [g] must leave the first relative orientation alone. *)
Theorem C113_angle_partial : forall q1 q2 g a t s lower upper, unit_quat q1 -> unit_quat q2 -> unit_quat g -> vlen2 a = 1 -> - PI < t <= PI -> s = 1 \/ s = -1 ->
  quat_mul g (quat_mul q2 (quat_inverse q1)) = quat_mul (quat_mul q2 (quat_inverse q1)) g ->
  let q2' := quat_mul (Q4 (sin (t / 2) * vx a) (sin (t / 2) * vy a) (sin (t / 2) * vz a) (cos (t / 2))) (quat_mul g q2) in
  hinge_angle (quat_mul g q1) (Q4 (s * qx q2') (s * qy q2') (s * qz q2') (s * qw q2')) (hinge_difference q1 q2) a lower upper = angle_near_limits t lower upper.
Proof. intros. now apply hinge_reads. Qed.
Print Assumptions C113_angle_partial.
(** In particular bodies made with the same orientation may be turned anyhow. *)
Theorem C113_same_orientation_partial : forall q g a t lower upper, unit_quat q -> unit_quat g -> vlen2 a = 1 -> - PI < t <= PI -> lower <= t <= upper ->
  hinge_angle (quat_mul g q) (quat_mul (Q4 (sin (t / 2) * vx a) (sin (t / 2) * vy a) (sin (t / 2) * vz a) (cos (t / 2))) (quat_mul g q)) (hinge_difference q q) a lower upper = t.
Proof.
  intros q g a t lower upper U Ug Ha Ht L. assert (H := hinge_reads q q g a t 1 lower upper U U Ug Ha Ht (or_introl eq_refl)). rewrite near_kept in H by exact L.
  assert (Q1 : forall x, qscale 1 x = x) by (intros []; unfold qscale; cbn; f_equal; ring). rewrite Q1 in H. apply H.
  rewrite (qmul_inv q U), qmul_1_l. apply qmul_1_r.
Qed.
Print Assumptions C113_same_orientation_partial.
Example C113_not_vacuous : unit_quat (Q4 0 0 (3 / 5) (4 / 5)) /\ vlen2 (V3 0 0 1) = 1 /\ - PI < 1 <= PI /\ - PI <= 3 <= PI /\ -6 <= 3 + 2 * PI * IZR (-1) <= 0 /\ - (2 * PI) <= -6.
Proof.
  assert (P := PI_RGT_0). assert (A : 3 < PI) by (assert (X := PI2_3_2); lra). assert (B : PI < 22 / 7 + 1) by (assert (X := PI_4); lra). assert (X := PI_4).
  split; [unfold unit_quat; cbn; field |]. split; [unfold vlen2; cbn; ring |]. split; [lra |]. split; [lra |]. split; [| lra]. lra.
Qed.
(** Made with the second body turned upside down, then turned as a whole about the axis: the hinge itself does not open, but reports an angle. *)
Theorem C113_angle_refuted : let q1 := Q4 0 0 0 1 in let q2 := Q4 1 0 0 0 in let a := V3 0 0 1 in let g := Q4 0 0 (3 / 5) (4 / 5) in
  unit_quat q2 /\ unit_quat g /\ quat_vec g a = a /\
  hinge_angle q1 q2 (hinge_difference q1 q2) a (- (2 * PI)) (2 * PI) = 0 /\
  hinge_angle (quat_mul g q1) (quat_mul g q2) (hinge_difference q1 q2) a (- (2 * PI)) (2 * PI) = 2 * atan (24 / 7) /\
  PI / 2 < 2 * atan (24 / 7).
Proof.
  cbv zeta. assert (P := PI_RGT_0). assert (U1 : unit_quat (Q4 0 0 0 1)) by (unfold unit_quat; cbn; ring). assert (U2 : unit_quat (Q4 1 0 0 0)) by (unfold unit_quat; cbn; ring).
  assert (Ug : unit_quat (Q4 0 0 (3 / 5) (4 / 5))) by (unfold unit_quat; cbn; field). assert (Ha : vlen2 (V3 0 0 1) = 1) by (unfold vlen2; cbn; ring).
  assert (T : PI / 4 < atan (24 / 7) < PI / 2). { split; [rewrite <- atan_1; apply atan_increasing; lra | apply atan_bound]. }
  split; [exact U2 |]. split; [exact Ug |]. split; [unfold quat_vec; cbn; f_equal; field |]. split; [| split; [| lra]].
  - assert (H := hinge_sees (Q4 0 0 0 1) (Q4 1 0 0 0) (Q4 0 0 0 1) (V3 0 0 1) (- (2 * PI)) (2 * PI) U1 U2 U1). cbv zeta in H. rewrite !qmul_1_l in H. rewrite H. clear H.
    match goal with |- context [read_angle ?q _] => replace q with (Q4 0 0 0 1) by (unfold quat_mul, quat_inverse; cbn; f_equal; ring) end.
    replace (read_angle (Q4 0 0 0 1) (V3 0 0 1)) with 0; [rewrite normalized_same by lra; apply near_kept; lra |].
    unfold read_angle, quat_v. cbn [qx qy qz qw]. replace (vdot _ _) with 0 by (unfold vdot; cbn; ring). destruct (rle 0 0) eqn:E; [| apply rle_false in E; lra].
    replace (vlen (V3 0 0 0)) with 0. { unfold atan2. destruct (rlt 0 1) eqn:F; [| apply rlt_false in F; lra]. replace (0 / 1) with 0 by field. rewrite atan_0. ring. }
    unfold vlen. replace (vlen2 (V3 0 0 0)) with 0 by (unfold vlen2; cbn; ring). symmetry. apply sqrt_0.
  - rewrite hinge_sees by assumption.
    match goal with |- context [read_angle ?q _] => replace q with (Q4 0 0 (24 / 25) (7 / 25)) by (unfold quat_mul, quat_inverse; cbn; f_equal; field) end.
    replace (read_angle (Q4 0 0 (24 / 25) (7 / 25)) (V3 0 0 1)) with (2 * atan (24 / 7)); [rewrite normalized_same by lra; apply near_kept; lra |].
    unfold read_angle, quat_v. cbn [qx qy qz qw]. replace (vdot _ _) with (24 / 25) by (unfold vdot; cbn; field). destruct (rle 0 (24 / 25)) eqn:E; [| apply rle_false in E; lra].
    replace (vlen (V3 0 0 (24 / 25))) with (24 / 25). { unfold atan2. destruct (rlt 0 (7 / 25)) eqn:F; [| apply rlt_false in F; lra]. f_equal. f_equal. field. }
    unfold vlen. replace (vlen2 (V3 0 0 (24 / 25))) with (24 / 25 * (24 / 25)) by (unfold vlen2; cbn; ring). symmetry. apply sqrt_square. lra.
Qed.
Print Assumptions C113_angle_refuted.
