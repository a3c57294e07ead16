(** Momentum, untouched bodies, holding, rest and reports of joints (C106-C109, C114). *)
From Coq Require Import List Reals Lra Psatz Bool Arith.
From Verif Require Import VecModel VecProofs LinAlgProperties ContactModel ContactSpec ContactProofs ContactLawProofs ContactBounceProofs ContactLawProperties.
From Verif Require Import JointModel JointSpec JointProofs JointLawProofs JointSolveProofs JointDriveProofs JointEnergyProofs JointRestProofs.
Import ListNotations.
Local Open Scope R_scope.

(** ** C106: momentum *)
(** All bodies of the list can be pushed in all directions. *)
Definition pushable (env : jbodies) (bodies : list nat) : Prop := NoDup bodies /\ forall i, In i bodies -> 0 < r_im (jb (env i)) /\ unlocked (jb (env i)).
Theorem C106_momentum : forall eps dt n env bodies js st,
  pushable env bodies -> (forall j, In j js -> joint_inside bodies j) ->
  momentum (rigids env) bodies (snd (joints_step eps dt n env js st)) = momentum (rigids env) bodies st.
Proof. intros eps dt n env bodies js st [N M] H. now apply step_momentum. Qed.
Print Assumptions C106_momentum.
Theorem C106_angular_partial : forall eps dt n env inertia bodies js st,
  known (rigids env) inertia bodies -> (forall j, In j js -> joint_inside bodies j /\ closed env j) ->
  angular_momentum (rigids env) inertia bodies (snd (joints_step eps dt n env js st)) = angular_momentum (rigids env) inertia bodies st.
Proof. intros eps dt n env inertia bodies js st [N M] H. now apply step_angular. Qed.
Print Assumptions C106_angular_partial.
(** Cubes of mass and inertia 1, free in all directions, the centres in the origin and at (0, 1, 0). *)
Definition cube (x : vec3) : jbody := JBody (Rigid 1 mat_id (V3 1 1 1) (V3 1 1 1) x vzero vzero) true (Q4 0 0 0 1) vzero.
Definition stacked : jbodies := fun b => cube (match b with 1%nat => V3 0 1 0 | _ => vzero end).
Definition at_peace : velocities := fun _ => Vel vzero vzero vzero vzero.
(** A ball-and-socket joint half-way between them; a slider along the x axis with a motor. *)
Definition half_way : joint := JBall (Ball (Link 0 1 (V3 0 (1 / 2) 0) (V3 0 (- (1 / 2)) 0) false) false 0) (BallMem vzero 0 false).
Definition driven : joint :=
  JSlider (Slider (Link 0 1 (V3 0 (1 / 2) 0) (V3 0 (- (1 / 2)) 0) false) (V3 1 0 0) (Q4 0 0 0 1) false (-1) 1 true 1 1000) (SliderMem (0, 0) vzero 0 0 0 false false vzero).
Lemma id_positive : positive mat_id.
Proof. split; [reflexivity |]. intros [x y z]. unfold mat_id, mat_vec, vdot, mk_mat. cbn. nra. Qed.
Lemma id_inverse : mat_mul mat_id mat_id = mat_id /\ mat_mul mat_id mat_id = mat_id.
Proof. unfold mat_mul, mat_id, mk_mat. cbn. split; f_equal; f_equal; ring. Qed.
Lemma stacked_known : known (rigids stacked) (fun _ => mat_id) [0%nat; 1%nat].
Proof.
  split; [repeat constructor; cbn; intuition discriminate |]. intros i _. unfold rigids, stacked, cube. cbn [jb r_im r_ll r_al r_iw].
  split; [lra |]. split; [split; reflexivity |]. split; [reflexivity |]. cbn [r_iw]. first [apply id_inverse | exact (proj1 id_inverse)].
Qed.
Lemma half_way_closed : closed stacked half_way.
Proof. unfold closed, half_way, anchor1, anchor2, place, stacked, cube. cbn. unfold quat_vec, vadd, vsub, vzero. cbn. f_equal; field. Qed.
Example C106_not_vacuous : pushable stacked [0%nat; 1%nat] /\ known (rigids stacked) (fun _ => mat_id) [0%nat; 1%nat] /\
  joint_inside [0%nat; 1%nat] half_way /\ closed stacked half_way /\ joint_inside [0%nat; 1%nat] driven.
Proof.
  split; [split; [repeat constructor; cbn; intuition discriminate |] |]. - intros i _. cbn. split; [lra | split; reflexivity].
  - split; [exact stacked_known |]. split; [split; cbn; auto |]. split; [exact half_way_closed | split; cbn; auto].
Qed.
(** The motor of a slider pushes the bodies at their centres of mass, not at one point. *)
Definition apart : velocities := fun b => match b with 0%nat => Vel (V3 (- / 2) 0 0) vzero vzero vzero | 1%nat => Vel (V3 (/ 2) 0 0) vzero vzero vzero | _ => Vel vzero vzero vzero vzero end.
Lemma driven_straight j : driven = JSlider j (SliderMem (0, 0) vzero 0 0 0 false false vzero) -> straight stacked j.
Proof. intros E. injection E as <-. split; [unfold unit_quat; cbn; ring | unfold vlen2; cbn; ring]. Qed.
Lemma driven_step : forall b, snd (joints_step (/ 8388608) 1 1 stacked [driven] at_peace) b = apart b.
Proof.
  intros b. unfold joints_step. cbn [map].
  assert (O : Forall2 (of_joint (/ 8388608) 1 stacked) [driven] [init_joint (/ 8388608) 1 stacked driven]) by (constructor; [apply init_of_joint | constructor]).
  assert (V : Forall (fun r => unused (keep_joint r)) [init_joint (/ 8388608) 1 stacked driven]) by (constructor; [apply idle_init; cbn; auto 7 | constructor]).
  rewrite (idle_warms (/ 8388608) 1 stacked at_peace _ _ O V). clear O V. cbn [iterate_joints solve_joints]. unfold driven at 1. cbn [init_joint].
  set (j := Slider _ _ _ _ _ _ _ _ _). set (m := SliderMem _ _ _ _ _ _ _ _). assert (Sj : straight stacked j) by now apply driven_straight.
  assert (Sl := slider_slides (/ 8388608) 1 stacked j m). destruct (slider_frame (/ 8388608) 1 stacked j m) as (A & F & _); [lra | exact Sj |].
  assert (Mi : sd_minv (fst (slider_init (/ 8388608) 1 stacked j m)) = / 2).
  { cbn [slider_init fst sd_minv]. unfold inverse_if_positive, sum_mass, stacked, cube. cbn. destruct (rlt 0 (1 + 1)) eqn:E; [field | apply rlt_false in E; lra]. }
  assert (Bi : sd_bias (fst (slider_init (/ 8388608) 1 stacked j m)) = (0, 0)) by reflexivity.
  assert (Rb : sd_rbias (fst (slider_init (/ 8388608) 1 stacked j m)) = vzero) by reflexivity.
  assert (Mo : sm_motor (snd (slider_init (/ 8388608) 1 stacked j m)) = 0) by reflexivity.
  destruct (slider_init (/ 8388608) 1 stacked j m) as [d m']. cbn [fst snd] in *. unfold solve_joint, slider_solve, slider_lower, slider_upper, slider_drive. cbn [sl_limit j andb sl_motor].
  assert (Ax : sd_axis d = V3 1 0 0) by (rewrite A; unfold slider_axis, j, stacked, cube; cbn; unfold quat_vec; cbn; f_equal; ring).
  rewrite Mi, Mo. cbn [sl_link j l_b1 l_b2 sl_force sl_speed].
  replace (vdot (sd_axis d) (cv (at_peace 0%nat)) - vdot (sd_axis d) (cv (at_peace 1%nat))) with 0 by (rewrite Ax; unfold vdot; cbn; ring).
  replace (clamp_sym (1000 * 1) (0 + / 2 * (- 0 - 1))) with (- / 2) by (unfold clamp_sym; rewrite Rmax_left, Rmin_left; lra).
  set (s := push_lin stacked 1 _ _).
  assert (S : forall i, s i = apart i).
  { intros [| [| i]]; unfold s, push_lin, shift_c, stacked, cube, at_peace; rewrite Ax; cbn; unfold vmul, vscale, vadd, vzero; cbn; repeat f_equal; field. }
  assert (T : turn (sl_link j) s = vzero) by (unfold turn; cbn [sl_link j l_b1 l_b2]; rewrite !S; cbn; vsolve).
  assert (Rl : rel (sl_link j) (offset1 stacked j) (arm2 stacked (sl_link j)) s = sd_axis d).
  { unfold rel. cbn [sl_link j l_b1 l_b2]. rewrite !S, Ax. unfold relative, apart. cbn [cv cw]. generalize (offset1 stacked j), (arm2 stacked (Link 0 1 (V3 0 (1 / 2) 0) (V3 0 (- (1 / 2)) 0) false)). intros [x y z] [x' y' z'].
    unfold vsub, vadd, vcross, vzero. cbn. f_equal; field. }
  change (Link 0 1 (V3 0 (1 / 2) 0) (V3 0 (- (1 / 2)) 0) false) with (sl_link j). rewrite Rb, idle_rotation by exact T. cbn [fst snd].
  destruct F as (_ & _ & _ & F4 & F5 & _). rewrite idle_slide by (first [exact Sl | exact Bi | now rewrite Rl]). apply S.
Qed.
Theorem C106_angular_refuted : joint_inside [0%nat; 1%nat] driven /\ anchor1 stacked (link_of driven) = anchor2 stacked (link_of driven) /\
  angular_momentum (rigids stacked) (fun _ => mat_id) [0%nat; 1%nat] (snd (joints_step (/ 8388608) 1 1 stacked [driven] at_peace)) <>
  angular_momentum (rigids stacked) (fun _ => mat_id) [0%nat; 1%nat] at_peace.
Proof.
  split; [split; cbn; auto |]. split; [exact half_way_closed |]. unfold angular_momentum, total. rewrite !driven_step. unfold mass, rigids, stacked, cube, apart, at_peace. cbn.
  unfold vadd, vcross, vscale, mat_vec, mat_id, mk_mat, vdot, vzero. cbn. intros E. apply (f_equal vz) in E. cbn in E. lra.
Qed.
Print Assumptions C106_angular_refuted.

(** ** C107: what joints do not touch *)
Theorem C107_untouched : forall eps dt n env js st b,
  immovable (jb (env b)) \/ (forall j, In j js -> b <> l_b1 (link_of j) /\ b <> l_b2 (link_of j)) ->
  snd (joints_step eps dt n env js st) b = st b.
Proof. intros eps dt n env js st b [H | H]; [now apply step_immovable | now apply step_other]. Qed.
Print Assumptions C107_untouched.
Theorem C107_locked : forall eps dt n env js st b c, c = vx \/ c = vy \/ c = vz ->
  (c (r_ll (jb (env b))) = 0 -> c (cv (snd (joints_step eps dt n env js st) b)) = c (cv (st b))) /\
  (c (r_al (jb (env b))) = 0 -> c (cw (snd (joints_step eps dt n env js st) b)) = c (cw (st b))).
Proof. intros. now apply step_locked. Qed.
Print Assumptions C107_locked.
(** The velocities that only correct positions belong to the contacts. *)
Theorem C107_split : forall eps dt n env js st b,
  sv (snd (joints_step eps dt n env js st) b) = sv (st b) /\ sw (snd (joints_step eps dt n env js st) b) = sw (st b).
Proof. intros. apply step_split. Qed.
Print Assumptions C107_split.
(** A world with a static body 0: joints change body 1 but not the ground. *)
Definition on_ground : jbodies := fun b => match b with
  | 0%nat => JBody (Rigid 0 mat_zero (V3 1 1 1) (V3 1 1 1) vzero vzero vzero) false (Q4 0 0 0 1) vzero
  | _ => JBody (Rigid 1 mat_id (V3 0 1 1) (V3 1 1 1) (V3 0 1 0) vzero vzero) true (Q4 0 0 0 1) vzero end.
Example C107_not_vacuous : immovable (jb (on_ground 0%nat)) /\ vx (r_ll (jb (on_ground 1%nat))) = 0.
Proof. split; [split; reflexivity | reflexivity]. Qed.

(** ** C108: what holds after a joint was solved *)
(** Two bodies, one of them dynamic, with meaningful masses and inertias; each either without locked axes or immovable. *)
Definition holdable (env : jbodies) (l : link) : Prop :=
  l_b1 l <> l_b2 l /\ (jb_dynamic (env (l_b1 l)) = true \/ jb_dynamic (env (l_b2 l)) = true) /\
  (forall b, b = l_b1 l \/ b = l_b2 l -> (unlocked (jb (env b)) \/ immovable (jb (env b))) /\ positive (r_iw (jb (env b)))).
Definition sum_inverse (env : jbodies) (l : link) : R := r_im (jb (env (l_b1 l))) + r_im (jb (env (l_b2 l))).
(** How the anchor points move against each other. *)
Definition drift (env : jbodies) (l : link) (st : velocities) : vec3 :=
  vsub (point_velocity (rigids env) (l_b2 l) (anchor2 env l) st) (point_velocity (rigids env) (l_b1 l) (anchor1 env l) st).
Lemma drift_rel env l st : drift env l st = rel l (arm1 env l) (arm2 env l) st.
Proof.
  unfold drift, point_velocity, rel, relative, anchor1, anchor2, place, rigids. fold (arm env (l_b1 l) (l_p1 l)) (arm env (l_b2 l) (l_p2 l)). fold (arm1 env l) (arm2 env l).
  generalize (r_x (jb (env (l_b1 l)))), (r_x (jb (env (l_b2 l)))), (arm1 env l), (arm2 env l), (cv (st (l_b1 l))), (cv (st (l_b2 l))), (cw (st (l_b1 l))), (cw (st (l_b2 l))). vsolve.
Qed.
Lemma gap_anchors env l : gap env l (arm1 env l) (arm2 env l) = vsub (anchor2 env l) (anchor1 env l).
Proof.
  unfold gap, anchor1, anchor2, place. fold (arm env (l_b1 l) (l_p1 l)) (arm env (l_b2 l) (l_p2 l)). fold (arm1 env l) (arm2 env l).
  generalize (r_x (jb (env (l_b1 l)))), (r_x (jb (env (l_b2 l)))), (arm1 env l), (arm2 env l). vsolve.
Qed.
Lemma holdable_loose env l : holdable env l -> loose env l /\ any_dynamic env l = true /\ (0 < sum_inverse env l -> massy env l).
Proof.
  intros (N & D & B). destruct (B _ (or_introl eq_refl)) as [F1 P1], (B _ (or_intror eq_refl)) as [F2 P2]. split; [now split |].
  split; [unfold any_dynamic; now apply orb_true_iff |]. intros H. split; [exact P1 | split; [exact P2 | exact H]].
Qed.
Theorem C108_anchors_partial : forall eps dt n env js j st, 0 <= eps ->
  match j with JBall _ _ | JHinge _ _ => True | _ => False end ->
  holdable env (link_of j) -> 0 < sum_inverse env (link_of j) -> eps < sum_inverse env (link_of j) ^ 3 ->
  drift env (link_of j) (snd (joints_step eps dt (S n) env (js ++ [j]) st)) =
  if l_baumgarte (link_of j) then vscale (- (2 / 10 / dt)) (vsub (anchor2 env (link_of j)) (anchor1 env (link_of j))) else vzero.
Proof.
  intros eps dt n env js j st He K H M L. destruct (holdable_loose env _ H) as (Lo & D & Ma). specialize (Ma M).
  assert (R : ready_link eps env (link_of j)) by (split; [exact Lo | split; [exact Ma | split; [exact D |]]]; unfold sum_inverse in L; unfold sum_mass; lra).
  rewrite drift_rel. transitivity (vneg (translation_bias dt env (link_of j) (arm1 env (link_of j)) (arm2 env (link_of j)))).
  - destruct j as [j m | | j m |]; try contradiction; [now apply ball_last | now apply hinge_last].
  - unfold translation_bias. rewrite gap_anchors. destruct (l_baumgarte (link_of j)); [unfold bias_factor; generalize (vsub (anchor2 env (link_of j)) (anchor1 env (link_of j))), (2 / 10 / dt); vsolve | vsolve].
Qed.
Print Assumptions C108_anchors_partial.
Theorem C108_fixed_partial : forall eps dt n env js j m st, 0 <= eps -> let l := fx_link j in
  holdable env l -> l_baumgarte l = false -> eps < Rabs (mat_det (mat_add (r_iw (jb (env (l_b1 l)))) (r_iw (jb (env (l_b2 l)))))) ->
  let st' := snd (joints_step eps dt (S n) env (js ++ [JFixed j m]) st) in cw (st' (l_b2 l)) = cw (st' (l_b1 l)).
Proof.
  intros eps dt n env js j m st He l H B L st'. destruct (holdable_loose env _ H) as (Lo & D & _). assert (T := fixed_last eps dt env j m n js st He Lo D L). unfold rotation_bias in T.
  fold l in T. rewrite B in T. fold st' in T. unfold turn in T. revert T. generalize (cw (st' (l_b2 l))), (cw (st' (l_b1 l))). clear. intros [x y z] [x' y' z']. unfold vsub, vneg, vzero. cbn. intros E. injection E. intros. f_equal; lra.
Qed.
Print Assumptions C108_fixed_partial.
Theorem C108_slider_partial : forall eps dt n env js j m st v, 0 <= eps <= 1 -> let l := sl_link j in
  holdable env l -> l_baumgarte l = false -> unit_quat (jb_q (env (l_b1 l))) -> vlen2 (sl_axis j) = 1 ->
  0 < sum_inverse env l -> eps < sum_inverse env l ^ 2 -> vdot v (slider_axis env j) = 0 ->
  let st' := snd (joints_step eps dt (S n) env (js ++ [JSlider j m]) st) in
  vdot v (vsub (point_velocity (rigids env) (l_b2 l) (anchor2 env l) st') (point_velocity (rigids env) (l_b1 l) (anchor2 env l) st')) = 0.
Proof.
  intros eps dt n env js j m st v He l H B U A M L Hv st'. destruct (holdable_loose env _ H) as (Lo & D & Ma). specialize (Ma M).
  assert (T := slider_last eps dt env j m n js st v He (conj U A) Lo Ma D). fold l in T.
  transitivity (vdot v (rel l (offset1 env j) (arm2 env l) st')); [| apply T; unfold sum_inverse in L; unfold sum_mass; try assumption; lra]. f_equal.
  unfold point_velocity, rel, relative, offset1, anchor2, place, rigids, gap. fold (arm env (l_b2 l) (l_p2 l)). fold l (arm2 env l).
  generalize (r_x (jb (env (l_b1 l)))), (r_x (jb (env (l_b2 l)))), (arm1 env l), (arm2 env l), (cv (st' (l_b1 l))), (cv (st' (l_b2 l))), (cw (st' (l_b1 l))), (cw (st' (l_b2 l))). clear. vsolve.
Qed.
Print Assumptions C108_slider_partial.
Lemma stacked_holdable l : l_b1 l <> l_b2 l -> holdable stacked l.
Proof. intros N. split; [exact N |]. split; [now left |]. intros b _. split; [left; now split | exact id_positive]. Qed.
Example C108_not_vacuous : holdable stacked (link_of half_way) /\ sum_inverse stacked (link_of half_way) = 2 /\ / 8388608 < 2 ^ 3 /\
  / 8388608 < Rabs (mat_det (mat_add (r_iw (jb (stacked 0%nat))) (r_iw (jb (stacked 1%nat))))) /\
  unit_quat (jb_q (stacked 0%nat)) /\ vlen2 (V3 1 0 0) = 1.
Proof.
  split; [now apply stacked_holdable |]. split; [unfold sum_inverse; cbn; ring |]. split; [lra |]. split.
  - replace (mat_det _) with 8; [rewrite Rabs_right; lra |]. unfold mat_det, mat_add, stacked, cube, mat_id, mk_mat. cbn. ring.
  - split; [unfold unit_quat; cbn; ring | unfold vlen2; cbn; ring].
Qed.
(** Two bodies of a tonne each, joined at their centres, the second moving away: the joint does nothing, whatever the number of iterations. *)
Definition heavy : jbodies := fun _ => JBody (Rigid (/ 1000) mat_id (V3 1 1 1) (V3 1 1 1) vzero vzero vzero) true (Q4 0 0 0 1) vzero.
Definition centred : joint := JBall (Ball (Link 0 1 vzero vzero false) false 0) (BallMem vzero 0 false).
Definition leaving : velocities := fun b => match b with 1%nat => Vel (V3 1 0 0) vzero vzero vzero | _ => Vel vzero vzero vzero vzero end.
Lemma centred_matrix env l : mat_det (mass_matrix env l vzero vzero) = sum_mass env l * sum_mass env l * sum_mass env l.
Proof.
  assert (Z : mat_skew vzero = mat_zero) by (unfold mat_skew, mat_zero, mk_mat, vzero; cbn; repeat f_equal; ring).
  assert (Zl : forall a, mat_mul mat_zero a = mat_zero) by (intros [[] [] []]; unfold mat_mul, mat_zero, mk_mat; cbn; repeat f_equal; ring).
  unfold mass_matrix. rewrite Z, !Zl. generalize (sum_mass env l). intros x. unfold mat_det, mat_add, mat_zero, mk_mat. cbn. ring.
Qed.
Theorem C108_heavy_refuted : holdable heavy (link_of centred) /\ 0 < sum_inverse heavy (link_of centred) /\
  forall dt n, drift heavy (link_of centred) (snd (joints_step (/ 8388608) dt n heavy [centred] leaving)) = V3 1 0 0.
Proof.
  split; [split; [discriminate | split; [now left |]]; intros b _; split; [left; now split | exact id_positive] |].
  split; [unfold sum_inverse; cbn; lra |]. intros dt n. unfold centred at 2. rewrite limp_step.
  - unfold drift, point_velocity, anchor1, anchor2, place, rigids, heavy, leaving, centred. cbn. unfold quat_vec, vadd, vsub, vcross, vzero. cbn. f_equal; ring.
  - reflexivity.
  - split; reflexivity.
  - assert (A : arm heavy 0 vzero = vzero /\ arm heavy 1 vzero = vzero) by (unfold arm, heavy, quat_vec, vsub, vzero; cbn; split; f_equal; ring).
    unfold arm1, arm2. cbn [bl_link l_b1 l_b2 l_p1 l_p2]. destruct A as [-> ->]. rewrite centred_matrix. unfold sum_mass. cbn. rewrite Rabs_right; lra.
Qed.
Print Assumptions C108_heavy_refuted.

(** ** C109: bodies that already move together *)
Theorem C109_rest : forall eps dt n env js st v w,
  (forall j, In j js -> unused j /\ passive j /\ moves_with env v w st (l_b1 (link_of j)) /\ moves_with env v w st (l_b2 (link_of j)) /\
     match j with JSlider _ _ => True | _ => anchor1 env (link_of j) = anchor2 env (link_of j) end) ->
  snd (joints_step eps dt n env js st) = st.
Proof. intros eps dt n env js st v w H. apply (idle_step eps dt env st v w n js). intros j Hj. destruct (H j Hj) as (A & B & C & D & E). split; [| exact A]. split; [exact B | split; [exact C | split; [exact D | exact E]]]. Qed.
Print Assumptions C109_rest.
(** The two cubes, turning about the z axis as one body. *)
Definition turning_together : velocities := fun b => Vel (match b with 1%nat => V3 (-1) 0 0 | _ => vzero end) (V3 0 0 1) vzero vzero.
Example C109_not_vacuous : unused half_way /\ passive half_way /\ moves_with stacked vzero (V3 0 0 1) turning_together 0 /\
  moves_with stacked vzero (V3 0 0 1) turning_together 1 /\ anchor1 stacked (link_of half_way) = anchor2 stacked (link_of half_way) /\ cv (turning_together 1%nat) <> cv (turning_together 0%nat).
Proof.
  split; [now split |]. split; [now split |].
  split; [split; [cbn; unfold vadd, vcross, vzero; cbn; f_equal; ring | reflexivity] |].
  split; [split; [cbn; unfold vadd, vcross, vzero; cbn; f_equal; ring | reflexivity] |].
  split; [exact half_way_closed |]. cbn. unfold vzero. intros E. injection E. lra.
Qed.

(** ** C114: reported forces *)
Theorem C114_reported_partial : forall eps dt n env js st, dt <> 0 -> (forall j, In j js -> plain j) ->
  snd (joints_step eps dt n env js st) = receive_all (rigids env) (flat_map (reported dt env) (fst (joints_step eps dt n env js st))) st.
Proof. intros. now apply step_reported. Qed.
Print Assumptions C114_reported_partial.
Example C114_not_vacuous : plain half_way /\ (exists b, cv (leaving b) <> vzero).
Proof. split; [now split |]. exists 1%nat. cbn. unfold vzero. intros E. injection E. lra. Qed.
(** A cone limit turns the bodies, but the torque it uses is not reported. *)
Definition bent : jbodies := fun b => cube (match b with 1%nat => V3 1 1 0 | _ => vzero end).
Definition cone_joint : joint := JBall (Ball (Link 0 1 (V3 1 0 0) (V3 0 (-1) 0) false) true 1) (BallMem vzero 0 false).
Definition closing : velocities := fun b => match b with
  | 0%nat => Vel (V3 0 (- / 2) 0) vzero vzero vzero | 1%nat => Vel (V3 (- / 2) 0 0) (V3 0 0 1) vzero vzero | _ => Vel vzero vzero vzero vzero end.
Lemma vunit_one eps v : vlen2 v = 1 -> eps <= 1 -> vunit eps v = v.
Proof.
  intros H He. unfold vunit. assert (L := unit_len v H). rewrite L. destruct (rlt 1 eps) eqn:E; [apply rlt_true in E; lra |].
  destruct v as [x y z]. unfold vdiv. cbn. f_equal; field.
Qed.
Lemma cone_data : let d := fst (ball_init (/ 8388608) 1 bent (Ball (Link 0 1 (V3 1 0 0) (V3 0 (-1) 0) false) true 1) (BallMem vzero 0 false)) in
  let m := snd (ball_init (/ 8388608) 1 bent (Ball (Link 0 1 (V3 1 0 0) (V3 0 (-1) 0) false) true 1) (BallMem vzero 0 false)) in
  bd_r1 d = V3 1 0 0 /\ bd_r2 d = V3 0 (-1) 0 /\ bd_axis d = V3 0 0 1 /\ bd_cinv d = / 2 /\ bd_cbias d = 0 /\ bd_bias d = vzero /\ m = BallMem vzero 0 true.
Proof.
  cbv zeta. cbn [ball_init fst snd bl_link bd_r1 bd_r2 bd_axis bd_cinv bd_cbias bd_bias l_baumgarte bl_half bm_imp bm_violated bm_cone].
  assert (A1 : arm1 bent (Link 0 1 (V3 1 0 0) (V3 0 (-1) 0) false) = V3 1 0 0) by (unfold arm1, arm, bent, cube; cbn; unfold quat_vec, vsub, vzero; cbn; f_equal; ring).
  assert (A2 : arm2 bent (Link 0 1 (V3 1 0 0) (V3 0 (-1) 0) false) = V3 0 (-1) 0) by (unfold arm2, arm, bent, cube; cbn; unfold quat_vec, vsub, vzero; cbn; f_equal; ring).
  rewrite A1, A2. rewrite !vunit_one by (try lra; unfold vlen2; cbn; ring).
  assert (Ax : vcross (V3 1 0 0) (vneg (V3 0 (-1) 0)) = V3 0 0 1) by (unfold vcross, vneg; cbn; f_equal; ring). rewrite Ax.
  assert (Ca : cone_angle (V3 1 0 0) (vneg (V3 0 (-1) 0)) = PI / 2). { unfold cone_angle. replace (vdot _ _) with 0 by (unfold vdot, vneg; cbn; ring). apply acos_0. }
  rewrite Ca. assert (P := PI2_1). destruct (rlt (1 - PI / 2) 0) eqn:E; [| apply rlt_false in E; lra].
  split; [reflexivity |]. split; [reflexivity |]. split; [reflexivity |]. split; [| split; [reflexivity | split; reflexivity]].
  unfold inverse_if_positive, i1_of, i2_of, bent, cube. cbn. match goal with |- context [rlt 0 ?x] => replace x with 2 by (unfold vdot, mat_vec, mat_id, mk_mat; cbn; ring) end.
  destruct (rlt 0 2) eqn:F; [field | apply rlt_false in F; lra].
Qed.
Theorem C114_cone_refuted : let r := joints_step (/ 8388608) 1 1 bent [cone_joint] closing in
  (forall x, In x (fst r) -> reaction_force 1 x = vzero /\ reaction_torque 1 x = vzero) /\ cw (closing 0%nat) = vzero /\ cw (snd r 0%nat) = V3 0 0 (/ 2).
Proof.
  cbv zeta. unfold joints_step. cbn [map].
  assert (O : Forall2 (of_joint (/ 8388608) 1 bent) [cone_joint] [init_joint (/ 8388608) 1 bent cone_joint]) by (constructor; [apply init_of_joint | constructor]).
  assert (V : Forall (fun r => unused (keep_joint r)) [init_joint (/ 8388608) 1 bent cone_joint]) by (constructor; [apply idle_init; cbn; auto 7 | constructor]).
  rewrite (idle_warms (/ 8388608) 1 bent closing _ _ O V). clear O V. cbn [iterate_joints solve_joints]. unfold cone_joint. cbn [init_joint].
  assert (D := cone_data). cbv zeta in D. set (j := Ball _ _ _) in *. destruct (ball_init (/ 8388608) 1 bent j (BallMem vzero 0 false)) as [d m]. cbn [fst snd] in D.
  destruct D as (D1 & D2 & D3 & D4 & D5 & D6 & ->). unfold solve_joint, ball_solve, ball_limit. cbn [bl_cone j bm_violated andb bl_link l_b1 l_b2 bm_cone bm_imp]. rewrite D1, D2, D3, D4, D5, D6.
  replace (Rmax _ 0) with (/ 2).
  2: { rewrite Rmax_left; unfold vdot, vsub, closing; cbn; unfold vzero; cbn; lra. }
  set (s := push_ang bent 1 _ _).
  assert (S : forall i, s i = match i with 0%nat => Vel (V3 0 (- / 2) 0) (V3 0 0 (/ 2)) vzero vzero | 1%nat => Vel (V3 (- / 2) 0 0) (V3 0 0 (/ 2)) vzero vzero | _ => Vel vzero vzero vzero vzero end).
  { intros [| [| i]]; unfold s, push_ang, shift_c, bent, cube, closing; cbn; unfold vmul, vscale, vadd, vzero, mat_vec, mat_id, mk_mat, vdot; cbn; try reflexivity; repeat f_equal; field. }
  assert (Rl : rel (bl_link j) (V3 1 0 0) (V3 0 (-1) 0) s = vzero).
  { unfold rel. cbn [bl_link j l_b1 l_b2]. rewrite !S. unfold relative. cbn [cv cw]. unfold vsub, vadd, vcross, vzero. cbn. f_equal; field. }
  change (Link 0 1 (V3 1 0 0) (V3 0 (-1) 0) false) with (bl_link j). rewrite idle_translation by exact Rl. cbn [fst snd]. split.
  - intros x [<- | []]. cbn [reaction_force reaction_torque bm_imp]. split; [| reflexivity]. unfold vdiv, vadd, vzero. cbn. f_equal; field.
  - split; [reflexivity |]. rewrite S. reflexivity.
Qed.
Print Assumptions C114_cone_refuted.
