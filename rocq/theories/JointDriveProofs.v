(** Sliders held on their axes; motors; limits; joints with nothing to do. *)
From Coq Require Import List Reals Lra Psatz Bool Arith.
From Verif Require Import VecModel VecProofs LinAlgProperties ContactModel ContactSpec ContactProofs ContactLawProofs ContactBooksProofs ContactBounceProofs JointModel JointSpec JointProofs JointLawProofs JointSolveProofs.
Import ListNotations.
Local Open Scope R_scope.

Lemma vnormalize_unit eps v : vlen2 v = 1 -> eps <= 1 -> vnormalize eps v = v.
Proof.
  intros H He. unfold vnormalize. assert (L := unit_len v H). rewrite L. destruct (rlt 1 eps) eqn:E; [apply rlt_true in E; lra |].
  destruct v as [x y z]. cbn. f_equal; field.
Qed.
Lemma quat_unit q v : unit_quat q -> vlen2 v = 1 -> vlen2 (quat_vec q v) = 1.
Proof. intros H Hv. rewrite vlen2_dot, quat_vec_dot, <- vlen2_dot, Hv. unfold unit_quat in H. unfold quat_len2. rewrite H. ring. Qed.
Lemma frame_of a : vlen2 a = 1 -> frame a (orthogonal_unit a) (vcross a (orthogonal_unit a)).
Proof.
  intros H. assert (L := unit_len a H). destruct (C71_orthogonal a) as [A B]; [lra |]. assert (A' : vlen2 (orthogonal_unit a) = 1) by (rewrite <- vlen_sq, A; ring).
  destruct (cross_unit a (orthogonal_unit a) H A' B) as (C & D & E). unfold frame. rewrite (vdot_comm (orthogonal_unit a) (vcross _ _)). tauto.
Qed.

Section Drive.
Variables (eps dt : R) (env : jbodies).
Notation rig := (rigids env).
Notation recv := (receive_all rig).
Definition straight (j : slider) : Prop := unit_quat (jb_q (env (l_b1 (sl_link j)))) /\ vlen2 (sl_axis j) = 1.
Lemma slider_frame j m : eps <= 1 -> straight j -> let d := fst (slider_init eps dt env j m) in
  sd_axis d = slider_axis env j /\ frame (sd_axis d) (sd_n1 d) (sd_n2 d) /\ sd_n2 d = vcross (sd_axis d) (sd_n1 d).
Proof.
  intros He [U A]. cbn [slider_init fst sd_axis sd_n1 sd_n2]. fold (slider_axis env j). assert (V : vlen2 (slider_axis env j) = 1) by now apply quat_unit.
  rewrite vnormalize_unit by assumption. split; [reflexivity |]. split; [now apply frame_of | reflexivity].
Qed.
Lemma slider_last j m n js st v : 0 <= eps <= 1 -> let l := sl_link j in straight j -> loose env l -> massy env l -> any_dynamic env l = true ->
  eps < sum_mass env l * sum_mass env l -> l_baumgarte l = false -> vdot v (slider_axis env j) = 0 ->
  vdot v (rel l (offset1 env j) (arm2 env l) (snd (joints_step eps dt (S n) env (js ++ [JSlider j m]) st))) = 0.
Proof.
  intros He l S H M D L B Hv. destruct (step_last eps dt env n js (JSlider j m) st) as (pre & r & s & [O _] & _ & ->). destruct r as [| | | j' d m']; cbn in O; try contradiction.
  destruct O as (-> & -> & _). destruct (slider_frame j m (proj2 He) S) as (Ax & Fr & N2). unfold solve_joint, slider_solve. destruct (slider_lower _ _ _ _ _) as [x1 s1]. destruct (slider_upper _ _ _ _ _) as [x2 s2].
  destruct (slider_drive _ _ _ _ _ _) as [x3 s3]. destruct (rotation_step _ _ _ _ _) as [x4 s4].
  destruct (slide_exact eps env j (fst (slider_init eps dt env j m)) s4 (proj1 He) H M D L (slider_slides eps dt env j m) Fr) as [E1 E2].
  - cbn [slider_init fst sd_bias]. fold l. now rewrite B.
  - reflexivity.
  - destruct (slider_slide env j _ s4) as [x5 s5]. cbn [fst snd] in *.
    assert (F := frame_complete (sd_axis (fst (slider_init eps dt env j m))) (sd_n1 (fst (slider_init eps dt env j m))) v).
    destruct Fr as (F1 & F2 & F3 & F4 & F5 & F6). rewrite <- N2 in F. specialize (F F1 F2 F4).
    replace v with (tangential (sd_axis (fst (slider_init eps dt env j m))) v).
    + rewrite <- F, vdot_vadd_l, !vdot_vscale_l. unfold l. rewrite E1, E2. ring.
    + unfold tangential. rewrite Ax, Hv. generalize (slider_axis env j). clear. vsolve.
Qed.

(** ** The motor of a slider *)
Definition along (l : link) (a : vec3) (st : velocities) : R := vdot a (vsub (cv (st (l_b2 l))) (cv (st (l_b1 l)))).
Lemma pull_along l a o1 o2 lin ang st : loose env l -> along l a (recv (pull l o1 o2 lin ang) st) = along l a st + sum_mass env l * vdot a lin.
Proof.
  intros H. unfold along. rewrite pull_b1, pull_b2 by exact H. cbn [cv]. unfold sum_mass.
  generalize (r_im (jb (env (l_b1 l)))), (r_im (jb (env (l_b2 l)))), (cv (st (l_b1 l))), (cv (st (l_b2 l))). vsolve.
Qed.
Lemma clamp_sym_cases f x : 0 <= f -> - f <= clamp_sym f x <= f /\ (clamp_sym f x = x \/ (clamp_sym f x = f /\ f <= x) \/ (clamp_sym f x = - f /\ x <= - f)).
Proof. intros H. unfold clamp_sym, Rmin, Rmax. destruct (Rle_dec x (- f)), (Rle_dec _ f); lra. Qed.
Definition speed_of (j : slider) (imp s : R) : Prop :=
  s = sl_speed j \/ (imp = sl_force j * dt /\ sl_speed j <= s) \/ (imp = - (sl_force j * dt) /\ s <= sl_speed j).
Lemma drive_exact j d m st : loose env (sl_link j) -> 0 < sum_mass env (sl_link j) -> sl_motor j = true -> 0 <= sl_force j * dt ->
  sd_minv d = inverse_if_positive (sum_mass env (sl_link j)) -> vlen2 (sd_axis d) = 1 ->
  - (sl_force j * dt) <= fst (slider_drive dt env j d m st) <= sl_force j * dt /\
  speed_of j (fst (slider_drive dt env j d m st)) (along (sl_link j) (sd_axis d) (snd (slider_drive dt env j d m st))).
Proof.
  intros H K Mo F I U. rewrite slider_drive_recv, pull_along by exact H. unfold slider_drive, speed_of. rewrite Mo. cbn [fst snd].
  rewrite I. unfold inverse_if_positive. destruct (rlt 0 (sum_mass env (sl_link j))) eqn:E; [| apply rlt_false in E; lra]. clear E.
  replace (- (vdot (sd_axis d) (cv (st (l_b1 (sl_link j)))) - vdot (sd_axis d) (cv (st (l_b2 (sl_link j)))))) with (along (sl_link j) (sd_axis d) st)
    by (unfold along; rewrite vdot_vsub_r; ring).
  rewrite vdot_vscale_r, <- vlen2_dot, U. set (k := sum_mass env (sl_link j)) in *. set (s := along (sl_link j) (sd_axis d) st). set (f := sl_force j * dt) in *.
  destruct (clamp_sym_cases f (sm_motor m + 1 / k * (s - sl_speed j)) F) as [B C]. split; [exact B |].
  set (x := clamp_sym f _) in *. assert (Q : k * (1 / k * (s - sl_speed j)) = s - sl_speed j) by (field; lra).
  destruct C as [C | [[C D] | [C D]]].
  - left. rewrite C. lra.
  - right. left. split; [exact C |]. rewrite C in *. assert (k * (f - sm_motor m) <= k * (1 / k * (s - sl_speed j))) by (apply Rmult_le_compat_l; lra). lra.
  - right. right. split; [exact C |]. rewrite C in *. assert (k * (1 / k * (s - sl_speed j)) <= k * (- f - sm_motor m)) by (apply Rmult_le_compat_l; lra). lra.
Qed.
Lemma slider_motor_last j m n js st : eps <= 1 -> let l := sl_link j in straight j -> loose env l -> 0 < sum_mass env l -> sl_motor j = true -> 0 <= sl_force j * dt ->
  exists pre d m', fst (joints_step eps dt (S n) env (js ++ [JSlider j m]) st) = pre ++ [RSlider j d m'] /\
  - (sl_force j * dt) <= sm_motor m' <= sl_force j * dt /\
  speed_of j (sm_motor m') (along l (slider_axis env j) (snd (joints_step eps dt (S n) env (js ++ [JSlider j m]) st))).
Proof.
  intros He l S H K Mo F. destruct (step_last eps dt env n js (JSlider j m) st) as (pre & r & s & [O _] & -> & ->). destruct r as [| | | j' d m']; cbn in O; try contradiction.
  destruct O as (-> & -> & _). destruct (slider_frame j m He S) as (Ax & Fr & N2). exists pre, (fst (slider_init eps dt env j m)). unfold solve_joint, slider_solve.
  destruct (slider_lower _ _ _ _ _) as [x1 s1]. destruct (slider_upper _ _ _ _ _) as [x2 s2].
  destruct (drive_exact j (fst (slider_init eps dt env j m)) m' s2 H K Mo F eq_refl (proj1 Fr)) as [A B].
  destruct (slider_drive _ _ _ _ _ _) as [x3 s3]. cbn [fst snd] in A, B.
  assert (R4 := rotation_recv env (sl_link j) vzero vzero (sd_rinv (fst (slider_init eps dt env j m))) (sd_rbias (fst (slider_init eps dt env j m))) s3).
  destruct (rotation_step _ _ _ _ _) as [x4 s4]. cbn [fst snd] in R4.
  assert (R5 := slider_slide_recv env j (fst (slider_init eps dt env j m)) s4 (slider_slides eps dt env j m)).
  destruct (slider_slide env j _ s4) as [[x5 y5] s5]. cbn [fst snd] in R5 |- *. eexists. split; [reflexivity |]. cbn [sm_motor]. split; [exact A |].
  rewrite <- Ax, R5. fold l in H |- *. rewrite pull_along by exact H. rewrite R4. fold l. rewrite pull_along by exact H.
  destruct Fr as (F1 & F2 & F3 & F4 & F5 & F6). rewrite vdot_vadd_r, !vdot_vscale_r, !(vdot_comm (sd_axis _) (sd_n1 _)), !(vdot_comm (sd_axis _) (sd_n2 _)), F4, F5.
  replace (vdot (sd_axis (fst (slider_init eps dt env j m))) vzero) with 0 by (generalize (sd_axis (fst (slider_init eps dt env j m))); vsolve).
  rewrite !Rmult_0_r, !Rplus_0_r, Rmult_0_r, Rplus_0_r. exact B.
Qed.
End Drive.
