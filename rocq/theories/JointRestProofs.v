(** Joints with nothing to do; the signs of limits and the bounds of motors. *)
From Coq Require Import List Reals Lra Psatz Bool Arith.
From Verif Require Import VecModel VecProofs LinAlgProperties ContactModel ContactSpec ContactProofs ContactLawProofs ContactBooksProofs ContactBounceProofs JointModel JointSpec JointProofs JointLawProofs JointSolveProofs JointDriveProofs JointEnergyProofs.
Import ListNotations.
Local Open Scope R_scope.

Ltac vs := clear; vsolve.
Section Rest.
Variables (eps dt : R) (env : jbodies).
Notation rig := (rigids env).
Notation recv := (receive_all rig).

(** ** Nothing to do *)
Section Idle.
Variable st : velocities.
Lemma moves_rel v w l o1 o2 : moves_with env v w st (l_b1 l) -> moves_with env v w st (l_b2 l) -> vadd (r_x (jb (env (l_b1 l)))) o1 = vadd (r_x (jb (env (l_b2 l)))) o2 -> rel l o1 o2 st = vzero.
Proof.
  intros [A B] [C D] H. unfold rel. rewrite A, B, C, D. unfold relative.
  replace (vsub (vsub (vadd (vadd v (vcross w (r_x (jb (env (l_b2 l)))))) (vcross w o2)) (vadd v (vcross w (r_x (jb (env (l_b1 l))))))) (vcross w o1))
    with (vcross w (vsub (vadd (r_x (jb (env (l_b2 l)))) o2) (vadd (r_x (jb (env (l_b1 l)))) o1))) by (generalize (r_x (jb (env (l_b1 l)))), (r_x (jb (env (l_b2 l)))), v, w; vs).
  rewrite H. generalize (vadd (r_x (jb (env (l_b2 l)))) o2), w. vs.
Qed.
Lemma moves_turn v w l : moves_with env v w st (l_b1 l) -> moves_with env v w st (l_b2 l) -> turn l st = vzero.
Proof. intros [A B] [C D]. unfold turn. rewrite B, D. generalize w. vs. Qed.
Lemma idle_translation l o1 o2 inv : rel l o1 o2 st = vzero -> translation_step env l o1 o2 inv vzero st = (vzero, st).
Proof.
  intros H. assert (F : fst (translation_step env l o1 o2 inv vzero st) = vzero).
  { rewrite translation_delta, H. replace (vsub (vneg vzero) vzero) with vzero by vs. apply mat_vec_zero. }
  assert (S := translation_recv env l o1 o2 inv vzero st). rewrite F, pull_none in S. now rewrite (surjective_pairing (translation_step _ _ _ _ _ _ _)), F, S.
Qed.
Lemma idle_rotation l inv : turn l st = vzero -> rotation_step env l inv vzero st = (vzero, st).
Proof.
  intros H. assert (F : fst (rotation_step env l inv vzero st) = vzero).
  { unfold rotation_step. cbn [fst]. fold (turn l st). rewrite H. replace (vsub (vneg vzero) vzero) with vzero by vs. apply mat_vec_zero. }
  assert (S := rotation_recv env l vzero vzero inv vzero st). rewrite F, pull_none in S. now rewrite (surjective_pairing (rotation_step _ _ _ _ _)), F, S.
Qed.
Lemma zero_max k : Rmax (0 + k * (- 0 - 0)) 0 = 0.
Proof. replace (0 + k * (- 0 - 0)) with 0 by ring. apply Rmax_left, Rle_refl. Qed.
Lemma zero_pull l o1 o2 k a : recv (pull l o1 o2 vzero (vscale (k * 0) a)) st = st.
Proof. rewrite Rmult_0_r, vscale_0. apply pull_none. Qed.
Lemma idle_ball j d m : turn (bl_link j) st = vzero -> bm_cone m = 0 -> bd_cbias d = 0 -> ball_limit env j d m st = (0, st).
Proof.
  intros H C B. assert (F : fst (ball_limit env j d m st) = 0).
  { unfold ball_limit. destruct (_ && _); [| exact C]. cbn [fst]. rewrite C, B. replace (vdot (bd_axis d) (vsub (cw (st (l_b1 (bl_link j)))) (cw (st (l_b2 (bl_link j)))))) with 0; [apply zero_max |].
    transitivity (- vdot (bd_axis d) (turn (bl_link j) st)); [rewrite H; generalize (bd_axis d); vs | unfold turn; rewrite !vdot_vsub_r; ring]. }
  assert (S := ball_limit_recv env j d m vzero vzero st). rewrite F, C in S. replace (- (0 - 0)) with 0 in S by ring. rewrite vscale_0, pull_none in S.
  now rewrite (surjective_pairing (ball_limit _ _ _ _ _)), F, S.
Qed.
Lemma idle_lower j d m : turn (hg_link j) st = vzero -> hm_low m = 0 -> hd_lbias d = 0 -> hinge_lower env j d m st = (0, st).
Proof.
  intros H C B. assert (F : fst (hinge_lower env j d m st) = 0).
  { unfold hinge_lower. destruct (_ && _); [| exact C]. cbn [fst]. fold (turn (hg_link j) st). rewrite C, B, H. replace (vdot vzero (hd_a1 d)) with 0 by (generalize (hd_a1 d); vs). apply zero_max. }
  assert (S := hinge_lower_recv env j d m vzero vzero st). rewrite F, C in S. replace (0 - 0) with 0 in S by ring. rewrite vscale_0, pull_none in S.
  now rewrite (surjective_pairing (hinge_lower _ _ _ _ _)), F, S.
Qed.
Lemma idle_upper j d m : turn (hg_link j) st = vzero -> hm_up m = 0 -> hd_ubias d = 0 -> hinge_upper env j d m st = (0, st).
Proof.
  intros H C B. assert (F : fst (hinge_upper env j d m st) = 0).
  { unfold hinge_upper. destruct (_ && _); [| exact C]. cbn [fst]. fold (turn (hg_link j) st). rewrite C, B, H. replace (- vdot vzero (hd_a1 d)) with 0 by (generalize (hd_a1 d); vs). apply zero_max. }
  assert (S := hinge_upper_recv env j d m vzero vzero st). rewrite F, C in S. replace (- (0 - 0)) with 0 in S by ring. rewrite vscale_0, pull_none in S.
  now rewrite (surjective_pairing (hinge_upper _ _ _ _ _)), F, S.
Qed.
Lemma idle_turn j d : vdot (hd_b d) (turn (hg_link j) st) = 0 -> vdot (hd_c d) (turn (hg_link j) st) = 0 -> hd_rbias d = (0, 0) -> hinge_turn env j d st = ((0, 0), st).
Proof.
  intros Hb Hc B. assert (F : fst (hinge_turn env j d st) = (0, 0)).
  { unfold hinge_turn. cbn [fst]. rewrite B. cbn [fst snd].
    replace (- vdot (hd_b d) (cw (st (l_b1 (hg_link j)))) + vdot (hd_b d) (cw (st (l_b2 (hg_link j))))) with (vdot (hd_b d) (turn (hg_link j) st)) by (unfold turn; rewrite vdot_vsub_r; ring).
    replace (- vdot (hd_c d) (cw (st (l_b1 (hg_link j)))) + vdot (hd_c d) (cw (st (l_b2 (hg_link j))))) with (vdot (hd_c d) (turn (hg_link j) st)) by (unfold turn; rewrite vdot_vsub_r; ring).
    rewrite Hb, Hc. unfold mat2_vec. cbn. f_equal; ring. }
  assert (S := hinge_turn_recv env j d vzero vzero st). rewrite F in S. cbn [fst snd] in S. rewrite !vscale_0, vadd_0, pull_none in S.
  now rewrite (surjective_pairing (hinge_turn _ _ _ _)), F, S.
Qed.
Lemma vdot_zero_r a b : b = vzero -> vdot a b = 0.
Proof. intros ->. vs. Qed.
Lemma idle_slower j d m : slides env j d -> rel (sl_link j) (offset1 env j) (arm2 env (sl_link j)) st = vzero -> sm_low m = 0 -> sd_lbias d = 0 -> slider_lower env j d m st = (0, st).
Proof.
  intros Sl H C B. assert (F : fst (slider_lower env j d m st) = 0).
  { unfold slider_lower. destruct (_ && _); [| exact C]. cbn [fst]. rewrite C, B.
    replace (slider_speed (sl_link j) (sd_axis d) (sd_r1a d) (sd_r2a d) st) with (vdot (sd_axis d) (rel (sl_link j) (offset1 env j) (arm2 env (sl_link j)) st)).
    - rewrite H. replace (vdot (sd_axis d) vzero) with 0 by (generalize (sd_axis d); vs). apply zero_max.
    - destruct Sl as (_ & _ & S3 & _ & _ & S6). rewrite S3, S6. unfold slider_speed, rel, relative. set (l := sl_link j).
      generalize (cv (st (l_b1 l))), (cw (st (l_b1 l))), (cv (st (l_b2 l))), (cw (st (l_b2 l))), (sd_axis d), (offset1 env j), (arm2 env l). vs. }
  assert (S := slider_lower_recv env j d m st Sl). rewrite F, C in S. replace (0 - 0) with 0 in S by ring. rewrite vscale_0, pull_none in S.
  now rewrite (surjective_pairing (slider_lower _ _ _ _ _)), F, S.
Qed.
Lemma idle_supper j d m : slides env j d -> rel (sl_link j) (offset1 env j) (arm2 env (sl_link j)) st = vzero -> sm_up m = 0 -> sd_ubias d = 0 -> slider_upper env j d m st = (0, st).
Proof.
  intros Sl H C B. assert (F : fst (slider_upper env j d m st) = 0).
  { unfold slider_upper. destruct (_ && _); [| exact C]. cbn [fst]. rewrite C, B.
    replace (vdot (sd_axis d) (cv (st (l_b1 (sl_link j)))) + vdot (sd_r1a d) (cw (st (l_b1 (sl_link j)))) - vdot (sd_axis d) (cv (st (l_b2 (sl_link j)))) - vdot (sd_r2a d) (cw (st (l_b2 (sl_link j)))))
      with (- vdot (sd_axis d) (rel (sl_link j) (offset1 env j) (arm2 env (sl_link j)) st)).
    - rewrite H. replace (- vdot (sd_axis d) vzero) with 0 by (generalize (sd_axis d); vs). apply zero_max.
    - destruct Sl as (_ & _ & S3 & _ & _ & S6). rewrite S3, S6. unfold rel, relative. set (l := sl_link j).
      generalize (cv (st (l_b1 l))), (cw (st (l_b1 l))), (cv (st (l_b2 l))), (cw (st (l_b2 l))), (sd_axis d), (offset1 env j), (arm2 env l). vs. }
  assert (S := slider_upper_recv env j d m st Sl). rewrite F, C in S. replace (- (0 - 0)) with 0 in S by ring. rewrite vscale_0, pull_none in S.
  now rewrite (surjective_pairing (slider_upper _ _ _ _ _)), F, S.
Qed.
Lemma idle_slide j d : slides env j d -> vdot (sd_n1 d) (rel (sl_link j) (offset1 env j) (arm2 env (sl_link j)) st) = 0 ->
  vdot (sd_n2 d) (rel (sl_link j) (offset1 env j) (arm2 env (sl_link j)) st) = 0 -> sd_bias d = (0, 0) -> slider_slide env j d st = ((0, 0), st).
Proof.
  intros Sl H1 H2 B. assert (F : fst (slider_slide env j d st) = (0, 0)).
  { transitivity (mat2_vec (sd_inv d) (- vdot (sd_n1 d) (rel (sl_link j) (offset1 env j) (arm2 env (sl_link j)) st), - vdot (sd_n2 d) (rel (sl_link j) (offset1 env j) (arm2 env (sl_link j)) st))).
    - destruct Sl as (S1 & S2 & S3 & S4 & S5 & S6). unfold slider_slide. cbn [fst]. rewrite B, S1, S2, S4, S5. cbn [fst snd]. set (l := sl_link j). f_equal. unfold rel, relative.
      generalize (cv (st (l_b1 l))), (cw (st (l_b1 l))), (cv (st (l_b2 l))), (cw (st (l_b2 l))), (sd_n1 d), (sd_n2 d), (offset1 env j), (arm2 env l). vs.
    - rewrite H1, H2. unfold mat2_vec. cbn. f_equal; ring. }
  assert (S := slider_slide_recv env j d st Sl). rewrite F in S. cbn [fst snd] in S. rewrite !vscale_0, vadd_0, pull_none in S.
  now rewrite (surjective_pairing (slider_slide _ _ _ _)), F, S.
Qed.
Lemma moves_slide v w j : moves_with env v w st (l_b1 (sl_link j)) -> moves_with env v w st (l_b2 (sl_link j)) -> rel (sl_link j) (offset1 env j) (arm2 env (sl_link j)) st = vzero.
Proof.
  intros A B. apply (moves_rel v w); try assumption. unfold offset1, gap. generalize (r_x (jb (env (l_b1 (sl_link j))))), (r_x (jb (env (l_b2 (sl_link j))))), (arm1 env (sl_link j)), (arm2 env (sl_link j)). vs.
Qed.
Variables (v w : vec3).
Notation moves := (moves_with env v w st).
Definition still (j : joint) : Prop :=
  passive j /\ moves (l_b1 (link_of j)) /\ moves (l_b2 (link_of j)) /\ match j with JSlider _ _ => True | _ => anchor1 env (link_of j) = anchor2 env (link_of j) end.
Lemma idle_solve j r : still j -> of_joint eps dt env j r -> unused (keep_joint r) ->
  snd (solve_joint dt env r st) = st /\ unused (keep_joint (fst (solve_joint dt env r st))).
Proof.
  intros ((Bm & Mo) & M1 & M2 & An) O U. assert (Tn := moves_turn _ _ _ M1 M2).
  destruct j as [j m | j m | j m | j m], r as [j' d m' | j' d m' | j' d m' | j' d m']; cbn [of_joint] in O; try contradiction; cbn [link_of keep_joint unused] in *; unfold solve_joint.
  - destruct O as (-> & -> & _). destruct U as [U1 U2]. assert (Rl := moves_rel _ _ _ _ _ M1 M2 An). unfold ball_solve.
    rewrite idle_ball; [| assumption .. | cbn; now rewrite Bm]. cbn [ball_init fst bd_r1 bd_r2 bd_bias]. unfold translation_bias. rewrite Bm.
    rewrite (idle_translation (bl_link j) (arm1 env (bl_link j)) (arm2 env (bl_link j)) _ Rl). cbn [fst snd keep_joint unused bm_imp bm_cone]. rewrite U1, vadd_0. auto.
  - destruct O as (-> & ->). destruct U as [U1 U2]. assert (Rl := moves_rel _ _ _ _ _ M1 M2 An). unfold fixed_solve. cbn [fixed_init fst fd_r1 fd_r2 fd_bias fd_rbias].
    unfold translation_bias, rotation_bias. rewrite Bm. rewrite (idle_translation (fx_link j) (arm1 env (fx_link j)) (arm2 env (fx_link j)) _ Rl), idle_rotation by exact Tn.
    cbn [fst snd keep_joint unused fm_imp fm_rot]. rewrite U1, U2, vadd_0. auto.
  - destruct O as (-> & -> & _). destruct U as (U1 & U2 & U3 & U4 & U5). assert (Rl := moves_rel _ _ _ _ _ M1 M2 An). unfold hinge_solve.
    rewrite idle_lower by (try assumption; cbn; now rewrite Bm). rewrite idle_upper by (try assumption; cbn; now rewrite Bm). unfold hinge_drive. destruct Mo as [-> _].
    rewrite idle_turn by (first [now apply vdot_zero_r | cbn; now rewrite Bm]). cbn [hinge_init fst snd hd_r1 hd_r2 hd_bias]. unfold translation_bias. rewrite Bm.
    rewrite (idle_translation (hg_link j) (arm1 env (hg_link j)) (arm2 env (hg_link j)) _ Rl). cbn [fst snd keep_joint unused hm_imp hm_rot hm_low hm_up hm_motor]. rewrite U1, U2, U5, vadd_0. cbn. rewrite Rplus_0_r. auto 8.
  - destruct O as (-> & -> & _). destruct U as (U1 & U2 & U3 & U4 & U5). assert (Sl := slider_slides eps dt env j m).
    assert (Rl : rel (sl_link j) (offset1 env j) (arm2 env (sl_link j)) st = vzero) by now apply (moves_slide v w).
    unfold slider_solve. rewrite idle_slower by (try assumption; cbn; now rewrite Bm). rewrite idle_supper by (try assumption; cbn; now rewrite Bm). unfold slider_drive. destruct Mo as [-> _].
    assert (Z : sd_rbias (fst (slider_init eps dt env j m)) = vzero) by (cbn; unfold rotation_bias; now rewrite Bm). rewrite Z, idle_rotation by exact Tn.
    rewrite idle_slide by (first [assumption | now apply vdot_zero_r | cbn; now rewrite Bm]). cbn [fst snd keep_joint unused sm_imp sm_rot sm_low sm_up sm_motor]. rewrite U1, U2, U5, vadd_0. cbn. rewrite Rplus_0_r. auto 8.
Qed.
Lemma idle_init j : unused j -> unused (keep_joint (init_joint eps dt env j)).
Proof.
  destruct j as [j m | j m | j m | j m]; cbn [unused init_joint]; [| auto | |].
  - intros [A B]. cbn. rewrite A, B. destruct (_ || _); auto.
  - intros (A & B & C & D & E). cbn. unfold limit_start. rewrite A, B, C, D, E. destruct (_ || _), (_ || _); auto.
  - intros (A & B & C & D & E). cbn. unfold limit_start. rewrite A, B, C, D, E. destruct (_ || _), (_ || _); auto.
Qed.
Lemma idle_applied r : unused (keep_joint r) -> recv (applied env r) st = st.
Proof.
  destruct r as [j d m | j d m | j d m | j d m]; cbn [unused keep_joint applied].
  - intros [-> ->]. now rewrite Ropp_0, vscale_0, pull_none.
  - intros [-> ->]. now rewrite pull_none.
  - intros (-> & -> & -> & -> & ->). cbn [fst snd]. replace (0 - 0 + 0) with 0 by ring. now rewrite !vscale_0, !vadd_0, pull_none.
  - intros (-> & -> & -> & -> & ->). cbn [fst snd]. replace (0 - 0) with 0 by ring. now rewrite receive_all_app, Ropp_0, !vscale_0, !vadd_0, !pull_none.
Qed.
Lemma idle_all : forall js rs, Forall2 (of_joint eps dt env) js rs -> (forall j, In j js -> still j) -> Forall (fun r => unused (keep_joint r)) rs ->
  snd (solve_joints dt env rs st) = st /\ Forall2 (of_joint eps dt env) js (fst (solve_joints dt env rs st)) /\ Forall (fun r => unused (keep_joint r)) (fst (solve_joints dt env rs st)).
Proof.
  intros js rs H. induction H as [| j r js rs O H IH]; intros S U; [split; [reflexivity | split; constructor] |]. inversion U as [| ? ? Ur Urs]; subst. cbn [solve_joints].
  destruct (idle_solve j r (S j (or_introl eq_refl)) O Ur) as [A B]. assert (C := solve_of_joint eps dt env j r st O). destruct (solve_joint dt env r st) as [r' s']. cbn [fst snd] in *. subst s'.
  destruct IH as (D & F & G); [intros; apply S; now right | exact Urs |]. destruct (solve_joints dt env rs st) as [rs' s']. cbn [fst snd] in *. split; [exact D |]. split; now constructor.
Qed.
Lemma idle_warms js rs : Forall2 (of_joint eps dt env) js rs -> Forall (fun r => unused (keep_joint r)) rs -> fold_left (fun st r => warm_joint env r st) rs st = st.
Proof.
  intros O U. induction O as [| j r js' rs' Oj _ IH]; [reflexivity |]. inversion U; subst. cbn [fold_left]. rewrite (warm_recv eps dt env j r st Oj), idle_applied by assumption. now apply IH.
Qed.
Lemma idle_step n js : (forall j, In j js -> still j /\ unused j) -> snd (joints_step eps dt n env js st) = st.
Proof.
  intros H. unfold joints_step. set (rs := map (init_joint eps dt env) js).
  assert (O : Forall2 (of_joint eps dt env) js rs) by (clear; unfold rs; induction js; cbn; constructor; [apply init_of_joint | assumption]).
  assert (U : Forall (fun r => unused (keep_joint r)) rs).
  { apply Forall_forall. intros r Hr. apply in_map_iff in Hr. destruct Hr as (j & <- & Hj). apply idle_init, H, Hj. }
  assert (W := idle_warms js rs O U).
  rewrite W. assert (St : forall j, In j js -> still j) by (intros; now apply H). clear H W; clearbody rs. revert rs O U.
  induction n as [| n IH]; intros rs O U; [reflexivity |]. cbn [iterate_joints]. destruct (idle_all js rs O St U) as (A & B & C).
  destruct (solve_joints dt env rs st) as [rs' s']. cbn [fst snd] in *. subst s'. now apply IH.
Qed.
End Idle.

(** ** Limits and motors *)
Lemma step_inv (P : joint -> ready -> Prop) : (forall j r st, of_joint eps dt env j r -> P j r -> P j (fst (solve_joint dt env r st))) ->
  forall n js st, (forall j, In j js -> P j (init_joint eps dt env j)) -> Forall2 (fun j r => of_joint eps dt env j r /\ P j r) js (fst (joints_step eps dt n env js st)).
Proof.
  intros H n js st I. unfold joints_step. set (rs := map (init_joint eps dt env) js). generalize (fold_left (fun st r => warm_joint env r st) rs st).
  assert (A : Forall2 (fun j r => of_joint eps dt env j r /\ P j r) js rs).
  { unfold rs. clear rs. induction js as [| j js IH]; cbn; constructor; [split; [apply init_of_joint | apply I; now left] |]. apply IH. intros; apply I; now right. }
  clearbody rs. revert rs A. induction n as [| n IH]; intros rs A s; [exact A |]. cbn [iterate_joints].
  assert (B : Forall2 (fun j r => of_joint eps dt env j r /\ P j r) js (fst (solve_joints dt env rs s))).
  { clear IH I. revert s. induction A as [| j r js rs [O Pj] A IH]; intros s; [constructor |]. cbn [solve_joints].
    assert (C := solve_of_joint eps dt env j r s O). assert (D := H j r s O Pj). destruct (solve_joint dt env r s) as [r' s']. specialize (IH s'). destruct (solve_joints dt env rs s') as [rs' s'']. cbn [fst] in *. constructor; auto. }
  destruct (solve_joints dt env rs s) as [rs' s']. cbn [fst] in B. now apply IH.
Qed.
(** Impulses of limits: not negative, and none unless the limit is reached. *)
Definition lawful (j : joint) (r : ready) : Prop :=
  sane (keep_joint r) /\
  match r with
  | RHinge j _ m => (hm_lviol m = false -> hm_low m = 0) /\ (hm_uviol m = false -> hm_up m = 0)
  | RSlider j _ m => (sm_lviol m = false -> sm_low m = 0) /\ (sm_uviol m = false -> sm_up m = 0)
  | _ => True
  end.
Lemma limit_start_sane v b x : 0 <= x -> 0 <= limit_start v b x /\ (v = false -> limit_start v b x = 0).
Proof. intros H. unfold limit_start. destruct v, b; cbn; split; try lra; try discriminate; auto. Qed.
Lemma init_lawful j : sane j -> lawful j (init_joint eps dt env j).
Proof.
  destruct j as [j m | j m | j m | j m]; cbn [sane]; intros H; unfold lawful.
  - cbn. split; [| exact Logic.I]. destruct (_ || _); [lra | exact H].
  - cbn. auto.
  - destruct H as [A B]. cbn [init_joint]. destruct (hinge_init eps dt env j m) as [d m'] eqn:E. unfold hinge_init in E. cbv zeta in E. inversion E. clear E. subst m'. cbn [keep_joint sane hm_low hm_up hm_lviol hm_uviol].
    repeat match goal with |- context [limit_start ?v ?b ?x] => let C := fresh in assert (C : 0 <= limit_start v b x /\ (v = false -> limit_start v b x = 0)) by (now apply limit_start_sane); revert C; generalize (limit_start v b x); intros end.
    intuition.
  - destruct H as [A B]. cbn [init_joint]. destruct (slider_init eps dt env j m) as [d m'] eqn:E. unfold slider_init in E. cbv zeta in E. inversion E. clear E. subst m'. cbn [keep_joint sane sm_low sm_up sm_lviol sm_uviol].
    repeat match goal with |- context [limit_start ?v ?b ?x] => let C := fresh in assert (C : 0 <= limit_start v b x /\ (v = false -> limit_start v b x = 0)) by (now apply limit_start_sane); revert C; generalize (limit_start v b x); intros end.
    intuition.
Qed.
Lemma solve_lawful j r st : lawful j r -> lawful j (fst (solve_joint dt env r st)).
Proof.
  destruct r as [j' d m | j' d m | j' d m | j' d m]; unfold lawful; cbn [keep_joint sane]; intros [S L]; unfold solve_joint.
  - unfold ball_solve. assert (X : 0 <= fst (ball_limit env j' d m st)) by (unfold ball_limit; destruct (_ && _); cbn [fst]; [apply Rmax_r | exact S]).
    destruct (ball_limit env j' d m st) as [a s1]. cbn [fst] in X. destruct (translation_step _ _ _ _ _ _ _). cbn. auto.
  - destruct (fixed_solve env j' d m st). cbn. auto.
  - unfold hinge_solve.
    assert (X : 0 <= fst (hinge_lower env j' d m st) /\ (hm_lviol m = false -> fst (hinge_lower env j' d m st) = 0)).
    { unfold hinge_lower. destruct (hg_limit j'), (hm_lviol m); cbn [andb fst]; split; try tauto; try discriminate. apply Rmax_r. }
    destruct (hinge_lower env j' d m st) as [a s1]. cbn [fst] in X.
    assert (Y : 0 <= fst (hinge_upper env j' d m s1) /\ (hm_uviol m = false -> fst (hinge_upper env j' d m s1) = 0)).
    { unfold hinge_upper. destruct (hg_limit j'), (hm_uviol m); cbn [andb fst]; split; try tauto; try discriminate. apply Rmax_r. }
    destruct (hinge_upper env j' d m s1) as [b s2]. cbn [fst] in Y. destruct (hinge_drive dt env j' d m s2), (hinge_turn _ _ _ _), (translation_step _ _ _ _ _ _ _). cbn. tauto.
  - unfold slider_solve.
    assert (X : 0 <= fst (slider_lower env j' d m st) /\ (sm_lviol m = false -> fst (slider_lower env j' d m st) = 0)).
    { unfold slider_lower. destruct (sl_limit j'), (sm_lviol m); cbn [andb fst]; split; try tauto; try discriminate. apply Rmax_r. }
    destruct (slider_lower env j' d m st) as [a s1]. cbn [fst] in X.
    assert (Y : 0 <= fst (slider_upper env j' d m s1) /\ (sm_uviol m = false -> fst (slider_upper env j' d m s1) = 0)).
    { unfold slider_upper. destruct (sl_limit j'), (sm_uviol m); cbn [andb fst]; split; try tauto; try discriminate. apply Rmax_r. }
    destruct (slider_upper env j' d m s1) as [b s2]. cbn [fst] in Y. destruct (slider_drive dt env j' d m s2), (rotation_step _ _ _ _ _), (slider_slide _ _ _ _). cbn. tauto.
Qed.
Lemma step_lawful n js st : Forall sane js -> Forall2 (fun j r => of_joint eps dt env j r /\ lawful j r) js (fst (joints_step eps dt n env js st)).
Proof. intros H. apply step_inv; [intros; now apply solve_lawful |]. intros j Hj. apply init_lawful. rewrite Forall_forall in H. now apply H. Qed.
Lemma Forall2_right {A B} (P : A -> B -> Prop) (Q : B -> Prop) l k : (forall a b, P a b -> Q b) -> Forall2 P l k -> Forall Q k.
Proof. intros H F. induction F; constructor; eauto. Qed.
Lemma step_sane n js st : Forall sane js -> Forall sane (map keep_joint (fst (joints_step eps dt n env js st))).
Proof.
  intros H. apply Forall_map. apply (Forall2_right (fun j r => of_joint eps dt env j r /\ lawful j r) _ js); [| now apply step_lawful]. intros a b [_ [S _]]. exact S.
Qed.
(** The motor. *)
Definition motor_kept (j : joint) (r : ready) : Prop := motor_idle (keep_joint r).
Lemma step_motor_idle n js st : Forall motor_idle js -> Forall motor_idle (map keep_joint (fst (joints_step eps dt n env js st))).
Proof.
  intros H. apply Forall_map. apply (Forall2_right (fun j r => of_joint eps dt env j r /\ motor_kept j r) _ js); [now intros a b [_ S] |].
  apply step_inv.
  - intros j r s _. unfold motor_kept. destruct r as [j' d m | j' d m | j' d m | j' d m]; cbn [keep_joint motor_idle]; intros S; unfold solve_joint.
    + destruct (ball_solve env j' d m s). exact Logic.I.
    + destruct (fixed_solve env j' d m s). exact Logic.I.
    + unfold hinge_solve. destruct (hinge_lower env j' d m s) as [? s1], (hinge_upper env j' d m s1) as [? s2]. unfold hinge_drive. destruct (hg_motor j') eqn:E.
      * destruct (hinge_turn _ _ _ _), (translation_step _ _ _ _ _ _ _). cbn. rewrite E. discriminate.
      * destruct (hinge_turn _ _ _ _), (translation_step _ _ _ _ _ _ _). cbn. auto.
    + unfold slider_solve. destruct (slider_lower env j' d m s) as [? s1], (slider_upper env j' d m s1) as [? s2]. unfold slider_drive. destruct (sl_motor j') eqn:E.
      * destruct (rotation_step _ _ _ _ _), (slider_slide _ _ _ _). cbn. rewrite E. discriminate.
      * destruct (rotation_step _ _ _ _ _), (slider_slide _ _ _ _). cbn. auto.
  - rewrite Forall_forall in H. intros j Hj. specialize (H j Hj). unfold motor_kept. destruct j; cbn in *; auto.
Qed.
Definition bounded (f x : R) : Prop := - f <= x <= f.
Definition within (r : ready) : Prop :=
  match r with RHinge j _ m => hg_motor j = true -> 0 <= hg_torque j * dt -> bounded (hg_torque j * dt) (hm_motor m)
  | RSlider j _ m => sl_motor j = true -> 0 <= sl_force j * dt -> bounded (sl_force j * dt) (sm_motor m) | _ => True end.
Lemma solve_within r st : within (fst (solve_joint dt env r st)).
Proof.
  destruct r as [j d m | j d m | j d m | j d m]; unfold solve_joint.
  - destruct (ball_solve env j d m st). exact Logic.I.
  - destruct (fixed_solve env j d m st). exact Logic.I.
  - unfold hinge_solve. destruct (hinge_lower env j d m st) as [? s1], (hinge_upper env j d m s1) as [? s2]. unfold hinge_drive. destruct (hg_motor j) eqn:E.
    + destruct (hinge_turn _ _ _ _), (translation_step _ _ _ _ _ _ _). cbn. intros _ H. now apply clamp_sym_cases.
    + destruct (hinge_turn _ _ _ _), (translation_step _ _ _ _ _ _ _). cbn. congruence.
  - unfold slider_solve. destruct (slider_lower env j d m st) as [? s1], (slider_upper env j d m s1) as [? s2]. unfold slider_drive. destruct (sl_motor j) eqn:E.
    + destruct (rotation_step _ _ _ _ _), (slider_slide _ _ _ _). cbn. intros _ H. now apply clamp_sym_cases.
    + destruct (rotation_step _ _ _ _ _), (slider_slide _ _ _ _). cbn. congruence.
Qed.
Lemma solve_all_within : forall rs st, Forall within (fst (solve_joints dt env rs st)).
Proof.
  induction rs as [| r rs IH]; intros st; [constructor |]. cbn [solve_joints]. assert (W := solve_within r st). destruct (solve_joint dt env r st) as [r' s]. specialize (IH s).
  destruct (solve_joints dt env rs s) as [rs' s']. constructor; assumption.
Qed.
Lemma iterate_within : forall n rs st, Forall within (fst (iterate_joints (S n) dt env rs st)).
Proof.
  induction n as [| n IH]; intros rs st.
  - cbn [iterate_joints]. assert (W := solve_all_within rs st). destruct (solve_joints dt env rs st). exact W.
  - change (iterate_joints (S (S n)) dt env rs st) with (let '(l, s) := solve_joints dt env rs st in iterate_joints (S n) dt env l s). destruct (solve_joints dt env rs st). apply IH.
Qed.
Lemma motor_bounded n js st r : 0 < dt -> In r (fst (joints_step eps dt (S n) env js st)) -> motor_on (keep_joint r) = true -> 0 <= motor_max (keep_joint r) ->
  - motor_max (keep_joint r) <= motor_effort dt r <= motor_max (keep_joint r).
Proof.
  intros Hd Hr M F. unfold joints_step in Hr. assert (W := iterate_within n (map (init_joint eps dt env) js) (fold_left (fun st r => warm_joint env r st) (map (init_joint eps dt env) js) st)).
  rewrite Forall_forall in W. specialize (W r Hr). clear Hr. destruct r as [j d m | j d m | j d m | j d m]; cbn in *; try discriminate.
  - destruct (W M) as [A B]; [nra |]. split; apply (Rmult_le_reg_r dt); try exact Hd; unfold Rdiv; rewrite Rmult_assoc, Rinv_l, Rmult_1_r by lra; lra.
  - destruct (W M) as [A B]; [nra |]. split; apply (Rmult_le_reg_r dt); try exact Hd; unfold Rdiv; rewrite Rmult_assoc, Rinv_l, Rmult_1_r by lra; lra.
Qed.
(** The force along the axis. *)
Lemma rle_above x y : y < x -> rle x y = false.
Proof. intros H. destruct (rle x y) eqn:E; [apply rle_true in E; lra | reflexivity]. Qed.
Lemma vdiv_dot a b k : vdot (vdiv a k) b = vdot a b / k.
Proof. destruct a, b. unfold vdiv, vdot. cbn. unfold Rdiv. ring. Qed.
Lemma inwards j r : eps <= 1 -> 0 < dt -> of_joint eps dt env j r -> lawful j r -> motor_kept j r -> pushes_inwards dt env j r.
Proof.
  intros He Hd O [S L] M. destruct j as [j m | j m | j m | j m], r as [j' d m' | j' d m' | j' d m' | j' d m']; cbn [of_joint] in O; try contradiction; cbn [pushes_inwards]; try exact Logic.I.
  - destruct O as (-> & -> & V1 & V2). intros U Mo. cbn [reaction_torque]. cbn [motor_kept keep_joint motor_idle] in M. unfold motor_kept in M. cbn in M. specialize (M Mo). cbn [keep_joint sane] in S.
    rewrite vdiv_dot. rewrite M. cbn [hinge_init fst snd hd_b hd_c hd_a1 hm_lviol hm_uviol] in *. fold (hinge_axis env j) in *. rewrite (vnormalize_unit eps (hinge_axis env j) U He) in *.
    set (a := hinge_axis env j) in *. fold (angle_of env j) in V1, V2. unfold a in V1, V2. fold (angle_of env j) in V1, V2. fold a in V1, V2.
    set (b2 := orthogonal_unit _). set (c2 := vcross _ b2).
    replace (vdot _ a) with (hm_low m' - hm_up m').
    2: { clearbody b2 c2. clear V1 V2. clearbody a. unfold vcross, vlen2, vdot in U |- *. destruct a, b2, c2. cbn in *. nra. }
    split; intros H.
    + rewrite (proj1 L). * unfold Rdiv. assert (0 < / dt) by now apply Rinv_0_lt_compat. nra. * rewrite V1. apply rle_above. lra.
    + rewrite (proj2 L). * unfold Rdiv. assert (0 < / dt) by now apply Rinv_0_lt_compat. nra. * rewrite V2. apply rle_above. lra.
  - destruct O as (-> & -> & V1 & V2). intros U Mo. cbn [reaction_force]. unfold motor_kept in M. cbn in M. specialize (M Mo). cbn [keep_joint sane] in S.
    rewrite vdiv_dot. rewrite M. cbn [slider_init fst snd sd_n1 sd_n2 sd_axis sm_lviol sm_uviol] in *. fold (slider_axis env j) in *. rewrite (vnormalize_unit eps (slider_axis env j) U He) in *.
    destruct (frame_of (slider_axis env j) U) as (F1 & F2 & F3 & F4 & F5 & F6).
    replace (vdot (gap env (sl_link j) (arm1 env (sl_link j)) (arm2 env (sl_link j))) (slider_axis env j)) with (extension env j) in V1, V2.
    2: { unfold extension, anchor1, anchor2, place, gap, arm1, arm2, arm. f_equal. generalize (r_x (jb (env (l_b1 (sl_link j))))), (r_x (jb (env (l_b2 (sl_link j))))). intros. vs. }
    replace (vdot _ (slider_axis env j)) with (sm_low m' - sm_up m').
    2: { rewrite !vdot_vadd_l, !vdot_vscale_l. rewrite <- (vlen2_dot (slider_axis env j)), U, F4, F5. ring. }
    split; intros H.
    + rewrite (proj1 L). * unfold Rdiv. assert (0 < / dt) by now apply Rinv_0_lt_compat. nra. * rewrite V1. apply rle_above. lra.
    + rewrite (proj2 L). * unfold Rdiv. assert (0 < / dt) by now apply Rinv_0_lt_compat. nra. * rewrite V2. apply rle_above. lra.
Qed.
End Rest.
Lemma step_energy eps dt env inertia bodies n js st : NoDup bodies -> carried (rigids env) inertia bodies -> 0 <= eps <= 1 ->
  (forall j, In j js -> unused j /\ passive j /\ firm eps env j /\ solid env (link_of j) /\ ready_pair env bodies (link_of j) st) ->
  energy (rigids env) inertia bodies (snd (joints_step eps dt n env js st)) <= energy (rigids env) inertia bodies st.
Proof.
  intros N K He H. unfold joints_step.
  assert (O : Forall2 (of_joint eps dt env) js (map (init_joint eps dt env) js)) by (clear; induction js; cbn; constructor; [apply init_of_joint | assumption]).
  assert (U : Forall (fun r => unused (keep_joint r)) (map (init_joint eps dt env) js)).
  { apply Forall_map, Forall_forall. intros j Hj. apply idle_init, H, Hj. }
  rewrite (idle_warms eps dt env st js _ O U). apply (iterate_energy eps dt env inertia bodies N K n js); [exact He | exact O | |].
  - revert U. apply Forall_impl. intros r. destruct r; cbn [keep_joint unused sane]; intros Z; decompose [and] Z; repeat match goal with E : _ = 0 |- _ => rewrite E end; lra.
  - intros j Hj. destruct (H j Hj) as (_ & A & B & C & D). split; [exact A | split; [exact B | split; [exact C | exact D]]].
Qed.
(** A joint that cannot act: its matrix counts as singular. *)
Lemma mat_zero_any v : mat_vec mat_zero v = vzero.
Proof. unfold mat_vec, mat_zero, vzero, vdot, mk_mat. destruct v. cbn. f_equal; ring. Qed.
Lemma limp_step eps dt env j m n st : bl_cone j = false -> unused (JBall j m) ->
  Rabs (mat_det (mass_matrix env (bl_link j) (arm1 env (bl_link j)) (arm2 env (bl_link j)))) <= eps ->
  snd (joints_step eps dt n env [JBall j m] st) = st.
Proof.
  intros Hc U Hd. unfold joints_step. cbn [map].
  assert (O : Forall2 (of_joint eps dt env) [JBall j m] [init_joint eps dt env (JBall j m)]) by (constructor; [apply init_of_joint | constructor]).
  assert (V : Forall (fun r => unused (keep_joint r)) [init_joint eps dt env (JBall j m)]) by (constructor; [now apply idle_init | constructor]).
  rewrite (idle_warms eps dt env st _ _ O V). assert (Or := init_of_joint eps dt env (JBall j m)). assert (Vr := idle_init eps dt env (JBall j m) U).
  clear O V U. revert Or Vr. generalize (init_joint eps dt env (JBall j m)). induction n as [| n IH]; intros r O V; [reflexivity |]. cbn [iterate_joints solve_joints].
  assert (B := solve_of_joint eps dt env _ r st O).
  assert (A : snd (solve_joint dt env r st) = st /\ unused (keep_joint (fst (solve_joint dt env r st)))).
  { destruct r as [j' d m' | | |]; cbn in O; try contradiction. destruct O as (-> & -> & _). destruct V as [V1 V2]. unfold solve_joint, ball_solve, ball_limit. rewrite Hc. cbn [andb].
    assert (F : fst (translation_step env (bl_link j) (bd_r1 (fst (ball_init eps dt env j m))) (bd_r2 (fst (ball_init eps dt env j m))) (bd_inv (fst (ball_init eps dt env j m))) (bd_bias (fst (ball_init eps dt env j m))) st) = vzero).
    { rewrite translation_delta. replace (bd_inv (fst (ball_init eps dt env j m))) with mat_zero; [apply mat_zero_any |]. cbn [ball_init fst bd_inv]. unfold invert_mass.
      destruct (rlt eps (Rabs (mat_det (mass_matrix env (bl_link j) (arm1 env (bl_link j)) (arm2 env (bl_link j)))))) eqn:E; [apply rlt_true in E; lra | reflexivity]. }
    assert (S := translation_recv env (bl_link j) (bd_r1 (fst (ball_init eps dt env j m))) (bd_r2 (fst (ball_init eps dt env j m))) (bd_inv (fst (ball_init eps dt env j m))) (bd_bias (fst (ball_init eps dt env j m))) st).
    rewrite F, pull_none in S. destruct (translation_step _ _ _ _ _ _ _) as [dl s]. cbn [fst snd] in *. subst. cbn. rewrite V1, V2, vadd_0. auto. }
  destruct (solve_joint dt env r st) as [r' s']. cbn [fst snd] in *. destruct A as [-> A]. now apply IH.
Qed.
