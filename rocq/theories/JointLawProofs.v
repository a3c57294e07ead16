(** Laws of mechanics for all joints: momentum, angular momentum, bodies left alone, and the forces reported. *)
From Coq Require Import List Reals Lra Psatz Bool Arith.
From Verif Require Import VecModel VecProofs ContactModel ContactSpec ContactProofs ContactLawProofs ContactBooksProofs JointModel JointSpec JointProofs.
Import ListNotations.
Local Open Scope R_scope.

Section Laws.
Variables (eps dt : R) (env : jbodies).
Notation rig := (rigids env).
Notation recv := (receive_all rig).
(** Impulses that stay as they are while their source is switched off. *)
Definition resting (j : joint) : Prop :=
  match j with JBall j m => bl_cone j = false -> bm_cone m = 0 | JSlider j m => sl_motor j = false -> sm_motor m = 0 | _ => True end.
Lemma init_resting j : resting j -> resting (keep_joint (init_joint eps dt env j)).
Proof.
  destruct j as [j m | j m | j m | j m]; cbn; try tauto. intros H Hc. specialize (H Hc). destruct (negb _ || negb _); [reflexivity | exact H].
Qed.
Lemma solve_resting r st : resting (keep_joint r) -> resting (keep_joint (fst (solve_joint dt env r st))).
Proof.
  destruct r as [j d m | j d m | j d m | j d m]; unfold solve_joint.
  - unfold ball_solve, ball_limit. intros H. destruct (bl_cone j) eqn:C; cbn in H.
    + destruct (bm_violated m); cbn [andb]; destruct (translation_step _ _ _ _ _ _ _) as [dl s2]; cbn; rewrite C; discriminate.
    + cbn [andb]. destruct (translation_step _ _ _ _ _ _ _) as [dl s2]. cbn. auto.
  - intros _. destruct (fixed_solve _ _ _ _ _). exact I.
  - intros _. destruct (hinge_solve _ _ _ _ _ _). exact I.
  - unfold slider_solve, slider_drive. intros H. destruct (slider_lower _ _ _ _ _) as [a s1]. destruct (slider_upper _ _ _ _ _) as [b s2].
    cbn in H. destruct (sl_motor j) eqn:C.
    + destruct (rotation_step _ _ _ _ _) as [e s4]. destruct (slider_slide _ _ _ _) as [f s5]. cbn. rewrite C. discriminate.
    + destruct (rotation_step _ _ _ _ _) as [e s4]. destruct (slider_slide _ _ _ _) as [f s5]. cbn. auto.
Qed.
Definition tied (j : joint) (r : ready) : Prop := of_joint eps dt env j r /\ (resting j -> resting (keep_joint r)).
Notation all := (Forall2 tied).
Definition books (l : list ready) : list impulse := flat_map (applied env) l.
Lemma warm_all : forall js rs st, all js rs -> fold_left (fun st r => warm_joint env r st) rs st = recv (books rs) st.
Proof.
  intros js rs st H. revert st. induction H as [| j r js rs O _ IH]; intros st; [reflexivity |]. unfold books. cbn [fold_left flat_map].
  rewrite receive_all_app, (warm_recv eps dt env j r st (proj1 O)). apply IH.
Qed.
Lemma solve_all : forall js rs st0 st, all js rs -> st = recv (books rs) st0 ->
  all js (fst (solve_joints dt env rs st)) /\ snd (solve_joints dt env rs st) = recv (books (fst (solve_joints dt env rs st))) st0.
Proof.
  intros js rs st0 st H. revert st0 st. induction H as [| j r js rs O H IH]; intros st0 st Hs; [now split; [constructor |] |].
  unfold books in Hs. cbn [flat_map] in Hs. fold (books rs) in Hs. rewrite receive_all_app, recv_swap in Hs. cbn [solve_joints].
  assert (A := solve_recv eps dt env j r _ _ (proj1 O) Hs).
  assert (B : tied j (fst (solve_joint dt env r st))) by (split; [apply solve_of_joint, O | intros R; apply solve_resting, O, R]).
  destruct (solve_joint dt env r st) as [r' st1]. cbn [fst snd] in A, B. rewrite recv_swap in A. destruct (IH _ _ A) as [C D].
  destruct (solve_joints dt env rs st1) as [rs' st2]. cbn [fst snd] in C, D |- *. split; [now constructor |].
  unfold books. cbn [flat_map]. now rewrite receive_all_app.
Qed.
Lemma iterate_all n : forall js rs st0 st, all js rs -> st = recv (books rs) st0 ->
  all js (fst (iterate_joints n dt env rs st)) /\ snd (iterate_joints n dt env rs st) = recv (books (fst (iterate_joints n dt env rs st))) st0.
Proof.
  induction n as [| n IH]; intros js rs st0 st H Hs; cbn [iterate_joints]; [now split |].
  destruct (solve_all js rs st0 st H Hs) as [A B]. destruct (solve_joints dt env rs st) as [rs' st']. cbn [fst snd] in A, B. now apply IH.
Qed.
Lemma init_all js : all js (map (init_joint eps dt env) js).
Proof. induction js; cbn; constructor; [split; [apply init_of_joint | apply init_resting] | assumption]. Qed.
Lemma step_books n js st : all js (fst (joints_step eps dt n env js st)) /\
  snd (joints_step eps dt n env js st) = recv (books (fst (joints_step eps dt n env js st))) st.
Proof. unfold joints_step. apply iterate_all; [apply init_all | apply (warm_all js), init_all]. Qed.

(** A property of the states kept by every exchange is kept by all. *)
Lemma recv_keeps (P : velocities -> Prop) l st : (forall i st, In i l -> P st -> P (receive rig i st)) -> P st -> P (recv l st).
Proof.
  revert st. induction l as [| i l IH]; intros st H Hs; [exact Hs |]. cbn. apply IH; [intros; apply H; [now right | assumption] |]. apply H; [now left | exact Hs].
Qed.
Lemma of_link j r : of_joint eps dt env j r -> link_of (keep_joint r) = link_of j.
Proof. destruct j, r; cbn; try contradiction; intros H; repeat match goal with H : _ /\ _ |- _ => destruct H as [H _] end; now subst. Qed.
Lemma applied_bodies j r i : of_joint eps dt env j r -> In i (applied env r) -> i_body i = l_b1 (link_of j) \/ i_body i = l_b2 (link_of j).
Proof.
  intros O. rewrite <- (of_link j r O). clear O. destruct r; cbn -[In]; intros H; cbn [In] in H; repeat destruct H as [<- | H]; try contradiction; cbn; tauto.
Qed.
Lemma books_bodies js rs i : all js rs -> In i (books rs) -> exists j, In j js /\ (i_body i = l_b1 (link_of j) \/ i_body i = l_b2 (link_of j)).
Proof.
  induction 1 as [| j r js rs O _ IH]; cbn; [contradiction |]. intros H. apply in_app_or in H. destruct H as [H | H].
  - exists j. split; [now left |]. apply (applied_bodies j r); [apply O | exact H].
  - destruct (IH H) as (j' & Hj & A). exists j'. split; [now right | exact A].
Qed.
Lemma recv_pulls (P : velocities -> Prop) js rs st : all js rs ->
  (forall j r s, In j js -> tied j r -> P s -> P (recv (applied env r) s)) -> P st -> P (recv (books rs) st).
Proof.
  intros H. revert st. induction H as [| j r js rs O _ IH]; intros st A Hs; [exact Hs |]. unfold books. cbn [flat_map]. rewrite receive_all_app. apply IH.
  - intros j' r' s Hj O' Hs'. apply (A j'); try assumption; now right.
  - apply (A j); try assumption; now left.
Qed.

(** ** Momentum *)
Lemma pull_momentum bodies l o1 o2 lin ang st : NoDup bodies -> movable rig bodies -> (In (l_b1 l) bodies <-> In (l_b2 l) bodies) ->
  momentum rig bodies (recv (pull l o1 o2 lin ang) st) = momentum rig bodies st.
Proof.
  intros N M I. unfold receive_all, pull. cbn [fold_left]. rewrite !momentum_receive by assumption.
  destruct (in_dec Nat.eq_dec (l_b1 l) bodies), (in_dec Nat.eq_dec (l_b2 l) bodies); try tauto; generalize (momentum rig bodies st); clear; vsolve.
Qed.
Lemma applied_momentum bodies j r st : NoDup bodies -> movable rig bodies -> joint_inside bodies j -> of_joint eps dt env j r ->
  momentum rig bodies (recv (applied env r) st) = momentum rig bodies st.
Proof.
  intros N M I O. unfold joint_inside in I. rewrite <- (of_link j r O) in I. clear O. destruct r; cbn [applied keep_joint link_of] in *; rewrite ?receive_all_app, ?pull_momentum; auto.
Qed.
Lemma step_momentum n bodies js st : NoDup bodies -> movable rig bodies -> (forall j, In j js -> joint_inside bodies j) ->
  momentum rig bodies (snd (joints_step eps dt n env js st)) = momentum rig bodies st.
Proof.
  intros N M I. destruct (step_books n js st) as [A ->].
  apply (recv_pulls (fun s => momentum rig bodies s = momentum rig bodies st) js _ st A); [| reflexivity].
  intros j r s Hj [O _] Hs. rewrite (applied_momentum bodies j); auto.
Qed.
Lemma pull_angular inertia bodies l o1 o2 lin ang st : NoDup bodies -> carried rig inertia bodies -> (In (l_b1 l) bodies <-> In (l_b2 l) bodies) ->
  vcross (vsub (vadd (r_x (jb (env (l_b2 l)))) o2) (vadd (r_x (jb (env (l_b1 l)))) o1)) lin = vzero ->
  angular_momentum rig inertia bodies (recv (pull l o1 o2 lin ang) st) = angular_momentum rig inertia bodies st.
Proof.
  intros N M I C. unfold receive_all, pull. cbn [fold_left]. rewrite !angular_receive by assumption. unfold rigids.
  destruct (in_dec Nat.eq_dec (l_b1 l) bodies), (in_dec Nat.eq_dec (l_b2 l) bodies); try tauto.
  - transitivity (vadd (angular_momentum (fun i => jb (env i)) inertia bodies st) (vcross (vsub (vadd (r_x (jb (env (l_b2 l)))) o2) (vadd (r_x (jb (env (l_b1 l)))) o1)) lin)); [| rewrite C; apply vadd_0].
    generalize (angular_momentum (fun i => jb (env i)) inertia bodies st), (r_x (jb (env (l_b1 l)))), (r_x (jb (env (l_b2 l)))). clear. vsolve.
  - now rewrite !vadd_0.
Qed.
Lemma applied_angular inertia bodies j r st : NoDup bodies -> carried rig inertia bodies -> joint_inside bodies j -> closed env j -> tied j r ->
  angular_momentum rig inertia bodies (recv (applied env r) st) = angular_momentum rig inertia bodies st.
Proof.
  intros N M I C [O Z]. unfold joint_inside in I. rewrite <- (of_link j r O) in I.
  assert (Q : forall x y : vec3, x = y -> vsub y x = vzero) by (intros x y ->; vsolve).
  assert (Q0 : forall x : vec3, vcross vzero x = vzero) by vsolve.
  destruct j as [j m | j m | j m | j m], r as [j' d m' | j' d m' | j' d m' | j' d m']; cbn [of_joint] in O; try contradiction;
    cbn [applied keep_joint link_of closed] in *.
  - destruct O as (-> & -> & _). apply pull_angular; try assumption. rewrite Q; [apply Q0 |]. exact C.
  - destruct O as (-> & ->). apply pull_angular; try assumption. rewrite Q; [apply Q0 |]. exact C.
  - destruct O as (-> & -> & _). apply pull_angular; try assumption. rewrite Q; [apply Q0 |]. exact C.
  - destruct O as (-> & -> & _). rewrite receive_all_app. destruct C as [C C']. cbn in Z. rewrite (Z (fun _ => C') C), Ropp_0, vscale_0, pull_none. apply pull_angular; try assumption.
    rewrite Q; [apply Q0 |]. unfold gap. generalize (r_x (jb (env (l_b1 (sl_link j))))), (r_x (jb (env (l_b2 (sl_link j))))), (arm1 env (sl_link j)), (arm2 env (sl_link j)). vsolve.
Qed.
Lemma step_angular n inertia bodies js st : NoDup bodies -> carried rig inertia bodies ->
  (forall j, In j js -> joint_inside bodies j /\ closed env j) ->
  angular_momentum rig inertia bodies (snd (joints_step eps dt n env js st)) = angular_momentum rig inertia bodies st.
Proof.
  intros N M I. destruct (step_books n js st) as [A ->].
  apply (recv_pulls (fun s => angular_momentum rig inertia bodies s = angular_momentum rig inertia bodies st) js _ st A); [| reflexivity].
  intros j r s Hj O Hs. rewrite (applied_angular inertia bodies j); auto; apply I, Hj.
Qed.

(** ** Bodies left alone *)
Lemma step_immovable n js st b : immovable (jb (env b)) -> snd (joints_step eps dt n env js st) b = st b.
Proof.
  intros H. destruct (step_books n js st) as [_ ->]. apply (recv_keeps (fun s => s b = st b)); [| reflexivity].
  intros i s _ Hs. now rewrite immovable_receive.
Qed.
Lemma step_other n js st b : (forall j, In j js -> b <> l_b1 (link_of j) /\ b <> l_b2 (link_of j)) -> snd (joints_step eps dt n env js st) b = st b.
Proof.
  intros H. destruct (step_books n js st) as [A ->]. apply (recv_keeps (fun s => s b = st b)); [| reflexivity].
  intros i s Hi Hs. destruct (books_bodies js _ i A Hi) as (j & Hj & E). destruct (H j Hj). rewrite receive_other; [exact Hs |]. destruct E; congruence.
Qed.
Lemma step_locked n js st b (c : vec3 -> R) : c = vx \/ c = vy \/ c = vz ->
  (c (r_ll (jb (env b))) = 0 -> c (cv (snd (joints_step eps dt n env js st) b)) = c (cv (st b))) /\
  (c (r_al (jb (env b))) = 0 -> c (cw (snd (joints_step eps dt n env js st) b)) = c (cw (st b))).
Proof.
  intros Hc. destruct (step_books n js st) as [_ ->].
  assert (Q : forall u a x : vec3, c a = 0 -> c (vadd u (vmul a x)) = c u).
  { intros [u1 u2 u3] [a1 a2 a3] [x1 x2 x3]. destruct Hc as [-> | [-> | ->]]; cbn; intros ->; ring. }
  split; intros H; [apply (recv_keeps (fun s => c (cv (s b)) = c (cv (st b)))) | apply (recv_keeps (fun s => c (cw (s b)) = c (cw (st b))))]; try reflexivity;
    intros i s _ Hs; rewrite <- Hs; unfold receive; destruct (Nat.eqb b (i_body i)); try reflexivity; cbn [cv cw]; apply Q, H.
Qed.
Lemma step_split n js st b : sv (snd (joints_step eps dt n env js st) b) = sv (st b) /\ sw (snd (joints_step eps dt n env js st) b) = sw (st b).
Proof.
  destruct (step_books n js st) as [_ ->]. apply (recv_keeps (fun s => sv (s b) = sv (st b) /\ sw (s b) = sw (st b))); [| now split].
  intros i s _ Hs. rewrite <- (proj1 Hs), <- (proj2 Hs). unfold receive. destruct (Nat.eqb b (i_body i)); now split.
Qed.

(** ** The forces reported *)
Lemma reported_pull j r st : dt <> 0 -> tied j r -> plain j -> recv (reported dt env r) st = recv (applied env r) st.
Proof.
  intros Hd [O Z] P. assert (Q : forall v, vscale dt (vdiv v dt) = v) by (intros [x y z]; unfold vscale, vdiv; cbn; f_equal; field; exact Hd).
  destruct j as [j m | j m | j m | j m], r as [j' d m' | j' d m' | j' d m' | j' d m']; cbn [of_joint] in O; try contradiction; cbn in Z, P; unfold reported;
    cbn [applied keep_joint link_of acts_at1 reaction_force reaction_torque]; unfold anchor1, anchor2, place.
  - destruct O as (-> & -> & _). destruct P as [P P']. rewrite (Z (fun _ => P') P), exchange_pull, Q, Ropp_0, vscale_0, vscale_zero. reflexivity.
  - destruct O as (-> & ->). rewrite exchange_pull, !Q. reflexivity.
  - destruct O as (-> & -> & _). rewrite exchange_pull, !Q. cbn [fst hinge_init hd_r1 hd_r2]. f_equal. unfold arm1, arm2, arm. f_equal.
    generalize (hd_a1 (fst (hinge_init eps dt env j m))), (hd_b (fst (hinge_init eps dt env j m))), (hd_c (fst (hinge_init eps dt env j m))). vsolve.
  - destruct O as (-> & -> & _). destruct P as [P P']. rewrite (Z (fun _ => P') P). rewrite receive_all_app, Ropp_0, vscale_0, pull_none.
    set (l := sl_link j). fold (arm env (l_b2 l) (l_p2 l)). fold (arm2 env l).
    replace (vadd (r_x (jb (env (l_b2 l)))) (arm2 env l)) with (vadd (r_x (jb (env (l_b1 l)))) (vadd (arm1 env l) (gap env l (arm1 env l) (arm2 env l)))) at 1
      by (unfold gap; generalize (r_x (jb (env (l_b1 l)))), (r_x (jb (env (l_b2 l)))), (arm1 env l), (arm2 env l); vsolve).
    rewrite exchange_pull, !Q. f_equal. f_equal.
    generalize (sd_axis (fst (slider_init eps dt env j m))), (sd_n1 (fst (slider_init eps dt env j m))), (sd_n2 (fst (slider_init eps dt env j m))). vsolve.
Qed.
Lemma step_reported n js st : dt <> 0 -> (forall j, In j js -> plain j) ->
  snd (joints_step eps dt n env js st) = recv (flat_map (reported dt env) (fst (joints_step eps dt n env js st))) st.
Proof.
  intros Hd. destruct (step_books n js st) as [A ->]. generalize (fst (joints_step eps dt n env js st)), A. clear - Hd. intros rs A.
  revert st. induction A as [| j r js rs O _ IH]; intros st P; [reflexivity |]. unfold books. cbn [flat_map]. rewrite !receive_all_app.
  rewrite (reported_pull j r) by (first [assumption | apply P; now left]). apply IH. intros; apply P; now right.
Qed.
End Laws.
