(** Every joint exchanges opposite impulses between its bodies, and keeps account of them. *)
From Coq Require Import List Reals Lra Psatz Bool Arith.
From Verif Require Import VecModel VecProofs LinAlgProperties ContactModel ContactSpec ContactProofs ContactLawProofs ContactBooksProofs JointModel JointSpec.
Import ListNotations.
Local Open Scope R_scope.

Section Books.
Variables (eps dt : R) (env : jbodies).
Notation rig := (rigids env).
Notation recv := (receive_all rig).
(** [exchange] with offsets instead of points. *)
Definition pull (l : link) (o1 o2 lin ang : vec3) : list impulse :=
  [Impulse (l_b1 l) (vneg lin) o1 (vneg ang); Impulse (l_b2 l) lin o2 ang].
Lemma exchange_pull l o1 o2 lin ang :
  exchange env l (vadd (r_x (jb (env (l_b1 l)))) o1) (vadd (r_x (jb (env (l_b2 l)))) o2) lin ang = pull l o1 o2 lin ang.
Proof. unfold exchange, pull. now replace (vsub (vadd (r_x (jb (env (l_b1 l)))) o1) (r_x (jb (env (l_b1 l))))) with o1 by vsolve;
  replace (vsub (vadd (r_x (jb (env (l_b2 l)))) o2) (r_x (jb (env (l_b2 l))))) with o2 by vsolve. Qed.
Lemma pull_merge l o1 o2 l1 a1 l2 a2 st :
  recv (pull l o1 o2 l2 a2) (recv (pull l o1 o2 l1 a1) st) = recv (pull l o1 o2 (vadd l1 l2) (vadd a1 a2)) st.
Proof.
  unfold receive_all, pull. cbn [fold_left]. rewrite (receive_comm _ (Impulse (l_b1 l) (vneg l2) o1 (vneg a2)) (Impulse (l_b2 l) l1 o2 a1)).
  rewrite !receive_merge. f_equal. now rewrite !vneg_vadd. 
Qed.
Lemma pull_none l o1 o2 st : recv (pull l o1 o2 vzero vzero) st = st.
Proof.
  assert (E : forall b o i st, i = vneg vzero \/ i = vzero -> receive rig (Impulse b i o i) st = st).
  { intros b o i s Hi. apply FunctionalExtensionality.functional_extensionality. intros k. unfold receive. cbn [i_body i_lin i_at i_ang].
    destruct (Nat.eqb k b); [| reflexivity]. destruct (s k) as [v w sv sw]. cbn [cv cw ContactModel.sv ContactModel.sw].
    f_equal; destruct Hi as [-> | ->]; generalize (r_ll (rig k)), (r_al (rig k)), (r_iw (rig k)); vsolve. }
  unfold receive_all, pull. cbn [fold_left]. rewrite (E (l_b1 l) o1 (vneg vzero)) by (now left). apply E. now right.
Qed.
Lemma push_recv b lin ang o st a : ang = vadd (vcross o lin) a -> push env b lin ang st = receive rig (Impulse b lin o a) st.
Proof.
  intros ->. unfold push. apply shift_receive; unfold rigids; [generalize (r_ll (jb (env b))); vsolve | reflexivity].
Qed.
Lemma push_ang_recv b ang o st : push_ang env b ang st = receive rig (Impulse b vzero o ang) st.
Proof.
  unfold push_ang. apply shift_receive; unfold rigids; generalize (r_ll (jb (env b))), (r_al (jb (env b))), (r_iw (jb (env b))); vsolve.
Qed.
Lemma push_lin_recv b lin st : push_lin env b lin st = receive rig (Impulse b lin vzero vzero) st.
Proof.
  unfold push_lin. apply shift_receive; unfold rigids; generalize (r_ll (jb (env b))), (r_al (jb (env b))), (r_iw (jb (env b))); vsolve.
Qed.
(** Pairs of pushes. *)
Lemma push_pair l o1 o2 lin ang l1 l2 a1 a2 st : l1 = vneg lin -> l2 = lin -> a1 = vadd (vcross o1 (vneg lin)) (vneg ang) ->
  a2 = vadd (vcross o2 lin) ang -> push env (l_b2 l) l2 a2 (push env (l_b1 l) l1 a1 st) = recv (pull l o1 o2 lin ang) st.
Proof. intros -> -> A B. unfold receive_all, pull. cbn [fold_left]. now rewrite (push_recv _ _ _ _ _ _ A), (push_recv _ _ _ _ _ _ B). Qed.
Lemma push_ang_pair l o1 o2 ang a1 st : a1 = vneg ang ->
  push_ang env (l_b2 l) ang (push_ang env (l_b1 l) a1 st) = recv (pull l o1 o2 vzero ang) st.
Proof.
  intros ->. unfold receive_all, pull. cbn [fold_left]. rewrite (push_ang_recv (l_b1 l) _ o1), (push_ang_recv (l_b2 l) _ o2). now rewrite vneg_zero.
Qed.
Lemma push_lin_pair l lin l1 st : l1 = vneg lin ->
  push_lin env (l_b2 l) lin (push_lin env (l_b1 l) l1 st) = recv (pull l vzero vzero lin vzero) st.
Proof. intros ->. unfold receive_all, pull. cbn [fold_left]. rewrite !push_lin_recv. now rewrite vneg_zero. Qed.

Lemma translation_recv l o1 o2 inv bias st :
  snd (translation_step env l o1 o2 inv bias st) = recv (pull l o1 o2 (fst (translation_step env l o1 o2 inv bias st)) vzero) st.
Proof. unfold translation_step. cbn [fst snd]. apply push_pair; try reflexivity; generalize (mat_vec inv (vsub (vneg (relative (cv (st (l_b1 l))) (cw (st (l_b1 l))) (cv (st (l_b2 l))) (cw (st (l_b2 l))) o1 o2)) bias)); vsolve. Qed.
Lemma rotation_recv l o1 o2 inv bias st :
  snd (rotation_step env l inv bias st) = recv (pull l o1 o2 vzero (fst (rotation_step env l inv bias st))) st.
Proof. unfold rotation_step. cbn [fst snd]. now apply push_ang_pair. Qed.

(** What the memory of a joint says was exchanged. *)
Definition applied (r : ready) : list impulse :=
  match r with
  | RBall j d m => pull (bl_link j) (bd_r1 d) (bd_r2 d) (bm_imp m) (vscale (- bm_cone m) (bd_axis d))
  | RFixed j d m => pull (fx_link j) (fd_r1 d) (fd_r2 d) (fm_imp m) (fm_rot m)
  | RHinge j d m => pull (hg_link j) (hd_r1 d) (hd_r2 d) (hm_imp m)
      (vadd (vadd (vscale (fst (hm_rot m)) (hd_b d)) (vscale (snd (hm_rot m)) (hd_c d))) (vscale (hm_low m - hm_up m + hm_motor m) (hd_a1 d)))
  | RSlider j d m =>
      let o1 := vadd (arm1 env (sl_link j)) (gap env (sl_link j) (arm1 env (sl_link j)) (arm2 env (sl_link j))) in
      pull (sl_link j) o1 (arm2 env (sl_link j))
        (vadd (vadd (vscale (fst (sm_imp m)) (sd_n1 d)) (vscale (snd (sm_imp m)) (sd_n2 d))) (vscale (sm_low m - sm_up m) (sd_axis d))) (sm_rot m)
      ++ pull (sl_link j) vzero vzero (vscale (- sm_motor m) (sd_axis d)) vzero
  end.
(** What the present update computed for a joint. *)
Definition of_joint (j : joint) (r : ready) : Prop :=
  match j, r with
  | JBall j m, RBall j' d m' => j' = j /\ d = fst (ball_init eps dt env j m) /\ bm_violated m' = bm_violated (snd (ball_init eps dt env j m))
  | JFixed j m, RFixed j' d _ => j' = j /\ d = fst (fixed_init eps dt env j m)
  | JHinge j m, RHinge j' d m' => j' = j /\ d = fst (hinge_init eps dt env j m) /\
      hm_lviol m' = hm_lviol (snd (hinge_init eps dt env j m)) /\ hm_uviol m' = hm_uviol (snd (hinge_init eps dt env j m))
  | JSlider j m, RSlider j' d m' => j' = j /\ d = fst (slider_init eps dt env j m) /\
      sm_lviol m' = sm_lviol (snd (slider_init eps dt env j m)) /\ sm_uviol m' = sm_uviol (snd (slider_init eps dt env j m))
  | _, _ => False
  end.
Lemma init_of_joint j : of_joint j (init_joint eps dt env j).
Proof. destruct j as [j m | j m | j m | j m]; cbn; repeat split. Qed.
Lemma solve_of_joint j r st : of_joint j r -> of_joint j (fst (solve_joint dt env r st)).
Proof.
  destruct j as [j m | j m | j m | j m], r as [j' d m' | j' d m' | j' d m' | j' d m']; cbn [of_joint]; try contradiction; unfold solve_joint.
  - unfold ball_solve. destruct (ball_limit _ _ _ _ _) as [c s1]. destruct (translation_step _ _ _ _ _ _ _) as [dl s2]. cbn [fst of_joint bm_violated]. tauto.
  - unfold fixed_solve. destruct (translation_step _ _ _ _ _ _ _) as [dl s2]. destruct (rotation_step _ _ _ _ _) as [dr s3]. cbn [fst of_joint]. tauto.
  - unfold hinge_solve. destruct (hinge_lower _ _ _ _ _) as [a s1]. destruct (hinge_upper _ _ _ _ _) as [b s2]. destruct (hinge_drive _ _ _ _ _ _) as [c s3].
    destruct (hinge_turn _ _ _ _) as [e s4]. destruct (translation_step _ _ _ _ _ _ _) as [f s5]. cbn [fst of_joint hm_lviol hm_uviol]. tauto.
  - unfold slider_solve. destruct (slider_lower _ _ _ _ _) as [a s1]. destruct (slider_upper _ _ _ _ _) as [b s2]. destruct (slider_drive _ _ _ _ _ _) as [c s3].
    destruct (rotation_step _ _ _ _ _) as [e s4]. destruct (slider_slide _ _ _ _) as [f s5]. cbn [fst of_joint sm_lviol sm_uviol]. tauto.
Qed.

(** ** The steps of a pass as exchanges *)
Lemma ball_limit_recv j d m o1 o2 st : snd (ball_limit env j d m st) =
  recv (pull (bl_link j) o1 o2 vzero (vscale (- (fst (ball_limit env j d m st) - bm_cone m)) (bd_axis d))) st.
Proof.
  unfold ball_limit. destruct (bl_cone j && bm_violated m); cbn [fst snd].
  - rewrite (push_ang_pair (bl_link j) o1 o2); [reflexivity | generalize (bd_axis d); vsolve].
  - replace (vscale (- (bm_cone m - bm_cone m)) (bd_axis d)) with vzero by (generalize (bd_axis d); vsolve). now rewrite pull_none.
Qed.
Lemma hinge_lower_recv j d m o1 o2 st : snd (hinge_lower env j d m st) =
  recv (pull (hg_link j) o1 o2 vzero (vscale (fst (hinge_lower env j d m st) - hm_low m) (hd_a1 d))) st.
Proof.
  unfold hinge_lower. destruct (hg_limit j && hm_lviol m); cbn [fst snd].
  - rewrite (push_ang_pair (hg_link j) o1 o2); [reflexivity | generalize (hd_a1 d); vsolve].
  - replace (vscale (hm_low m - hm_low m) (hd_a1 d)) with vzero by (generalize (hd_a1 d); vsolve). now rewrite pull_none.
Qed.
Lemma hinge_upper_recv j d m o1 o2 st : snd (hinge_upper env j d m st) =
  recv (pull (hg_link j) o1 o2 vzero (vscale (- (fst (hinge_upper env j d m st) - hm_up m)) (hd_a1 d))) st.
Proof.
  unfold hinge_upper. destruct (hg_limit j && hm_uviol m); cbn [fst snd].
  - rewrite (push_ang_pair (hg_link j) o1 o2); [reflexivity | generalize (hd_a1 d); vsolve].
  - replace (vscale (- (hm_up m - hm_up m)) (hd_a1 d)) with vzero by (generalize (hd_a1 d); vsolve). now rewrite pull_none.
Qed.
Lemma hinge_drive_recv j d m o1 o2 st : snd (hinge_drive dt env j d m st) =
  recv (pull (hg_link j) o1 o2 vzero (vscale (fst (hinge_drive dt env j d m st) - hm_motor m) (hd_a1 d))) st.
Proof.
  unfold hinge_drive. destruct (hg_motor j); cbn [fst snd].
  - rewrite (push_ang_pair (hg_link j) o1 o2); [reflexivity | generalize (hd_a1 d); vsolve].
  - replace (vscale (hm_motor m - hm_motor m) (hd_a1 d)) with vzero by (generalize (hd_a1 d); vsolve). now rewrite pull_none.
Qed.
Lemma hinge_turn_recv j d o1 o2 st : snd (hinge_turn env j d st) =
  recv (pull (hg_link j) o1 o2 vzero (vadd (vscale (fst (fst (hinge_turn env j d st))) (hd_b d)) (vscale (snd (fst (hinge_turn env j d st))) (hd_c d)))) st.
Proof.
  unfold hinge_turn. cbn [fst snd]. apply push_ang_pair. generalize (hd_b d), (hd_c d). vsolve.
Qed.
Definition offset1 (j : slider) : vec3 := vadd (arm1 env (sl_link j)) (gap env (sl_link j) (arm1 env (sl_link j)) (arm2 env (sl_link j))).
Definition slides (j : slider) (d : slider_data) : Prop :=
  sd_r1n1 d = vcross (offset1 j) (sd_n1 d) /\ sd_r1n2 d = vcross (offset1 j) (sd_n2 d) /\ sd_r1a d = vcross (offset1 j) (sd_axis d) /\
  sd_r2n1 d = vcross (arm2 env (sl_link j)) (sd_n1 d) /\ sd_r2n2 d = vcross (arm2 env (sl_link j)) (sd_n2 d) /\ sd_r2a d = vcross (arm2 env (sl_link j)) (sd_axis d).
Lemma slider_lower_recv j d m st : slides j d -> snd (slider_lower env j d m st) =
  recv (pull (sl_link j) (offset1 j) (arm2 env (sl_link j)) (vscale (fst (slider_lower env j d m st) - sm_low m) (sd_axis d)) vzero) st.
Proof.
  intros (A & B & C & D & E & F). unfold slider_lower. destruct (sl_limit j && sm_lviol m); cbn [fst snd].
  - apply push_pair; rewrite ?C, ?F; generalize (sd_axis d), (offset1 j), (arm2 env (sl_link j)); vsolve.
  - replace (vscale (sm_low m - sm_low m) (sd_axis d)) with vzero by (generalize (sd_axis d); vsolve). now rewrite pull_none.
Qed.
Lemma slider_upper_recv j d m st : slides j d -> snd (slider_upper env j d m st) =
  recv (pull (sl_link j) (offset1 j) (arm2 env (sl_link j)) (vscale (- (fst (slider_upper env j d m st) - sm_up m)) (sd_axis d)) vzero) st.
Proof.
  intros (A & B & C & D & E & F). unfold slider_upper. destruct (sl_limit j && sm_uviol m); cbn [fst snd].
  - apply push_pair; rewrite ?C, ?F; generalize (sd_axis d), (offset1 j), (arm2 env (sl_link j)); vsolve.
  - replace (vscale (- (sm_up m - sm_up m)) (sd_axis d)) with vzero by (generalize (sd_axis d); vsolve). now rewrite pull_none.
Qed.
Lemma slider_drive_recv j d m st : snd (slider_drive dt env j d m st) =
  recv (pull (sl_link j) vzero vzero (vscale (- (fst (slider_drive dt env j d m st) - sm_motor m)) (sd_axis d)) vzero) st.
Proof.
  unfold slider_drive. destruct (sl_motor j); cbn [fst snd].
  - rewrite (push_lin_pair (sl_link j)); [reflexivity | generalize (sd_axis d); vsolve].
  - replace (vscale (- (sm_motor m - sm_motor m)) (sd_axis d)) with vzero by (generalize (sd_axis d); vsolve). now rewrite pull_none.
Qed.
Lemma slider_slide_recv j d st : slides j d -> snd (slider_slide env j d st) =
  recv (pull (sl_link j) (offset1 j) (arm2 env (sl_link j))
    (vadd (vscale (fst (fst (slider_slide env j d st))) (sd_n1 d)) (vscale (snd (fst (slider_slide env j d st))) (sd_n2 d))) vzero) st.
Proof.
  intros (A & B & C & D & E & F). unfold slider_slide. cbn [fst snd].
  apply push_pair; rewrite ?A, ?B, ?D, ?E; generalize (sd_n1 d), (sd_n2 d), (offset1 j), (arm2 env (sl_link j)); vsolve.
Qed.
Lemma slider_slides j m : slides j (fst (slider_init eps dt env j m)).
Proof. unfold slides, slider_init, offset1. cbn. repeat split. Qed.

(** ** Whole passes *)
Lemma pull_snoc l o1 o2 l1 a1 l2 a2 l3 a3 st : l3 = vadd l1 l2 -> a3 = vadd a1 a2 ->
  recv (pull l o1 o2 l2 a2) (recv (pull l o1 o2 l1 a1) st) = recv (pull l o1 o2 l3 a3) st.
Proof. intros -> ->. apply pull_merge. Qed.
(** Compared with the start of the pass, the state has received what the memory changed by. *)
Lemma warm_recv j r st : of_joint j r -> warm_joint env r st = recv (applied r) st.
Proof.
  destruct j as [j m | j m | j m | j m], r as [j' d m' | j' d m' | j' d m' | j' d m']; cbn [of_joint]; try contradiction; unfold warm_joint, applied.
  - intros _. unfold ball_warm. apply push_pair; try reflexivity; generalize (bd_r1 d), (bd_r2 d), (bd_axis d), (bm_imp m'); vsolve.
  - intros _. unfold fixed_warm. apply push_pair; try reflexivity; generalize (fd_r1 d), (fd_r2 d), (fm_rot m'), (fm_imp m'); vsolve.
  - intros _. unfold hinge_warm. apply push_pair; try reflexivity; generalize (hd_r1 d), (hd_r2 d), (hd_a1 d), (hd_b d), (hd_c d), (hm_imp m'); vsolve.
  - intros (-> & Hd & _). assert (S := slider_slides j m). rewrite <- Hd in S. clear Hd. destruct S as (A & B & C & D & E & F).
    change (vadd (arm1 env (sl_link j)) (gap env (sl_link j) (arm1 env (sl_link j)) (arm2 env (sl_link j)))) with (offset1 j).
    rewrite receive_all_app. unfold slider_warm. rewrite A, B, C, D, E, F. clear A B C D E F.
    assert (S : forall b lin lin' o ang s, receive rig (Impulse b lin' vzero vzero) (receive rig (Impulse b lin o ang) s) =
      push env b (vadd lin lin') (vadd (vcross o lin) ang) s).
    { intros b lin lin' o ang s. rewrite <- (push_recv b lin _ o s ang eq_refl), <- push_lin_recv. unfold push, push_lin.
      apply FunctionalExtensionality.functional_extensionality. intros k. unfold shift_c.
      destruct (Nat.eqb k b); [| reflexivity]. destruct (s k) as [v w sv sw]. cbn [cv cw ContactModel.sv ContactModel.sw].
      f_equal; generalize (r_ll (jb (env b))), (r_al (jb (env b))), (r_iw (jb (env b))); vsolve. }
    unfold receive_all, pull. cbn [fold_left].
    rewrite (receive_comm _ (Impulse (l_b1 (sl_link j)) (vneg (vscale (- sm_motor m') (sd_axis d))) vzero (vneg vzero))
      (Impulse (l_b2 (sl_link j)) _ _ _)). rewrite vneg_zero, !S.
    f_equal; [| | f_equal]; generalize (sd_axis d), (sd_n1 d), (sd_n2 d), (sm_rot m'), (offset1 j), (arm2 env (sl_link j)); vsolve.
Qed.
Lemma solve_recv j r st0 st : of_joint j r -> st = recv (applied r) st0 ->
  snd (solve_joint dt env r st) = recv (applied (fst (solve_joint dt env r st))) st0.
Proof.
  intros O Hs. destruct j as [j m | j m | j m | j m], r as [j' d m' | j' d m' | j' d m' | j' d m']; cbn [of_joint] in O; try contradiction; unfold solve_joint.
  - unfold ball_solve.
    assert (L := ball_limit_recv j' d m' (bd_r1 d) (bd_r2 d) st). destruct (ball_limit env j' d m' st) as [c s1]. cbn [fst snd] in L.
    assert (T := translation_recv (bl_link j') (bd_r1 d) (bd_r2 d) (bd_inv d) (bd_bias d) s1).
    destruct (translation_step env (bl_link j') (bd_r1 d) (bd_r2 d) (bd_inv d) (bd_bias d) s1) as [dl s2]. cbn [fst snd] in T |- *. rewrite T, L, Hs. unfold applied.
    rewrite !pull_merge. cbn [bm_imp bm_cone]. f_equal. f_equal; generalize (bm_imp m'), (bd_axis d); vsolve.
  - unfold fixed_solve.
    assert (T := translation_recv (fx_link j') (fd_r1 d) (fd_r2 d) (fd_inv d) (fd_bias d) st).
    destruct (translation_step env (fx_link j') (fd_r1 d) (fd_r2 d) (fd_inv d) (fd_bias d) st) as [dl s2]. cbn [fst snd] in T.
    assert (L := rotation_recv (fx_link j') (fd_r1 d) (fd_r2 d) (fd_rinv d) (fd_rbias d) s2).
    destruct (rotation_step env (fx_link j') (fd_rinv d) (fd_rbias d) s2) as [dr s3]. cbn [fst snd] in L |- *. rewrite L, T, Hs. unfold applied.
    rewrite !pull_merge. cbn [fm_imp fm_rot]. f_equal. f_equal; generalize (fm_imp m'), (fm_rot m'); vsolve.
  - unfold hinge_solve.
    assert (L1 := hinge_lower_recv j' d m' (hd_r1 d) (hd_r2 d) st). destruct (hinge_lower env j' d m' st) as [x1 s1]. cbn [fst snd] in L1.
    assert (L2 := hinge_upper_recv j' d m' (hd_r1 d) (hd_r2 d) s1). destruct (hinge_upper env j' d m' s1) as [x2 s2]. cbn [fst snd] in L2.
    assert (L3 := hinge_drive_recv j' d m' (hd_r1 d) (hd_r2 d) s2). destruct (hinge_drive dt env j' d m' s2) as [x3 s3]. cbn [fst snd] in L3.
    assert (L4 := hinge_turn_recv j' d (hd_r1 d) (hd_r2 d) s3). destruct (hinge_turn env j' d s3) as [[x4 x5] s4]. cbn [fst snd] in L4.
    assert (L5 := translation_recv (hg_link j') (hd_r1 d) (hd_r2 d) (hd_inv d) (hd_bias d) s4).
    destruct (translation_step env (hg_link j') (hd_r1 d) (hd_r2 d) (hd_inv d) (hd_bias d) s4) as [dl s5]. cbn [fst snd] in L5 |- *.
    rewrite L5, L4, L3, L2, L1, Hs. unfold applied. rewrite !pull_merge. cbn [hm_imp hm_rot hm_low hm_up hm_motor fst snd]. f_equal.
    f_equal; generalize (hm_imp m'), (hd_a1 d), (hd_b d), (hd_c d); vsolve.
  - destruct O as (-> & Hd & _). assert (S := slider_slides j m). rewrite <- Hd in S. clear Hd. unfold slider_solve.
    assert (L1 := slider_lower_recv j d m' st S). destruct (slider_lower env j d m' st) as [x1 s1]. cbn [fst snd] in L1.
    assert (L2 := slider_upper_recv j d m' s1 S). destruct (slider_upper env j d m' s1) as [x2 s2]. cbn [fst snd] in L2.
    assert (L3 := slider_drive_recv j d m' s2). destruct (slider_drive dt env j d m' s2) as [x3 s3]. cbn [fst snd] in L3.
    assert (L4 := rotation_recv (sl_link j) (offset1 j) (arm2 env (sl_link j)) (sd_rinv d) (sd_rbias d) s3).
    destruct (rotation_step env (sl_link j) (sd_rinv d) (sd_rbias d) s3) as [dr s4]. cbn [fst snd] in L4.
    assert (L5 := slider_slide_recv j d s4 S). destruct (slider_slide env j d s4) as [[x4 x5] s5]. cbn [fst snd] in L5 |- *.
    rewrite L5, L4, L3, L2, L1, Hs. unfold applied.
    change (vadd (arm1 env (sl_link j)) (gap env (sl_link j) (arm1 env (sl_link j)) (arm2 env (sl_link j)))) with (offset1 j).
    rewrite !receive_all_app. cbn [sm_imp sm_rot sm_low sm_up sm_motor fst snd].
    assert (W : forall lin ang mot s, recv (pull (sl_link j) (offset1 j) (arm2 env (sl_link j)) lin ang) (recv (pull (sl_link j) vzero vzero mot vzero) s) =
      recv (pull (sl_link j) vzero vzero mot vzero) (recv (pull (sl_link j) (offset1 j) (arm2 env (sl_link j)) lin ang) s)) by (intros; apply recv_swap).
    rewrite !W.
    rewrite !pull_merge. f_equal; [| f_equal].
    + f_equal; generalize (sd_axis d); vsolve.
    + f_equal; generalize (sm_rot m'), (sd_axis d), (sd_n1 d), (sd_n2 d); vsolve.
Qed.
End Books.
