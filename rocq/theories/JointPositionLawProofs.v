From Coq Require Import List Reals Lra Psatz Bool Arith FunctionalExtensionality.
From Verif Require Import VecModel VecProofs LinAlgProperties ContactModel ContactSpec ContactProofs ContactLawProofs ContactBounceProofs BodyModel BodyProofs BodyLawProofs JointModel JointSpec JointSolveProofs JointDriveProofs.
From Verif Require Import BodyModel JointPositionModel JointPositionSpec JointPositionProofs.
Import ListNotations.
Local Open Scope R_scope.

(** * Untouched bodies, locked axes, unit orientations *)
Definition joined (rs : list ready) (l : link) : Prop := exists r, In r rs /\ corrects r = true /\ link_of (keep_joint r) = l.
Lemma all_joined rs : Forall (allowed (joined rs)) rs.
Proof. apply Forall_forall. intros r H C. exists r. auto. Qed.
Lemma positions_joined n eps env rs ps : corrected env (joined rs) ps (snd (correct_positions n eps env rs ps)).
Proof. apply positions_corrected. apply all_joined. Qed.
Lemma positions_untouched n eps env rs ps b : (forall r, In r rs -> corrects r = true -> ~ touches b r) -> snd (correct_positions n eps env rs ps) b = ps b.
Proof.
  intros H. apply (corrected_inv env (joined rs) b (fun p => p = ps b) ps); [| apply positions_joined | reflexivity].
  intros l (r & R & C & L) T. exfalso. apply (H r R C). unfold touches. rewrite L. exact T.
Qed.
Lemma vmul_zero_l' v : vmul vzero v = vzero. Proof. vsolve. Qed.
Lemma vmul_scale_zero k v : vmul (vscale 0 k) v = vzero. Proof. vsolve. Qed.
Lemma positions_immovable n eps env rs ps b : pb_im (env b) = 0 -> pb_il (env b) = vzero -> unit_pose ps b -> snd (correct_positions n eps env rs ps) b = ps b.
Proof.
  intros M I U. apply (corrected_inv env (joined rs) b (fun p => p = ps b) ps); [| apply positions_joined | reflexivity].
  intros l L T ps0 lin ang p ->. rewrite M, I, world_zero, vmul_scale_zero, vadd_zero_r, mat_zero_vec, vmul_zero_r, spin_zero by exact U. now destruct (ps b).
Qed.
Lemma positions_linear n eps env rs ps b (c : vec3 -> R) : c = vx \/ c = vy \/ c = vz -> c (pb_ll (env b)) = 0 ->
  c (po_x (snd (correct_positions n eps env rs ps) b)) = c (po_x (ps b)).
Proof.
  intros C Z. apply (corrected_inv env (joined rs) b (fun p => c (po_x p) = c (po_x (ps b))) ps); [| apply positions_joined | reflexivity].
  intros l L T ps0 lin ang p P. rewrite <- P. cbn [po_x]. destruct C as [-> | [-> | ->]]; unfold vadd, vmul, vscale; cbn; rewrite Z; ring.
Qed.
Lemma positions_angular n eps env rs ps b : pb_al (env b) = vzero -> unit_pose ps b -> po_q (snd (correct_positions n eps env rs ps) b) = po_q (ps b).
Proof.
  intros Z U. apply (corrected_inv env (joined rs) b (fun p => po_q p = po_q (ps b)) ps); [| apply positions_joined | reflexivity].
  intros l L T ps0 lin ang p P. rewrite Z. cbn [po_q]. rewrite vmul_zero_l', spin_zero; [exact P | now rewrite P].
Qed.
Lemma positions_unit n eps env rs ps b : unit_pose ps b -> unit_pose (snd (correct_positions n eps env rs ps)) b.
Proof.
  intros U. apply (corrected_inv env (joined rs) b (fun p => quat_len2 (po_q p) = 1) ps); [| apply positions_joined | exact U].
  intros l L T ps0 lin ang p P. cbn [po_q]. apply spin_unit. rewrite P. lra.
Qed.

(** * The centre of mass *)
Lemma weighted_other env bodies b p ps : ~ In b bodies -> weighted env bodies (put_pose b p ps) = weighted env bodies ps.
Proof. induction bodies as [| i bodies IH]; [reflexivity |]. cbn [weighted In]. intros N. rewrite put_other, IH; [reflexivity | tauto | intros ->; tauto]. Qed.
Lemma weighted_put env bodies b p ps : NoDup bodies -> In b bodies ->
  weighted env bodies (put_pose b p ps) = vadd (weighted env bodies ps) (vscale (/ pb_im (env b)) (vsub (po_x p) (po_x (ps b)))).
Proof.
  induction bodies as [| i bodies IH]; [intros _ [] |]. intros N I. inversion N as [| i' l' N1 N2]. subst. cbn [weighted]. destruct (Nat.eq_dec i b) as [-> | D].
  - rewrite put_same, weighted_other by exact N1. generalize (weighted env bodies ps), (po_x p), (po_x (ps b)), (/ pb_im (env b)). clear. vsolve.
  - rewrite put_other by exact D. assert (Ib : In b bodies) by (destruct I; [congruence | assumption]). rewrite IH by assumption.
    generalize (weighted env bodies ps), (po_x p), (po_x (ps b)), (po_x (ps i)), (/ pb_im (env b)), (/ pb_im (env i)). clear. vsolve.
Qed.
Lemma weighted_move env bodies b ps0 lin ang ps : NoDup bodies -> In b bodies -> 0 < pb_im (env b) -> pb_ll (env b) = V3 1 1 1 ->
  weighted env bodies (move (at_poses env ps0) b lin ang ps) = vadd (weighted env bodies ps) lin.
Proof.
  intros N I P L. unfold move. rewrite weighted_put by assumption. f_equal. cbn [po_x at_poses jb r_im r_ll]. rewrite L. assert (Q : pb_im (env b) <> 0) by lra. revert Q.
  generalize (pb_im (env b)), (po_x (ps b)). clear. intros m [x y z] Q. destruct lin. unfold vscale, vsub, vadd, vmul. cbn. f_equal; field; exact Q.
Qed.
Lemma positions_weighted n eps env rs ps bodies : NoDup bodies -> (forall b, In b bodies -> 0 < pb_im (env b) /\ pb_ll (env b) = V3 1 1 1) ->
  (forall r, In r rs -> corrects r = true -> In (l_b1 (link_of (keep_joint r))) bodies <-> In (l_b2 (link_of (keep_joint r))) bodies) ->
  weighted env bodies (snd (correct_positions n eps env rs ps)) = weighted env bodies ps.
Proof.
  intros N B J. assert (C := positions_joined n eps env rs ps). induction C as [| ps ps1 ps0 l lin a1 a2 (r & R & O & L) C IH]; [reflexivity |]. rewrite <- IH. specialize (J r R O). rewrite L in J.
  unfold pair. destruct (in_dec Nat.eq_dec (l_b1 l) bodies) as [I | X].
  - assert (I2 : In (l_b2 l) bodies) by tauto. destruct (B _ I), (B _ I2). rewrite !weighted_move by assumption. generalize (weighted env bodies ps1). clear. vsolve.
  - assert (O2 : ~ In (l_b2 l) bodies) by tauto. unfold move. now rewrite !weighted_other by assumption.
Qed.

(** * Joints that are assembled *)
Lemma pose_eta p : Pose (po_x p) (po_q p) = p. Proof. now destruct p. Qed.
Lemma move_zero e b ps : unit_pose ps b -> move e b vzero vzero ps = ps.
Proof.
  intros U. apply functional_extensionality. intros i. unfold move. destruct (Nat.eq_dec i b) as [-> | D]; [| now rewrite put_other].
  rewrite put_same, mat_vec_zero, !vmul_zero_r, vadd_zero_r, spin_zero by exact U. apply pose_eta.
Qed.
Lemma pair_zero e l ps : unit_pose ps (l_b1 l) -> unit_pose ps (l_b2 l) -> pair e l vzero vzero vzero ps = ps.
Proof. intros U1 U2. unfold pair. rewrite vneg_zero'. rewrite (move_zero e (l_b1 l) ps U1). now apply move_zero. Qed.
Lemma vcross_zero_l a : vcross vzero a = vzero. Proof. vsolve. Qed.
Lemma translation_rest eps env l ps : unit_pose ps (l_b1 l) -> unit_pose ps (l_b2 l) -> opening env ps l = vzero ->
  correct_translation eps (at_poses env ps) l (arm1 (at_poses env ps) l) (arm2 (at_poses env ps) l) ps = ps.
Proof.
  intros U1 U2 O. unfold correct_translation. rewrite open_arms in O by assumption. rewrite O, vneg_zero', mat_vec_zero. destruct (rlt _ _); [| reflexivity].
  rewrite !vcross_zero_l, !vneg_zero'. rewrite (move_zero _ (l_b1 l) ps U1). now apply move_zero.
Qed.
Lemma turned_error diff q1 q2 : quat_len2 q1 = 1 -> turned diff q1 q2 -> quat_v (quat_mul (quat_mul q2 diff) (quat_inverse q1)) = vzero.
Proof.
  intros U [D [-> | ->]].
  - rewrite <- (quat_mul_assoc q1), quat_inverse_mul, D. destruct q1 as [x y z w]. unfold quat_v, quat_mul, quat_inverse, vzero. cbn. f_equal; ring.
  - assert (E : quat_mul (quat_scale (-1) (quat_mul q1 (quat_inverse diff))) diff = quat_scale (-1) q1).
    { transitivity (quat_scale (-1) (quat_mul q1 (quat_mul (quat_inverse diff) diff))); [| rewrite quat_inverse_mul, D; destruct q1; unfold quat_scale, quat_mul; cbn; f_equal; ring].
      destruct q1, diff. unfold quat_scale, quat_mul, quat_inverse. cbn. f_equal; ring. }
    rewrite E. destruct q1 as [x y z w]. unfold quat_v, quat_scale, quat_mul, quat_inverse, vzero. cbn. f_equal; ring.
Qed.
Lemma rotation_rest eps e l diff ps : unit_pose ps (l_b1 l) -> unit_pose ps (l_b2 l) -> turned diff (po_q (ps (l_b1 l))) (po_q (ps (l_b2 l))) ->
  correct_rotation eps e l diff ps = ps.
Proof.
  intros U1 U2 T. unfold correct_rotation. destruct (rlt _ _); [| reflexivity]. rewrite turned_error by assumption. rewrite vscale_zero, vneg_zero', mat_vec_zero, vneg_zero', ang_pair.
  now apply pair_zero.
Qed.

Lemma vscale_0 v : vscale 0 v = vzero. Proof. vsolve. Qed.
Lemma hinge_limit_rest e l a1 d ps : d = 0 -> unit_pose ps (l_b1 l) -> unit_pose ps (l_b2 l) -> correct_hinge_limit e l a1 d ps = ps.
Proof. intros -> U1 U2. unfold correct_hinge_limit. rewrite Ropp_0, vscale_0, ang_pair. now apply pair_zero. Qed.
Lemma slider_limit_rest e l axis r1a r2a d ps : d = 0 -> unit_pose ps (l_b1 l) -> unit_pose ps (l_b2 l) -> correct_slider_limit e l axis r1a r2a d ps = ps.
Proof. intros -> U1 U2. unfold correct_slider_limit. rewrite scale_pair, Ropp_0, !vscale_0. now apply pair_zero. Qed.
Lemma mat2_vec_zero k : mat2_vec k (- 0, - 0) = (0, 0). Proof. unfold mat2_vec. cbn. f_equal; ring. Qed.
Lemma hinge_axis_rest eps e l a ps : vlen2 a = 1 -> unit_pose ps (l_b1 l) -> unit_pose ps (l_b2 l) ->
  correct_hinge_axis eps e l a (orthogonal_unit a) (vcross a (orthogonal_unit a)) ps = ps.
Proof.
  intros U U1 U2. destruct (frame_of a U) as (_ & _ & _ & A & B & _). rewrite vdot_comm in A, B. unfold correct_hinge_axis. rewrite A, B, mat2_vec_zero. cbn [fst snd]. destruct (rlt _ _); [| reflexivity].
  rewrite !vscale_0. replace (vsub vzero vzero) with vzero by (clear; vsolve). rewrite vadd_zero_r, ang_pair. now apply pair_zero.
Qed.
Lemma slide_rest eps e l n1 n2 r1n1 r1n2 r2n1 r2n2 u ps : vdot u n1 = 0 -> vdot u n2 = 0 -> unit_pose ps (l_b1 l) -> unit_pose ps (l_b2 l) ->
  correct_slide eps e l n1 n2 r1n1 r1n2 r2n1 r2n2 u ps = ps.
Proof.
  intros A B U1 U2. unfold correct_slide. rewrite A, B, mat2_vec_zero. cbn [fst snd]. destruct (rlt _ _); [| reflexivity].
  rewrite !vscale_0. replace (vsub vzero vzero) with vzero by (clear; vsolve). rewrite vadd_zero_r, neg_pair, vneg_zero'. now apply pair_zero.
Qed.
Lemma vnormalize_1 eps v : 0 <= eps < 1 -> vlen2 v = 1 -> vnormalize eps v = v.
Proof.
  intros E U. unfold vnormalize. assert (L := unit_len v U). rewrite L. destruct (rlt 1 eps) eqn:X; [apply rlt_true in X; lra |]. destruct v. cbn. f_equal; field.
Qed.
Lemma ball_rest eps env j d m ps : unit_pose ps (l_b1 (bl_link j)) -> unit_pose ps (l_b2 (bl_link j)) -> fitted eps env ps (RBall j d m) -> snd (ball_correct eps env j m ps) = ps.
Proof.
  intros U1 U2 [O C]. unfold ball_correct. unfold correct_cone. destruct (bl_cone j) eqn:B.
  - specialize (C eq_refl). unfold cone_at, lever in C. rewrite !quat_normalize_1 in C by assumption. fold (cone_angle (vunit eps (arm1 (at_poses env ps) (bl_link j))) (vneg (vunit eps (arm2 (at_poses env ps) (bl_link j))))) in C.
    destruct (rlt _ 0) eqn:X; [| now apply translation_rest]. apply rlt_true in X. unfold arm1, arm2, arm in *. cbn [at_poses jb_q jb_com] in *. unfold cone_angle in *. lra.
  - now apply translation_rest.
Qed.
Lemma fixed_rest eps env j d m ps : unit_pose ps (l_b1 (fx_link j)) -> unit_pose ps (l_b2 (fx_link j)) -> fitted eps env ps (RFixed j d m) -> fixed_correct eps env j ps = ps.
Proof.
  intros U1 U2 [O T]. rewrite !quat_normalize_1 in T by assumption. unfold fixed_correct. rewrite translation_rest by assumption. now apply rotation_rest.
Qed.
Lemma hinge_rest eps env j d m ps : 0 <= eps < 1 -> unit_pose ps (l_b1 (hg_link j)) -> unit_pose ps (l_b2 (hg_link j)) -> fitted eps env ps (RHinge j d m) -> snd (hinge_correct eps env j d m ps) = ps.
Proof.
  intros E U1 U2 (O & N1 & N2 & A & L). rewrite !quat_normalize_1 in * by assumption. unfold hinge_correct. cbn [snd].
  assert (V1 : vlen2 (quat_vec (po_q (ps (l_b1 (hg_link j)))) (hg_a1 j)) = 1) by now rewrite quat_vec_len2. rewrite <- A. rewrite vnormalize_1 by assumption.
  set (angle := hinge_angle _ _ _ _ _ _) in *.
  set (ps1 := if hg_limit j && rle (angle - hg_lower j) 0 then _ else ps). assert (E1 : ps1 = ps).
  { unfold ps1. destruct (hg_limit j && rle (angle - hg_lower j) 0) eqn:X; [| reflexivity]. apply andb_true_iff in X as [X Y]. apply rle_true in Y. specialize (L X). apply hinge_limit_rest; [| assumption | assumption].
    replace (angle - hg_lower j) with 0 by lra. ring. }
  rewrite E1. set (ps2 := if hg_limit j && rle (hg_upper j - angle) 0 then _ else ps). assert (E2 : ps2 = ps).
  { unfold ps2. destruct (hg_limit j && rle (hg_upper j - angle) 0) eqn:X; [| reflexivity]. apply andb_true_iff in X as [X Y]. apply rle_true in Y. specialize (L X). apply hinge_limit_rest; [| assumption | assumption].
    replace (hg_upper j - angle) with 0 by lra. ring. }
  rewrite E2. rewrite hinge_axis_rest by assumption. now apply translation_rest.
Qed.
Lemma slider_rest eps env j d m ps : 0 <= eps < 1 -> unit_pose ps (l_b1 (sl_link j)) -> unit_pose ps (l_b2 (sl_link j)) -> fitted eps env ps (RSlider j d m) -> snd (slider_correct eps env j d m ps) = ps.
Proof.
  intros E U1 U2 ((k & O) & N & T & L). unfold extension_at in L. unfold axis_at in *. rewrite !quat_normalize_1 in * by assumption. rewrite open_arms in * by assumption. unfold slider_correct. cbn [snd].
  set (axis := quat_vec _ (sl_axis j)) in *. assert (V : vlen2 axis = 1) by (unfold axis; now rewrite quat_vec_len2). rewrite vnormalize_1 by assumption.
  set (g := gap_now ps _ _ _) in *. destruct (frame_of axis V) as (_ & _ & _ & A & B & _). rewrite vdot_comm in A, B.
  set (ps1 := if sl_limit j && rle (vdot g axis - sl_lower j) 0 then _ else ps). assert (E1 : ps1 = ps).
  { unfold ps1. destruct (sl_limit j && rle (vdot g axis - sl_lower j) 0) eqn:X; [| reflexivity]. apply andb_true_iff in X as [X Y]. apply rle_true in Y. specialize (L X). apply slider_limit_rest; [| assumption | assumption].
    replace (vdot g axis - sl_lower j) with 0 by lra. ring. }
  rewrite E1. fold g. set (ps2 := if sl_limit j && rle (sl_upper j - vdot g axis) 0 then _ else ps). assert (E2 : ps2 = ps).
  { unfold ps2. destruct (sl_limit j && rle (sl_upper j - vdot g axis) 0) eqn:X; [| reflexivity]. apply andb_true_iff in X as [X Y]. apply rle_true in Y. specialize (L X). apply slider_limit_rest; [| assumption | assumption].
    replace (sl_upper j - vdot g axis) with 0 by lra. ring. }
  rewrite E2. rewrite rotation_rest by assumption. apply slide_rest; try assumption; rewrite O, vdot_vscale_l; [rewrite A | rewrite B]; ring.
Qed.
Definition settled (eps : R) (env : pbodies) (ps : poses) (r : ready) : Prop :=
  corrects r = true -> unit_pose ps (l_b1 (link_of (keep_joint r))) /\ unit_pose ps (l_b2 (link_of (keep_joint r))) /\ fitted eps env ps r.
Lemma joints_rest eps env ps rs : 0 <= eps < 1 -> Forall (settled eps env ps) rs -> snd (correct_joints eps env rs ps) = ps /\ Forall (settled eps env ps) (fst (correct_joints eps env rs ps)).
Proof.
  intros E. induction 1 as [| r rs A F IH]; [split; constructor |]. destruct r as [j d m | j d m | j d m | j d m]; unfold settled, corrects in A; cbn [keep_joint link_of] in A; cbn [correct_joints].
  - destruct (l_baumgarte (bl_link j)) eqn:B.
    + destruct IH as [I1 I2]. destruct (correct_joints eps env rs ps) as [rs' ps']. cbn [fst snd] in *. split; [exact I1 | constructor; [| exact I2]]. unfold settled, corrects. cbn. rewrite B. discriminate.
    + destruct (A eq_refl) as (U1 & U2 & Ft). assert (P := ball_rest eps env j d m ps U1 U2 Ft). destruct (ball_correct eps env j m ps) as [m' ps1]. cbn [snd] in P. subst ps1.
      destruct IH as [I1 I2]. destruct (correct_joints eps env rs ps) as [rs' ps']. cbn [fst snd] in *. split; [exact I1 | constructor; [| exact I2]]. intros _. split; [exact U1 | split; [exact U2 | exact Ft]].
  - destruct (l_baumgarte (fx_link j)) eqn:B.
    + destruct IH as [I1 I2]. destruct (correct_joints eps env rs ps) as [rs' ps']. cbn [fst snd] in *. split; [exact I1 | constructor; [| exact I2]]. unfold settled, corrects. cbn. rewrite B. discriminate.
    + destruct (A eq_refl) as (U1 & U2 & Ft). rewrite (fixed_rest eps env j d m ps U1 U2 Ft).
      destruct IH as [I1 I2]. destruct (correct_joints eps env rs ps) as [rs' ps']. cbn [fst snd] in *. split; [exact I1 | constructor; [| exact I2]]. intros _. split; [exact U1 | split; [exact U2 | exact Ft]].
  - destruct (l_baumgarte (hg_link j)) eqn:B.
    + destruct IH as [I1 I2]. destruct (correct_joints eps env rs ps) as [rs' ps']. cbn [fst snd] in *. split; [exact I1 | constructor; [| exact I2]]. unfold settled, corrects. cbn. rewrite B. discriminate.
    + destruct (A eq_refl) as (U1 & U2 & Ft). assert (P := hinge_rest eps env j d m ps E U1 U2 Ft). destruct (hinge_correct eps env j d m ps) as [[d' m'] ps1]. cbn [snd] in P. subst ps1.
      destruct IH as [I1 I2]. destruct (correct_joints eps env rs ps) as [rs' ps']. cbn [fst snd] in *. split; [exact I1 | constructor; [| exact I2]]. intros _. split; [exact U1 | split; [exact U2 | exact Ft]].
  - destruct (l_baumgarte (sl_link j)) eqn:B.
    + cbn [fst snd]. split; [reflexivity | constructor; [| exact F]]. unfold settled, corrects. cbn. rewrite B. discriminate.
    + destruct (A eq_refl) as (U1 & U2 & Ft). assert (P := slider_rest eps env j d m ps E U1 U2 Ft). destruct (slider_correct eps env j d m ps) as [[d' m'] ps1]. cbn [snd] in P. subst ps1.
      destruct IH as [I1 I2]. destruct (correct_joints eps env rs ps) as [rs' ps']. cbn [fst snd] in *. split; [exact I1 | constructor; [| exact I2]]. intros _. split; [exact U1 | split; [exact U2 | exact Ft]].
Qed.
Lemma positions_rest n eps env ps : 0 <= eps < 1 -> forall rs, Forall (settled eps env ps) rs -> snd (correct_positions n eps env rs ps) = ps.
Proof.
  intros E. induction n as [| n IH]; intros rs F; [reflexivity |]. cbn [correct_positions]. destruct (joints_rest eps env ps rs E F) as [A B]. destruct (correct_joints eps env rs ps) as [rs1 ps1]. cbn [fst snd] in *. subst ps1. now apply IH.
Qed.

(** * Several joints *)
Definition correct_one (eps : R) (env : pbodies) (r : ready) (ps : poses) : ready * poses :=
  match r with
  | RBall j d m => if l_baumgarte (bl_link j) then (r, ps) else let '(m, ps) := ball_correct eps env j m ps in (RBall j d m, ps)
  | RFixed j d m => if l_baumgarte (fx_link j) then (r, ps) else (r, fixed_correct eps env j ps)
  | RHinge j d m => if l_baumgarte (hg_link j) then (r, ps) else let '(d, m, ps) := hinge_correct eps env j d m ps in (RHinge j d m, ps)
  | RSlider j d m => if l_baumgarte (sl_link j) then (r, ps) else let '(d, m, ps) := slider_correct eps env j d m ps in (RSlider j d m, ps)
  end.
Lemma joints_cons eps env r rs ps : patient r -> correct_joints eps env (r :: rs) ps =
  let '(r, ps) := correct_one eps env r ps in let '(rs, ps) := correct_joints eps env rs ps in (r :: rs, ps).
Proof.
  destruct r as [j d m | j d m | j d m | j d m]; cbn [patient correct_joints correct_one].
  - intros _. destruct (l_baumgarte (bl_link j)); [reflexivity |]. now destruct (ball_correct eps env j m ps).
  - intros _. destruct (l_baumgarte (fx_link j)); reflexivity.
  - intros _. destruct (l_baumgarte (hg_link j)); [reflexivity |]. now destruct (hinge_correct eps env j d m ps) as [[? ?] ?].
  - intros ->. now destruct (slider_correct eps env j d m ps) as [[? ?] ?].
Qed.
Lemma one_same eps env r ps : patient r -> link_of (keep_joint (fst (correct_one eps env r ps))) = link_of (keep_joint r) /\ patient (fst (correct_one eps env r ps)).
Proof.
  destruct r as [j d m | j d m | j d m | j d m]; cbn [correct_one patient]; intros P.
  - destruct (l_baumgarte (bl_link j)); [now split |]. now destruct (ball_correct eps env j m ps).
  - destruct (l_baumgarte (fx_link j)); now split.
  - destruct (l_baumgarte (hg_link j)); [now split |]. now destruct (hinge_correct eps env j d m ps) as [[? ?] ?].
  - rewrite P. now destruct (slider_correct eps env j d m ps) as [[? ?] ?].
Qed.
Lemma one_skip eps env r ps : corrects r = false -> correct_one eps env r ps = (r, ps).
Proof. unfold corrects. destruct r as [j d m | j d m | j d m | j d m]; cbn [correct_one keep_joint link_of]; destruct (l_baumgarte _); cbn; congruence. Qed.
Lemma one_corrects eps env r ps : patient r -> corrects (fst (correct_one eps env r ps)) = corrects r.
Proof. intros P. unfold corrects. now rewrite (proj1 (one_same eps env r ps P)). Qed.
Lemma joints_filter eps env rs : Forall patient rs -> forall ps,
  correct_joints eps env (filter corrects rs) ps = let '(rs, ps) := correct_joints eps env rs ps in (filter corrects rs, ps).
Proof.
  induction 1 as [| r rs P F IH]; intros ps; [reflexivity |]. rewrite joints_cons by exact P. cbn [filter]. destruct (corrects r) eqn:C.
  - rewrite joints_cons by exact P. assert (C' := one_corrects eps env r ps P). destruct (correct_one eps env r ps) as [r' ps1]. cbn [fst] in C'. rewrite IH. destruct (correct_joints eps env rs ps1) as [rs' ps2]. cbn [filter]. now rewrite C', C.
  - rewrite one_skip by exact C. rewrite IH. destruct (correct_joints eps env rs ps) as [rs' ps2]. cbn [filter]. now rewrite C.
Qed.
Lemma joints_patient eps env rs : Forall patient rs -> forall ps, Forall patient (fst (correct_joints eps env rs ps)).
Proof.
  induction 1 as [| r rs P F IH]; intros ps; [constructor |]. rewrite joints_cons by exact P. assert (Q := proj2 (one_same eps env r ps P)). destruct (correct_one eps env r ps) as [r' ps1]. cbn [fst] in Q.
  specialize (IH ps1). destruct (correct_joints eps env rs ps1) as [rs' ps2]. cbn [fst] in *. now constructor.
Qed.
Lemma positions_filter n eps env : forall rs ps, Forall patient rs -> snd (correct_positions n eps env (filter corrects rs) ps) = snd (correct_positions n eps env rs ps).
Proof.
  induction n as [| n IH]; intros rs ps F; [reflexivity |]. cbn [correct_positions]. rewrite joints_filter by exact F. assert (Q := joints_patient eps env rs F ps). destruct (correct_joints eps env rs ps) as [rs1 ps1]. cbn [fst] in Q. now apply IH.
Qed.

(** * A ball-and-socket joint among joints of other bodies *)
Lemma joints_links eps env rs : forall ps, map (fun r => link_of (keep_joint r)) (fst (correct_joints eps env rs ps)) = map (fun r => link_of (keep_joint r)) rs.
Proof.
  induction rs as [| r rs IH]; intros ps; [reflexivity |]. destruct r as [j d m | j d m | j d m | j d m]; cbn [correct_joints].
  - destruct (l_baumgarte (bl_link j)).
    + specialize (IH ps). destruct (correct_joints eps env rs ps) as [rs' ps']. cbn [fst map] in *. now rewrite IH.
    + destruct (ball_correct eps env j m ps) as [m' ps1]. specialize (IH ps1). destruct (correct_joints eps env rs ps1) as [rs' ps']. cbn [fst map] in *. now rewrite IH.
  - specialize (IH (if l_baumgarte (fx_link j) then ps else fixed_correct eps env j ps)). destruct (correct_joints eps env rs _) as [rs' ps']. cbn [fst map] in *. now rewrite IH.
  - destruct (l_baumgarte (hg_link j)).
    + specialize (IH ps). destruct (correct_joints eps env rs ps) as [rs' ps']. cbn [fst map] in *. now rewrite IH.
    + destruct (hinge_correct eps env j d m ps) as [[d' m'] ps1]. specialize (IH ps1). destruct (correct_joints eps env rs ps1) as [rs' ps']. cbn [fst map] in *. now rewrite IH.
  - destruct (l_baumgarte (sl_link j)); [reflexivity |].
    destruct (slider_correct eps env j d m ps) as [[d' m'] ps1]. specialize (IH ps1). destruct (correct_joints eps env rs ps1) as [rs' ps']. cbn [fst map] in *. now rewrite IH.
Qed.
Lemma joints_apart eps env l rs ps : Forall (apart_from l) rs -> Forall (apart_from l) (fst (correct_joints eps env rs ps)).
Proof.
  intros F. assert (L := joints_links eps env rs ps). revert L. generalize (fst (correct_joints eps env rs ps)). induction F as [| r rs A F IH]; intros [| r' rs'] L; try discriminate L; [constructor |].
  cbn [map] in L. injection L as L1 L2. constructor; [| now apply IH]. unfold apart_from, corrects, touches in *. now rewrite L1.
Qed.
Lemma joints_leave eps env rs ps b : (forall r, In r rs -> corrects r = true -> ~ touches b r) -> snd (correct_joints eps env rs ps) b = ps b.
Proof.
  intros H. apply (corrected_inv env (joined rs) b (fun p => p = ps b) ps); [| apply joints_corrected; apply all_joined | reflexivity].
  intros l (r & R & C & L) T. exfalso. apply (H r R C). unfold touches. rewrite L. exact T.
Qed.
Lemma joints_app eps env a b ps : Forall patient a -> correct_joints eps env (a ++ b) ps =
  let '(a, ps) := correct_joints eps env a ps in let '(b, ps) := correct_joints eps env b ps in (a ++ b, ps).
Proof.
  intros F. revert ps. induction F as [| r a P F IH]; intros ps; [cbn [app correct_joints]; now destruct (correct_joints eps env b ps) |].
  cbn [app]. rewrite !joints_cons by exact P. destruct (correct_one eps env r ps) as [r' ps1]. rewrite IH. destruct (correct_joints eps env a ps1) as [a' ps2]. now destruct (correct_joints eps env b ps2).
Qed.
Lemma positions_last n eps env : forall rs ps, correct_positions (S n) eps env rs ps = let '(rs, ps) := correct_positions n eps env rs ps in correct_joints eps env rs ps.
Proof.
  induction n as [| n IH]; intros rs ps; [cbn [correct_positions]; now destruct (correct_joints eps env rs ps) |].
  change (correct_positions (S (S n)) eps env rs ps) with (let '(rs, ps) := correct_joints eps env rs ps in correct_positions (S n) eps env rs ps).
  cbn [correct_positions]. destruct (correct_joints eps env rs ps) as [rs1 ps1]. rewrite <- IH. reflexivity.
Qed.
Section Ball.
Variables (eps : R) (env : pbodies) (j : ball) (d : ball_data) (k1 k2 : R).
Let l := bl_link j.
Hypothesis He : 0 <= eps.
Hypothesis Hb : l_baumgarte l = false.
Hypothesis Hc : bl_cone j = false.
Hypothesis Hn : l_b1 l <> l_b2 l.
Hypothesis H1 : sound env k1 (l_b1 l).
Hypothesis H2 : sound env k2 (l_b2 l).
Hypothesis Hd : pb_dynamic (env (l_b1 l)) = true \/ pb_dynamic (env (l_b2 l)) = true.
Let m := pb_im (env (l_b1 l)) + pb_im (env (l_b2 l)).
Hypothesis Hm : 0 < m.
Hypothesis Hl : eps < m ^ 3.
Definition scene (rs : list ready) : Prop := exists a mm b, rs = a ++ RBall j d mm :: b /\ Forall patient a /\ Forall (apart_from l) (a ++ b).
Lemma opening_local ps ps' : ps (l_b1 l) = ps' (l_b1 l) -> ps (l_b2 l) = ps' (l_b2 l) -> opening env ps l = opening env ps' l.
Proof. intros A B. unfold opening, point_at. now rewrite A, B. Qed.
Lemma scene_step rs ps : scene rs -> unit_pose ps (l_b1 l) -> unit_pose ps (l_b2 l) ->
  let '(rs', ps') := correct_joints eps env rs ps in
  scene rs' /\ unit_pose ps' (l_b1 l) /\ unit_pose ps' (l_b2 l) /\ vlen (opening env ps' l) <= factor env l k1 k2 * vlen2 (opening env ps l).
Proof.
  intros (a & mm & b & -> & Pa & Ab) U1 U2. apply Forall_app in Ab as [Fa Fb]. rewrite joints_app by exact Pa.
  assert (La1 : snd (correct_joints eps env a ps) (l_b1 l) = ps (l_b1 l)) by (apply joints_leave; intros r R C; rewrite Forall_forall in Fa; now apply (Fa r R C)).
  assert (La2 : snd (correct_joints eps env a ps) (l_b2 l) = ps (l_b2 l)) by (apply joints_leave; intros r R C; rewrite Forall_forall in Fa; now apply (Fa r R C)).
  assert (Pa' := joints_patient eps env a Pa ps). assert (Fa' := joints_apart eps env l a ps Fa). destruct (correct_joints eps env a ps) as [a' ps1]. cbn [fst snd] in *.
  cbn [correct_joints]. fold l. rewrite Hb.
  assert (V1 : unit_pose ps1 (l_b1 l)) by (unfold unit_pose; now rewrite La1). assert (V2 : unit_pose ps1 (l_b2 l)) by (unfold unit_pose; now rewrite La2).
  assert (T := translation_closes eps env l k1 k2 He Hn H1 H2 Hd Hm Hl ps1 V1 V2). cbn zeta in T.
  unfold ball_correct, correct_cone. rewrite Hc. fold l. set (ps2 := correct_translation _ _ _ _ _ ps1) in *.
  assert (Lb1 : snd (correct_joints eps env b ps2) (l_b1 l) = ps2 (l_b1 l)) by (apply joints_leave; intros r R C; rewrite Forall_forall in Fb; now apply (Fb r R C)).
  assert (Lb2 : snd (correct_joints eps env b ps2) (l_b2 l) = ps2 (l_b2 l)) by (apply joints_leave; intros r R C; rewrite Forall_forall in Fb; now apply (Fb r R C)).
  assert (Fb' := joints_apart eps env l b ps2 Fb). destruct (correct_joints eps env b ps2) as [b' ps3]. cbn [fst snd] in *.
  split; [exists a', mm, b'; split; [reflexivity | split; [exact Pa' | apply Forall_app; now split]] |].
  unfold unit_pose in *. rewrite Lb1, Lb2. destruct T as (T1 & T2 & T3). split; [exact T1 | split; [exact T2 |]]. rewrite (opening_local ps3 ps2) by assumption. rewrite (opening_local ps ps1) by congruence. exact T3.
Qed.
Lemma scene_all n rs ps : scene rs -> unit_pose ps (l_b1 l) -> unit_pose ps (l_b2 l) ->
  let '(rs', ps') := correct_positions n eps env rs ps in scene rs' /\ unit_pose ps' (l_b1 l) /\ unit_pose ps' (l_b2 l).
Proof.
  intros S U1 U2. induction n as [| n IH]; [now cbn |]. rewrite positions_last. destruct (correct_positions n eps env rs ps) as [rs1 ps1]. destruct IH as (A & B & C).
  assert (T := scene_step rs1 ps1 A B C). destruct (correct_joints eps env rs1 ps1) as [rs2 ps2]. tauto.
Qed.
Lemma scene_closes n rs ps : scene rs -> unit_pose ps (l_b1 l) -> unit_pose ps (l_b2 l) ->
  vlen (opening env (snd (correct_positions (S n) eps env rs ps)) l) <= factor env l k1 k2 * vlen (opening env (snd (correct_positions n eps env rs ps)) l) ^ 2.
Proof.
  intros S U1 U2. assert (A := scene_all n rs ps S U1 U2). rewrite positions_last. destruct (correct_positions n eps env rs ps) as [rs1 ps1]. destruct A as (A & B & C).
  assert (T := scene_step rs1 ps1 A B C). destruct (correct_joints eps env rs1 ps1) as [rs2 ps2]. cbn [snd]. destruct T as (_ & _ & _ & T). rewrite <- vlen_sq in T. replace (vlen (opening env ps1 l) ^ 2) with (vlen (opening env ps1 l) * vlen (opening env ps1 l)) by ring. exact T.
Qed.
Lemma factor_nonneg : 0 <= factor env l k1 k2.
Proof.
  unfold factor. fold m. assert (0 <= reach env (l_b1 l) (l_p1 l)) by apply vlen_nonneg. assert (0 <= reach env (l_b2 l) (l_p2 l)) by apply vlen_nonneg.
  assert (0 <= reach env (l_b1 l) (l_p1 l) ^ 3) by now apply pow_le. assert (0 <= reach env (l_b2 l) (l_p2 l) ^ 3) by now apply pow_le.
  assert (0 <= k1 ^ 2) by apply pow2_ge_0. assert (0 <= k2 ^ 2) by apply pow2_ge_0. assert (0 < / m ^ 2) by (apply Rinv_0_lt_compat; nra). unfold Rdiv. apply Rmult_le_pos; nra.
Qed.
Lemma scene_converges n rs ps : scene rs -> unit_pose ps (l_b1 l) -> unit_pose ps (l_b2 l) ->
  factor env l k1 k2 * vlen (opening env (snd (correct_positions n eps env rs ps)) l) <= (factor env l k1 k2 * vlen (opening env ps l)) ^ (2 ^ n).
Proof.
  intros S U1 U2. assert (F := factor_nonneg). induction n as [| n IH]; [cbn; lra |]. assert (T := scene_closes n rs ps S U1 U2).
  set (f := factor env l k1 k2) in *. set (x := vlen (opening env (snd (correct_positions n eps env rs ps)) l)) in *. set (y := vlen (opening env (snd (correct_positions (Datatypes.S n) eps env rs ps)) l)) in *.
  assert (X : 0 <= x) by apply vlen_nonneg. replace (2 ^ Datatypes.S n)%nat with (2 ^ n + 2 ^ n)%nat by (cbn; lia). rewrite pow_add. apply Rle_trans with ((f * x) * (f * x)).
  - replace ((f * x) * (f * x)) with (f * (f * x ^ 2)) by ring. now apply Rmult_le_compat_l.
  - apply Rmult_le_compat; try assumption; nra.
Qed.
End Ball.

(** * The limits of a slider between bodies that do not turn *)
Lemma frozen_move env ps0 b lin ang ps : frozen env b -> unit_pose ps b ->
  move (at_poses env ps0) b lin ang ps = put_pose b (Pose (vadd (po_x (ps b)) (vscale (pb_im (env b)) lin)) (po_q (ps b))) ps.
Proof.
  intros (_ & I & L) U. unfold move. cbn [at_poses jb r_iw r_al r_im r_ll]. rewrite I, world_zero, mat_zero_vec, vmul_zero_r, spin_zero by exact U. f_equal. f_equal. f_equal.
  destruct L as [-> | ->]; generalize lin; clear; [| generalize (pb_ll (env b)); clear]; vsolve.
Qed.
Lemma vdot_zero_right a : vdot a vzero = 0. Proof. destruct a. unfold vdot, vzero. cbn. ring. Qed.
Lemma gap_shift x1 x2 f f' lin r1 r2 :
  vsub (vsub (vadd (vadd x2 (vscale f' lin)) r2) (vadd x1 (vscale f (vneg lin)))) r1 = vadd (vsub (vsub (vadd x2 r2) x1) r1) (vscale (f + f') lin).
Proof. vsolve. Qed.
Lemma dot_shift a g k lin : vlen2 a = 1 -> vdot (vadd g (vscale k (vscale lin a))) a = vdot g a + k * lin.
Proof. intros U. replace (vdot (vadd g (vscale k (vscale lin a))) a) with (vdot g a + k * lin * vlen2 a) by (clear; destruct a, g; unfold vlen2, vdot, vadd, vscale; cbn; ring). rewrite U. ring. Qed.
Lemma dot_across a n1 n2 g k x y : vdot n1 a = 0 -> vdot n2 a = 0 -> vdot (vadd g (vscale k (vneg (vsub (vscale x (vneg n1)) (vscale y n2))))) a = vdot g a.
Proof.
  intros A B. replace (vdot _ a) with (vdot g a + k * (x * vdot n1 a + y * vdot n2 a)) by (clear; destruct a, n1, n2, g; unfold vdot, vadd, vscale, vneg, vsub; cbn; ring). rewrite A, B. ring.
Qed.
Section Slider.
Variables (eps : R) (env : pbodies) (j : slider).
Let l := sl_link j.
Hypothesis He : 0 <= eps < 1.
Hypothesis Hn : l_b1 l <> l_b2 l.
Hypothesis H1 : frozen env (l_b1 l).
Hypothesis H2 : frozen env (l_b2 l).
Let m := pb_im (env (l_b1 l)) + pb_im (env (l_b2 l)).
Hypothesis Hm : 0 < m.
Definition shifted (s : vec3) (ps ps' : poses) : Prop :=
  po_q (ps' (l_b1 l)) = po_q (ps (l_b1 l)) /\ po_q (ps' (l_b2 l)) = po_q (ps (l_b2 l)) /\ forall r1 r2, gap_now ps' l r1 r2 = vadd (gap_now ps l r1 r2) s.
Lemma shift_pair ps0 lin a1 a2 ps : unit_pose ps (l_b1 l) -> unit_pose ps (l_b2 l) -> shifted (vscale m lin) ps (pair (at_poses env ps0) l lin a1 a2 ps).
Proof.
  intros U1 U2. unfold pair. rewrite (frozen_move env ps0 (l_b1 l)) by assumption. rewrite frozen_move; [| exact H2 | unfold unit_pose; rewrite put_other by congruence; exact U2].
  unfold shifted, gap_now. rewrite !put_same. rewrite !(put_other (l_b2 l)) by exact Hn. rewrite !put_same, !(put_other (l_b1 l)) by congruence. cbn [po_x po_q].
  split; [reflexivity |]. split; [reflexivity |]. intros r1 r2. apply gap_shift.
Qed.
Lemma shift_unit s ps ps' : shifted s ps ps' -> unit_pose ps (l_b1 l) -> unit_pose ps (l_b2 l) -> unit_pose ps' (l_b1 l) /\ unit_pose ps' (l_b2 l).
Proof. intros (A & B & _) U1 U2. unfold unit_pose. now rewrite A, B. Qed.
Lemma rotation_frozen ps0 diff ps : correct_rotation eps (at_poses env ps0) l diff ps = ps.
Proof.
  unfold correct_rotation, i1_of, i2_of. cbn [at_poses jb r_iw]. destruct H1 as (_ & -> & _), H2 as (_ & -> & _). rewrite !world_zero.
  replace (mat_det (mat_add mat_zero mat_zero)) with 0 by (unfold mat_det, mat_add, mat_zero, mk_mat, m00, m01, m02, m10, m11, m12, m20, m21, m22; cbn; ring).
  rewrite Rabs_R0. destruct (rlt eps 0) eqn:X; [apply rlt_true in X; lra | reflexivity].
Qed.
Lemma slider_bounded d mm ps : vlen2 (sl_axis j) = 1 -> sl_limit j = true -> sl_lower j <= sl_upper j -> unit_pose ps (l_b1 l) -> unit_pose ps (l_b2 l) ->
  let ps' := snd (slider_correct eps env j d mm ps) in
  po_q (ps' (l_b1 l)) = po_q (ps (l_b1 l)) /\ po_q (ps' (l_b2 l)) = po_q (ps (l_b2 l)) /\
  extension_at env ps' j = Rmax (sl_lower j) (Rmin (sl_upper j) (extension_at env ps j)).
Proof.
  intros N L O U1 U2. unfold slider_correct. rewrite L. cbn [andb snd]. fold l.
  set (r1 := arm1 (at_poses env ps) l). set (r2 := arm2 (at_poses env ps) l).
  set (axis := quat_vec (po_q (ps (l_b1 l))) (sl_axis j)) in *. assert (V : vlen2 axis = 1) by (unfold axis; now rewrite quat_vec_len2). rewrite vnormalize_1 by assumption.
  destruct (frame_of axis V) as (_ & _ & _ & A & B & _). rewrite vdot_comm in A, B.
  set (n1 := orthogonal_unit axis) in *. set (n2 := vcross axis n1) in *.
  set (linv := inverse_if_positive _). assert (Li : linv = / m).
  { unfold linv, i1_of, i2_of. cbn [at_poses jb r_iw]. destruct H1 as (_ & -> & _), H2 as (_ & -> & _). rewrite !world_zero, !mat_zero_vec. change (sum_mass (at_poses env ps) l) with m.
    rewrite !vdot_zero_right. unfold inverse_if_positive. replace (m + 0 + 0) with m by ring. destruct (rlt 0 m) eqn:X; [unfold Rdiv; ring | apply rlt_false in X; lra]. }
  rewrite Li. set (e := at_poses env ps). set (g := gap_now ps l r1 r2).
  set (r1a := vcross (vadd r1 g) axis). set (r2a := vcross r2 axis).
  set (ps1 := if rle (vdot g axis - sl_lower j) 0 then _ else ps).
  assert (S1 : po_q (ps1 (l_b1 l)) = po_q (ps (l_b1 l)) /\ po_q (ps1 (l_b2 l)) = po_q (ps (l_b2 l)) /\ vdot (gap_now ps1 l r1 r2) axis = Rmax (sl_lower j) (vdot g axis)).
  { unfold ps1. destruct (rle (vdot g axis - sl_lower j) 0) eqn:X.
    - apply rle_true in X. unfold correct_slider_limit. rewrite scale_pair. destruct (shift_pair ps (vscale (/ m * - (vdot g axis - sl_lower j)) axis) (vscale (- (/ m * - (vdot g axis - sl_lower j))) r1a) (vscale (/ m * - (vdot g axis - sl_lower j)) r2a) ps U1 U2) as (P & Q & G).
      split; [exact P |]. split; [exact Q |]. fold e in G. rewrite G. fold g. rewrite dot_shift by exact V. rewrite Rmax_left by lra. field. lra.
    - apply rle_false in X. split; [reflexivity |]. split; [reflexivity |]. fold g. rewrite Rmax_right; lra. }
  destruct S1 as (P1 & Q1 & G1). assert (W1 : unit_pose ps1 (l_b1 l)) by (unfold unit_pose; now rewrite P1). assert (W2 : unit_pose ps1 (l_b2 l)) by (unfold unit_pose; now rewrite Q1).
  set (ps2 := if rle (sl_upper j - vdot g axis) 0 then _ else ps1).
  assert (S2 : po_q (ps2 (l_b1 l)) = po_q (ps (l_b1 l)) /\ po_q (ps2 (l_b2 l)) = po_q (ps (l_b2 l)) /\ vdot (gap_now ps2 l r1 r2) axis = Rmax (sl_lower j) (Rmin (sl_upper j) (vdot g axis))).
  { unfold ps2. destruct (rle (sl_upper j - vdot g axis) 0) eqn:X.
    - apply rle_true in X. unfold correct_slider_limit. rewrite scale_pair. set (dd := - (/ m * - (sl_upper j - vdot (gap_now ps1 l r1 r2) axis))).
      destruct (shift_pair ps (vscale dd axis) (vscale (- dd) r1a) (vscale dd r2a) ps1 W1 W2) as (P & Q & G).
      fold e in P, Q, G. split; [now rewrite <- P1 |]. split; [now rewrite <- Q1 |]. rewrite G. rewrite dot_shift by exact V. unfold dd. rewrite Rmin_left, Rmax_right by lra. field. lra.
    - apply rle_false in X. split; [exact P1 |]. split; [exact Q1 |]. rewrite G1, Rmin_right; lra. }
  destruct S2 as (P2 & Q2 & G2). assert (X1 : unit_pose ps2 (l_b1 l)) by (unfold unit_pose; now rewrite P2). assert (X2 : unit_pose ps2 (l_b2 l)) by (unfold unit_pose; now rewrite Q2).
  assert (F : correct_rotation eps e l (sl_diff j) ps2 = ps2) by apply rotation_frozen. rewrite F. set (ps3 := correct_slide _ _ _ _ _ _ _ _ _ _ ps2).
  assert (S3 : po_q (ps3 (l_b1 l)) = po_q (ps (l_b1 l)) /\ po_q (ps3 (l_b2 l)) = po_q (ps (l_b2 l)) /\ vdot (gap_now ps3 l r1 r2) axis = vdot (gap_now ps2 l r1 r2) axis).
  { unfold ps3, correct_slide. destruct (rlt eps _); [| now split]. set (q := mat2_vec _ _). rewrite neg_pair.
    destruct (shift_pair ps (vneg (vsub (vscale (fst q) (vneg n1)) (vscale (snd q) n2)))
       (vsub (vscale (fst q) (vneg (vcross (vadd r1 g) n1))) (vscale (snd q) (vcross (vadd r1 g) n2))) (vadd (vscale (fst q) (vcross r2 n1)) (vscale (snd q) (vcross r2 n2))) ps2 X1 X2) as (P & Q & G).
    split; [now rewrite <- P2 |]. split; [now rewrite <- Q2 |]. fold e in G. rewrite G. apply dot_across; now rewrite vdot_comm. }
  destruct S3 as (P3 & Q3 & G3). split; [exact P3 |]. split; [exact Q3 |].
  assert (Y1 : unit_pose ps3 (l_b1 l)) by (unfold unit_pose; now rewrite P3). assert (Y2 : unit_pose ps3 (l_b2 l)) by (unfold unit_pose; now rewrite Q3).
  unfold extension_at, axis_at. fold l. rewrite !quat_normalize_1 by (assumption || (rewrite P3; assumption)). rewrite P3. fold axis. rewrite !open_arms by assumption.
  replace (arm1 (at_poses env ps3) l) with r1 by (unfold r1, arm1, arm; cbn [at_poses jb_q jb_com]; now rewrite P3).
  replace (arm2 (at_poses env ps3) l) with r2 by (unfold r2, arm2, arm; cbn [at_poses jb_q jb_com]; now rewrite Q3).
  fold r1 r2 g. now rewrite G3, G2.
Qed.
End Slider.
Section Slide_scene.
Variables (eps : R) (env : pbodies) (j : slider).
Let l := sl_link j.
Hypothesis He : 0 <= eps < 1.
Hypothesis Hb : l_baumgarte l = false.
Hypothesis Hn : l_b1 l <> l_b2 l.
Hypothesis H1 : frozen env (l_b1 l).
Hypothesis H2 : frozen env (l_b2 l).
Hypothesis Hm : 0 < pb_im (env (l_b1 l)) + pb_im (env (l_b2 l)).
Hypothesis Ha : vlen2 (sl_axis j) = 1.
Hypothesis Hl : sl_limit j = true.
Hypothesis Ho : sl_lower j <= sl_upper j.
Definition slide_scene (rs : list ready) : Prop := exists a d mm b, rs = a ++ RSlider j d mm :: b /\ Forall patient a /\ Forall (apart_from l) (a ++ b).
Lemma extension_local ps ps' : ps (l_b1 l) = ps' (l_b1 l) -> ps (l_b2 l) = ps' (l_b2 l) -> extension_at env ps j = extension_at env ps' j.
Proof. intros A B. unfold extension_at, axis_at, opening, point_at. fold l. now rewrite A, B. Qed.
Lemma slide_step rs ps : slide_scene rs -> unit_pose ps (l_b1 l) -> unit_pose ps (l_b2 l) ->
  let '(rs', ps') := correct_joints eps env rs ps in
  slide_scene rs' /\ unit_pose ps' (l_b1 l) /\ unit_pose ps' (l_b2 l) /\ extension_at env ps' j = Rmax (sl_lower j) (Rmin (sl_upper j) (extension_at env ps j)).
Proof.
  intros (a & d & mm & b & -> & Pa & Ab) U1 U2. apply Forall_app in Ab as [Fa Fb]. rewrite joints_app by exact Pa.
  assert (La1 : snd (correct_joints eps env a ps) (l_b1 l) = ps (l_b1 l)) by (apply joints_leave; intros r R C; rewrite Forall_forall in Fa; now apply (Fa r R C)).
  assert (La2 : snd (correct_joints eps env a ps) (l_b2 l) = ps (l_b2 l)) by (apply joints_leave; intros r R C; rewrite Forall_forall in Fa; now apply (Fa r R C)).
  assert (Pa' := joints_patient eps env a Pa ps). assert (Fa' := joints_apart eps env l a ps Fa). destruct (correct_joints eps env a ps) as [a' ps1]. cbn [fst snd] in *.
  cbn [correct_joints]. fold l. rewrite Hb.
  assert (V1 : unit_pose ps1 (l_b1 l)) by (unfold unit_pose; now rewrite La1). assert (V2 : unit_pose ps1 (l_b2 l)) by (unfold unit_pose; now rewrite La2).
  destruct (slider_bounded eps env j He Hn H1 H2 Hm d mm ps1 Ha Hl Ho V1 V2) as (T1 & T2 & T3). destruct (slider_correct eps env j d mm ps1) as [[d2 m2] ps2]. cbn [snd] in T1, T2, T3. fold l in T1, T2.
  assert (Lb1 : snd (correct_joints eps env b ps2) (l_b1 l) = ps2 (l_b1 l)) by (apply joints_leave; intros r R C; rewrite Forall_forall in Fb; now apply (Fb r R C)).
  assert (Lb2 : snd (correct_joints eps env b ps2) (l_b2 l) = ps2 (l_b2 l)) by (apply joints_leave; intros r R C; rewrite Forall_forall in Fb; now apply (Fb r R C)).
  assert (Fb' := joints_apart eps env l b ps2 Fb). destruct (correct_joints eps env b ps2) as [b' ps3]. cbn [fst snd] in *.
  split; [exists a', d2, m2, b'; split; [reflexivity | split; [exact Pa' | apply Forall_app; now split]] |].
  unfold unit_pose in *. rewrite Lb1, Lb2, T1, T2. split; [exact V1 | split; [exact V2 |]]. rewrite (extension_local ps3 ps2) by assumption. rewrite (extension_local ps ps1) by congruence. exact T3.
Qed.
Lemma slide_all n : forall rs ps, slide_scene rs -> unit_pose ps (l_b1 l) -> unit_pose ps (l_b2 l) ->
  extension_at env (snd (correct_positions (S n) eps env rs ps)) j = Rmax (sl_lower j) (Rmin (sl_upper j) (extension_at env ps j)).
Proof.
  induction n as [| n IH]; intros rs ps S U1 U2; cbn [correct_positions]; assert (T := slide_step rs ps S U1 U2); destruct (correct_joints eps env rs ps) as [rs1 ps1]; destruct T as (A & B & C & T); [exact T |].
  specialize (IH rs1 ps1 A B C). cbn [correct_positions] in IH. rewrite IH, T. unfold Rmax, Rmin. repeat destruct (Rle_dec _ _); lra.
Qed.
End Slide_scene.
Lemma translation_null eps e l r1 r2 ps : unit_pose ps (l_b1 l) -> unit_pose ps (l_b2 l) -> gap_now ps l r1 r2 = vzero -> correct_translation eps e l r1 r2 ps = ps.
Proof.
  intros U1 U2 O. unfold correct_translation. rewrite O, vneg_zero', mat_vec_zero. destruct (rlt _ _); [| reflexivity].
  rewrite !vcross_zero_l, !vneg_zero'. rewrite (move_zero _ (l_b1 l) ps U1). now apply move_zero.
Qed.
