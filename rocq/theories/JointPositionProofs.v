From Coq Require Import List Reals Lra Psatz Bool Arith FunctionalExtensionality.
From Verif Require Import VecModel VecProofs ContactModel ContactSpec ContactProofs ContactLawProofs ContactBounceProofs BodyModel BodyProofs BodyLawProofs JointModel JointSpec JointSolveProofs.
From Verif Require Import BodyModel JointPositionModel JointPositionSpec.
Import ListNotations.
Local Open Scope R_scope.

(** * Every correction is a sequence of opposite impulses on the two bodies of a joint *)
Definition pair (e : jbodies) (l : link) (lin a1 a2 : vec3) (ps : poses) : poses :=
  move e (l_b2 l) lin a2 (move e (l_b1 l) (vneg lin) a1 ps).
Inductive corrected (env : pbodies) (ok : link -> Prop) : poses -> poses -> Prop :=
| corrected_refl ps : corrected env ok ps ps
| corrected_step ps ps1 ps0 l lin a1 a2 : ok l -> corrected env ok ps ps1 ->
    corrected env ok ps (pair (at_poses env ps0) l lin a1 a2 ps1).
Lemma corrected_trans env ok a b c : corrected env ok a b -> corrected env ok b c -> corrected env ok a c.
Proof. intros A. induction 1 as [| b c ps0 l lin a1 a2 L C IH]; [exact A |]. apply corrected_step; [exact L | now apply IH]. Qed.
Lemma corrected_one env (ok : link -> Prop) ps ps0 l lin a1 a2 : ok l -> corrected env ok ps (pair (at_poses env ps0) l lin a1 a2 ps).
Proof. intros L. apply corrected_step; [exact L | constructor]. Qed.
Lemma vneg_vneg a : vneg (vneg a) = a. Proof. vsolve. Qed.
Lemma vneg_zero' : vneg vzero = vzero. Proof. vsolve. Qed.
Lemma move_ang_move e b a ps : move_ang e b a ps = move e b vzero a ps.
Proof. unfold move_ang, move. f_equal. f_equal. rewrite vmul_zero_r. now rewrite vadd_zero_r. Qed.
Lemma ang_pair e l a1 a2 ps : move_ang e (l_b2 l) a2 (move_ang e (l_b1 l) a1 ps) = pair e l vzero a1 a2 ps.
Proof. unfold pair. rewrite !move_ang_move, vneg_zero'. reflexivity. Qed.
Lemma neg_pair e l lin a1 a2 ps : move e (l_b2 l) (vneg lin) a2 (move e (l_b1 l) lin a1 ps) = pair e l (vneg lin) a1 a2 ps.
Proof. unfold pair. now rewrite vneg_vneg. Qed.
Lemma scale_pair e l d axis a1 a2 ps : move e (l_b2 l) (vscale d axis) a2 (move e (l_b1 l) (vscale (- d) axis) a1 ps) = pair e l (vscale d axis) a1 a2 ps.
Proof. unfold pair. replace (vneg (vscale d axis)) with (vscale (- d) axis) by (clear; vsolve). reflexivity. Qed.

Section S.
Variable eps : R.
Variable env : pbodies.
Variable ok : link -> Prop.
Lemma translation_corrected ps0 l r1 r2 ps : ok l -> corrected env ok ps (correct_translation eps (at_poses env ps0) l r1 r2 ps).
Proof. intros L. unfold correct_translation. destruct (rlt _ _); [now apply corrected_one | constructor]. Qed.
Lemma rotation_corrected ps0 l diff ps : ok l -> corrected env ok ps (correct_rotation eps (at_poses env ps0) l diff ps).
Proof. intros L. unfold correct_rotation. destruct (rlt _ _); [rewrite ang_pair; now apply corrected_one | constructor]. Qed.
Lemma cone_corrected ps0 j r1 r2 m ps : ok (bl_link j) -> corrected env ok ps (snd (correct_cone eps (at_poses env ps0) j r1 r2 m ps)).
Proof.
  intros L. unfold correct_cone. destruct (bl_cone j); [| constructor]. destruct (rlt _ 0); [| constructor]. cbn [snd]. rewrite ang_pair. now apply corrected_one.
Qed.
Lemma hinge_limit_corrected ps0 l a1 d ps : ok l -> corrected env ok ps (correct_hinge_limit (at_poses env ps0) l a1 d ps).
Proof. intros L. unfold correct_hinge_limit. rewrite ang_pair. now apply corrected_one. Qed.
Lemma hinge_axis_corrected ps0 l a1 b2 c2 ps : ok l -> corrected env ok ps (correct_hinge_axis eps (at_poses env ps0) l a1 b2 c2 ps).
Proof. intros L. unfold correct_hinge_axis. destruct (rlt _ _); [rewrite ang_pair; now apply corrected_one | constructor]. Qed.
Lemma slider_limit_corrected ps0 l axis r1a r2a d ps : ok l -> corrected env ok ps (correct_slider_limit (at_poses env ps0) l axis r1a r2a d ps).
Proof. intros L. unfold correct_slider_limit. rewrite scale_pair. now apply corrected_one. Qed.
Lemma slide_corrected ps0 l n1 n2 r1n1 r1n2 r2n1 r2n2 u ps : ok l -> corrected env ok ps (correct_slide eps (at_poses env ps0) l n1 n2 r1n1 r1n2 r2n1 r2n2 u ps).
Proof. intros L. unfold correct_slide. destruct (rlt _ _); [rewrite neg_pair; now apply corrected_one | constructor]. Qed.
Lemma if_corrected (b : bool) ps ps' : corrected env ok ps ps' -> corrected env ok ps (if b then ps' else ps).
Proof. intros H. destruct b; [exact H | constructor]. Qed.

Lemma ball_corrected j m ps : ok (bl_link j) -> corrected env ok ps (snd (ball_correct eps env j m ps)).
Proof.
  intros L. unfold ball_correct.
  assert (C := cone_corrected ps j (arm1 (at_poses env ps) (bl_link j)) (arm2 (at_poses env ps) (bl_link j)) m ps L).
  destruct (correct_cone _ _ _ _ _ _ _) as [m' ps']. cbn [snd] in *. eapply corrected_trans; [exact C |]. now apply translation_corrected.
Qed.
Lemma fixed_corrected j ps : ok (fx_link j) -> corrected env ok ps (fixed_correct eps env j ps).
Proof. intros L. unfold fixed_correct. eapply corrected_trans; [apply translation_corrected | apply rotation_corrected]; exact L. Qed.
Lemma hinge_corrected j d m ps : ok (hg_link j) -> corrected env ok ps (snd (hinge_correct eps env j d m ps)).
Proof.
  intros L. unfold hinge_correct. cbn [snd]. eapply corrected_trans; [| now apply translation_corrected]. eapply corrected_trans; [| now apply hinge_axis_corrected].
  eapply corrected_trans; [| apply if_corrected; now apply hinge_limit_corrected]. apply if_corrected. now apply hinge_limit_corrected.
Qed.
Lemma slider_corrected j d m ps : ok (sl_link j) -> corrected env ok ps (snd (slider_correct eps env j d m ps)).
Proof.
  intros L. unfold slider_correct. cbn [snd]. eapply corrected_trans; [| now apply slide_corrected]. eapply corrected_trans; [| now apply rotation_corrected].
  eapply corrected_trans; [| apply if_corrected; now apply slider_limit_corrected]. apply if_corrected. now apply slider_limit_corrected.
Qed.
Definition allowed (r : ready) : Prop := corrects r = true -> ok (link_of (keep_joint r)).
Lemma joints_corrected rs : Forall allowed rs -> forall ps, corrected env ok ps (snd (correct_joints eps env rs ps)) /\ Forall allowed (fst (correct_joints eps env rs ps)).
Proof.
  induction 1 as [| r rs A F IH]; intros ps; [split; constructor |]. unfold allowed, corrects in A. destruct r as [j d m | j d m | j d m | j d m]; cbn [correct_joints]; cbn [keep_joint link_of] in A.
  - destruct (l_baumgarte (bl_link j)) eqn:B.
    + destruct (IH ps) as [C G]. destruct (correct_joints eps env rs ps) as [rs' ps']. cbn [fst snd] in *. split; [exact C | constructor; [| exact G]]. unfold allowed, corrects. cbn. now rewrite B.
    + specialize (A eq_refl). assert (C1 := ball_corrected j m ps A). destruct (ball_correct eps env j m ps) as [m' ps1]. destruct (IH ps1) as [C G]. destruct (correct_joints eps env rs ps1) as [rs' ps']. cbn [fst snd] in *.
      split; [now apply corrected_trans with ps1 | constructor; [| exact G]]. intros _. exact A.
  - destruct (l_baumgarte (fx_link j)) eqn:B.
    + destruct (IH ps) as [C G]. destruct (correct_joints eps env rs ps) as [rs' ps']. cbn [fst snd] in *. split; [exact C | constructor; [| exact G]]. unfold allowed, corrects. cbn. now rewrite B.
    + specialize (A eq_refl). assert (C1 := fixed_corrected j ps A). destruct (IH (fixed_correct eps env j ps)) as [C G]. destruct (correct_joints eps env rs _) as [rs' ps']. cbn [fst snd] in *.
      split; [eapply corrected_trans; [exact C1 | exact C] | constructor; [| exact G]]. intros _. exact A.
  - destruct (l_baumgarte (hg_link j)) eqn:B.
    + destruct (IH ps) as [C G]. destruct (correct_joints eps env rs ps) as [rs' ps']. cbn [fst snd] in *. split; [exact C | constructor; [| exact G]]. unfold allowed, corrects. cbn. now rewrite B.
    + specialize (A eq_refl). assert (C1 := hinge_corrected j d m ps A). destruct (hinge_correct eps env j d m ps) as [[d' m'] ps1]. destruct (IH ps1) as [C G]. destruct (correct_joints eps env rs ps1) as [rs' ps']. cbn [fst snd] in *.
      split; [now apply corrected_trans with ps1 | constructor; [| exact G]]. intros _. exact A.
  - destruct (l_baumgarte (sl_link j)) eqn:B.
    + cbn [fst snd]. split; [constructor | constructor; [| exact F]]. unfold allowed, corrects. cbn. now rewrite B.
    + specialize (A eq_refl). assert (C1 := slider_corrected j d m ps A). destruct (slider_correct eps env j d m ps) as [[d' m'] ps1]. destruct (IH ps1) as [C G]. destruct (correct_joints eps env rs ps1) as [rs' ps']. cbn [fst snd] in *.
      split; [now apply corrected_trans with ps1 | constructor; [| exact G]]. intros _. exact A.
Qed.
Lemma positions_corrected n : forall rs ps, Forall allowed rs -> corrected env ok ps (snd (correct_positions n eps env rs ps)).
Proof.
  induction n as [| n IH]; intros rs ps F; [constructor |]. cbn [correct_positions]. destruct (joints_corrected rs F ps) as [C G]. destruct (correct_joints eps env rs ps) as [rs1 ps1].
  cbn [fst snd] in *. eapply corrected_trans; [exact C | now apply IH].
Qed.
End S.

(** * What opposite impulses do *)
Lemma put_same b p ps : put_pose b p ps b = p. Proof. unfold put_pose. now rewrite Nat.eqb_refl. Qed.
Lemma put_other b p ps i : i <> b -> put_pose b p ps i = ps i. Proof. intros N. unfold put_pose. now apply Nat.eqb_neq in N as ->. Qed.
(** An invariant of single moves. *)
Lemma corrected_inv env (ok : link -> Prop) (b : nat) (P : pose -> Prop) ps ps' :
  (forall l, ok l -> l_b1 l = b \/ l_b2 l = b ->
     forall ps0 lin ang p, P p -> P (Pose (vadd (po_x p) (vmul (vscale (pb_im (env b)) (pb_ll (env b))) lin))
                                         (spin (vmul (pb_al (env b)) (mat_vec (world_inverse (quat_matrix (po_q (ps0 b))) (pb_il (env b))) ang)) (po_q p)))) ->
  corrected env ok ps ps' -> P (ps b) -> P (ps' b).
Proof.
  intros H C Pb. induction C as [| ps ps1 ps0 l lin a1 a2 L C IH]; [exact Pb |]. specialize (IH Pb). unfold pair, move.
  destruct (Nat.eq_dec b (l_b2 l)) as [E2 | N2].
  - subst b. rewrite put_same. apply (H l L (or_intror eq_refl) ps0). destruct (Nat.eq_dec (l_b2 l) (l_b1 l)) as [E1 | N1].
    + rewrite E1 in *. rewrite put_same. apply (H l L (or_introl eq_refl) ps0). exact IH.
    + rewrite put_other by exact N1. exact IH.
  - rewrite put_other by exact N2. destruct (Nat.eq_dec b (l_b1 l)) as [E1 | N1].
    + subst b. rewrite put_same. apply (H l L (or_introl eq_refl) ps0). exact IH.
    + rewrite put_other by exact N1. exact IH.
Qed.
Lemma turn_len2 w q : quat_len2 (turn w 1 q) = (1 + vlen2 w / 4) * quat_len2 q.
Proof. unfold turn, quat_len2, quat_add, quat_scale, quat_mul, vlen2. destruct w, q. cbn. field. Qed.
Lemma vlen2_nonneg' v : 0 <= vlen2 v. Proof. unfold vlen2. destruct v. cbn. nra. Qed.
Lemma spin_unit w q : 0 < quat_len2 q -> quat_len2 (spin w q) = 1.
Proof. intros H. apply quat_normalize_len2. rewrite turn_len2. assert (N := vlen2_nonneg' w). nra. Qed.
Lemma turn_zero q : turn vzero 1 q = q.
Proof. unfold turn, quat_add, quat_scale, quat_mul, vzero. destruct q. cbn. f_equal; ring. Qed.
Lemma spin_zero q : quat_len2 q = 1 -> spin vzero q = q.
Proof. intros U. unfold spin. rewrite turn_zero. now apply quat_normalize_1. Qed.

(** * Turning to first order *)
Lemma spin_vec w q v : quat_len2 q = 1 -> let u := quat_vec q v in let s := vlen2 w / 4 in
  quat_vec (spin w q) v = vscale (/ (1 + s)) (vadd (vadd (vscale (1 - s) u) (vcross w u)) (vscale (vdot w u / 2) w)).
Proof.
  intros U u s. unfold spin. assert (N := vlen2_nonneg' w). rewrite quat_vec_normalize by (rewrite turn_len2, U; nra). rewrite turn_len2, U, quat_vec_turn. fold u.
  replace ((1 + vlen2 w / 4) * 1) with (1 + s) by (unfold s; ring). f_equal. unfold s. generalize u (vlen2 w). clear. intros. unfold vadd, vscale, vcross, vdot. cbn. f_equal; field.
Qed.
Definition remainder (w q_v r : vec3) : vec3 := vsub (vsub q_v r) (vcross w r).
Lemma remainder_len w q v : quat_len2 q = 1 -> let r := quat_vec q v in vlen (remainder w (quat_vec (spin w q) v) r) <= vlen2 w / 2 * vlen r.
Proof.
  intros U r. rewrite spin_vec by exact U. fold r. set (s := vlen2 w / 4). assert (N := vlen2_nonneg' w). assert (Nr := vlen_nonneg r). assert (S : 0 <= s) by (unfold s; lra).
  apply vlen_le_iff; [nra |].
  assert (E : (1 + s) * vlen2 (remainder w (vscale (/ (1 + s)) (vadd (vadd (vscale (1 - s) r) (vcross w r)) (vscale (vdot w r / 2) w))) r) = 4 * s * s * vlen2 r - s * (vdot w r * vdot w r)).
  { assert (K : (1 + s) * (1 + s) * vlen2 (remainder w (vscale (/ (1 + s)) (vadd (vadd (vscale (1 - s) r) (vcross w r)) (vscale (vdot w r / 2) w))) r) =
      (1 + s) * (4 * s * s * vlen2 r - s * (vdot w r * vdot w r))).
    { rewrite <- vlen2_vscale. replace (vscale (1 + s) _) with (vadd (vadd (vscale (- 2 * s) r) (vscale (- s) (vcross w r))) (vscale (vdot w r / 2) w)).
      - unfold s. generalize r. clear. intros [a b c]. destruct w as [x y z]. unfold vlen2, vadd, vscale, vcross, vdot. cbn. field.
      - unfold remainder. assert (P : 1 + s <> 0) by lra. revert P. generalize r s. clear. intros [a b c] s P. destruct w as [x y z]. unfold vsub, vadd, vscale, vcross, vdot. cbn. f_equal; field; exact P. }
    apply Rmult_eq_reg_l with (1 + s); [rewrite <- K; ring | lra]. }
  replace (vlen2 w / 2 * vlen r * (vlen2 w / 2 * vlen r)) with (4 * s * s * (vlen r * vlen r)) by (unfold s; field). rewrite vlen_sq.
  set (L := vlen2 (remainder _ _ _)) in *. assert (0 <= L) by (unfold L; apply vlen2_nonneg'). assert (0 <= vdot w r * vdot w r) by nra. assert (0 <= vlen2 r) by apply vlen2_nonneg'. nra.
Qed.

(** * The inverse inertia tensor in the world *)
Lemma quat_vec_adjoint q a b : vdot a (quat_vec q b) = vdot (quat_vec (quat_inverse q) a) b.
Proof. destruct q, a, b. unfold quat_vec, quat_inverse, vdot. cbn. ring. Qed.
Lemma quat_vec_len2 q v : quat_len2 q = 1 -> vlen2 (quat_vec q v) = vlen2 v.
Proof. intros U. rewrite !vlen2_dot, quat_vec_dot, U. ring. Qed.
Lemma tensor_positive q i k : quat_len2 q = 1 -> tensor_within i k -> positive (world_inverse (quat_matrix q) i).
Proof.
  intros U (A & B & C). split.
  - unfold symmetric, world_inverse. generalize (quat_matrix q). intros [[a b c] [d e f] [g h l]]. destruct i as [x y z]. unfold mat_transpose, mat_mul, mk_mat, m00, m01, m02, m10, m11, m12, m20, m21, m22, vdot. cbn. f_equal; f_equal; ring.
  - intros v. rewrite apply_tensor_spec, quat_vec_adjoint by exact U. generalize (quat_vec (quat_inverse q) v). intros [x y z]. destruct i as [a b c]. unfold vdot, vmul. cbn in *. assert (0 <= a * (x * x)) by nra. assert (0 <= b * (y * y)) by nra. assert (0 <= c * (z * z)) by nra. lra.
Qed.
Lemma tensor_len q i k v : quat_len2 q = 1 -> 0 <= k -> tensor_within i k -> vlen (mat_vec (world_inverse (quat_matrix q) i) v) <= k * vlen v.
Proof.
  intros U K (A & B & C). rewrite apply_tensor_spec by exact U. assert (N := vlen_nonneg v). apply vlen_le_iff; [nra |]. rewrite quat_vec_len2 by exact U.
  replace (k * vlen v * (k * vlen v)) with (k * k * (vlen v * vlen v)) by ring. rewrite vlen_sq. rewrite <- (quat_vec_len2 (quat_inverse q) v) by (now rewrite quat_len2_inverse).
  generalize (quat_vec (quat_inverse q) v). intros [x y z]. destruct i as [a b c]. unfold vlen2, vmul. cbn in *.
  assert (a * a <= k * k) by nra. assert (b * b <= k * k) by nra. assert (c * c <= k * k) by nra.
  assert (0 <= x * x) by nra. assert (0 <= y * y) by nra. assert (0 <= z * z) by nra. nra.
Qed.

(** * One correction of the anchor points *)
Lemma mass_vec e l o1 o2 lin : mat_vec (mass_matrix e l o1 o2) lin = vadd (vscale (sum_mass e l) lin)
  (vadd (vcross (mat_vec (i1_of e l) (vcross o1 lin)) o1) (vcross (mat_vec (i2_of e l) (vcross o2 lin)) o2)).
Proof.
  rewrite mass_matrix_sum. unfold skews. rewrite !mat_vec_sum, !mat_vec_mul.
  replace (mat_vec (mat_transpose (mat_skew o1)) lin) with (vneg (vcross o1 lin)) by (msolve).
  replace (mat_vec (mat_transpose (mat_skew o2)) lin) with (vneg (vcross o2 lin)) by (msolve).
  generalize (vcross o1 lin), (vcross o2 lin), (i1_of e l), (i2_of e l), (sum_mass e l). msolve.
Qed.
Lemma mass_form e l o1 o2 d : massy e l -> sum_mass e l * vlen2 d <= vdot d (mat_vec (mass_matrix e l o1 o2) d).
Proof.
  intros ([_ P1] & [_ P2] & _). rewrite mass_vec. specialize (P1 (vcross o1 d)). specialize (P2 (vcross o2 d)).
  replace (vdot d _) with (sum_mass e l * vlen2 d + vdot (vcross o1 d) (mat_vec (i1_of e l) (vcross o1 d)) + vdot (vcross o2 d) (mat_vec (i2_of e l) (vcross o2 d))); [lra |].
  generalize (mat_vec (i1_of e l) (vcross o1 d)), (mat_vec (i2_of e l) (vcross o2 d)), (sum_mass e l). clear. intros [a b c] [a' b' c'] k. destruct o1, o2, d. unfold vdot, vadd, vscale, vcross, vlen2. cbn. ring.
Qed.
Lemma vlen_cross a b : vlen (vcross a b) <= vlen a * vlen b.
Proof.
  assert (A := vlen_nonneg a). assert (B := vlen_nonneg b). apply vlen_le_iff; [nra |]. replace (vlen a * vlen b * (vlen a * vlen b)) with ((vlen a * vlen a) * (vlen b * vlen b)) by ring.
  rewrite !vlen_sq. assert (E : vlen2 (vcross a b) = vlen2 a * vlen2 b - vdot a b * vdot a b) by (clear; destruct a, b; unfold vlen2, vcross, vdot; cbn; ring). rewrite E. nra.
Qed.
(** The bodies of a joint: masses and inertias that make sense, each without locked axes or immovable. *)
Lemma world_zero m : world_inverse m vzero = mat_zero.
Proof. destruct m as [[a b c] [d e f] [g h k]]. unfold world_inverse, mat_mul, mat_zero, mk_mat, vzero, m00, m01, m02, m10, m11, m12, m20, m21, m22. cbn. f_equal; f_equal; ring. Qed.
Lemma sound_free env k b ps : sound env k b -> free (jb (at_poses env ps b)).
Proof. intros (_ & _ & _ & [[A B] | [A B]]); [left | right]; split; cbn; try assumption. rewrite B. apply world_zero. Qed.
Lemma sound_move env k b ps0 lin ang p : sound env k b ->
  Pose (vadd (po_x p) (vmul (vscale (r_im (jb (at_poses env ps0 b))) (r_ll (jb (at_poses env ps0 b)))) lin))
       (spin (vmul (r_al (jb (at_poses env ps0 b))) (mat_vec (r_iw (jb (at_poses env ps0 b))) ang)) (po_q p)) =
  Pose (vadd (po_x p) (vscale (pb_im (env b)) lin)) (spin (mat_vec (r_iw (jb (at_poses env ps0 b))) ang) (po_q p)).
Proof.
  intros S. assert (F := sound_free env k b ps0 S). f_equal.
  - f_equal. assert (E := free_lin _ lin F). cbn in E |- *. rewrite <- E. generalize (pb_ll (env b)), (pb_im (env b)). clear. vsolve.
  - f_equal. now apply free_ang.
Qed.
Lemma cross_flip m a b : mat_vec m (vcross a b) = vneg (mat_vec m (vcross b a)). Proof. vsolve. Qed.
Lemma cross_flip' m a b : mat_vec m (vcross a b) = mat_vec m (vneg (vcross b a)). Proof. vsolve. Qed.
Lemma close_gap w1 w2 s1 s2 r1 r2 d x1 x2 f f' :
  vadd (vsub (vsub (vadd x2 r2) x1) r1) (vadd (vscale (f + f') d) (vadd (vcross (vneg w1) r1) (vcross w2 r2))) = vzero ->
  vsub (vsub (vadd (vadd x2 (vscale f' d)) s2) (vadd x1 (vscale f (vneg d)))) s1 = vsub (vsub (vsub s2 r2) (vcross w2 r2)) (vsub (vsub s1 r1) (vcross w1 r1)).
Proof.
  destruct w1, w2, s1, s2, r1, r2, d, x1, x2. unfold vsub, vadd, vscale, vneg, vcross, vzero. cbn. intros K. injection K as Ka Kb Kc. f_equal; lra.
Qed.
Section One.
Variables (eps : R) (env : pbodies) (l : link) (k1 k2 : R).
Hypothesis He : 0 <= eps.
Hypothesis Hn : l_b1 l <> l_b2 l.
Hypothesis H1 : sound env k1 (l_b1 l).
Hypothesis H2 : sound env k2 (l_b2 l).
Hypothesis Hd : pb_dynamic (env (l_b1 l)) = true \/ pb_dynamic (env (l_b2 l)) = true.
Let m := pb_im (env (l_b1 l)) + pb_im (env (l_b2 l)).
Hypothesis Hm : 0 < m.
Hypothesis Hl : eps < m ^ 3.
Lemma open_arms ps : unit_pose ps (l_b1 l) -> unit_pose ps (l_b2 l) ->
  opening env ps l = gap_now ps l (arm1 (at_poses env ps) l) (arm2 (at_poses env ps) l).
Proof.
  intros U1 U2. unfold opening, point_at, gap_now, arm1, arm2, arm. cbn [at_poses jb_q jb_com]. rewrite !quat_normalize_1 by assumption.
  generalize (quat_vec (po_q (ps (l_b1 l))) (vsub (l_p1 l) (pb_com (env (l_b1 l))))), (quat_vec (po_q (ps (l_b2 l))) (vsub (l_p2 l) (pb_com (env (l_b2 l))))), (po_x (ps (l_b1 l))), (po_x (ps (l_b2 l))).
  clear. vsolve.
Qed.
Lemma translation_closes ps : unit_pose ps (l_b1 l) -> unit_pose ps (l_b2 l) ->
  let ps' := correct_translation eps (at_poses env ps) l (arm1 (at_poses env ps) l) (arm2 (at_poses env ps) l) ps in
  unit_pose ps' (l_b1 l) /\ unit_pose ps' (l_b2 l) /\ vlen (opening env ps' l) <= factor env l k1 k2 * vlen2 (opening env ps l).
Proof.
  intros U1 U2. set (e := at_poses env ps). set (r1 := arm1 e l). set (r2 := arm2 e l). intros ps'.
  assert (M : massy e l).
  { destruct H1 as (A & B & C & _), H2 as (A' & B' & C' & _). split; [| split]; [apply (tensor_positive _ _ k1 U1 C) | apply (tensor_positive _ _ k2 U2 C') | exact Hm]. }
  assert (D := mass_det e l r1 r2 M). change (sum_mass e l) with m in D. assert (Dp : eps < Rabs (mat_det (mass_matrix e l r1 r2))).
  { rewrite Rabs_pos_eq; nra. }
  assert (Y : any_dynamic e l = true) by (unfold any_dynamic; apply orb_true_iff; exact Hd).
  set (g := gap_now ps l r1 r2). set (d := mat_vec (invert_mass eps true (mass_matrix e l r1 r2)) (vneg g)).
  assert (K : mat_vec (mass_matrix e l r1 r2) d = vneg g).
  { unfold d. rewrite <- mat_vec_mul, invert_mass_r by assumption. apply mat_vec_id. }
  assert (G : m * vlen d <= vlen g).
  { assert (F := mass_form e l r1 r2 d M). rewrite K in F. change (sum_mass e l) with m in F. assert (C := cauchy_schwarz d (vneg g)). rewrite vlen_vneg in C. rewrite <- vlen_sq in F.
    assert (Nd := vlen_nonneg d). destruct (Req_dec (vlen d) 0) as [Z | Z]; [rewrite Z; assert (Ng := vlen_nonneg g); lra |]. assert (0 < vlen d) by lra. apply Rmult_le_reg_l with (vlen d); [assumption | lra]. }
  set (w1 := mat_vec (i1_of e l) (vcross d r1)). set (w2 := mat_vec (i2_of e l) (vneg (vcross d r2))).
  assert (E1 : ps' (l_b1 l) = Pose (vadd (po_x (ps (l_b1 l))) (vscale (pb_im (env (l_b1 l))) (vneg d))) (spin w1 (po_q (ps (l_b1 l))))).
  { unfold ps', correct_translation. apply rlt_true in Dp. rewrite Dp, Y. unfold move. rewrite put_other by exact Hn. rewrite put_same. exact (sound_move env k1 _ ps _ _ _ H1). }
  assert (E2 : ps' (l_b2 l) = Pose (vadd (po_x (ps (l_b2 l))) (vscale (pb_im (env (l_b2 l))) d)) (spin w2 (po_q (ps (l_b2 l))))).
  { unfold ps', correct_translation. apply rlt_true in Dp. rewrite Dp, Y. unfold move. rewrite put_same. rewrite put_other by congruence. exact (sound_move env k2 _ ps _ _ _ H2). }
  assert (V1 : unit_pose ps' (l_b1 l)) by (unfold unit_pose; rewrite E1; apply spin_unit; rewrite U1; lra).
  assert (V2 : unit_pose ps' (l_b2 l)) by (unfold unit_pose; rewrite E2; apply spin_unit; rewrite U2; lra).
  split; [exact V1 |]. split; [exact V2 |]. rewrite !open_arms by assumption. fold e r1 r2 g.
  set (s1 := quat_vec (spin w1 (po_q (ps (l_b1 l)))) (vsub (l_p1 l) (pb_com (env (l_b1 l))))). set (s2 := quat_vec (spin w2 (po_q (ps (l_b2 l)))) (vsub (l_p2 l) (pb_com (env (l_b2 l))))).
  assert (A1 : arm1 (at_poses env ps') l = s1) by (unfold arm1, arm; cbn [at_poses jb_q jb_com]; now rewrite E1).
  assert (A2 : arm2 (at_poses env ps') l = s2) by (unfold arm2, arm; cbn [at_poses jb_q jb_com]; now rewrite E2).
  assert (Q : gap_now ps' l (arm1 (at_poses env ps') l) (arm2 (at_poses env ps') l) = vsub (remainder w2 s2 r2) (remainder w1 s1 r1)).
  { rewrite A1, A2. unfold gap_now. rewrite E1, E2. cbn [po_x].
    assert (K' : vadd g (mat_vec (mass_matrix e l r1 r2) d) = vzero) by (rewrite K; clear; vsolve).
    rewrite mass_vec in K'. change (sum_mass e l) with m in K'. unfold m in K'.
    assert (W1 : mat_vec (i1_of e l) (vcross r1 d) = vneg w1) by exact (cross_flip (i1_of e l) r1 d).
    assert (W2 : mat_vec (i2_of e l) (vcross r2 d) = w2) by exact (cross_flip' (i2_of e l) r2 d).
    rewrite W1, W2 in K'. unfold g, gap_now in K'. unfold remainder. revert K'.
    apply (close_gap w1 w2 s1 s2 r1 r2 d (po_x (ps (l_b1 l))) (po_x (ps (l_b2 l))) (pb_im (env (l_b1 l))) (pb_im (env (l_b2 l)))). }
  rewrite Q.
  assert (R1 : vlen (remainder w1 s1 r1) <= vlen2 w1 / 2 * vlen r1) by (apply remainder_len; exact U1).
  assert (R2 : vlen (remainder w2 s2 r2) <= vlen2 w2 / 2 * vlen r2) by (apply remainder_len; exact U2).
  assert (L1 : vlen r1 = reach env (l_b1 l) (l_p1 l)).
  { unfold r1, arm1, arm, reach, vlen. cbn [at_poses jb_q jb_com e]. f_equal. now apply quat_vec_len2. }
  assert (L2 : vlen r2 = reach env (l_b2 l) (l_p2 l)).
  { unfold r2, arm2, arm, reach, vlen. cbn [at_poses jb_q jb_com e]. f_equal. now apply quat_vec_len2. }
  assert (T : vlen (vsub (remainder w2 s2 r2) (remainder w1 s1 r1)) <= vlen (remainder w2 s2 r2) + vlen (remainder w1 s1 r1)).
  { generalize (remainder w2 s2 r2), (remainder w1 s1 r1). clear. intros a b. assert (A := vlen_nonneg a). assert (B := vlen_nonneg b). apply vlen_le_iff; [lra |].
    assert (C := cauchy_schwarz a (vneg b)). rewrite vlen_vneg in C. replace (vlen2 (vsub a b)) with (vlen2 a + vlen2 b + 2 * vdot a (vneg b)) by (destruct a, b; unfold vlen2, vsub, vdot, vneg; cbn; ring). rewrite <- (vlen_sq a), <- (vlen_sq b). nra. }
  assert (B1 : vlen w1 <= k1 * (vlen d * vlen r1)).
  { unfold w1, i1_of. cbn [e at_poses jb r_iw]. destruct H1 as (_ & B & C & _). eapply Rle_trans; [apply (tensor_len _ _ k1 _ U1 B C) |]. apply Rmult_le_compat_l; [exact B | apply vlen_cross]. }
  assert (B2 : vlen w2 <= k2 * (vlen d * vlen r2)).
  { unfold w2, i2_of. cbn [e at_poses jb r_iw]. destruct H2 as (_ & B & C & _). eapply Rle_trans; [apply (tensor_len _ _ k2 _ U2 B C) |]. rewrite vlen_vneg. apply Rmult_le_compat_l; [exact B | apply vlen_cross]. }
  rewrite <- (vlen_sq w1), <- (vlen_sq w2) in *. rewrite <- vlen_sq.
  set (ld := vlen d) in *. set (lg := vlen g) in *. set (lw1 := vlen w1) in *. set (lw2 := vlen w2) in *. unfold factor. fold m. rewrite <- L1, <- L2.
  assert (P1 := vlen_nonneg r1). assert (P2 := vlen_nonneg r2). set (lr1 := vlen r1) in *. set (lr2 := vlen r2) in *.
  assert (Pd : 0 <= ld) by apply vlen_nonneg. assert (Pg : 0 <= lg) by apply vlen_nonneg. assert (Pw1 : 0 <= lw1) by apply vlen_nonneg. assert (Pw2 : 0 <= lw2) by apply vlen_nonneg.
  assert (Q1 : lw1 * lw1 <= k1 ^ 2 * lr1 ^ 2 * (ld * ld)) by (replace (k1 ^ 2 * lr1 ^ 2 * (ld * ld)) with ((k1 * (ld * lr1)) * (k1 * (ld * lr1))) by ring; now apply Rmult_le_compat).
  assert (Q2 : lw2 * lw2 <= k2 ^ 2 * lr2 ^ 2 * (ld * ld)) by (replace (k2 ^ 2 * lr2 ^ 2 * (ld * ld)) with ((k2 * (ld * lr2)) * (k2 * (ld * lr2))) by ring; now apply Rmult_le_compat).
  assert (Dd : ld * ld <= lg * lg / m ^ 2).
  { apply Rmult_le_reg_l with (m ^ 2); [nra |]. replace (m ^ 2 * (lg * lg / m ^ 2)) with (lg * lg) by (field; lra). replace (m ^ 2 * (ld * ld)) with ((m * ld) * (m * ld)) by ring. apply Rmult_le_compat; nra. }
  apply Rle_trans with ((lr1 ^ 3 * k1 ^ 2 + lr2 ^ 3 * k2 ^ 2) / 2 * (ld * ld)).
  - assert (lw1 * lw1 / 2 * lr1 <= k1 ^ 2 * lr1 ^ 2 * (ld * ld) / 2 * lr1) by (apply Rmult_le_compat_r; [exact P1 | lra]).
    assert (lw2 * lw2 / 2 * lr2 <= k2 ^ 2 * lr2 ^ 2 * (ld * ld) / 2 * lr2) by (apply Rmult_le_compat_r; [exact P2 | lra]).
    eapply Rle_trans; [exact T |]. eapply Rle_trans; [apply Rplus_le_compat; eassumption |]. eapply Rle_trans; [apply Rplus_le_compat; eassumption |]. right. field.
  - replace ((lr1 ^ 3 * k1 ^ 2 + lr2 ^ 3 * k2 ^ 2) / 2 / m ^ 2 * (lg * lg)) with ((lr1 ^ 3 * k1 ^ 2 + lr2 ^ 3 * k2 ^ 2) / 2 * (lg * lg / m ^ 2)) by (field; lra).
    apply Rmult_le_compat_l; [| exact Dd]. assert (0 <= lr1 ^ 3) by (apply pow_le; exact P1). assert (0 <= lr2 ^ 3) by (apply pow_le; exact P2). assert (0 <= k1 ^ 2) by (apply pow2_ge_0). assert (0 <= k2 ^ 2) by (apply pow2_ge_0). nra.
Qed.
End One.
