(** The position correction of the limits of a hinge. *)
From Coq Require Import List Reals Lra Psatz Bool Arith FunctionalExtensionality.
From Verif Require Import VecModel VecProofs LinAlgProperties ContactModel ContactSpec ContactProofs ContactLawProofs ContactBounceProofs BodyModel BodyProofs BodyLawProofs JointModel JointSpec JointSolveProofs JointDriveProofs JointAngleProofs.
From Verif Require Import BodyModel JointPositionModel JointPositionSpec JointPositionProofs JointPositionLawProofs JointPositionTurnProofs JointPositionAxisProofs.
Import ListNotations.
Local Open Scope R_scope.

Lemma spin_rotation x a q : vlen2 a = 1 -> quat_len2 q = 1 -> spin (vscale x a) q = quat_mul (rotation a (2 * atan (x / 2))) q.
Proof.
  intros A U. unfold spin. assert (L : quat_len2 (turn (vscale x a) 1 q) = 1 + (x / 2) ^ 2).
  { rewrite turn_len2, U. replace (vlen2 (vscale x a)) with (x * x * vlen2 a) by (clear; destruct a; unfold vlen2, vscale, vdot; cbn; ring). rewrite A. field. }
  unfold quat_normalize. rewrite L. unfold rotation. replace (2 * atan (x / 2) / 2) with (atan (x / 2)) by field. rewrite sin_atan, cos_atan. replace ((x / 2)²) with ((x / 2) ^ 2) by (unfold Rsqr; ring).
  assert (S : sqrt (1 + (x / 2) ^ 2) <> 0) by (apply Rgt_not_eq; apply sqrt_lt_R0; assert (0 <= (x / 2) ^ 2) by apply pow2_ge_0; lra).
  revert S. generalize (sqrt (1 + (x / 2) ^ 2)). clear. intros s S. destruct a, q. unfold turn, quat_add, quat_scale, quat_mul, vscale. cbn. f_equal; field; exact S.
Qed.
Lemma atan_below x : 0 < x -> 0 < 2 * atan (x / 2) < x.
Proof.
  intros X. assert (Y : 0 < x / 2) by lra. split.
  - assert (A := atan_increasing 0 (x / 2) Y). rewrite atan_0 in A. lra.
  - destruct (MVT_cor2 atan (fun c => / (1 + c ^ 2)) 0 (x / 2) Y (fun c _ => derivable_pt_lim_atan c)) as (c & E & C). rewrite atan_0 in E.
    assert (P : 0 < c ^ 2) by (apply pow_lt; lra). assert (I : / (1 + c ^ 2) < 1) by (rewrite <- Rinv_1; apply Rinv_lt_contravar; lra). nra.
Qed.
Lemma rotation_undo a q : vlen2 a = 1 -> forall t, quat_len2 q = 1 -> quat_len2 (quat_mul (rotation a t) q) = 1.
Proof. intros A t U. rewrite quat_len2_mul, U. assert (W := rotation_unit a t A). unfold unit_quat in W. unfold quat_len2. lra. Qed.
Section Limit.
Variables (eps : R) (env : pbodies) (j : hinge) (k : R).
Let l := hg_link j.
Hypothesis He : 0 <= eps < 1.
Hypothesis Hn : l_b1 l <> l_b2 l.
Hypothesis H1 : pb_im (env (l_b1 l)) = 0 /\ pb_il (env (l_b1 l)) = vzero.
Hypothesis Hk : 0 < k.
Hypothesis H2 : pb_il (env (l_b2 l)) = V3 k k k /\ pb_al (env (l_b2 l)) = V3 1 1 1.
Hypothesis Hlim : hg_limit j = true.
Hypothesis Ho : hg_lower j < hg_upper j.
Hypothesis Hu : vlen2 (hg_a1 j) = 1.
Lemma limit_turns ps0 ps a x : unit_pose ps0 (l_b2 l) -> unit_pose ps (l_b1 l) -> unit_pose ps (l_b2 l) -> vlen2 a = 1 ->
  correct_hinge_limit (at_poses env ps0) l a x ps = put_pose (l_b2 l) (Pose (po_x (ps (l_b2 l))) (quat_mul (rotation a (2 * atan (k * x / 2))) (po_q (ps (l_b2 l))))) ps.
Proof.
  intros U0 U1 U2 A. unfold correct_hinge_limit. destruct H1 as [_ I1]. destruct H2 as [I2 L2].
  assert (E : move_ang (at_poses env ps0) (l_b1 l) (vscale (- x) a) ps = ps).
  { apply functional_extensionality. intros b. unfold move_ang. cbn [at_poses jb r_iw r_al]. rewrite I1, world_zero, mat_zero_vec, vmul_zero_r, spin_zero by exact U1. unfold put_pose. destruct (Nat.eqb b (l_b1 l)) eqn:B; [apply Nat.eqb_eq in B; subst b; apply pose_eta | reflexivity]. }
  rewrite E. unfold move_ang. cbn [at_poses jb r_iw r_al]. rewrite I2, L2, sphere_world by (assumption || lra). f_equal. f_equal. rewrite <- spin_rotation by assumption. f_equal.
  clear. destruct a. unfold vmul, vscale. cbn. f_equal; ring.
Qed.
Lemma hinge_limited d mm ps : unit_pose ps (l_b1 l) -> unit_pose ps (l_b2 l) -> opening env ps l = vzero -> hinge_axis1 ps j = hinge_axis2 ps j -> hd_minv d = 1 / k ->
  let a := hinge_axis1 ps j in let q1 := quat_normalize (po_q (ps (l_b1 l))) in let q2 := quat_normalize (po_q (ps (l_b2 l))) in
  let t := hinge_angle q1 q2 (hg_diff j) a (hg_lower j) (hg_upper j) in
  let ps' := snd (hinge_correct eps env j d mm ps) in let turned_by x := put_pose (l_b2 l) (Pose (po_x (ps (l_b2 l))) (quat_mul (rotation a x) q2)) ps in
  (t < hg_lower j -> ps' = turned_by (2 * atan ((hg_lower j - t) / 2))) /\ (hg_upper j < t -> ps' = turned_by (- (2 * atan ((t - hg_upper j) / 2)))).
Proof.
  intros U1 U2 O X M a q1 q2 t ps' turned_by. assert (A : a = quat_vec (po_q (ps (l_b1 l))) (hg_a1 j)) by (unfold a, hinge_axis1; now rewrite quat_normalize_1).
  assert (A' : a = quat_vec (po_q (ps (l_b2 l))) (hg_a2 j)) by (unfold a; rewrite X; unfold hinge_axis2; now rewrite quat_normalize_1).
  assert (Q1 : q1 = po_q (ps (l_b1 l))) by now apply quat_normalize_1. assert (Q2 : q2 = po_q (ps (l_b2 l))) by now apply quat_normalize_1.
  assert (V : vlen2 a = 1) by (rewrite A; now rewrite quat_vec_len2). set (e := at_poses env ps).
  assert (E : ps' = correct_translation eps e l (arm1 e l) (arm2 e l) (correct_hinge_axis eps e l a (orthogonal_unit a) (vcross a (orthogonal_unit a))
     (let ps := if rle (t - hg_lower j) 0 then correct_hinge_limit e l a (1 / k * (- (t - hg_lower j))) ps else ps in
      if rle (hg_upper j - t) 0 then correct_hinge_limit e l a (- (1 / k * (- (hg_upper j - t)))) ps else ps))).
  { unfold ps', hinge_correct. cbn [snd]. fold l. rewrite Hlim. cbn [andb]. rewrite <- A, <- A', M. rewrite !vnormalize_1 by assumption. rewrite <- Q1, <- Q2. fold t. reflexivity. }
  assert (Rest : forall x, correct_translation eps e l (arm1 e l) (arm2 e l) (correct_hinge_axis eps e l a (orthogonal_unit a) (vcross a (orthogonal_unit a)) (turned_by x)) = turned_by x).
  { intros x. assert (W1 : unit_pose (turned_by x) (l_b1 l)) by (unfold unit_pose, turned_by; now rewrite put_other). assert (W2 : unit_pose (turned_by x) (l_b2 l)) by (unfold unit_pose, turned_by; rewrite put_same; apply rotation_undo; [exact V | now rewrite Q2]).
    rewrite hinge_axis_rest by assumption. apply translation_null; [assumption | assumption |]. rewrite open_arms in O by assumption. unfold gap_now, turned_by. rewrite put_same, put_other by exact Hn. exact O. }
  rewrite E. split; intros T.
  - destruct (rle (t - hg_lower j) 0) eqn:R1; [| apply rle_false in R1; lra]. destruct (rle (hg_upper j - t) 0) eqn:R2; [apply rle_true in R2; lra |]. cbn zeta.
    unfold e at 5. rewrite limit_turns by assumption. rewrite <- Q2. replace (k * (1 / k * - (t - hg_lower j)) / 2) with ((hg_lower j - t) / 2) by (field; lra). apply Rest.
  - destruct (rle (t - hg_lower j) 0) eqn:R1; [apply rle_true in R1; lra |]. destruct (rle (hg_upper j - t) 0) eqn:R2; [| apply rle_false in R2; lra]. cbn zeta.
    unfold e at 5. rewrite limit_turns by assumption. rewrite <- Q2. replace (k * - (1 / k * - (hg_upper j - t)) / 2) with (- ((t - hg_upper j) / 2)) by (field; lra). rewrite atan_opp.
    replace (2 * - atan ((t - hg_upper j) / 2)) with (- (2 * atan ((t - hg_upper j) / 2))) by ring. apply Rest.
Qed.
End Limit.
