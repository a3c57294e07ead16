(** The position correction of the axes of hinges. *)
From Coq Require Import List Reals Lra Psatz Bool Arith FunctionalExtensionality.
From Verif Require Import VecModel VecProofs LinAlgProperties ContactModel ContactSpec ContactProofs ContactLawProofs ContactBounceProofs BodyModel BodyProofs BodyLawProofs JointModel JointSpec JointSolveProofs JointDriveProofs.
From Verif Require Import BodyModel JointPositionModel JointPositionSpec JointPositionProofs JointPositionLawProofs JointPositionTurnProofs.
Import ListNotations.
Local Open Scope R_scope.

(** ** Frames *)
Lemma frame_sum a b c v : frame a b c -> c = vcross a b -> vlen2 v = vdot v a * vdot v a + vdot v b * vdot v b + vdot v c * vdot v c.
Proof.
  intros (A & B & C & D & E & F) ->.
  (* v minus its part in the frame is orthogonal to everything *)
  assert (K : vlen2 a * vlen2 b - vdot b a * vdot b a = 1) by (rewrite A, B, D; ring).
  assert (G : vlen2 v * (vlen2 a * vlen2 b - vdot b a * vdot b a) = vdot v a * vdot v a * vlen2 b + vdot v b * vdot v b * vlen2 a - 2 * vdot v a * vdot v b * vdot b a + vdot v (vcross a b) * vdot v (vcross a b)).
  { clear. destruct a, b, v. unfold vlen2, vdot, vcross. cbn. ring. }
  rewrite K, A, B, D in G. lra.
Qed.
Lemma frame_turn q a b : quat_len2 q = 1 -> frame a b (vcross a b) -> frame (quat_vec q a) (quat_vec q b) (vcross (quat_vec q a) (quat_vec q b)) /\ vcross (quat_vec q a) (quat_vec q b) = quat_vec q (vcross a b).
Proof.
  intros U (A & B & C & D & E & F). assert (X : vcross (quat_vec q a) (quat_vec q b) = quat_vec q (vcross a b)) by (rewrite quat_vec_cross, U; generalize (quat_vec q (vcross a b)); clear; vsolve).
  split; [| exact X]. rewrite X. unfold frame. rewrite !quat_vec_len2, !quat_vec_dot, U by exact U. rewrite A, B, C, D, E, F. repeat split; ring.
Qed.
Lemma quat_vec_inverse_r q v : quat_len2 q = 1 -> quat_vec q (quat_vec (quat_inverse q) v) = v.
Proof.
  intros U. assert (D : forall t, vdot t (quat_vec q (quat_vec (quat_inverse q) v)) = vdot t v).
  { intros t. rewrite quat_vec_adjoint. rewrite quat_vec_dot. replace (quat_len2 (quat_inverse q)) with (quat_len2 q) by (destruct q; unfold quat_len2, quat_inverse; cbn; ring). rewrite U. ring. }
  assert (X := D (V3 1 0 0)). assert (Y := D (V3 0 1 0)). assert (Z := D (V3 0 0 1)). revert X Y Z. generalize (quat_vec q (quat_vec (quat_inverse q) v)). clear. intros [a b c]. destruct v as [x y z]. unfold vdot. cbn. intros. f_equal; lra.
Qed.
Lemma frame_local q a b : quat_len2 q = 1 -> frame (quat_vec q a) (quat_vec q b) (vcross (quat_vec q a) (quat_vec q b)) -> frame a b (vcross a b).
Proof.
  intros U. assert (X : vcross (quat_vec q a) (quat_vec q b) = quat_vec q (vcross a b)) by (rewrite quat_vec_cross, U; generalize (quat_vec q (vcross a b)); clear; vsolve).
  rewrite X. unfold frame. rewrite !quat_vec_len2, !quat_vec_dot, U by exact U. intros (A & B & C & D & E & F). repeat split; lra.
Qed.
Lemma cross_len2 a b : vlen2 a = 1 -> vlen2 b = 1 -> vlen2 (vcross a b) = 1 - vdot a b * vdot a b.
Proof. intros A B. replace (vlen2 (vcross a b)) with (vlen2 a * vlen2 b - vdot a b * vdot a b) by (destruct a, b; unfold vlen2, vcross, vdot; cbn; ring). rewrite A, B. ring. Qed.
(** Sine of the angle to the first vector of a frame. *)
Lemma mis_frame a b c v : frame a b c -> c = vcross a b -> vlen2 v = 1 -> vlen2 (vcross v a) = vdot v b * vdot v b + vdot v c * vdot v c.
Proof. intros F C V. assert (S := frame_sum a b c v F C). destruct F as (A & _). rewrite cross_len2 by assumption. lra. Qed.

(** ** Forms in the plane *)
Lemma form_sum p q r a b c : (forall x y, 0 <= p * x * x + 2 * r * x * y + q * y * y) -> (forall x y, 0 <= a * x * x + 2 * c * x * y + b * y * y) -> a * b - c * c <= (a + p) * (b + q) - (c + r) * (c + r).
Proof.
  intros P A. destruct (form_minor p q r P) as (P0 & P1 & P2). destruct (form_minor a b c A) as (A0 & A1 & A2).
  assert (M : 2 * (c * r) <= a * q + p * b).
  { assert (S : 0 <= a * q + p * b) by nra. destruct (Rle_lt_dec (c * r) 0) as [N | N]; [lra |]. apply Rsqr_incr_0_var; [| exact S]. unfold Rsqr.
    assert ((c * r) * (c * r) <= (a * b) * (p * q)) by (replace ((c * r) * (c * r)) with ((c * c) * (r * r)) by ring; apply Rmult_le_compat; nra). assert (0 <= (a * q - p * b) * (a * q - p * b)) by apply Rle_0_sqr. nra. }
  nra.
Qed.

Lemma comb_dot k b c t p q : vdot t (mat_vec k (vadd (vscale p b) (vscale q c))) = vdot t (mat_vec k b) * p + vdot t (mat_vec k c) * q.
Proof. destruct b, c, t, k as [[? ? ?] [? ? ?] [? ? ?]]. unfold vadd, vscale, vdot, mat_vec. cbn. unfold vdot. cbn. ring. Qed.
Lemma mat2_parts a b c e d p q : mat2_vec (M2 a b c e) d = (p, q) -> a * fst d + b * snd d = p /\ c * fst d + e * snd d = q.
Proof. destruct d as [d1 d2]. unfold mat2_vec. cbn. intros E. injection E as E1 E2. split; assumption. Qed.

Section Axis.
Variables (eps : R) (env : pbodies) (l : link) (k1 k2 lo1 lo2 : R).
Hypothesis He : 0 <= eps.
Hypothesis Hn : l_b1 l <> l_b2 l.
Hypothesis H1 : sound env k1 (l_b1 l).
Hypothesis H2 : sound env k2 (l_b2 l).
Hypothesis A1 : tensor_above (pb_il (env (l_b1 l))) lo1.
Hypothesis A2 : tensor_above (pb_il (env (l_b2 l))) lo2.
Hypothesis Hd : pb_dynamic (env (l_b1 l)) = true \/ pb_dynamic (env (l_b2 l)) = true.
Hypothesis Hl : 0 < lo1 + lo2.
Hypothesis Hs : eps < (lo1 + lo2) ^ 2 / 4.
Lemma sum_form' ps0 : unit_pose ps0 (l_b1 l) -> unit_pose ps0 (l_b2 l) ->
  let k := mat_add (i1_of (at_poses env ps0) l) (i2_of (at_poses env ps0) l) in
  (forall v, (lo1 + lo2) * vlen2 v <= vdot v (mat_vec k v)) /\ symmetric k.
Proof.
  intros U1 U2 k. split.
  - intros v. unfold k. rewrite mat_vec_sum, vdot_vadd_r. assert (B1 := tensor_form _ _ lo1 v U1 A1). assert (B2 := tensor_form _ _ lo2 v U2 A2). unfold i1_of, i2_of. cbn [at_poses jb r_iw]. lra.
  - destruct H1 as (_ & _ & T1 & _), H2 as (_ & _ & T2 & _). destruct (positive_add _ _ (tensor_positive _ _ k1 U1 T1) (tensor_positive _ _ k2 U2 T2)) as [S _]. exact S.
Qed.
Lemma matrix_entries e b c : let k := mat_add (i1_of e l) (i2_of e l) in
  hinge_matrix e l b c = M2 (vdot b (mat_vec k b)) (vdot b (mat_vec k c)) (vdot c (mat_vec k b)) (vdot c (mat_vec k c)).
Proof. unfold hinge_matrix. cbn zeta. now rewrite !mat_vec_sum, !vdot_vadd_r. Qed.
Lemma symmetric_swap k b c : symmetric k -> vdot b (mat_vec k c) = vdot c (mat_vec k b).
Proof.
  intros S. unfold symmetric in S. destruct k as [[a b' c'] [d e f] [g h i]]. unfold mat_transpose, mk_mat, m00, m01, m02, m10, m11, m12, m20, m21, m22 in S. cbn in S. injection S as S1 S2 S3 S4 S5 S6. subst.
  destruct b, c. unfold vdot, mat_vec. cbn. unfold vdot. cbn. ring.
Qed.
(** What the correction of the axes does: [u] is the turn asked for. *)
Lemma axis_turns ps a1 a2 b2 c2 : unit_pose ps (l_b1 l) -> unit_pose ps (l_b2 l) -> vlen2 a1 = 1 -> frame a2 b2 c2 -> c2 = vcross a2 b2 -> / 2 <= Rabs (vdot a1 a2) ->
  let e := at_poses env ps in let x := vdot a1 b2 in let y := vdot a1 c2 in let b := vcross b2 a1 in let c := vcross c2 a1 in
  forall ps1, let ps' := correct_hinge_axis eps e l a1 b2 c2 ps1 in
  exists w1 w2, ps' (l_b1 l) = Pose (po_x (ps1 (l_b1 l))) (spin w1 (po_q (ps1 (l_b1 l)))) /\ ps' (l_b2 l) = Pose (po_x (ps1 (l_b2 l))) (spin w2 (po_q (ps1 (l_b2 l)))) /\
    vdot b (vsub w2 w1) = - x /\ vdot c (vsub w2 w1) = - y /\
    (lo1 + lo2) * vlen w1 <= 2 * k1 * vlen (vcross a1 a2) /\ (lo1 + lo2) * vlen w2 <= 2 * k2 * vlen (vcross a1 a2).
Proof.
  intros U1 U2 V F C2 Z e x y b c ps1 ps'. set (lo := lo1 + lo2) in *. destruct (sum_form' ps U1 U2) as [Fo Sy]. fold lo e in Fo. fold e in Sy. set (k := mat_add (i1_of e l) (i2_of e l)) in *.
  assert (Fr := F). destruct F as (Fa & Fb & Fc & Fba & Fca & Fbc). set (z := vdot a1 a2) in *.
  assert (Sum : 1 = z * z + x * x + y * y) by (rewrite <- V; rewrite (frame_sum a2 b2 c2 a1 Fr C2); unfold z, x, y; ring).
  assert (Mis : vlen (vcross a1 a2) * vlen (vcross a1 a2) = x * x + y * y) by (rewrite vlen_sq; now apply mis_frame).
  assert (Z2 : / 4 <= z * z) by (unfold Rabs in Z; destruct (Rcase_abs z); nra).
  (* lengths *)
  assert (Gb : vlen2 b = 1 - x * x) by (unfold b; rewrite cross_len2 by assumption; rewrite (vdot_comm b2 a1); reflexivity).
  assert (Gc : vlen2 c = 1 - y * y) by (unfold c; rewrite cross_len2 by assumption; rewrite (vdot_comm c2 a1); reflexivity).
  assert (Gbc : vdot b c = - (x * y)).
  { unfold b, c, x, y. transitivity (vdot b2 c2 * vlen2 a1 - vdot a1 b2 * vdot a1 c2); [clear; destruct a1, b2, c2; unfold vdot, vcross, vlen2; cbn; ring |]. rewrite Fbc. ring. }
  assert (Fxy : forall p q, lo * (vlen2 b * p * p + 2 * vdot b c * p * q + vlen2 c * q * q) <= vdot b (mat_vec k b) * p * p + 2 * vdot b (mat_vec k c) * p * q + vdot c (mat_vec k c) * q * q).
  { intros p q. assert (G := Fo (vadd (vscale p b) (vscale q c))).
    replace (vlen2 (vadd (vscale p b) (vscale q c))) with (vlen2 b * p * p + 2 * vdot b c * p * q + vlen2 c * q * q) in G by (clear; destruct b, c; unfold vlen2, vadd, vscale, vdot; cbn; ring).
    replace (vdot (vadd (vscale p b) (vscale q c)) (mat_vec k (vadd (vscale p b) (vscale q c)))) with (vdot b (mat_vec k b) * p * p + vdot b (mat_vec k c) * p * q + vdot c (mat_vec k b) * p * q + vdot c (mat_vec k c) * q * q) in G
      by (clear; destruct b, c, k as [[? ? ?] [? ? ?] [? ? ?]]; unfold vadd, vscale, vdot, mat_vec; cbn; unfold vdot; cbn; ring).
    rewrite <- (symmetric_swap k b c Sy) in G. lra. }
  assert (Det : eps < Rabs (mat2_det (hinge_matrix e l b c))).
  { rewrite matrix_entries. fold k. unfold mat2_det. cbn. rewrite <- (symmetric_swap k b c Sy).
    assert (Q := form_sum (vdot b (mat_vec k b) - lo * vlen2 b) (vdot c (mat_vec k c) - lo * vlen2 c) (vdot b (mat_vec k c) - lo * vdot b c) (lo * vlen2 b) (lo * vlen2 c) (lo * vdot b c)).
    assert (Q' : lo * vlen2 b * (lo * vlen2 c) - lo * vdot b c * (lo * vdot b c) <= vdot b (mat_vec k b) * vdot c (mat_vec k c) - vdot b (mat_vec k c) * vdot b (mat_vec k c)).
    { eapply Rle_trans; [apply Q |].
      - intros p q. specialize (Fxy p q). lra.
      - intros p q. replace (lo * vlen2 b * p * p + 2 * (lo * vdot b c) * p * q + lo * vlen2 c * q * q) with (lo * vlen2 (vadd (vscale p b) (vscale q c))) by (clear; destruct b, c; unfold vlen2, vadd, vscale, vdot; cbn; ring).
        apply Rmult_le_pos; [lra | apply vlen2_nonneg'].
      - right. ring. }
    rewrite Gb, Gc, Gbc in Q'. assert (lo * lo * (z * z) <= vdot b (mat_vec k b) * vdot c (mat_vec k c) - vdot b (mat_vec k c) * vdot b (mat_vec k c)) by nra.
    assert (lo * lo * / 4 <= lo * lo * (z * z)) by (apply Rmult_le_compat_l; nra). rewrite Rabs_pos_eq by nra. replace (lo ^ 2) with (lo * lo) in Hs by ring. lra. }
  assert (Y : any_dynamic e l = true) by (unfold any_dynamic; apply orb_true_iff; exact Hd).
  set (d := mat2_vec (invert_mass2 eps true (hinge_matrix e l b c)) (- x, - y)).
  assert (K : mat2_vec (hinge_matrix e l b c) d = (- x, - y)) by (unfold d; now apply invert_mass2_solve).
  set (u := vadd (vscale (fst d) b) (vscale (snd d) c)).
  assert (Ku : vdot b (mat_vec k u) = - x /\ vdot c (mat_vec k u) = - y).
  { rewrite matrix_entries in K. fold k in K. apply mat2_parts in K as [Ka Kb]. unfold u. rewrite !comb_dot. split; assumption. }
  set (w1 := mat_vec (i1_of e l) (vneg u)). set (w2 := mat_vec (i2_of e l) u).
  assert (Nu : vsub (vscale (fst d) (vneg b)) (vscale (snd d) c) = vneg u) by (unfold u; generalize (fst d), (snd d); clear; intros p q; destruct b, c; unfold vsub, vscale, vneg, vadd; cbn; f_equal; ring).
  assert (E1 : ps' (l_b1 l) = Pose (po_x (ps1 (l_b1 l))) (spin w1 (po_q (ps1 (l_b1 l))))).
  { unfold ps', correct_hinge_axis. fold b c. apply rlt_true in Det as Dr. rewrite Dr, Y. fold x y d. rewrite Nu. fold u.
    unfold e. rewrite (sound_ang env k2) by exact H2. rewrite put_other by exact Hn. rewrite (sound_ang env k1) by exact H1. now rewrite put_same. }
  assert (E2 : ps' (l_b2 l) = Pose (po_x (ps1 (l_b2 l))) (spin w2 (po_q (ps1 (l_b2 l))))).
  { unfold ps', correct_hinge_axis. fold b c. apply rlt_true in Det as Dr. rewrite Dr, Y. fold x y d. rewrite Nu. fold u.
    unfold e. rewrite (sound_ang env k2) by exact H2. rewrite put_same. rewrite (sound_ang env k1) by exact H1. now rewrite put_other by congruence. }
  exists w1, w2. split; [exact E1 |]. split; [exact E2 |].
  assert (W : vsub w2 w1 = mat_vec k u) by (unfold w1, w2, k; rewrite mat_vec_sum; generalize (i1_of e l), (i2_of e l), u; clear; intros a b u; vsolve).
  rewrite W. split; [apply Ku |]. split; [apply Ku |].
  (* the length of u *)
  set (D := vadd (vscale (fst d) b2) (vscale (snd d) c2)). assert (Ud : u = vcross D a1) by (unfold u, D, b, c; generalize (fst d), (snd d); clear; intros p q; destruct a1, b2, c2; unfold vadd, vscale, vcross; cbn; f_equal; ring).
  assert (Lu : vlen2 u = vlen2 D - vdot D a1 * vdot D a1).
  { rewrite Ud. replace (vlen2 D) with (vlen2 D * vlen2 a1) by (rewrite V; ring). clear. destruct D, a1. unfold vlen2, vcross, vdot. cbn. ring. }
  assert (Dp : vdot D a1 = fst d * x + snd d * y) by (unfold D, x, y; generalize (fst d), (snd d); clear; intros p q; destruct a1, b2, c2; unfold vdot, vadd, vscale; cbn; ring).
  assert (LD : vlen2 D = fst d * fst d + snd d * snd d).
  { replace (vlen2 D) with (fst d * fst d * vlen2 b2 + snd d * snd d * vlen2 c2 + 2 * (fst d * snd d) * vdot b2 c2) by (unfold D; generalize (fst d), (snd d); clear; intros p q; destruct b2, c2; unfold vlen2, vdot, vadd, vscale; cbn; ring). rewrite Fb, Fc, Fbc. ring. }
  assert (Pu : lo * vlen2 u <= - (fst d * x + snd d * y)).
  { specialize (Fo u). replace (vdot u (mat_vec k u)) with (fst d * vdot b (mat_vec k u) + snd d * vdot c (mat_vec k u)) in Fo by (unfold u at 3; generalize (mat_vec k u), (fst d), (snd d); clear; intros t p q; destruct t, b, c; unfold vdot, vadd, vscale; cbn; ring).
    destruct Ku as [Ka Kb]. rewrite Ka, Kb in Fo. lra. }
  set (s := vlen (vcross a1 a2)) in *. assert (Ns : 0 <= s) by apply vlen_nonneg. assert (Nu' := vlen_nonneg u). rewrite <- vlen_sq in Lu, Pu. rewrite LD, Dp in Lu.
  (* |d.(x,y)| <= |d| s and |d|^2 z^2 <= |u|^2 *)
  assert (CS : (fst d * x + snd d * y) * (fst d * x + snd d * y) <= (fst d * fst d + snd d * snd d) * (s * s)) by (rewrite Mis; assert (0 <= (fst d * y - snd d * x) * (fst d * y - snd d * x)) by apply Rle_0_sqr; nra).
  set (q := fst d * x + snd d * y) in *. set (dd := fst d * fst d + snd d * snd d) in *.
  assert (Q1 : dd * (z * z) <= vlen u * vlen u) by (rewrite Lu; replace (z * z) with (1 - s * s) by lra; lra).
  assert (Pdd : 0 <= dd) by (unfold dd; nra).
  assert (Q2 : dd <= 4 * (vlen u * vlen u)) by nra.
  assert (Q3 : q * q <= (2 * vlen u * s) * (2 * vlen u * s)) by (assert (dd * (s * s) <= 4 * (vlen u * vlen u) * (s * s)) by (apply Rmult_le_compat_r; nra); nra).
  assert (Q4 : - q <= 2 * vlen u * s) by (assert (0 <= 2 * vlen u * s) by nra; nra).
  assert (Q5 : lo * vlen u <= 2 * s).
  { destruct (Req_dec (vlen u) 0) as [Zu | Zu]; [rewrite Zu; lra |]. assert (0 < vlen u) by lra. apply Rmult_le_reg_l with (vlen u); [assumption | lra]. }
  destruct H1 as (_ & K1 & T1 & _), H2 as (_ & K2 & T2 & _).
  assert (B1 : vlen w1 <= k1 * vlen u) by (unfold w1, i1_of; cbn [e at_poses jb r_iw]; eapply Rle_trans; [apply (tensor_len _ _ k1 _ U1 K1 T1) |]; rewrite vlen_vneg; lra).
  assert (B2 : vlen w2 <= k2 * vlen u) by (unfold w2, i2_of; cbn [e at_poses jb r_iw]; apply (tensor_len _ _ k2 _ U2 K2 T2)).
  split; nra.
Qed.
End Axis.

(** ** What is left of the angle between the axes *)
Lemma dot_parts a a' b b' : vdot a' b' = vdot a b + vdot (vsub a' a) b + vdot a (vsub b' b) + vdot (vsub a' a) (vsub b' b).
Proof. destruct a, a', b, b'. unfold vdot, vsub. cbn. ring. Qed.
Lemma remainder_dot w r' r b : vdot (vsub r' r) b = vdot (remainder w r' r) b + vdot w (vcross r b).
Proof. unfold remainder. destruct w, r', r, b. unfold vdot, vsub, vcross. cbn. ring. Qed.
Lemma cross_swap w a b : vdot w (vcross a b) = - vdot (vcross b a) w.
Proof. destruct w, a, b. unfold vdot, vcross. cbn. ring. Qed.
Lemma vlen_unit v : vlen2 v = 1 -> vlen v = 1.
Proof. intros H. unfold vlen. rewrite H. apply sqrt_1. Qed.
Lemma unit_cs a b : Rabs (vdot a b) <= vlen a * vlen b.
Proof. assert (A := cauchy_schwarz a b). assert (B := cauchy_schwarz a (vneg b)). rewrite vlen_vneg, vdot_vneg_r in B. unfold Rabs. destruct (Rcase_abs (vdot a b)); lra. Qed.
Lemma second_order w1 w2 q1 q2 v1 v2 : quat_len2 q1 = 1 -> quat_len2 q2 = 1 -> vlen2 v1 = 1 -> vlen2 v2 = 1 ->
  let a := quat_vec q1 v1 in let b := quat_vec q2 v2 in
  vdot (vcross b a) (vsub w2 w1) = - vdot a b -> Rabs (vdot (quat_vec (spin w1 q1) v1) (quat_vec (spin w2 q2) v2)) <= (vlen w1 + vlen w2) ^ 2 / 2.
Proof.
  intros U1 U2 V1 V2 a b H. rewrite (dot_parts a _ b _). rewrite (vdot_comm a (vsub _ b)), (remainder_dot w1 _ a b), (remainder_dot w2 _ b a).
  assert (R1 := remainder_len w1 q1 v1 U1). assert (R2 := remainder_len w2 q2 v2 U2). assert (S1 := spin_shift w1 q1 v1 U1). assert (S2 := spin_shift w2 q2 v2 U2). cbn zeta in R1, R2. fold a in R1, S1. fold b in R2, S2.
  assert (La : vlen a = 1) by (apply vlen_unit; unfold a; now rewrite quat_vec_len2). assert (Lb : vlen b = 1) by (apply vlen_unit; unfold b; now rewrite quat_vec_len2).
  rewrite La in R1. rewrite Lb in R2. rewrite (vlen_unit _ V1) in S1. rewrite (vlen_unit _ V2) in S2.
  set (r1 := remainder w1 _ a) in *. set (r2 := remainder w2 _ b) in *. set (s1 := vsub _ a) in *. set (s2 := vsub _ b) in *.
  assert (C1 := unit_cs r1 b). assert (C2 := unit_cs r2 a). assert (C3 := unit_cs s1 s2). rewrite Lb in C1. rewrite La in C2.
  assert (Z : vdot w1 (vcross a b) + vdot w2 (vcross b a) = - vdot a b).
  { rewrite <- H. rewrite cross_swap. generalize (vcross b a). clear. intros t. destruct t, w1, w2. unfold vdot, vsub. cbn. ring. }
  replace (vdot a b + (vdot r1 b + vdot w1 (vcross a b)) + (vdot r2 a + vdot w2 (vcross b a)) + vdot s1 s2) with (vdot r1 b + vdot r2 a + vdot s1 s2) by lra.
  assert (N1 := vlen_nonneg w1). assert (N2 := vlen_nonneg w2). assert (M1 := vlen_nonneg s1). assert (M2 := vlen_nonneg s2). rewrite <- vlen_sq in R1, R2.
  assert (P : vlen s1 * vlen s2 <= vlen w1 * vlen w2) by (apply Rmult_le_compat; lra).
  eapply Rle_trans; [apply Rabs_triang |]. assert (T := Rabs_triang (vdot r1 b) (vdot r2 a)). replace ((vlen w1 + vlen w2) ^ 2 / 2) with (vlen w1 * vlen w1 / 2 + vlen w2 * vlen w2 / 2 + vlen w1 * vlen w2) by field. lra.
Qed.
Lemma squares x y s : Rabs x <= s / 2 -> Rabs y <= s / 2 -> x * x + y * y <= s * s.
Proof. intros X Y. assert (A := Rabs_pos x). assert (B := Rabs_pos y). replace (x * x) with (Rabs x * Rabs x) by (rewrite <- Rabs_mult; apply Rabs_pos_eq, Rle_0_sqr). replace (y * y) with (Rabs y * Rabs y) by (rewrite <- Rabs_mult; apply Rabs_pos_eq, Rle_0_sqr). nra. Qed.
Lemma cross_parts a a' b b' : vcross a' b' = vadd (vcross a b) (vadd (vcross (vsub a' a) b') (vcross a (vsub b' b))).
Proof. vsolve. Qed.
Lemma cross_shift a a' b b' : vlen a = 1 -> vlen b' = 1 -> vlen (vcross a' b') <= vlen (vcross a b) + (vlen (vsub a' a) + vlen (vsub b' b)).
Proof.
  intros A B. rewrite (cross_parts a a' b b'). eapply Rle_trans; [apply vlen_add |]. apply Rplus_le_compat_l. eapply Rle_trans; [apply vlen_add |]. assert (X := vlen_cross (vsub a' a) b'). assert (Y := vlen_cross a (vsub b' b)). rewrite B in X. rewrite A in Y. lra.
Qed.

(** ** Closing the gap with the arms of another orientation *)
Lemma stale_parts g w1 w2 x1 x2 s1 s2 r1 r2 d f f' :
  vadd (vsub (vsub (vadd x2 r2) x1) r1) (vadd (vscale (f + f') d) (vadd (vcross (vneg w1) r1) (vcross w2 r2))) = vzero ->
  g = vsub (vadd (vadd x2 (vscale f' d)) s2) (vadd (vadd x1 (vscale f (vneg d))) s1) ->
  g = vsub (vsub (vsub s2 r2) (vcross w2 r2)) (vsub (vsub s1 r1) (vcross w1 r1)).
Proof.
  intros K ->. destruct w1, w2, s1, s2, r1, r2, d, x1, x2. unfold vsub, vadd, vscale, vneg, vcross, vzero in *. cbn in *. injection K as Ka Kb Kc. f_equal; lra.
Qed.
Lemma vsub_len a b : vlen (vsub a b) <= vlen a + vlen b.
Proof. replace (vsub a b) with (vadd a (vneg b)) by (clear; revert a b; vsolve). rewrite <- (vlen_vneg b). apply vlen_add. Qed.
Lemma stale_part w s r' r k : vlen (remainder w s r') <= k -> vlen (vsub (vsub s r) (vcross w r)) <= k + (1 + vlen w) * vlen (vsub r' r).
Proof.
  intros H. replace (vsub (vsub s r) (vcross w r)) with (vadd (remainder w s r') (vadd (vsub r' r) (vcross w (vsub r' r)))) by (unfold remainder; clear; revert w s r' r; vsolve).
  eapply Rle_trans; [apply vlen_add |]. assert (A := vlen_add (vsub r' r) (vcross w (vsub r' r))). assert (B := vlen_cross w (vsub r' r)). lra.
Qed.
Section Stale.
Variables (eps : R) (env : pbodies) (l : link) (k1 k2 : R).
Hypothesis He : 0 <= eps.
Hypothesis Hn : l_b1 l <> l_b2 l.
Hypothesis H1 : sound env k1 (l_b1 l).
Hypothesis H2 : sound env k2 (l_b2 l).
Hypothesis Hd : pb_dynamic (env (l_b1 l)) = true \/ pb_dynamic (env (l_b2 l)) = true.
Let m := pb_im (env (l_b1 l)) + pb_im (env (l_b2 l)).
Hypothesis Hm : 0 < m.
Hypothesis Hl : eps < m ^ 3.
Let a1 := reach env (l_b1 l) (l_p1 l).
Let a2 := reach env (l_b2 l) (l_p2 l).
Lemma translation_stale ps z1 z2 ps1 : unit_pose ps (l_b1 l) -> unit_pose ps (l_b2 l) ->
  ps1 (l_b1 l) = Pose (po_x (ps (l_b1 l))) (spin z1 (po_q (ps (l_b1 l)))) -> ps1 (l_b2 l) = Pose (po_x (ps (l_b2 l))) (spin z2 (po_q (ps (l_b2 l)))) ->
  let g := vlen (opening env ps l) in let b1 := k1 * a1 / m * g in let b2 := k2 * a2 / m * g in
  let ps' := correct_translation eps (at_poses env ps) l (arm1 (at_poses env ps) l) (arm2 (at_poses env ps) l) ps1 in
  exists w1 w2, po_q (ps' (l_b1 l)) = spin w1 (po_q (ps1 (l_b1 l))) /\ po_q (ps' (l_b2 l)) = spin w2 (po_q (ps1 (l_b2 l))) /\ vlen w1 <= b1 /\ vlen w2 <= b2 /\
    unit_pose ps' (l_b1 l) /\ unit_pose ps' (l_b2 l) /\
    vlen (opening env ps' l) <= factor env l k1 k2 * g ^ 2 + ((1 + b1) * (vlen z1 * a1) + (1 + b2) * (vlen z2 * a2)).
Proof.
  intros U1 U2 P1 P2. rewrite open_arms by assumption. set (e := at_poses env ps). set (r1 := arm1 e l). set (r2 := arm2 e l). intros g' b1 b2 ps'.
  assert (M : massy e l).
  { destruct H1 as (A & B & C & _), H2 as (A' & B' & C' & _). split; [| split]; [apply (tensor_positive _ _ k1 U1 C) | apply (tensor_positive _ _ k2 U2 C') | exact Hm]. }
  assert (D := mass_det e l r1 r2 M). change (sum_mass e l) with m in D. assert (Dp : eps < Rabs (mat_det (mass_matrix e l r1 r2))) by (rewrite Rabs_pos_eq; nra).
  assert (Y : any_dynamic e l = true) by (unfold any_dynamic; apply orb_true_iff; exact Hd).
  assert (Gs : gap_now ps1 l r1 r2 = gap_now ps l r1 r2) by (unfold gap_now; now rewrite P1, P2).
  set (g := gap_now ps l r1 r2) in *. set (d := mat_vec (invert_mass eps true (mass_matrix e l r1 r2)) (vneg g)).
  assert (K : mat_vec (mass_matrix e l r1 r2) d = vneg g).
  { unfold d. rewrite <- mat_vec_mul, invert_mass_r by assumption. apply mat_vec_id. }
  assert (G : m * vlen d <= vlen g).
  { assert (F := mass_form e l r1 r2 d M). rewrite K in F. change (sum_mass e l) with m in F. assert (C := cauchy_schwarz d (vneg g)). rewrite vlen_vneg in C. rewrite <- vlen_sq in F.
    assert (Nd := vlen_nonneg d). destruct (Req_dec (vlen d) 0) as [Z | Z]; [rewrite Z; assert (Ng := vlen_nonneg g); lra |]. assert (0 < vlen d) by lra. apply Rmult_le_reg_l with (vlen d); [assumption | lra]. }
  set (w1 := mat_vec (i1_of e l) (vcross d r1)). set (w2 := mat_vec (i2_of e l) (vneg (vcross d r2))).
  assert (E1 : ps' (l_b1 l) = Pose (vadd (po_x (ps (l_b1 l))) (vscale (pb_im (env (l_b1 l))) (vneg d))) (spin w1 (po_q (ps1 (l_b1 l))))).
  { unfold ps', correct_translation. apply rlt_true in Dp. rewrite Dp, Y, Gs. fold d. unfold move. rewrite put_other by exact Hn. rewrite put_same. rewrite P1. cbn [po_x po_q].
    exact (sound_move env k1 _ ps _ _ (Pose (po_x (ps (l_b1 l))) (spin z1 (po_q (ps (l_b1 l))))) H1). }
  assert (E2 : ps' (l_b2 l) = Pose (vadd (po_x (ps (l_b2 l))) (vscale (pb_im (env (l_b2 l))) d)) (spin w2 (po_q (ps1 (l_b2 l))))).
  { unfold ps', correct_translation. apply rlt_true in Dp. rewrite Dp, Y, Gs. fold d. unfold move. rewrite put_same. rewrite put_other by congruence. rewrite P2. cbn [po_x po_q].
    exact (sound_move env k2 _ ps _ _ (Pose (po_x (ps (l_b2 l))) (spin z2 (po_q (ps (l_b2 l))))) H2). }
  assert (Q1 : quat_len2 (po_q (ps1 (l_b1 l))) = 1) by (rewrite P1; apply spin_unit; rewrite U1; lra). assert (Q2 : quat_len2 (po_q (ps1 (l_b2 l))) = 1) by (rewrite P2; apply spin_unit; rewrite U2; lra).
  assert (V1 : unit_pose ps' (l_b1 l)) by (unfold unit_pose; rewrite E1; apply spin_unit; rewrite Q1; lra).
  assert (V2 : unit_pose ps' (l_b2 l)) by (unfold unit_pose; rewrite E2; apply spin_unit; rewrite Q2; lra).
  assert (L1 : vlen r1 = a1) by (unfold r1, arm1, arm, a1, reach, vlen; cbn [at_poses jb_q jb_com e]; f_equal; now apply quat_vec_len2).
  assert (L2 : vlen r2 = a2) by (unfold r2, arm2, arm, a2, reach, vlen; cbn [at_poses jb_q jb_com e]; f_equal; now apply quat_vec_len2).
  destruct H1 as (_ & K1 & T1 & _), H2 as (_ & K2 & T2 & _). assert (Nd := vlen_nonneg d). assert (N1 := vlen_nonneg r1). assert (N2 := vlen_nonneg r2).
  assert (G' : vlen d <= vlen g / m) by (apply Rmult_le_reg_l with m; [exact Hm |]; replace (m * (vlen g / m)) with (vlen g) by (field; lra); exact G).
  assert (B1 : vlen w1 <= b1).
  { unfold w1, i1_of. cbn [e at_poses jb r_iw]. eapply Rle_trans; [apply (tensor_len _ _ k1 _ U1 K1 T1) |]. unfold b1. replace (k1 * a1 / m * g') with (k1 * (vlen g / m * a1)) by (unfold g'; field; lra). apply Rmult_le_compat_l; [exact K1 |].
    eapply Rle_trans; [apply vlen_cross |]. rewrite L1. apply Rmult_le_compat_r; [rewrite <- L1; exact N1 | exact G']. }
  assert (B2 : vlen w2 <= b2).
  { unfold w2, i2_of. cbn [e at_poses jb r_iw]. eapply Rle_trans; [apply (tensor_len _ _ k2 _ U2 K2 T2) |]. rewrite vlen_vneg. unfold b2. replace (k2 * a2 / m * g') with (k2 * (vlen g / m * a2)) by (unfold g'; field; lra). apply Rmult_le_compat_l; [exact K2 |].
    eapply Rle_trans; [apply vlen_cross |]. rewrite L2. apply Rmult_le_compat_r; [rewrite <- L2; exact N2 | exact G']. }
  exists w1, w2. split; [now rewrite E1 |]. split; [now rewrite E2 |]. split; [exact B1 |]. split; [exact B2 |]. split; [exact V1 |]. split; [exact V2 |].
  set (v1 := vsub (l_p1 l) (pb_com (env (l_b1 l)))) in *. set (v2 := vsub (l_p2 l) (pb_com (env (l_b2 l)))) in *.
  assert (O : opening env ps' l = vsub (vsub (vsub (quat_vec (spin w2 (po_q (ps1 (l_b2 l)))) v2) r2) (vcross w2 r2)) (vsub (vsub (quat_vec (spin w1 (po_q (ps1 (l_b1 l)))) v1) r1) (vcross w1 r1))).
  { eapply stale_parts; [| unfold opening, point_at; rewrite !quat_normalize_1 by assumption; rewrite E1, E2; reflexivity].
    assert (K' : vadd g (mat_vec (mass_matrix e l r1 r2) d) = vzero) by (rewrite K; clear; vsolve).
    rewrite mass_vec in K'. change (sum_mass e l) with m in K'. unfold m in K'.
    assert (W1 : mat_vec (i1_of e l) (vcross r1 d) = vneg w1) by exact (cross_flip (i1_of e l) r1 d).
    assert (W2 : mat_vec (i2_of e l) (vcross r2 d) = w2) by exact (cross_flip' (i2_of e l) r2 d).
    rewrite W1, W2 in K'. exact K'. }
  rewrite O. eapply Rle_trans; [apply vsub_len |].
  assert (R1 := remainder_len w1 (po_q (ps1 (l_b1 l))) v1 Q1). assert (R2 := remainder_len w2 (po_q (ps1 (l_b2 l))) v2 Q2). cbn zeta in R1, R2.
  assert (L1' : vlen (quat_vec (po_q (ps1 (l_b1 l))) v1) = a1) by (unfold a1, reach, vlen; fold v1; f_equal; now apply quat_vec_len2).
  assert (L2' : vlen (quat_vec (po_q (ps1 (l_b2 l))) v2) = a2) by (unfold a2, reach, vlen; fold v2; f_equal; now apply quat_vec_len2).
  assert (S1 := spin_shift z1 (po_q (ps (l_b1 l))) v1 U1). assert (S2 := spin_shift z2 (po_q (ps (l_b2 l))) v2 U2).
  replace (spin z1 (po_q (ps (l_b1 l)))) with (po_q (ps1 (l_b1 l))) in S1 by now rewrite P1. replace (spin z2 (po_q (ps (l_b2 l)))) with (po_q (ps1 (l_b2 l))) in S2 by now rewrite P2.
  change (quat_vec (po_q (ps (l_b1 l))) v1) with r1 in S1. change (quat_vec (po_q (ps (l_b2 l))) v2) with r2 in S2. change (vlen v1) with a1 in S1. change (vlen v2) with a2 in S2.
  rewrite L1', <- vlen_sq in R1. rewrite L2', <- vlen_sq in R2.
  apply (stale_part _ _ _ r1) in R1. apply (stale_part _ _ _ r2) in R2.
  assert (Nw1 := vlen_nonneg w1). assert (Nw2 := vlen_nonneg w2). assert (Na1 : 0 <= a1) by (rewrite <- L1; exact N1). assert (Na2 : 0 <= a2) by (rewrite <- L2; exact N2).
  assert (X1 : (1 + vlen w1) * vlen (vsub (quat_vec (po_q (ps1 (l_b1 l))) v1) r1) <= (1 + b1) * (vlen z1 * a1)) by (apply Rmult_le_compat; [lra | apply vlen_nonneg | lra | exact S1]).
  assert (X2 : (1 + vlen w2) * vlen (vsub (quat_vec (po_q (ps1 (l_b2 l))) v2) r2) <= (1 + b2) * (vlen z2 * a2)) by (apply Rmult_le_compat; [lra | apply vlen_nonneg | lra | exact S2]).
  assert (F : b1 * b1 / 2 * a1 + b2 * b2 / 2 * a2 = factor env l k1 k2 * g' ^ 2) by (unfold factor; fold m a1 a2; unfold b1, b2; field; lra).
  assert (Y1 : vlen w1 * vlen w1 / 2 * a1 <= b1 * b1 / 2 * a1) by (apply Rmult_le_compat_r; [exact Na1 |]; nra).
  assert (Y2 : vlen w2 * vlen w2 / 2 * a2 <= b2 * b2 / 2 * a2) by (apply Rmult_le_compat_r; [exact Na2 |]; nra).
  lra.
Qed.
End Stale.

(** ** Hinges *)
Section Hinge.
Variables (eps : R) (env : pbodies) (j : hinge) (k1 k2 lo1 lo2 : R).
Let l := hg_link j.
Hypothesis He : 0 <= eps < 1.
Hypothesis Hn : l_b1 l <> l_b2 l.
Hypothesis H1 : sound env k1 (l_b1 l).
Hypothesis H2 : sound env k2 (l_b2 l).
Hypothesis A1 : tensor_above (pb_il (env (l_b1 l))) lo1.
Hypothesis A2 : tensor_above (pb_il (env (l_b2 l))) lo2.
Hypothesis Hd : pb_dynamic (env (l_b1 l)) = true \/ pb_dynamic (env (l_b2 l)) = true.
Hypothesis Hl : 0 < lo1 + lo2.
Hypothesis Hs : eps < (lo1 + lo2) ^ 2 / 4.
Let m := pb_im (env (l_b1 l)) + pb_im (env (l_b2 l)).
Hypothesis Hm : 0 < m.
Hypothesis Hmm : eps < m ^ 3.
Hypothesis Hu1 : vlen2 (hg_a1 j) = 1.
Hypothesis Hu2 : vlen2 (hg_a2 j) = 1.
Hypothesis Hlim : hg_limit j = false.
Let a1 := reach env (l_b1 l) (l_p1 l).
Let a2 := reach env (l_b2 l) (l_p2 l).
Lemma hinge_closes d mm ps : unit_pose ps (l_b1 l) -> unit_pose ps (l_b2 l) -> / 2 <= Rabs (vdot (hinge_axis1 ps j) (hinge_axis2 ps j)) ->
  let g := vlen (opening env ps l) in let s := misalignment ps j in let b1 := k1 * a1 / m * g in let b2 := k2 * a2 / m * g in
  let ps' := snd (hinge_correct eps env j d mm ps) in
  unit_pose ps' (l_b1 l) /\ unit_pose ps' (l_b2 l) /\
  misalignment ps' j <= hinge_factor (lo1 + lo2) k1 k2 * s ^ 2 + (b1 + b2) /\
  vlen (opening env ps' l) <= factor env l k1 k2 * g ^ 2 + 2 * (k1 * a1 * (1 + b1) + k2 * a2 * (1 + b2)) / (lo1 + lo2) * s.
Proof.
  intros U1 U2 Z g s b1 b2 ps'. set (x1 := hinge_axis1 ps j) in *. set (x2 := hinge_axis2 ps j) in *.
  assert (X1 : x1 = quat_vec (po_q (ps (l_b1 l))) (hg_a1 j)) by (unfold x1, hinge_axis1; now rewrite quat_normalize_1).
  assert (X2 : x2 = quat_vec (po_q (ps (l_b2 l))) (hg_a2 j)) by (unfold x2, hinge_axis2; now rewrite quat_normalize_1).
  assert (V1 : vlen2 x1 = 1) by (rewrite X1; now rewrite quat_vec_len2). assert (V2 : vlen2 x2 = 1) by (rewrite X2; now rewrite quat_vec_len2).
  assert (Fr := frame_of x2 V2). set (y := orthogonal_unit x2) in *. assert (Fr' := Fr). destruct Fr' as (_ & Fy & _).
  set (e := at_poses env ps). set (ps1 := correct_hinge_axis eps e l x1 y (vcross x2 y) ps).
  assert (E : ps' = correct_translation eps e l (arm1 e l) (arm2 e l) ps1).
  { unfold ps', hinge_correct. cbn [snd]. fold l. rewrite Hlim. cbn [andb]. fold l in X1, X2. rewrite <- X1, <- X2. now rewrite !vnormalize_1 by assumption. }
  destruct (axis_turns eps env l k1 k2 lo1 lo2 (proj1 He) Hn H1 H2 A1 A2 Hd Hl Hs ps x1 x2 y (vcross x2 y) U1 U2 V1 Fr eq_refl Z ps) as (z1 & z2 & P1 & P2 & D1 & D2 & L1 & L2).
  fold e ps1 in P1, P2. fold (misalignment ps j) in L1, L2. change (vlen (vcross x1 x2)) with s in L1, L2.
  destruct (translation_stale eps env l k1 k2 (proj1 He) Hn H1 H2 Hd Hm Hmm ps z1 z2 ps1 U1 U2 P1 P2) as (w1 & w2 & Q1 & Q2 & B1 & B2 & W1 & W2 & O). fold e in Q1, Q2, W1, W2, O. rewrite <- E in Q1, Q2, W1, W2, O.
  fold g m a1 a2 in B1, B2, O. fold b1 in B1, O. fold b2 in B2, O.
  split; [exact W1 |]. split; [exact W2 |].
  assert (Nl : 0 < / (lo1 + lo2)) by now apply Rinv_0_lt_compat. assert (Ns : 0 <= s) by apply vlen_nonneg.
  assert (L1' : vlen z1 <= 2 * k1 / (lo1 + lo2) * s) by (apply Rmult_le_reg_l with (lo1 + lo2); [exact Hl |]; replace ((lo1 + lo2) * (2 * k1 / (lo1 + lo2) * s)) with (2 * k1 * s) by (field; lra); exact L1).
  assert (L2' : vlen z2 <= 2 * k2 / (lo1 + lo2) * s) by (apply Rmult_le_reg_l with (lo1 + lo2); [exact Hl |]; replace ((lo1 + lo2) * (2 * k2 / (lo1 + lo2) * s)) with (2 * k2 * s) by (field; lra); exact L2).
  assert (U1' : unit_pose ps1 (l_b1 l)) by (unfold unit_pose; rewrite P1; apply spin_unit; rewrite U1; lra). assert (U2' : unit_pose ps1 (l_b2 l)) by (unfold unit_pose; rewrite P2; apply spin_unit; rewrite U2; lra).
  split.
  - unfold misalignment. set (p1 := quat_vec (po_q (ps1 (l_b1 l))) (hg_a1 j)). set (p2 := quat_vec (po_q (ps1 (l_b2 l))) (hg_a2 j)).
    assert (G1 : hinge_axis1 ps' j = quat_vec (spin w1 (po_q (ps1 (l_b1 l)))) (hg_a1 j)) by (unfold hinge_axis1; fold l; rewrite quat_normalize_1 by exact W1; now rewrite Q1).
    assert (G2 : hinge_axis2 ps' j = quat_vec (spin w2 (po_q (ps1 (l_b2 l)))) (hg_a2 j)) by (unfold hinge_axis2; fold l; rewrite quat_normalize_1 by exact W2; now rewrite Q2).
    rewrite G1, G2. assert (N1 : vlen p1 = 1) by (apply vlen_unit; unfold p1; now rewrite quat_vec_len2). assert (N2 : vlen2 p2 = 1) by (unfold p2; now rewrite quat_vec_len2).
    assert (N2' : vlen (quat_vec (spin w2 (po_q (ps1 (l_b2 l)))) (hg_a2 j)) = 1) by (apply vlen_unit; rewrite quat_vec_len2; [exact Hu2 |]; apply spin_unit; rewrite U2'; lra).
    assert (S1 := spin_shift w1 (po_q (ps1 (l_b1 l))) (hg_a1 j) U1'). assert (S2 := spin_shift w2 (po_q (ps1 (l_b2 l))) (hg_a2 j) U2'). rewrite (vlen_unit _ Hu1) in S1. rewrite (vlen_unit _ Hu2) in S2. fold p1 in S1. fold p2 in S2.
    eapply Rle_trans; [apply (cross_shift p1 _ p2 _ N1 N2') |]. apply Rplus_le_compat; [| lra].
    (* the angle after the correction of the axes *)
    set (q1 := po_q (ps (l_b1 l))) in *. set (q2 := po_q (ps (l_b2 l))) in *. set (yl := quat_vec (quat_inverse q2) y).
    assert (Iv : quat_vec q2 yl = y) by now apply quat_vec_inverse_r. assert (Fl : frame (hg_a2 j) yl (vcross (hg_a2 j) yl)).
    { apply frame_local with q2; [exact U2 |]. rewrite <- X2, Iv. exact Fr. }
    assert (Cy : vcross x2 y = quat_vec q2 (vcross (hg_a2 j) yl)) by (rewrite X2, <- Iv; apply (frame_turn q2 (hg_a2 j) yl U2 Fl)).
    assert (T2 : quat_len2 (spin z2 q2) = 1) by (apply spin_unit; unfold unit_pose in U2; fold q2 in U2; rewrite U2; lra).
    destruct (frame_turn (spin z2 q2) (hg_a2 j) yl T2 Fl) as [Ft Fc].
    assert (Ep1 : p1 = quat_vec (spin z1 q1) (hg_a1 j)) by (unfold p1; now rewrite P1). assert (Ep2 : p2 = quat_vec (spin z2 q2) (hg_a2 j)) by (unfold p2; now rewrite P2).
    rewrite <- Ep2 in Ft. assert (Mf := mis_frame p2 _ _ p1 Ft). specialize (Mf eq_refl).
    assert (Np1 : vlen2 p1 = 1) by (unfold p1; now rewrite quat_vec_len2). specialize (Mf Np1). rewrite Ep2, Fc in Mf.
    assert (D1' : vdot (vcross (quat_vec q2 yl) (quat_vec q1 (hg_a1 j))) (vsub z2 z1) = - vdot (quat_vec q1 (hg_a1 j)) (quat_vec q2 yl)) by (rewrite Iv, <- X1; exact D1).
    assert (D2' : vdot (vcross (quat_vec q2 (vcross (hg_a2 j) yl)) (quat_vec q1 (hg_a1 j))) (vsub z2 z1) = - vdot (quat_vec q1 (hg_a1 j)) (quat_vec q2 (vcross (hg_a2 j) yl))) by (rewrite <- Cy, <- X1; exact D2).
    destruct Fl as (_ & Fl1 & Fl2 & _).
    assert (I1 := second_order z1 z2 q1 q2 (hg_a1 j) yl U1 U2 Hu1 Fl1 D1'). assert (I2 := second_order z1 z2 q1 q2 (hg_a1 j) (vcross (hg_a2 j) yl) U1 U2 Hu1 Fl2 D2').
    assert (Sq := squares _ _ _ I1 I2). rewrite <- Ep1, <- Mf in Sq.
    assert (Nz : 0 <= (vlen z1 + vlen z2) ^ 2) by (apply pow2_ge_0). rewrite Ep2. apply vlen_le_iff in Sq; [| exact Nz].
    eapply Rle_trans; [exact Sq |]. unfold hinge_factor. replace ((2 * (k1 + k2) / (lo1 + lo2)) ^ 2 * s ^ 2) with ((2 * k1 / (lo1 + lo2) * s + 2 * k2 / (lo1 + lo2) * s) ^ 2) by (field; lra).
    apply pow_incr. assert (Y1 := vlen_nonneg z1). assert (Y2 := vlen_nonneg z2). lra.
  - eapply Rle_trans; [exact O |]. apply Rplus_le_compat_l.
    assert (Na1 : 0 <= a1) by apply vlen_nonneg. assert (Na2 : 0 <= a2) by apply vlen_nonneg. assert (Nb1 : 0 <= b1) by (eapply Rle_trans; [apply vlen_nonneg | exact B1]). assert (Nb2 : 0 <= b2) by (eapply Rle_trans; [apply vlen_nonneg | exact B2]).
    replace (2 * (k1 * a1 * (1 + b1) + k2 * a2 * (1 + b2)) / (lo1 + lo2) * s) with ((1 + b1) * (2 * k1 / (lo1 + lo2) * s * a1) + (1 + b2) * (2 * k2 / (lo1 + lo2) * s * a2)) by (field; lra).
    apply Rplus_le_compat; apply Rmult_le_compat_l; try lra; apply Rmult_le_compat_r; assumption.
Qed.
End Hinge.

(** ** The limits of a hinge on an immovable body *)
Lemma sphere_world q k v : quat_len2 q = 1 -> 0 <= k -> mat_vec (world_inverse (quat_matrix q) (V3 k k k)) v = vscale k v.
Proof.
  intros U K. assert (W : tensor_within (V3 k k k) k) by (unfold tensor_within; cbn; lra). assert (A : tensor_above (V3 k k k) k) by (unfold tensor_above; cbn; lra).
  assert (L := tensor_len q _ k v U K W). assert (F := tensor_form q _ k v U A). set (u := mat_vec _ v) in *.
  assert (N := vlen_nonneg u). assert (M := vlen_nonneg v). assert (Z : vlen2 (vsub u (vscale k v)) <= 0).
  { replace (vlen2 (vsub u (vscale k v))) with (vlen2 u - 2 * k * vdot v u + k * k * vlen2 v) by (clear; destruct u, v; unfold vlen2, vsub, vscale, vdot; cbn; ring).
    rewrite <- (vlen_sq u), <- (vlen_sq v) in *. assert (vlen u * vlen u <= (k * vlen v) * (k * vlen v)) by (apply Rmult_le_compat; lra). assert (k * (k * (vlen v * vlen v)) <= k * vdot v u) by (apply Rmult_le_compat_l; lra). lra. }
  revert Z. generalize u. clear. intros [a b c]. destruct v as [x y z]. unfold vlen2, vsub, vscale, vdot. cbn. intros Z.
  assert (D : forall t, t * t <= 0 -> t = 0) by (intros t T; destruct (Req_dec t 0) as [| N]; [assumption | assert (0 < t * t) by nra; lra]).
  assert (0 <= (a - k * x) * (a - k * x)) by apply Rle_0_sqr. assert (0 <= (b - k * y) * (b - k * y)) by apply Rle_0_sqr. assert (0 <= (c - k * z) * (c - k * z)) by apply Rle_0_sqr.
  f_equal; apply Rminus_diag_uniq, D; lra.
Qed.
