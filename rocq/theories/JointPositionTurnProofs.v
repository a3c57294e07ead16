(** The position correction of orientations. *)
From Coq Require Import List Reals Lra Psatz Bool Arith FunctionalExtensionality.
From Verif Require Import VecModel VecProofs LinAlgProperties ContactModel ContactSpec ContactProofs ContactLawProofs ContactBounceProofs BodyModel BodyProofs BodyLawProofs JointModel JointSpec JointSolveProofs JointDriveProofs.
From Verif Require Import BodyModel JointPositionModel JointPositionSpec JointPositionProofs JointPositionLawProofs.
Import ListNotations.
Local Open Scope R_scope.

Lemma vlen_add a b : vlen (vadd a b) <= vlen a + vlen b.
Proof.
  assert (A := vlen_nonneg a). assert (B := vlen_nonneg b). apply vlen_le_iff; [lra |]. assert (C := cauchy_schwarz a b).
  replace (vlen2 (vadd a b)) with (vlen2 a + vlen2 b + 2 * vdot a b) by (destruct a, b; unfold vlen2, vadd, vdot; cbn; ring). rewrite <- (vlen_sq a), <- (vlen_sq b). nra.
Qed.
Lemma quat_v_len q : vlen2 (quat_v q) = quat_len2 q - qw q * qw q.
Proof. destruct q. unfold quat_v, vlen2, quat_len2. cbn. ring. Qed.
Lemma quat_v_within q k : 0 <= k -> quat_len2 q <= k * k -> vlen (quat_v q) <= k.
Proof. intros K H. apply vlen_le_iff; [exact K |]. rewrite quat_v_len. nra. Qed.
Lemma quat_w_within q k : 0 <= k -> quat_len2 q <= k * k -> - k <= qw q <= k.
Proof. intros K H. unfold quat_len2 in H. split; nra. Qed.
Definition pure (w : vec3) : quat := Q4 (vx w) (vy w) (vz w) 0.
Lemma pure_len2 w : quat_len2 (pure w) = vlen2 w.
Proof. destruct w. unfold pure, quat_len2, vlen2. cbn. ring. Qed.
(** ** How turning the two bodies changes the twist *)
Definition stretch (w : vec3) : R := sqrt (1 + vlen2 w / 4).
Lemma stretch_ge w : 1 <= stretch w.
Proof. unfold stretch. rewrite <- sqrt_1 at 1. apply sqrt_le_1_alt. assert (N := vlen2_nonneg' w). lra. Qed.
Lemma spin_stretch w q : quat_len2 q = 1 -> quat_scale (stretch w) (spin w q) = turn w 1 q.
Proof.
  intros U. unfold spin, quat_normalize. rewrite turn_len2, U, Rmult_1_r. fold (stretch w). assert (S := stretch_ge w). generalize (turn w 1 q). intros [x y z u]. unfold quat_scale. cbn. f_equal; field; lra.
Qed.
Definition twist (diff q1 q2 : quat) : quat := quat_mul (quat_mul q2 diff) (quat_inverse q1).
Definition half_turn (w : vec3) : quat := quat_scale (/ 2) (pure w).
Lemma half_len2 w : quat_len2 (half_turn w) = vlen2 w / 4.
Proof. destruct w. unfold half_turn, pure, quat_scale, quat_len2, vlen2. cbn. field. Qed.
(** The new twist times the stretches. *)
Definition turned_twist (w1 w2 : vec3) (t : quat) : quat :=
  quat_add (quat_add t (quat_mul (half_turn w2) t)) (quat_scale (- 1) (quat_add (quat_mul t (half_turn w1)) (quat_mul (quat_mul (half_turn w2) t) (half_turn w1)))).
Lemma twist_scale a b diff q1 q2 : twist diff (quat_scale a q1) (quat_scale b q2) = quat_scale (a * b) (twist diff q1 q2).
Proof. destruct diff, q1, q2. unfold twist, quat_scale, quat_mul, quat_inverse. cbn. f_equal; ring. Qed.
Lemma twist_turn diff q1 q2 w1 w2 : twist diff (turn w1 1 q1) (turn w2 1 q2) = turned_twist w1 w2 (twist diff q1 q2).
Proof.
  assert (A : forall w q, turn w 1 q = quat_mul (quat_add (Q4 0 0 0 1) (half_turn w)) q).
  { clear. intros w q. destruct w, q. unfold turn, half_turn, pure, quat_add, quat_scale, quat_mul. cbn. f_equal; field. }
  rewrite !A. unfold twist. set (h1 := half_turn w1). set (h2 := half_turn w2).
  assert (I : quat_inverse (quat_mul (quat_add (Q4 0 0 0 1) h1) q1) = quat_mul (quat_inverse q1) (quat_add (Q4 0 0 0 1) (quat_scale (- 1) h1))).
  { unfold h1. clear. destruct w1, q1. unfold half_turn, pure, quat_add, quat_scale, quat_mul, quat_inverse. cbn. f_equal; field. }
  rewrite I. transitivity (quat_mul (quat_mul (quat_add (Q4 0 0 0 1) h2) (quat_mul (quat_mul q2 diff) (quat_inverse q1))) (quat_add (Q4 0 0 0 1) (quat_scale (- 1) h1))); [now rewrite <- !quat_mul_assoc |].
  unfold turned_twist. fold h1 h2. generalize (quat_mul (quat_mul q2 diff) (quat_inverse q1)). clear. intros t. destruct h1, h2, t. unfold quat_add, quat_scale, quat_mul. cbn. f_equal; ring.
Qed.
Lemma twist_spin diff q1 q2 w1 w2 : quat_len2 q1 = 1 -> quat_len2 q2 = 1 ->
  quat_scale (stretch w1 * stretch w2) (twist diff (spin w1 q1) (spin w2 q2)) = turned_twist w1 w2 (twist diff q1 q2).
Proof. intros U1 U2. rewrite <- twist_scale, !spin_stretch by assumption. apply twist_turn. Qed.
Lemma quat_v_scale k q : quat_v (quat_scale k q) = vscale k (quat_v q). Proof. destruct q. reflexivity. Qed.
Lemma twist_len2 diff q1 q2 : quat_len2 diff = 1 -> quat_len2 q1 = 1 -> quat_len2 q2 = 1 -> quat_len2 (twist diff q1 q2) = 1.
Proof. intros D U1 U2. unfold twist. rewrite !quat_len2_mul, quat_len2_inverse, D, U1, U2. ring. Qed.
(** Parts of the turned twist. *)
Lemma turned_v w1 w2 t : quat_v (turned_twist w1 w2 t) =
  vadd (vadd (quat_v t) (vscale (qw t / 2) (vsub w2 w1))) (vadd (vscale (/ 2) (vadd (vcross w2 (quat_v t)) (vcross w1 (quat_v t)))) (vneg (quat_v (quat_mul (quat_mul (half_turn w2) t) (half_turn w1))))).
Proof.
  unfold turned_twist. set (u := quat_mul (quat_mul (half_turn w2) t) (half_turn w1)). generalize u. clear. intros [a b c d]. destruct w1, w2, t.
  unfold half_turn, pure, quat_add, quat_scale, quat_mul, quat_v, vadd, vsub, vscale, vcross, vneg. cbn. f_equal; field.
Qed.
Lemma sandwich_len w1 w2 t : quat_len2 t = 1 -> quat_len2 (quat_mul (quat_mul (half_turn w2) t) (half_turn w1)) = (vlen w1 * vlen w2 / 4) * (vlen w1 * vlen w2 / 4).
Proof. intros U. rewrite !quat_len2_mul, !half_len2, U, <- !vlen_sq. field. Qed.
Lemma turned_v_len w1 w2 t : quat_len2 t = 1 -> vsub w2 w1 = vscale (- 2) (quat_v t) -> 0 <= qw t ->
  vlen (quat_v (turned_twist w1 w2 t)) <= vlen (quat_v t) ^ 3 + (vlen w1 + vlen w2) * vlen (quat_v t) / 2 + vlen w1 * vlen w2 / 4.
Proof.
  intros U W S. rewrite turned_v, W. assert (N := vlen_nonneg (quat_v t)). assert (N1 := vlen_nonneg w1). assert (N2 := vlen_nonneg w2).
  assert (Z := sandwich_len w1 w2 t U). set (u := quat_mul (quat_mul (half_turn w2) t) (half_turn w1)) in *. assert (Zu : vlen (quat_v u) <= vlen w1 * vlen w2 / 4) by (apply quat_v_within; nra).
  assert (L := quat_v_len t). rewrite U in L. set (v := quat_v t) in *. assert (V2 := vlen2_nonneg' v).
  eapply Rle_trans; [apply vlen_add |]. eapply Rle_trans; [apply Rplus_le_compat_l; apply vlen_add |]. rewrite vlen_vneg.
  assert (A : vlen (vadd v (vscale (qw t / 2) (vscale (- 2) v))) <= vlen v ^ 3).
  { replace (vadd v (vscale (qw t / 2) (vscale (- 2) v))) with (vscale (1 - qw t) v) by (generalize v, (qw t); clear; intros [a b c] s; unfold vadd, vscale; cbn; f_equal; field).
    rewrite vlen_vscale. assert (Q : qw t <= 1) by nra. rewrite Rabs_pos_eq by lra. replace (vlen v ^ 3) with (vlen v * vlen v * vlen v) by ring. rewrite vlen_sq. apply Rmult_le_compat_r; [exact N |]. nra. }
  assert (B : vlen (vscale (/ 2) (vadd (vcross w2 v) (vcross w1 v))) <= (vlen w1 + vlen w2) * vlen v / 2).
  { rewrite vlen_vscale, Rabs_pos_eq by lra. assert (C := vlen_add (vcross w2 v) (vcross w1 v)). assert (C1 := vlen_cross w1 v). assert (C2 := vlen_cross w2 v). lra. }
  lra.
Qed.
(** Any turn. *)
Lemma turned_any w1 w2 t : quat_len2 t = 1 -> let h := (vlen w1 + vlen w2) / 2 + vlen w1 * vlen w2 / 4 in
  vlen (quat_v (turned_twist w1 w2 t)) <= vlen (quat_v t) + h /\ qw t - h <= qw (turned_twist w1 w2 t).
Proof.
  intros U h. set (u := quat_add (quat_mul (half_turn w2) t) (quat_scale (- 1) (quat_add (quat_mul t (half_turn w1)) (quat_mul (quat_mul (half_turn w2) t) (half_turn w1))))).
  assert (N1 := vlen_nonneg w1). assert (N2 := vlen_nonneg w2).
  assert (E : turned_twist w1 w2 t = quat_add t u).
  { unfold turned_twist, u. generalize (quat_mul (half_turn w2) t), (quat_add (quat_mul t (half_turn w1)) (quat_mul (quat_mul (half_turn w2) t) (half_turn w1))). clear. intros [a b c d] [a' b' c' d']. destruct t. unfold quat_add, quat_scale. cbn. f_equal; ring. }
  set (p2 := quat_mul (half_turn w2) t) in *. set (p1 := quat_mul t (half_turn w1)) in *. set (p3 := quat_mul p2 (half_turn w1)) in *.
  assert (L2 : quat_len2 p2 = (vlen w2 / 2) * (vlen w2 / 2)) by (unfold p2; rewrite quat_len2_mul, half_len2, U, <- vlen_sq; field).
  assert (L1 : quat_len2 p1 = (vlen w1 / 2) * (vlen w1 / 2)) by (unfold p1; rewrite quat_len2_mul, half_len2, U, <- vlen_sq; field).
  assert (L3 : quat_len2 p3 = (vlen w1 * vlen w2 / 4) * (vlen w1 * vlen w2 / 4)) by (unfold p3, p2; now apply sandwich_len).
  assert (P : 0 <= vlen w1 * vlen w2) by nra.
  assert (V : vlen (quat_v u) <= h /\ - h <= qw u).
  { assert (A2 : vlen (quat_v p2) <= vlen w2 / 2) by (apply quat_v_within; lra). assert (A1 : vlen (quat_v p1) <= vlen w1 / 2) by (apply quat_v_within; lra). assert (A3 : vlen (quat_v p3) <= vlen w1 * vlen w2 / 4) by (apply quat_v_within; lra).
    assert (B2 : - (vlen w2 / 2) <= qw p2 <= vlen w2 / 2) by (apply quat_w_within; lra). assert (B1 : - (vlen w1 / 2) <= qw p1 <= vlen w1 / 2) by (apply quat_w_within; lra). assert (B3 : - (vlen w1 * vlen w2 / 4) <= qw p3 <= vlen w1 * vlen w2 / 4) by (apply quat_w_within; lra).
    split.
    - replace (quat_v u) with (vadd (quat_v p2) (vadd (vneg (quat_v p1)) (vneg (quat_v p3)))) by (unfold u; generalize p1, p2, p3; clear; intros [a b c d] [a' b' c' d'] [x y z w]; unfold quat_v, quat_add, quat_scale, vadd, vneg; cbn; f_equal; ring).
      eapply Rle_trans; [apply vlen_add |]. assert (T := vlen_add (vneg (quat_v p1)) (vneg (quat_v p3))). rewrite !vlen_vneg in T. unfold h. lra.
    - unfold u, quat_add, quat_scale. cbn [qw]. unfold h. lra. }
  rewrite E. split.
  - replace (quat_v (quat_add t u)) with (vadd (quat_v t) (quat_v u)) by reflexivity. eapply Rle_trans; [apply vlen_add |]. lra.
  - unfold quat_add. cbn [qw]. lra.
Qed.
(** The same for the twist itself, which is shorter. *)
Lemma shrink_v k q p : 1 <= k -> quat_scale k q = p -> vlen (quat_v q) <= vlen (quat_v p).
Proof. intros K <-. rewrite quat_v_scale, vlen_vscale, Rabs_pos_eq by lra. assert (N := vlen_nonneg (quat_v q)). nra. Qed.
Lemma shrink_w k q p : 1 <= k -> quat_scale k q = p -> 0 <= qw p -> 0 <= qw q.
Proof. intros K <- H. unfold quat_scale in H. cbn in H. nra. Qed.
Lemma stretches w1 w2 : 1 <= stretch w1 * stretch w2.
Proof. assert (A := stretch_ge w1). assert (B := stretch_ge w2). nra. Qed.
(** ** Inertia *)
Lemma tensor_form q i k v : quat_len2 q = 1 -> tensor_above i k -> k * vlen2 v <= vdot v (mat_vec (world_inverse (quat_matrix q) i) v).
Proof.
  intros U (A & B & C). rewrite apply_tensor_spec, quat_vec_adjoint by exact U. rewrite <- (quat_vec_len2 (quat_inverse q) v) by (now rewrite quat_len2_inverse).
  generalize (quat_vec (quat_inverse q) v). intros [x y z]. destruct i as [a b c]. unfold vdot, vlen2, vmul. cbn in *. assert (0 <= x * x) by nra. assert (0 <= y * y) by nra. assert (0 <= z * z) by nra. nra.
Qed.
Lemma det_above k A : 0 < k -> symmetric A -> (forall v, k * vlen2 v <= vdot v (mat_vec A v)) -> k ^ 3 <= mat_det A.
Proof.
  intros K S F. set (B := mat_add (mk_mat (- k) 0 0 0 (- k) 0 0 0 (- k)) A).
  assert (E : A = mat_add (mk_mat k 0 0 0 k 0 0 0 k) B) by (unfold B; clear; destruct A as [[a b c] [d e f] [g h i]]; unfold mat_add, mk_mat, vadd; cbn; f_equal; f_equal; ring).
  replace (k ^ 3) with (k * k * k) by ring. rewrite E. apply det_bound; [exact K |]. split.
  - unfold symmetric in *. destruct A as [[a b c] [d e f] [g h i]]. unfold mat_transpose, mk_mat, m00, m01, m02, m10, m11, m12, m20, m21, m22 in S. cbn in S. injection S as S1 S2 S3 S4 S5 S6.
    unfold B, mat_add, mat_transpose, mk_mat, m00, m01, m02, m10, m11, m12, m20, m21, m22, vadd. cbn. f_equal; f_equal; lra.
  - intros v. specialize (F v). unfold B. rewrite mat_vec_sum, vdot_vadd_r. replace (vdot v (mat_vec (mk_mat (- k) 0 0 0 (- k) 0 0 0 (- k)) v)) with (- k * vlen2 v); [lra |].
    destruct v. unfold vlen2, vdot, mat_vec, mk_mat. cbn. ring.
Qed.
(** ** The rotation constraints of fixed joints and sliders *)
Lemma sound_ang env k b ps0 ang ps : sound env k b ->
  move_ang (at_poses env ps0) b ang ps = put_pose b (Pose (po_x (ps b)) (spin (mat_vec (r_iw (jb (at_poses env ps0 b))) ang) (po_q (ps b)))) ps.
Proof. intros S. unfold move_ang. assert (F := sound_free env k b ps0 S). f_equal. f_equal. f_equal. now apply free_ang. Qed.
Section Turn.
Variables (eps : R) (env : pbodies) (l : link) (k1 k2 lo1 lo2 : R).
Hypothesis He : 0 <= eps.
Hypothesis Hn : l_b1 l <> l_b2 l.
Hypothesis H1 : sound env k1 (l_b1 l).
Hypothesis H2 : sound env k2 (l_b2 l).
Hypothesis A1 : tensor_above (pb_il (env (l_b1 l))) lo1.
Hypothesis A2 : tensor_above (pb_il (env (l_b2 l))) lo2.
Hypothesis Hd : pb_dynamic (env (l_b1 l)) = true \/ pb_dynamic (env (l_b2 l)) = true.
Hypothesis Hl : 0 < lo1 + lo2.
Hypothesis Hs : eps < (lo1 + lo2) ^ 3.
Lemma sum_form ps0 : unit_pose ps0 (l_b1 l) -> unit_pose ps0 (l_b2 l) ->
  let k := mat_add (i1_of (at_poses env ps0) l) (i2_of (at_poses env ps0) l) in
  (forall v, (lo1 + lo2) * vlen2 v <= vdot v (mat_vec k v)) /\ symmetric k /\ eps < Rabs (mat_det k).
Proof.
  intros U1 U2 k. assert (F : forall v, (lo1 + lo2) * vlen2 v <= vdot v (mat_vec k v)).
  { intros v. unfold k. rewrite mat_vec_sum, vdot_vadd_r. assert (B1 := tensor_form _ _ lo1 v U1 A1). assert (B2 := tensor_form _ _ lo2 v U2 A2). unfold i1_of, i2_of. cbn [at_poses jb r_iw]. lra. }
  assert (S : symmetric k).
  { destruct H1 as (_ & _ & T1 & _), H2 as (_ & _ & T2 & _). destruct (positive_add _ _ (tensor_positive _ _ k1 U1 T1) (tensor_positive _ _ k2 U2 T2)) as [S _]. exact S. }
  split; [exact F |]. split; [exact S |]. assert (D := det_above (lo1 + lo2) k Hl S F). rewrite Rabs_pos_eq; [lra |]. assert (0 < (lo1 + lo2) ^ 3) by (now apply pow_lt). lra.
Qed.
Lemma rotation_closes ps0 ps diff : unit_pose ps0 (l_b1 l) -> unit_pose ps0 (l_b2 l) -> unit_pose ps (l_b1 l) -> unit_pose ps (l_b2 l) -> quat_len2 diff = 1 ->
  let t := twist diff (po_q (ps (l_b1 l))) (po_q (ps (l_b2 l))) in 0 <= qw t ->
  let ps' := correct_rotation eps (at_poses env ps0) l diff ps in
  exists w1 w2, ps' (l_b1 l) = Pose (po_x (ps (l_b1 l))) (spin w1 (po_q (ps (l_b1 l)))) /\ ps' (l_b2 l) = Pose (po_x (ps (l_b2 l))) (spin w2 (po_q (ps (l_b2 l)))) /\
    (lo1 + lo2) * vlen w1 <= 2 * k1 * vlen (quat_v t) /\ (lo1 + lo2) * vlen w2 <= 2 * k2 * vlen (quat_v t) /\
    vlen (quat_v (twist diff (po_q (ps' (l_b1 l))) (po_q (ps' (l_b2 l))))) <= turn_factor (lo1 + lo2) k1 k2 * vlen2 (quat_v t).
Proof.
  intros V1 V2 U1 U2 D t S ps'. set (lo := lo1 + lo2) in *. destruct (sum_form ps0 V1 V2) as (F & _ & Det). fold lo in F.
  set (e := at_poses env ps0) in *. set (k := mat_add (i1_of e l) (i2_of e l)) in *.
  assert (Y : any_dynamic e l = true) by (unfold any_dynamic; apply orb_true_iff; exact Hd).
  set (d := mat_vec (invert_rotation eps true k) (vneg (vscale 2 (quat_v t)))).
  assert (K : mat_vec k d = vneg (vscale 2 (quat_v t))) by (unfold d; rewrite <- mat_vec_mul, invert_rotation_r by assumption; apply mat_vec_id).
  assert (Ld : lo * vlen d <= 2 * vlen (quat_v t)).
  { specialize (F d). rewrite K in F. assert (C := cauchy_schwarz d (vneg (vscale 2 (quat_v t)))). rewrite vlen_vneg, vlen_vscale, Rabs_pos_eq in C by lra. rewrite <- vlen_sq in F.
    assert (Nd := vlen_nonneg d). destruct (Req_dec (vlen d) 0) as [Z | Z]; [rewrite Z; assert (Nv := vlen_nonneg (quat_v t)); lra |]. assert (0 < vlen d) by lra. apply Rmult_le_reg_l with (vlen d); [assumption | lra]. }
  set (w1 := mat_vec (i1_of e l) (vneg d)). set (w2 := mat_vec (i2_of e l) d).
  assert (E1 : ps' (l_b1 l) = Pose (po_x (ps (l_b1 l))) (spin w1 (po_q (ps (l_b1 l))))).
  { unfold ps', correct_rotation. fold k. apply rlt_true in Det as Dr. rewrite Dr, Y. fold (twist diff (po_q (ps (l_b1 l))) (po_q (ps (l_b2 l)))). fold t. fold d.
    unfold e. rewrite (sound_ang env k2) by exact H2. rewrite put_other by exact Hn. rewrite (sound_ang env k1) by exact H1. now rewrite put_same. }
  assert (E2 : ps' (l_b2 l) = Pose (po_x (ps (l_b2 l))) (spin w2 (po_q (ps (l_b2 l))))).
  { unfold ps', correct_rotation. fold k. apply rlt_true in Det as Dr. rewrite Dr, Y. fold (twist diff (po_q (ps (l_b1 l))) (po_q (ps (l_b2 l)))). fold t. fold d.
    unfold e. rewrite (sound_ang env k2) by exact H2. rewrite put_same. rewrite (sound_ang env k1) by exact H1. now rewrite put_other by congruence. }
  exists w1, w2. split; [exact E1 |]. split; [exact E2 |].
  destruct H1 as (_ & K1 & T1 & _), H2 as (_ & K2 & T2 & _). set (v := quat_v t) in *. assert (Nv := vlen_nonneg v). assert (Nd := vlen_nonneg d).
  assert (B1 : vlen w1 <= k1 * vlen d) by (unfold w1, i1_of; cbn [e at_poses jb r_iw]; eapply Rle_trans; [apply (tensor_len _ _ k1 _ V1 K1 T1) |]; rewrite vlen_vneg; lra).
  assert (B2 : vlen w2 <= k2 * vlen d) by (unfold w2, i2_of; cbn [e at_poses jb r_iw]; apply (tensor_len _ _ k2 _ V2 K2 T2)).
  assert (C1 : lo * vlen w1 <= 2 * k1 * vlen v) by nra. assert (C2 : lo * vlen w2 <= 2 * k2 * vlen v) by nra.
  split; [exact C1 |]. split; [exact C2 |]. rewrite E1, E2. cbn [po_q].
  assert (Ut : quat_len2 t = 1) by now apply twist_len2.
  assert (W : vsub w2 w1 = vscale (- 2) v).
  { transitivity (mat_vec k d); [| rewrite K; clear; generalize v; vsolve]. unfold w1, w2, k. rewrite mat_vec_sum. generalize (i1_of e l), (i2_of e l), d. clear. intros a b d. vsolve. }
  assert (N := turned_v_len w1 w2 t Ut W S). fold v in N.
  eapply Rle_trans; [apply (shrink_v _ _ _ (stretches w1 w2) (twist_spin diff _ _ w1 w2 U1 U2)) |]. fold t. eapply Rle_trans; [exact N |].
  assert (L := quat_v_len t). rewrite Ut in L. fold v in L. assert (Hv : vlen v <= 1) by (apply vlen_le_iff; [lra |]; nra). rewrite <- vlen_sq. unfold turn_factor.
  assert (N1 := vlen_nonneg w1). assert (N2 := vlen_nonneg w2).
  assert (D1 : vlen w1 <= 2 * k1 / lo * vlen v) by (apply Rmult_le_reg_l with lo; [exact Hl |]; replace (lo * (2 * k1 / lo * vlen v)) with (2 * k1 * vlen v) by (field; lra); exact C1).
  assert (D2 : vlen w2 <= 2 * k2 / lo * vlen v) by (apply Rmult_le_reg_l with lo; [exact Hl |]; replace (lo * (2 * k2 / lo * vlen v)) with (2 * k2 * vlen v) by (field; lra); exact C2).
  assert (P1 : vlen w1 * vlen w2 <= (2 * k1 / lo * vlen v) * (2 * k2 / lo * vlen v)) by (apply Rmult_le_compat; assumption).
  assert (P2 : (vlen w1 + vlen w2) * vlen v <= (2 * k1 / lo * vlen v + 2 * k2 / lo * vlen v) * vlen v) by (apply Rmult_le_compat_r; lra).
  assert (P3 : vlen v ^ 3 <= vlen v * vlen v) by (simpl; nra).
  replace ((1 + (k1 + k2) / lo + k1 * k2 / lo ^ 2) * (vlen v * vlen v)) with (vlen v * vlen v + (2 * k1 / lo * vlen v + 2 * k2 / lo * vlen v) * vlen v / 2 + (2 * k1 / lo * vlen v) * (2 * k2 / lo * vlen v) / 4) by (field; lra). lra.
Qed.
End Turn.
(** ** How closing the gap turns the bodies *)
Section Gap.
Variables (eps : R) (env : pbodies) (l : link) (k1 k2 : R).
Hypothesis He : 0 <= eps.
Hypothesis Hn : l_b1 l <> l_b2 l.
Hypothesis H1 : sound env k1 (l_b1 l).
Hypothesis H2 : sound env k2 (l_b2 l).
Hypothesis Hd : pb_dynamic (env (l_b1 l)) = true \/ pb_dynamic (env (l_b2 l)) = true.
Let m := pb_im (env (l_b1 l)) + pb_im (env (l_b2 l)).
Hypothesis Hm : 0 < m.
Hypothesis Hl : eps < m ^ 3.
Lemma translation_turns ps : unit_pose ps (l_b1 l) -> unit_pose ps (l_b2 l) ->
  let ps' := correct_translation eps (at_poses env ps) l (arm1 (at_poses env ps) l) (arm2 (at_poses env ps) l) ps in
  exists w1 w2, po_q (ps' (l_b1 l)) = spin w1 (po_q (ps (l_b1 l))) /\ po_q (ps' (l_b2 l)) = spin w2 (po_q (ps (l_b2 l))) /\
    vlen w1 <= k1 * reach env (l_b1 l) (l_p1 l) / m * vlen (opening env ps l) /\ vlen w2 <= k2 * reach env (l_b2 l) (l_p2 l) / m * vlen (opening env ps l).
Proof.
  intros U1 U2. rewrite open_arms by assumption. set (e := at_poses env ps). set (r1 := arm1 e l). set (r2 := arm2 e l). intros ps'.
  assert (M : massy e l).
  { destruct H1 as (A & B & C & _), H2 as (A' & B' & C' & _). split; [| split]; [apply (tensor_positive _ _ k1 U1 C) | apply (tensor_positive _ _ k2 U2 C') | exact Hm]. }
  assert (D := mass_det e l r1 r2 M). change (sum_mass e l) with m in D. assert (Dp : eps < Rabs (mat_det (mass_matrix e l r1 r2))).
  { rewrite Rabs_pos_eq; nra. }
  assert (Y : any_dynamic e l = true) by (unfold any_dynamic; apply orb_true_iff; exact Hd).
  set (g := gap_now ps l r1 r2). set (d := mat_vec (invert_mass eps true (mass_matrix e l r1 r2)) (vneg g)).
  assert (K : mat_vec (mass_matrix e l r1 r2) d = vneg g).
  { unfold d. rewrite <- mat_vec_mul, invert_mass_r by assumption. apply mat_vec_id. }
  assert (G : m * vlen d <= vlen g).
  { assert (F := mass_form e l r1 r2 d M). rewrite K in F. change (sum_mass e l) with m in F. assert (C := cauchy_schwarz d (vneg g)). rewrite vlen_vneg in C. rewrite <- vlen_sq in F.
    assert (Nd := vlen_nonneg d). destruct (Req_dec (vlen d) 0) as [Z | Z]; [rewrite Z; assert (Ng := vlen_nonneg g); lra |]. assert (0 < vlen d) by lra. apply Rmult_le_reg_l with (vlen d); [assumption | lra]. }
  set (w1 := mat_vec (i1_of e l) (vcross d r1)). set (w2 := mat_vec (i2_of e l) (vneg (vcross d r2))). exists w1, w2.
  split; [| split].
  - unfold ps', correct_translation. apply rlt_true in Dp. rewrite Dp, Y. unfold move. rewrite put_other by exact Hn. rewrite put_same. exact (f_equal po_q (sound_move env k1 _ ps _ _ _ H1)).
  - unfold ps', correct_translation. apply rlt_true in Dp. rewrite Dp, Y. unfold move. rewrite put_same. rewrite put_other by congruence. exact (f_equal po_q (sound_move env k2 _ ps _ _ _ H2)).
  - assert (L1 : vlen r1 = reach env (l_b1 l) (l_p1 l)).
    { unfold r1, arm1, arm, reach, vlen. cbn [at_poses jb_q jb_com e]. f_equal. now apply quat_vec_len2. }
    assert (L2 : vlen r2 = reach env (l_b2 l) (l_p2 l)).
    { unfold r2, arm2, arm, reach, vlen. cbn [at_poses jb_q jb_com e]. f_equal. now apply quat_vec_len2. }
    assert (B1 : vlen w1 <= k1 * (vlen d * vlen r1)).
    { unfold w1, i1_of. cbn [e at_poses jb r_iw]. destruct H1 as (_ & B & C & _). eapply Rle_trans; [apply (tensor_len _ _ k1 _ U1 B C) |]. apply Rmult_le_compat_l; [exact B | apply vlen_cross]. }
    assert (B2 : vlen w2 <= k2 * (vlen d * vlen r2)).
    { unfold w2, i2_of. cbn [e at_poses jb r_iw]. destruct H2 as (_ & B & C & _). eapply Rle_trans; [apply (tensor_len _ _ k2 _ U2 B C) |]. rewrite vlen_vneg. apply Rmult_le_compat_l; [exact B | apply vlen_cross]. }
    destruct H1 as (_ & K1 & _ & _), H2 as (_ & K2 & _ & _). rewrite <- L1, <- L2. assert (P1 := vlen_nonneg r1). assert (P2 := vlen_nonneg r2). assert (Pg := vlen_nonneg g).
    assert (Gd : vlen d <= vlen g / m) by (apply Rmult_le_reg_l with m; [exact Hm |]; replace (m * (vlen g / m)) with (vlen g) by (field; lra); exact G).
    fold g. split.
    + eapply Rle_trans; [exact B1 |]. replace (k1 * vlen r1 / m * vlen g) with (k1 * (vlen g / m * vlen r1)) by (field; lra). apply Rmult_le_compat_l; [exact K1 |]. now apply Rmult_le_compat_r.
    + eapply Rle_trans; [exact B2 |]. replace (k2 * vlen r2 / m * vlen g) with (k2 * (vlen g / m * vlen r2)) by (field; lra). apply Rmult_le_compat_l; [exact K2 |]. now apply Rmult_le_compat_r.
Qed.
End Gap.
(** ** How far turning moves a point *)
Lemma spin_shift w q v : quat_len2 q = 1 -> vlen (vsub (quat_vec (spin w q) v) (quat_vec q v)) <= vlen w * vlen v.
Proof.
  intros U. rewrite spin_vec by exact U. set (r := quat_vec q v). assert (Lr : vlen r = vlen v) by (unfold vlen, r; f_equal; now apply quat_vec_len2). rewrite <- Lr. set (s := vlen2 w / 4).
  assert (N := vlen2_nonneg' w). assert (S : 0 <= s) by (unfold s; lra). assert (Nw := vlen_nonneg w). assert (Nr := vlen_nonneg r). apply vlen_le_iff; [nra |].
  replace (vlen w * vlen r * (vlen w * vlen r)) with ((vlen w * vlen w) * (vlen r * vlen r)) by ring. rewrite !vlen_sq.
  assert (E : (1 + s) * vlen2 (vsub (vscale (/ (1 + s)) (vadd (vadd (vscale (1 - s) r) (vcross w r)) (vscale (vdot w r / 2) w))) r) = vlen2 w * vlen2 r - vdot w r * vdot w r).
  { assert (K : (1 + s) * (1 + s) * vlen2 (vsub (vscale (/ (1 + s)) (vadd (vadd (vscale (1 - s) r) (vcross w r)) (vscale (vdot w r / 2) w))) r) = (1 + s) * (vlen2 w * vlen2 r - vdot w r * vdot w r)).
    { rewrite <- vlen2_vscale. replace (vscale (1 + s) _) with (vadd (vadd (vscale (- 2 * s) r) (vcross w r)) (vscale (vdot w r / 2) w)).
      - unfold s. generalize r. clear. intros [a b c]. destruct w as [x y z]. unfold vlen2, vadd, vscale, vcross, vdot. cbn. field.
      - assert (P : 1 + s <> 0) by lra. revert P. generalize r s. clear. intros [a b c] s P. destruct w as [x y z]. unfold vsub, vadd, vscale, vcross, vdot. cbn. f_equal; field; exact P. }
    apply Rmult_eq_reg_l with (1 + s); [rewrite <- K; ring | lra]. }
  set (L := vlen2 (vsub _ r)) in *. assert (0 <= L) by apply vlen2_nonneg'. assert (0 <= vdot w r * vdot w r) by nra. nra.
Qed.
(** ** One iteration of a fixed joint *)
Lemma gap_parts x1 x2 a1 a2 b1 b2 : vsub (vadd x2 b2) (vadd x1 b1) = vadd (vsub (vadd x2 a2) (vadd x1 a1)) (vadd (vsub b2 a2) (vneg (vsub b1 a1))).
Proof. vsolve. Qed.
Section Weld.
Variables (eps : R) (env : pbodies) (j : fixed) (k1 k2 lo1 lo2 : R).
Let l := fx_link j.
Hypothesis He : 0 <= eps.
Hypothesis Hn : l_b1 l <> l_b2 l.
Hypothesis H1 : sound env k1 (l_b1 l).
Hypothesis H2 : sound env k2 (l_b2 l).
Hypothesis A1 : tensor_above (pb_il (env (l_b1 l))) lo1.
Hypothesis A2 : tensor_above (pb_il (env (l_b2 l))) lo2.
Hypothesis Hd : pb_dynamic (env (l_b1 l)) = true \/ pb_dynamic (env (l_b2 l)) = true.
Hypothesis Hl : 0 < lo1 + lo2.
Hypothesis Hs : eps < (lo1 + lo2) ^ 3.
Let m := pb_im (env (l_b1 l)) + pb_im (env (l_b2 l)).
Hypothesis Hm : 0 < m.
Hypothesis Hmm : eps < m ^ 3.
Hypothesis Hq : quat_len2 (fx_diff j) = 1.
Lemma fixed_closes ps : unit_pose ps (l_b1 l) -> unit_pose ps (l_b2 l) ->
  let g := vlen (opening env ps l) in let h := side_turn env l k1 k2 g in let v := vlen (quat_v (twist_at ps l (fx_diff j))) in
  h <= qw (twist_at ps l (fx_diff j)) ->
  let ps' := fixed_correct eps env j ps in
  unit_pose ps' (l_b1 l) /\ unit_pose ps' (l_b2 l) /\
  vlen (quat_v (twist_at ps' l (fx_diff j))) <= turn_factor (lo1 + lo2) k1 k2 * (v + h) ^ 2 /\
  vlen (opening env ps' l) <= factor env l k1 k2 * g ^ 2 + 2 * (k1 * reach env (l_b1 l) (l_p1 l) + k2 * reach env (l_b2 l) (l_p2 l)) / (lo1 + lo2) * (v + h).
Proof.
  intros U1 U2 g h v Hh ps'. set (diff := fx_diff j) in *.
  assert (T0 : twist_at ps l diff = twist diff (po_q (ps (l_b1 l))) (po_q (ps (l_b2 l)))) by (unfold twist_at; now rewrite !quat_normalize_1 by assumption). rewrite T0 in Hh. unfold v. rewrite T0. clear v.
  set (t := twist diff _ _) in *. set (ps1 := correct_translation eps (at_poses env ps) l (arm1 (at_poses env ps) l) (arm2 (at_poses env ps) l) ps).
  destruct (translation_closes eps env l k1 k2 He Hn H1 H2 Hd Hm Hmm ps U1 U2) as (V1 & V2 & G). fold ps1 in V1, V2, G.
  destruct (translation_turns eps env l k1 k2 He Hn H1 H2 Hd Hm Hmm ps U1 U2) as (w1 & w2 & Q1 & Q2 & B1 & B2). fold ps1 in Q1, Q2. fold g in B1, B2.
  assert (Ut : quat_len2 t = 1) by now apply twist_len2.
  set (a1 := reach env (l_b1 l) (l_p1 l)) in *. set (a2 := reach env (l_b2 l) (l_p2 l)) in *. fold m in B1, B2.
  assert (Ng : 0 <= g) by apply vlen_nonneg. assert (Na1 : 0 <= a1) by apply vlen_nonneg. assert (Na2 : 0 <= a2) by apply vlen_nonneg.
  assert (N1 := vlen_nonneg w1). assert (N2 := vlen_nonneg w2).
  assert (Hw : (vlen w1 + vlen w2) / 2 + vlen w1 * vlen w2 / 4 <= h).
  { unfold h, side_turn. cbn zeta. fold m a1 a2. assert (P := Rmult_le_compat _ _ _ _ N1 N2 B1 B2).
    replace (k1 * a1 / m * (k2 * a2 / m) * g ^ 2 / 4) with (k1 * a1 / m * g * (k2 * a2 / m * g) / 4) by (field; lra). lra. }
  destruct (turned_any w1 w2 t Ut) as [X Y]. assert (E := twist_spin diff _ _ w1 w2 U1 U2). fold t in E. rewrite <- Q1, <- Q2 in E.
  set (t1 := twist diff (po_q (ps1 (l_b1 l))) (po_q (ps1 (l_b2 l)))) in *.
  assert (X1 : vlen (quat_v t1) <= vlen (quat_v t) + h) by (eapply Rle_trans; [apply (shrink_v _ _ _ (stretches w1 w2) E) |]; lra).
  assert (Y1 : 0 <= qw t1) by (apply (shrink_w _ _ _ (stretches w1 w2) E); lra).
  destruct (rotation_closes eps env l k1 k2 lo1 lo2 He Hn H1 H2 A1 A2 Hd Hl Hs ps ps1 diff U1 U2 V1 V2 Hq Y1) as (z1 & z2 & Z1 & Z2 & C1 & C2 & C3). fold t1 in C1, C2, C3.
  change (correct_rotation eps (at_poses env ps) l diff ps1) with ps' in *. assert (Nt := vlen_nonneg (quat_v t1)). assert (Nt0 := vlen_nonneg (quat_v t)).
  assert (W1 : unit_pose ps' (l_b1 l)) by (unfold unit_pose; rewrite Z1; cbn [po_q]; apply spin_unit; rewrite V1; lra).
  assert (W2 : unit_pose ps' (l_b2 l)) by (unfold unit_pose; rewrite Z2; cbn [po_q]; apply spin_unit; rewrite V2; lra).
  destruct H1 as (_ & K1 & _ & _), H2 as (_ & K2 & _ & _).
  split; [exact W1 |]. split; [exact W2 |]. split.
  - unfold twist_at. rewrite !quat_normalize_1 by assumption. fold (twist diff (po_q (ps' (l_b1 l))) (po_q (ps' (l_b2 l)))). eapply Rle_trans; [exact C3 |]. rewrite <- vlen_sq.
    apply Rmult_le_compat_l; [unfold turn_factor; assert (0 <= (k1 + k2) / (lo1 + lo2)) by (apply Rmult_le_pos; [lra | left; now apply Rinv_0_lt_compat]);
      assert (0 <= k1 * k2 / (lo1 + lo2) ^ 2) by (apply Rmult_le_pos; [nra | left; apply Rinv_0_lt_compat; now apply pow_lt]); lra |].
    replace ((vlen (quat_v t) + h) ^ 2) with ((vlen (quat_v t) + h) * (vlen (quat_v t) + h)) by ring. apply Rmult_le_compat; lra.
  - assert (O : opening env ps' l = vadd (opening env ps1 l) (vadd (vsub (quat_vec (spin z2 (po_q (ps1 (l_b2 l)))) (vsub (l_p2 l) (pb_com (env (l_b2 l))))) (quat_vec (po_q (ps1 (l_b2 l))) (vsub (l_p2 l) (pb_com (env (l_b2 l))))))
        (vneg (vsub (quat_vec (spin z1 (po_q (ps1 (l_b1 l)))) (vsub (l_p1 l) (pb_com (env (l_b1 l))))) (quat_vec (po_q (ps1 (l_b1 l))) (vsub (l_p1 l) (pb_com (env (l_b1 l))))))))).
    { unfold opening, point_at. rewrite !(quat_normalize_1 (po_q (ps' _))) by assumption. rewrite Z1, Z2. cbn [po_x po_q]. rewrite !(quat_normalize_1 (po_q (ps1 _))) by assumption.
      apply gap_parts. }
    rewrite O. eapply Rle_trans; [apply vlen_add |]. apply Rplus_le_compat; [replace (g ^ 2) with (g * g) by ring; unfold g; rewrite vlen_sq; exact G |].
    eapply Rle_trans; [apply vlen_add |]. rewrite vlen_vneg.
    assert (S1 := spin_shift z1 (po_q (ps1 (l_b1 l))) (vsub (l_p1 l) (pb_com (env (l_b1 l)))) V1). assert (S2 := spin_shift z2 (po_q (ps1 (l_b2 l))) (vsub (l_p2 l) (pb_com (env (l_b2 l)))) V2).
    fold (reach env (l_b1 l) (l_p1 l)) in S1. fold (reach env (l_b2 l) (l_p2 l)) in S2. fold a1 in S1. fold a2 in S2.
    assert (D1 : vlen z1 <= 2 * k1 / (lo1 + lo2) * vlen (quat_v t1)) by (apply Rmult_le_reg_l with (lo1 + lo2); [exact Hl |]; replace ((lo1 + lo2) * (2 * k1 / (lo1 + lo2) * vlen (quat_v t1))) with (2 * k1 * vlen (quat_v t1)) by (field; lra); exact C1).
    assert (D2 : vlen z2 <= 2 * k2 / (lo1 + lo2) * vlen (quat_v t1)) by (apply Rmult_le_reg_l with (lo1 + lo2); [exact Hl |]; replace ((lo1 + lo2) * (2 * k2 / (lo1 + lo2) * vlen (quat_v t1))) with (2 * k2 * vlen (quat_v t1)) by (field; lra); exact C2).
    assert (F1 : vlen z1 * a1 <= 2 * k1 / (lo1 + lo2) * vlen (quat_v t1) * a1) by now apply Rmult_le_compat_r. assert (F2 : vlen z2 * a2 <= 2 * k2 / (lo1 + lo2) * vlen (quat_v t1) * a2) by now apply Rmult_le_compat_r.
    eapply Rle_trans; [apply Rplus_le_compat; eassumption |]. eapply Rle_trans; [apply Rplus_le_compat; eassumption |].
    replace (2 * (k1 * a1 + k2 * a2) / (lo1 + lo2) * (vlen (quat_v t) + h)) with ((2 * k2 / (lo1 + lo2) * a2 + 2 * k1 / (lo1 + lo2) * a1) * (vlen (quat_v t) + h)) by (field; lra).
    replace (2 * k2 / (lo1 + lo2) * vlen (quat_v t1) * a2 + 2 * k1 / (lo1 + lo2) * vlen (quat_v t1) * a1) with ((2 * k2 / (lo1 + lo2) * a2 + 2 * k1 / (lo1 + lo2) * a1) * vlen (quat_v t1)) by ring.
    assert (I : 0 < / (lo1 + lo2)) by now apply Rinv_0_lt_compat. apply Rmult_le_compat_l; [| exact X1]. unfold Rdiv. assert (0 <= k2 * a2) by nra. assert (0 <= k1 * a1) by nra. nra.
Qed.
End Weld.
