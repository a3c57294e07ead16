(** The angle of a hinge. *)
From Coq Require Import Reals Lra Psatz ZArith Lia Bool.
From Verif Require Import VecModel VecProofs LinAlgProperties ContactModel JointModel JointSpec.
Local Open Scope R_scope.

Lemma Int_part_is k x : IZR k <= x < IZR k + 1 -> Int_part x = k.
Proof.
  intros [A B]. destruct (base_Int_part x) as [C D]. assert (IZR (Int_part x) < IZR k + 1) by lra. assert (IZR k < IZR (Int_part x) + 1) by lra.
  rewrite <- plus_IZR in *. apply lt_IZR in H, H0. lia.
Qed.
Lemma fmod_nonneg x y : 0 < y -> 0 <= x -> 0 <= fmod x y < y /\ exists k, fmod x y = x + y * IZR k.
Proof.
  intros Hy Hx. unfold fmod. destruct (rle 0 x) eqn:E; [| apply rle_false in E; lra]. destruct (base_Int_part (x / y)) as [C D].
  assert (X : x = y * (x / y)) by (field; lra). split; [set (t := x / y) in *; clearbody t; subst x; nra |]. exists (- Int_part (x / y))%Z. rewrite opp_IZR. ring.
Qed.
Lemma fmod_neg x y : 0 < y -> x < 0 -> - y < fmod x y <= 0 /\ exists k, fmod x y = x + y * IZR k.
Proof.
  intros Hy Hx. unfold fmod. destruct (rle 0 x) eqn:E; [apply rle_true in E; lra |]. destruct (base_Int_part (- x / y)) as [C D].
  assert (X : - x = y * (- x / y)) by (field; lra). split; [set (t := - x / y) in *; clearbody t; nra |]. now exists (Int_part (- x / y)).
Qed.
Lemma normalized_range x : - PI <= normalized_angle x <= PI /\ exists k, normalized_angle x = x + 2 * PI * IZR k.
Proof.
  assert (P := PI_RGT_0). unfold normalized_angle.
  assert (F : - (2 * PI) < fmod x (2 * PI) < 2 * PI /\ exists k, fmod x (2 * PI) = x + 2 * PI * IZR k).
  { destruct (Rle_dec 0 x) as [H | H]; [destruct (fmod_nonneg x (2 * PI)) as [A B] | destruct (fmod_neg x (2 * PI)) as [A B]]; try lra; split; try lra; exact B. }
  destruct F as [A [k B]]. destruct (rlt (fmod x (2 * PI)) (- PI)) eqn:E; [apply rlt_true in E | apply rlt_false in E].
  - split; [lra |]. exists (k + 1)%Z. rewrite plus_IZR. lra.
  - destruct (rlt PI (fmod x (2 * PI))) eqn:G; [apply rlt_true in G | apply rlt_false in G].
    + split; [lra |]. exists (k - 1)%Z. rewrite minus_IZR. lra.
    + split; [lra |]. exists k. exact B.
Qed.
Lemma normalized_same x : - PI <= x <= PI -> normalized_angle x = x.
Proof.
  intros H. assert (P := PI_RGT_0). unfold normalized_angle. assert (F : fmod x (2 * PI) = x).
  { unfold fmod. destruct (rle 0 x) eqn:E; [apply rle_true in E | apply rle_false in E]; (rewrite (Int_part_is 0); [lra |]); split.
    - apply Rmult_le_pos; [lra | apply Rlt_le, Rinv_0_lt_compat; lra].
    - apply (Rmult_lt_reg_r (2 * PI)); [lra |]. unfold Rdiv. rewrite Rmult_assoc, Rinv_l by lra. lra.
    - apply Rmult_le_pos; [lra | apply Rlt_le, Rinv_0_lt_compat; lra].
    - apply (Rmult_lt_reg_r (2 * PI)); [lra |]. unfold Rdiv. rewrite Rmult_assoc, Rinv_l by lra. lra. }
  rewrite F. destruct (rlt x (- PI)) eqn:E; [apply rlt_true in E; lra |]. destruct (rlt PI x) eqn:G; [apply rlt_true in G; lra | reflexivity].
Qed.
Lemma fmod_shift x : 0 <= x < 2 * PI -> fmod (x + 2 * PI) (2 * PI) = x.
Proof.
  intros H. assert (P := PI_RGT_0). unfold fmod. destruct (rle 0 (x + 2 * PI)) eqn:E; [| apply rle_false in E; lra]. rewrite (Int_part_is 1); [ring |].
  replace ((x + 2 * PI) / (2 * PI)) with (x / (2 * PI) + 1) by (field; lra). split.
  - assert (0 <= x / (2 * PI)); [| lra]. apply Rmult_le_pos; [lra | apply Rlt_le, Rinv_0_lt_compat; lra].
  - assert (x / (2 * PI) < 1); [| lra]. apply (Rmult_lt_reg_r (2 * PI)); [lra |]. unfold Rdiv. rewrite Rmult_assoc, Rinv_l by lra. lra.
Qed.
Lemma fmod_small x : 0 <= x < 2 * PI -> fmod x (2 * PI) = x.
Proof.
  intros H. assert (P := PI_RGT_0). unfold fmod. destruct (rle 0 x) eqn:E; [| apply rle_false in E; lra]. rewrite (Int_part_is 0); [ring |]. split.
  - apply Rmult_le_pos; [lra | apply Rlt_le, Rinv_0_lt_compat; lra].
  - apply (Rmult_lt_reg_r (2 * PI)); [lra |]. unfold Rdiv. rewrite Rmult_assoc, Rinv_l by lra. lra.
Qed.
(** Full turns are taken off. *)
Lemma normalized_wrap x : - PI < x <= PI -> x < 0 -> normalized_angle (x + 2 * PI) = x.
Proof.
  intros H N. assert (P := PI_RGT_0). unfold normalized_angle. rewrite fmod_small by lra. destruct (rlt (x + 2 * PI) (- PI)) eqn:E; [apply rlt_true in E; lra |].
  destruct (rlt PI (x + 2 * PI)) eqn:G; [lra | apply rlt_false in G; lra].
Qed.
Lemma normalized_turn x : 0 <= x <= PI -> normalized_angle (x + 2 * PI) = x.
Proof.
  intros H. assert (P := PI_RGT_0). unfold normalized_angle. rewrite fmod_shift by lra. destruct (rlt x (- PI)) eqn:E; [apply rlt_true in E; lra |].
  destruct (rlt PI x) eqn:G; [apply rlt_true in G; lra | reflexivity].
Qed.
Lemma near_choice a lower upper : let r := angle_near_limits a lower upper in r = a \/ r = a - 2 * PI \/ r = a + 2 * PI.
Proof. unfold angle_near_limits. destruct (rle upper lower), (rlt upper a), (rlt a lower); auto; destruct (rlt _ _); auto. Qed.
Lemma near_inside a lower upper k : - PI <= a <= PI -> - (2 * PI) <= lower <= 0 -> 0 <= upper <= 2 * PI -> lower < upper -> upper - lower < 2 * PI ->
  lower <= a + 2 * PI * IZR k <= upper -> lower <= angle_near_limits a lower upper <= upper.
Proof.
  intros Ha Hl Hu Lu W K. assert (P := PI_RGT_0). unfold angle_near_limits. destruct (rle upper lower) eqn:E; [apply rle_true in E; lra |].
  destruct (rlt upper a) eqn:E1; [apply rlt_true in E1 | apply rlt_false in E1].
  - assert (Kv : k = (-1)%Z).
    { assert (IZR k < 0) by (apply (Rmult_lt_reg_l (2 * PI)); lra). assert (-2 < IZR k) by (apply (Rmult_lt_reg_l (2 * PI)); lra). apply lt_IZR in H, H0. lia. }
    subst k. replace (a - lower) with (a - lower - 2 * PI + 2 * PI) by ring. rewrite normalized_turn by lra. rewrite normalized_same by lra. rewrite !Rabs_right by lra.
    destruct (rlt _ _) eqn:G; [lra | apply rlt_false in G; lra].
  - destruct (rlt a lower) eqn:E2; [apply rlt_true in E2 | apply rlt_false in E2; lra].
    assert (Kv : k = 1%Z).
    { assert (0 < IZR k) by (apply (Rmult_lt_reg_l (2 * PI)); lra). assert (IZR k < 2) by (apply (Rmult_lt_reg_l (2 * PI)); lra). apply lt_IZR in H, H0. lia. }
    subst k. rewrite normalized_same by lra. replace (upper - a) with (upper - a - 2 * PI + 2 * PI) by ring. rewrite normalized_turn by lra. rewrite !Rabs_right by lra.
    destruct (rlt _ _) eqn:G; [apply rlt_true in G; lra | lra].
Qed.
Lemma near_kept a lower upper : lower <= a <= upper -> angle_near_limits a lower upper = a.
Proof.
  intros H. unfold angle_near_limits. destruct (rle upper lower); [reflexivity |]. destruct (rlt upper a) eqn:E; [apply rlt_true in E; lra |].
  destruct (rlt a lower) eqn:F; [apply rlt_true in F; lra | reflexivity].
Qed.

(** ** From the turn of a quaternion to its angle *)
Lemma atan2_tan t : - (PI / 2) < t < PI / 2 -> atan2 (sin t) (cos t) = t.
Proof.
  intros H. assert (C : 0 < cos t) by (apply cos_gt_0; lra). unfold atan2. destruct (rlt 0 (cos t)) eqn:E; [| apply rlt_false in E; lra].
  change (sin t / cos t) with (tan t). now apply atan_tan.
Qed.
Lemma atan2_back t : - (PI / 2) < t <= 0 -> atan2 (- sin t) (- cos t) = t + PI.
Proof.
  intros H. assert (P := PI_RGT_0). assert (C : 0 < cos t) by (apply cos_gt_0; lra). assert (S : sin t <= 0). { destruct (Req_dec t 0) as [-> | N]; [rewrite sin_0; lra |]. apply Rlt_le, sin_lt_0_var; lra. }
  unfold atan2. destruct (rlt 0 (- cos t)) eqn:E; [apply rlt_true in E; lra |]. destruct (rlt (- cos t) 0) eqn:F; [| apply rlt_false in F; lra].
  destruct (rle 0 (- sin t)) eqn:G; [| apply rle_false in G; lra]. replace (- sin t / - cos t) with (tan t) by (unfold tan; field; lra). rewrite atan_tan; lra.
Qed.
(** The angle the code takes from a rotation by [t] about the axis [a], given by either of its two quaternions. *)
Definition read_angle (rel : quat) (a : vec3) : R :=
  let s := vlen (quat_v rel) in if rle 0 (vdot (quat_v rel) a) then 2 * atan2 s (qw rel) else 2 * atan2 s (- qw rel).
Definition rotation (a : vec3) (t : R) : quat := Q4 (sin (t / 2) * vx a) (sin (t / 2) * vy a) (sin (t / 2) * vz a) (cos (t / 2)).
Lemma vlen_scaled s a : vlen2 a = 1 -> vlen (vscale s a) = Rabs s.
Proof. intros H. unfold vlen. replace (vlen2 (vscale s a)) with (s * s) by (transitivity (s * s * vlen2 a); [rewrite H; ring | generalize a; clear; intros [x y z]; unfold vlen2, vscale; cbn; ring]). apply sqrt_Rsqr_abs. Qed.
Lemma read_rotation a t s : vlen2 a = 1 -> - PI < t <= PI -> s = 1 \/ s = -1 ->
  normalized_angle (read_angle (Q4 (s * qx (rotation a t)) (s * qy (rotation a t)) (s * qz (rotation a t)) (s * qw (rotation a t))) a) = t.
Proof.
  intros Ha Ht Hs. assert (P := PI_RGT_0). unfold read_angle. set (x := sin (t / 2)). set (c := cos (t / 2)).
  assert (V : quat_v (Q4 (s * qx (rotation a t)) (s * qy (rotation a t)) (s * qz (rotation a t)) (s * qw (rotation a t))) = vscale (s * x) a).
  { unfold quat_v, rotation, vscale. fold x. cbn. f_equal; ring. }
  rewrite V. replace (vdot (vscale (s * x) a) a) with (s * x) by (transitivity (s * x * vlen2 a); [rewrite Ha; ring | generalize a; clear; intros [x1 y z]; unfold vlen2, vdot, vscale; cbn; ring]).
  rewrite (vlen_scaled _ _ Ha). unfold rotation. cbn [qw]. fold c.
  assert (X : (0 < t -> 0 < x) /\ (t < 0 -> x < 0) /\ (t = 0 -> x = 0)).
  { unfold x. split; [intros; apply sin_gt_0; lra |]. split; [intros; apply sin_lt_0_var; lra |]. intros ->. replace (0 / 2) with 0 by field. apply sin_0. }
  destruct (Req_dec t PI) as [E | NE].
  { assert (Xc : x = 1 /\ c = 0) by (unfold x, c; rewrite E; split; [apply sin_PI2 | apply cos_PI2]). destruct Xc as [-> ->]. subst t.
    assert (A : atan2 1 0 = PI / 2). { unfold atan2. destruct (rlt 0 0) eqn:Z; [apply rlt_true in Z; lra |]. destruct (rlt 0 1) eqn:Y; [reflexivity | apply rlt_false in Y; lra]. }
    destruct Hs as [-> | ->].
    - destruct (rle 0 (1 * 1)) eqn:G; [| apply rle_false in G; lra]. rewrite !Rmult_1_r, Rabs_R1, Rmult_0_r, A. rewrite normalized_same; lra.
    - destruct (rle 0 (-1 * 1)) eqn:G; [apply rle_true in G; lra |]. replace (Rabs (-1 * 1)) with 1 by (rewrite Rabs_left; lra). replace (- (-1 * 0)) with 0 by ring. rewrite A. rewrite normalized_same; lra. }
  destruct (Rlt_dec t 0) as [Tn | Tn].
  - assert (Xn := proj1 (proj2 X) Tn). destruct Hs as [-> | ->].
    + destruct (rle 0 (1 * x)) eqn:G; [apply rle_true in G; lra |]. replace (Rabs (1 * x)) with (- x) by (rewrite Rabs_left; lra). replace (- (1 * c)) with (- c) by ring.
      unfold x, c. rewrite atan2_back by lra. replace (2 * (t / 2 + PI)) with (t + 2 * PI) by field. apply normalized_wrap; lra.
    + destruct (rle 0 (-1 * x)) eqn:G; [| apply rle_false in G; lra]. replace (Rabs (-1 * x)) with (- x) by (rewrite Rabs_right; lra). replace (-1 * c) with (- c) by ring.
      unfold x, c. rewrite atan2_back by lra. replace (2 * (t / 2 + PI)) with (t + 2 * PI) by field. apply normalized_wrap; lra.
  - destruct (Req_dec t 0) as [Z | Z].
    + assert (X0 := proj2 (proj2 X) Z). destruct Hs as [-> | ->].
      * destruct (rle 0 (1 * x)) eqn:G; [| apply rle_false in G; lra]. replace (Rabs (1 * x)) with x by (rewrite Rabs_right; lra). rewrite Rmult_1_l. unfold x, c. rewrite atan2_tan by lra.
        rewrite normalized_same; lra.
      * destruct (rle 0 (-1 * x)) eqn:G; [| apply rle_false in G; lra]. replace (Rabs (-1 * x)) with (- x) by (rewrite Rabs_right; lra). replace (-1 * c) with (- c) by ring.
        unfold x, c. rewrite atan2_back by lra. replace (2 * (t / 2 + PI)) with (t + 2 * PI) by field. apply normalized_turn; lra.
    + assert (Xp : 0 < x) by (apply X; lra). destruct Hs as [-> | ->].
      * destruct (rle 0 (1 * x)) eqn:G; [| apply rle_false in G; lra]. replace (Rabs (1 * x)) with x by (rewrite Rabs_right; lra). rewrite Rmult_1_l. unfold x, c. rewrite atan2_tan by lra.
        rewrite normalized_same; lra.
      * destruct (rle 0 (-1 * x)) eqn:G; [apply rle_true in G; lra |]. replace (Rabs (-1 * x)) with x by (rewrite Rabs_left; lra). replace (- (-1 * c)) with c by ring. unfold x, c. rewrite atan2_tan by lra.
        rewrite normalized_same; lra.
Qed.

(** ** Quaternions *)
Lemma qmul_assoc a b c : quat_mul a (quat_mul b c) = quat_mul (quat_mul a b) c.
Proof. destruct a, b, c. unfold quat_mul. cbn. f_equal; ring. Qed.
Lemma qinv_mul a b : quat_inverse (quat_mul a b) = quat_mul (quat_inverse b) (quat_inverse a).
Proof. destruct a, b. unfold quat_mul, quat_inverse. cbn. f_equal; ring. Qed.
Lemma qmul_1_r a : quat_mul a (Q4 0 0 0 1) = a.
Proof. destruct a. unfold quat_mul. cbn. f_equal; ring. Qed.
Lemma qmul_1_l a : quat_mul (Q4 0 0 0 1) a = a.
Proof. destruct a. unfold quat_mul. cbn. f_equal; ring. Qed.
Lemma qmul_inv a : unit_quat a -> quat_mul a (quat_inverse a) = Q4 0 0 0 1.
Proof. unfold unit_quat. destruct a as [x y z w]. unfold quat_mul, quat_inverse. cbn. intros H. f_equal; try ring. rewrite <- H. ring. Qed.
Lemma qinv_inv a : quat_inverse (quat_inverse a) = a.
Proof. destruct a. unfold quat_inverse. cbn. f_equal; ring. Qed.
Lemma qmul_unit a b : unit_quat a -> unit_quat b -> unit_quat (quat_mul a b).
Proof.
  unfold unit_quat. intros A B. transitivity ((qx a * qx a + qy a * qy a + qz a * qz a + qw a * qw a) * (qx b * qx b + qy b * qy b + qz b * qz b + qw b * qw b)); [| rewrite A, B; ring].
  destruct a, b. unfold quat_mul. cbn. ring.
Qed.
Lemma qinv_unit a : unit_quat a -> unit_quat (quat_inverse a).
Proof. unfold unit_quat, quat_inverse. cbn. intros <-. ring. Qed.
Lemma qnorm_unit a : unit_quat a -> quat_normalize a = a.
Proof. intros H. unfold quat_normalize, quat_len2. rewrite H, sqrt_1. destruct a. cbn. f_equal; field. Qed.
Definition qscale (s : R) (q : quat) : quat := Q4 (s * qx q) (s * qy q) (s * qz q) (s * qw q).
Lemma qscale_mul s a b : quat_mul (qscale s a) b = qscale s (quat_mul a b).
Proof. destruct a, b. unfold quat_mul, qscale. cbn. f_equal; ring. Qed.
Lemma qscale_unit s a : s = 1 \/ s = -1 -> unit_quat a -> unit_quat (qscale s a).
Proof. unfold unit_quat, qscale. cbn. intros [-> | ->] H; lra. Qed.
Lemma rotation_unit a t : vlen2 a = 1 -> unit_quat (rotation a t).
Proof.
  intros H. unfold unit_quat, rotation. cbn. assert (S := sin2_cos2 (t / 2)). unfold Rsqr in S. transitivity (sin (t / 2) * sin (t / 2) * vlen2 a + cos (t / 2) * cos (t / 2)); [| rewrite H; lra].
  destruct a. unfold vlen2. cbn. ring.
Qed.
(** The whole assembly was turned by [g], and the second body by [t] about the axis of the hinge as it is now. *)
Lemma hinge_reads q1 q2 g a t s lower upper : unit_quat q1 -> unit_quat q2 -> unit_quat g -> vlen2 a = 1 -> - PI < t <= PI -> s = 1 \/ s = -1 ->
  quat_mul g (quat_mul q2 (quat_inverse q1)) = quat_mul (quat_mul q2 (quat_inverse q1)) g ->
  hinge_angle (quat_mul g q1) (qscale s (quat_mul (rotation a t) (quat_mul g q2))) (hinge_difference q1 q2) a lower upper = angle_near_limits t lower upper.
Proof.
  intros U1 U2 Ug Ha Ht Hs Cm. assert (Ur := rotation_unit a t Ha). unfold hinge_angle, hinge_difference. set (e := quat_mul q2 (quat_inverse q1)) in *.
  assert (Ue : unit_quat e) by (apply qmul_unit; [exact U2 | now apply qinv_unit]).
  rewrite (qnorm_unit e Ue). rewrite qscale_mul. replace (quat_mul (quat_mul (rotation a t) (quat_mul g q2)) (quat_inverse (quat_mul g q1))) with (quat_mul (rotation a t) e).
  2: { rewrite qinv_mul. rewrite <- (qmul_assoc (rotation a t)). f_equal. rewrite <- (qmul_assoc g). rewrite (qmul_assoc q2). fold e. rewrite (qmul_assoc g), Cm, <- qmul_assoc, qmul_inv, qmul_1_r by exact Ug. reflexivity. }
  assert (Uc : unit_quat (qscale s (quat_mul (rotation a t) e))) by (apply qscale_unit; [exact Hs | now apply qmul_unit]).
  rewrite (qnorm_unit _ Uc), qscale_mul, <- qmul_assoc, qmul_inv, qmul_1_r by exact Ue. rewrite qnorm_unit by now apply qscale_unit.
  f_equal. change (normalized_angle (read_angle (qscale s (rotation a t)) a) = t). now apply read_rotation.
Qed.
(** In general the code sees the commutator of the two turns. *)
Lemma hinge_sees q1 q2 g a lower upper : unit_quat q1 -> unit_quat q2 -> unit_quat g -> let e := quat_mul q2 (quat_inverse q1) in
  hinge_angle (quat_mul g q1) (quat_mul g q2) (hinge_difference q1 q2) a lower upper =
  angle_near_limits (normalized_angle (read_angle (quat_mul (quat_mul (quat_mul g e) (quat_inverse g)) (quat_inverse e)) a)) lower upper.
Proof.
  intros U1 U2 Ug e. unfold hinge_angle, hinge_difference. fold e. assert (Ue : unit_quat e) by (apply qmul_unit; [exact U2 | now apply qinv_unit]).
  rewrite (qnorm_unit e Ue). replace (quat_mul (quat_mul g q2) (quat_inverse (quat_mul g q1))) with (quat_mul (quat_mul g e) (quat_inverse g)).
  2: { unfold e. now rewrite qinv_mul, !qmul_assoc. }
  assert (Uc : unit_quat (quat_mul (quat_mul g e) (quat_inverse g))) by (apply qmul_unit; [now apply qmul_unit | now apply qinv_unit]).
  rewrite (qnorm_unit _ Uc). rewrite qnorm_unit by (apply qmul_unit; [exact Uc | now apply qinv_unit]). reflexivity.
Qed.
