(** The position correction of the orientations of joints (C121, C122). *)
From Coq Require Import List Reals Lra Psatz Bool Arith.
From Verif Require Import VecModel VecProofs LinAlgProperties ContactModel ContactSpec ContactProofs ContactLawProofs ContactBounceProofs BodyModel BodyProofs JointModel JointSpec JointSolveProofs JointDriveProofs.
From Verif Require Import BodyModel JointPositionModel JointPositionSpec JointPositionProofs JointPositionLawProofs JointPositionProperties JointPositionTurnProofs JointPositionAxisProofs JointPositionSceneProofs JointAngleProofs JointPositionLimitProofs.
Import ListNotations.
Local Open Scope R_scope.

(** ** C121: the correction closes a fixed joint *)
Theorem C121_fixed_partial : forall eps env j d mm a b k1 k2 lo1 lo2 n ps, let l := fx_link j in let m := pb_im (env (l_b1 l)) + pb_im (env (l_b2 l)) in let rs := a ++ RFixed j d mm :: b in
  0 <= eps -> l_baumgarte l = false -> l_b1 l <> l_b2 l -> sound env k1 (l_b1 l) -> sound env k2 (l_b2 l) ->
  tensor_above (pb_il (env (l_b1 l))) lo1 -> tensor_above (pb_il (env (l_b2 l))) lo2 ->
  pb_dynamic (env (l_b1 l)) = true \/ pb_dynamic (env (l_b2 l)) = true -> 0 < lo1 + lo2 -> eps < (lo1 + lo2) ^ 3 -> 0 < m -> eps < m ^ 3 -> quat_len2 (fx_diff j) = 1 ->
  Forall patient a -> Forall (apart_from l) (a ++ b) -> unit_pose ps (l_b1 l) -> unit_pose ps (l_b2 l) ->
  let pose n := snd (correct_positions n eps env rs ps) in
  let gap n := vlen (opening env (pose n) l) in
  let turn n := vlen (quat_v (twist_at (pose n) l (fx_diff j))) in
  let side := side_turn env l k1 k2 (gap n) in
  side <= qw (twist_at (pose n) l (fx_diff j)) ->
  turn (S n) <= turn_factor (lo1 + lo2) k1 k2 * (turn n + side) ^ 2 /\
  gap (S n) <= factor env l k1 k2 * gap n ^ 2 + 2 * (k1 * reach env (l_b1 l) (l_p1 l) + k2 * reach env (l_b2 l) (l_p2 l)) / (lo1 + lo2) * (turn n + side).
Proof.
  intros eps env j d mm a b k1 k2 lo1 lo2 n ps l m rs He Hb Hn H1 H2 A1 A2 Hd Hl Hs Hm Hmm Hq P A U1 U2 pose gap turn side Hw.
  destruct (fixed_kind eps env j Hb) as [K1 K2]. assert (S : among l (is_fixed j) rs) by (exists a, (RFixed j d mm), b; repeat split; auto; now exists d, mm).
  destruct (among_next eps env l (is_fixed j) K1 K2 n rs ps S) as (r & ps1 & (d' & m' & ->) & L1 & L2). cbn [correct_one] in L2. fold l in L2. rewrite Hb in L2. cbn [snd] in L2.
  assert (V : unit_pose ps1 (l_b1 l) /\ unit_pose ps1 (l_b2 l)) by (apply (alike_unit _ _ _ L1); split; now apply positions_unit). destruct V as [V1 V2].
  change (snd (correct_positions n eps env rs ps)) with (pose n) in L1. change (snd (correct_positions (Datatypes.S n) eps env rs ps)) with (pose (Datatypes.S n)) in L2.
  unfold side, turn, gap in *. rewrite <- (alike_twist l _ _ _ L1), <- (alike_opening env l _ _ L1) in *. rewrite (alike_twist l _ _ _ L2), (alike_opening env l _ _ L2).
  apply (fixed_closes eps env j k1 k2 lo1 lo2 He Hn H1 H2 A1 A2 Hd Hl Hs Hm Hmm Hq ps1 V1 V2 Hw).
Qed.
Print Assumptions C121_fixed_partial.
(** A weld of a body to an immovable one, at the centre of the body, turned by [q]. *)
Definition weld : fixed := Fixed (Link 0 1 vzero vzero false) quat_id.
Definition weld_data : fixed_data := FixedData vzero vzero mat_zero vzero mat_zero vzero.
Definition weld_mem : fixed_mem := FixedMem vzero vzero.
Definition askew (q : quat) : poses := fun b => match b with 0%nat => Pose vzero quat_id | _ => Pose vzero q end.
Definition skew : quat := Q4 0 0 (3 / 5) (4 / 5).
Lemma quat_mul_id_r q : quat_mul q quat_id = q.
Proof. destruct q. unfold quat_mul, quat_id. cbn. f_equal; ring. Qed.
Lemma quat_inverse_id : quat_inverse quat_id = quat_id.
Proof. unfold quat_inverse, quat_id. cbn. f_equal; ring. Qed.
Lemma askew_twist q : quat_len2 q = 1 -> twist_at (askew q) (fx_link weld) quat_id = q.
Proof. intros U. unfold twist_at. cbn [weld fx_link l_b1 l_b2 askew po_q]. rewrite !quat_normalize_1 by (assumption || apply quat_id_unit). now rewrite quat_inverse_id, !quat_mul_id_r. Qed.
Lemma askew_opening q : quat_len2 q = 1 -> opening pendulum (askew q) (fx_link weld) = vzero.
Proof.
  intros U. unfold opening, point_at. cbn [weld fx_link l_b1 l_b2 l_p1 l_p2 askew po_x po_q pendulum pb_com]. rewrite !quat_normalize_1 by (assumption || apply quat_id_unit). destruct q. unfold quat_vec, quat_id, vsub, vadd, vzero. cbn. f_equal; ring.
Qed.
Lemma skew_unit : quat_len2 skew = 1. Proof. unfold quat_len2, skew. cbn. field. Qed.
Lemma skew_unit' : quat_len2 (quat_scale (- 1) skew) = 1. Proof. unfold quat_len2, quat_scale, skew. cbn. field. Qed.
Lemma skew_len : vlen (quat_v skew) = 3 / 5.
Proof. unfold vlen, quat_v, skew, vlen2, vdot. cbn. replace (_ + _) with (3 / 5 * (3 / 5)) by field. apply sqrt_square. lra. Qed.
Example C121_not_vacuous : let l := fx_link weld in
  l_baumgarte l = false /\ l_b1 l <> l_b2 l /\ sound pendulum 0 (l_b1 l) /\ sound pendulum 1 (l_b2 l) /\ tensor_above (pb_il (pendulum (l_b1 l))) 0 /\ tensor_above (pb_il (pendulum (l_b2 l))) 1 /\
  pb_dynamic (pendulum (l_b2 l)) = true /\ / 8388608 < (0 + 1) ^ 3 /\ / 8388608 < (pb_im (pendulum (l_b1 l)) + pb_im (pendulum (l_b2 l))) ^ 3 /\ quat_len2 (fx_diff weld) = 1 /\
  Forall patient [rail 2 3 false] /\ Forall (apart_from l) ([rail 2 3 false] ++ [rail 4 5 true]) /\ (forall b, unit_pose (askew skew) b) /\
  side_turn pendulum l 0 1 (vlen (opening pendulum (askew skew) l)) = 0 /\ qw (twist_at (askew skew) l (fx_diff weld)) = 4 / 5 /\ vlen (quat_v (twist_at (askew skew) l (fx_diff weld))) = 3 / 5.
Proof.
  cbn zeta. split; [reflexivity |]. split; [discriminate |]. split; [exact pendulum_sound0 |]. split; [exact pendulum_sound1 |]. split; [unfold tensor_above; cbn; lra |]. split; [unfold tensor_above; cbn; lra |]. split; [reflexivity |].
  split; [lra |]. split; [cbn; lra |]. split; [exact quat_id_unit |]. split; [constructor; [reflexivity | constructor] |]. split; [cbn [app]; repeat constructor; cbn; intros [X | X]; discriminate X |].
  split; [intros [| b]; [exact quat_id_unit | exact skew_unit] |]. split.
  - rewrite askew_opening by exact skew_unit. unfold side_turn. cbn zeta. replace (vlen vzero) with 0 by (unfold vlen, vlen2, vzero, vdot; cbn; replace (0 * 0 + 0 * 0 + 0 * 0) with 0 by ring; now rewrite sqrt_0). field. cbn. lra.
  - change (fx_diff weld) with quat_id. rewrite askew_twist by exact skew_unit. split; [reflexivity | exact skew_len].
Qed.
(** The orientation of a body is the same rotation with the opposite quaternion, but the correction then drives it away. *)
Lemma skew_matrix q : q = skew \/ q = quat_scale (- 1) skew -> world_inverse (quat_matrix q) (V3 1 1 1) = mat_id.
Proof.
  intros H. assert (L : quat_len2 q = 1) by (destruct H as [-> | ->]; [exact skew_unit | exact skew_unit']). unfold quat_matrix. rewrite L. destruct (rlt 0 1) eqn:X; [| apply rlt_false in X; lra].
  destruct H as [-> | ->]; unfold quat_scale, skew, world_inverse, mat_mul, mat_id, mk_mat, m00, m01, m02, m10, m11, m12, m20, m21, m22; cbn; f_equal; f_equal; field.
Qed.
Lemma weld_alone eps env j d m ps : l_baumgarte (fx_link j) = false -> snd (correct_positions 1 eps env [RFixed j d m] ps) = fixed_correct eps env j ps.
Proof. intros B. cbn [correct_positions correct_joints]. now rewrite B. Qed.
Lemma weld_corrected eps q : 0 <= eps < 1 -> q = skew \/ q = quat_scale (- 1) skew ->
  let ps := fixed_correct eps pendulum weld (askew q) in ps 0%nat = Pose vzero quat_id /\ ps 1%nat = Pose vzero (spin (vneg (vscale 2 (quat_v q))) q).
Proof.
  intros E H. assert (L : quat_len2 q = 1) by (destruct H as [-> | ->]; [exact skew_unit | exact skew_unit']). cbn zeta.
  assert (U1 : unit_pose (askew q) (l_b1 (fx_link weld))) by exact quat_id_unit. assert (U2 : unit_pose (askew q) (l_b2 (fx_link weld))) by exact L.
  unfold fixed_correct. rewrite translation_null; [| exact U1 | exact U2 | rewrite <- open_arms by assumption; now apply askew_opening].
  set (e := at_poses pendulum (askew q)). set (l := fx_link weld). assert (I1 : i1_of e l = mat_zero) by apply world_zero. assert (I2 : i2_of e l = mat_id) by (exact (skew_matrix q H)).
  unfold correct_rotation. rewrite I1, I2. replace (mat_add mat_zero mat_id) with mat_id by (unfold mat_add, mat_zero, mat_id, mk_mat, vadd; cbn; f_equal; f_equal; ring).
  assert (D : eps < Rabs (mat_det mat_id)) by (replace (mat_det mat_id) with 1 by (unfold mat_det, mat_id, mk_mat; cbn; ring); rewrite Rabs_pos_eq; lra).
  apply rlt_true in D as Dr. rewrite Dr. change (any_dynamic e l) with true. change (l_b1 l) with 0%nat. change (l_b2 l) with 1%nat. cbn [askew po_q weld fx_diff]. rewrite quat_inverse_id, !quat_mul_id_r.
  set (d := mat_vec (invert_rotation eps true mat_id) (vneg (vscale 2 (quat_v q)))).
  assert (K : d = vneg (vscale 2 (quat_v q))) by (unfold d; rewrite <- (mat_vec_id (mat_vec (invert_rotation eps true mat_id) _)), <- mat_vec_mul, invert_rotation_r by (assumption || apply E); apply mat_vec_id).
  unfold e. rewrite (sound_ang pendulum 1) by exact pendulum_sound1. rewrite (sound_ang pendulum 0) by exact pendulum_sound0.
  change (r_iw (jb (at_poses pendulum (askew q) 0%nat))) with (i1_of e l). change (r_iw (jb (at_poses pendulum (askew q) 1%nat))) with (i2_of e l). rewrite I1, I2, mat_zero_vec, mat_vec_id, K.
  rewrite put_same, !put_other by discriminate. rewrite put_same. cbn [askew po_x po_q]. split; [now rewrite (spin_zero quat_id quat_id_unit) | reflexivity].
Qed.
Lemma skew_after (k c : R) : k = 1 \/ k = - 1 -> vlen (quat_v (spin (vneg (vscale 2 (quat_v (quat_scale k skew)))) (quat_scale k skew))) = 3 / 5 * (1 - k * (4 / 5)) / sqrt (34 / 25).
Proof.
  intros H. assert (K : k * k = 1) by (destruct H as [-> | ->]; ring). unfold spin.
  replace (turn (vneg (vscale 2 (quat_v (quat_scale k skew)))) 1 (quat_scale k skew)) with (Q4 0 0 (k * (3 / 5) - k * k * (12 / 25)) (k * (4 / 5) + k * k * (9 / 25)))
    by (unfold turn, quat_add, quat_scale, quat_mul, quat_v, skew, vneg, vscale; cbn; f_equal; field).
  rewrite K. assert (L : quat_len2 (Q4 0 0 (k * (3 / 5) - 1 * (12 / 25)) (k * (4 / 5) + 1 * (9 / 25))) = 34 / 25) by (unfold quat_len2; cbn; transitivity (k * k + 225 / 625); [field | rewrite K; field]).
  unfold quat_normalize. rewrite L. unfold quat_v. cbn [qx qy qz qw]. assert (S : 0 < sqrt (34 / 25)) by (apply sqrt_lt_R0; lra). set (s := sqrt (34 / 25)) in *.
  unfold vlen, vlen2, vdot. cbn [vx vy vz].
  assert (P : 0 <= 3 / 5 * (1 - k * (4 / 5)) / s) by (apply Rmult_le_pos; [destruct H as [-> | ->]; lra | left; now apply Rinv_0_lt_compat]).
  rewrite <- (sqrt_square _ P). f_equal. transitivity ((k * k * (9 / 25) - k * (72 / 125) + 144 / 625) / (s * s)); [field; lra |]. transitivity ((9 / 25 - k * (72 / 125) + k * k * (144 / 625)) / (s * s)); [rewrite K; field; lra | field; lra].
Qed.
Theorem C121_sign_refuted : exists eps env j d m ps ps', 0 < eps < / 1000000 /\ l_baumgarte (fx_link j) = false /\
  (forall b, unit_pose ps b) /\ (forall b p, point_at env ps' b p = point_at env ps b p) /\
  opening env ps (fx_link j) = vzero /\ vlen (quat_v (twist_at ps (fx_link j) (fx_diff j))) = 3 / 5 /\
  vlen (quat_v (twist_at (snd (correct_positions 1 eps env [RFixed j d m] ps)) (fx_link j) (fx_diff j))) < / 4 /\
  9 / 10 < vlen (quat_v (twist_at (snd (correct_positions 1 eps env [RFixed j d m] ps')) (fx_link j) (fx_diff j))).
Proof.
  exists (/ 8388608), pendulum, weld, weld_data, weld_mem, (askew skew), (askew (quat_scale (- 1) skew)). assert (E : 0 <= / 8388608 < 1) by lra. split; [lra |]. split; [reflexivity |].
  split; [intros [| b]; [exact quat_id_unit | exact skew_unit] |]. split.
  { intros [| b] p; [reflexivity |]. unfold point_at. cbn [askew po_x po_q]. rewrite !quat_normalize_1 by (exact skew_unit || exact skew_unit'). f_equal. generalize (vsub p (pb_com (pendulum (S b)))). clear. intros [x y z]. unfold quat_vec, quat_scale, skew. cbn. f_equal; field. }
  split; [apply askew_opening; exact skew_unit |]. change (fx_diff weld) with quat_id. split; [rewrite askew_twist by exact skew_unit; exact skew_len |].
  assert (S1 : 1 < sqrt (34 / 25)) by (rewrite <- sqrt_1 at 1; apply sqrt_lt_1; lra). assert (S2 : sqrt (34 / 25) < 6 / 5) by (replace (6 / 5) with (sqrt (6 / 5 * (6 / 5))) by (apply sqrt_square; lra); apply sqrt_lt_1; lra).
  rewrite !weld_alone by reflexivity. unfold twist_at. cbn [weld fx_link l_b1 l_b2].
  destruct (weld_corrected (/ 8388608) skew E (or_introl eq_refl)) as [A B]. destruct (weld_corrected (/ 8388608) (quat_scale (- 1) skew) E (or_intror eq_refl)) as [A' B'].
  fold weld. rewrite A, B, A', B'. cbn [po_q].
  assert (N : forall q, quat_len2 q = 1 -> quat_len2 (spin (vneg (vscale 2 (quat_v q))) q) = 1) by (intros q Q; apply spin_unit; rewrite Q; lra).
  rewrite (quat_normalize_1 quat_id) by exact quat_id_unit. rewrite (quat_normalize_1 _ (N _ skew_unit)), (quat_normalize_1 _ (N _ skew_unit')). rewrite !quat_inverse_id, !quat_mul_id_r.
  assert (X1 := skew_after 1 0 (or_introl eq_refl)). assert (X2 := skew_after (- 1) 0 (or_intror eq_refl)). replace (quat_scale 1 skew) with skew in X1 by (unfold quat_scale, skew; cbn; f_equal; ring). rewrite X1, X2.
  assert (I1 : / sqrt (34 / 25) < 1) by (rewrite <- Rinv_1; apply Rinv_1_lt_contravar; lra). assert (I2 : 5 / 6 < / sqrt (34 / 25)) by (replace (5 / 6) with (/ (6 / 5)) by field; apply Rinv_lt_contravar; nra). unfold Rdiv. split; [nra |]. unfold Rdiv in *.
  assert (S3 : sqrt (34 * / 25) < 117 * / 100) by (replace (117 * / 100) with (sqrt (117 * / 100 * (117 * / 100))) by (apply sqrt_square; lra); apply sqrt_lt_1; lra).
  assert (I3 : 100 / 117 < / sqrt (34 * / 25)) by (replace (100 / 117) with (/ (117 * / 100)) by field; apply Rinv_lt_contravar; nra). lra.
Qed.
Print Assumptions C121_sign_refuted.

(** ** C122: the correction aligns the axes of a hinge *)
Theorem C122_hinge_partial : forall eps env j d mm a b k1 k2 lo1 lo2 n ps, let l := hg_link j in let m := pb_im (env (l_b1 l)) + pb_im (env (l_b2 l)) in let rs := a ++ RHinge j d mm :: b in
  0 <= eps < 1 -> l_baumgarte l = false -> hg_limit j = false -> l_b1 l <> l_b2 l -> sound env k1 (l_b1 l) -> sound env k2 (l_b2 l) ->
  tensor_above (pb_il (env (l_b1 l))) lo1 -> tensor_above (pb_il (env (l_b2 l))) lo2 ->
  pb_dynamic (env (l_b1 l)) = true \/ pb_dynamic (env (l_b2 l)) = true -> 0 < lo1 + lo2 -> eps < (lo1 + lo2) ^ 2 / 4 -> 0 < m -> eps < m ^ 3 ->
  vlen2 (hg_a1 j) = 1 -> vlen2 (hg_a2 j) = 1 ->
  Forall patient a -> Forall (apart_from l) (a ++ b) -> unit_pose ps (l_b1 l) -> unit_pose ps (l_b2 l) ->
  let pose n := snd (correct_positions n eps env rs ps) in
  let gap n := vlen (opening env (pose n) l) in
  let c1 := k1 * reach env (l_b1 l) (l_p1 l) / m in let c2 := k2 * reach env (l_b2 l) (l_p2 l) / m in
  / 2 <= Rabs (vdot (hinge_axis1 (pose n) j) (hinge_axis2 (pose n) j)) ->
  misalignment (pose (S n)) j <= hinge_factor (lo1 + lo2) k1 k2 * misalignment (pose n) j ^ 2 + (c1 * gap n + c2 * gap n) /\
  gap (S n) <= factor env l k1 k2 * gap n ^ 2 + 2 * (c1 * m * (1 + c1 * gap n) + c2 * m * (1 + c2 * gap n)) / (lo1 + lo2) * misalignment (pose n) j.
Proof.
  intros eps env j d mm a b k1 k2 lo1 lo2 n ps l m rs He Hb Hi Hn H1 H2 A1 A2 Hd Hl Hs Hm Hmm Hu1 Hu2 P A U1 U2 pose gap c1 c2 Hw.
  destruct (hinge_kind eps env j Hb) as [K1 K2]. assert (S : among l (is_hinge j) rs) by (exists a, (RHinge j d mm), b; repeat split; auto; now exists d, mm).
  destruct (among_next eps env l (is_hinge j) K1 K2 n rs ps S) as (r & ps1 & (d' & m' & ->) & L1 & L2). cbn [correct_one] in L2. fold l in L2. rewrite Hb in L2.
  assert (V : unit_pose ps1 (l_b1 l) /\ unit_pose ps1 (l_b2 l)) by (apply (alike_unit _ _ _ L1); split; now apply positions_unit). destruct V as [V1 V2].
  change (snd (correct_positions n eps env rs ps)) with (pose n) in L1. change (snd (correct_positions (Datatypes.S n) eps env rs ps)) with (pose (Datatypes.S n)) in L2.
  destruct (alike_axes j _ _ L1) as [X1 X2]. rewrite <- X1, <- X2 in Hw.
  assert (T := hinge_closes eps env j k1 k2 lo1 lo2 He Hn H1 H2 A1 A2 Hd Hl Hs Hm Hmm Hu1 Hu2 Hi d' m' ps1 V1 V2 Hw). cbn zeta in T.
  destruct (hinge_correct eps env j d' m' ps1) as [[d2 m2] ps2]. cbn [snd] in T, L2. destruct (alike_axes j _ _ L2) as [Y1 Y2].
  unfold gap, misalignment in *. rewrite Y1, Y2, <- X1, <- X2, <- (alike_opening env l _ _ L1), (alike_opening env l _ _ L2). destruct T as (_ & _ & T1 & T2). fold l m in T1, T2. split; [exact T1 |].
  replace (c1 * m) with (k1 * reach env (l_b1 l) (l_p1 l)) by (unfold c1; field; lra). replace (c2 * m) with (k2 * reach env (l_b2 l) (l_p2 l)) by (unfold c2; field; lra). exact T2.
Qed.
Print Assumptions C122_hinge_partial.
(** A door with a tilted axis. *)
Definition door : hinge := Hinge (Link 0 1 vzero vzero false) (V3 1 0 0) (V3 1 0 0) quat_id false 0 0 false 0 0.
Definition slight : quat := Q4 0 0 (7 / 25) (24 / 25).
Lemma slight_unit : quat_len2 slight = 1. Proof. unfold quat_len2, slight. cbn. field. Qed.
Lemma slight_axes : hinge_axis1 (askew slight) door = V3 1 0 0 /\ hinge_axis2 (askew slight) door = V3 (527 / 625) (336 / 625) 0.
Proof.
  unfold hinge_axis1, hinge_axis2. cbn [door hg_link hg_a1 hg_a2 l_b1 l_b2 askew po_q]. rewrite !quat_normalize_1 by (exact slight_unit || exact quat_id_unit). rewrite identity_vec. split; [reflexivity |]. unfold quat_vec, slight. cbn. f_equal; field.
Qed.
Example C122_not_vacuous : let l := hg_link door in
  l_baumgarte l = false /\ hg_limit door = false /\ l_b1 l <> l_b2 l /\ sound pendulum 0 (l_b1 l) /\ sound pendulum 1 (l_b2 l) /\ tensor_above (pb_il (pendulum (l_b1 l))) 0 /\ tensor_above (pb_il (pendulum (l_b2 l))) 1 /\
  pb_dynamic (pendulum (l_b2 l)) = true /\ / 8388608 < (0 + 1) ^ 2 / 4 /\ / 8388608 < (pb_im (pendulum (l_b1 l)) + pb_im (pendulum (l_b2 l))) ^ 3 /\ vlen2 (hg_a1 door) = 1 /\ vlen2 (hg_a2 door) = 1 /\
  Forall patient [rail 2 3 false] /\ Forall (apart_from l) ([rail 2 3 false] ++ [rail 4 5 true]) /\ (forall b, unit_pose (askew slight) b) /\
  / 2 <= Rabs (vdot (hinge_axis1 (askew slight) door) (hinge_axis2 (askew slight) door)) /\ misalignment (askew slight) door = 336 / 625.
Proof.
  cbn zeta. split; [reflexivity |]. split; [reflexivity |]. split; [discriminate |]. split; [exact pendulum_sound0 |]. split; [exact pendulum_sound1 |]. split; [unfold tensor_above; cbn; lra |]. split; [unfold tensor_above; cbn; lra |]. split; [reflexivity |].
  split; [lra |]. split; [cbn; lra |]. do 2 (split; [exact axis_unit |]). split; [constructor; [reflexivity | constructor] |]. split; [cbn [app]; repeat constructor; cbn; intros [X | X]; discriminate X |].
  split; [intros [| b]; [exact quat_id_unit | exact slight_unit] |]. unfold misalignment. destruct slight_axes as [-> ->]. split.
  - replace (vdot _ _) with (527 / 625) by (unfold vdot; cbn; field). rewrite Rabs_pos_eq; lra.
  - replace (vcross _ _) with (V3 0 0 (336 / 625)) by (unfold vcross; cbn; f_equal; field). unfold vlen, vlen2, vdot. cbn. replace (_ + _) with (336 / 625 * (336 / 625)) by field. apply sqrt_square. lra.
Qed.

(** ** C120: the limits of a hinge on an immovable body *)
Theorem C120_hinge_partial : forall eps env j k d mm ps, let l := hg_link j in
  0 <= eps < 1 -> l_baumgarte l = false -> l_b1 l <> l_b2 l -> pb_im (env (l_b1 l)) = 0 /\ pb_il (env (l_b1 l)) = vzero -> 0 < k -> pb_il (env (l_b2 l)) = V3 k k k /\ pb_al (env (l_b2 l)) = V3 1 1 1 ->
  hg_limit j = true -> hg_lower j < hg_upper j -> vlen2 (hg_a1 j) = 1 -> hd_minv d = 1 / k ->
  unit_pose ps (l_b1 l) -> unit_pose ps (l_b2 l) -> opening env ps l = vzero -> hinge_axis1 ps j = hinge_axis2 ps j ->
  let a := hinge_axis1 ps j in let q b := quat_normalize (po_q (ps b)) in
  let t := hinge_angle (q (l_b1 l)) (q (l_b2 l)) (hg_diff j) a (hg_lower j) (hg_upper j) in
  let turned_by x := put_pose (l_b2 l) (Pose (po_x (ps (l_b2 l))) (quat_mul (rotation a x) (q (l_b2 l)))) ps in
  let ps' := snd (correct_positions 1 eps env [RHinge j d mm] ps) in
  (t < hg_lower j -> exists x, 0 < x < hg_lower j - t /\ ps' = turned_by x) /\ (hg_upper j < t -> exists x, 0 < x < t - hg_upper j /\ ps' = turned_by (- x)).
Proof.
  intros eps env j k d mm ps l He Hb Hn H1 Hk H2 Hl Ho Hu M U1 U2 O X a q t turned_by ps'.
  assert (E : ps' = snd (hinge_correct eps env j d mm ps)) by (unfold ps'; cbn [correct_positions correct_joints]; fold l; rewrite Hb; now destruct (hinge_correct eps env j d mm ps) as [[? ?] ?]).
  destruct (hinge_limited eps env j k He Hn H1 Hk H2 Hl Ho Hu d mm ps U1 U2 O X M) as [A B]. rewrite E. split; intros T.
  - exists (2 * atan ((hg_lower j - t) / 2)). split; [apply atan_below; lra | exact (A T)].
  - exists (2 * atan ((t - hg_upper j) / 2)). split; [apply atan_below; lra | exact (B T)].
Qed.
Print Assumptions C120_hinge_partial.
(** A gate that is shut too far. *)
Definition gate : hinge := Hinge (Link 0 1 vzero vzero false) (V3 0 0 1) (V3 0 0 1) quat_id true 0 1 false 0 0.
Definition gate_data : hinge_data := HingeData vzero vzero vzero vzero vzero mat_zero vzero (M2 0 0 0 0) (0, 0) (1 / 1) 0 0.
Definition shut : poses := askew (rotation (V3 0 0 1) (- / 2)).
Lemma up_unit : vlen2 (V3 0 0 1) = 1. Proof. unfold vlen2, vdot. cbn. ring. Qed.
Lemma shut_unit b : unit_pose shut b.
Proof.
  destruct b; [exact quat_id_unit |]. unfold unit_pose, shut, askew. cbn [po_q]. assert (W := rotation_unit (V3 0 0 1) (- / 2) up_unit). unfold unit_quat in W. unfold quat_len2. lra.
Qed.
Lemma shut_axes : hinge_axis1 shut gate = V3 0 0 1 /\ hinge_axis2 shut gate = V3 0 0 1.
Proof.
  unfold hinge_axis1, hinge_axis2. rewrite !quat_normalize_1 by apply shut_unit. cbn [gate hg_link hg_a1 hg_a2 l_b1 l_b2]. unfold shut. cbn [askew po_q]. rewrite identity_vec. split; [reflexivity |].
  unfold rotation. cbn [vx vy vz]. assert (W := sin2_cos2 (- / 2 / 2)). unfold Rsqr in W. revert W. generalize (sin (- / 2 / 2)), (cos (- / 2 / 2)). intros s c W. unfold quat_vec. cbn. f_equal; try ring. transitivity (s * s + c * c); [ring | exact W].
Qed.
Lemma gate_angle : hinge_angle quat_id (rotation (V3 0 0 1) (- / 2)) quat_id (V3 0 0 1) 0 1 = - / 2.
Proof.
  assert (P := PI_RGT_0). assert (P2 := PI2_3_2). unfold PI2 in P2. assert (U : unit_quat quat_id) by (unfold unit_quat, quat_id; cbn; ring). assert (T : - PI < - / 2 <= PI) by lra.
  assert (C0 : quat_mul quat_id (quat_mul quat_id (quat_inverse quat_id)) = quat_mul (quat_mul quat_id (quat_inverse quat_id)) quat_id) by (now rewrite quat_inverse_id, !quat_mul_id_r).
  assert (H := hinge_reads quat_id quat_id quat_id (V3 0 0 1) (- / 2) 1 0 1 U U U up_unit T (or_introl eq_refl) C0).
  rewrite !quat_mul_id_r in H. unfold hinge_difference in H. rewrite quat_inverse_id, quat_mul_id_r, (quat_normalize_1 quat_id quat_id_unit), quat_inverse_id in H.
  replace (qscale 1 (rotation (V3 0 0 1) (- / 2))) with (rotation (V3 0 0 1) (- / 2)) in H by (unfold qscale, rotation; cbn; f_equal; ring). rewrite H. unfold angle_near_limits.
  destruct (rle 1 0) eqn:A; [apply rle_true in A; lra |]. destruct (rlt 1 (- / 2)) eqn:B; [apply rlt_true in B; lra |]. destruct (rlt (- / 2) 0) eqn:C; [| apply rlt_false in C; lra].
  rewrite !normalized_same by lra. rewrite !Rabs_pos_eq by lra. destruct (rlt (0 - - / 2) (1 - - / 2)) eqn:D; [reflexivity | apply rlt_false in D; lra].
Qed.
Example C120_hinge_not_vacuous : let l := hg_link gate in
  l_baumgarte l = false /\ l_b1 l <> l_b2 l /\ (pb_im (pendulum (l_b1 l)) = 0 /\ pb_il (pendulum (l_b1 l)) = vzero) /\ (pb_il (pendulum (l_b2 l)) = V3 1 1 1 /\ pb_al (pendulum (l_b2 l)) = V3 1 1 1) /\
  hg_limit gate = true /\ hg_lower gate < hg_upper gate /\ vlen2 (hg_a1 gate) = 1 /\ hd_minv gate_data = 1 / 1 /\ (forall b, unit_pose shut b) /\ opening pendulum shut l = vzero /\ hinge_axis1 shut gate = hinge_axis2 shut gate /\
  hinge_angle (quat_normalize (po_q (shut (l_b1 l)))) (quat_normalize (po_q (shut (l_b2 l)))) (hg_diff gate) (hinge_axis1 shut gate) (hg_lower gate) (hg_upper gate) < hg_lower gate.
Proof.
  cbn zeta. split; [reflexivity |]. split; [discriminate |]. do 2 (split; [now split |]). split; [reflexivity |]. split; [cbn; lra |]. split; [exact up_unit |]. split; [reflexivity |]. split; [exact shut_unit |].
  split; [apply (askew_opening (rotation (V3 0 0 1) (- / 2)) (shut_unit 1)) |]. destruct shut_axes as [-> ->]. split; [reflexivity |]. rewrite !quat_normalize_1 by apply shut_unit.
  cbn [gate hg_link hg_diff hg_lower hg_upper l_b1 l_b2 shut askew po_q]. rewrite gate_angle. lra.
Qed.
