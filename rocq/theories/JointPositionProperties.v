(** The position correction of joints (C115-C120). *)
From Coq Require Import List Reals Lra Psatz Bool Arith.
From Verif Require Import VecModel VecProofs LinAlgProperties ContactModel ContactSpec ContactProofs ContactLawProofs ContactBounceProofs BodyModel BodyProofs JointModel JointSpec JointSolveProofs JointDriveProofs.
From Verif Require Import BodyModel JointPositionModel JointPositionSpec JointPositionProofs JointPositionLawProofs.
Import ListNotations.
Local Open Scope R_scope.

(** ** C115: what the correction leaves alone *)
Theorem C115_untouched : forall n eps env rs ps b, (forall r, In r rs -> corrects r = true -> ~ touches b r) -> snd (correct_positions n eps env rs ps) b = ps b.
Proof. exact positions_untouched. Qed.
Print Assumptions C115_untouched.
Theorem C115_immovable : forall n eps env rs ps b, pb_im (env b) = 0 -> pb_il (env b) = vzero -> unit_pose ps b -> snd (correct_positions n eps env rs ps) b = ps b.
Proof. exact positions_immovable. Qed.
Print Assumptions C115_immovable.
Theorem C115_locked : forall n eps env rs ps b,
  (vx (pb_ll (env b)) = 0 -> vx (po_x (snd (correct_positions n eps env rs ps) b)) = vx (po_x (ps b))) /\
  (vy (pb_ll (env b)) = 0 -> vy (po_x (snd (correct_positions n eps env rs ps) b)) = vy (po_x (ps b))) /\
  (vz (pb_ll (env b)) = 0 -> vz (po_x (snd (correct_positions n eps env rs ps) b)) = vz (po_x (ps b))) /\
  (pb_al (env b) = vzero -> unit_pose ps b -> po_q (snd (correct_positions n eps env rs ps) b) = po_q (ps b)).
Proof.
  intros n eps env rs ps b. split; [| split; [| split]].
  - intros H. apply (positions_linear n eps env rs ps b vx); auto.
  - intros H. apply (positions_linear n eps env rs ps b vy); auto.
  - intros H. apply (positions_linear n eps env rs ps b vz); auto.
  - apply positions_angular.
Qed.
Print Assumptions C115_locked.
Theorem C115_unit : forall n eps env rs ps b, unit_pose ps b -> unit_pose (snd (correct_positions n eps env rs ps)) b.
Proof. exact positions_unit. Qed.
Print Assumptions C115_unit.
(** Bodies 2 and 3 are joined, body 0 is not; the first coordinate of body 3 is locked. *)
Definition still_data : slider_data := SliderData vzero vzero vzero vzero vzero vzero vzero vzero vzero (M2 0 0 0 0) (0, 0) mat_zero vzero 0 0 0 0.
Definition still_mem : slider_mem := SliderMem (0, 0) vzero 0 0 0 false false vzero.
(** A slider along the first axis between two bodies, out at most 1. *)
Definition rail (b1 b2 : nat) (baumgarte : bool) : ready :=
  RSlider (Slider (Link b1 b2 vzero vzero baumgarte) (V3 1 0 0) quat_id true 0 1 false 0 0) still_data still_mem.
Definition carts : pbodies := fun _ => PBody 1 vzero (V3 1 1 1) (V3 1 1 1) true vzero.
(** Odd bodies are 3 beyond the even ones. *)
Definition apart_carts : poses := fun b => Pose (if Nat.odd b then V3 3 0 0 else vzero) quat_id.
Lemma carts_frozen b : frozen carts b.
Proof. split; [cbn; lra |]. split; [reflexivity |]. left. reflexivity. Qed.
Lemma carts_unit b : unit_pose apart_carts b.
Proof. unfold unit_pose, apart_carts, quat_len2, quat_id. cbn. ring. Qed.
Lemma axis_unit : vlen2 (V3 1 0 0) = 1. Proof. unfold vlen2, vdot. cbn. ring. Qed.
Lemma carts_extension b1 b2 (bm : bool) : Nat.odd b1 = false -> Nat.odd b2 = true ->
  extension_at carts apart_carts (Slider (Link b1 b2 vzero vzero bm) (V3 1 0 0) quat_id true 0 1 false 0 0) = 3.
Proof.
  intros A B. unfold extension_at, axis_at, opening, point_at. cbn [sl_link l_b1 l_b2 l_p1 l_p2 sl_axis]. rewrite !quat_normalize_1 by apply carts_unit. unfold apart_carts. rewrite A, B.
  unfold quat_id, quat_vec, vdot, vsub, vadd, vzero. cbn. ring.
Qed.
(** The correction does something to the joined bodies in the example. *)
Lemma carts_corrected : extension_at carts (snd (correct_positions 1 0 carts [rail 2 3 false] apart_carts)) (Slider (Link 2 3 vzero vzero false) (V3 1 0 0) quat_id true 0 1 false 0 0) = 1.
Proof.
  cbn [correct_positions correct_joints rail sl_link l_baumgarte]. set (j := Slider (Link 2 3 vzero vzero false) (V3 1 0 0) quat_id true 0 1 false 0 0).
  assert (Q : 0 <= 0 < 1) by lra. assert (N : l_b1 (sl_link j) <> l_b2 (sl_link j)) by discriminate. assert (M : 0 < pb_im (carts (l_b1 (sl_link j))) + pb_im (carts (l_b2 (sl_link j)))) by (cbn; lra).
  assert (O : sl_lower j <= sl_upper j) by (cbn; lra).
  destruct (slider_bounded 0 carts j Q N (carts_frozen _) (carts_frozen _) M still_data still_mem apart_carts axis_unit eq_refl O (carts_unit _) (carts_unit _)) as (_ & _ & E).
  destruct (slider_correct 0 carts j still_data still_mem apart_carts) as [[d m] ps]. cbn [snd] in *. rewrite E. unfold j. rewrite carts_extension by reflexivity. cbn [sl_lower sl_upper]. rewrite Rmin_left, Rmax_right; lra.
Qed.
Example C115_not_vacuous : (forall r, In r [rail 2 3 false] -> corrects r = true -> ~ touches 0 r) /\ unit_pose apart_carts 3 /\
  snd (correct_positions 1 0 carts [rail 2 3 false] apart_carts) <> apart_carts.
Proof.
  split; [intros r [<- | []] _; cbn; intros [X | X]; discriminate X |]. split; [apply carts_unit |]. intros E. assert (A := carts_corrected). rewrite E, carts_extension in A by reflexivity. lra.
Qed.

(** ** C116: the common centre of mass stays *)
Theorem C116_center : forall n eps env rs ps bodies, NoDup bodies -> (forall b, In b bodies -> 0 < pb_im (env b) /\ pb_ll (env b) = V3 1 1 1) ->
  (forall r, In r rs -> corrects r = true -> (In (l_b1 (link_of (keep_joint r))) bodies <-> In (l_b2 (link_of (keep_joint r))) bodies)) ->
  weighted env bodies (snd (correct_positions n eps env rs ps)) = weighted env bodies ps.
Proof. exact positions_weighted. Qed.
Print Assumptions C116_center.
Example C116_not_vacuous : NoDup [2%nat; 3%nat] /\ (forall b, In b [2%nat; 3%nat] -> 0 < pb_im (carts b) /\ pb_ll (carts b) = V3 1 1 1) /\
  (forall r, In r [rail 2 3 false] -> corrects r = true -> (In (l_b1 (link_of (keep_joint r))) [2%nat; 3%nat] <-> In (l_b2 (link_of (keep_joint r))) [2%nat; 3%nat])) /\
  snd (correct_positions 1 0 carts [rail 2 3 false] apart_carts) <> apart_carts.
Proof.
  split; [repeat constructor; cbn; intuition discriminate |]. split; [intros b _; split; [cbn; lra | reflexivity] |]. split; [intros r [<- | []] _; cbn; intuition |]. apply C115_not_vacuous.
Qed.

(** ** C117: the correction closes a ball-and-socket joint *)
(** A body whose inverse inertia is at most [k] in every direction, and that is either free or immovable. *)
Theorem C117_closes : forall eps env j d mm a b k1 k2 n ps, let l := bl_link j in let m := pb_im (env (l_b1 l)) + pb_im (env (l_b2 l)) in let rs := a ++ RBall j d mm :: b in
  0 <= eps -> l_baumgarte l = false -> bl_cone j = false -> l_b1 l <> l_b2 l -> sound env k1 (l_b1 l) -> sound env k2 (l_b2 l) ->
  pb_dynamic (env (l_b1 l)) = true \/ pb_dynamic (env (l_b2 l)) = true -> 0 < m -> eps < m ^ 3 ->
  Forall patient a -> Forall (apart_from l) (a ++ b) -> unit_pose ps (l_b1 l) -> unit_pose ps (l_b2 l) ->
  let gap n := vlen (opening env (snd (correct_positions n eps env rs ps)) l) in
  gap (S n) <= factor env l k1 k2 * gap n ^ 2 /\ factor env l k1 k2 * gap n <= (factor env l k1 k2 * gap 0%nat) ^ (2 ^ n).
Proof.
  intros eps env j d mm a b k1 k2 n ps l m rs He Hb Hc Hn H1 H2 Hd Hm Hl P A U1 U2 gap.
  assert (S : scene j d rs) by (exists a, mm, b; auto). split.
  - exact (scene_closes eps env j d k1 k2 He Hb Hc Hn H1 H2 Hd Hm Hl n rs ps S U1 U2).
  - exact (scene_converges eps env j d k1 k2 He Hb Hc Hn H1 H2 Hd Hm Hl n rs ps S U1 U2).
Qed.
Print Assumptions C117_closes.
(** A pendulum whose anchor points are apart by a tenth. *)
Definition pendulum : pbodies := fun b => match b with 0%nat => PBody 0 vzero (V3 1 1 1) (V3 1 1 1) false vzero | _ => PBody 1 (V3 1 1 1) (V3 1 1 1) (V3 1 1 1) true vzero end.
Definition hook : ball := Ball (Link 0 1 vzero (V3 1 0 0) false) false 0.
Definition hook_data : ball_data := BallData vzero vzero mat_zero vzero vzero 0 0.
Definition hook_mem : ball_mem := BallMem vzero 0 false.
Definition loose_pendulum : poses := fun b => match b with 0%nat => Pose vzero quat_id | _ => Pose (V3 (- 1) (/ 10) 0) quat_id end.
Lemma quat_id_unit : quat_len2 quat_id = 1. Proof. unfold quat_len2, quat_id. cbn. ring. Qed.
Lemma pendulum_sound0 : sound pendulum 0 0.
Proof. split; [cbn; lra |]. split; [lra |]. split; [unfold tensor_within; cbn; lra |]. right. split; reflexivity. Qed.
Lemma pendulum_sound1 : sound pendulum 1 1.
Proof. split; [cbn; lra |]. split; [lra |]. split; [unfold tensor_within; cbn; lra |]. left. split; reflexivity. Qed.
Lemma vlen_x x : 0 <= x -> vlen (V3 x 0 0) = x.
Proof. intros H. unfold vlen. replace (vlen2 (V3 x 0 0)) with (x * x) by (unfold vlen2, vdot; cbn; ring). now apply sqrt_square. Qed.
Lemma vlen_y x : 0 <= x -> vlen (V3 0 x 0) = x.
Proof. intros H. unfold vlen. replace (vlen2 (V3 0 x 0)) with (x * x) by (unfold vlen2, vdot; cbn; ring). now apply sqrt_square. Qed.
Example C117_not_vacuous : let l := bl_link hook in
  l_baumgarte l = false /\ bl_cone hook = false /\ l_b1 l <> l_b2 l /\ sound pendulum 0 (l_b1 l) /\ sound pendulum 1 (l_b2 l) /\ pb_dynamic (pendulum (l_b2 l)) = true /\
  / 8388608 < (pb_im (pendulum (l_b1 l)) + pb_im (pendulum (l_b2 l))) ^ 3 /\ Forall patient [rail 2 3 false] /\ Forall (apart_from l) ([rail 2 3 false] ++ [rail 4 5 true]) /\
  unit_pose loose_pendulum (l_b1 l) /\ unit_pose loose_pendulum (l_b2 l) /\ factor pendulum l 0 1 = / 2 /\ vlen (opening pendulum loose_pendulum l) = / 10.
Proof.
  cbn zeta. do 2 (split; [reflexivity |]). split; [discriminate |]. split; [exact pendulum_sound0 |]. split; [exact pendulum_sound1 |]. split; [reflexivity |]. split; [cbn; lra |].
  split; [constructor; [reflexivity | constructor] |]. split; [cbn [app]; repeat constructor; cbn; intros [X | X]; discriminate X |]. split; [exact quat_id_unit |]. split; [exact quat_id_unit |].
  split.
  - unfold factor, reach. cbn [hook bl_link l_b1 l_b2 l_p1 l_p2 pendulum pb_im pb_com].
    replace (vsub vzero vzero) with vzero by (clear; vsolve). replace (vsub (V3 1 0 0) vzero) with (V3 1 0 0) by (unfold vsub, vzero; cbn; f_equal; ring). rewrite (vlen_x 1) by lra. field.
  - unfold opening, point_at. cbn [hook bl_link l_b1 l_b2 l_p1 l_p2 loose_pendulum po_x po_q pendulum pb_com]. rewrite !quat_normalize_1 by apply quat_id_unit.
    replace (vsub _ _) with (V3 0 (/ 10) 0); [apply vlen_y; lra |]. unfold quat_vec, quat_id, vsub, vadd, vzero. cbn. f_equal; ring.
Qed.

(** ** C118: joints that fit are not moved *)
Theorem C118_rest_partial : forall n eps env rs ps, 0 <= eps < 1 ->
  (forall r, In r rs -> corrects r = true -> fitted eps env ps r /\ forall b, touches b r -> unit_pose ps b) -> snd (correct_positions n eps env rs ps) = ps.
Proof.
  intros n eps env rs ps E H. apply positions_rest; [exact E |]. apply Forall_forall. intros r I C. destruct (H r I C) as [F U].
  split; [apply U; now left |]. split; [apply U; now right | exact F].
Qed.
Print Assumptions C118_rest_partial.
Definition hung : poses := fun b => match b with 0%nat => Pose vzero quat_id | _ => Pose (V3 (- 1) 0 0) quat_id end.
Example C118_not_vacuous : forall r, In r [RBall hook hook_data hook_mem] -> corrects r = true -> fitted 0 pendulum hung r /\ forall b, touches b r -> unit_pose hung b.
Proof.
  intros r [<- | []] _. split.
  - split; [| discriminate]. unfold opening, point_at. cbn [hook bl_link l_b1 l_b2 l_p1 l_p2 hung po_x po_q pendulum pb_com]. rewrite !quat_normalize_1 by apply quat_id_unit.
    unfold quat_vec, quat_id, vsub, vadd, vzero. cbn. f_equal; ring.
  - intros b [<- | <-]; exact quat_id_unit.
Qed.
(** The orientation of a turning body is integrated without being normalised, so that the first iteration sees a longer arm. *)
Definition wheel : poses := fun b => match b with 0%nat => Pose vzero quat_id | _ => Pose (V3 (- 1) 0 0) (turn (V3 60 0 0) (/ 60) quat_id) end.
Lemma wheel_q : turn (V3 60 0 0) (/ 60) quat_id = Q4 (/ 2) 0 0 1.
Proof. unfold turn, quat_add, quat_scale, quat_mul, quat_id. cbn. f_equal; field. Qed.
Lemma sqrt_nz x : 0 < x -> sqrt x <> 0.
Proof. intros H. apply Rgt_not_eq. now apply sqrt_lt_R0. Qed.
Lemma wheel_fitted eps : fitted eps pendulum wheel (RBall hook hook_data hook_mem).
Proof.
  split; [| discriminate]. unfold opening, point_at. cbn [hook bl_link l_b1 l_b2 l_p1 l_p2 wheel po_x po_q pendulum pb_com]. rewrite wheel_q, (quat_normalize_1 quat_id) by apply quat_id_unit.
  assert (L : quat_len2 (Q4 (/ 2) 0 0 1) = 5 / 4) by (unfold quat_len2; cbn; field). unfold quat_normalize. rewrite L. cbn [qx qy qz qw].
  assert (N := sqrt_nz (5 / 4)). assert (Q := sqrt_sqrt (5 / 4)). set (s := sqrt (5 / 4)) in *. assert (N' : s <> 0) by (apply N; lra). assert (Q' : s * s = 5 / 4) by (apply Q; lra).
  unfold quat_vec, quat_id, vsub, vadd, vzero. cbn. f_equal; try (field; exact N').
  replace (-1 + (_ : R) - _) with (-1 + (5 / 4) / (s * s)) by (field; exact N'). rewrite Q'. field.
Qed.
Lemma wheel_inertia : world_inverse (quat_matrix (Q4 (/ 2) 0 0 1)) (V3 1 1 1) = mat_id.
Proof.
  assert (L : quat_len2 (Q4 (/ 2) 0 0 1) = 5 / 4) by (unfold quat_len2; cbn; field). unfold quat_matrix. rewrite L. destruct (rlt 0 (5 / 4)) eqn:X; [| apply rlt_false in X; lra].
  cbn [qx qy qz qw]. unfold world_inverse, mat_mul, mat_id, mk_mat, m00, m01, m02, m10, m11, m12, m20, m21, m22. cbn. f_equal; f_equal; field.
Qed.
Lemma id_positive' : positive mat_id.
Proof. split; [reflexivity |]. intros [x y z]. unfold mat_id, mat_vec, vdot, mk_mat. cbn. nra. Qed.
Lemma zero_positive : positive mat_zero.
Proof. split; [reflexivity |]. intros [x y z]. unfold mat_zero, mat_vec, vdot, mk_mat. cbn. nra. Qed.
Lemma ball_alone eps env j d m ps : l_baumgarte (bl_link j) = false -> snd (correct_positions 1 eps env [RBall j d m] ps) = snd (ball_correct eps env j m ps).
Proof. intros B. cbn [correct_positions correct_joints]. rewrite B. now destruct (ball_correct eps env j m ps). Qed.
Theorem C118_spinning_refuted : exists eps env rs ps, 0 < eps < / 1000000 /\ (forall r, In r rs -> corrects r = true /\ fitted eps env ps r) /\
  po_q (ps 0%nat) = quat_id /\ po_q (ps 1%nat) = turn (V3 60 0 0) (/ 60) quat_id /\
  po_x (snd (correct_positions 1 eps env rs ps) 1%nat) <> po_x (ps 1%nat).
Proof.
  exists (/ 8388608), pendulum, [RBall hook hook_data hook_mem], wheel. split; [lra |]. split.
  { intros r [<- | []]. split; [reflexivity |]. apply wheel_fitted. }
  split; [reflexivity |]. split; [reflexivity |].
  rewrite ball_alone by reflexivity. unfold ball_correct, correct_cone. change (bl_cone hook) with false. cbn [snd]. set (l := bl_link hook). set (e := at_poses pendulum wheel). set (r1 := arm1 e l). set (r2 := arm2 e l).
  assert (I1 : i1_of e l = mat_zero) by apply world_zero.
  assert (I2 : i2_of e l = mat_id) by (change (i2_of e l) with (world_inverse (quat_matrix (turn (V3 60 0 0) (/ 60) quat_id)) (V3 1 1 1)); rewrite wheel_q; apply wheel_inertia).
  assert (M : massy e l) by (split; [rewrite I1; apply zero_positive | split; [rewrite I2; apply id_positive' | unfold sum_mass, e, l; cbn; lra]]).
  assert (D := mass_det e l r1 r2 M). replace (sum_mass e l) with 1 in D by (unfold sum_mass, e, l; cbn; ring). assert (Dp : / 8388608 < Rabs (mat_det (mass_matrix e l r1 r2))) by (rewrite Rabs_pos_eq; lra).
  assert (G : gap_now wheel l r1 r2 = V3 (/ 4) 0 0).
  { unfold gap_now, r1, r2, arm1, arm2, arm, e, l, hook. cbn [at_poses jb_q jb_com bl_link l_b1 l_b2 l_p1 l_p2 wheel po_x po_q pendulum pb_com]. rewrite wheel_q. unfold quat_vec, quat_id, vsub, vadd, vzero. cbn. f_equal; field. }
  unfold correct_translation. apply rlt_true in Dp as Dr. rewrite Dr, G. change (any_dynamic e l) with true.
  set (d := mat_vec (invert_mass (/ 8388608) true (mass_matrix e l r1 r2)) (vneg (V3 (/ 4) 0 0))).
  assert (K : mat_vec (mass_matrix e l r1 r2) d = vneg (V3 (/ 4) 0 0)).
  { unfold d. rewrite <- mat_vec_mul, invert_mass_r by (assumption || lra). apply mat_vec_id. }
  intros X. assert (Z : d = vzero).
  { revert X. unfold move. unfold e, l, hook. cbn [bl_link l_b1 l_b2]. rewrite put_same, put_other by discriminate. cbn [at_poses jb r_im r_ll pendulum pb_im pb_ll wheel po_x]. generalize d. clear.
    intros [x y z]. unfold vadd, vmul, vscale, vzero. cbn. intros X. injection X as A B C. f_equal; lra. }
  rewrite Z, mat_vec_zero in K. unfold vzero, vneg in K. cbn in K. injection K as A. lra.
Qed.
Print Assumptions C118_spinning_refuted.

(** ** C119: joints corrected through the velocities do not disturb the others *)
Theorem C119_independent_partial : forall n eps env rs ps, Forall patient rs ->
  snd (correct_positions n eps env rs ps) = snd (correct_positions n eps env (filter corrects rs) ps).
Proof. intros n eps env rs ps F. symmetry. now apply positions_filter. Qed.
Print Assumptions C119_independent_partial.
Example C119_not_vacuous : let rs := [RBall (Ball (Link 0 1 vzero vzero true) false 0) hook_data hook_mem; rail 2 3 false] in
  Forall patient rs /\ filter corrects rs <> rs /\ snd (correct_positions 1 0 carts (filter corrects rs) apart_carts) <> apart_carts.
Proof. split; [repeat constructor |]. split; [discriminate |]. apply C115_not_vacuous. Qed.
(** The loop over the sliders ends at the first one that is corrected through the velocities. *)
Theorem C119_slider_refuted : exists rs, forall n, snd (correct_positions n 0 carts rs apart_carts) = apart_carts /\
  snd (correct_positions 1 0 carts (filter corrects rs) apart_carts) <> apart_carts.
Proof.
  exists [rail 0 1 true; rail 2 3 false]. intros n. split; [| exact (proj2 (proj2 C115_not_vacuous))].
  assert (E : correct_joints 0 carts [rail 0 1 true; rail 2 3 false] apart_carts = ([rail 0 1 true; rail 2 3 false], apart_carts)) by reflexivity.
  induction n as [| n IH]; [reflexivity |]. cbn [correct_positions]. rewrite E. exact IH.
Qed.
Print Assumptions C119_slider_refuted.

(** ** C120: the correction of limits *)
Theorem C120_slider_partial : forall n eps env j d mm a b ps, let l := sl_link j in let rs := a ++ RSlider j d mm :: b in
  0 <= eps < 1 -> l_baumgarte l = false -> l_b1 l <> l_b2 l -> frozen env (l_b1 l) -> frozen env (l_b2 l) ->
  0 < pb_im (env (l_b1 l)) + pb_im (env (l_b2 l)) -> vlen2 (sl_axis j) = 1 -> sl_limit j = true -> sl_lower j <= sl_upper j ->
  Forall patient a -> Forall (apart_from l) (a ++ b) -> unit_pose ps (l_b1 l) -> unit_pose ps (l_b2 l) ->
  extension_at env (snd (correct_positions (S n) eps env rs ps)) j = Rmax (sl_lower j) (Rmin (sl_upper j) (extension_at env ps j)).
Proof.
  intros n eps env j d mm a b ps l rs He Hb Hn H1 H2 Hm Ha Hl Ho P A U1 U2. apply slide_all; try assumption. exists a, d, mm, b. auto.
Qed.
Print Assumptions C120_slider_partial.
Example C120_not_vacuous : let j := Slider (Link 2 3 vzero vzero false) (V3 1 0 0) quat_id true 0 1 false 0 0 in let l := sl_link j in
  l_baumgarte l = false /\ l_b1 l <> l_b2 l /\ frozen carts (l_b1 l) /\ frozen carts (l_b2 l) /\ 0 < pb_im (carts (l_b1 l)) + pb_im (carts (l_b2 l)) /\ vlen2 (sl_axis j) = 1 /\
  sl_lower j <= sl_upper j /\ Forall (apart_from l) ([RBall hook hook_data hook_mem] ++ [rail 4 5 false]) /\ unit_pose apart_carts (l_b1 l) /\ unit_pose apart_carts (l_b2 l) /\
  extension_at carts apart_carts j = 3.
Proof.
  cbn zeta. split; [reflexivity |]. split; [discriminate |]. do 2 (split; [apply carts_frozen |]). split; [cbn; lra |]. split; [exact axis_unit |]. split; [cbn; lra |].
  split; [cbn [app]; repeat constructor; cbn; intros [X | X]; discriminate X |]. do 2 (split; [apply carts_unit |]). now apply carts_extension.
Qed.
(** The axis about which a violated cone limit turns the bodies is not normalised. *)
Definition cone_angle0 : R := acos (- (4 / 5)).
Definition cone : ball := Ball (Link 0 1 (V3 1 0 0) (V3 (4 / 5) (- (3 / 5)) 0) false) true (cone_angle0 - 3 / 5).
Definition bent : poses := fun b => match b with 0%nat => Pose vzero quat_id | _ => Pose (V3 (1 / 5) (3 / 5) 0) quat_id end.
Lemma vunit_1 eps v : eps <= 1 -> vlen2 v = 1 -> vunit eps v = v.
Proof.
  intros E U. assert (L : vlen v = 1) by (unfold vlen; rewrite U; apply sqrt_1). unfold vunit. rewrite L. destruct (rlt 1 eps) eqn:X; [apply rlt_true in X; lra |]. destruct v. cbn. f_equal; field.
Qed.
Lemma identity_vec v : quat_vec quat_id v = v.
Proof. destruct v. unfold quat_vec, quat_id. cbn. f_equal; ring. Qed.
Lemma bent_unit b : unit_pose bent b.
Proof. destruct b; exact quat_id_unit. Qed.
Lemma cone_above : PI / 2 + 4 / 5 < cone_angle0.
Proof.
  unfold cone_angle0. rewrite acos_asin by lra. rewrite asin_opp.
  assert (S : sin (4 / 5) < 4 / 5) by (apply sin_lt_x; lra). assert (B := asin_bound (4 / 5)). assert (Pi := PI2_3_2). unfold PI2 in Pi.
  destruct (Rlt_le_dec (4 / 5) (asin (4 / 5))) as [G | G]; [lra |]. exfalso.
  assert (I : sin (asin (4 / 5)) <= sin (4 / 5)) by (apply sin_incr_1; lra). rewrite sin_asin in I by lra. lra.
Qed.
Lemma bent_arms : arm1 (at_poses pendulum bent) (bl_link cone) = V3 1 0 0 /\ arm2 (at_poses pendulum bent) (bl_link cone) = V3 (4 / 5) (- (3 / 5)) 0.
Proof.
  unfold arm1, arm2, arm. cbn [at_poses jb_q jb_com cone bl_link l_b1 l_b2 l_p1 l_p2 bent po_q pendulum pb_com]. rewrite !identity_vec. unfold vsub, vzero. cbn. split; f_equal; ring.
Qed.
Lemma bent_inertia : i1_of (at_poses pendulum bent) (bl_link cone) = mat_zero /\ i2_of (at_poses pendulum bent) (bl_link cone) = mat_id.
Proof.
  split; [apply world_zero |]. change (world_inverse (quat_matrix quat_id) (V3 1 1 1) = mat_id).
  assert (L : quat_len2 quat_id = 1) by apply quat_id_unit. unfold quat_matrix. rewrite L. destruct (rlt 0 1) eqn:X; [| apply rlt_false in X; lra].
  unfold quat_id, world_inverse, mat_mul, mat_id, mk_mat, m00, m01, m02, m10, m11, m12, m20, m21, m22. cbn. f_equal; f_equal; field.
Qed.
Definition unbent : poses := put_pose 1 (Pose (V3 (1 / 5) (3 / 5) 0) (spin (V3 0 0 (- 1)) quat_id)) bent.
Lemma bent_axis : vcross (V3 1 0 0) (vneg (V3 (4 / 5) (- (3 / 5)) 0)) = V3 0 0 (3 / 5) /\ vdot (V3 1 0 0) (vneg (V3 (4 / 5) (- (3 / 5)) 0)) = - (4 / 5).
Proof. unfold vcross, vdot, vneg. cbn. split; [f_equal |]; ring. Qed.
Lemma unbent_unit b : unit_pose unbent b.
Proof.
  unfold unit_pose, unbent, put_pose. destruct (Nat.eqb b 1); [cbn [po_q]; apply spin_unit; rewrite quat_id_unit; lra | apply bent_unit].
Qed.
Lemma unbent_is eps m : eps <= 1 -> snd (ball_correct eps pendulum cone m bent) = unbent.
Proof.
  intros E. unfold ball_correct, correct_cone. destruct bent_arms as [-> ->]. change (bl_cone cone) with true. cbv iota.
  assert (V1 : vlen2 (V3 1 0 0) = 1) by exact axis_unit. assert (V2 : vlen2 (V3 (4 / 5) (- (3 / 5)) 0) = 1) by (unfold vlen2, vdot; cbn; field). rewrite !vunit_1 by assumption.
  unfold cone_angle. destruct bent_axis as [-> ->]. change (bl_half cone) with (cone_angle0 - 3 / 5). fold cone_angle0. replace (cone_angle0 - 3 / 5 - cone_angle0) with (- (3 / 5)) by ring.
  destruct (rlt (- (3 / 5)) 0) eqn:X; [| apply rlt_false in X; lra]. destruct bent_inertia as [I1 I2]. rewrite I1, I2. rewrite mat_vec_id, mat_zero_vec.
  replace (vdot (V3 0 0 (3 / 5)) vzero + vdot (V3 0 0 (3 / 5)) (V3 0 0 (3 / 5))) with (9 / 25) by (unfold vdot, vzero; cbn; field).
  unfold inverse_if_positive. destruct (rlt 0 (9 / 25)) eqn:Y; [| apply rlt_false in Y; lra]. replace (1 / (9 / 25) * - - (3 / 5)) with (5 / 3) by field.
  assert (M : move_ang (at_poses pendulum bent) (l_b2 (bl_link cone)) (vscale (- (5 / 3)) (V3 0 0 (3 / 5)))
                (move_ang (at_poses pendulum bent) (l_b1 (bl_link cone)) (vscale (5 / 3) (V3 0 0 (3 / 5))) bent) = unbent).
  { unfold move_ang at 2. change (r_iw (jb (at_poses pendulum bent (l_b1 (bl_link cone))))) with (i1_of (at_poses pendulum bent) (bl_link cone)). rewrite I1, mat_zero_vec, vmul_zero_r, spin_zero by apply bent_unit.
    unfold move_ang. change (r_iw (jb (at_poses pendulum bent (l_b2 (bl_link cone))))) with (i2_of (at_poses pendulum bent) (bl_link cone)). rewrite I2, mat_vec_id.
    change (l_b1 (bl_link cone)) with 0%nat. change (l_b2 (bl_link cone)) with 1%nat. rewrite !put_other by discriminate. unfold unbent. cbn [at_poses jb r_al pendulum pb_al].
    replace (vmul (V3 1 1 1) (vscale (- (5 / 3)) (V3 0 0 (3 / 5)))) with (V3 0 0 (- 1)) by (unfold vmul, vscale; cbn; f_equal; field).
    unfold put_pose. apply FunctionalExtensionality.functional_extensionality. intros [| [| b]]; reflexivity. }
  rewrite M. cbn [snd]. apply translation_null; try apply unbent_unit.
  unfold gap_now. change (l_b1 (bl_link cone)) with 0%nat. change (l_b2 (bl_link cone)) with 1%nat. unfold unbent. rewrite put_same, put_other by discriminate. cbn [po_x bent]. unfold vsub, vadd, vzero. cbn. f_equal; field.
Qed.
Lemma unbent_arm : quat_vec (spin (V3 0 0 (- 1)) quat_id) (V3 (4 / 5) (- (3 / 5)) 0) = V3 0 (- 1) 0.
Proof.
  unfold spin. replace (turn (V3 0 0 (- 1)) 1 quat_id) with (Q4 0 0 (- / 2) 1) by (unfold turn, quat_add, quat_scale, quat_mul, quat_id; cbn; f_equal; field).
  assert (L : quat_len2 (Q4 0 0 (- / 2) 1) = 5 / 4) by (unfold quat_len2; cbn; field). unfold quat_normalize. rewrite L. cbn [qx qy qz qw].
  assert (N := sqrt_nz (5 / 4)). assert (Q := sqrt_sqrt (5 / 4)). set (s := sqrt (5 / 4)) in *. assert (N' : s <> 0) by (apply N; lra). assert (Q' : s * s = 5 / 4) by (apply Q; lra).
  unfold quat_vec. cbn [vx vy vz qx qy qz qw]. f_equal; try (field; exact N').
  transitivity (- (5 / 4) / (s * s)); [field; exact N' |]. rewrite Q'. field.
Qed.
Theorem C120_cone_refuted : exists eps env j d m ps, 0 < eps < / 1000000 /\ (forall b, unit_pose ps b) /\ l_baumgarte (bl_link j) = false /\ bl_cone j = true /\ 0 < bl_half j < PI /\
  opening env ps (bl_link j) = vzero /\ bl_half j < cone_at eps env ps (bl_link j) /\
  cone_at eps env (snd (correct_positions 1 eps env [RBall j d m] ps)) (bl_link j) < bl_half j - / 5.
Proof.
  exists (/ 8388608), pendulum, cone, hook_data, hook_mem, bent. assert (E : / 8388608 <= 1) by lra. split; [lra |]. split; [exact bent_unit |]. split; [reflexivity |]. split; [reflexivity |].
  assert (A := cone_above). assert (B := acos_bound (- (4 / 5))). fold cone_angle0 in B. assert (Pi := PI_RGT_0). split; [cbn [cone bl_half]; lra |].
  assert (V1 : vlen2 (V3 1 0 0) = 1) by exact axis_unit. assert (V2 : vlen2 (V3 (4 / 5) (- (3 / 5)) 0) = 1) by (unfold vlen2, vdot; cbn; field).
  assert (V3' : vlen2 (V3 0 (- 1) 0) = 1) by (unfold vlen2, vdot; cbn; field).
  assert (Z : vsub (V3 1 0 0) vzero = V3 1 0 0) by (unfold vsub, vzero; cbn; f_equal; ring). assert (Z' : vsub (V3 (4 / 5) (- (3 / 5)) 0) vzero = V3 (4 / 5) (- (3 / 5)) 0) by (unfold vsub, vzero; cbn; f_equal; ring).
  assert (O : opening pendulum bent (bl_link cone) = vzero).
  { rewrite open_arms by apply bent_unit. destruct bent_arms as [-> ->]. unfold gap_now. cbn [cone bl_link l_b1 l_b2 bent po_x]. unfold vsub, vadd, vzero. cbn. f_equal; field. }
  split; [exact O |]. split.
  - unfold cone_at, lever. rewrite !quat_normalize_1 by apply bent_unit. cbn [cone bl_link l_b1 l_b2 l_p1 l_p2 bent po_q pendulum pb_com]. rewrite !identity_vec, Z, Z', !vunit_1 by assumption.
    rewrite (proj2 bent_axis). fold cone_angle0. cbn [cone bl_half]. lra.
  - rewrite ball_alone by reflexivity. rewrite unbent_is by exact E. unfold cone_at, lever. rewrite !quat_normalize_1 by apply unbent_unit. cbn [cone bl_link l_b1 l_b2 l_p1 l_p2]. unfold unbent. rewrite put_same, put_other by discriminate.
    cbn [po_q bent pendulum pb_com]. rewrite identity_vec, Z, Z', unbent_arm, !vunit_1 by assumption. replace (vdot (V3 1 0 0) (vneg (V3 0 (- 1) 0))) with 0 by (unfold vdot, vneg; cbn; ring). rewrite acos_0. cbn [cone bl_half]. lra.
Qed.
Print Assumptions C120_cone_refuted.
