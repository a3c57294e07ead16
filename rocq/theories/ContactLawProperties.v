(** Energy, angular momentum, friction, penetration and rest in the contact solver (C89-C93). *)
From Coq Require Import List Reals Lra Psatz Bool Arith.
From Verif Require Import VecModel VecProofs LinAlgProperties ContactModel ContactSpec ContactProofs ContactLawProofs ContactBounceProofs ContactEvalProofs ContactProperties.
Import ListNotations.
Local Open Scope R_scope.

(** ** C89: kinetic energy *)
(** Bodies whose mass and inertia are known; those outside the list are immovable and at rest. *)
Definition known (env : nat -> rigid) (inertia : nat -> mat3) (bodies : list nat) : Prop :=
  NoDup bodies /\ forall i, In i bodies -> 0 < r_im (env i) /\ unlocked (env i) /\ inertia_is (inertia i) (env i).
Definition standing (env : nat -> rigid) (bodies : list nat) (st : velocities) (b : nat) : Prop :=
  In b bodies \/ (immovable (env b) /\ cv (st b) = vzero /\ cw (st b) = vzero).
Theorem C89_no_bounce_partial : forall eps threshold env inertia bodies split dt n ms st,
  known env inertia bodies ->
  (forall m, In m ms -> frictionless m /\ fresh m /\ bounciness m = 0 /\ x_b1 m <> x_b2 m /\
     standing env bodies st (x_b1 m) /\ standing env bodies st (x_b2 m) /\
     forall e, In e (x_points m) -> vlen2 (e_n e) = 1 /\ (split = true \/ e_depth e <= slop)) ->
  energy env inertia bodies (snd (contacts_step eps threshold env split dt n ms st)) <= energy env inertia bodies st.
Proof. intros eps thr env inertia bodies split dt n ms st [N K] H. now apply step_energy. Qed.
Print Assumptions C89_no_bounce_partial.
Theorem C89_one_bounce_partial : forall eps threshold env inertia bodies split dt n m e st,
  known env inertia bodies -> one_contact m e -> can_collide env m -> standing env bodies st (x_b1 m) -> standing env bodies st (x_b2 m) ->
  split = true \/ e_depth e <= slop -> 0 <= threshold -> 0 <= bounciness m <= 1 -> undisturbed env st ->
  energy env inertia bodies (snd (contacts_step eps threshold env split dt (S n) [m] st)) <= energy env inertia bodies st.
Proof.
  intros eps thr env inertia bodies split dt n m e st [N Kn] (Hp & Hf & Hr & Hn) C Q1 Q2 Sh Ht [Hb0 Hb1] U. assert (K := response_positive env m e C Hn).
  destruct C as (Hne & _ & C). destruct (C _ (or_introl eq_refl)) as (_ & _ & F1), (C _ (or_intror eq_refl)) as (_ & _ & F2).
  rewrite (energy_same env inertia bodies _ _ (one_free eps thr env m e Hp Hf Hr Hne split dt Sh n st F1 F2 Hn K)).
  unfold after. rewrite (energy_pair env inertia bodies N Kn) by assumption. rewrite (bias_undisturbed thr env m e st U) by assumption.
  set (s := separation env m e st). set (k := response_free env m e) in *. set (B := bounciness m) in *. clearbody s k B.
  set (E := energy env inertia bodies st). clearbody E. assert (Ik : 0 < / k) by now apply Rinv_0_lt_compat.
  destruct (rlt s (- thr)) eqn:L; [apply rlt_true in L | apply rlt_false in L; rewrite Rplus_0_r].
  - rewrite Rmax_left by (apply Rmult_le_pos; [nra | lra]).
    replace (E + - (s + B * s) / k * s + / 2 * (- (s + B * s) / k) * (- (s + B * s) / k) * k) with (E - / 2 * ((1 + B) * (1 - B) * (s * s) * / k)) by (field; lra).
    assert (0 <= (1 + B) * (1 - B) * (s * s) * / k); [| lra]. apply Rmult_le_pos; [| lra]. apply Rmult_le_pos; [nra | apply Rle_0_sqr].
  - destruct (Rle_dec s 0) as [Z | Z].
    + rewrite Rmax_left by (apply Rmult_le_pos; lra).
      replace (E + - s / k * s + / 2 * (- s / k) * (- s / k) * k) with (E - / 2 * (s * s * / k)) by (field; lra).
      assert (0 <= s * s * / k); [| lra]. apply Rmult_le_pos; [apply Rle_0_sqr | lra].
    + rewrite Rmax_right; [lra |]. apply Ropp_le_cancel. rewrite Ropp_0. replace (- (- s / k)) with (s * / k) by (field; lra). apply Rmult_le_pos; lra.
Qed.
Print Assumptions C89_one_bounce_partial.
Lemma id_inertia v : inertia_is mat_id (ball v).
Proof. split; [reflexivity |]. unfold mat_mul, mat_id, ball, r_iw, mk_mat. cbn. f_equal; f_equal; ring. Qed.
Example C89_not_vacuous : let m := pair_of 0 1 0 (1 / 2) [touching (V3 0 1 0)] in
  known falling (fun _ => mat_id) [1%nat] /\ one_contact m (touching (V3 0 1 0)) /\ can_collide falling m /\
  standing falling [1%nat] (moving falling) 0 /\ standing falling [1%nat] (moving falling) 1 /\ undisturbed falling (moving falling) /\
  bounciness m = 1 / 2.
Proof.
  cbv zeta. destruct falling_collides as [A B]. split; [| split; [exact B | split; [exact A | split; [| split; [now left; left | split; [now split |]]]]]].
  - split; [repeat constructor; easy |]. intros i [<- | []]. cbn [falling]. split; [cbn; lra | split; [apply ball_unlocked | apply id_inertia]].
  - right. split; [apply ground_immovable | now split].
  - unfold bounciness. cbn [x_e1 x_e2 pair_of]. apply Rmax_left. lra.
Qed.
(** Three balls on a line with velocities 1, 0 and 1/2, the first touching the second and the second the third, all fully bouncy. *)
Definition cradle (b : nat) : rigid := ball (V3 (match b with 0%nat => 1 | 1%nat => 0 | 2%nat => 1 / 2 | _ => 0 end) 0 0).
Definition line (a b c : R) : velocities := fun i => Vel (V3 (match i with 0%nat => a | 1%nat => b | 2%nat => c | _ => 0 end) 0 0) vzero vzero vzero.
Definition left_pair : manifold := pair_of 0 1 0 1 [touching (V3 1 0 0)].
Definition right_pair : manifold := pair_of 1 2 0 1 [touching (V3 1 0 0)].
Ltac flat := unfold receive_all, opposite, receive, separation, point_velocity, response_free, part_free, pt1, pt2, left_pair, right_pair, pair_of, touching, line, cradle, ball;
  cbn [fold_left i_body x_b1 x_b2 x_t1 x_t2 e_p1 e_p2 e_n i_lin i_at i_ang r_x r_im r_iw r_ll r_al r_v r_w cv cw sv sw Nat.eqb];
  rewrite ?origin_id, ?mat_vec_id; unfold vdot, vsub, vadd, vneg, vcross, vmul, vscale, vzero; cbn [vx vy vz].
Lemma left_sep a b c : separation cradle left_pair (touching (V3 1 0 0)) (line a b c) = b - a.
Proof. flat. ring. Qed.
Lemma right_sep a b c : separation cradle right_pair (touching (V3 1 0 0)) (line a b c) = c - b.
Proof. flat. ring. Qed.
Lemma left_response : response_free cradle left_pair (touching (V3 1 0 0)) = 2.
Proof. flat. ring. Qed.
Lemma right_response : response_free cradle right_pair (touching (V3 1 0 0)) = 2.
Proof. flat. ring. Qed.
Lemma left_after l a b c : same_c (after cradle left_pair (touching (V3 1 0 0)) l (line a b c)) (line (a - l) (b + l) c).
Proof. intros [| [| [| i]]]; unfold after; flat; split; f_equal; ring. Qed.
Lemma right_after l a b c : same_c (after cradle right_pair (touching (V3 1 0 0)) l (line a b c)) (line a (b - l) (c + l)).
Proof. intros [| [| [| i]]]; unfold after; flat; split; f_equal; ring. Qed.
Lemma frictionless_pair i j b l : frictionless (pair_of i j 0 b l).
Proof. unfold frictionless. rewrite friction_abs. unfold mixed_friction. cbn [x_mu1 x_mu2 pair_of]. rewrite Rmult_0_l. apply Rabs_R0. Qed.
Lemma cradle_undisturbed : undisturbed cradle (line 1 0 (1 / 2)).
Proof. intros [| [| [| i]]]; split; reflexivity. Qed.
Lemma bouncy i j l : bounciness (pair_of i j 0 1 l) = 1.
Proof. unfold bounciness. cbn [x_e1 x_e2 pair_of]. apply Rmax_left. lra. Qed.
Lemma left_bias : bias_of 0 cradle left_pair (touching (V3 1 0 0)) = -1.
Proof.
  rewrite (bias_undisturbed _ _ _ _ _ cradle_undisturbed), left_sep. destruct (rlt (0 - 1) (- 0)) eqn:E; [| apply rlt_false in E; lra].
  unfold left_pair. rewrite bouncy. ring.
Qed.
Lemma right_bias : bias_of 0 cradle right_pair (touching (V3 1 0 0)) = 0.
Proof.
  rewrite (bias_undisturbed _ _ _ _ _ cradle_undisturbed), right_sep. destruct (rlt (1 / 2 - 0) (- 0)) eqn:E; [apply rlt_true in E; lra | reflexivity].
Qed.
Lemma half : inverse_if_positive 2 = 1 / 2.
Proof. unfold inverse_if_positive. destruct (rlt 0 2) eqn:E; [reflexivity | apply rlt_false in E; lra]. Qed.
Theorem C89_energy_refuted : exists eps threshold env inertia bodies ms st n,
  known env inertia bodies /\ undisturbed env st /\
  (forall m, In m ms -> frictionless m /\ fresh m /\ bounciness m = 1 /\ can_collide env m /\ In (x_b1 m) bodies /\ In (x_b2 m) bodies /\
     forall e, In e (x_points m) -> vlen2 (e_n e) = 1 /\ e_depth e = 0) /\
  energy env inertia bodies st < energy env inertia bodies (snd (contacts_step eps threshold env true 1 n ms st)).
Proof.
  exists (1 / 100), 0, cradle, (fun _ => mat_id), [0; 1; 2]%nat, [left_pair; right_pair], (line 1 0 (1 / 2)), 2%nat.
  split.
  { split; [repeat constructor; cbn; intuition discriminate |]. intros i _. split; [cbn; lra | split; [apply ball_unlocked | apply id_inertia]]. }
  split; [apply cradle_undisturbed |]. split.
  { intros m [<- | [<- | []]]; (split; [apply frictionless_pair | split; [now intros e [<- | []] | split; [apply bouncy | split]]]).
    1, 3: split; [discriminate | split; [cbn; lra |]]; intros b _; split; [cbn; lra | split; [apply positive_id | left; apply ball_unlocked]].
    1, 2: split; [cbn; tauto | split; [cbn; tauto |]]; intros e [<- | []]; split; [unfold vlen2; cbn; ring | reflexivity]. }
  assert (A := two_start (1 / 100) 0 cradle left_pair right_pair _ _ eq_refl eq_refl eq_refl eq_refl (line 1 0 (1 / 2))).
  unfold contacts_step. destruct (start (1 / 100) 0 cradle [left_pair; right_pair] (line 1 0 (1 / 2))) as [l st1]. cbn [fst snd] in A. destruct A as [A ->].
  assert (T := two_solve (1 / 100) 0 cradle left_pair right_pair (touching (V3 1 0 0)) (touching (V3 1 0 0)) true 1 
                 (frictionless_pair _ _ _ _) (frictionless_pair _ _ _ _) (or_introl eq_refl) (or_introl eq_refl)).
  cbn [iterate].
  destruct (T 0 0 l (line 1 0 (1 / 2)) (line 1 0 (1 / 2)) 1 (1 / 4) (line 0 1 (1 / 2)) (line 0 (3 / 4) (3 / 4)) A) as [B C].
  { apply same_c_refl. }
  { unfold next. rewrite left_sep, left_bias, left_response, half, Rmax_left; lra. }
  { eapply same_c_trans; [apply left_after |]. replace (1 - (1 - 0)) with 0 by lra. replace (0 + (1 - 0)) with 1 by lra. apply same_c_refl. }
  { unfold next. rewrite right_sep, right_bias, right_response, half, Rmax_left; lra. }
  { eapply same_c_trans; [apply right_after |]. replace (1 - (1 / 4 - 0)) with (3 / 4) by lra. replace (1 / 2 + (1 / 4 - 0)) with (3 / 4) by lra. apply same_c_refl. }
  destruct (solve true 1 l (line 1 0 (1 / 2))) as [l2 st2]. cbn [fst snd] in B, C.
  destruct (T 1 (1 / 4) l2 st2 (line 0 (3 / 4) (3 / 4)) (9 / 8) (5 / 16) (line (- (1 / 8)) (7 / 8) (3 / 4)) (line (- (1 / 8)) (13 / 16) (13 / 16)) B C) as [_ D].
  { unfold next. rewrite left_sep, left_bias, left_response, half, Rmax_left; lra. }
  { eapply same_c_trans; [apply left_after |]. replace (0 - (9 / 8 - 1)) with (- (1 / 8)) by lra. replace (3 / 4 + (9 / 8 - 1)) with (7 / 8) by lra. apply same_c_refl. }
  { unfold next. rewrite right_sep, right_bias, right_response, half, Rmax_left; lra. }
  { eapply same_c_trans; [apply right_after |]. replace (7 / 8 - (5 / 16 - 1 / 4)) with (13 / 16) by lra. replace (3 / 4 + (5 / 16 - 1 / 4)) with (13 / 16) by lra. apply same_c_refl. }
  destruct (solve true 1 l2 st2) as [l3 st3]. cbn [fst snd] in D. cbn [snd]. rewrite (energy_same cradle (fun _ => mat_id) [0; 1; 2]%nat st3 _ D).
  unfold energy, rtotal, mass, line, cradle, ball. cbn [r_im cv cw]. rewrite mat_vec_zero. unfold vlen2, vdot, vzero. cbn [vx vy vz]. rewrite Rinv_1. lra.
Qed.
Print Assumptions C89_energy_refuted.

(** ** C90: angular momentum *)
(** The two world points of a contact lie on a line along its normal. *)
Definition aligned (m : manifold) (e : contact) : Prop := exists d, tr_point (x_t2 m) (e_p2 e) = vadd (tr_point (x_t1 m) (e_p1 e)) (vscale d (e_n e)).
Theorem C90_angular_momentum_partial : forall eps threshold env inertia bodies split dt n ms st,
  known env inertia bodies ->
  (forall m, In m ms -> inside bodies m /\ frictionless m /\ x_f1 m = 0 /\ x_f2 m = 0 /\ forall e, In e (x_points m) -> aligned m e) ->
  angular_momentum env inertia bodies (snd (contacts_step eps threshold env split dt n ms st)) = angular_momentum env inertia bodies st.
Proof.
  intros eps thr env inertia bodies split dt n ms st [N K] H.
  apply (preserve_step eps thr env (fun s => angular_momentum env inertia bodies s = angular_momentum env inertia bodies st)); [| | | | reflexivity].
  - intros m e l s Hm He Hs. rewrite angular_pair; try assumption; [now apply H |]. destruct (H m Hm) as (_ & _ & _ & _ & A). destruct (A e He) as (d & E).
    unfold pt1, pt2. rewrite E. generalize (tr_point (x_t1 m) (e_p1 e)). clear. vsolve.
  - intros m e l s Hm He Hs. rewrite <- Hs. apply angular_same, push_split_same.
  - intros m t l s Hm _ Hl Hs. destruct (H m Hm) as (_ & F & F1 & F2 & _). rewrite Hl; [now rewrite vscale_0, pair_zero |].
    split; [now apply mixed_zero | now split].
  - intros m l s Hm Hs. rewrite angular_pair; try assumption; [now apply H |]. clear. vsolve.
Qed.
Print Assumptions C90_angular_momentum_partial.
Example C90_not_vacuous :
  known cradle (fun _ => mat_id) [0; 1; 2]%nat /\ forall m, In m [left_pair; right_pair] ->
  inside [0; 1; 2]%nat m /\ frictionless m /\ x_f1 m = 0 /\ x_f2 m = 0 /\ forall e, In e (x_points m) -> aligned m e.
Proof.
  split; [split; [repeat constructor; cbn; intuition discriminate |]; intros i _; split; [cbn; lra | split; [apply ball_unlocked | apply id_inertia]] |].
  intros m [<- | [<- | []]]; (split; [unfold inside; cbn; tauto | split; [apply frictionless_pair | split; [reflexivity | split; [reflexivity |]]]]);
    intros e [<- | []]; exists 0; now rewrite vscale_0, vadd_0.
Qed.
(** Two balls that overlap by 1/5, the upper one sliding over the lower one. *)
Definition lower : rigid := Rigid 1 mat_id (V3 1 1 1) (V3 1 1 1) (V3 0 (-1) 0) vzero vzero.
Definition upper : rigid := Rigid 1 mat_id (V3 1 1 1) (V3 1 1 1) (V3 0 1 0) (V3 1 (-1) 0) vzero.
Definition stack (b : nat) : rigid := match b with O => lower | _ => upper end.
Definition overlapping : contact := Contact (V3 0 1 0) (V3 0 (1 / 10) 0) (V3 0 (-1 / 10) 0) (1 / 5) false 0.
Definition rubbing : manifold := pair_of 0 1 1 0 [overlapping].
Lemma single_points m e : x_points m = [e] -> fp1 m = pt1 m e /\ fp2 m = pt2 m e.
Proof.
  intros H. rewrite fp1_mean, fp2_mean. unfold mean, points1, points2. rewrite H. cbn [map length INR fold_right]. rewrite !vadd_0, Rinv_1, !vscale_1. now split.
Qed.
Lemma single_normal eps thr env m e : x_points m = [e] -> vlen2 (e_n e) = 1 -> eps <= 1 -> nrm eps thr env m = e_n e.
Proof.
  intros H Hn He. assert (E : normal_sum m = e_n e) by (unfold normal_sum; rewrite H; cbn [map fold_right]; apply vadd_0).
  rewrite nrm_eq by (rewrite E, unit_len; assumption). unfold normal_of. rewrite E, unit_len by exact Hn. rewrite Rinv_1. apply vscale_1.
Qed.
Lemma slip_x y : vlen (vsub (V3 1 y 0) (vscale (vdot (V3 1 y 0) (V3 0 1 0)) (V3 0 1 0))) = 1 /\
  friction_vector1 (1 / 100) (V3 1 y 0) (V3 0 1 0) = V3 1 0 0.
Proof.
  assert (E : vsub (V3 1 y 0) (vscale (vdot (V3 1 y 0) (V3 0 1 0)) (V3 0 1 0)) = V3 1 0 0).
  { unfold vsub, vscale, vdot. cbn. f_equal; ring. }
  assert (L : vlen (V3 1 0 0) = 1) by (apply unit_len; unfold vlen2; cbn; ring).
  rewrite E. split; [exact L |]. unfold friction_vector1. rewrite E, L.
  destruct (rlt (1 / 100) 1) eqn:G; [| apply rlt_false in G; lra]. unfold vdiv. cbn. f_equal; field.
Qed.
Lemma tangents thr env m e y : x_points m = [e] -> e_n e = V3 0 1 0 ->
  relative (r_v (env (x_b1 m))) (r_w (env (x_b1 m))) (r_v (env (x_b2 m))) (r_w (env (x_b2 m)))
    (vsub (pt1 m e) (r_x (env (x_b1 m)))) (vsub (pt2 m e) (r_x (env (x_b2 m)))) = V3 1 y 0 ->
  tan1 (1 / 100) thr env m = V3 1 0 0 /\ tan2 (1 / 100) thr env m = V3 0 0 (-1).
Proof.
  intros H Hn Hv. assert (Hn' : vlen2 (e_n e) = 1) by (rewrite Hn; unfold vlen2; cbn; ring).
  assert (Nn := single_normal (1 / 100) thr env m e H Hn' ltac:(lra)). destruct (single_points m e H) as [P1 P2].
  assert (T : tan1 (1 / 100) thr env m = V3 1 0 0).
  { transitivity (friction_vector1 (1 / 100) (relative (r_v (env (x_b1 m))) (r_w (env (x_b1 m))) (r_v (env (x_b2 m))) (r_w (env (x_b2 m)))
      (vsub (fp1 m) (r_x (env (x_b1 m)))) (vsub (fp2 m) (r_x (env (x_b2 m))))) (nrm (1 / 100) thr env m)); [reflexivity |].
    rewrite P1, P2, Hv, Nn, Hn. apply slip_x. }
  split; [exact T |].
  transitivity (friction_vector2 (nrm (1 / 100) thr env m) (tan1 (1 / 100) thr env m)); [reflexivity |].
  rewrite T, Nn, Hn. unfold friction_vector2, vcross. cbn. f_equal; ring.
Qed.
Lemma clamp_inside limit x : - limit <= x <= limit -> clamp_to limit x = x.
Proof. intros H. unfold clamp_to. rewrite Rmin_left, Rmax_right; lra. Qed.
Theorem C90_friction_refuted : exists eps threshold env inertia bodies m st n,
  known env inertia bodies /\ In (x_b1 m) bodies /\ In (x_b2 m) bodies /\ fresh m /\ undisturbed env st /\ (forall e, In e (x_points m) -> aligned m e) /\
  angular_momentum env inertia bodies (snd (contacts_step eps threshold env true 1 n [m] st)) <> angular_momentum env inertia bodies st.
Proof.
  exists (1 / 100), 0, stack, (fun _ => mat_id), [0; 1]%nat, rubbing, (moving stack), 1%nat.
  assert (Kn : known stack (fun _ => mat_id) [0; 1]%nat).
  { split; [repeat constructor; cbn; intuition discriminate |]. intros i [<- | [<- | []]]; (split; [cbn; lra | split; [now split | exact (id_inertia vzero)]]). }
  split; [exact Kn |]. split; [cbn; tauto |]. split; [cbn; tauto |]. split; [now intros e [<- | []] |]. split; [now intros [| b] |].
  assert (P1 : pt1 rubbing overlapping = V3 0 (1 / 10) 0) by apply point_id. assert (P2 : pt2 rubbing overlapping = V3 0 (-1 / 10) 0) by apply point_id.
  split.
  { intros e [<- | []]. exists (-1 / 5). fold (pt1 rubbing overlapping) (pt2 rubbing overlapping). rewrite P1, P2. unfold vadd, vscale. cbn. f_equal; field. }
  destruct (single_points rubbing overlapping eq_refl) as [F1 F2].
  assert (Nn : nrm (1 / 100) 0 stack rubbing = V3 0 1 0) by (apply (single_normal _ _ _ _ overlapping); [reflexivity | unfold vlen2; cbn; ring | lra]).
  destruct (tangents 0 stack rubbing overlapping (-1) eq_refl eq_refl) as [T1 T2].
  { rewrite P1, P2. unfold relative, vsub, vadd, vcross. cbn. f_equal; ring. }
  assert (Mu : mixed_friction rubbing = 1) by (unfold mixed_friction; cbn; ring).
  assert (Sep : separation stack rubbing overlapping (moving stack) = -1).
  { unfold separation, point_velocity. fold (pt1 rubbing overlapping) (pt2 rubbing overlapping). rewrite P1, P2. unfold moving, vdot, vsub, vadd, vcross. cbn. ring. }
  assert (Res : response_free stack rubbing overlapping = 2).
  { unfold response_free. rewrite P1, P2. unfold part_free. cbn [rubbing pair_of x_b1 x_b2 stack lower upper r_iw r_x r_im]. rewrite !mat_vec_id.
    unfold vdot, vsub, vadd, vcross. cbn. ring. }
  assert (L : next 0 stack rubbing overlapping 0 (moving stack) = 1 / 2).
  { unfold next. rewrite Sep, Res, half, (bias_undisturbed _ _ _ _ (moving stack)) by now intros [| b]. rewrite Sep.
    destruct (rlt (-1) (- 0)) eqn:G; [| apply rlt_false in G; lra]. replace (bounciness rubbing) with 0 by (unfold bounciness; cbn; rewrite Rmax_left; lra).
    rewrite Rmax_left; lra. }
  set (s1 := after stack rubbing overlapping (1 / 2) (moving stack)).
  assert (I1 : k_inv1 (init_manifold (1 / 100) 0 stack rubbing) = 100 / 442).
  { change (k_inv1 (init_manifold (1 / 100) 0 stack rubbing)) with
      (inverse_if_positive (friction_mass lower upper (vsub (fp1 rubbing) (V3 0 (-1) 0)) (vsub (fp2 rubbing) (V3 0 1 0)) (tan1 (1 / 100) 0 stack rubbing))).
    rewrite F1, F2, P1, P2, T1. unfold friction_mass. cbn [lower upper r_im r_iw]. rewrite !mat_vec_id.
    replace (_ + _) with (442 / 100) by (unfold vdot, vsub, vcross; cbn; field). unfold inverse_if_positive.
    destruct (rlt 0 (442 / 100)) eqn:G; [field | apply rlt_false in G; lra]. }
  assert (V : forall b, cw (s1 b) = vzero /\ cv (s1 b) = V3 (match b with O => 0 | _ => 1 end) (match b with O => -1 / 2 | S O => -1 / 2 | _ => -1 end) 0).
  { intros b. unfold s1, after. rewrite P1, P2. unfold receive_all, opposite, receive. cbn [fold_left i_body rubbing pair_of x_b1 x_b2].
    destruct b as [| [| b]]; cbn [Nat.eqb cv cw i_lin i_at i_ang stack lower upper r_al r_ll r_im r_iw r_x moving r_v r_w]; rewrite ?mat_vec_id;
      unfold vadd, vmul, vscale, vneg, vcross, vsub, vzero; cbn; split; f_equal; field. }
  assert (Sl1 : slide stack rubbing (V3 1 0 0) s1 = 1).
  { unfold slide, point_velocity. rewrite F1, F2, P1, P2. destruct (V 0%nat) as [A1 A2], (V 1%nat) as [A3 A4]. cbn [rubbing pair_of x_b1 x_b2].
    rewrite A1, A2, A3, A4. unfold vdot, vsub, vadd, vcross, vzero. cbn. ring. }
  set (s2 := rub stack rubbing (V3 1 0 0) (- (100 / 442)) s1).
  assert (Sl2 : slide stack rubbing (V3 0 0 (-1)) s2 = 0).
  { unfold slide, point_velocity, s2, rub. rewrite F1, F2, P1, P2. unfold receive_all, opposite, receive. cbn [fold_left i_body rubbing pair_of x_b1 x_b2 Nat.eqb cv cw i_lin i_at i_ang].
    destruct (V 0%nat) as [A1 A2], (V 1%nat) as [A3 A4]. rewrite A1, A2, A3, A4. cbn [stack lower upper r_al r_ll r_im r_iw r_x]. rewrite !mat_vec_id.
    unfold vdot, vsub, vadd, vmul, vscale, vneg, vcross, vzero. cbn. field. }
  destruct (one_iteration (1 / 100) 0 stack rubbing overlapping true 1 eq_refl eq_refl (or_introl eq_refl) (moving stack)
              (1 / 2) s1 (- (100 / 442)) s2 0 (rub stack rubbing (V3 0 0 (-1)) 0 s2)
              (clamp_to (mixed_friction rubbing * (1 / 2)) (- vdot (vsub (cw (rub stack rubbing (V3 0 0 (-1)) 0 s2 (x_b2 rubbing))) (cw (rub stack rubbing (V3 0 0 (-1)) 0 s2 (x_b1 rubbing)))) (nrm (1 / 100) 0 stack rubbing) *
                 k_invt (init_manifold (1 / 100) 0 stack rubbing)))) as (b' & _ & B).
  { now rewrite L. }
  { reflexivity. }
  { rewrite T1, Sl1, I1, Mu, clamp_inside; lra. }
  { now rewrite T1. }
  { rewrite T2, Sl2, Mu, Ropp_0, Rmult_0_l, clamp_inside; lra. }
  { now rewrite T2. }
  { reflexivity. }
  rewrite (angular_same _ _ _ _ _ B). destruct Kn as [N Kn]. unfold spin.
  rewrite angular_pair_gain; [| exact N | exact Kn | cbn; tauto | cbn; tauto]. unfold rub at 1. rewrite angular_pair_gain; [| exact N | exact Kn | cbn; tauto | cbn; tauto].
  unfold s2, rub. rewrite angular_pair_gain; [| exact N | exact Kn | cbn; tauto | cbn; tauto].
  unfold s1, after. rewrite angular_pair_gain; [| exact N | exact Kn | cbn; tauto | cbn; tauto].
  rewrite F1, F2, P1, P2. destruct (angular_momentum stack (fun _ => mat_id) [0%nat; 1%nat] (moving stack)) as [x y z].
  unfold vadd, vcross, vsub, vscale, vzero. cbn. intros [= _ _ E]. lra.
Qed.
Print Assumptions C90_friction_refuted.
