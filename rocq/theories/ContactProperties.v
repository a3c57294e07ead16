(** Properties of the contact solver (C49-C51, C87-C93). *)
From Coq Require Import List Reals Lra Psatz Bool Arith FunctionalExtensionality.
From Verif Require Import VecModel VecProofs LinAlgProperties ContactModel ContactSpec ContactProofs ContactLawProofs ContactBounceProofs.
Import ListNotations.
Local Open Scope R_scope.

(** Examples: a contact at the origin between an immovable floor (body 0) and bodies of mass 1. *)
Definition ground : rigid := Rigid 0 mat_zero (V3 1 1 1) (V3 1 1 1) vzero vzero vzero.
Definition ball (v : vec3) : rigid := Rigid 1 mat_id (V3 1 1 1) (V3 1 1 1) vzero v vzero.
Definition touching (n : vec3) : contact := Contact n vzero vzero 0 false 0.
Definition pair_of (b1 b2 : nat) (mu bounce : R) (l : list contact) : manifold :=
  Manifold b1 b2 tr_id tr_id mu mu bounce bounce l 0 0 0 vzero vzero.
Definition moving (env : nat -> rigid) : velocities := fun b => Vel (r_v (env b)) (r_w (env b)) vzero vzero.
Lemma origin_id : tr_point tr_id vzero = vzero.
Proof. unfold tr_point, tr_id, quat_vec, quat_id, vzero, vadd. cbn. f_equal; ring. Qed.
Lemma ground_immovable : immovable ground. Proof. now split. Qed.
Lemma ball_unlocked v : unlocked (ball v). Proof. now split. Qed.
Lemma positive_id : positive mat_id.
Proof. split; [reflexivity |]. intros v. rewrite mat_vec_id, <- vlen2_dot. apply vlen2_nonneg. Qed.
Lemma positive_zero : positive mat_zero.
Proof. split; [reflexivity |]. intros v. rewrite mat_zero_vec. replace (vdot v vzero) with 0 by (clear; vsolve). lra. Qed.

(** ** C49: contacts push only, friction is bounded *)
Theorem C49_impulses_bounded : forall eps threshold env split dt n ms st ms' st',
  contacts_step eps threshold env split dt (S n) ms st = (ms', st') ->
  Forall2 (fun m m' => length (x_points m') = length (x_points m) /\ friction_of m' = friction_of m) ms ms' /\
  forall m', In m' ms' ->
    (forall e, In e (x_points m') -> 0 <= e_imp e) /\
    Rabs (x_f1 m') <= friction_of m' * pushing m' /\ Rabs (x_f2 m') <= friction_of m' * pushing m' /\ Rabs (x_tw m') <= friction_of m' * pushing m'.
Proof.
  intros eps thr env split dt n ms st ms' st' E. unfold contacts_step in E.
  assert (A := start_shape eps thr env ms st). destruct (start eps thr env ms st) as [l st1]. cbn [fst] in A.
  assert (B := iterate_shape eps thr env ms (S n) split dt l st1 A).
  assert (C := iterate_bounded (S n) split dt l st1 (or_intror (Nat.lt_0_succ n))).
  destruct (iterate (S n) split dt l st1) as [l' st2]. cbn [fst] in B, C. injection E as <- <-.
  clear - B C. induction B as [| m k ms l Hk B IH]; [split; [constructor | easy] |].
  apply Forall_inv in C as Ck. apply Forall_inv_tail in C. destruct (IH C) as [IH1 IH2]. cbn [combine map].
  destruct (stored_pushing eps thr env m k Hk) as [E1 E2].
  assert (L : length (x_points (store_manifold m k)) = length (x_points m)).
  { rewrite <- (map_length e_imp), <- E1, map_length. destruct Hk as (f1 & f2 & tw & l0 & -> & F & _). cbn [k_points with_state]. symmetry.
    clear - F. induction F; cbn; congruence. }
  split; [constructor; [split; [exact L | reflexivity] | exact IH1] |].
  intros m' [<- | Hm']; [| now apply IH2].
  destruct Ck as (C1 & C2 & C3 & C4). change (friction_of (store_manifold m k)) with (friction_of m).
  rewrite friction_abs, <- E2, pushing_map, <- E1, <- sum_imp_map.
  split; [| split; [exact C2 | split; [exact C3 | exact C4]]].
  intros e He. apply (in_map e_imp) in He. rewrite <- E1 in He. apply in_map_iff in He as (p & <- & Hp). now apply C1.
Qed.
Print Assumptions C49_impulses_bounded.
Example C49_not_vacuous :
  let ms := [pair_of 0 1 (1 / 2) 0 [touching (V3 0 1 0); touching (V3 0 1 0)]; pair_of 1 2 1 1 [touching (V3 1 0 0)]] in
  friction_of (pair_of 0 1 (1 / 2) 0 [touching (V3 0 1 0)]) = 1 / 4 /\ length ms = 2%nat /\
  exists ms' st', contacts_step (1 / 100) 0 (fun _ => ball vzero) true 1 10 ms (moving (fun _ => ball vzero)) = (ms', st').
Proof.
  cbv zeta. split; [| split; [reflexivity |]].
  - rewrite friction_abs. unfold mixed_friction, pair_of. cbn [x_mu1 x_mu2]. rewrite Rabs_right; lra.
  - destruct (contacts_step _ _ _ _ _ _ _ _) as [a b]. now exists a, b.
Qed.

(** ** C50: momentum *)
Theorem C50_momentum_conserved : forall eps threshold env split dt n ms st bodies,
  NoDup bodies -> (forall b, In b bodies -> 0 < r_im (env b) /\ unlocked (env b)) -> (forall m, In m ms -> inside bodies m) ->
  let st' := snd (contacts_step eps threshold env split dt n ms st) in
  momentum env bodies st' = momentum env bodies st /\ split_momentum env bodies st' = split_momentum env bodies st.
Proof.
  intros eps thr env split dt n ms st bodies N M I. cbv zeta. split.
  - apply (preserve_step eps thr env (fun s => momentum env bodies s = momentum env bodies st)); [| | | | reflexivity];
      intros; try (rewrite momentum_pair; auto; fail).
    match goal with H : _ = momentum env bodies st |- _ => rewrite <- H end. apply total_ext. intros i _. f_equal.
    match goal with |- cv (push_split ?k ?p ?l ?s i) = _ => destruct (push_split_same k p l s i) as [-> _]; reflexivity end.
  - apply (preserve_step eps thr env (fun s => split_momentum env bodies s = split_momentum env bodies st)); [| | | | reflexivity]; intros;
      (rewrite split_pair by auto; assumption) ||
      (match goal with H : _ = split_momentum env bodies st |- _ => rewrite <- H end; apply total_ext; intros i _; f_equal;
       unfold receive_all, opposite, receive; cbn [fold_left i_body]; destruct (Nat.eqb i _), (Nat.eqb i _); reflexivity).
Qed.
Print Assumptions C50_momentum_conserved.
Theorem C50_immovable_and_remote_kept : forall eps threshold env split dt n ms st b,
  immovable (env b) \/ (forall m, In m ms -> b <> x_b1 m /\ b <> x_b2 m) ->
  snd (contacts_step eps threshold env split dt n ms st) b = st b.
Proof.
  intros eps thr env split dt n ms st b H. apply (preserve_step eps thr env (fun s => s b = st b)); [| | | | reflexivity]; intros;
    match goal with H : _ = st b |- _ => rewrite <- H end;
    (destruct H as [H | H];
     [try (now apply immovable_split); unfold receive_all, opposite; cbn [fold_left]; now rewrite !immovable_receive
     | match goal with Hm : In ?m ms |- _ => destruct (H m Hm) end; try (now apply split_other); now apply pair_other]).
Qed.
Print Assumptions C50_immovable_and_remote_kept.
(** Two balls in contact and one that rests on the ground. *)
Definition two_and_one : list manifold := [pair_of 1 2 1 1 [touching (V3 1 0 0)]; pair_of 0 3 1 1 [touching (V3 0 1 0)]].
Definition balls (b : nat) : rigid := match b with O => ground | _ => ball (V3 1 0 0) end.
Example C50_not_vacuous :
  (NoDup [1; 2]%nat /\ (forall b, In b [1; 2]%nat -> 0 < r_im (balls b) /\ unlocked (balls b)) /\ (forall m, In m two_and_one -> inside [1; 2]%nat m)) /\
  immovable (balls 0%nat).
Proof.
  split; [| apply ground_immovable]. split; [| split].
  - repeat constructor; cbn; lia.
  - intros b [<- | [<- | []]]; cbn [balls r_im ball]; (split; [lra | apply ball_unlocked]).
  - intros m [<- | [<- | []]]; unfold inside, pair_of; cbn [x_b1 x_b2]; cbn; intuition discriminate.
Qed.

(** ** C51: warm starting *)
Theorem C51_kept_impulses_applied_partial : forall eps threshold env ms st,
  0 < eps -> (forall m, In m ms -> eps <= vlen (normal_sum m) /\ x_tw m = 0) ->
  snd (start eps threshold env ms st) = receive_all env (concat (map (kept_impulses env) ms)) st.
Proof. exact start_exact. Qed.
Print Assumptions C51_kept_impulses_applied_partial.
(** A resting contact with a kept twist impulse of 1 about its vertical normal. *)
Definition twisting : manifold :=
  Manifold 0 1 tr_id tr_id 1 1 0 0 [Contact (V3 0 1 0) vzero vzero 0 true 1] 0 0 1 (V3 1 0 0) (V3 0 0 (-1)).
Lemma vlen_y : vlen (V3 0 1 0) = 1.
Proof. apply unit_len. unfold vlen2. cbn. ring. Qed.
Lemma twisting_normal : normal_sum twisting = V3 0 1 0 /\ normal_of twisting = V3 0 1 0.
Proof.
  assert (E : normal_sum twisting = V3 0 1 0) by (unfold normal_sum, twisting; cbn [x_points map e_n fold_right]; unfold vadd, vzero; cbn [vx vy vz]; f_equal; ring).
  split; [exact E |]. unfold normal_of. rewrite E, vlen_y. unfold vscale. cbn [vx vy vz]. f_equal; field.
Qed.
Theorem C51_twist_refuted : exists eps threshold env m st,
  0 < eps /\ eps <= vlen (normal_sum m) /\ unlocked (env (x_b2 m)) /\ immovable (env (x_b1 m)) /\
  cw (snd (start eps threshold env [m] st) (x_b2 m)) = V3 0 2 0 /\ cw (receive_all env (kept_impulses env m) st (x_b2 m)) = V3 0 1 0.
Proof.
  exists (1 / 100), 0, (fun b => match b with O => ground | _ => ball vzero end), twisting, (fun _ => Vel vzero vzero vzero vzero).
  destruct twisting_normal as [E1 E2]. set (env := fun b => match b with O => ground | _ => ball vzero end).
  split; [lra |]. split; [rewrite E1, vlen_y; lra |]. split; [apply ball_unlocked |]. split; [apply ground_immovable |].
  assert (M : mean (points1 twisting) = vzero /\ mean (points2 twisting) = vzero).
  { unfold mean, points1, points2, twisting. cbn [x_points map x_t1 x_t2 e_p1 e_p2 fold_right]. rewrite !origin_id, vadd_0, vscale_zero. now split. }
  destruct M as [M1 M2].
  assert (K : kept_impulses env twisting =
    opposite env twisting vzero vzero (V3 0 1 0) vzero ++ opposite env twisting vzero vzero vzero (V3 0 1 0)).
  { unfold kept_impulses. rewrite M1, M2, E2.
    replace (tangential (V3 0 1 0) (vadd (vscale (x_f1 twisting) (x_v1 twisting)) (vscale (x_f2 twisting) (x_v2 twisting)))) with vzero
      by (unfold twisting, tangential, vadd, vscale, vsub, vdot, vzero; cbn; f_equal; ring).
    change (x_tw twisting) with 1. change (x_points twisting) with [Contact (V3 0 1 0) vzero vzero 0 true 1].
    change (x_t1 twisting) with tr_id. change (x_t2 twisting) with tr_id.
    cbn [map concat existsb e_resting orb e_p1 e_p2 e_imp e_n]. now rewrite origin_id, !vscale_1, app_nil_r. }
  split.
  - rewrite start_eq; [| lra | intros m [<- | []]; rewrite E1, vlen_y; lra]. cbn [map concat]. rewrite app_nil_r, K.
    unfold extra_twist. rewrite M1, M2, E2. unfold twisting at 3 4. cbn [x_points existsb e_resting orb x_tw]. rewrite vscale_1.
    rewrite !receive_all_app. unfold receive_all, opposite. cbn [fold_left]. unfold receive. cbn [i_body twisting x_b1 x_b2 Nat.eqb i_lin i_at i_ang cw].
    unfold env, ball. cbn [r_al r_iw r_x]. rewrite !mat_vec_id. unfold vmul, vadd, vcross, vsub, vzero. cbn [vx vy vz]. f_equal; ring.
  - rewrite K, receive_all_app. unfold receive_all, opposite. cbn [fold_left]. unfold receive. cbn [i_body twisting x_b1 x_b2 Nat.eqb i_lin i_at i_ang cw].
    unfold env, ball. cbn [r_al r_iw r_x]. rewrite !mat_vec_id. unfold vmul, vadd, vcross, vsub, vzero. cbn [vx vy vz]. f_equal; ring.
Qed.
Print Assumptions C51_twist_refuted.
Example C51_not_vacuous :
  let m := Manifold 0 1 tr_id tr_id 1 1 0 0 [Contact (V3 0 1 0) vzero vzero 0 true 2] 1 1 0 (V3 1 0 0) (V3 0 0 (-1)) in
  0 < 1 / 100 /\ 1 / 100 <= vlen (normal_sum m) /\ x_tw m = 0 /\ kept_impulses balls m <> [].
Proof.
  cbv zeta. split; [lra |]. split; [| split; [reflexivity | discriminate]].
  replace (normal_sum _) with (V3 0 1 0); [rewrite vlen_y; lra |]. unfold normal_sum. cbn. unfold vadd, vzero. cbn. f_equal; ring.
Qed.

(** ** C87: bounces *)
(** Bodies of a pair that can take impulses: free to move or immovable, with a nonnegative mass and inertia, one of them not immovable. *)
Definition can_collide (env : nat -> rigid) (m : manifold) : Prop :=
  x_b1 m <> x_b2 m /\ 0 < r_im (env (x_b1 m)) + r_im (env (x_b2 m)) /\
  forall b, b = x_b1 m \/ b = x_b2 m -> 0 <= r_im (env b) /\ positive (r_iw (env b)) /\ (unlocked (env b) \/ immovable (env b)).
(** A pair with one new contact without friction. *)
Definition one_contact (m : manifold) (e : contact) : Prop := x_points m = [e] /\ frictionless m /\ e_resting e = false /\ vlen2 (e_n e) = 1.
Lemma response_positive env m e : can_collide env m -> vlen2 (e_n e) = 1 -> 0 < response_free env m e.
Proof.
  intros (_ & H & P) Hn. unfold response_free.
  destruct (P _ (or_introl eq_refl)) as (A1 & A2 & _), (P _ (or_intror eq_refl)) as (B1 & B2 & _).
  assert (X := part_nonneg (env (x_b1 m)) (vsub (pt1 m e) (r_x (env (x_b1 m)))) (e_n e) A1 A2).
  assert (Y := part_nonneg (env (x_b2 m)) (vsub (pt2 m e) (r_x (env (x_b2 m)))) (e_n e) B1 B2). lra.
Qed.
Theorem C87_bounce : forall eps threshold env split dt n m e st,
  one_contact m e -> can_collide env m -> split = true \/ e_depth e <= slop -> 0 <= threshold -> 0 <= bounciness m -> undisturbed env st ->
  let before := separation env m e st in
  let after := separation env m e (snd (contacts_step eps threshold env split dt (S n) [m] st)) in
  (before < - threshold -> after = - bounciness m * before) /\ (- threshold <= before -> after = Rmax before 0).
Proof.
  intros eps thr env split dt n m e st (Hp & Hf & Hr & Hn) C Sh Ht Hb U. cbv zeta. assert (K := response_positive env m e C Hn).
  destruct C as (Hne & _ & C). destruct (C _ (or_introl eq_refl)) as (_ & _ & F1), (C _ (or_intror eq_refl)) as (_ & _ & F2).
  rewrite (sep_same env m e _ _ (one_free eps thr env m e Hp Hf Hr Hne split dt Sh n st F1 F2 Hn K)).
  unfold after. rewrite sep_pair, response_eq, (bias_undisturbed thr env m e st U) by assumption.
  set (s := separation env m e st). set (k := response_free env m e) in *. set (B := bounciness m) in *. clearbody s k B.
  split; intros Hs.
  - destruct (rlt s (- thr)) eqn:E; [| apply rlt_false in E; lra].
    rewrite Rmax_left; [field; lra |]. apply Rmult_le_pos; [nra | left; now apply Rinv_0_lt_compat].
  - destruct (rlt s (- thr)) eqn:E; [apply rlt_true in E; lra |]. rewrite Rplus_0_r. destruct (Rle_dec s 0) as [L | L].
    + rewrite Rmax_left, Rmax_right; [field; lra | lra |]. apply Rmult_le_pos; [lra | left; now apply Rinv_0_lt_compat].
    + rewrite Rmax_right, Rmax_left; [ring | lra |]. apply Ropp_le_cancel. rewrite Ropp_0.
      replace (- (- s / k)) with (s * / k) by (field; lra). apply Rmult_le_pos; [lra | left; now apply Rinv_0_lt_compat].
Qed.
Print Assumptions C87_bounce.
(** A ball that falls on the ground with speed 2. *)
Definition falling (b : nat) : rigid := match b with O => ground | _ => ball (V3 0 (-2) 0) end.
Lemma falling_collides : can_collide falling (pair_of 0 1 0 (1 / 2) [touching (V3 0 1 0)]) /\
  one_contact (pair_of 0 1 0 (1 / 2) [touching (V3 0 1 0)]) (touching (V3 0 1 0)).
Proof.
  split; [split; [discriminate | split; [cbn; lra |]] | split; [reflexivity | split; [| split; [reflexivity |]]]].
  - intros b [-> | ->]; cbn [x_b1 x_b2 pair_of falling ground ball r_im r_iw].
    + split; [lra | split; [apply positive_zero | right; apply ground_immovable]].
    + split; [lra | split; [apply positive_id | left; apply ball_unlocked]].
  - unfold frictionless. rewrite friction_abs. unfold mixed_friction. cbn [x_mu1 x_mu2 pair_of]. rewrite Rmult_0_l. apply Rabs_R0.
  - unfold vlen2. cbn. ring.
Qed.
Lemma falling_speed : separation falling (pair_of 0 1 0 (1 / 2) [touching (V3 0 1 0)]) (touching (V3 0 1 0)) (moving falling) = -2.
Proof.
  unfold separation, point_velocity, touching, pair_of, moving. cbn [x_b1 x_b2 x_t1 x_t2 e_p1 e_p2 e_n]. rewrite origin_id.
  cbn [falling ball ground cv cw r_v r_w r_x]. unfold vdot, vsub, vadd, vcross, vzero. cbn [vx vy vz]. ring.
Qed.
Example C87_not_vacuous : let m := pair_of 0 1 0 (1 / 2) [touching (V3 0 1 0)] in
  one_contact m (touching (V3 0 1 0)) /\ can_collide falling m /\ 0 <= bounciness m /\ undisturbed falling (moving falling) /\
  separation falling m (touching (V3 0 1 0)) (moving falling) < -1 /\ forall n,
  separation falling m (touching (V3 0 1 0)) (snd (contacts_step (1 / 100) 1 falling true 1 (S n) [m] (moving falling))) = 1.
Proof.
  cbv zeta. destruct falling_collides as [A B].
  assert (C : bounciness (pair_of 0 1 0 (1 / 2) [touching (V3 0 1 0)]) = 1 / 2) by (unfold bounciness; cbn [x_e1 x_e2 pair_of]; rewrite Rmax_left; lra).
  split; [exact B | split; [exact A | split; [rewrite C; lra | split; [now split | split; [rewrite falling_speed; lra |]]]]].
  intros n. destruct (C87_bounce (1 / 100) 1 falling true 1 n _ _ (moving falling) B A (or_introl eq_refl) ltac:(lra) ltac:(rewrite C; lra) ltac:(now split)) as [D _].
  rewrite D by (rewrite falling_speed; lra). rewrite C, falling_speed. lra.
Qed.

(** ** C88: contacts never drive bodies into each other *)
Theorem C88_push_apart_partial : forall eps threshold env split dt n m e st,
  one_contact m e -> split = true \/ e_depth e <= slop -> x_b1 m <> x_b2 m ->
  (forall b, b = x_b1 m \/ b = x_b2 m -> 0 <= r_im (env b) /\ positive (r_iw (env b)) /\
     r_al (env b) = V3 1 1 1 /\ 0 <= vx (r_ll (env b)) /\ 0 <= vy (r_ll (env b)) /\ 0 <= vz (r_ll (env b))) ->
  separation env m e st <= separation env m e (snd (contacts_step eps threshold env split dt n [m] st)).
Proof.
  intros eps thr env split dt n m e st (Hp & Hf & Hr & Hn) Sh Hne C.
  destruct (one_step eps thr env m e Hp Hf Hr split dt Sh n st) as (a & A & Ha & _).
  rewrite (sep_same env m e _ _ A). unfold after. rewrite sep_pair by exact Hne.
  assert (P : forall b r, b = x_b1 m \/ b = x_b2 m -> 0 <= part (env b) r (e_n e)).
  { intros b r Hb. destruct (C b Hb) as (C1 & [_ C2] & C3 & L1 & L2 & L3). unfold part. rewrite C3, vmul_1, triple.
    specialize (C2 (vcross r (e_n e))). rewrite vdot_comm in C2.
    apply Rplus_le_le_0_compat; [| exact C2].
    destruct (e_n e) as [x y z], (r_ll (env b)) as [u v w]. unfold vdot, vmul, vscale in *. cbn [vx vy vz] in *.
    assert (0 <= r_im (env b) * u * (x * x)) by (apply Rmult_le_pos; [apply Rmult_le_pos; assumption | apply Rle_0_sqr]).
    assert (0 <= r_im (env b) * v * (y * y)) by (apply Rmult_le_pos; [apply Rmult_le_pos; assumption | apply Rle_0_sqr]).
    assert (0 <= r_im (env b) * w * (z * z)) by (apply Rmult_le_pos; [apply Rmult_le_pos; assumption | apply Rle_0_sqr]). lra. }
  assert (R : 0 <= response env m e) by (unfold response; apply Rplus_le_le_0_compat; apply P; [now left | now right]).
  assert (0 <= a * response env m e) by now apply Rmult_le_pos. lra.
Qed.
Print Assumptions C88_push_apart_partial.
Example C88_not_vacuous : let m := pair_of 0 1 0 (1 / 2) [touching (V3 0 1 0)] in
  one_contact m (touching (V3 0 1 0)) /\ x_b1 m <> x_b2 m /\
  forall b, b = x_b1 m \/ b = x_b2 m -> 0 <= r_im (falling b) /\ positive (r_iw (falling b)) /\
     r_al (falling b) = V3 1 1 1 /\ 0 <= vx (r_ll (falling b)) /\ 0 <= vy (r_ll (falling b)) /\ 0 <= vz (r_ll (falling b)).
Proof.
  cbv zeta. destruct falling_collides as [[A [_ B]] C]. split; [exact C | split; [exact A |]].
  intros b Hb. destruct (B b Hb) as (B1 & B2 & _). split; [exact B1 | split; [exact B2 |]].
  destruct Hb as [-> | ->]; cbn; repeat split; lra.
Qed.
(** A body that may turn about the x axis only hits the ground with speed 1 beside its centre. *)
Definition hinged : rigid := Rigid 1 (mk_mat (11 / 2) (9 / 2) 0 (9 / 2) (11 / 2) 0 0 0 1) (V3 1 1 1) (V3 1 0 0) vzero (V3 0 0 (-1)) vzero.
Definition hinged_scene (b : nat) : rigid := match b with O => ground | _ => hinged end.
Definition beside : contact := Contact (V3 0 0 1) (V3 (3 / 2) 1 0) (V3 (3 / 2) 1 0) 0 false 0.
Lemma point_id p : tr_point tr_id p = p.
Proof. destruct p as [x y z]. unfold tr_point, tr_id, quat_vec, quat_id, vzero, vadd. cbn. f_equal; ring. Qed.
Theorem C88_locked_axes_refuted : exists eps threshold env m e st n,
  one_contact m e /\ 0 < r_im (env (x_b2 m)) /\ positive (r_iw (env (x_b2 m))) /\ immovable (env (x_b1 m)) /\ undisturbed env st /\
  e_depth e = 0 /\ bounciness m = 0 /\
  separation env m e (snd (contacts_step eps threshold env true 1 n [m] st)) < separation env m e st /\ separation env m e st < 0.
Proof.
  exists (1 / 100), 0, hinged_scene, (pair_of 0 1 0 0 [beside]), beside, (moving hinged_scene), 1%nat.
  assert (O : one_contact (pair_of 0 1 0 0 [beside]) beside).
  { split; [reflexivity | split; [| split; [reflexivity | unfold vlen2; cbn; ring]]].
    unfold frictionless. rewrite friction_abs. unfold mixed_friction. cbn [x_mu1 x_mu2 pair_of]. rewrite Rmult_0_l. apply Rabs_R0. }
  split; [exact O |]. split; [cbn; lra |]. split.
  { cbn [x_b2 pair_of hinged_scene hinged r_iw]. split; [reflexivity |]. intros [x y z]. unfold vdot, mat_vec, mk_mat. cbn.
    match goal with |- 0 <= ?t => replace t with (9 / 2 * ((x + y) * (x + y)) + x * x + y * y + z * z) by field end.
    assert (0 <= (x + y) * (x + y)) by apply Rle_0_sqr. assert (0 <= x * x) by apply Rle_0_sqr. assert (0 <= y * y) by apply Rle_0_sqr.
    assert (0 <= z * z) by apply Rle_0_sqr. lra. }
  split; [apply ground_immovable |]. split; [now split |]. split; [reflexivity |]. split; [unfold bounciness; cbn [x_e1 x_e2 pair_of]; apply Rmax_left; lra |].
  destruct O as (Hp & Hf & Hr & Hn).
  assert (S0 : separation hinged_scene (pair_of 0 1 0 0 [beside]) beside (moving hinged_scene) = -1).
  { unfold separation, point_velocity, beside, pair_of, moving. cbn [x_b1 x_b2 x_t1 x_t2 e_p1 e_p2 e_n]. rewrite point_id.
    cbn [hinged_scene hinged ground cv cw r_v r_w r_x]. unfold vdot, vsub, vadd, vcross, vzero. cbn [vx vy vz]. ring. }
  split; [| rewrite S0; lra].
  destruct (one_step (1 / 100) 0 hinged_scene _ _ Hp Hf Hr true 1 (or_introl eq_refl) 1 (moving hinged_scene)) as (a & A & _ & E).
  rewrite (sep_same _ _ _ _ _ A). unfold after. rewrite sep_pair by discriminate.
  assert (R : response hinged_scene (pair_of 0 1 0 0 [beside]) beside = - (1 / 4)).
  { unfold response, pt1, pt2, beside, pair_of. cbn [x_b1 x_b2 x_t1 x_t2 e_p1 e_p2 e_n]. rewrite point_id. unfold part.
    cbn [hinged_scene hinged ground r_ll r_al r_im r_iw r_x]. unfold mat_zero, mk_mat. unfold vdot, vsub, vadd, vcross, vmul, vscale, vzero, mat_vec. cbn. field. }
  assert (F : response_free hinged_scene (pair_of 0 1 0 0 [beside]) beside = 43 / 8).
  { unfold response_free, pt1, pt2, beside, pair_of. cbn [x_b1 x_b2 x_t1 x_t2 e_p1 e_p2 e_n]. rewrite point_id. unfold part_free.
    cbn [hinged_scene hinged ground r_ll r_al r_im r_iw r_x]. unfold mat_zero, mk_mat. unfold vdot, vsub, vadd, vcross, vmul, vscale, vzero, mat_vec. cbn. field. }
  assert (0 < a).
  { rewrite E. cbn [Nat.iter nat_rect]. rewrite after_zero. unfold next. rewrite F, S0, (bias_undisturbed _ _ _ _ (moving hinged_scene)) by now split.
    rewrite S0. unfold inverse_if_positive. destruct (rlt 0 (43 / 8)) eqn:G; [| apply rlt_false in G; lra].
    destruct (rlt (-1) (- 0)) eqn:G'; [| apply rlt_false in G'; lra]. replace (bounciness _) with 0 by (unfold bounciness; cbn [x_e1 x_e2 pair_of]; rewrite Rmax_left; lra).
    rewrite Rmax_left; lra. }
  rewrite R. lra.
Qed.
Print Assumptions C88_locked_axes_refuted.
