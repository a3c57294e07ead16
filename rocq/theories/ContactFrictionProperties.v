(** Friction cone, penetration and rest in the contact solver (C91-C93). *)
From Coq Require Import List Reals Lra Psatz Bool Arith.
From Verif Require Import VecModel VecProofs LinAlgProperties ContactModel ContactSpec ContactProofs ContactLawProofs ContactBounceProofs ContactEvalProofs ContactProperties ContactLawProperties.
Import ListNotations.
Local Open Scope R_scope.

(** ** C91: Coulomb's law *)
(** The friction impulse a manifold keeps. *)
Definition friction_impulse (m : manifold) : vec3 := vadd (vscale (x_f1 m) (x_v1 m)) (vscale (x_f2 m) (x_v2 m)).
Lemma frame_length n t a b : vlen2 n = 1 -> vlen2 t = 1 -> vdot t n = 0 ->
  vdot (vadd (vscale a t) (vscale b (vcross n t))) n = 0 /\ vlen2 (vadd (vscale a t) (vscale b (vcross n t))) = a * a + b * b.
Proof.
  intros Hn Ht Ho. destruct (cross_unit n t Hn Ht Ho) as (A & B & C). split.
  - rewrite vdot_vadd_l, !vdot_vscale_l, Ho, B. ring.
  - rewrite vlen2_dot, vdot_vadd_l, !vdot_vadd_r, !vdot_vscale_l, !vdot_vscale_r, (vdot_comm t (vcross n t)), C, <- !vlen2_dot, A, Ht. ring.
Qed.
Lemma abs_le_sqr a b : Rabs a <= b -> a * a <= b * b.
Proof. intros H. assert (E := Rabs_pos a). rewrite <- (Rabs_pos_eq (a * a)) by apply Rle_0_sqr. rewrite Rabs_mult. nra. Qed.
Theorem C91_friction_partial : forall eps threshold env split dt n ms st ms' st',
  0 < eps -> contacts_step eps threshold env split dt (S n) ms st = (ms', st') ->
  Forall2 (fun m m' => eps <= vlen (normal_sum m) ->
    vdot (friction_impulse m') (normal_of m) = 0 /\ vlen (friction_impulse m') <= sqrt 2 * (friction_of m * pushing m')) ms ms'.
Proof.
  intros eps thr env split dt n ms st ms' st' He E. unfold contacts_step in E.
  assert (A := start_shape eps thr env ms st). destruct (start eps thr env ms st) as [l st1]. cbn [fst] in A.
  assert (B := iterate_shape eps thr env ms (S n) split dt l st1 A).
  assert (C := iterate_bounded (S n) split dt l st1 (or_intror (Nat.lt_0_succ n))).
  destruct (iterate (S n) split dt l st1) as [l' st2]. cbn [fst] in B, C. injection E as <- <-.
  clear - He B C. induction B as [| m k ms l Hk B IH]; [constructor |].
  apply Forall_inv in C as Ck. apply Forall_inv_tail in C. cbn [combine map]. constructor; [| now apply IH].
  intros Hs. destruct (stored_pushing eps thr env m k Hk) as [E1 E2]. destruct Ck as (_ & C2 & C3 & _).
  assert (Hn : vlen2 (normal_of m) = 1) by (apply normal_unit; lra).
  assert (T : vlen2 (tan1 eps thr env m) = 1 /\ vdot (tan1 eps thr env m) (normal_of m) = 0).
  { rewrite <- (nrm_eq eps thr env m Hs) in Hn |- *. apply tangent_frame; [lra | exact Hn]. }
  destruct T as [T1 T2].
  assert (F : friction_impulse (store_manifold m k) = vadd (vscale (k_f1 k) (tan1 eps thr env m)) (vscale (k_f2 k) (vcross (normal_of m) (tan1 eps thr env m)))).
  { destruct Hk as (f1 & f2 & tw & l0 & -> & _). unfold friction_impulse, store_manifold. cbn [x_f1 x_f2 x_v1 x_v2 with_state k_f1 k_f2 k_t1 k_t2].
    change (k_t1 (init_manifold eps thr env m)) with (tan1 eps thr env m).
    change (k_t2 (init_manifold eps thr env m)) with (vcross (nrm eps thr env m) (tan1 eps thr env m)). now rewrite nrm_eq. }
  rewrite F. destruct (frame_length _ _ (k_f1 k) (k_f2 k) Hn T1 T2) as [G1 G2]. split; [exact G1 |].
  assert (Q : sum_imp (k_points k) = pushing (store_manifold m k)) by (rewrite pushing_map, <- E1; apply sum_imp_map).
  rewrite E2, <- friction_abs, Q in C2, C3. unfold vlen. rewrite G2. set (b := friction_of m * pushing (store_manifold m k)) in *.
  assert (Hb : 0 <= b) by (eapply Rle_trans; [apply Rabs_pos | exact C2]).
  replace (sqrt 2 * b) with (sqrt (2 * (b * b))) by (rewrite sqrt_mult, sqrt_square; nra).
  apply sqrt_le_1_alt. apply abs_le_sqr in C2, C3. lra.
Qed.
Print Assumptions C91_friction_partial.
Example C91_not_vacuous : let m := pair_of 0 1 1 0 [touching (V3 0 1 0)] in 0 < 1 / 100 /\ 1 / 100 <= vlen (normal_sum m) /\
  exists ms' st', contacts_step (1 / 100) 0 falling true 1 10 [m] (moving falling) = (ms', st').
Proof.
  cbv zeta. split; [lra | split].
  - replace (normal_sum _) with (V3 0 1 0); [rewrite vlen_y; lra |]. unfold normal_sum, pair_of, touching. cbn. unfold vadd, vzero. cbn. f_equal; ring.
  - destruct (contacts_step _ _ _ _ _ _ _ _) as [a b]. now exists a, b.
Qed.
(** A ball that moved along x over the ground and was pushed hard in x and z in this update. *)
Definition pushed (b : nat) : rigid := match b with O => ground | _ => ball (V3 1 0 0) end.
Definition pushed_now : velocities := fun b => match b with O => Vel vzero vzero vzero vzero | _ => Vel (V3 10 (-1) 10) vzero vzero vzero end.
Definition gliding : manifold := pair_of 0 1 1 0 [touching (V3 0 1 0)].
Theorem C91_friction_cone_refuted : exists eps threshold env m st m' st' n,
  can_collide env m /\ fresh m /\ (forall e, In e (x_points m) -> vlen2 (e_n e) = 1 /\ e_depth e = 0) /\ friction_of m = 1 /\
  contacts_step eps threshold env true 1 n [m] st = ([m'], st') /\ friction_of m * pushing m' < vlen (friction_impulse m').
Proof.
  assert (P1 : pt1 gliding (touching (V3 0 1 0)) = vzero) by apply origin_id. assert (P2 : pt2 gliding (touching (V3 0 1 0)) = vzero) by apply origin_id.
  destruct (single_points gliding _ eq_refl) as [F1 F2]. rewrite P1 in F1. rewrite P2 in F2.
  destruct (tangents 0 pushed gliding (touching (V3 0 1 0)) 0 eq_refl eq_refl) as [T1 T2].
  { rewrite P1, P2. unfold relative, vsub, vadd, vcross, vzero. cbn. f_equal; ring. }
  assert (Mu : mixed_friction gliding = 1) by (unfold mixed_friction; cbn; ring).
  assert (Sep : separation pushed gliding (touching (V3 0 1 0)) pushed_now = -1).
  { unfold separation, point_velocity. fold (pt1 gliding (touching (V3 0 1 0))) (pt2 gliding (touching (V3 0 1 0))). rewrite P1, P2. unfold vdot, vsub, vadd, vcross, vzero. cbn. ring. }
  assert (Bias : bias_of 0 pushed gliding (touching (V3 0 1 0)) = 0).
  { rewrite (bias_undisturbed 0 pushed gliding _ (moving pushed)) by now split.
    assert (S0 : separation pushed gliding (touching (V3 0 1 0)) (moving pushed) = 0).
    { unfold separation, point_velocity. fold (pt1 gliding (touching (V3 0 1 0))) (pt2 gliding (touching (V3 0 1 0))). rewrite P1, P2. unfold vdot, vsub, vadd, vcross, vzero. cbn. ring. }
    rewrite S0. destruct (rlt 0 (- 0)) eqn:G; [apply rlt_true in G; lra | reflexivity]. }
  assert (Res : response_free pushed gliding (touching (V3 0 1 0)) = 1).
  { unfold response_free. rewrite P1, P2. unfold part_free. cbn [gliding pair_of x_b1 x_b2 pushed ground ball r_iw r_x r_im]. rewrite mat_vec_id, mat_zero_vec.
    unfold vdot, vsub, vadd, vcross, vzero. cbn. ring. }
  assert (Inv : inverse_if_positive 1 = 1) by (unfold inverse_if_positive; destruct (rlt 0 1) eqn:G; [field | apply rlt_false in G; lra]).
  assert (L : next 0 pushed gliding (touching (V3 0 1 0)) 0 pushed_now = 1) by (unfold next; rewrite Sep, Res, Inv, Bias, Rmax_left; lra).
  assert (Fm : forall t, vlen2 t = 1 -> inverse_if_positive (friction_mass ground (ball (V3 1 0 0)) (vsub vzero vzero) (vsub vzero vzero) t) = 1).
  { intros t Ht. rewrite <- Inv. f_equal. unfold friction_mass. cbn [ground ball r_im r_iw]. rewrite mat_vec_id, mat_zero_vec. clear Ht. vsolve. }
  assert (I1 : k_inv1 (init_manifold (1 / 100) 0 pushed gliding) = 1).
  { change (k_inv1 (init_manifold (1 / 100) 0 pushed gliding)) with
      (inverse_if_positive (friction_mass ground (ball (V3 1 0 0)) (vsub (fp1 gliding) vzero) (vsub (fp2 gliding) vzero) (tan1 (1 / 100) 0 pushed gliding))).
    rewrite F1, F2, T1. apply Fm. unfold vlen2. cbn. ring. }
  assert (I2 : k_inv2 (init_manifold (1 / 100) 0 pushed gliding) = 1).
  { change (k_inv2 (init_manifold (1 / 100) 0 pushed gliding)) with
      (inverse_if_positive (friction_mass ground (ball (V3 1 0 0)) (vsub (fp1 gliding) vzero) (vsub (fp2 gliding) vzero) (tan2 (1 / 100) 0 pushed gliding))).
    rewrite F1, F2, T2. apply Fm. unfold vlen2. cbn. ring. }
  set (s1 := after pushed gliding (touching (V3 0 1 0)) 1 pushed_now).
  assert (V : cw (s1 0%nat) = vzero /\ cw (s1 1%nat) = vzero /\ cv (s1 0%nat) = vzero /\ cv (s1 1%nat) = V3 10 0 10).
  { unfold s1, after. rewrite P1, P2. unfold receive_all, opposite, receive. cbn [fold_left i_body gliding pair_of x_b1 x_b2 Nat.eqb cv cw i_lin i_at i_ang pushed ground ball r_al r_ll r_im r_iw r_x pushed_now].
    rewrite mat_vec_id, mat_zero_vec. unfold vadd, vmul, vscale, vneg, vcross, vsub, vzero. cbn. repeat split; f_equal; field. }
  assert (Sl1 : slide pushed gliding (V3 1 0 0) s1 = 10).
  { unfold slide, point_velocity. rewrite F1, F2. destruct V as (A1 & A2 & A3 & A4). cbn [gliding pair_of x_b1 x_b2].
    rewrite A1, A2, A3, A4. unfold vdot, vsub, vadd, vcross, vzero. cbn. ring. }
  set (s2 := rub pushed gliding (V3 1 0 0) (-1) s1).
  assert (Sl2 : slide pushed gliding (V3 0 0 (-1)) s2 = -10).
  { unfold slide, point_velocity, s2, rub. rewrite F1, F2. unfold receive_all, opposite, receive. cbn [fold_left i_body gliding pair_of x_b1 x_b2 Nat.eqb cv cw i_lin i_at i_ang].
    destruct V as (A1 & A2 & A3 & A4). rewrite A1, A2, A3, A4. cbn [pushed ground ball r_al r_ll r_im r_iw r_x]. rewrite mat_vec_id, mat_zero_vec.
    unfold vdot, vsub, vadd, vmul, vscale, vneg, vcross, vzero. cbn. ring. }
  assert (Q := one_iteration (1 / 100) 0 pushed gliding (touching (V3 0 1 0)) true 1 eq_refl eq_refl (or_introl eq_refl) pushed_now 1 s1 (-1) s2 1).
  edestruct Q as (b' & A & _); clear Q.
  { now rewrite L. }
  { reflexivity. }
  { rewrite T1, Sl1, I1, Mu. unfold clamp_to. rewrite Rmin_left, Rmax_left; lra. }
  { now rewrite T1. }
  { rewrite T2, Sl2, I2, Mu. unfold clamp_to. rewrite Rmin_right, Rmax_right; lra. }
  { reflexivity. }
  { reflexivity. }
  destruct (contacts_step (1 / 100) 0 pushed true 1 1 [gliding] pushed_now) as [ms' st'] eqn:E. cbn [fst] in A. subst ms'.
  exists (1 / 100), 0, pushed, gliding, pushed_now. eexists. exists st', 1%nat.
  assert (Fr : friction_of gliding = 1) by (rewrite friction_abs, Mu; apply Rabs_R1).
  split; [| split; [now intros e [<- | []] | split; [| split; [exact Fr | split; [exact E |]]]]].
  { split; [discriminate | split; [cbn; lra |]]. intros b [-> | ->]; cbn [x_b1 x_b2 gliding pair_of pushed ground ball r_im r_iw].
    + split; [lra | split; [apply positive_zero | right; apply ground_immovable]].
    + split; [lra | split; [apply positive_id | left; apply ball_unlocked]]. }
  { intros e [<- | []]. split; [unfold vlen2; cbn; ring | reflexivity]. }
  rewrite Fr. unfold friction_impulse, pushing, store_manifold, gliding at 1, pair_of.
  cbn [x_points x_f1 x_f2 x_v1 x_v2 with_state k_f1 k_f2 k_t1 k_t2 k_points combine map store_contact with_imp p_imp e_imp fold_right].
  fold gliding. change (k_t1 (init_manifold (1 / 100) 0 pushed gliding)) with (tan1 (1 / 100) 0 pushed gliding).
  change (k_t2 (init_manifold (1 / 100) 0 pushed gliding)) with (tan2 (1 / 100) 0 pushed gliding). rewrite T1, T2. unfold vlen.
  replace (vlen2 _) with 2 by (unfold vlen2, vadd, vscale; cbn; ring). change (x_points gliding) with [touching (V3 0 1 0)].
  cbn [combine map store_contact with_imp p_imp e_imp fold_right]. rewrite Rmult_1_l, Rplus_0_r, <- sqrt_1. apply sqrt_lt_1; lra.
Qed.
Print Assumptions C91_friction_cone_refuted.

(** ** C92: correcting penetration does not give bodies speed *)
Theorem C92_depth_gives_no_speed : forall eps threshold env dt n ms ms' st st',
  Forall2 alike ms ms' -> moving_alike st st' ->
  Forall2 alike (fst (contacts_step eps threshold env true dt n ms st)) (fst (contacts_step eps threshold env true dt n ms' st')) /\
  moving_alike (snd (contacts_step eps threshold env true dt n ms st)) (snd (contacts_step eps threshold env true dt n ms' st')).
Proof. exact step_rel. Qed.
Print Assumptions C92_depth_gives_no_speed.
Example C92_not_vacuous : alike (pair_of 0 1 1 1 [Contact (V3 0 1 0) vzero vzero 5 true 1]) (pair_of 0 1 1 1 [Contact (V3 0 1 0) vzero vzero 0 true 1]).
Proof. eexists. split; [reflexivity |]. constructor; [now exists 0 | constructor]. Qed.

(** ** C93: bodies at rest stay at rest *)
Definition unloaded (m : manifold) : Prop := x_f1 m = 0 /\ x_f2 m = 0 /\ x_tw m = 0 /\ forall e, In e (x_points m) -> e_imp e = 0.
Theorem C93_rest : forall eps threshold env split dt n ms st,
  (forall m, In m ms -> unloaded m /\ (forall e, In e (x_points m) -> split = true \/ e_depth e <= slop) /\
     forall b, b = x_b1 m \/ b = x_b2 m -> cv (st b) = vzero /\ cw (st b) = vzero /\ r_v (env b) = vzero /\ r_w (env b) = vzero) ->
  moving_alike (snd (contacts_step eps threshold env split dt n ms st)) st /\
  forall m', In m' (fst (contacts_step eps threshold env split dt n ms st)) -> unloaded m'.
Proof.
  intros eps thr env split dt n ms st H. apply (still_step eps thr env split dt st n ms).
  intros m Hm. destruct (H m Hm) as (A & B & C). split; [exact A | split; [exact C | exact B]].
Qed.
Print Assumptions C93_rest.
Example C93_not_vacuous : let m := pair_of 0 1 1 1 [touching (V3 0 1 0); touching (V3 0 1 0)] in
  unloaded m /\ (forall e, In e (x_points m) -> true = true \/ e_depth e <= slop) /\
  forall b, b = x_b1 m \/ b = x_b2 m -> cv (moving (fun _ => ball vzero) b) = vzero /\ cw (moving (fun _ => ball vzero) b) = vzero /\ r_v (ball vzero) = vzero /\ r_w (ball vzero) = vzero.
Proof.
  cbv zeta. split; [split; [reflexivity | split; [reflexivity | split; [reflexivity |]]]; now intros e [<- | [<- | []]] |].
  split; [now left |]. intros b _. now repeat split.
Qed.
