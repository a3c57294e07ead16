(** Conservation laws, bounds on the accumulated impulses and the effect of warm starting. *)
From Coq Require Import List Reals Lra Psatz Bool Arith FunctionalExtensionality.
From Verif Require Import VecModel VecProofs LinAlgProperties ContactModel ContactSpec ContactProofs.
Import ListNotations.
Local Open Scope R_scope.

(** ** Sums over bodies *)
Lemma vadd_0 a : vadd a vzero = a. Proof. vsolve. Qed.
Lemma vadd_0_l a : vadd vzero a = a. Proof. vsolve. Qed.
Lemma vadd_comm a b : vadd a b = vadd b a. Proof. vsolve. Qed.
Lemma vadd_assoc a b c : vadd a (vadd b c) = vadd (vadd a b) c. Proof. vsolve. Qed.
Lemma total_ext f g l : (forall i, In i l -> f i = g i) -> total f l = total g l.
Proof. induction l as [| i l IH]; intros H; [reflexivity |]. cbn [total]. rewrite (H i), IH; auto; [intros; apply H; now right | now left]. Qed.
Lemma rtotal_ext f g l : (forall i, In i l -> f i = g i) -> rtotal f l = rtotal g l.
Proof. induction l as [| i l IH]; intros H; [reflexivity |]. cbn [rtotal]. rewrite (H i), IH; auto; [intros; apply H; now right | now left]. Qed.
Lemma total_update f f' i d l : NoDup l -> (forall k, k <> i -> f' k = f k) -> f' i = vadd (f i) d ->
  total f' l = vadd (total f l) (if in_dec Nat.eq_dec i l then d else vzero).
Proof.
  intros N H1 H2. induction N as [| k l Hk N IH]; [symmetry; apply vadd_0 |]. cbn [total]. rewrite IH.
  destruct (Nat.eq_dec k i) as [-> | Hki].
  - rewrite H2. destruct (in_dec Nat.eq_dec i l) as [Hi | _]; [contradiction |].
    destruct (in_dec Nat.eq_dec i (i :: l)) as [_ | Hi]; [| exfalso; apply Hi; now left]. clear. generalize (f i) (total f l). vsolve.
  - rewrite (H1 k Hki). destruct (in_dec Nat.eq_dec i l) as [Hi | Hi].
    + destruct (in_dec Nat.eq_dec i (k :: l)) as [_ | Hi']; [apply vadd_assoc | exfalso; apply Hi'; now right].
    + destruct (in_dec Nat.eq_dec i (k :: l)) as [[He | Hi'] | _]; [congruence | contradiction | apply vadd_assoc].
Qed.
Lemma rtotal_update f f' i d l : NoDup l -> (forall k, k <> i -> f' k = f k) -> f' i = f i + d ->
  rtotal f' l = rtotal f l + (if in_dec Nat.eq_dec i l then d else 0).
Proof.
  intros N H1 H2. induction N as [| k l Hk N IH]; [cbn; ring |]. cbn [rtotal]. rewrite IH.
  destruct (Nat.eq_dec k i) as [-> | Hki].
  - rewrite H2. destruct (in_dec Nat.eq_dec i l) as [Hi | _]; [contradiction |].
    destruct (in_dec Nat.eq_dec i (i :: l)) as [_ | Hi]; [ring | exfalso; apply Hi; now left].
  - rewrite (H1 k Hki). destruct (in_dec Nat.eq_dec i l) as [Hi | Hi].
    + destruct (in_dec Nat.eq_dec i (k :: l)) as [_ | Hi']; [ring | exfalso; apply Hi'; now right].
    + destruct (in_dec Nat.eq_dec i (k :: l)) as [[He | Hi'] | _]; [congruence | contradiction | ring].
Qed.
Lemma receive_other env i st k : k <> i_body i -> receive env i st k = st k.
Proof. intros H. unfold receive. destruct (Nat.eqb_spec k (i_body i)); [contradiction | reflexivity]. Qed.
Lemma receive_same env b lin at_ ang st : receive env (Impulse b lin at_ ang) st b =
  Vel (vadd (cv (st b)) (vmul (r_ll (env b)) (vscale (r_im (env b)) lin)))
      (vadd (cw (st b)) (vmul (r_al (env b)) (mat_vec (r_iw (env b)) (vadd (vcross at_ lin) ang)))) (sv (st b)) (sw (st b)).
Proof. unfold receive. cbn [i_body i_lin i_at i_ang]. now rewrite Nat.eqb_refl. Qed.

(** ** Linear momentum *)
Definition movable (env : nat -> rigid) (bodies : list nat) : Prop := forall i, In i bodies -> 0 < r_im (env i) /\ unlocked (env i).
Lemma mass_impulse m im v lin : m * im = 1 -> vscale m (vadd v (vmul (V3 1 1 1) (vscale im lin))) = vadd (vscale m v) lin.
Proof.
  intros H. destruct v as [a b c], lin as [x y z]. unfold vscale, vadd, vmul. cbn [vx vy vz].
  f_equal; [transitivity (m * a + m * im * x) | transitivity (m * b + m * im * y) | transitivity (m * c + m * im * z)]; try ring; rewrite H; ring.
Qed.
Lemma momentum_receive env bodies b lin at_ ang st : NoDup bodies -> movable env bodies ->
  momentum env bodies (receive env (Impulse b lin at_ ang) st) =
  vadd (momentum env bodies st) (if in_dec Nat.eq_dec b bodies then lin else vzero).
Proof.
  intros N M. unfold momentum. destruct (in_dec Nat.eq_dec b bodies) as [Hb | Hb].
  - rewrite (total_update (fun i => vscale (mass env i) (cv (st i))) _ b lin bodies N).
    + destruct (in_dec Nat.eq_dec b bodies); [reflexivity | contradiction].
    + intros k Hk. now rewrite receive_other.
    + rewrite receive_same. cbn [cv]. destruct (M b Hb) as [Hm [Hl _]]. rewrite Hl. apply mass_impulse. unfold mass. field. lra.
  - rewrite vadd_0. apply total_ext. intros i Hi. rewrite receive_other; [reflexivity |]. cbn [i_body]. congruence.
Qed.
Lemma momentum_pair env bodies m p1 p2 lin ang st : NoDup bodies -> movable env bodies -> inside bodies m ->
  momentum env bodies (receive_all env (opposite env m p1 p2 lin ang) st) = momentum env bodies st.
Proof.
  intros N M I. unfold receive_all, opposite. cbn [fold_left]. rewrite !momentum_receive by assumption. unfold inside in I.
  destruct (in_dec Nat.eq_dec (x_b1 m) bodies), (in_dec Nat.eq_dec (x_b2 m) bodies); try tauto; generalize (momentum env bodies st); clear; vsolve.
Qed.
Lemma split_pair env eps thr bodies m e l st : NoDup bodies -> movable env bodies -> inside bodies m ->
  split_momentum env bodies (push_split (init_manifold eps thr env m) (ipoint thr env m e) l st) = split_momentum env bodies st.
Proof.
  intros N M I.
  assert (Q : forall b d dw s st', (In b bodies -> d = vmul (vscale (r_im (env b)) s) (r_ll (env b))) ->
            split_momentum env bodies (shift_s b d dw st') = vadd (split_momentum env bodies st') (if in_dec Nat.eq_dec b bodies then s else vzero)).
  { intros b d dw s st' Hd. unfold split_momentum. destruct (in_dec Nat.eq_dec b bodies) as [Hb | Hb].
    - rewrite (total_update (fun i => vscale (mass env i) (sv (st' i))) _ b s bodies N).
      + destruct (in_dec Nat.eq_dec b bodies); [reflexivity | contradiction].
      + intros k Hk. unfold shift_s. destruct (Nat.eqb_spec k b); [contradiction | reflexivity].
      + unfold shift_s. rewrite Nat.eqb_refl. cbn [sv]. rewrite (Hd Hb). destruct (M b Hb) as [Hm [Hl _]]. rewrite Hl.
        rewrite <- (mass_impulse (mass env b) (r_im (env b))); [| unfold mass; field; lra]. f_equal. f_equal. clear. generalize (r_im (env b)). vsolve.
    - rewrite vadd_0. apply total_ext. intros i Hi. unfold shift_s. destruct (Nat.eqb_spec i b); [congruence | reflexivity]. }
  unfold push_split. rewrite (Q _ _ _ (vscale l (p_n (ipoint thr env m e)))), (Q _ _ _ (vneg (vscale l (p_n (ipoint thr env m e))))).
  - unfold init_manifold, inside in *. cbn [k_b1 k_b2].
    destruct (in_dec Nat.eq_dec (x_b1 m) bodies), (in_dec Nat.eq_dec (x_b2 m) bodies); try tauto;
      generalize (split_momentum env bodies st), (vscale l (p_n (ipoint thr env m e))); clear; vsolve.
  - intros _. unfold init_manifold. cbn [k_im1 k_b1 k_ll1]. generalize (vscale l (p_n (ipoint thr env m e))), (r_im (env (x_b1 m))), (r_ll (env (x_b1 m))). clear. vsolve.
  - intros _. reflexivity.
Qed.

(** ** Bodies that do not move *)
Lemma mat_zero_vec v : mat_vec mat_zero v = vzero. Proof. unfold mat_zero, mk_mat. vsolve. Qed.
Lemma vmul_0 a : vmul a vzero = vzero. Proof. vsolve. Qed.
Lemma vmul_0_l a : vmul vzero a = vzero. Proof. vsolve. Qed.
Lemma vscale_0 a : vscale 0 a = vzero. Proof. vsolve. Qed.
Lemma vscale_zero k : vscale k vzero = vzero. Proof. vsolve. Qed.
Lemma vneg_zero : vneg vzero = vzero. Proof. unfold vneg, vzero. cbn. f_equal; ring. Qed.
Lemma immovable_receive env i b st : immovable (env b) -> receive env i st b = st b.
Proof.
  intros [E1 E2]. unfold receive. destruct (Nat.eqb_spec b (i_body i)) as [_ | _]; [| reflexivity].
  rewrite E1, E2, mat_zero_vec, vscale_0, !vmul_0, !vadd_0. now destruct (st b).
Qed.
Lemma immovable_split env eps thr m e l st b : immovable (env b) ->
  push_split (init_manifold eps thr env m) (ipoint thr env m e) l st b = st b.
Proof.
  intros [E1 E2]. unfold push_split, shift_s, ipoint, init_point, init_manifold.
  cbn [k_b1 k_b2 k_im1 k_im2 k_ll1 k_ll2 k_al1 k_al2 p_n p_i1 p_i2].
  assert (Q : forall v, Vel (cv v) (cw v) (vadd (sv v) vzero) (vadd (sw v) vzero) = v) by (intros [v1 v2 v3 v4]; cbn [cv cw sv sw]; now rewrite !vadd_0).
  assert (Q' : forall v, Vel (cv v) (cw v) (vadd (sv v) (vneg vzero)) (vadd (sw v) (vneg vzero)) = v)
    by (intros [v1 v2 v3 v4]; cbn [cv cw sv sw]; now rewrite vneg_zero, !vadd_0).
  destruct (Nat.eqb_spec b (x_b2 m)) as [<- | H2], (Nat.eqb_spec b (x_b1 m)) as [H1 | H1]; try rewrite <- H1; try reflexivity;
    rewrite E1, E2, !mat_zero_vec, !vmul_0_l, !vscale_0, !vmul_0_l, vscale_zero, ?Q, ?Q'; reflexivity.
Qed.
Lemma pair_other env m p1 p2 lin ang st b : b <> x_b1 m -> b <> x_b2 m -> receive_all env (opposite env m p1 p2 lin ang) st b = st b.
Proof. intros H1 H2. unfold receive_all, opposite. cbn [fold_left]. now rewrite !receive_other. Qed.
Lemma split_other env eps thr m e l st b : b <> x_b1 m -> b <> x_b2 m -> push_split (init_manifold eps thr env m) (ipoint thr env m e) l st b = st b.
Proof.
  intros H1 H2. unfold push_split, shift_s, init_manifold. cbn [k_b1 k_b2].
  destruct (Nat.eqb_spec b (x_b2 m)); [contradiction |]. destruct (Nat.eqb_spec b (x_b1 m)); [contradiction | reflexivity].
Qed.

(** ** Angular momentum *)
Definition carried (env : nat -> rigid) (inertia : nat -> mat3) (bodies : list nat) : Prop :=
  forall i, In i bodies -> 0 < r_im (env i) /\ unlocked (env i) /\ inertia_is (inertia i) (env i).
Lemma carried_movable env inertia bodies : carried env inertia bodies -> movable env bodies.
Proof. intros H i Hi. destruct (H i Hi) as (A & B & _). now split. Qed.
Lemma mat_vec_inverse j k v : mat_mul j k = mat_id -> mat_vec j (mat_vec k v) = v.
Proof. intros H. now rewrite <- mat_vec_mul, H, mat_vec_id. Qed.
Lemma vmul_1 v : vmul (V3 1 1 1) v = v. Proof. vsolve. Qed.
Lemma angular_receive env inertia bodies b lin at_ ang st : NoDup bodies -> carried env inertia bodies ->
  angular_momentum env inertia bodies (receive env (Impulse b lin at_ ang) st) =
  vadd (angular_momentum env inertia bodies st)
    (if in_dec Nat.eq_dec b bodies then vadd (vcross (vadd (r_x (env b)) at_) lin) ang else vzero).
Proof.
  intros N M. unfold angular_momentum. destruct (in_dec Nat.eq_dec b bodies) as [Hb | Hb].
  - erewrite (total_update (fun i => vadd (vcross (r_x (env i)) (vscale (mass env i) (cv (st i)))) (mat_vec (inertia i) (cw (st i)))) _ b _ bodies N).
    + destruct (in_dec Nat.eq_dec b bodies); [reflexivity | contradiction].
    + intros k Hk. now rewrite receive_other.
    + rewrite receive_same. cbn [cv cw]. destruct (M b Hb) as (Hm & [Hl Ha] & _ & Hj). rewrite Hl, Ha, vmul_1.
      rewrite mat_vec_vadd, vmul_1, (mat_vec_inverse _ _ _ Hj).
      replace (vscale (mass env b) (vadd (cv (st b)) (vscale (r_im (env b)) lin))) with (vadd (vscale (mass env b) (cv (st b))) lin).
      * generalize (mat_vec (inertia b) (cw (st b))), (vscale (mass env b) (cv (st b))), (r_x (env b)). clear. vsolve.
      * rewrite <- (mass_impulse (mass env b) (r_im (env b))) by (unfold mass; field; lra). now rewrite vmul_1.
  - rewrite vadd_0. apply total_ext. intros i Hi. rewrite receive_other; [reflexivity |]. cbn [i_body]. congruence.
Qed.
Lemma angular_pair env inertia bodies m p1 p2 lin ang st : NoDup bodies -> carried env inertia bodies -> inside bodies m ->
  vcross (vsub p2 p1) lin = vzero ->
  angular_momentum env inertia bodies (receive_all env (opposite env m p1 p2 lin ang) st) = angular_momentum env inertia bodies st.
Proof.
  intros N M I C. unfold receive_all, opposite. cbn [fold_left]. rewrite !angular_receive by assumption. unfold inside in I.
  destruct (in_dec Nat.eq_dec (x_b1 m) bodies), (in_dec Nat.eq_dec (x_b2 m) bodies); try tauto.
  - transitivity (vadd (angular_momentum env inertia bodies st) (vcross (vsub p2 p1) lin)); [| rewrite C; apply vadd_0].
    generalize (angular_momentum env inertia bodies st), (r_x (env (x_b1 m))), (r_x (env (x_b2 m))). clear. vsolve.
  - now rewrite !vadd_0.
Qed.

(** ** Bounds on the accumulated impulses *)
Fixpoint sum_imp (l : list cpoint) : R := match l with [] => 0 | p :: l => p_imp p + sum_imp l end.
Definition bounded (k : constraint) : Prop :=
  (forall p, In p (k_points k) -> 0 <= p_imp p) /\
  Rabs (k_f1 k) <= Rabs (k_mu k) * sum_imp (k_points k) /\ Rabs (k_f2 k) <= Rabs (k_mu k) * sum_imp (k_points k) /\
  Rabs (k_tw k) <= Rabs (k_mu k) * sum_imp (k_points k).
Lemma clamp_bound limit x : Rabs (clamp_to limit x) <= Rabs limit.
Proof. unfold clamp_to, Rmax, Rmin, Rabs. repeat destruct (Rle_dec _ _); repeat destruct (Rcase_abs _); lra. Qed.
Lemma solve_points_sum split dt k : forall l sum st,
  snd (fst (solve_points split dt k l sum st)) = sum + sum_imp (fst (fst (solve_points split dt k l sum st))) /\
  forall p, In p (fst (fst (solve_points split dt k l sum st))) -> 0 <= p_imp p.
Proof.
  induction l as [| p l IH]; intros sum st; cbn [solve_points]; [cbn; split; [ring | easy] |].
  assert (A : 0 <= p_imp (fst (solve_point split dt k p st))) by (unfold solve_point; destruct split; cbn [fst with_imp p_imp]; apply Rmax_r).
  destruct (solve_point split dt k p st) as [p' st1]. cbn [fst] in A. destruct (IH (sum + p_imp p') st1) as [B C].
  destruct (solve_points split dt k l (sum + p_imp p') st1) as [[l' s'] st2]. cbn [fst snd sum_imp] in *. split; [lra |].
  intros q [<- | Hq]; [exact A | now apply C].
Qed.
Lemma sum_imp_nonneg l : (forall p, In p l -> 0 <= p_imp p) -> 0 <= sum_imp l.
Proof.
  induction l as [| p l IH]; intros H; cbn [sum_imp]; [lra |]. assert (A := H p (or_introl eq_refl)). assert (B := IH (fun q hq => H q (or_intror hq))). lra.
Qed.
Lemma solve_manifold_bounded split dt k st : bounded (fst (solve_manifold split dt k st)).
Proof.
  unfold solve_manifold. destruct (solve_points_sum split dt k (k_points k) 0 st) as [A B].
  destruct (solve_points split dt k (k_points k) 0 st) as [[l s] st1]. cbn [fst snd] in A, B.
  unfold solve_friction, solve_twist. cbn [fst]. unfold bounded, with_state. cbn [k_points k_f1 k_f2 k_tw k_mu].
  assert (E : Rabs (k_mu k) * sum_imp l = Rabs (k_mu k * s)).
  { rewrite A, Rplus_0_l, Rabs_mult. f_equal. symmetry. apply Rabs_right. apply Rle_ge, sum_imp_nonneg, B. }
  rewrite E. split; [exact B | repeat split; apply clamp_bound].
Qed.
Lemma each_forall (Q : constraint -> Prop) f : (forall k st, Q (fst (f k st))) -> forall l st, Forall Q (fst (each f l st)).
Proof.
  intros H. induction l as [| k l IH]; intros st; cbn [each]; [constructor |]. specialize (H k st). destruct (f k st) as [k' st1].
  specialize (IH st1). destruct (each f l st1) as [l' st2]. cbn [fst] in *. now constructor.
Qed.
Lemma iterate_bounded n split dt : forall l st, Forall bounded l \/ (0 < n)%nat -> Forall bounded (fst (iterate n split dt l st)).
Proof.
  induction n as [| n IH]; intros l st H; cbn [iterate]; [destruct H as [H | H]; [exact H | inversion H] |].
  assert (A := each_forall bounded (solve_manifold split dt) (solve_manifold_bounded split dt) l st). fold (solve split dt l st) in A.
  destruct (solve split dt l st) as [l' st']. cbn [fst] in A. apply IH. now left.
Qed.
(** The stored manifolds. *)
Lemma stored_pushing eps thr env m k : of_manifold eps thr env m k ->
  map p_imp (k_points k) = map e_imp (x_points (store_manifold m k)) /\ k_mu k = mixed_friction m.
Proof.
  intros (f1 & f2 & tw & l & -> & F & _). split; [| reflexivity]. unfold store_manifold, with_state. cbn [x_points k_points].
  induction F as [| e p es l H F IH]; [reflexivity |]. cbn [combine map]. now rewrite IH.
Qed.
Lemma sum_imp_map l : sum_imp l = fold_right Rplus 0 (map p_imp l).
Proof. induction l as [| p l IH]; [reflexivity |]. cbn [sum_imp map fold_right]. now rewrite IH. Qed.
Lemma pushing_map m : pushing m = fold_right Rplus 0 (map e_imp (x_points m)).
Proof. unfold pushing. induction (x_points m) as [| p l IH]; [reflexivity |]. cbn [map fold_right]. now rewrite IH. Qed.
Lemma friction_abs m : friction_of m = Rabs (mixed_friction m).
Proof.
  unfold friction_of, mixed_friction. replace (x_mu1 m * x_mu1 m * (x_mu2 m * x_mu2 m)) with (Rsqr (x_mu1 m * x_mu2 m)) by (unfold Rsqr; ring).
  apply sqrt_Rsqr_abs.
Qed.

(** ** Warm starting *)
Lemma receive_all_app env l l' st : receive_all env (l ++ l') st = receive_all env l' (receive_all env l st).
Proof. apply fold_left_app. Qed.
Lemma merge_v ll im l1 l2 v : vadd (vadd v (vmul ll (vscale im l1))) (vmul ll (vscale im l2)) = vadd v (vmul ll (vscale im (vadd l1 l2))).
Proof. vsolve. Qed.
Lemma merge_w al I a l1 l2 a1 a2 w : vadd (vadd w (vmul al (mat_vec I (vadd (vcross a l1) a1)))) (vmul al (mat_vec I (vadd (vcross a l2) a2))) =
  vadd w (vmul al (mat_vec I (vadd (vcross a (vadd l1 l2)) (vadd a1 a2)))).
Proof. vsolve. Qed.
Lemma receive_merge env b at_ l1 a1 l2 a2 st :
  receive env (Impulse b l2 at_ a2) (receive env (Impulse b l1 at_ a1) st) = receive env (Impulse b (vadd l1 l2) at_ (vadd a1 a2)) st.
Proof.
  apply functional_extensionality. intros k. destruct (Nat.eq_dec k b) as [-> | H]; [| now rewrite !receive_other].
  rewrite !receive_same. cbn [cv cw sv sw]. now rewrite merge_v, merge_w.
Qed.
Lemma vadd_swap a b c : vadd (vadd a b) c = vadd (vadd a c) b. Proof. vsolve. Qed.
Lemma receive_comm env i j st : receive env i (receive env j st) = receive env j (receive env i st).
Proof.
  apply functional_extensionality. intros k. destruct i as [bi li ai ni], j as [bj lj aj nj].
  destruct (Nat.eq_dec k bi) as [-> | H]; [destruct (Nat.eq_dec bi bj) as [<- | H'] |].
  - rewrite !receive_same. cbn [cv cw sv sw]. f_equal; apply vadd_swap.
  - rewrite receive_same, (receive_other _ (Impulse bj lj aj nj)), (receive_other _ (Impulse bj lj aj nj)), receive_same by assumption. reflexivity.
  - rewrite receive_other by assumption. destruct (Nat.eq_dec k bj) as [-> | H'].
    + rewrite !receive_same. now rewrite receive_other.
    + now rewrite !receive_other.
Qed.
Lemma vneg_vadd a b : vadd (vneg a) (vneg b) = vneg (vadd a b). Proof. vsolve. Qed.
Lemma pair_merge env m p1 p2 l1 a1 l2 a2 st :
  receive_all env (opposite env m p1 p2 l2 a2) (receive_all env (opposite env m p1 p2 l1 a1) st) =
  receive_all env (opposite env m p1 p2 (vadd l1 l2) (vadd a1 a2)) st.
Proof.
  unfold receive_all, opposite. cbn [fold_left]. rewrite (receive_comm _ (Impulse (x_b1 m) (vneg l2) _ _)), receive_merge, receive_merge.
  now rewrite !vneg_vadd.
Qed.

(** The mean points and the normal. *)
Lemma fold_total l : forall a, fold_left vadd l a = vadd a (fold_right vadd vzero l).
Proof.
  induction l as [| v l IH]; intros a; cbn [fold_left fold_right]; [symmetry; apply vadd_0 |]. rewrite IH. symmetry. apply vadd_assoc.
Qed.
Lemma vtotal_eq l : vtotal l = fold_right vadd vzero l.
Proof. unfold vtotal. rewrite fold_total. apply vadd_0_l. Qed.
Lemma vdiv_scale v k : vdiv v k = vscale (/ k) v.
Proof. destruct v as [x y z]. unfold vdiv, vscale. cbn [vx vy vz]. f_equal; unfold Rdiv; ring. Qed.
Lemma fp1_mean m : fp1 m = mean (points1 m).
Proof. unfold fp1, mean, points1, world_points. rewrite map_map, map_length, vtotal_eq, vdiv_scale. reflexivity. Qed.
Lemma fp2_mean m : fp2 m = mean (points2 m).
Proof. unfold fp2, mean, points2, world_points. rewrite map_map, map_length, vtotal_eq, vdiv_scale. reflexivity. Qed.
Lemma nrm_eq eps thr env m : eps <= vlen (normal_sum m) -> nrm eps thr env m = normal_of m.
Proof.
  intros H. unfold nrm, init_manifold. cbn [k_n]. rewrite vtotal_eq. fold (normal_sum m). unfold vnormalize.
  destruct (rlt (vlen (normal_sum m)) eps) eqn:E; [apply rlt_true in E; lra |]. unfold normal_of, vscale. f_equal; unfold Rdiv; ring.
Qed.
Lemma vlen2_unit v : vlen v <> 0 -> vlen2 (vscale (/ vlen v) v) = 1.
Proof. intros H. rewrite vlen2_vscale, <- vlen_sq. field. exact H. Qed.
Lemma normal_unit m : vlen (normal_sum m) <> 0 -> vlen2 (normal_of m) = 1.
Proof. apply vlen2_unit. Qed.
Lemma unit_len v : vlen2 v = 1 -> vlen v = 1.
Proof. intros H. unfold vlen. rewrite H. apply sqrt_1. Qed.
(** Two directions orthogonal to a unit normal. *)
Lemma tangent_frame eps dv n : 0 <= eps -> vlen2 n = 1 -> vlen2 (friction_vector1 eps dv n) = 1 /\ vdot (friction_vector1 eps dv n) n = 0.
Proof.
  intros He Hn. unfold friction_vector1. set (t := vsub dv (vscale (vdot dv n) n)).
  assert (O : vdot t n = 0).
  { unfold t. rewrite vdot_vsub_l, vdot_vscale_l, <- vlen2_dot, Hn. ring. }
  destruct (rlt eps (vlen t)) eqn:E.
  - apply rlt_true in E. rewrite vdiv_scale. split; [apply vlen2_unit; lra | rewrite vdot_vscale_l, O; ring].
  - assert (L := unit_len n Hn). destruct (C71_orthogonal n) as [A B]; [lra |]. split; [| exact B].
    rewrite <- vlen_sq, A. ring.
Qed.
Lemma cross_unit n t : vlen2 n = 1 -> vlen2 t = 1 -> vdot t n = 0 -> vlen2 (vcross n t) = 1 /\ vdot (vcross n t) n = 0 /\ vdot (vcross n t) t = 0.
Proof.
  intros Hn Ht O. rewrite lagrange, Hn, Ht, (vdot_comm n t), O. split; [ring |]. split; [apply vcross_dot_l | apply vcross_dot_r].
Qed.
Lemma frame_complete n t v : vlen2 n = 1 -> vlen2 t = 1 -> vdot t n = 0 ->
  vadd (vscale (vdot v t) t) (vscale (vdot v (vcross n t)) (vcross n t)) = tangential n v.
Proof.
  intros Hn Ht O. destruct (cross_unit n t Hn Ht O) as (H1 & H2 & H3).
  assert (E : forall s, vlen2 s = 1 -> vdot s n = 0 -> vdot s t = 0 ->
            vadd (vadd (vscale (vdot v n) n) (vscale (vdot v t) t)) (vscale (vdot v s) s) = v).
  { intros s S1 S2 S3. set (m := M3 n t s).
    assert (A : mat_mul m (mat_transpose m) = mat_id).
    { apply mat3_eq; unfold mat_mul, mat_transpose, mat_id, mk_mat, m, m00, m01, m02, m10, m11, m12, m20, m21, m22; cbn [row0 row1 row2 vx vy vz];
      unfold vlen2, vdot in *; lra. }
    assert (D : mat_det m <> 0).
    { intros D. assert (D' := f_equal mat_det A). rewrite mat_det_mul, D in D'.
      replace (mat_det mat_id) with 1 in D' by (unfold mat_det, mat_id, mk_mat, m00, m01, m02, m10, m11, m12, m20, m21, m22; cbn; ring). lra. }
    assert (B : mat_mul (mat_transpose m) m = mat_id).
    { transitivity (mat_mul (mat_inverse m) m); [f_equal | now apply mat_inverse_l].
      rewrite <- (mat_mul_id_l (mat_transpose m)), <- (mat_inverse_l m D), <- mat_mul_assoc, A. apply mat_mul_id_r. }
    transitivity (mat_vec (mat_mul (mat_transpose m) m) v); [| rewrite B; apply mat_vec_id].
    rewrite mat_vec_mul. unfold mat_transpose, mk_mat, mat_vec, m, m00, m01, m02, m10, m11, m12, m20, m21, m22. cbn [row0 row1 row2 vx vy vz].
    clear. destruct n as [a b c], t as [d e f], s as [g h i], v as [x y z]. unfold vadd, vscale, vdot. cbn [vx vy vz]. f_equal; ring. }
  specialize (E (vcross n t) H1 H2 H3). unfold tangential. rewrite <- E at 3.
  generalize (vdot v n) (vdot v t) (vdot v (vcross n t)) (vcross n t). clear. vsolve.
Qed.

Section Warm.
Variables (eps thr : R) (env : nat -> rigid).
Notation init := (init_manifold eps thr env).
Definition kept_normals (m : manifold) (es : list contact) : list impulse :=
  concat (map (fun e => if e_resting e
                        then opposite env m (tr_point (x_t1 m) (e_p1 e)) (tr_point (x_t2 m) (e_p2 e)) (vscale (e_imp e) (e_n e)) vzero else []) es).
Lemma warm_points_eq m : forall es st,
  snd (warm_points (init m) (map (ipoint thr env m) es) st) = receive_all env (kept_normals m es) st /\
  snd (fst (warm_points (init m) (map (ipoint thr env m) es) st)) = existsb e_resting es.
Proof.
  induction es as [| e es IH]; intros st; cbn [map warm_points existsb]; [split; reflexivity |].
  change (p_resting (ipoint thr env m e)) with (e_resting e). unfold kept_normals. cbn [map concat]. fold (kept_normals m es).
  destruct (e_resting e).
  - rewrite push_normal_eq. change (p_imp (ipoint thr env m e)) with (e_imp e).
    specialize (IH (receive_all env (opposite env m (pt1 m e) (pt2 m e) (vscale (e_imp e) (e_n e)) vzero) st)). rewrite receive_all_app.
    destruct (warm_points (init m) (map (ipoint thr env m) es) _) as [[l' r] st']. cbn [fst snd] in *. destruct IH as [-> ->]. now split.
  - specialize (IH st). destruct (warm_points (init m) (map (ipoint thr env m) es) st) as [[l' r] st']. cbn [fst snd app] in *. destruct IH as [-> ->]. now split.
Qed.
Lemma warm_manifold_eq m st : 0 < eps -> eps <= vlen (normal_sum m) ->
  snd (warm_manifold (init m) st) =
  receive_all env (kept_impulses env m ++
    if existsb e_resting (x_points m) then opposite env m (mean (points1 m)) (mean (points2 m)) vzero (vscale (x_tw m) (normal_of m)) else []) st.
Proof.
  intros He Hn. unfold warm_manifold, kept_impulses. change (k_points (init m)) with (map (ipoint thr env m) (x_points m)).
  destruct (warm_points_eq m (x_points m) st) as [A B]. fold (kept_normals m (x_points m)).
  destruct (warm_points (init m) (map (ipoint thr env m) (x_points m)) st) as [[l r] st1]. cbn [fst snd] in A, B. subst r.
  destruct (existsb e_resting (x_points m)); cbn [snd]; [| now rewrite !app_nil_r].
  rewrite neg_twist, !receive_all_app, <- A.
  match goal with |- shift_c _ _ _ (shift_c _ _ _ (shift_c _ _ _ (shift_c _ _ (vneg (vmul _ (mat_vec _ (vscale ?x _)))) ?y))) = _ =>
    change (push_twist (init m) x (push_twist (init m) x y) = receive_all env (opposite env m (mean (points1 m)) (mean (points2 m)) vzero (vscale (x_tw m) (normal_of m)))
      (receive_all env (opposite env m (mean (points1 m)) (mean (points2 m))
         (tangential (normal_of m) (vadd (vscale (x_f1 m) (x_v1 m)) (vscale (x_f2 m) (x_v2 m)))) (vscale (x_tw m) (normal_of m))) st1)) end.
  rewrite !push_twist_eq, fp1_mean, fp2_mean, nrm_eq by assumption. change (k_tw (init m)) with (x_tw m). f_equal.
  match goal with |- receive_all _ _ (push_friction _ _ _ _ ?x ?y) = _ =>
    change (push_friction (init m) (k_t2 (init m)) (k_c12 (init m)) (k_c22 (init m)) x y)
      with (push_friction (init m) (tan2 eps thr env m) (k_c12 (init m)) (k_c22 (init m)) x y) end.
  rewrite push_friction2_eq.
  match goal with |- context [push_friction _ _ _ _ ?x ?y] =>
    change (push_friction (init m) (k_t1 (init m)) (k_c11 (init m)) (k_c21 (init m)) x y)
      with (push_friction (init m) (tan1 eps thr env m) (k_c11 (init m)) (k_c21 (init m)) x y) end.
  rewrite push_friction1_eq, fp1_mean, fp2_mean, !pair_merge.
  change (k_f1 (init m)) with (x_f1 m). change (k_f2 (init m)) with (x_f2 m). change (k_o1 (init m)) with (x_v1 m). change (k_o2 (init m)) with (x_v2 m).
  set (F := vadd (vscale (x_f1 m) (x_v1 m)) (vscale (x_f2 m) (x_v2 m))).
  assert (N : vlen2 (normal_of m) = 1) by (apply normal_unit; lra).
  assert (T : vlen2 (tan1 eps thr env m) = 1 /\ vdot (tan1 eps thr env m) (normal_of m) = 0).
  { rewrite <- (nrm_eq eps thr env m Hn). unfold tan1, init_manifold. cbn [k_t1]. apply tangent_frame; [lra |].
    change (vlen2 (nrm eps thr env m) = 1). now rewrite nrm_eq. }
  assert (T2 : tan2 eps thr env m = vcross (normal_of m) (tan1 eps thr env m)) by (rewrite <- (nrm_eq eps thr env m Hn); reflexivity).
  destruct T as [T1 O]. rewrite <- (frame_complete (normal_of m) (tan1 eps thr env m) F N T1 O).
  change (k_t1 (init m)) with (tan1 eps thr env m). change (k_t2 (init m)) with (tan2 eps thr env m). rewrite T2.
  now rewrite !vadd_0, !vadd_0_l.
Qed.
Definition extra_twist (m : manifold) : list impulse :=
  if existsb e_resting (x_points m) then opposite env m (mean (points1 m)) (mean (points2 m)) vzero (vscale (x_tw m) (normal_of m)) else [].
Lemma start_eq : 0 < eps -> forall ms st, (forall m, In m ms -> eps <= vlen (normal_sum m)) ->
  snd (start eps thr env ms st) = receive_all env (concat (map (fun m => kept_impulses env m ++ extra_twist m) ms)) st.
Proof.
  intros He. unfold start, warm_start. induction ms as [| m ms IH]; intros st H; cbn [map each concat]; [reflexivity |].
  rewrite receive_all_app. unfold extra_twist at 1. rewrite <- warm_manifold_eq by (auto; apply H; now left).
  destruct (warm_manifold (init m) st) as [k st1]. cbn [snd]. specialize (IH st1 (fun x hx => H x (or_intror hx))).
  destruct (each warm_manifold (map (init) ms) st1) as [l st2]. exact IH.
Qed.
End Warm.
Lemma no_twist env m st : x_tw m = 0 -> receive_all env (extra_twist env m) st = st.
Proof.
  intros H. unfold extra_twist. destruct (existsb e_resting (x_points m)); [| reflexivity]. rewrite H, vscale_0.
  apply functional_extensionality. intros k. unfold receive_all, opposite. cbn [fold_left].
  assert (Q : forall b at_ st', receive env (Impulse b vzero at_ vzero) st' = st').
  { intros b at_ st'. apply functional_extensionality. intros i. destruct (Nat.eq_dec i b) as [-> | Hi]; [| now rewrite receive_other].
    rewrite receive_same. replace (vadd (vcross at_ vzero) vzero) with vzero by (clear; vsolve).
    rewrite mat_vec_zero, vscale_zero, !vmul_0, !vadd_0. now destruct (st' b). }
  now rewrite vneg_zero, !Q.
Qed.
Lemma start_exact eps thr env ms st : 0 < eps -> (forall m, In m ms -> eps <= vlen (normal_sum m) /\ x_tw m = 0) ->
  snd (start eps thr env ms st) = receive_all env (concat (map (kept_impulses env) ms)) st.
Proof.
  intros He H. rewrite start_eq by (auto; intros m Hm; now apply H). revert st H.
  induction ms as [| m ms IH]; intros st H; [reflexivity |]. cbn [map concat]. rewrite !receive_all_app, no_twist by (apply H; now left).
  apply IH. intros m' Hm'. apply H. now right.
Qed.
