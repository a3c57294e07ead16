(** Response of a single contact, kinetic energy, independence of penetration depths, rest. *)
From Coq Require Import List Reals Lra Psatz Bool Arith FunctionalExtensionality.
From Verif Require Import VecModel VecProofs LinAlgProperties ContactModel ContactSpec ContactProofs ContactLawProofs.
Import ListNotations.
Local Open Scope R_scope.

Lemma receive_zero env b at_ st : receive env (Impulse b vzero at_ vzero) st = st.
Proof.
  apply functional_extensionality. intros i. destruct (Nat.eq_dec i b) as [-> | Hi]; [| now rewrite receive_other].
  rewrite receive_same. replace (vadd (vcross at_ vzero) vzero) with vzero by (clear; vsolve).
  rewrite mat_vec_zero, vscale_zero, !vmul_0, !vadd_0. now destruct (st b).
Qed.
Lemma pair_zero env m p1 p2 st : receive_all env (opposite env m p1 p2 vzero vzero) st = st.
Proof. unfold receive_all, opposite. cbn [fold_left]. now rewrite vneg_zero, !receive_zero. Qed.

Section Single.
Variables (eps thr : R) (env : nat -> rigid).
Notation init := (init_manifold eps thr env).
Notation ip := (ipoint thr env).
(** Response of the separation speed to a unit impulse, as the bodies are and as if no axis was locked. *)
Definition part (a : rigid) (r n : vec3) : R := vdot (vmul (r_ll a) (vscale (r_im a) n)) n + vdot (vcross (vmul (r_al a) (mat_vec (r_iw a) (vcross r n))) r) n.
Definition part_free (a : rigid) (r n : vec3) : R := r_im a + vdot (vcross (mat_vec (r_iw a) (vcross r n)) r) n.
Definition response (m : manifold) (e : contact) : R :=
  part (env (x_b1 m)) (vsub (pt1 m e) (r_x (env (x_b1 m)))) (e_n e) + part (env (x_b2 m)) (vsub (pt2 m e) (r_x (env (x_b2 m)))) (e_n e).
Definition response_free (m : manifold) (e : contact) : R :=
  part_free (env (x_b1 m)) (vsub (pt1 m e) (r_x (env (x_b1 m)))) (e_n e) + part_free (env (x_b2 m)) (vsub (pt2 m e) (r_x (env (x_b2 m)))) (e_n e).
Definition free (a : rigid) : Prop := unlocked a \/ immovable a.
Lemma part_eq a r n : free a -> vlen2 n = 1 -> part a r n = part_free a r n.
Proof.
  intros [[E1 E2] | [E1 E2]] Hn; unfold part, part_free.
  - rewrite E1, E2, !vmul_1, vdot_vscale_l, <- vlen2_dot, Hn. ring.
  - rewrite E1, E2, mat_zero_vec, vscale_0, !vmul_0. clear. vsolve.
Qed.
Lemma response_eq m e : free (env (x_b1 m)) -> free (env (x_b2 m)) -> vlen2 (e_n e) = 1 -> response m e = response_free m e.
Proof. intros H1 H2 Hn. unfold response, response_free. now rewrite !part_eq. Qed.
Lemma triple a r n : vdot (vcross a r) n = vdot a (vcross r n). Proof. vsolve. Qed.
Lemma part_nonneg a r n : 0 <= r_im a -> positive (r_iw a) -> r_im a <= part_free a r n.
Proof. intros Hm [_ Hp]. unfold part_free. rewrite triple, vdot_comm. specialize (Hp (vcross r n)). lra. Qed.
Lemma body_response v w im I ll al s r n :
  vdot (vadd (vadd v (vmul ll (vscale im (vscale s n)))) (vcross (vadd w (vmul al (mat_vec I (vadd (vcross r (vscale s n)) vzero)))) r)) n =
  vdot (vadd v (vcross w r)) n + s * (vdot (vmul ll (vscale im n)) n + vdot (vcross (vmul al (mat_vec I (vcross r n))) r) n).
Proof.
  replace (vadd (vcross r (vscale s n)) vzero) with (vscale s (vcross r n)) by (clear; vsolve). rewrite mat_vec_vscale.
  generalize (mat_vec I (vcross r n)). clear. vsolve.
Qed.
Lemma neg_scale l n : vneg (vscale l n) = vscale (- l) n. Proof. vsolve. Qed.
Lemma sep_pair m e l st : x_b1 m <> x_b2 m ->
  separation env m e (receive_all env (opposite env m (pt1 m e) (pt2 m e) (vscale l (e_n e)) vzero) st) = separation env m e st + l * response m e.
Proof.
  intros Hb. unfold separation, point_velocity, receive_all, opposite. cbn [fold_left].
  rewrite receive_same, (receive_other _ _ _ (x_b1 m)) by exact Hb. rewrite receive_same, (receive_other _ _ _ (x_b2 m)) by (cbn [i_body]; congruence).
  cbn [cv cw]. rewrite !vdot_vsub_l, neg_scale, vneg_zero. fold (pt1 m e) (pt2 m e). rewrite !body_response. unfold response, part. ring.
Qed.
(** What the solver computes at a point is the separation speed. *)
Lemma relative_eq v1 w1 v2 w2 r1 r2 n : vdot (relative v1 w1 v2 w2 r1 r2) n = vdot (vsub (vadd v2 (vcross w2 r2)) (vadd v1 (vcross w1 r1))) n.
Proof. unfold relative. vsolve. Qed.
Definition bias_of (m : manifold) (e : contact) : R := p_bias (ip m e).
Lemma bias_undisturbed m e st : undisturbed env st ->
  bias_of m e = if rlt (separation env m e st) (- thr) then bounciness m * separation env m e st else 0.
Proof.
  intros U. unfold bias_of, ipoint, init_point. cbn [p_bias]. rewrite !relative_eq.
  unfold separation, point_velocity. destruct (U (x_b1 m)) as [-> ->], (U (x_b2 m)) as [-> ->].
  replace (mixed_restitution (x_e1 m) (x_e2 m)) with (bounciness m); [reflexivity |].
  unfold bounciness, mixed_restitution, Rmax. destruct (rlt (x_e2 m) (x_e1 m)) eqn:E; destruct (Rle_dec (x_e1 m) (x_e2 m)); try reflexivity.
  - apply rlt_true in E. lra.
  - apply rlt_false in E. lra.
Qed.
(** Split velocities are written by the second half of a point only. *)
Definition same_c (st st' : velocities) : Prop := forall b, cv (st b) = cv (st' b) /\ cw (st b) = cw (st' b).
Lemma same_c_refl st : same_c st st. Proof. now split. Qed.
Lemma same_c_trans a b c : same_c a b -> same_c b c -> same_c a c.
Proof. intros H H' i. destruct (H i), (H' i). split; congruence. Qed.
Lemma same_c_sym a b : same_c a b -> same_c b a. Proof. intros H i. destruct (H i). now split. Qed.
Lemma push_split_same k p l st : same_c (push_split k p l st) st.
Proof.
  intros b. unfold push_split, shift_s. destruct (Nat.eqb b (k_b2 k)); destruct (Nat.eqb b (k_b1 k)); cbn [cv cw]; now split.
Qed.
Lemma receive_same_c i st st' : same_c st st' -> same_c (receive env i st) (receive env i st').
Proof. intros H b. unfold receive. destruct (H b) as [E1 E2]. destruct (Nat.eqb b (i_body i)); cbn [cv cw]; [now rewrite E1, E2 | now split]. Qed.
Lemma receive_all_same_c l : forall st st', same_c st st' -> same_c (receive_all env l st) (receive_all env l st').
Proof. induction l as [| i l IH]; intros st st' H; [exact H |]. unfold receive_all in *. cbn [fold_left]. apply IH. now apply receive_same_c. Qed.
Lemma sep_same m e st st' : same_c st st' -> separation env m e st = separation env m e st'.
Proof. intros H. unfold separation, point_velocity. destruct (H (x_b1 m)) as [-> ->], (H (x_b2 m)) as [-> ->]. reflexivity. Qed.

(** One contact point: the new impulse and the velocities. *)
Definition shallow (split : bool) (e : contact) : Prop := split = true \/ e_depth e <= slop.
Lemma solve_point_eq split dt f1 f2 tw l0 m e a b st : shallow split e ->
  let k := with_state f1 f2 tw l0 (init m) in
  let imp := Rmax (a + - (separation env m e st + bias_of m e) * inverse_if_positive (response_free m e)) 0 in
  exists b', fst (solve_point split dt k (with_imp a b (ip m e)) st) = with_imp imp b' (ip m e) /\
  same_c (snd (solve_point split dt k (with_imp a b (ip m e)) st))
         (receive_all env (opposite env m (pt1 m e) (pt2 m e) (vscale (imp - a) (e_n e)) vzero) st).
Proof.
  intros Hs k imp. unfold solve_point.
  change (p_inv (with_imp a b (ip m e))) with (p_inv (ip m e)). change (p_imp (with_imp a b (ip m e))) with a.
  change (p_bias (with_imp a b (ip m e))) with (bias_of m e). change (p_simp (with_imp a b (ip m e))) with b.
  change (p_r1 (with_imp a b (ip m e))) with (vsub (pt1 m e) (r_x (env (x_b1 m)))).
  change (p_r2 (with_imp a b (ip m e))) with (vsub (pt2 m e) (r_x (env (x_b2 m)))). change (p_n (with_imp a b (ip m e))) with (e_n e).
  change (k_b1 k) with (x_b1 m). change (k_b2 k) with (x_b2 m).
  change (push_normal k (with_imp a b (ip m e))) with (push_normal (init m) (ip m e)).
  rewrite !relative_eq. change (vdot _ (e_n e)) with (separation env m e st) at 1 2.
  replace (p_inv (ip m e)) with (inverse_if_positive (response_free m e)).
  2: { unfold ipoint, init_point. cbn [p_inv]. f_equal. unfold response_free, part_free, pt1, pt2. ring. }
  destruct split.
  - eexists. cbn [fst snd]. split; [reflexivity |]. eapply same_c_trans; [apply push_split_same |]. rewrite push_normal_eq. apply same_c_refl.
  - assert (D : depth_bias dt (with_imp a b (ip m e)) = 0).
    { unfold depth_bias. change (p_depth (with_imp a b (ip m e))) with (e_depth e). destruct (rlt slop (e_depth e)) eqn:E; [| reflexivity].
      apply rlt_true in E. destruct Hs as [Hs | Hs]; [discriminate | lra]. }
    rewrite D, Rplus_0_l. exists b. cbn [fst snd]. split; [reflexivity |]. rewrite push_normal_eq. apply same_c_refl.
Qed.

(** ** Manifolds without friction *)
Definition calm (m : manifold) (k : constraint) : Prop :=
  exists l, k = with_state 0 0 0 l (init m) /\ Forall2 (fun e p => exists a b, 0 <= a /\ p = with_imp a b (ip m e)) (x_points m) l.
Lemma mixed_zero m : frictionless m -> mixed_friction m = 0.
Proof. unfold frictionless. rewrite friction_abs. intros H. destruct (Req_dec (mixed_friction m) 0) as [E | E]; [exact E |]. apply Rabs_pos_lt in E. lra. Qed.
Lemma warm_calm m st : fresh m -> calm m (fst (warm_manifold (init m) st)) /\ snd (warm_manifold (init m) st) = st.
Proof.
  intros Hf.
  assert (A : forall es, incl es (x_points m) ->
            warm_points (init m) (map (ip m) es) st = (map (fun e => with_imp 0 0 (ip m e)) es, false, st)).
  { induction es as [| e es IH]; intros Hi; [reflexivity |]. cbn [map warm_points]. change (p_resting (ip m e)) with (e_resting e).
    rewrite (Hf e (Hi e (or_introl eq_refl))). rewrite IH by (intros x hx; apply Hi; now right). reflexivity. }
  unfold warm_manifold. change (k_points (init m)) with (map (ip m) (x_points m)). rewrite A by apply incl_refl. cbn [fst snd]. split; [| reflexivity].
  eexists. split; [reflexivity |]. clear. induction (x_points m) as [| e l IH]; constructor; [| exact IH]. exists 0, 0. split; [lra | reflexivity].
Qed.
Lemma start_calm : forall ms st, (forall m, In m ms -> fresh m) ->
  Forall2 calm ms (fst (start eps thr env ms st)) /\ snd (start eps thr env ms st) = st.
Proof.
  unfold start, warm_start. induction ms as [| m ms IH]; intros st Hf; cbn [map each]; [split; [constructor | reflexivity] |].
  destruct (warm_calm m st (Hf m (or_introl eq_refl))) as [A B]. destruct (warm_manifold (init m) st) as [k st1]. cbn [fst snd] in A, B. subst st1.
  destruct (IH st (fun x hx => Hf x (or_intror hx))) as [C D]. destruct (each warm_manifold (map init ms) st) as [l st2]. cbn [fst snd] in *.
  split; [constructor; assumption | exact D].
Qed.
Lemma calm_solve split dt m k st : frictionless m -> calm m k ->
  solve_manifold split dt k st =
  (with_state 0 0 0 (fst (fst (solve_points split dt k (k_points k) 0 st))) (init m), snd (solve_points split dt k (k_points k) 0 st)).
Proof.
  intros Hf (l & -> & F). unfold solve_manifold.
  destruct (solve_points split dt (with_state 0 0 0 l (init m)) (k_points (with_state 0 0 0 l (init m))) 0 st) as [[l' s] st1]. cbn [fst snd].
  assert (Z : k_mu (with_state 0 0 0 l (init m)) * s = 0) by (change (mixed_friction m * s = 0); rewrite mixed_zero by assumption; ring).
  rewrite Z. unfold solve_friction, solve_twist. rewrite !clamp_zero.
  change (k_f1 (with_state 0 0 0 l (init m))) with 0. change (k_f2 (with_state 0 0 0 l (init m))) with 0. change (k_tw (with_state 0 0 0 l (init m))) with 0.
  rewrite Rminus_0_r.
  match goal with |- (_, push_twist _ ?x (push_friction _ _ _ _ ?y (push_friction _ _ _ _ ?z ?s))) = _ =>
    change (push_twist (with_state 0 0 0 l (init m)) x (push_friction (with_state 0 0 0 l (init m)) (k_t2 (with_state 0 0 0 l (init m)))
              (k_c12 (with_state 0 0 0 l (init m))) (k_c22 (with_state 0 0 0 l (init m))) y
             (push_friction (with_state 0 0 0 l (init m)) (k_t1 (with_state 0 0 0 l (init m))) (k_c11 (with_state 0 0 0 l (init m))) (k_c21 (with_state 0 0 0 l (init m))) z s)))
      with (push_twist (init m) x (push_friction (init m) (tan2 eps thr env m) (k_c12 (init m)) (k_c22 (init m)) y
             (push_friction (init m) (tan1 eps thr env m) (k_c11 (init m)) (k_c21 (init m)) z s))) end.
  rewrite push_twist_eq, push_friction2_eq, push_friction1_eq, !vscale_0, !pair_zero. reflexivity.
Qed.
(** A property of the constrained velocities kept by every contact point. *)
Section CalmKeeps.
Variable P : velocities -> Prop.
Hypothesis P_same : forall st st', same_c st st' -> P st -> P st'.
Variable split : bool.
Variable dt : R.
Lemma calm_points m k : of_manifold eps thr env m k -> (forall e, In e (x_points m) -> shallow split e) ->
  (forall e a st, In e (x_points m) -> 0 <= a -> P st ->
     let imp := Rmax (a + - (separation env m e st + bias_of m e) * inverse_if_positive (response_free m e)) 0 in
     P (receive_all env (opposite env m (pt1 m e) (pt2 m e) (vscale (imp - a) (e_n e)) vzero) st)) ->
  forall es l sum st, incl es (x_points m) -> Forall2 (fun e p => exists a b, 0 <= a /\ p = with_imp a b (ip m e)) es l -> P st ->
  Forall2 (fun e p => exists a b, 0 <= a /\ p = with_imp a b (ip m e)) es (fst (fst (solve_points split dt k l sum st))) /\
  P (snd (solve_points split dt k l sum st)).
Proof.
  intros (f1 & f2 & tw & l0 & -> & _) Hs HP es l sum st Hi F. revert sum st Hi. induction F as [| e p es l (a & b & Ha & ->) F IH]; intros sum st Hi Hst; cbn [solve_points].
  - split; [constructor | exact Hst].
  - assert (He : In e (x_points m)) by (apply Hi; now left).
    destruct (solve_point_eq split dt f1 f2 tw l0 m e a b st (Hs e He)) as (b' & E1 & E2).
    destruct (solve_point split dt (with_state f1 f2 tw l0 (init m)) (with_imp a b (ip m e)) st) as [p' st1]. cbn [fst snd] in E1, E2.
    assert (Q : P st1) by (eapply P_same; [apply same_c_sym; exact E2 |]; apply HP; assumption).
    destruct (IH (sum + p_imp p') st1 (fun x hx => Hi x (or_intror hx)) Q) as [C D].
    destruct (solve_points split dt (with_state f1 f2 tw l0 (init m)) l (sum + p_imp p') st1) as [[l' s'] st2]. cbn [fst snd] in *.
    split; [| exact D]. constructor; [| exact C]. eexists _, _. split; [| exact E1]. apply Rmax_r.
Qed.
Variable ms : list manifold.
Hypothesis Hms : forall m, In m ms -> frictionless m /\ fresh m /\ forall e, In e (x_points m) -> shallow split e.
Hypothesis Hstep : forall m e a st, In m ms -> In e (x_points m) -> 0 <= a -> P st ->
     let imp := Rmax (a + - (separation env m e st + bias_of m e) * inverse_if_positive (response_free m e)) 0 in
     P (receive_all env (opposite env m (pt1 m e) (pt2 m e) (vscale (imp - a) (e_n e)) vzero) st).
Lemma calm_of m k : calm m k -> of_manifold eps thr env m k.
Proof.
  intros (l & -> & F). exists 0, 0, 0, l. split; [reflexivity |]. split; [| now split].
  induction F as [| e p es l (a & b & _ & ->) F IH]; constructor; [now exists a, b | exact IH].
Qed.
Lemma calm_each : forall ms' l st, incl ms' ms -> Forall2 calm ms' l -> P st ->
  Forall2 calm ms' (fst (solve split dt l st)) /\ P (snd (solve split dt l st)).
Proof.
  intros ms' l st Hi F. revert st Hi. unfold solve. induction F as [| m k ms' l Hk F IH]; intros st Hi Hst; cbn [each]; [split; [constructor | exact Hst] |].
  assert (Hm : In m ms) by (apply Hi; now left). destruct (Hms m Hm) as (Hf & _ & Hsh).
  rewrite (calm_solve split dt m k st Hf Hk).
  assert (F' : Forall2 (fun e p => exists a b, 0 <= a /\ p = with_imp a b (ip m e)) (x_points m) (k_points k)) by (destruct Hk as (l0 & -> & F'); exact F').
  destruct (calm_points m k (calm_of m k Hk) Hsh (fun e a st' He Ha Hst' => Hstep m e a st' Hm He Ha Hst') (x_points m) (k_points k) 0 st (incl_refl _) F' Hst) as [C D].
  destruct (solve_points split dt k (k_points k) 0 st) as [[l' s'] st1]. cbn [fst snd] in C, D |- *.
  destruct (IH st1 (fun x hx => Hi x (or_intror hx)) D) as [G H]. destruct (each (solve_manifold split dt) l st1) as [l2 st2]. cbn [fst snd] in *.
  split; [| exact H]. constructor; [| exact G]. eexists. split; [reflexivity | exact C].
Qed.
Lemma calm_iterate n : forall l st, Forall2 calm ms l -> P st ->
  Forall2 calm ms (fst (iterate n split dt l st)) /\ P (snd (iterate n split dt l st)).
Proof.
  induction n as [| n IH]; intros l st F Hst; cbn [iterate]; [now split |].
  destruct (calm_each ms l st (incl_refl _) F Hst) as [A B]. destruct (solve split dt l st) as [l' st']. now apply IH.
Qed.
Lemma calm_step n st : P st -> P (snd (contacts_step eps thr env split dt n ms st)).
Proof.
  intros Hst. unfold contacts_step. destruct (start_calm ms st) as [A B]; [intros m Hm; now apply Hms |].
  destruct (start eps thr env ms st) as [l st1]. cbn [fst snd] in A, B. subst st1.
  destruct (calm_iterate n l st A Hst) as [_ C]. destruct (iterate n split dt l st) as [l' st2]. exact C.
Qed.
End CalmKeeps.
End Single.

(** ** Kinetic energy *)
Section Energy.
Variables (env : nat -> rigid) (inertia : nat -> mat3) (bodies : list nat).
Hypothesis Hnd : NoDup bodies.
Hypothesis Hcar : carried env inertia bodies.
Lemma energy_w w u a J : symmetric J -> mat_vec J u = a ->
  vdot (vadd w u) (mat_vec J (vadd w u)) = vdot w (mat_vec J w) + 2 * vdot w a + vdot u a.
Proof.
  intros S E. rewrite mat_vec_vadd, E, vdot_vadd_l, !vdot_vadd_r.
  replace (vdot u (mat_vec J w)) with (vdot w a); [ring |].
  rewrite <- E, (vdot_comm u), mat_vec_transpose. unfold symmetric in S. rewrite S. reflexivity.
Qed.
Lemma energy_v m im v p : m * im = 1 -> m * vlen2 (vadd v (vscale im p)) = m * vlen2 v + 2 * vdot v p + im * vlen2 p.
Proof.
  intros H. destruct v as [a b c], p as [x y z]. unfold vlen2, vadd, vscale, vdot. cbn [vx vy vz].
  replace (im * (x * x + y * y + z * z)) with ((m * im) * im * (x * x + y * y + z * z)) by (rewrite H; ring).
  replace (2 * (a * x + b * y + c * z)) with (2 * (m * im) * (a * x + b * y + c * z)) by (rewrite H; ring). ring.
Qed.
Definition gain (a : rigid) (v : vel) (at_ lin : vec3) : R :=
  vdot (cv v) lin + vdot (cw v) (vcross at_ lin) + / 2 * (r_im a * vlen2 lin + vdot (mat_vec (r_iw a) (vcross at_ lin)) (vcross at_ lin)).
Definition at_rest (b : nat) (st : velocities) : Prop := cv (st b) = vzero /\ cw (st b) = vzero.
Lemma gain_rest b st at_ lin : immovable (env b) -> at_rest b st -> gain (env b) (st b) at_ lin = 0.
Proof. intros [E1 E2] [F1 F2]. unfold gain. rewrite E1, E2, F1, F2, mat_zero_vec. generalize (vcross at_ lin). clear. vsolve. Qed.
Lemma energy_receive b lin at_ st : In b bodies \/ (immovable (env b) /\ at_rest b st) ->
  energy env inertia bodies (receive env (Impulse b lin at_ vzero) st) = energy env inertia bodies st + gain (env b) (st b) at_ lin.
Proof.
  intros H. destruct (in_dec Nat.eq_dec b bodies) as [Hb | Hb].
  - clear H. unfold energy.
    erewrite (rtotal_update (fun i => / 2 * (mass env i * vlen2 (cv (st i)) + vdot (cw (st i)) (mat_vec (inertia i) (cw (st i))))) _ b
      (gain (env b) (st b) at_ lin) bodies Hnd).
    + destruct (in_dec Nat.eq_dec b bodies); [reflexivity | contradiction].
    + intros k Hk. now rewrite receive_other.
    + rewrite receive_same. cbn [cv cw]. destruct (Hcar b Hb) as (Hm & [Hl Ha] & Hs & Hj). rewrite Hl, Ha, !vmul_1, vadd_0.
      rewrite (energy_v (mass env b) (r_im (env b))) by (unfold mass; field; lra).
      rewrite (energy_w _ _ (vcross at_ lin) _ Hs) by now apply mat_vec_inverse. unfold gain. field.
  - destruct H as [H | [Hi Hr]]; [contradiction |]. rewrite gain_rest by assumption. rewrite Rplus_0_r. unfold energy. apply rtotal_ext.
    intros i Hi'. rewrite receive_other; [reflexivity |]. cbn [i_body]. congruence.
Qed.
Definition quiet (b : nat) (st : velocities) : Prop := In b bodies \/ (immovable (env b) /\ at_rest b st).
Lemma quiet_free b st : quiet b st -> free (env b).
Proof. intros [H | [H _]]; [left; now apply Hcar | now right]. Qed.
Lemma gain_pair (x1 x2 v1 v2 : vec3) (w1 w2 r1 r2 n : vec3) l a1 a2 V1 V2 : cv V1 = v1 -> cw V1 = w1 -> cv V2 = v2 -> cw V2 = w2 -> vlen2 n = 1 ->
  gain a1 V1 r1 (vneg (vscale l n)) + gain a2 V2 r2 (vscale l n) =
  l * vdot (vsub (vadd v2 (vcross w2 r2)) (vadd v1 (vcross w1 r1))) n + / 2 * l * l * (part_free a1 r1 n + part_free a2 r2 n).
Proof.
  intros <- <- <- <- Hn. unfold gain, part_free. rewrite vlen2_vneg, vlen2_vscale, Hn, !triple.
  generalize (cv V1) (cw V1) (cv V2) (cw V2) (r_im a1) (r_im a2) (r_iw a1) (r_iw a2). clear. intros u1 z1 u2 z2 i1 i2 I1 I2.
  rewrite !vdot_vsub_l, !vdot_vadd_l, !triple.
  replace (vcross r1 (vneg (vscale l n))) with (vscale (- l) (vcross r1 n)) by vsolve.
  replace (vcross r2 (vscale l n)) with (vscale l (vcross r2 n)) by vsolve.
  rewrite !mat_vec_vscale, !vdot_vscale_l, !vdot_vscale_r, vdot_vneg_r, vdot_vscale_r. ring.
Qed.
Lemma energy_pair m e l st : x_b1 m <> x_b2 m -> quiet (x_b1 m) st -> quiet (x_b2 m) st -> vlen2 (e_n e) = 1 ->
  energy env inertia bodies (receive_all env (opposite env m (pt1 m e) (pt2 m e) (vscale l (e_n e)) vzero) st) =
  energy env inertia bodies st + l * separation env m e st + / 2 * l * l * response_free env m e.
Proof.
  intros Hb Q1 Q2 Hn. unfold receive_all, opposite. cbn [fold_left]. rewrite vneg_zero.
  rewrite energy_receive.
  2: { unfold quiet, at_rest in *. rewrite receive_other by (cbn [i_body]; congruence). exact Q2. }
  rewrite energy_receive by exact Q1. rewrite receive_other by (cbn [i_body]; congruence). rewrite !Rplus_assoc.
  rewrite (gain_pair vzero vzero _ _ _ _ _ _ (e_n e) l (env (x_b1 m)) (env (x_b2 m)) (st (x_b1 m)) (st (x_b2 m)) eq_refl eq_refl eq_refl eq_refl Hn).
  unfold separation, point_velocity, response_free. fold (pt1 m e) (pt2 m e). reflexivity.
Qed.
Lemma quiet_receive b i st : quiet b st -> quiet b (receive env i st).
Proof. intros [H | [H H']]; [now left | right; split; [exact H |]]. unfold at_rest in *. now rewrite immovable_receive. Qed.
Lemma quiet_all b l : forall st, quiet b st -> quiet b (receive_all env l st).
Proof. induction l as [| i l IH]; intros st H; [exact H |]. unfold receive_all in *. cbn [fold_left]. now apply IH, quiet_receive. Qed.
Lemma energy_same st st' : same_c st st' -> energy env inertia bodies st = energy env inertia bodies st'.
Proof. intros H. apply rtotal_ext. intros i _. destruct (H i) as [-> ->]. reflexivity. Qed.
(** The impulse of one contact point without bounce takes energy away. *)
Lemma contact_energy m e a st : x_b1 m <> x_b2 m -> quiet (x_b1 m) st -> quiet (x_b2 m) st -> vlen2 (e_n e) = 1 -> 0 <= a ->
  let imp := Rmax (a + - (separation env m e st + 0) * inverse_if_positive (response_free env m e)) 0 in
  energy env inertia bodies (receive_all env (opposite env m (pt1 m e) (pt2 m e) (vscale (imp - a) (e_n e)) vzero) st) <= energy env inertia bodies st.
Proof.
  intros Hb Q1 Q2 Hn Ha imp. rewrite energy_pair by assumption. unfold imp, inverse_if_positive. rewrite Rplus_0_r.
  set (K := response_free env m e). set (s := separation env m e st). clearbody K s. clear imp.
  destruct (rlt 0 K) eqn:E; [apply rlt_true in E |].
  - unfold Rmax. destruct (Rle_dec (a + - s * (1 / K)) 0) as [H | H].
    + assert (A : a * K <= s).
      { apply (Rmult_le_compat_r K) in H; [| lra]. replace ((a + - s * (1 / K)) * K) with (a * K - s) in H by (field; lra). lra. }
      nra.
    + replace (a + - s * (1 / K) - a) with (- s / K) by (field; lra).
      replace (energy env inertia bodies st + - s / K * s + / 2 * (- s / K) * (- s / K) * K) with (energy env inertia bodies st - / 2 * (s * s * / K)) by (field; lra).
      assert (0 <= s * s * / K); [| lra]. apply Rmult_le_pos; [apply Rle_0_sqr | left; now apply Rinv_0_lt_compat].
  - rewrite Rmult_0_r, Rplus_0_r, Rmax_left by lra. replace (a - a) with 0 by ring. nra.
Qed.
Lemma step_energy eps thr split dt n ms st :
  (forall m, In m ms -> frictionless m /\ fresh m /\ bounciness m = 0 /\ x_b1 m <> x_b2 m /\ quiet (x_b1 m) st /\ quiet (x_b2 m) st /\
     forall e, In e (x_points m) -> vlen2 (e_n e) = 1 /\ shallow split e) ->
  energy env inertia bodies (snd (contacts_step eps thr env split dt n ms st)) <= energy env inertia bodies st.
Proof.
  intros H.
  apply (calm_step eps thr env (fun st' => energy env inertia bodies st' <= energy env inertia bodies st /\
           (forall m, In m ms -> quiet (x_b1 m) st' /\ quiet (x_b2 m) st'))).
  - intros s s' Hs [A B]. split; [now rewrite <- (energy_same s s' Hs) |]. intros m Hm. destruct (B m Hm) as [B1 B2].
    assert (Q : forall b, quiet b s -> quiet b s').
    { intros b [Hi | [Hi [R1 R2]]]; [now left | right; split; [exact Hi |]]. destruct (Hs b) as [E1 E2]. split; congruence. }
    split; apply Q; assumption.
  - intros m Hm. destruct (H m Hm) as (H1 & H2 & _ & _ & _ & _ & H3). repeat split; auto. intros e He. now apply H3.
  - intros m e a s Hm He Ha [A B] imp. destruct (H m Hm) as (_ & _ & H2 & H3 & _ & _ & H4). destruct (H4 e He) as [Hn _].
    destruct (B m Hm) as [B1 B2].
    assert (Z : bias_of thr env m e = 0).
    { unfold bias_of, ipoint, init_point. cbn [p_bias]. replace (mixed_restitution (x_e1 m) (x_e2 m)) with 0.
      - destruct (rlt _ _); ring.
      - rewrite <- H2. unfold bounciness, mixed_restitution, Rmax. destruct (rlt (x_e2 m) (x_e1 m)) eqn:E; destruct (Rle_dec (x_e1 m) (x_e2 m)); try reflexivity.
        + apply rlt_true in E. lra.
        + apply rlt_false in E. lra. }
    unfold imp. rewrite Z. split; [eapply Rle_trans; [apply contact_energy; assumption | exact A] |].
    intros m' Hm'. destruct (B m' Hm'). split; now apply quiet_all.
  - split; [lra |]. intros m Hm. destruct (H m Hm) as (_ & _ & _ & _ & H5 & H6 & _). now split.
Qed.
End Energy.

(** ** One contact *)
Section One.
Variables (eps thr : R) (env : nat -> rigid) (m : manifold) (e : contact).
Hypothesis Hpts : x_points m = [e].
Hypothesis Hfr : frictionless m.
Hypothesis Hfresh : e_resting e = false.
Hypothesis Hb : x_b1 m <> x_b2 m.
Variables (split : bool) (dt : R).
Hypothesis Hsh : shallow split e.
Notation init := (init_manifold eps thr env).
Notation ip := (ipoint thr env).
(** The state of the only point. *)
Definition one (a : R) (ks : list constraint) : Prop := exists b, ks = [with_state 0 0 0 [with_imp a b (ip m e)] (init m)].
Definition after (a : R) (st : velocities) : velocities := receive_all env (opposite env m (pt1 m e) (pt2 m e) (vscale a (e_n e)) vzero) st.
Definition next (a : R) (st : velocities) : R :=
  Rmax (a + - (separation env m e st + bias_of thr env m e) * inverse_if_positive (response_free env m e)) 0.
Lemma after_after a b st : after b (after a st) = after (a + b) st.
Proof. unfold after. rewrite pair_merge. f_equal. f_equal; [clear; vsolve | apply vadd_0]. Qed.
Lemma after_zero st : after 0 st = st.
Proof. unfold after. rewrite vscale_0. apply pair_zero. Qed.
Lemma one_start st : one 0 (fst (start eps thr env [m] st)) /\ snd (start eps thr env [m] st) = st.
Proof.
  unfold start, warm_start. cbn [map each].
  assert (A : warm_manifold (init m) st = (with_state 0 0 0 [with_imp 0 0 (ip m e)] (init m), st)).
  { unfold warm_manifold. change (k_points (init m)) with (map (ip m) (x_points m)). rewrite Hpts. cbn [map warm_points].
    change (p_resting (ip m e)) with (e_resting e). rewrite Hfresh. reflexivity. }
  rewrite A. cbn [fst snd]. split; [now exists 0 | reflexivity].
Qed.
Lemma one_solve a ks st : one a ks -> one (next a st) (fst (solve split dt ks st)) /\ same_c (snd (solve split dt ks st)) (after (next a st - a) st).
Proof.
  intros (b & ->). unfold solve. cbn [each].
  assert (Hc : calm eps thr env m (with_state 0 0 0 [with_imp a b (ip m e)] (init m)) \/ True) by now right. clear Hc.
  unfold solve_manifold. change (k_points (with_state 0 0 0 [with_imp a b (ip m e)] (init m))) with [with_imp a b (ip m e)]. cbn [solve_points].
  destruct (solve_point_eq eps thr env split dt 0 0 0 [with_imp a b (ip m e)] m e a b st Hsh) as (b' & E1 & E2).
  destruct (solve_point split dt (with_state 0 0 0 [with_imp a b (ip m e)] (init m)) (with_imp a b (ip m e)) st) as [p' st1]. cbn [fst snd] in E1, E2. subst p'.
  match goal with |- context [k_mu ?k * ?s] => assert (Z : k_mu k * s = 0) by (change (mixed_friction m * s = 0); rewrite mixed_zero by assumption; ring) end.
  rewrite Z. unfold solve_friction, solve_twist. rewrite !clamp_zero. cbn [fst snd]. split; [now exists b' |].
  set (K := with_state 0 0 0 [with_imp a b (ip m e)] (init m)).
  change (k_f1 K) with 0. change (k_f2 K) with 0. change (k_tw K) with 0. rewrite Rminus_0_r.
  change (push_twist K) with (push_twist (init m)). change (push_friction K) with (push_friction (init m)).
  change (k_t1 K) with (tan1 eps thr env m). change (k_t2 K) with (tan2 eps thr env m).
  change (k_c11 K) with (k_c11 (init m)). change (k_c12 K) with (k_c12 (init m)). change (k_c21 K) with (k_c21 (init m)). change (k_c22 K) with (k_c22 (init m)).
  rewrite push_twist_eq, push_friction2_eq, push_friction1_eq, !vscale_0, !pair_zero. exact E2.
Qed.
(** After the first iteration on a free contact nothing changes any more. *)
Lemma next_same a st st' : same_c st st' -> next a st = next a st'.
Proof. intros H. unfold next. now rewrite (sep_same env m e st st' H). Qed.
Lemma one_iterate n : forall a ks st st0, one a ks -> same_c st (after a st0) -> 0 <= a ->
  exists a', one a' (fst (iterate n split dt ks st)) /\ same_c (snd (iterate n split dt ks st)) (after a' st0) /\ 0 <= a' /\
             a' = Nat.iter n (fun a => next a (after a st0)) a.
Proof.
  induction n as [| n IH]; intros a ks st st0 H1 H2 Ha; cbn [iterate]; [exists a; split; [exact H1 | split; [exact H2 | split; [exact Ha | reflexivity]]] |].
  destruct (one_solve a ks st H1) as [A B]. destruct (solve split dt ks st) as [ks' st']. cbn [fst snd] in A, B.
  destruct (IH (next a st) ks' st' st0 A) as (a' & C1 & C2 & C3 & C4).
  - eapply same_c_trans; [exact B |]. eapply same_c_trans; [apply receive_all_same_c; exact H2 |].
    fold (after (next a st - a) (after a st0)). rewrite after_after. replace (a + (next a st - a)) with (next a st) by ring. apply same_c_refl.
  - apply Rmax_r.
  - exists a'. split; [exact C1 | split; [exact C2 | split; [exact C3 |]]]. rewrite C4, (next_same a st (after a st0) H2).
    assert (G : forall (g : R -> R) x, Nat.iter n g (g x) = g (Nat.iter n g x)) by (clear; intros g x; induction n as [| k IHk]; [reflexivity |]; change (g (Nat.iter k g (g x)) = g (g (Nat.iter k g x))); now rewrite IHk).
    exact (G (fun a => next a (after a st0)) a).
Qed.
Lemma one_step n st : exists a, same_c (snd (contacts_step eps thr env split dt n [m] st)) (after a st) /\ 0 <= a /\
  a = Nat.iter n (fun a => next a (after a st)) 0.
Proof.
  unfold contacts_step. destruct (one_start st) as [A B]. destruct (start eps thr env [m] st) as [l st1]. cbn [fst snd] in A, B. subst st1.
  destruct (one_iterate n 0 l st st A) as (a & _ & C & D & E); [rewrite after_zero; apply same_c_refl | lra |].
  destruct (iterate n split dt l st) as [l' st2]. exists a. split; [exact C | split; [exact D | exact E]].
Qed.
Lemma one_free n st : free (env (x_b1 m)) -> free (env (x_b2 m)) -> vlen2 (e_n e) = 1 -> 0 < response_free env m e ->
  same_c (snd (contacts_step eps thr env split dt (S n) [m] st))
         (after (Rmax (- (separation env m e st + bias_of thr env m e) / response_free env m e) 0) st).
Proof.
  intros F1 F2 Hn HK. destruct (one_step (S n) st) as (a & A & _ & E).
  assert (G : forall a, next a (after a st) = Rmax (- (separation env m e st + bias_of thr env m e) / response_free env m e) 0).
  { intros x. unfold next, after. rewrite sep_pair by exact Hb. rewrite response_eq by assumption. unfold inverse_if_positive.
    destruct (rlt 0 (response_free env m e)) eqn:R; [| apply rlt_false in R; lra]. f_equal. field. lra. }
  assert (E' : a = next (Nat.iter n (fun a => next a (after a st)) 0) (after (Nat.iter n (fun a => next a (after a st)) 0) st)) by exact E.
  rewrite G in E'. now rewrite <- E'.
Qed.
End One.

(** ** Bodies at rest in contacts that keep no impulse *)
Definition empty_handed (m : manifold) : Prop := x_f1 m = 0 /\ x_f2 m = 0 /\ x_tw m = 0 /\ forall e, In e (x_points m) -> e_imp e = 0.
Section Rest.
Variables (eps thr : R) (env : nat -> rigid) (split : bool) (dt : R).
Hypothesis Hthr : 0 <= thr.
Notation init := (init_manifold eps thr env).
Notation ip := (ipoint thr env).
Variable st0 : velocities.
Definition still (m : manifold) (k : constraint) : Prop :=
  exists l, k = with_state 0 0 0 l (init m) /\ Forall2 (fun e p => exists b, p = with_imp 0 b (ip m e)) (x_points m) l.
Definition resting_pair (m : manifold) : Prop :=
  (forall b, b = x_b1 m \/ b = x_b2 m -> cv (st0 b) = vzero /\ cw (st0 b) = vzero /\ r_v (env b) = vzero /\ r_w (env b) = vzero) /\
  forall e, In e (x_points m) -> shallow split e.
Lemma zero_pushes m x st : receive_all env (opposite env m (fp1 m) (fp2 m) (vscale (0 - 0) x) vzero) st = st.
Proof. rewrite Rminus_0_r, vscale_0. apply pair_zero. Qed.
Lemma still_points m k : still m k -> resting_pair m -> forall es l sum st, incl es (x_points m) ->
  Forall2 (fun e p => exists b, p = with_imp 0 b (ip m e)) es l -> same_c st st0 ->
  Forall2 (fun e p => exists b, p = with_imp 0 b (ip m e)) es (fst (fst (solve_points split dt k l sum st))) /\
  same_c (snd (solve_points split dt k l sum st)) st0 /\ snd (fst (solve_points split dt k l sum st)) = sum.
Proof.
  intros (l0 & -> & _) [Hr Hs] es l sum st Hi F. revert sum st Hi. induction F as [| e p es l (b & ->) F IH]; intros sum st Hi Hst; cbn [solve_points].
  - split; [constructor | split; [exact Hst | reflexivity]].
  - assert (He : In e (x_points m)) by (apply Hi; now left).
    assert (S0 : separation env m e st = 0).
    { rewrite (sep_same env m e st st0 Hst). unfold separation, point_velocity.
      destruct (Hr (x_b1 m) (or_introl eq_refl)) as (-> & -> & _), (Hr (x_b2 m) (or_intror eq_refl)) as (-> & -> & _). clear. vsolve. }
    assert (B0 : bias_of thr env m e = 0).
    { unfold bias_of, ipoint, init_point. cbn [p_bias].
      destruct (Hr (x_b1 m) (or_introl eq_refl)) as (_ & _ & -> & ->), (Hr (x_b2 m) (or_intror eq_refl)) as (_ & _ & -> & ->).
      match goal with |- (if rlt ?j _ then _ else _) = 0 => assert (J : j = 0) by (unfold relative; generalize (e_n e); clear; vsolve); rewrite J end.
      destruct (rlt 0 (- thr)) eqn:E; [apply rlt_true in E; lra | reflexivity]. }
    destruct (solve_point_eq eps thr env split dt 0 0 0 l0 m e 0 b st (Hs e He)) as (b' & E1 & E2).
    rewrite S0, B0 in E1, E2. replace (0 + - (0 + 0) * inverse_if_positive (response_free env m e)) with 0 in E1, E2 by ring.
    rewrite Rmax_left, Rminus_0_r in E2 by lra. rewrite Rmax_left in E1 by lra. rewrite vscale_0, pair_zero in E2.
    destruct (solve_point split dt (with_state 0 0 0 l0 (init m)) (with_imp 0 b (ip m e)) st) as [p' st1]. cbn [fst snd] in E1, E2. subst p'.
    change (p_imp (with_imp 0 b' (ip m e))) with 0.
    destruct (IH (sum + 0) st1 (fun x hx => Hi x (or_intror hx)) (same_c_trans _ _ _ E2 Hst)) as (C & D & E).
    destruct (solve_points split dt (with_state 0 0 0 l0 (init m)) l (sum + 0) st1) as [[l' s'] st2]. cbn [fst snd] in *.
    split; [constructor; [now exists b' | exact C] | split; [exact D | lra]].
Qed.
Lemma still_solve m k st : still m k -> resting_pair m -> same_c st st0 ->
  still m (fst (solve_manifold split dt k st)) /\ same_c (snd (solve_manifold split dt k st)) st0.
Proof.
  intros Hk Hr Hst. assert (F : Forall2 (fun e p => exists b, p = with_imp 0 b (ip m e)) (x_points m) (k_points k)) by (destruct Hk as (l & -> & F); exact F).
  destruct (still_points m k Hk Hr (x_points m) (k_points k) 0 st (incl_refl _) F Hst) as (A & B & C). unfold solve_manifold.
  destruct (solve_points split dt k (k_points k) 0 st) as [[l' s] st1]. cbn [fst snd] in A, B, C. subst s. destruct Hk as (l & -> & _).
  rewrite Rmult_0_r. unfold solve_friction, solve_twist. rewrite !clamp_zero. cbn [fst snd].
  split; [eexists; split; [reflexivity | exact A] |].
  set (K := with_state 0 0 0 l (init m)).
  change (k_f1 K) with 0. change (k_f2 K) with 0. change (k_tw K) with 0. rewrite Rminus_0_r.
  change (push_twist K) with (push_twist (init m)). change (push_friction K) with (push_friction (init m)).
  change (k_t1 K) with (tan1 eps thr env m). change (k_t2 K) with (tan2 eps thr env m).
  change (k_c11 K) with (k_c11 (init m)). change (k_c12 K) with (k_c12 (init m)). change (k_c21 K) with (k_c21 (init m)). change (k_c22 K) with (k_c22 (init m)).
  rewrite push_twist_eq, push_friction2_eq, push_friction1_eq, !vscale_0, !pair_zero. exact B.
Qed.
Lemma still_warm m st : empty_handed m -> still m (fst (warm_manifold (init m) st)) /\ snd (warm_manifold (init m) st) = st.
Proof.
  intros (F1 & F2 & F3 & F4).
  assert (A : forall es, incl es (x_points m) -> exists r, warm_points (init m) (map (ip m) es) st = (map (fun e => with_imp 0 0 (ip m e)) es, r, st)).
  { induction es as [| e es IH]; intros Hi; [now exists false |]. cbn [map warm_points]. change (p_resting (ip m e)) with (e_resting e).
    destruct (IH (fun x hx => Hi x (or_intror hx))) as (r & E). assert (E0 := F4 e (Hi e (or_introl eq_refl))).
    assert (E1 : with_imp 0 0 (ip m e) = ip m e) by (unfold ipoint, init_point, with_imp; cbn; rewrite E0; reflexivity).
    destruct (e_resting e).
    - change (p_imp (ip m e)) with (e_imp e). rewrite E0, push_normal_eq, vscale_0, pair_zero, E, E1. eexists. reflexivity.
    - rewrite E. eexists. reflexivity. }
  unfold warm_manifold. change (k_points (init m)) with (map (ip m) (x_points m)). destruct (A (x_points m) (incl_refl _)) as (r & ->).
  assert (S : still m (with_state 0 0 0 (map (fun e => with_imp 0 0 (ip m e)) (x_points m)) (init m))).
  { eexists. split; [reflexivity |]. clear. induction (x_points m) as [| e l IH]; constructor; [now exists 0 | exact IH]. }
  destruct r; [| now split].
  change (k_f1 (init m)) with (x_f1 m). change (k_f2 (init m)) with (x_f2 m). change (k_tw (init m)) with (x_tw m). rewrite F1, F2, F3, zero_mix.
  rewrite !zero_dot by reflexivity. cbn [fst snd]. split; [exact S |]. rewrite Ropp_0, !vscale_0, !mat_vec_zero, !vmul_0, vneg_zero.
  change (k_t1 (init m)) with (tan1 eps thr env m). change (k_t2 (init m)) with (tan2 eps thr env m).
  rewrite push_friction2_eq, push_friction1_eq, !vscale_0, !pair_zero.
  apply functional_extensionality. intros b. unfold shift_c.
  assert (Q : forall v, Vel (vadd (cv v) vzero) (vadd (cw v) vzero) (sv v) (sw v) = v) by (intros [v1 v2 v3 v4]; cbn [cv cw sv sw]; now rewrite !vadd_0).
  destruct (Nat.eqb b (k_b2 (init m))), (Nat.eqb b (k_b1 (init m))); rewrite ?Q; reflexivity.
Qed.
Lemma still_step n ms : (forall m, In m ms -> empty_handed m /\ resting_pair m) ->
  same_c (snd (contacts_step eps thr env split dt n ms st0)) st0 /\ forall m', In m' (fst (contacts_step eps thr env split dt n ms st0)) -> empty_handed m'.
Proof.
  intros H. unfold contacts_step.
  assert (A : Forall2 still ms (fst (start eps thr env ms st0)) /\ snd (start eps thr env ms st0) = st0).
  { unfold start, warm_start. clear n. induction ms as [| m ms IH]; cbn [map each]; [split; [constructor | reflexivity] |].
    destruct (still_warm m st0) as [B C]; [apply H; now left |]. destruct (warm_manifold (init m) st0) as [k st1]. cbn [fst snd] in B, C. subst st1.
    destruct IH as [D E]; [intros; apply H; now right |]. destruct (each warm_manifold (map init ms) st0) as [l st2]. cbn [fst snd] in *.
    split; [constructor; assumption | exact E]. }
  destruct (start eps thr env ms st0) as [l st1]. cbn [fst snd] in A. destruct A as [A ->].
  assert (B : forall st l, Forall2 still ms l -> same_c st st0 -> Forall2 still ms (fst (solve split dt l st)) /\ same_c (snd (solve split dt l st)) st0).
  { clear A l. intros st l F. assert (Hr : forall m, In m ms -> resting_pair m) by (intros m Hm; now apply H). clear H.
    revert st. unfold solve. induction F as [| m k ms l Hk F IH]; intros st Hst; cbn [each]; [split; [constructor | exact Hst] |].
    destruct (still_solve m k st Hk (Hr m (or_introl eq_refl)) Hst) as [C D]. destruct (solve_manifold split dt k st) as [k' st']. cbn [fst snd] in C, D.
    destruct (IH (fun x hx => Hr x (or_intror hx)) st' D) as [E G]. destruct (each (solve_manifold split dt) l st') as [l' st'']. cbn [fst snd] in *.
    split; [constructor; assumption | exact G]. }
  assert (C : forall n st l, Forall2 still ms l -> same_c st st0 -> Forall2 still ms (fst (iterate n split dt l st)) /\ same_c (snd (iterate n split dt l st)) st0).
  { clear A l n. induction n as [| n IH]; intros st l F Hst; cbn [iterate]; [now split |]. destruct (B st l F Hst) as [D E].
    destruct (solve split dt l st) as [l' st']. now apply IH. }
  destruct (C n st0 l A (same_c_refl st0)) as [D E]. destruct (iterate n split dt l st0) as [l' st']. cbn [fst snd] in *. split; [exact E |].
  clear - D. intros m' Hm'. apply in_map_iff in Hm' as ([m k] & <- & Hin). revert Hin.
  induction D as [| m0 k0 ms l Hk F IH]; [easy |]. cbn [combine]. intros [[= <- <-] | Hin]; [| now apply IH].
  destruct Hk as (l0 & -> & F0). split; [reflexivity | split; [reflexivity | split; [reflexivity |]]]. unfold store_manifold, with_state. cbn [x_points k_points].
  clear - F0. intros e He. apply in_map_iff in He as ([e0 p] & <- & Hin). revert Hin.
  induction F0 as [| e1 p1 es l (b & ->) F IH]; [easy |]. cbn [combine]. intros [[= <- <-] | Hin]; [reflexivity | now apply IH].
Qed.
End Rest.

(** ** Penetration depths and split velocities *)
Section Depths.
Variables (eps thr : R) (env : nat -> rigid) (dt : R).
Notation init := (init_manifold eps thr env).
Definition prel (p p' : cpoint) : Prop := exists d s,
  p' = CPoint (p_n p) (p_r1 p) (p_r2 p) d (p_bias p) (p_imp p) s (p_inv p) (p_i1 p) (p_i2 p) (p_resting p).
Definition krel (k k' : constraint) : Prop := exists l, k' = with_state (k_f1 k) (k_f2 k) (k_tw k) l k /\ Forall2 prel (k_points k) l.
Lemma alike_maps es es' : Forall2 alike_point es es' -> map e_n es' = map e_n es /\ length es' = length es /\
  (forall m1 m2 : contact -> vec3, (forall e d, m1 (Contact (e_n e) (e_p1 e) (e_p2 e) d (e_resting e) (e_imp e)) = m1 e) -> map m1 es' = map m1 es).
Proof.
  intros F. induction F as [| e e' es es' (d & ->) F (A & B & C)]; [now repeat split |]. split; [| split].
  - cbn [map e_n]. now rewrite A.
  - cbn [length]. now rewrite B.
  - intros m1 m2 H. cbn [map]. rewrite H. f_equal. now apply (C m1 m2).
Qed.
Lemma init_rel m m' : alike m m' -> krel (init m) (init m').
Proof.
  intros (l & -> & F). set (m' := Manifold _ _ _ _ _ _ _ _ _ _ _ _ _ _).
  destruct (alike_maps _ _ F) as (A & B & C).
  assert (W : world_points m' = world_points m).
  { unfold world_points, m'. cbn [x_points x_t1 x_t2]. clear - F. induction F as [| e e' es es' (d & ->) F IH]; [reflexivity |]. cbn [map e_p1 e_p2]. now rewrite IH. }
  exists (map (init_point thr m (env (x_b1 m)) (env (x_b2 m))) l). split.
  - unfold with_state, init_manifold. rewrite W. unfold m'.
    cbn [x_b1 x_b2 x_t1 x_t2 x_mu1 x_mu2 x_e1 x_e2 x_points x_f1 x_f2 x_tw x_v1 x_v2 k_b1 k_b2 k_im1 k_im2 k_iw1 k_iw2 k_ll1 k_ll2 k_al1 k_al2 k_mu k_n k_r1 k_r2
         k_t1 k_t2 k_o1 k_o2 k_c11 k_c12 k_c21 k_c22 k_inv1 k_inv2 k_invt k_f1 k_f2 k_tw]. rewrite A, B. reflexivity.
  - change (k_points (init m)) with (map (init_point thr m (env (x_b1 m)) (env (x_b2 m))) (x_points m)).
    clear - F. induction F as [| e e' es es' (d & ->) F IH]; [constructor |]. cbn [map]. constructor; [| exact IH].
    eexists _, _. reflexivity.
Qed.
Lemma shift_c_same i dv dw st st' : same_c st st' -> same_c (shift_c i dv dw st) (shift_c i dv dw st').
Proof. intros H b. unfold shift_c. destruct (H b) as [E1 E2]. destruct (Nat.eqb b i); cbn [cv cw]; [now rewrite E1, E2 | now split]. Qed.
Lemma push_normal_same k p l st st' : same_c st st' -> same_c (push_normal k p l st) (push_normal k p l st').
Proof. intros H. unfold push_normal. now repeat apply shift_c_same. Qed.
Lemma push_friction_same k t c1 c2 l st st' : same_c st st' -> same_c (push_friction k t c1 c2 l st) (push_friction k t c1 c2 l st').
Proof. intros H. unfold push_friction. now repeat apply shift_c_same. Qed.
Lemma push_twist_same k l st st' : same_c st st' -> same_c (push_twist k l st) (push_twist k l st').
Proof. intros H. unfold push_twist. now repeat apply shift_c_same. Qed.
Lemma point_rel f1 f2 tw l0 k p p' st st' : prel p p' -> same_c st st' ->
  prel (fst (solve_point true dt k p st)) (fst (solve_point true dt (with_state f1 f2 tw l0 k) p' st')) /\
  p_imp (fst (solve_point true dt k p st)) = p_imp (fst (solve_point true dt (with_state f1 f2 tw l0 k) p' st')) /\
  same_c (snd (solve_point true dt k p st)) (snd (solve_point true dt (with_state f1 f2 tw l0 k) p' st')).
Proof.
  intros (d & s & ->) H. unfold solve_point. cbn [fst snd with_state with_imp k_b1 k_b2 p_r1 p_r2 p_n p_bias p_inv p_imp p_simp].
  destruct (H (k_b1 k)) as [E1 E2], (H (k_b2 k)) as [E3 E4]. rewrite E1, E2, E3, E4. split; [eexists _, _; reflexivity |]. split; [reflexivity |].
  eapply same_c_trans; [apply push_split_same |]. eapply same_c_trans; [| apply same_c_sym; apply push_split_same].
  match goal with |- same_c (push_normal k p ?x st) (push_normal ?k' ?p' ?x st') => change (same_c (push_normal k p x st) (push_normal k p x st')) end.
  now apply push_normal_same.
Qed.
Lemma points_rel f1 f2 tw l0 k l l' : Forall2 prel l l' -> forall sum st st', same_c st st' ->
  let r := solve_points true dt k l sum st in
  let r' := solve_points true dt (with_state f1 f2 tw l0 k) l' sum st' in
  Forall2 prel (fst (fst r)) (fst (fst r')) /\ snd (fst r) = snd (fst r') /\ same_c (snd r) (snd r').
Proof.
  intros F. induction F as [| p p' l l' Hp F IH]; intros sum st st' H; cbn [solve_points]; [repeat split; try constructor; apply H |].
  destruct (point_rel f1 f2 tw l0 k p p' st st' Hp H) as (A & B & C).
  destruct (solve_point true dt k p st) as [p1 st1], (solve_point true dt (with_state f1 f2 tw l0 k) p' st') as [p2 st2]. cbn [fst snd] in A, B, C. rewrite <- B.
  specialize (IH (sum + p_imp p1) st1 st2 C). cbv zeta in IH.
  destruct (solve_points true dt k l (sum + p_imp p1) st1) as [[la sa] sta], (solve_points true dt (with_state f1 f2 tw l0 k) l' (sum + p_imp p1) st2) as [[lb sb] stb].
  cbn [fst snd] in *. destruct IH as (D & E & G). split; [constructor; assumption | now split].
Qed.
Lemma friction_rel f1 f2 tw l0 k t c1 c2 inv f limit st st' : same_c st st' ->
  fst (solve_friction k t c1 c2 inv f limit st) = fst (solve_friction (with_state f1 f2 tw l0 k) t c1 c2 inv f limit st') /\
  same_c (snd (solve_friction k t c1 c2 inv f limit st)) (snd (solve_friction (with_state f1 f2 tw l0 k) t c1 c2 inv f limit st')).
Proof.
  intros H. unfold solve_friction. cbn [fst snd]. cbn [with_state k_b1 k_b2 k_r1 k_r2].
  destruct (H (k_b1 k)) as [E1 E2], (H (k_b2 k)) as [E3 E4]. rewrite E1, E2, E3, E4. split; [reflexivity |].
  match goal with |- same_c (push_friction k _ _ _ ?x st) (push_friction ?k' _ _ _ ?x st') => change (push_friction k') with (push_friction k) end.
  now apply push_friction_same.
Qed.
Lemma manifold_rel k k' st st' : krel k k' -> same_c st st' ->
  krel (fst (solve_manifold true dt k st)) (fst (solve_manifold true dt k' st')) /\ same_c (snd (solve_manifold true dt k st)) (snd (solve_manifold true dt k' st')).
Proof.
  intros (l & -> & F) H. unfold solve_manifold.
  set (k' := with_state (k_f1 k) (k_f2 k) (k_tw k) l k). change (k_points k') with l.
  destruct (points_rel (k_f1 k) (k_f2 k) (k_tw k) l k (k_points k) l F 0 st st' H) as (A & B & C). fold k' in A, B, C.
  destruct (solve_points true dt k (k_points k) 0 st) as [[l1 s1] st1], (solve_points true dt k' l 0 st') as [[l2 s2] st2]. cbn [fst snd] in A, B, C. subst s2.
  change (k_mu k') with (k_mu k). change (k_t1 k') with (k_t1 k). change (k_t2 k') with (k_t2 k). change (k_c11 k') with (k_c11 k). change (k_c12 k') with (k_c12 k).
  change (k_c21 k') with (k_c21 k). change (k_c22 k') with (k_c22 k). change (k_inv1 k') with (k_inv1 k). change (k_inv2 k') with (k_inv2 k).
  change (k_f1 k') with (k_f1 k). change (k_f2 k') with (k_f2 k).
  destruct (friction_rel (k_f1 k) (k_f2 k) (k_tw k) l k (k_t1 k) (k_c11 k) (k_c21 k) (k_inv1 k) (k_f1 k) (k_mu k * s1) st1 st2 C) as [D E]. fold k' in D, E.
  destruct (solve_friction k (k_t1 k) (k_c11 k) (k_c21 k) (k_inv1 k) (k_f1 k) (k_mu k * s1) st1) as [g1 st3],
    (solve_friction k' (k_t1 k) (k_c11 k) (k_c21 k) (k_inv1 k) (k_f1 k) (k_mu k * s1) st2) as [g1' st4]. cbn [fst snd] in D, E. subst g1'.
  destruct (friction_rel (k_f1 k) (k_f2 k) (k_tw k) l k (k_t2 k) (k_c12 k) (k_c22 k) (k_inv2 k) (k_f2 k) (k_mu k * s1) st3 st4 E) as [D' E']. fold k' in D', E'.
  destruct (solve_friction k (k_t2 k) (k_c12 k) (k_c22 k) (k_inv2 k) (k_f2 k) (k_mu k * s1) st3) as [g2 st5],
    (solve_friction k' (k_t2 k) (k_c12 k) (k_c22 k) (k_inv2 k) (k_f2 k) (k_mu k * s1) st4) as [g2' st6]. cbn [fst snd] in D', E'. subst g2'.
  unfold solve_twist. cbn [fst snd]. change (k_b1 k') with (k_b1 k). change (k_b2 k') with (k_b2 k). change (k_n k') with (k_n k). change (k_tw k') with (k_tw k).
  change (k_invt k') with (k_invt k). change (push_twist k') with (push_twist k).
  destruct (E' (k_b1 k)) as [_ E2], (E' (k_b2 k)) as [_ E4]. rewrite E2, E4. split; [| now apply push_twist_same].
  exists l2. split; [reflexivity | exact A].
Qed.
Lemma warm_points_rel f1 f2 tw l0 k l l' : Forall2 prel l l' -> forall st st', same_c st st' ->
  let r := warm_points k l st in
  let r' := warm_points (with_state f1 f2 tw l0 k) l' st' in
  Forall2 prel (fst (fst r)) (fst (fst r')) /\ snd (fst r) = snd (fst r') /\ same_c (snd r) (snd r').
Proof.
  intros F. induction F as [| p p' l l' Hp F IH]; intros st st' H; cbn [warm_points]; [repeat split; try constructor; apply H |].
  destruct Hp as (d & s & ->). cbn [p_resting p_imp p_simp]. destruct (p_resting p) eqn:R.
  - match goal with |- context [push_normal ?k' ?p' (p_imp p) st'] => change (push_normal k' p') with (push_normal k p) end.
    specialize (IH (push_normal k p (p_imp p) st) (push_normal k p (p_imp p) st') (push_normal_same k p (p_imp p) st st' H)). cbv zeta in IH.
    destruct (warm_points k l (push_normal k p (p_imp p) st)) as [[la sa] sta], (warm_points (with_state f1 f2 tw l0 k) l' (push_normal k p (p_imp p) st')) as [[lb sb] stb].
    cbn [fst snd] in *. destruct IH as (D & E & G). split; [constructor; [eexists _, _; now rewrite R | assumption] | split; [now rewrite E | exact G]].
  - specialize (IH st st' H). cbv zeta in IH.
    destruct (warm_points k l st) as [[la sa] sta], (warm_points (with_state f1 f2 tw l0 k) l' st') as [[lb sb] stb].
    cbn [fst snd] in *. destruct IH as (D & E & G). split; [constructor; [eexists _, _; unfold with_imp; cbn; now rewrite R | assumption] | split; [now rewrite E | exact G]].
Qed.
Lemma warm_rel k k' st st' : krel k k' -> same_c st st' ->
  krel (fst (warm_manifold k st)) (fst (warm_manifold k' st')) /\ same_c (snd (warm_manifold k st)) (snd (warm_manifold k' st')).
Proof.
  intros (l & -> & F) H. unfold warm_manifold.
  set (k' := with_state (k_f1 k) (k_f2 k) (k_tw k) l k). change (k_points k') with l.
  destruct (warm_points_rel (k_f1 k) (k_f2 k) (k_tw k) l k (k_points k) l F st st' H) as (A & B & C). fold k' in A, B, C.
  destruct (warm_points k (k_points k) st) as [[l1 s1] st1], (warm_points k' l st') as [[l2 s2] st2]. cbn [fst snd] in A, B, C. subst s2.
  destruct s1; cbn [fst snd].
  - split; [exists l2; split; [reflexivity | exact A] |].
    repeat apply shift_c_same. exact C.
  - split; [exists l2; split; [reflexivity | exact A] | exact C].
Qed.
Lemma each_rel f : (forall k k' st st', krel k k' -> same_c st st' -> krel (fst (f k st)) (fst (f k' st')) /\ same_c (snd (f k st)) (snd (f k' st'))) ->
  forall l l', Forall2 krel l l' -> forall st st', same_c st st' ->
  Forall2 krel (fst (each f l st)) (fst (each f l' st')) /\ same_c (snd (each f l st)) (snd (each f l' st')).
Proof.
  intros Hf l l' F. induction F as [| k k' l l' Hk F IH]; intros st st' H; cbn [each]; [split; [constructor | exact H] |].
  destruct (Hf k k' st st' Hk H) as [A B]. destruct (f k st) as [k1 st1], (f k' st') as [k2 st2]. cbn [fst snd] in A, B.
  destruct (IH st1 st2 B) as [C D]. destruct (each f l st1) as [l1 st3], (each f l' st2) as [l2 st4]. cbn [fst snd] in *.
  split; [constructor; assumption | exact D].
Qed.
Lemma step_rel n ms ms' st st' : Forall2 alike ms ms' -> same_c st st' ->
  Forall2 alike (fst (contacts_step eps thr env true dt n ms st)) (fst (contacts_step eps thr env true dt n ms' st')) /\
  same_c (snd (contacts_step eps thr env true dt n ms st)) (snd (contacts_step eps thr env true dt n ms' st')).
Proof.
  intros F H. unfold contacts_step, start, warm_start.
  assert (I : Forall2 krel (map init ms) (map init ms')) by (clear - F; induction F; constructor; [now apply init_rel | assumption]).
  destruct (each_rel warm_manifold warm_rel _ _ I st st' H) as [A B].
  destruct (each warm_manifold (map init ms) st) as [l1 st1], (each warm_manifold (map init ms') st') as [l2 st2]. cbn [fst snd] in A, B.
  assert (C : forall n l l' st st', Forall2 krel l l' -> same_c st st' ->
    Forall2 krel (fst (iterate n true dt l st)) (fst (iterate n true dt l' st')) /\ same_c (snd (iterate n true dt l st)) (snd (iterate n true dt l' st'))).
  { clear. induction n as [| n IH]; intros l l' st st' F H; cbn [iterate]; [now split |].
    destruct (each_rel (solve_manifold true dt) (fun k k' s s' => manifold_rel k k' s s') l l' F st st' H) as [A B]. fold (solve true dt l st) (solve true dt l' st') in A, B.
    destruct (solve true dt l st) as [l1 st1], (solve true dt l' st') as [l2 st2]. now apply IH. }
  destruct (C n l1 l2 st1 st2 A B) as [D E]. destruct (iterate n true dt l1 st1) as [l3 st3], (iterate n true dt l2 st2) as [l4 st4]. cbn [fst snd] in *.
  split; [| exact E]. clear - F D. revert l3 l4 D. induction F as [| m m' ms ms' (l & -> & Hp) F IH]; intros l3 l4 D; [constructor |].
  destruct D as [| k k' l3 l4 (l0 & -> & Hl) D]; [constructor |]. cbn [combine map]. constructor; [| now apply IH].
  unfold alike, store_manifold, with_state.
  cbn [x_b1 x_b2 x_t1 x_t2 x_mu1 x_mu2 x_e1 x_e2 x_points x_f1 x_f2 x_tw x_v1 x_v2 k_f1 k_f2 k_tw k_t1 k_t2 k_points].
  eexists. split; [reflexivity |]. clear - Hp Hl. revert Hp. generalize (x_points m). intros es Hp. revert l0 Hl. generalize (k_points k). intros ps.
  revert ps. induction Hp as [| e e' es es' (d & ->) F IH]; intros ps l0 Hl; [constructor |]. destruct Hl as [| p p' ps l0 (d' & s & ->) Hl]; [constructor |].
  cbn [combine map]. constructor; [| now apply IH]. exists d. reflexivity.
Qed.
End Depths.

(** ** Evaluating one manifold with one new contact *)
Section Evaluate.
Variables (eps thr : R) (env : nat -> rigid) (m : manifold) (e : contact) (split : bool) (dt : R).
Notation init := (init_manifold eps thr env).
Notation ip := (ipoint thr env).
Hypothesis Hpts : x_points m = [e].
Hypothesis Hsh : shallow split e.
Definition slide (t : vec3) (st : velocities) : R :=
  vdot (vsub (point_velocity env (x_b2 m) (fp2 m) st) (point_velocity env (x_b1 m) (fp1 m) st)) t.
Lemma slide_eq t st : slide t st =
  vdot (relative (cv (st (x_b1 m))) (cw (st (x_b1 m))) (cv (st (x_b2 m))) (cw (st (x_b2 m))) (k_r1 (init m)) (k_r2 (init m))) t.
Proof. rewrite relative_eq. reflexivity. Qed.
Lemma slide_same t st st' : same_c st st' -> slide t st = slide t st'.
Proof. intros H. unfold slide, point_velocity. destruct (H (x_b1 m)) as [-> ->], (H (x_b2 m)) as [-> ->]. reflexivity. Qed.
Definition rub (t : vec3) (f : R) (st : velocities) : velocities := receive_all env (opposite env m (fp1 m) (fp2 m) (vscale f t) vzero) st.
Definition spin (f : R) (st : velocities) : velocities := receive_all env (opposite env m (fp1 m) (fp2 m) vzero (vscale f (nrm eps thr env m))) st.
Lemma eval_manifold a b f1 f2 tw st l s1 g1 s2 g2 s3 g3 :
  l = next thr env m e a st -> s1 = after env m e (l - a) st ->
  g1 = clamp_to (mixed_friction m * l) (f1 + - slide (tan1 eps thr env m) s1 * k_inv1 (init m)) -> s2 = rub (tan1 eps thr env m) (g1 - f1) s1 ->
  g2 = clamp_to (mixed_friction m * l) (f2 + - slide (tan2 eps thr env m) s2 * k_inv2 (init m)) -> s3 = rub (tan2 eps thr env m) (g2 - f2) s2 ->
  g3 = clamp_to (mixed_friction m * l) (tw + - vdot (vsub (cw (s3 (x_b2 m))) (cw (s3 (x_b1 m)))) (nrm eps thr env m) * k_invt (init m)) ->
  exists b', fst (solve_manifold split dt (with_state f1 f2 tw [with_imp a b (ip m e)] (init m)) st) = with_state g1 g2 g3 [with_imp l b' (ip m e)] (init m) /\
             same_c (snd (solve_manifold split dt (with_state f1 f2 tw [with_imp a b (ip m e)] (init m)) st)) (spin (g3 - tw) s3).
Proof.
  intros Hl Hs1 Hg1 Hs2 Hg2 Hs3 Hg3. unfold solve_manifold.
  change (k_points (with_state f1 f2 tw [with_imp a b (ip m e)] (init m))) with [with_imp a b (ip m e)]. cbn [solve_points].
  destruct (solve_point_eq eps thr env split dt f1 f2 tw [with_imp a b (ip m e)] m e a b st Hsh) as (b' & E1 & E2).
  destruct (solve_point split dt (with_state f1 f2 tw [with_imp a b (ip m e)] (init m)) (with_imp a b (ip m e)) st) as [p' st1]. cbn [fst snd] in E1, E2.
  exists b'. unfold next in Hl. rewrite <- Hl in E1, E2. unfold after in Hs1. rewrite <- Hs1 in E2. subst p'. clear Hs1 Hl.
  cbn [p_imp with_imp]. rewrite Rplus_0_l. unfold solve_friction, solve_twist.
  cbn [with_state k_mu k_t1 k_t2 k_c11 k_c12 k_c21 k_c22 k_inv1 k_inv2 k_invt k_b1 k_b2 k_r1 k_r2 k_f1 k_f2 k_tw k_n].
  change (k_mu (init m)) with (mixed_friction m). change (k_b1 (init m)) with (x_b1 m). change (k_b2 (init m)) with (x_b2 m).
  change (k_t1 (init m)) with (tan1 eps thr env m). change (k_t2 (init m)) with (tan2 eps thr env m). change (k_n (init m)) with (nrm eps thr env m).
  rewrite <- (slide_eq (tan1 eps thr env m) st1), (slide_same _ _ _ E2), <- Hg1. clear Hg1.
  set (K := with_state f1 f2 tw [with_imp a b (ip m e)] (init m)).
  assert (T : forall x, push_twist K x = push_twist (init m) x) by reflexivity.
  assert (R : forall t c1 c2 x, push_friction K t c1 c2 x = push_friction (init m) t c1 c2 x) by reflexivity.
  rewrite !R, T, push_friction1_eq.
  assert (E3 : same_c (rub (tan1 eps thr env m) (g1 - f1) st1) s2) by (rewrite Hs2; apply receive_all_same_c; exact E2). unfold rub in E3.
  set (st2 := receive_all env (opposite env m (fp1 m) (fp2 m) (vscale (g1 - f1) (tan1 eps thr env m)) vzero) st1) in *. clearbody st2.
  rewrite <- (slide_eq (tan2 eps thr env m) st2), (slide_same _ _ _ E3), <- Hg2, push_friction2_eq. clear Hg2.
  assert (E4 : same_c (rub (tan2 eps thr env m) (g2 - f2) st2) s3) by (rewrite Hs3; apply receive_all_same_c; exact E3). unfold rub in E4.
  set (st3 := receive_all env (opposite env m (fp1 m) (fp2 m) (vscale (g2 - f2) (tan2 eps thr env m)) vzero) st2) in *. clearbody st3.
  destruct (E4 (x_b1 m)) as [_ W1], (E4 (x_b2 m)) as [_ W2]. rewrite W1, W2, <- Hg3. cbn [fst snd]. split; [reflexivity |].
  rewrite push_twist_eq. apply receive_all_same_c. exact E4.
Qed.
End Evaluate.
