(** The contact solver as a sequence of pairs of opposite impulses; conservation laws and bounds. *)
From Coq Require Import List Reals Lra Psatz Bool Arith FunctionalExtensionality.
From Verif Require Import VecModel VecProofs ContactModel ContactSpec.
Import ListNotations.
Local Open Scope R_scope.

Ltac vsolve := intros; repeat match goal with v : vec3 |- _ => destruct v as [?x ?y ?z] | m : mat3 |- _ => destruct m as [[? ? ?] [? ? ?] [? ? ?]] end;
  unfold vadd, vsub, vneg, vmul, vscale, vcross, vdot, vzero, mat_vec, m00, m01, m02, m10, m11, m12, m20, m21, m22; cbn [vx vy vz row0 row1 row2];
  try (f_equal; ring); ring.
Lemma mv_1 im l n ll : vneg (vmul (vscale im (vscale l n)) ll) = vmul ll (vscale im (vneg (vscale l n))). Proof. vsolve. Qed.
Lemma mv_2 im l n ll : vmul (vscale im (vscale l n)) ll = vmul ll (vscale im (vscale l n)). Proof. vsolve. Qed.
Lemma mv_3 I r n l al : vneg (vscale l (vmul (mat_vec I (vcross r n)) al)) = vmul al (mat_vec I (vadd (vcross r (vneg (vscale l n))) (vneg vzero))).
Proof. vsolve. Qed.
Lemma mv_4 I r n l al : vscale l (vmul (mat_vec I (vcross r n)) al) = vmul al (mat_vec I (vadd (vcross r (vscale l n)) vzero)).
Proof. vsolve. Qed.
Lemma mv_5 I r n l al : vmul al (mat_vec I (vscale (- l) (vcross r n))) = vmul al (mat_vec I (vadd (vcross r (vneg (vscale l n))) (vneg vzero))).
Proof. vsolve. Qed.
Lemma mv_6 I r n l al : vmul al (mat_vec I (vscale l (vcross r n))) = vmul al (mat_vec I (vadd (vcross r (vscale l n)) vzero)).
Proof. vsolve. Qed.
Lemma mv_7 I r l n al : vneg (vmul al (mat_vec I (vscale l n))) = vmul al (mat_vec I (vadd (vcross r (vneg vzero)) (vneg (vscale l n)))).
Proof. vsolve. Qed.
Lemma mv_8 I r l n al : vmul al (mat_vec I (vscale l n)) = vmul al (mat_vec I (vadd (vcross r vzero) (vscale l n))).
Proof. vsolve. Qed.
Lemma mv_9 im ll : vzero = vmul ll (vscale im (vneg vzero)). Proof. vsolve. Qed.
Lemma mv_10 im ll : vzero = vmul ll (vscale im vzero). Proof. vsolve. Qed.

Ltac mv := first [apply mv_1 | apply mv_2 | apply mv_3 | apply mv_4 | apply mv_5 | apply mv_6 | apply mv_7 | apply mv_8 | apply mv_9 | apply mv_10].
Lemma shift_receive env i dv dw lin at_ ang st :
  dv = vmul (r_ll (env i)) (vscale (r_im (env i)) lin) ->
  dw = vmul (r_al (env i)) (mat_vec (r_iw (env i)) (vadd (vcross at_ lin) ang)) ->
  shift_c i dv dw st = receive env (Impulse i lin at_ ang) st.
Proof.
  intros -> ->. apply functional_extensionality. intros k. unfold shift_c, receive. cbn [i_body i_lin i_at i_ang].
  destruct (Nat.eqb_spec k i) as [-> | _]; reflexivity.
Qed.

Section Solver.
Variables (eps thr : R) (env : nat -> rigid).
Notation init := (init_manifold eps thr env).
Definition pt1 (m : manifold) (e : contact) : vec3 := tr_point (x_t1 m) (e_p1 e).
Definition pt2 (m : manifold) (e : contact) : vec3 := tr_point (x_t2 m) (e_p2 e).
Definition ipoint (m : manifold) (e : contact) : cpoint := init_point thr m (env (x_b1 m)) (env (x_b2 m)) e.
(** The mean points and the directions the solver computes. *)
Definition fp1 (m : manifold) : vec3 := vdiv (vtotal (map fst (world_points m))) (INR (length (x_points m))).
Definition fp2 (m : manifold) : vec3 := vdiv (vtotal (map snd (world_points m))) (INR (length (x_points m))).
Definition nrm (m : manifold) : vec3 := k_n (init m).
Definition tan1 (m : manifold) : vec3 := k_t1 (init m).
Definition tan2 (m : manifold) : vec3 := k_t2 (init m).

Lemma push_normal_eq m e l st : push_normal (init m) (ipoint m e) l st =
  receive_all env (opposite env m (pt1 m e) (pt2 m e) (vscale l (e_n e)) vzero) st.
Proof.
  unfold push_normal, receive_all, opposite, ipoint, init_point, init_manifold.
  cbn [fold_left k_b1 k_b2 k_im1 k_im2 k_ll1 k_ll2 k_al1 k_al2 p_n p_i1 p_i2].
  erewrite shift_receive; [erewrite shift_receive; [reflexivity | |] | |]; mv.
Qed.
Lemma push_friction1_eq m l st : push_friction (init m) (tan1 m) (k_c11 (init m)) (k_c21 (init m)) l st =
  receive_all env (opposite env m (fp1 m) (fp2 m) (vscale l (tan1 m)) vzero) st.
Proof.
  unfold push_friction, receive_all, opposite, tan1, init_manifold.
  cbn [fold_left k_b1 k_b2 k_im1 k_im2 k_ll1 k_ll2 k_al1 k_al2 k_iw1 k_iw2 k_c11 k_c21 k_t1].
  erewrite shift_receive; [erewrite shift_receive; [reflexivity | |] | |]; mv.
Qed.
Lemma push_friction2_eq m l st : push_friction (init m) (tan2 m) (k_c12 (init m)) (k_c22 (init m)) l st =
  receive_all env (opposite env m (fp1 m) (fp2 m) (vscale l (tan2 m)) vzero) st.
Proof.
  unfold push_friction, receive_all, opposite, tan2, init_manifold.
  cbn [fold_left k_b1 k_b2 k_im1 k_im2 k_ll1 k_ll2 k_al1 k_al2 k_iw1 k_iw2 k_c12 k_c22 k_t2].
  erewrite shift_receive; [erewrite shift_receive; [reflexivity | |] | |]; mv.
Qed.
Lemma push_twist_eq m l st : push_twist (init m) l st =
  receive_all env (opposite env m (fp1 m) (fp2 m) vzero (vscale l (nrm m))) st.
Proof.
  unfold push_twist, receive_all, opposite, nrm, init_manifold.
  cbn [fold_left k_b1 k_b2 k_im1 k_im2 k_ll1 k_ll2 k_al1 k_al2 k_iw1 k_iw2 k_n].
  erewrite shift_receive; [erewrite shift_receive; [reflexivity | |] | |]; mv.
Qed.

(** ** States of the constraints: what the initialisation computed, with other accumulated impulses *)
Definition of_point (m : manifold) (e : contact) (p : cpoint) : Prop := exists a b, p = with_imp a b (ipoint m e).
(** No friction and none kept from before. *)
Definition slippery (m : manifold) : Prop := mixed_friction m = 0 /\ x_f1 m = 0 /\ x_f2 m = 0.
Definition of_manifold (m : manifold) (k : constraint) : Prop :=
  exists f1 f2 tw l, k = with_state f1 f2 tw l (init m) /\ Forall2 (of_point m) (x_points m) l /\ (slippery m -> f1 = 0 /\ f2 = 0).
Lemma clamp_zero x : clamp_to 0 x = 0.
Proof. unfold clamp_to, Rmax, Rmin. repeat destruct (Rle_dec _ _); lra. Qed.
Lemma zero_dot o t : o = vzero -> vdot o t = 0.
Proof. intros ->. destruct t as [x y z]. unfold vdot, vzero. cbn [vx vy vz]. ring. Qed.
Lemma zero_mix a b : vadd (vscale 0 a) (vscale 0 b) = vzero. Proof. vsolve. Qed.
Lemma init_of_manifold m : of_manifold m (init m).
Proof.
  exists (x_f1 m), (x_f2 m), (x_tw m), (k_points (init m)). split; [reflexivity | split; [| now intros (_ & A & B)]].
  unfold init_manifold. cbn [k_points]. induction (x_points m) as [| e l IH]; [constructor |]. constructor; [| exact IH].
  exists (e_imp e), 0. reflexivity.
Qed.

Section Preserve.
Variable P : velocities -> Prop.
Variable m : manifold.
Hypothesis Hn : forall e l st, In e (x_points m) -> P st -> P (receive_all env (opposite env m (pt1 m e) (pt2 m e) (vscale l (e_n e)) vzero) st).
Hypothesis Hs : forall e l st, In e (x_points m) -> P st -> P (push_split (init m) (ipoint m e) l st).
Hypothesis Hf : forall t l st, t = tan1 m \/ t = tan2 m -> (slippery m -> l = 0) -> P st -> P (receive_all env (opposite env m (fp1 m) (fp2 m) (vscale l t) vzero) st).
Hypothesis Ht : forall l st, P st -> P (receive_all env (opposite env m (fp1 m) (fp2 m) vzero (vscale l (nrm m))) st).

Lemma preserve_point split dt k e p st : of_manifold m k -> In e (x_points m) -> of_point m e p -> P st ->
  of_point m e (fst (solve_point split dt k p st)) /\ P (snd (solve_point split dt k p st)).
Proof.
  intros (f1 & f2 & tw & l & -> & _ & _) He (a & b & ->) HP.
  assert (Q : forall l st, P st -> P (push_normal (init m) (ipoint m e) l st)) by (intros; rewrite push_normal_eq; auto).
  unfold solve_point. destruct split.
  - cbn [fst snd]. split; [eexists _, _; reflexivity |]. apply (Hs e); auto. apply Q. exact HP.
  - cbn [fst snd]. split; [eexists _, _; reflexivity |]. apply Q. exact HP.
Qed.
Lemma preserve_points split dt k : of_manifold m k -> forall es l sum st, incl es (x_points m) -> Forall2 (of_point m) es l -> P st ->
  Forall2 (of_point m) es (fst (fst (solve_points split dt k l sum st))) /\ P (snd (solve_points split dt k l sum st)).
Proof.
  intros Hk es l sum st Hi H. revert sum st Hi. induction H as [| e p es l Hp H IH]; intros sum st Hi HP; cbn [solve_points].
  - split; [constructor | exact HP].
  - assert (He : In e (x_points m)) by (apply Hi; now left).
    destruct (preserve_point split dt k e p st Hk He Hp HP) as [A B]. destruct (solve_point split dt k p st) as [p' st1]. cbn [fst snd] in A, B.
    assert (Hi' : incl es (x_points m)) by (intros x Hx; apply Hi; now right).
    destruct (IH (sum + p_imp p') st1 Hi' B) as [C D]. destruct (solve_points split dt k l (sum + p_imp p') st1) as [[l' s'] st2]. cbn [fst snd] in *.
    split; [constructor; assumption | exact D].
Qed.
Lemma preserve_manifold split dt k st : of_manifold m k -> P st ->
  of_manifold m (fst (solve_manifold split dt k st)) /\ P (snd (solve_manifold split dt k st)).
Proof.
  intros Hk HP. unfold solve_manifold. pose proof Hk as (f1 & f2 & tw & l & E & F & Z).
  assert (F' : Forall2 (of_point m) (x_points m) (k_points k)) by (rewrite E; exact F).
  destruct (preserve_points split dt k Hk (x_points m) (k_points k) 0 st (fun _ h => h) F' HP) as [A B].
  destruct (solve_points split dt k (k_points k) 0 st) as [[l' s] st1]. cbn [fst snd] in A, B. subst k.
  unfold solve_friction, solve_twist.
  assert (Z1 : slippery m -> k_mu (with_state f1 f2 tw l (init m)) * s = 0).
  { intros [Z1 _]. change (mixed_friction m * s = 0). rewrite Z1. ring. }
  cbn [fst snd]. split.
  { eexists _, _, _, _. split; [reflexivity | split; [exact A |]]. intros Hz. rewrite (Z1 Hz), !clamp_zero. now split. }
  match goal with |- P (push_twist _ ?x ?y) => change (P (push_twist (init m) x y)) end. rewrite push_twist_eq. apply Ht.
  match goal with |- P (push_friction _ _ _ _ ?x ?y) => change (P (push_friction (init m) (tan2 m) (k_c12 (init m)) (k_c22 (init m)) x y)) end.
  rewrite push_friction2_eq. apply Hf; [now right | intros Hz; destruct (Z Hz) as [-> ->]; rewrite (Z1 Hz), clamp_zero; cbn; ring |].
  match goal with |- P (push_friction _ _ _ _ ?x ?y) => change (P (push_friction (init m) (tan1 m) (k_c11 (init m)) (k_c21 (init m)) x y)) end.
  rewrite push_friction1_eq. apply Hf; [now left | intros Hz; destruct (Z Hz) as [-> ->]; rewrite (Z1 Hz), clamp_zero; cbn; ring | exact B].
Qed.
Lemma preserve_warm_points k : of_manifold m k -> forall es l st, incl es (x_points m) -> Forall2 (of_point m) es l -> P st ->
  Forall2 (of_point m) es (fst (fst (warm_points k l st))) /\ P (snd (warm_points k l st)).
Proof.
  intros Hk es l st Hi H. revert st Hi. induction H as [| e p es l Hp H IH]; intros st Hi HP; cbn [warm_points].
  - split; [constructor | exact HP].
  - assert (He : In e (x_points m)) by (apply Hi; now left).
    assert (Hi' : incl es (x_points m)) by (intros x Hx; apply Hi; now right).
    destruct Hk as (f1 & f2 & tw & l0 & -> & F & _). destruct Hp as (a & b & ->).
    assert (Q : P (push_normal (init m) (ipoint m e) (p_imp (with_imp a b (ipoint m e))) st)) by (rewrite push_normal_eq; auto).
    destruct (p_resting (with_imp a b (ipoint m e))).
    + destruct (IH _ Hi' Q) as [C D].
      change (push_normal (with_state f1 f2 tw l0 (init m)) (with_imp a b (ipoint m e))) with (push_normal (init m) (ipoint m e)).
      destruct (warm_points _ l (push_normal (init m) (ipoint m e) (p_imp (with_imp a b (ipoint m e))) st)) as [[l' r] st2]. cbn [fst snd] in *.
      split; [constructor; [eexists _, _; reflexivity | assumption] | exact D].
    + destruct (IH _ Hi' HP) as [C D]. destruct (warm_points _ l st) as [[l' r] st2]. cbn [fst snd] in *.
      split; [constructor; [eexists _, _; reflexivity | assumption] | exact D].
Qed.
Lemma neg_twist I l n al : vmul al (mat_vec I (vscale (- l) n)) = vneg (vmul al (mat_vec I (vscale l n))). Proof. vsolve. Qed.
Lemma preserve_warm k st : of_manifold m k -> P st ->
  of_manifold m (fst (warm_manifold k st)) /\ P (snd (warm_manifold k st)).
Proof.
  intros Hk HP. unfold warm_manifold. pose proof Hk as (f1 & f2 & tw & l & E & F & Z).
  assert (F' : Forall2 (of_point m) (x_points m) (k_points k)) by (rewrite E; exact F).
  destruct (preserve_warm_points k Hk (x_points m) (k_points k) st (fun _ h => h) F' HP) as [A B].
  destruct (warm_points k (k_points k) st) as [[l' r] st1]. cbn [fst snd] in A, B. subst k. destruct r.
  2: { cbn [fst snd]. split; [eexists _, _, _, _; split; [reflexivity | split; [exact A | now split]] | exact B]. }
  cbn [fst snd].
  assert (Z1 : slippery m -> vadd (vscale (k_f1 (with_state f1 f2 tw l (init m))) (k_o1 (with_state f1 f2 tw l (init m))))
                               (vscale (k_f2 (with_state f1 f2 tw l (init m))) (k_o2 (with_state f1 f2 tw l (init m)))) = vzero).
  { intros Hz. destruct (Z Hz) as [-> ->]. apply zero_mix. }
  split; [eexists _, _, _, _; split; [reflexivity | split; [exact A | intros Hz; split; apply zero_dot, Z1, Hz]] |].
  rewrite neg_twist.
  match goal with |- P (shift_c _ _ _ (shift_c _ _ _ (shift_c _ _ _ (shift_c _ _ (vneg (vmul _ (mat_vec _ (vscale ?x _)))) ?y)))) =>
    change (P (push_twist (init m) x (push_twist (init m) x y))) end. rewrite !push_twist_eq. apply Ht, Ht.
  match goal with |- P (push_friction _ _ _ _ ?x ?y) => change (P (push_friction (init m) (tan2 m) (k_c12 (init m)) (k_c22 (init m)) x y)) end.
  rewrite push_friction2_eq. apply Hf; [now right | intros Hz; apply zero_dot, Z1, Hz |].
  match goal with |- P (push_friction _ _ _ _ ?x ?y) => change (P (push_friction (init m) (tan1 m) (k_c11 (init m)) (k_c21 (init m)) x y)) end.
  rewrite push_friction1_eq. apply Hf; [now left | intros Hz; apply zero_dot, Z1, Hz | exact B].
Qed.
End Preserve.

(** All manifolds, all iterations. *)
Section Whole.
Variable P : velocities -> Prop.
Variable ms : list manifold.
Hypothesis Hn : forall m e l st, In m ms -> In e (x_points m) -> P st ->
  P (receive_all env (opposite env m (pt1 m e) (pt2 m e) (vscale l (e_n e)) vzero) st).
Hypothesis Hs : forall m e l st, In m ms -> In e (x_points m) -> P st -> P (push_split (init m) (ipoint m e) l st).
Hypothesis Hf : forall m t l st, In m ms -> t = tan1 m \/ t = tan2 m -> (slippery m -> l = 0) -> P st ->
  P (receive_all env (opposite env m (fp1 m) (fp2 m) (vscale l t) vzero) st).
Hypothesis Ht : forall m l st, In m ms -> P st -> P (receive_all env (opposite env m (fp1 m) (fp2 m) vzero (vscale l (nrm m))) st).

Lemma preserve_each f : (forall m k st, In m ms -> of_manifold m k -> P st -> of_manifold m (fst (f k st)) /\ P (snd (f k st))) ->
  forall ms' l st, incl ms' ms -> Forall2 of_manifold ms' l -> P st -> Forall2 of_manifold ms' (fst (each f l st)) /\ P (snd (each f l st)).
Proof.
  intros Hfn ms' l st Hi H. revert st Hi. induction H as [| m k ms' l Hk H IH]; intros st Hi HP; cbn [each]; [split; [constructor | exact HP] |].
  destruct (Hfn m k st (Hi _ (or_introl eq_refl)) Hk HP) as [A B]. destruct (f k st) as [k' st1]. cbn [fst snd] in A, B.
  destruct (IH st1 (fun x hx => Hi x (or_intror hx)) B) as [C D]. destruct (each f l st1) as [l' st2]. cbn [fst snd] in *.
  split; [constructor; assumption | exact D].
Qed.
Lemma preserve_solve split dt l st : Forall2 of_manifold ms l -> P st ->
  Forall2 of_manifold ms (fst (solve split dt l st)) /\ P (snd (solve split dt l st)).
Proof.
  intros H HP. apply preserve_each; [| apply incl_refl | exact H | exact HP].
  intros m k st' Hm Hk HP'. apply (preserve_manifold P m); auto.
Qed.
Lemma preserve_iterate n split dt : forall l st, Forall2 of_manifold ms l -> P st ->
  Forall2 of_manifold ms (fst (iterate n split dt l st)) /\ P (snd (iterate n split dt l st)).
Proof.
  induction n as [| n IH]; intros l st H HP; cbn [iterate]; [now split |].
  destruct (preserve_solve split dt l st H HP) as [A B]. destruct (solve split dt l st) as [l' st']. now apply IH.
Qed.
Lemma preserve_start st : P st -> Forall2 of_manifold ms (fst (start eps thr env ms st)) /\ P (snd (start eps thr env ms st)).
Proof.
  intros HP. apply preserve_each; [| apply incl_refl | | exact HP].
  - intros m k st' Hm Hk HP'. apply (preserve_warm P m); auto.
  - clear. induction ms as [| m l IH]; constructor; [apply init_of_manifold | exact IH].
Qed.
Lemma preserve_step split dt n st : P st -> P (snd (contacts_step eps thr env split dt n ms st)).
Proof.
  intros HP. unfold contacts_step. destruct (preserve_start st HP) as [A B]. destruct (start eps thr env ms st) as [l st1]. cbn [fst snd] in A, B.
  destruct (preserve_iterate n split dt l st1 A B) as [_ D]. destruct (iterate n split dt l st1) as [l' st2]. exact D.
Qed.
End Whole.
Lemma iterate_shape ms n split dt l st : Forall2 of_manifold ms l -> Forall2 of_manifold ms (fst (iterate n split dt l st)).
Proof. intros H. apply (preserve_iterate (fun _ => True) ms); auto. Qed.
Lemma start_shape ms st : Forall2 of_manifold ms (fst (start eps thr env ms st)).
Proof. apply (preserve_start (fun _ => True) ms); auto. Qed.
End Solver.
