(** Evaluating the contact solver on single contacts. *)
From Coq Require Import List Reals Lra Psatz Bool Arith.
From Verif Require Import VecModel VecProofs LinAlgProperties ContactModel ContactSpec ContactProofs ContactLawProofs ContactBounceProofs.
Import ListNotations.
Local Open Scope R_scope.

Section Manifold.
Variables (eps thr : R) (env : nat -> rigid) (m : manifold) (e : contact) (split : bool) (dt : R).
Notation init := (init_manifold eps thr env).
Notation ip := (ipoint thr env).
Hypothesis Hpts : x_points m = [e].
Hypothesis Hfresh : e_resting e = false.
Hypothesis Hsh : shallow split e.
Definition held (a : R) (k : constraint) : Prop := exists b, k = with_state 0 0 0 [with_imp a b (ip m e)] (init m).
Lemma held_start st : held 0 (fst (warm_manifold (init m) st)) /\ snd (warm_manifold (init m) st) = st.
Proof.
  unfold warm_manifold. change (k_points (init m)) with (map (ip m) (x_points m)). rewrite Hpts. cbn [map warm_points].
  change (p_resting (ip m e)) with (e_resting e). rewrite Hfresh. cbn [orb fst snd]. split; [now exists 0 | reflexivity].
Qed.
Lemma held_solve a k st : frictionless m -> held a k ->
  held (next thr env m e a st) (fst (solve_manifold split dt k st)) /\
  same_c (snd (solve_manifold split dt k st)) (after env m e (next thr env m e a st - a) st).
Proof.
  intros Hfr (b & ->).
  assert (O : one eps thr env m e a [with_state 0 0 0 [with_imp a b (ip m e)] (init m)]) by now exists b.
  destruct (one_solve eps thr env m e Hfr split dt Hsh a _ st O) as [(b' & A) B]. unfold solve in A, B. cbn [each] in A, B.
  destruct (solve_manifold split dt (with_state 0 0 0 [with_imp a b (ip m e)] (init m)) st) as [k' st']. cbn [fst snd] in *.
  injection A as ->. split; [now exists b' | exact B].
Qed.
(** One iteration on a new contact. *)
Lemma one_iteration st l s1 g1 s2 g2 s3 g3 :
  l = next thr env m e 0 st -> s1 = after env m e l st ->
  g1 = clamp_to (mixed_friction m * l) (- slide env m (tan1 eps thr env m) s1 * k_inv1 (init m)) -> s2 = rub env m (tan1 eps thr env m) g1 s1 ->
  g2 = clamp_to (mixed_friction m * l) (- slide env m (tan2 eps thr env m) s2 * k_inv2 (init m)) -> s3 = rub env m (tan2 eps thr env m) g2 s2 ->
  g3 = clamp_to (mixed_friction m * l) (- vdot (vsub (cw (s3 (x_b2 m))) (cw (s3 (x_b1 m)))) (nrm eps thr env m) * k_invt (init m)) ->
  exists b', fst (contacts_step eps thr env split dt 1 [m] st) = [store_manifold m (with_state g1 g2 g3 [with_imp l b' (ip m e)] (init m))] /\
             same_c (snd (contacts_step eps thr env split dt 1 [m] st)) (spin eps thr env m g3 s3).
Proof.
  intros Hl Hs1 Hg1 Hs2 Hg2 Hs3 Hg3.
  assert (W : start eps thr env [m] st = ([with_state 0 0 0 [with_imp 0 0 (ip m e)] (init m)], st)).
  { unfold start, warm_start. cbn [map each]. unfold warm_manifold. change (k_points (init m)) with (map (ip m) (x_points m)). rewrite Hpts.
    cbn [map warm_points]. change (p_resting (ip m e)) with (e_resting e). rewrite Hfresh. reflexivity. }
  unfold contacts_step. rewrite W. cbn [iterate]. unfold solve. cbn [each].
  destruct (eval_manifold eps thr env m e split dt Hsh 0 0 0 0 0 st l s1 g1 s2 g2 s3 g3 Hl) as (b' & A & B).
  - now rewrite Rminus_0_r.
  - now rewrite Rplus_0_l.
  - now rewrite Rminus_0_r.
  - now rewrite Rplus_0_l.
  - now rewrite Rminus_0_r.
  - now rewrite Rplus_0_l.
  - rewrite Rminus_0_r in B.
    destruct (solve_manifold split dt (with_state 0 0 0 [with_imp 0 0 (ip m e)] (init m)) st) as [k' st']. cbn [fst snd] in *. subst k'.
    exists b'. split; [reflexivity | exact B].
Qed.
End Manifold.

(** ** Two contacts without friction in turn *)
Section Two.
Variables (eps thr : R) (env : nat -> rigid) (m m' : manifold) (e e' : contact) (split : bool) (dt : R).
Hypothesis Hpts : x_points m = [e].
Hypothesis Hpts' : x_points m' = [e'].
Hypothesis Hfresh : e_resting e = false.
Hypothesis Hfresh' : e_resting e' = false.
Hypothesis Hfr : frictionless m.
Hypothesis Hfr' : frictionless m'.
Hypothesis Hsh : shallow split e.
Hypothesis Hsh' : shallow split e'.
Definition two (a a' : R) (l : list constraint) : Prop := exists k k', l = [k; k'] /\ held eps thr env m e a k /\ held eps thr env m' e' a' k'.
Lemma two_start st : two 0 0 (fst (start eps thr env [m; m'] st)) /\ snd (start eps thr env [m; m'] st) = st.
Proof.
  unfold start, warm_start. cbn [map each].
  destruct (held_start eps thr env m e Hpts Hfresh st) as [A B]. destruct (warm_manifold (init_manifold eps thr env m) st) as [k st1]. cbn [fst snd] in A, B. subst st1.
  destruct (held_start eps thr env m' e' Hpts' Hfresh' st) as [C D]. destruct (warm_manifold (init_manifold eps thr env m') st) as [k' st1]. cbn [fst snd] in C, D. subst st1.
  cbn [fst snd]. split; [now exists k, k' | reflexivity].
Qed.
Lemma two_solve a a' l st st0 b b' st1 st2 : two a a' l -> same_c st st0 -> b = next thr env m e a st0 -> same_c (after env m e (b - a) st0) st1 ->
  b' = next thr env m' e' a' st1 -> same_c (after env m' e' (b' - a') st1) st2 ->
  two b b' (fst (solve split dt l st)) /\ same_c (snd (solve split dt l st)) st2.
Proof.
  intros (k & k' & -> & H & H') S0 Eb S1 Eb' S2. unfold solve. cbn [each].
  destruct (held_solve eps thr env m e split dt Hsh a k st Hfr H) as [A B]. destruct (solve_manifold split dt k st) as [k1 s1]. cbn [fst snd] in A, B.
  rewrite (next_same thr env m e a st st0 S0), <- Eb in A, B.
  assert (S3 : same_c s1 st1).
  { eapply same_c_trans; [exact B |]. eapply same_c_trans; [| exact S1]. now apply receive_all_same_c. }
  destruct (held_solve eps thr env m' e' split dt Hsh' a' k' s1 Hfr' H') as [C D]. destruct (solve_manifold split dt k' s1) as [k2 s2]. cbn [fst snd] in C, D.
  rewrite (next_same thr env m' e' a' s1 st1 S3), <- Eb' in C, D. cbn [fst snd]. split; [now exists k1, k2 |].
  eapply same_c_trans; [exact D |]. eapply same_c_trans; [| exact S2]. now apply receive_all_same_c.
Qed.
End Two.

(** ** Angular momentum given by a pair of impulses at different points *)
Lemma angular_pair_gain env inertia bodies m p1 p2 lin ang st : NoDup bodies -> carried env inertia bodies -> In (x_b1 m) bodies -> In (x_b2 m) bodies ->
  angular_momentum env inertia bodies (receive_all env (opposite env m p1 p2 lin ang) st) =
  vadd (angular_momentum env inertia bodies st) (vcross (vsub p2 p1) lin).
Proof.
  intros N M I1 I2. unfold receive_all, opposite. cbn [fold_left]. rewrite !angular_receive by assumption.
  destruct (in_dec Nat.eq_dec (x_b1 m) bodies) as [_ | X]; [| contradiction]. destruct (in_dec Nat.eq_dec (x_b2 m) bodies) as [_ | X]; [| contradiction].
  generalize (angular_momentum env inertia bodies st), (r_x (env (x_b1 m))), (r_x (env (x_b2 m))). clear. vsolve.
Qed.
Lemma angular_same env inertia bodies st st' : same_c st st' -> angular_momentum env inertia bodies st = angular_momentum env inertia bodies st'.
Proof. intros H. apply total_ext. intros i _. destruct (H i) as [-> ->]. reflexivity. Qed.
