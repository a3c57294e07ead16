(** The impulses a step applies are those it stores. *)
From Coq Require Import List Reals Lra Psatz Bool Arith.
From Verif Require Import VecModel VecProofs LinAlgProperties ContactModel ContactSpec ContactProofs ContactLawProofs ContactBounceProofs.
Import ListNotations.
Local Open Scope R_scope.

Lemma recv_swap env l1 l2 : forall st, receive_all env l1 (receive_all env l2 st) = receive_all env l2 (receive_all env l1 st).
Proof.
  assert (S : forall i l st, receive_all env l (receive env i st) = receive env i (receive_all env l st)).
  { intros i. induction l as [| j l IH]; intros st; [reflexivity |]. unfold receive_all in *. cbn [fold_left]. now rewrite receive_comm, IH. }
  induction l1 as [| i l1 IH]; intros st; [reflexivity |].
  change (receive_all env l1 (receive env i (receive_all env l2 st)) = receive_all env l2 (receive_all env l1 (receive env i st))).
  now rewrite <- S, IH.
Qed.

Section Books.
Variables (eps thr : R) (env : nat -> rigid).
Notation init := (init_manifold eps thr env).
Notation ip := (ipoint thr env).
Notation recv := (receive_all env).
Definition push_of (m : manifold) (e : contact) (a : R) : list impulse := opposite env m (pt1 m e) (pt2 m e) (vscale a (e_n e)) vzero.
Definition pushes (m : manifold) (es : list contact) (l : list cpoint) : list impulse :=
  concat (map (fun '(e, p) => push_of m e (p_imp p)) (combine es l)).
Definition rubs (m : manifold) (f1 f2 tw : R) : list impulse :=
  opposite env m (fp1 m) (fp2 m) (vadd (vscale f1 (tan1 eps thr env m)) (vscale f2 (tan2 eps thr env m))) (vscale tw (nrm eps thr env m)).
Definition applied (m : manifold) (k : constraint) : list impulse := pushes m (x_points m) (k_points k) ++ rubs m (k_f1 k) (k_f2 k) (k_tw k).
Lemma push_merge m e a b s : recv (push_of m e b) (recv (push_of m e a) s) = recv (push_of m e (a + b)) s.
Proof. unfold push_of. rewrite pair_merge. f_equal. f_equal; [clear; vsolve | apply vadd_0]. Qed.
Lemma book_point split dt k m e p st s0 : of_manifold eps thr env m k -> of_point thr env m e p -> same_c st (recv (push_of m e (p_imp p)) s0) ->
  of_point thr env m e (fst (solve_point split dt k p st)) /\
  same_c (snd (solve_point split dt k p st)) (recv (push_of m e (p_imp (fst (solve_point split dt k p st)))) s0).
Proof.
  intros (f1 & f2 & tw & l & -> & _) (a & b & ->) H. change (p_imp (with_imp a b (ip m e))) with a in H.
  assert (Q : forall x, same_c (push_normal (init m) (ip m e) (x - a) st) (recv (push_of m e x) s0)).
  { intros x. rewrite push_normal_eq. eapply same_c_trans; [apply receive_all_same_c; exact H |]. fold (push_of m e (x - a)). rewrite push_merge.
    replace (a + (x - a)) with x by ring. apply same_c_refl. }
  unfold solve_point. destruct split; cbn [fst snd]; (split; [eexists _, _; reflexivity |]).
  - eapply same_c_trans; [apply push_split_same |]. apply Q.
  - apply Q.
Qed.
Lemma book_points split dt k m : of_manifold eps thr env m k -> forall es l, Forall2 (of_point thr env m) es l -> forall sum st s0,
  same_c st (recv (pushes m es l) s0) ->
  same_c (snd (solve_points split dt k l sum st)) (recv (pushes m es (fst (fst (solve_points split dt k l sum st)))) s0).
Proof.
  intros Hk es l F. induction F as [| e p es l Hp F IH]; intros sum st s0 H; [exact H |]. cbn [solve_points].
  unfold pushes in H. cbn [combine map concat] in H. fold (pushes m es l) in H. rewrite receive_all_app, recv_swap in H.
  destruct (book_point split dt k m e p st _ Hk Hp H) as [_ B]. destruct (solve_point split dt k p st) as [p' st1]. cbn [fst snd] in B.
  rewrite recv_swap in B. specialize (IH (sum + p_imp p') st1 (recv (push_of m e (p_imp p')) s0) B).
  destruct (solve_points split dt k l (sum + p_imp p') st1) as [[l' s'] st2]. cbn [fst snd] in *.
  unfold pushes. cbn [combine map concat]. fold (pushes m es l'). now rewrite receive_all_app.
Qed.
Lemma rubs_merge m f1 f2 tw t d w s : 
  recv (opposite env m (fp1 m) (fp2 m) (vscale d t) (vscale w (nrm eps thr env m))) (recv (rubs m f1 f2 tw) s) =
  recv (opposite env m (fp1 m) (fp2 m) (vadd (vadd (vscale f1 (tan1 eps thr env m)) (vscale f2 (tan2 eps thr env m))) (vscale d t))
          (vadd (vscale tw (nrm eps thr env m)) (vscale w (nrm eps thr env m)))) s.
Proof. unfold rubs. now rewrite pair_merge. Qed.
Lemma book_manifold split dt k m st s0 : of_manifold eps thr env m k -> same_c st (recv (applied m k) s0) ->
  same_c (snd (solve_manifold split dt k st)) (recv (applied m (fst (solve_manifold split dt k st))) s0).
Proof.
  intros Hk H. unfold applied in H. rewrite receive_all_app, recv_swap in H. unfold solve_manifold.
  assert (F : Forall2 (of_point thr env m) (x_points m) (k_points k)) by (destruct Hk as (f1 & f2 & tw & l & -> & F & _); exact F).
  assert (A := book_points split dt k m Hk _ _ F 0 st _ H). destruct (solve_points split dt k (k_points k) 0 st) as [[l' sum] st1]. cbn [fst snd] in A.
  rewrite recv_swap in A. set (s1 := recv (pushes m (x_points m) l') s0) in *.
  destruct Hk as (f1 & f2 & tw & l & -> & _). cbn [with_state k_f1 k_f2 k_tw] in A.
  unfold solve_friction, solve_twist. cbv zeta.
  set (K := with_state f1 f2 tw l (init m)). change (k_f1 K) with f1. change (k_f2 K) with f2. change (k_tw K) with tw.
  match goal with |- context [clamp_to ?x ?y - f1] => set (g1 := clamp_to x y) end.
  assert (B : same_c (push_friction K (k_t1 K) (k_c11 K) (k_c21 K) (g1 - f1) st1) (recv (rubs m g1 f2 tw) s1)).
  { change (push_friction K (k_t1 K) (k_c11 K) (k_c21 K) (g1 - f1) st1) with (push_friction (init m) (tan1 eps thr env m) (k_c11 (init m)) (k_c21 (init m)) (g1 - f1) st1).
    rewrite push_friction1_eq. eapply same_c_trans; [apply receive_all_same_c; exact A |]. rewrite <- (vscale_0 (nrm eps thr env m)), rubs_merge.
    unfold rubs. rewrite vscale_0, vadd_0. clearbody g1. clear.
    replace (vadd (vadd _ _) _) with (vadd (vscale g1 (tan1 eps thr env m)) (vscale f2 (tan2 eps thr env m))); [apply same_c_refl |].
    generalize (tan1 eps thr env m), (tan2 eps thr env m). clear. vsolve. }
  revert B. generalize (push_friction K (k_t1 K) (k_c11 K) (k_c21 K) (g1 - f1) st1). clearbody g1. intros st2 B.
  match goal with |- context [clamp_to ?x ?y - f2] => set (g2 := clamp_to x y) end.
  assert (C : same_c (push_friction K (k_t2 K) (k_c12 K) (k_c22 K) (g2 - f2) st2) (recv (rubs m g1 g2 tw) s1)).
  { change (push_friction K (k_t2 K) (k_c12 K) (k_c22 K) (g2 - f2) st2) with (push_friction (init m) (tan2 eps thr env m) (k_c12 (init m)) (k_c22 (init m)) (g2 - f2) st2).
    rewrite push_friction2_eq. eapply same_c_trans; [apply receive_all_same_c; exact B |]. rewrite <- (vscale_0 (nrm eps thr env m)), rubs_merge.
    unfold rubs. rewrite vscale_0, vadd_0. clearbody g2. clear.
    replace (vadd (vadd _ _) _) with (vadd (vscale g1 (tan1 eps thr env m)) (vscale g2 (tan2 eps thr env m))); [apply same_c_refl |].
    generalize (tan1 eps thr env m), (tan2 eps thr env m). clear. vsolve. }
  revert C. generalize (push_friction K (k_t2 K) (k_c12 K) (k_c22 K) (g2 - f2) st2). clearbody g2. intros st3 C.
  match goal with |- context [clamp_to ?x ?y - tw] => set (g3 := clamp_to x y) end.
  assert (D : same_c (push_twist K (g3 - tw) st3) (recv (rubs m g1 g2 g3) s1)).
  { change (push_twist K (g3 - tw) st3) with (push_twist (init m) (g3 - tw) st3).
    rewrite push_twist_eq. eapply same_c_trans; [apply receive_all_same_c; exact C |]. unfold rubs. rewrite pair_merge, vadd_0.
    replace (vadd (vscale tw _) _) with (vscale g3 (nrm eps thr env m)); [apply same_c_refl |]. clearbody g3.
    generalize (nrm eps thr env m). clear. vsolve. }
  cbn [fst snd]. eapply same_c_trans; [exact D |]. unfold applied. rewrite receive_all_app. apply same_c_refl.
Qed.
Fixpoint applied_all (ms : list manifold) (l : list constraint) : list impulse :=
  match ms, l with m :: ms, k :: l => applied m k ++ applied_all ms l | _, _ => [] end.
Lemma book_solve split dt : forall ms l, Forall2 (of_manifold eps thr env) ms l -> forall st s0, same_c st (recv (applied_all ms l) s0) ->
  same_c (snd (solve split dt l st)) (recv (applied_all ms (fst (solve split dt l st))) s0).
Proof.
  intros ms l F. unfold solve. induction F as [| m k ms l Hk F IH]; intros st s0 H; [exact H |]. cbn [each applied_all] in *.
  rewrite receive_all_app, recv_swap in H. assert (A := book_manifold split dt k m st _ Hk H).
  destruct (solve_manifold split dt k st) as [k' st1]. cbn [fst snd] in A. rewrite recv_swap in A. specialize (IH st1 _ A).
  destruct (each (solve_manifold split dt) l st1) as [l' st2]. cbn [fst snd applied_all] in *. now rewrite receive_all_app.
Qed.
Lemma book_iterate split dt ms n : forall l, Forall2 (of_manifold eps thr env) ms l -> forall st s0, same_c st (recv (applied_all ms l) s0) ->
  same_c (snd (iterate n split dt l st)) (recv (applied_all ms (fst (iterate n split dt l st))) s0).
Proof.
  induction n as [| n IH]; intros l F st s0 H; [exact H |]. cbn [iterate].
  assert (A := book_solve split dt ms l F st s0 H). assert (B := iterate_shape eps thr env ms 1 split dt l st F). cbn [iterate] in B.
  destruct (solve split dt l st) as [l' st']. cbn [fst snd] in A, B. now apply IH.
Qed.
(** The warm start. *)
Lemma warm_pushes m : forall es st s, recv (pushes m es (fst (fst (warm_points (init m) (map (ip m) es) st)))) s = recv (kept_normals env m es) s.
Proof.
  induction es as [| e es IH]; intros st s; [reflexivity |]. cbn [map warm_points]. change (p_resting (ip m e)) with (e_resting e).
  unfold kept_normals. cbn [map concat]. fold (kept_normals env m es). destruct (e_resting e).
  - specialize (IH (push_normal (init m) (ip m e) (p_imp (ip m e)) st)).
    destruct (warm_points (init m) (map (ip m) es) (push_normal (init m) (ip m e) (p_imp (ip m e)) st)) as [[l' r] st']. cbn [fst snd] in *.
    unfold pushes. cbn [combine map concat]. fold (pushes m es l'). rewrite !receive_all_app. change (p_imp (ip m e)) with (e_imp e). apply IH.
  - specialize (IH st). destruct (warm_points (init m) (map (ip m) es) st) as [[l' r] st']. cbn [fst snd app] in *.
    unfold pushes. cbn [combine map concat]. fold (pushes m es l'). rewrite receive_all_app. cbn [with_imp p_imp]. unfold push_of.
    rewrite vscale_0, pair_zero. apply IH.
Qed.
Lemma frame m : 0 < eps -> eps <= vlen (normal_sum m) ->
  vlen2 (normal_of m) = 1 /\ vlen2 (tan1 eps thr env m) = 1 /\ vdot (tan1 eps thr env m) (normal_of m) = 0 /\ tan2 eps thr env m = vcross (normal_of m) (tan1 eps thr env m).
Proof.
  intros He Hn. assert (N : vlen2 (normal_of m) = 1) by (apply normal_unit; lra).
  assert (T : vlen2 (tan1 eps thr env m) = 1 /\ vdot (tan1 eps thr env m) (normal_of m) = 0).
  { rewrite <- (nrm_eq eps thr env m Hn). unfold tan1, init_manifold. cbn [k_t1]. apply tangent_frame; [lra |].
    change (vlen2 (nrm eps thr env m) = 1). now rewrite nrm_eq. }
  destruct T as [T1 T2]. split; [exact N | split; [exact T1 | split; [exact T2 |]]]. rewrite <- (nrm_eq eps thr env m Hn). reflexivity.
Qed.
Lemma book_warm m st : 0 < eps -> eps <= vlen (normal_sum m) ->
  snd (warm_manifold (init m) st) = recv (applied m (fst (warm_manifold (init m) st)) ++ extra_twist env m) st.
Proof.
  intros He Hn. rewrite (warm_manifold_eq eps thr env m st He Hn). fold (extra_twist env m). rewrite !receive_all_app. f_equal.
  unfold applied, kept_impulses, warm_manifold. fold (kept_normals env m (x_points m)). rewrite !receive_all_app.
  change (k_points (init m)) with (map (ip m) (x_points m)). assert (W := warm_pushes m (x_points m) st st). destruct (warm_points_eq eps thr env m (x_points m) st) as [_ B].
  destruct (warm_points (init m) (map (ip m) (x_points m)) st) as [[l r] st1]. cbn [fst snd] in W, B. subst r. rewrite <- W.
  destruct (existsb e_resting (x_points m)); cbn [fst with_state k_points k_f1 k_f2 k_tw].
  - f_equal. unfold rubs. destruct (frame m He Hn) as (N & T1 & T2 & T3).
    change (k_t1 (init m)) with (tan1 eps thr env m). change (k_t2 (init m)) with (tan2 eps thr env m). change (k_f1 (init m)) with (x_f1 m).
    change (k_f2 (init m)) with (x_f2 m). change (k_o1 (init m)) with (x_v1 m). change (k_o2 (init m)) with (x_v2 m). change (k_tw (init m)) with (x_tw m).
    rewrite T3, frame_complete by assumption. now rewrite fp1_mean, fp2_mean, nrm_eq.
  - unfold rubs. rewrite !vscale_0, vadd_0, pair_zero. reflexivity.
Qed.
Lemma book_start : 0 < eps -> forall ms st, (forall m, In m ms -> eps <= vlen (normal_sum m)) ->
  snd (start eps thr env ms st) = recv (applied_all ms (fst (start eps thr env ms st))) (recv (concat (map (extra_twist env) ms)) st).
Proof.
  intros He. unfold start, warm_start. induction ms as [| m ms IH]; intros st H; cbn [map each concat]; [reflexivity |].
  assert (A := book_warm m st He (H m (or_introl eq_refl))). destruct (warm_manifold (init m) st) as [k st1]. cbn [fst snd] in A.
  specialize (IH st1 (fun x hx => H x (or_intror hx))). destruct (each warm_manifold (map init ms) st1) as [l st2]. cbn [fst snd applied_all] in *.
  rewrite IH, A, !receive_all_app. f_equal. rewrite (recv_swap env (applied m k)). rewrite (recv_swap env (applied m k)). reflexivity.
Qed.
(** What is stored. *)
Lemma store_applied m k s : 0 < eps -> eps <= vlen (normal_sum m) -> of_manifold eps thr env m k ->
  recv (kept_impulses env (store_manifold m k)) s = recv (applied m k) s.
Proof.
  intros He Hn (f1 & f2 & tw & l & -> & F & _). destruct (frame m He Hn) as (N & T1 & T2 & T3).
  set (K := with_state f1 f2 tw l (init m)). unfold kept_impulses, applied. change (k_points K) with l. change (k_f1 K) with f1. change (k_f2 K) with f2. change (k_tw K) with tw.
  rewrite !receive_all_app. change (x_points (store_manifold m K)) with (map (fun '(e, p) => store_contact e p) (combine (x_points m) l)).
  assert (P : forall es l, Forall2 (of_point thr env m) es l ->
    concat (map (fun e => if e_resting e then opposite env (store_manifold m K) (tr_point (x_t1 (store_manifold m K)) (e_p1 e)) (tr_point (x_t2 (store_manifold m K)) (e_p2 e)) (vscale (e_imp e) (e_n e)) vzero else [])
       (map (fun '(e, p) => store_contact e p) (combine es l))) = pushes m es l).
  { clear F. intros es ps F. induction F as [| e p es ps Hp F IH]; [reflexivity |]. unfold pushes. cbn [combine map concat]. fold (pushes m es ps). rewrite <- IH. reflexivity. }
  rewrite (P _ _ F). clear P.
  assert (X : existsb e_resting (map (fun '(e, p) => store_contact e p) (combine (x_points m) l)) = true).
  { destruct (x_points m) as [| e es] eqn:E.
    - exfalso. unfold normal_sum in Hn. rewrite E in Hn. cbn [map fold_right] in Hn. replace (vlen vzero) with 0 in Hn; [lra |].
      unfold vlen. replace (vlen2 vzero) with 0 by (unfold vlen2, vzero; cbn; ring). now rewrite sqrt_0.
    - inversion F. reflexivity. }
  rewrite X.
  assert (S : map (fun e => (e_n e, e_p1 e, e_p2 e)) (map (fun '(e, p) => store_contact e p) (combine (x_points m) l)) = map (fun e => (e_n e, e_p1 e, e_p2 e)) (x_points m)).
  { clear - F. induction F as [| e p es l Hp F IH]; [reflexivity |]. cbn [combine map]. now rewrite IH. }
  assert (G : forall (A : Type) (h : vec3 * vec3 * vec3 -> A), map (fun e => h (e_n e, e_p1 e, e_p2 e)) (x_points (store_manifold m K)) = map (fun e => h (e_n e, e_p1 e, e_p2 e)) (x_points m)).
  { intros A h. rewrite <- (map_map (fun e => (e_n e, e_p1 e, e_p2 e)) h), <- (map_map (fun e => (e_n e, e_p1 e, e_p2 e)) h (x_points m)). f_equal. exact S. }
  assert (Q1 : points1 (store_manifold m K) = points1 m) by exact (G vec3 (fun t => tr_point (x_t1 m) (snd (fst t)))).
  assert (Q2 : points2 (store_manifold m K) = points2 m) by exact (G vec3 (fun t => tr_point (x_t2 m) (snd t))).
  assert (Q3 : normal_of (store_manifold m K) = normal_of m).
  { unfold normal_of. assert (Q : normal_sum (store_manifold m K) = normal_sum m) by (unfold normal_sum; f_equal; exact (G vec3 (fun t => fst (fst t)))). now rewrite Q. }
  rewrite Q1, Q2, Q3. f_equal. unfold rubs. rewrite fp1_mean, fp2_mean, nrm_eq by exact Hn.
  change (opposite env (store_manifold m K)) with (opposite env m). change (x_tw (store_manifold m K)) with tw.
  change (x_f1 (store_manifold m K)) with f1. change (x_f2 (store_manifold m K)) with f2.
  change (x_v1 (store_manifold m K)) with (tan1 eps thr env m). change (x_v2 (store_manifold m K)) with (tan2 eps thr env m).
  f_equal. unfold tangential. rewrite vdot_vadd_l, !vdot_vscale_l, T2, T3. destruct (cross_unit _ _ N T1 T2) as (_ & O & _). rewrite O.
  generalize (vadd (vscale f1 (tan1 eps thr env m)) (vscale f2 (vcross (normal_of m) (tan1 eps thr env m)))), (normal_of m). clear. vsolve.
Qed.
Lemma store_all ms : 0 < eps -> (forall m, In m ms -> eps <= vlen (normal_sum m)) -> forall l s, Forall2 (of_manifold eps thr env) ms l ->
  recv (concat (map (kept_impulses env) (map (fun '(m, k) => store_manifold m k) (combine ms l)))) s = recv (applied_all ms l) s.
Proof.
  intros He. induction ms as [| m ms IH]; intros H l s F; inversion F as [| m0 k ms0 l0 Hk F0]; subst; [reflexivity |].
  cbn [combine map concat applied_all]. rewrite !receive_all_app, store_applied by (auto; apply H; now left). apply IH; [| exact F0].
  intros x hx. apply H. now right.
Qed.
Lemma books split dt n ms st : 0 < eps -> (forall m, In m ms -> eps <= vlen (normal_sum m)) ->
  same_c (snd (contacts_step eps thr env split dt n ms st))
    (recv (concat (map (extra_twist env) ms) ++ concat (map (kept_impulses env) (fst (contacts_step eps thr env split dt n ms st)))) st).
Proof.
  intros He H. unfold contacts_step. assert (A := book_start He ms st H). assert (B := start_shape eps thr env ms st).
  destruct (start eps thr env ms st) as [l st1]. cbn [fst snd] in A, B.
  assert (C : same_c st1 (recv (applied_all ms l) (recv (concat (map (extra_twist env) ms)) st))) by (rewrite A; apply same_c_refl).
  assert (D := book_iterate split dt ms n l B st1 _ C). assert (E := iterate_shape eps thr env ms n split dt l st1 B).
  destruct (iterate n split dt l st1) as [l' st2]. cbn [fst snd] in *. rewrite receive_all_app, store_all by assumption. exact D.
Qed.
End Books.
