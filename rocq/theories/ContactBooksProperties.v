(** The impulses stored after an update are those that were applied (C94). *)
From Coq Require Import List Reals Lra Bool Arith.
From Verif Require Import VecModel VecProofs LinAlgProperties ContactModel ContactSpec ContactProofs ContactLawProofs ContactBounceProofs ContactBooksProofs ContactProperties.
Import ListNotations.
Local Open Scope R_scope.

Theorem C94_stored_is_applied_partial : forall eps threshold env split dt n ms st ms' st',
  0 < eps -> (forall m, In m ms -> eps <= vlen (normal_sum m) /\ x_tw m = 0) ->
  contacts_step eps threshold env split dt n ms st = (ms', st') ->
  moving_alike st' (receive_all env (concat (map (kept_impulses env) ms')) st).
Proof.
  intros eps thr env split dt n ms st ms' st' He H E.
  assert (A := books eps thr env split dt n ms st He (fun m Hm => proj1 (H m Hm))). rewrite E in A. cbn [fst snd] in A.
  rewrite receive_all_app in A. replace (receive_all env (concat (map (extra_twist env) ms)) st) with st in A; [exact A |].
  clear - H. revert st. induction ms as [| m ms IH]; intros st; [reflexivity |]. cbn [map concat]. rewrite receive_all_app, no_twist by (apply H; now left).
  apply IH. intros x hx. apply H. now right.
Qed.
Print Assumptions C94_stored_is_applied_partial.
Example C94_not_vacuous :
  let m := Manifold 0 1 tr_id tr_id 1 1 0 0 [Contact (V3 0 1 0) vzero vzero 0 true 2] 1 1 0 (V3 1 0 0) (V3 0 0 (-1)) in
  0 < 1 / 100 /\ (forall m', In m' [m] -> 1 / 100 <= vlen (normal_sum m') /\ x_tw m' = 0) /\
  exists ms' st', contacts_step (1 / 100) 0 balls true 1 10 [m] (moving balls) = (ms', st').
Proof.
  cbv zeta. split; [lra |]. split.
  - intros m' [<- | []]. split; [| reflexivity]. replace (normal_sum _) with (V3 0 1 0); [rewrite vlen_y; lra |].
    unfold normal_sum. cbn. unfold vadd, vzero. cbn. f_equal; ring.
  - destruct (contacts_step _ _ _ _ _ _ _ _) as [a b]. now exists a, b.
Qed.
(** With a kept twist the angular velocity is off after any number of iterations. *)
Theorem C94_twist_refuted : exists eps threshold env m st,
  0 < eps /\ eps <= vlen (normal_sum m) /\ unlocked (env (x_b2 m)) /\ immovable (env (x_b1 m)) /\
  forall split dt n ms' st', contacts_step eps threshold env split dt n [m] st = (ms', st') ->
  ~ moving_alike st' (receive_all env (concat (map (kept_impulses env) ms')) st).
Proof.
  exists (1 / 100), 0, (fun b => match b with O => ground | _ => ball vzero end), twisting, (fun _ => Vel vzero vzero vzero vzero).
  destruct twisting_normal as [E1 E2]. set (env := fun b => match b with O => ground | _ => ball vzero end).
  split; [lra |]. split; [rewrite E1, vlen_y; lra |]. split; [apply ball_unlocked |]. split; [apply ground_immovable |].
  intros split dt n ms' st' E.
  assert (A := books (1 / 100) 0 env split dt n [twisting] (fun _ => Vel vzero vzero vzero vzero) ltac:(lra)
                 ltac:(intros m [<- | []]; rewrite E1, vlen_y; lra)).
  rewrite E in A. cbn [fst snd map concat] in A. rewrite app_nil_r, receive_all_app, recv_swap in A.
  set (s := receive_all env (concat (map (kept_impulses env) ms')) _) in *. clearbody s. intros B.
  destruct (A 1%nat) as [_ A1], (B 1%nat) as [_ B1]. rewrite A1 in B1. revert B1. unfold extra_twist. rewrite E2.
  cbn [twisting x_points existsb e_resting orb x_tw]. rewrite vscale_1. unfold receive_all, opposite. cbn [fold_left]. unfold receive.
  cbn [i_body x_b1 x_b2 Nat.eqb i_lin i_at i_ang cw]. unfold env, ball. cbn [r_al r_iw r_x]. rewrite mat_vec_id.
  destruct (cw (s 1%nat)) as [x y z] eqn:W. destruct (mean _) as [p q r]. unfold vmul, vadd, vcross, vsub, vzero. cbn [vx vy vz]. intros [= _ D _].
  rewrite W in D. unfold mat_id, mk_mat, m10, m11, m12 in D. cbn [row1 vx vy vz] in D. lra.
Qed.
Print Assumptions C94_twist_refuted.
