(** C02, C03, C59: Deque. *)
From Verif Require Import Base Float24 ArrayModel DequeModel DequeSpec DequeProofs.
Open Scope Z_scope.

(** C02: without copies every history accepted by the sequence specification runs without
    undefined behaviour with the same answers, and the window of the buffer holds the
    sequence.  (Only reads of a missing element are not accepted.) *)
Theorem C02_deque_is_a_sequence :
  forall (A : Type) (eqb : A -> A -> bool) (ops : list (dop A)) (seqs : qstore A) outs,
    Forall (fun o => is_copy o = false) ops ->
    q_run eqb qstore_init ops = Ok (seqs, outs) ->
    exists s, deq_run eqb dstore_init ops = Ok (s, outs) /\
      forall k, d_size (s k) = zlen (seqs k) /\
        0 <= d_first (s k) /\ d_first (s k) + d_size (s k) <= d_cap (s k) /\
        forall i, 0 <= i < zlen (seqs k) -> d_buf (s k) (d_first (s k) + i) = znth (seqs k) i.
Proof. exact (@drun_refines_nocopy). Qed.
Print Assumptions C02_deque_is_a_sequence.

(** C03, what holds: copies of deques whose front is untouched since they were last empty
    (and assignments from any deque of at most nine elements) are faithful, in every history. *)
Theorem C03_deque_copy_partial :
  forall (A : Type) (eqb : A -> A -> bool) (ops : list (dop A)) (seqs : qstore A) outs,
    copies_ok eqb (fun _ => true) qstore_init ops = true ->
    q_run eqb qstore_init ops = Ok (seqs, outs) ->
    exists s, deq_run eqb dstore_init ops = Ok (s, outs) /\
      forall k, d_size (s k) = zlen (seqs k) /\
        0 <= d_first (s k) /\ d_first (s k) + d_size (s k) <= d_cap (s k) /\
        forall i, 0 <= i < zlen (seqs k) -> d_buf (s k) (d_first (s k) + i) = znth (seqs k) i.
Proof. exact (@drun_refines_init). Qed.
Print Assumptions C03_deque_copy_partial.

(** In particular all copies are faithful in histories without addFront and popFront. *)
Theorem C03_deque_copy_back_only_partial :
  forall (A : Type) (eqb : A -> A -> bool) (ops : list (dop A)) (seqs : qstore A) outs,
    Forall back_only ops ->
    q_run eqb qstore_init ops = Ok (seqs, outs) ->
    exists s, deq_run eqb dstore_init ops = Ok (s, outs).
Proof.
  exact (fun A eqb ops seqs outs HB H =>
    match drun_refines_init eqb ops seqs outs
            (back_only_ok eqb ops _ _ seqs outs HB (fun _ => eq_refl) H) H
    with ex_intro _ s (conj E _) => ex_intro _ s E end).
Qed.
Print Assumptions C03_deque_copy_back_only_partial.

(** C03 refuted: copying a deque after one addFront gives a deque whose element is read from a
    slot that was never constructed; the specification accepts the history. *)
Theorem C03_deque_copy_refuted :
  exists ops : list (dop Z),
    deq_run Z.eqb dstore_init ops = Ub /\ is_ok (q_run Z.eqb qstore_init ops) /\
    ops = [DAddFront 0%nat 5; DCopy 1%nat 0%nat; DEq 0%nat 1%nat].
Proof.
  eexists; split; [|split; [|reflexivity]].
  - vm_compute; reflexivity.
  - eexists; reflexivity.
Qed.
Print Assumptions C03_deque_copy_refuted.

(** C03 refuted: assigning a full deque of sixteen elements to an empty one writes past the
    buffer of the destination. *)
Theorem C03_deque_assign_refuted :
  exists ops : list (dop Z),
    deq_run Z.eqb dstore_init ops = Ub /\ is_ok (q_run Z.eqb qstore_init ops) /\
    is_ok (deq_run Z.eqb dstore_init (firstn 16 ops)) /\
    nth_error ops 16 = Some (DAssign 1%nat 0%nat).
Proof.
  exists (repeat (DAddFront 0%nat 1) 7 ++ repeat (DAddBack 0%nat 2) 9 ++ [DAssign 1%nat 0%nat]).
  split; [vm_compute; reflexivity|]. split; [eexists; reflexivity|].
  split; [eexists; vm_compute; reflexivity|reflexivity].
Qed.
Print Assumptions C03_deque_assign_refuted.

(** C59 refuted: used as a first-in first-out queue that alternately holds one and two
    elements, the deque's buffer grows beyond every bound. *)
Theorem C59_fifo_capacity_unbounded_refuted :
  forall (A : Type) (eqb : A -> A -> bool) (x : A) (bound : nat),
    exists n s outs,
      deq_run eqb dstore_init (DAddBack 0%nat x :: concat (repeat [DAddBack 0%nat x; DPopFront 0%nat] n))
        = Ok (s, outs) /\
      d_size (s 0%nat) = 1 /\ Z.of_nat bound <= d_cap (s 0%nat).
Proof.
  intros A eqb x bound.
  destruct (add_back_spec x (@deq_empty A) [] true drepr_empty) as (d & E & R).
  set (s1 := nupd (@dstore_init A) 0%nat d).
  assert (R1 : drepr (s1 0%nat) [x] true) by (unfold s1; rewrite nupd_same; exact R).
  destruct (fifo_unbounded_from eqb x bound s1 x true R1) as (n & s2 & z & f & outs & E2 & R2 & C2).
  exists n, s2, (AUnit :: outs). split.
  - cbn [deq_run deq_step]. change (dstore_init 0%nat) with (@deq_empty A).
    rewrite E; cbn [bind]. fold s1. unfold cycle in E2. rewrite E2. reflexivity.
  - destruct R2 as (H1 & _). rewrite zlen_cons, zlen_nil in H1. split; [lia|].
    destruct R1 as (S1 & P & Q & _). rewrite zlen_cons, zlen_nil in S1. lia.
Qed.
Print Assumptions C59_fifo_capacity_unbounded_refuted.

(** Non-vacuity. *)
Definition dq_demo : list (dop Z) :=
  [DAddBack 0%nat 1; DAddBack 0%nat 2; DCopy 1%nat 0%nat; DAddFront 0%nat 3; DAssign 2%nat 0%nat;
   DEq 0%nat 2%nat; DEq 1%nat 2%nat; DFront 2%nat; DBack 2%nat; DPopFront 0%nat; DPopBack 0%nat;
   DSize 0%nat; DSet 0%nat 0 7; DIter 0%nat; DIter 2%nat; DClear 0%nat; DPopBack 0%nat;
   DCopy 3%nat 0%nat; DGet 2%nat 1].

Example dq_demo_accepted :
  copies_ok Z.eqb (fun _ => true) qstore_init dq_demo = true /\
  match q_run Z.eqb qstore_init dq_demo with
  | Ok (_, outs) => outs =
      [AUnit; AUnit; AUnit; AUnit; AUnit; ABool true; ABool false; AVal 3; AVal 2; AUnit; AUnit;
       AInt 1; AUnit; AList [7]; AList [3; 1; 2]; AUnit; AUnit; AUnit; AVal 1]
  | _ => False
  end.
Proof. vm_compute. split; reflexivity. Qed.

Example dq_nocopy :
  let ops := [DAddBack 0%nat 1; DAddFront 0%nat 2; DPopBack 0%nat; DFront 0%nat] in
  Forall (fun o => is_copy o = false) ops /\
  match q_run Z.eqb qstore_init ops with Ok (_, outs) => outs = [AUnit; AUnit; AUnit; AVal 2] | _ => False end.
Proof. split; [repeat constructor|vm_compute; reflexivity]. Qed.

Example dq_back_only :
  Forall back_only [DAddBack 0%nat 1; DCopy 1%nat 0%nat; DPopBack 1%nat; DAssign 0%nat 1%nat].
Proof. repeat constructor; discriminate. Qed.
