(** C149: stacks. *)
From Verif Require Import Base Float24 ArrayModel StackModel StackSpec StackProofs.
Open Scope Z_scope.

(** C149 (partial: push(top()) only while size() < capacity()).  For every history of
    constructing, copying, pushing, popping, reading, writing the top and clearing, all values
    returned are those of a list with its top in front, whatever the capacities; the history is
    undefined exactly if it takes or reads the top of an empty stack. *)
Theorem C149_lifo_partial : forall (A : Type) (os : list (stop A)), roomy os stacks_empty ->
  match spec_run os (fun _ => []) with
  | Ok (_, outs) => exists s, stack_run os stacks_empty = Ok (s, outs)
  | Ub => stack_run os stacks_empty = Ub
  | Fuel => False
  end.
Proof. intros A os F. apply stack_run_ok; [exact F|apply stores_empty]. Qed.
Print Assumptions C149_lifo_partial.

(** C149 refuted: push(top()) on a stack that is full reads memory that was just released. *)
Theorem C149_push_top_refuted : exists os : list (stop Z),
  stack_run os stacks_empty = Ub /\
  match spec_run os (fun _ => []) with Ok (t, _) => t 0%nat = [3; 3] ++ repeat 3 15 | _ => False end.
Proof.
  exists (repeat (StPush 0%nat 3) 16 ++ [StPushTop 0%nat]). split; vm_compute; reflexivity.
Qed.
Print Assumptions C149_push_top_refuted.

(** Twenty pushes cross a growth of the array; a copy is independent of its source. *)
Example C149_case :
  let os := map (fun n => StPush 0%nat (Z.of_nat n)) (seq 0 20) ++
            [StCopy 1%nat 0%nat; StPop 0%nat; StPop 0%nat; StPushTop 0%nat; StTop 1%nat; StSetTop 1%nat 7; StPop 1%nat; StSize 0%nat;
             StClear 1%nat; StSize 1%nat; StNew 2%nat 3; StPush 2%nat 5; StPop 2%nat] in
  roomy os stacks_empty /\
  match stack_run os stacks_empty with
  | Ok (_, outs) => skipn 20 outs =
      [StNone; StVal 19; StVal 18; StNone; StVal 19; StNone; StVal 7; StNum 19; StNone; StNum 0; StNone; StNone; StVal 5]
  | _ => False
  end.
Proof.
  cbv zeta. split; [apply roomyb_sound|]; vm_compute; reflexivity.
Qed.
