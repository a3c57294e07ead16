(** C01: Array behaves as a sequence. *)
From Verif Require Import Base Float24 ArrayModel ArraySpec ArrayProofs.
Open Scope Z_scope.

(** Every history that the sequence specification accepts runs without undefined behaviour,
    returns the same answers, ends with the same sequences in the buffers and never has more
    elements than capacity. *)
Theorem C01_array_is_a_sequence :
  forall (A : Type) (eqb : A -> A -> bool) (ops : list (aop A)) (seqs : sstore A) outs,
    s_run eqb sstore_init ops = Ok (seqs, outs) ->
    exists arrays,
      arr_run eqb astore_init ops = Ok (arrays, outs) /\
      forall k, a_size (arrays k) = zlen (seqs k) /\
                (a_size (arrays k) <= a_cap (arrays k) /\ a_mem (arrays k) = a_cap (arrays k)) /\
                forall i, 0 <= i < zlen (seqs k) -> znth (seqs k) i = Some (a_buf (arrays k) i).
Proof. exact (fun A eqb ops seqs outs H => run_refines eqb ops _ _ seqs outs Repr_init H). Qed.
Print Assumptions C01_array_is_a_sequence.

(** Without addWithoutInit the specification accepts every in-range read. *)
Theorem C01_array_elements_initialised :
  forall (A : Type) (eqb : A -> A -> bool) (ops : list (aop A)) (seqs : sstore A) outs k i,
    Forall no_uninit ops ->
    s_run eqb sstore_init ops = Ok (seqs, outs) ->
    0 <= i < zlen (seqs k) -> exists x, s_get i (seqs k) = Ok x.
Proof. exact run_elements_initialised. Qed.
Print Assumptions C01_array_elements_initialised.

(** C58 refuted: appending 2^24+1 elements to an empty array writes past its buffer, because
    the capacity is rounded through single precision. *)
Theorem C58_bulk_append_overruns_refuted :
  forall (A : Type) (source : arr A) (l : sseq A),
    repr source l -> zlen l = 2 ^ 24 + 1 -> arr_add_range 0 source arr_empty = Ub.
Proof. exact (@reserve_no_room). Qed.
Print Assumptions C58_bulk_append_overruns_refuted.

(** The source array of that refutation exists. *)
Example C58_source_exists : exists (source : arr bool) l, repr source l /\ zlen l = 2 ^ 24 + 1.
Proof.
  exists (mk_arr (fun _ => Some true) (2 ^ 24 + 1) (2 ^ 24 + 1) (2 ^ 24 + 1)),
         (repeat (Some true) (Z.to_nat (2 ^ 24 + 1))).
  unfold repr; cbn [a_size a_cap a_buf]. rewrite zlen_repeat, Z2Nat.id by lia.
  repeat split; try lia.
  intros i Hi; apply znth_repeat; lia.
Qed.

(** Adding a copy of one of its own elements to a full array reads the released buffer. *)
Definition full_history : list (aop Z) :=
  map (fun n => AAdd 0%nat (Z.of_nat n)) (seq 0 16) ++ [AAddElem 0%nat 0%nat 3].

Theorem C58_add_own_element_refuted :
  exists ops : list (aop Z),
    arr_run Z.eqb astore_init ops = Ub /\
    is_ok (arr_run Z.eqb astore_init (firstn 16 ops)) /\ length ops = 17%nat /\
    nth_error ops 16 = Some (AAddElem 0%nat 0%nat 3).
Proof.
  exists full_history.
  split; [vm_compute; reflexivity|]. split; [|split; vm_compute; reflexivity].
  eexists. cbv. reflexivity.
Qed.
Print Assumptions C58_add_own_element_refuted.

(** Non-vacuity: a history using every operation. *)
Definition demo : list (aop Z) :=
  [AReserve 0%nat 3; AAdd 0%nat 5; AAdd 0%nat 6; AAdd 0%nat 7; AAdd 0%nat 8;
   ARemoveAt 0%nat 1; ARemove 0%nat 8; AAssign 1%nat 0%nat; AAddRange 1%nat 0%nat 1;
   AAddElem 0%nat 1%nat 2; ARemoveLast 0%nat 0; ACopy 2%nat 1%nat; AEq 1%nat 2%nat;
   ASet 2%nat 0 9; AEq 1%nat 2%nat; AFind 1%nat 7; AIter 1%nat; AGet 0%nat 0; ASize 0%nat;
   AAddWithoutInit 0%nat 20; ASize 0%nat; ASet 0%nat 2 4; AGet 0%nat 2;
   AClear 1%nat true; AClear 0%nat false; AIter 0%nat].

Example demo_accepted :
  match s_run Z.eqb sstore_init demo with
  | Ok (_, outs) => outs =
      [AUnit; AUnit; AUnit; AUnit; AUnit; AInt 1; AInt 2; AUnit; AUnit; AUnit; AUnit; AUnit;
       ABool true; AUnit; ABool false; AInt 1; AList [5; 7; 7]; AVal 7; AInt 2;
       AUnit; AInt 22; AUnit; AVal 4; AUnit; AUnit; AList []]
  | _ => False
  end.
Proof. vm_compute. reflexivity. Qed.
