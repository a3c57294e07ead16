(** Model of [reactphysics3d::Stack<T>] (include/reactphysics3d/containers/Stack.h).

    The representation is the one of the arrays of ArrayModel: mArray, mNbElements, mCapacity, and
    the number of slots of the block mArray points to.  Sizes do not wrap, allocation never fails.
    Not modelled: destructors of T (allocate copies the elements and never destroys the old ones,
    Stack.h:73-80) and the destructor of Stack.
    Several stacks live in a store. *)
From Verif Require Import Base Float24 ArrayModel.
Open Scope Z_scope.

(** Stack.h:62-86 allocate. *)
Definition stack_allocate {A} (c : Z) (a : arr A) : res (arr A) :=
  let nc := round_cap c in
  let* nb :=
    if (0 <? a_cap a) && (0 <? a_size a)
    then copy_slots (Z.to_nat (a_size a)) (a_buf a) (a_mem a) 0 (fun _ => None) nc 0
    else Ok (fun _ => None) in
  Ok (mk_arr nb (a_size a) nc nc).

(** Stack.h:93-99 constructor. *)
Definition stack_new {A} (c : Z) : res (arr A) :=
  if 0 <? c then stack_allocate c arr_empty else Ok arr_empty.

(** Stack.h:102-118 copy constructor. *)
Definition stack_copy {A} (a : arr A) : res (arr A) :=
  if 0 <? a_cap a then
    let* nb :=
      if 0 <? a_size a
      then copy_slots (Z.to_nat (a_size a)) (a_buf a) (a_mem a) 0 (fun _ => None) (a_cap a) 0
      else Ok (fun _ => None) in
    Ok (mk_arr nb (a_size a) (a_cap a) (a_cap a))
  else Ok (mk_arr (fun _ => None) (a_size a) (a_cap a) 0).

(** Stack.h:133-141 clear.  Simplified: the code destroys the elements upwards, here downwards; each is
    destroyed once either way, and destructors have no effect on other elements. *)
Fixpoint destroy_slots {A} (n : nat) (a : arr A) : res (arr A) :=
  match n with
  | O => Ok a
  | S n' =>
      let i := Z.of_nat n' in
      if in_buf a i then
        let* _ := rd (a_buf a i) in
        destroy_slots n' (mk_arr (upd (a_buf a) i None) (a_size a) (a_cap a) (a_mem a))
      else Ub
  end.
Definition stack_clear {A} (a : arr A) : res (arr A) :=
  let* a1 := destroy_slots (Z.to_nat (a_size a)) a in
  Ok (mk_arr (a_buf a1) 0 (a_cap a1) (a_mem a1)).

(** Stack.h:147-150: growth before a push. *)
Definition stack_grow {A} (a : arr A) : res (arr A) :=
  if a_size a =? a_cap a then stack_allocate (if 0 <? a_cap a then a_cap a * 2 else 1) a else Ok a.

(** Stack.h:144-156 push of a value outside the stack. *)
Definition stack_push {A} (x : A) (a : arr A) : res (arr A) :=
  let* a1 := stack_grow a in arr_push (Some x) a1.

(** Stack.h:175-180 top. *)
Definition stack_top {A} (a : arr A) : res A := arr_get (a_size a - 1) a.

(** push(top()): the parameter is a reference into mArray, which allocate releases (Stack.h:80). *)
Definition stack_push_top {A} (a : arr A) : res (arr A) :=
  let* x := stack_top a in
  if a_size a =? a_cap a then Ub else stack_push x a.

(** Assignment through the reference returned by top(). *)
Definition stack_set_top {A} (x : A) (a : arr A) : res (arr A) := arr_set (a_size a - 1) x a.

(** Stack.h:159-172 pop. *)
Definition stack_pop {A} (a : arr A) : res (arr A * A) :=
  if 0 <? a_size a then
    let n := a_size a - 1 in
    if in_buf a n then
      let* x := rd (a_buf a n) in
      Ok (mk_arr (upd (a_buf a) n None) n (a_cap a) (a_mem a), x)
    else Ub
  else Ub.

(** The public calls of Stack.h:93-185 on a store of stacks; [StNew] and [StCopy] construct the stack [k] anew. *)
Inductive stop (A : Type) : Type :=
| StNew (k : nat) (c : Z)
| StCopy (k k' : nat)
| StPush (k : nat) (x : A)
| StPushTop (k : nat)
| StPop (k : nat)
| StTop (k : nat)
| StSetTop (k : nat) (x : A)
| StClear (k : nat)
| StSize (k : nat).
Arguments StNew {A} _ _.
Arguments StCopy {A} _ _.
Arguments StPush {A} _ _.
Arguments StPushTop {A} _.
Arguments StPop {A} _.
Arguments StTop {A} _.
Arguments StSetTop {A} _ _.
Arguments StClear {A} _.
Arguments StSize {A} _.

(** What a call returns. *)
Inductive stout (A : Type) : Type := StNone | StVal (x : A) | StNum (n : Z).
Arguments StNone {A}.
Arguments StVal {A} _.
Arguments StNum {A} _.

Definition put {A} (s : nat -> A) (k : nat) (a : A) : nat -> A := fun i => if Nat.eqb i k then a else s i.

Definition stack_step {A} (o : stop A) (s : nat -> arr A) : res ((nat -> arr A) * stout A) :=
  match o with
  | StNew k c => let* a := stack_new c in Ok (put s k a, StNone)
  | StCopy k k' => let* a := stack_copy (s k') in Ok (put s k a, StNone)
  | StPush k x => let* a := stack_push x (s k) in Ok (put s k a, StNone)
  | StPushTop k => let* a := stack_push_top (s k) in Ok (put s k a, StNone)
  | StPop k => let* r := stack_pop (s k) in Ok (put s k (fst r), StVal (snd r))
  | StTop k => let* x := stack_top (s k) in Ok (s, StVal x)
  | StSetTop k x => let* a := stack_set_top x (s k) in Ok (put s k a, StNone)
  | StClear k => let* a := stack_clear (s k) in Ok (put s k a, StNone)
  | StSize k => Ok (s, StNum (a_size (s k)))
  end.

Fixpoint stack_run {A} (os : list (stop A)) (s : nat -> arr A) : res ((nat -> arr A) * list (stout A)) :=
  match os with
  | [] => Ok (s, [])
  | o :: os' =>
      let* r := stack_step o s in
      let* r' := stack_run os' (fst r) in
      Ok (fst r', snd r :: snd r')
  end.

(** No stack has memory at the start. *)
Definition stacks_empty {A} : nat -> arr A := fun _ => arr_empty.
