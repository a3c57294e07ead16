(** Model of [reactphysics3d::Deque<T>] (include/reactphysics3d/containers/Deque.h).

    Buffers, outcomes and simplifications as in ArrayModel.v: optional slots, unbounded
    integers, exact float rounding of capacities, no allocation failure.  The deque is a window
    of [mSize] slots starting at [mFirstItemIndex] in a linear buffer. *)
From Verif Require Import Base Float24 ArrayModel.
Open Scope Z_scope.

(** Deque.h:56-69: mBuffer, mSize, mCapacity, mFirstItemIndex (mAllocator omitted). *)
Record deq (A : Type) : Type := mk_deq {
  d_buf : Z -> option A;
  d_size : Z;
  d_cap : Z;
  d_first : Z
}.
Arguments mk_deq {A} _ _ _ _.
Arguments d_buf {A} _ _.
Arguments d_size {A} _.
Arguments d_cap {A} _.
Arguments d_first {A} _.

(** Deque.h:268-271 constructor. *)
Definition deq_empty {A} : deq A := mk_deq (fun _ => None) 0 0 0.

Definition d_in {A} (d : deq A) (i : Z) : bool := (0 <=? i) && (i <? d_cap d).

(** Deque.h:84-121 reserve. *)
Definition deq_reserve {A} (c : Z) (d : deq A) : res (deq A) :=
  if c <=? d_cap d then Ok d
  else
    let nc := round_cap c in
    let ns := nc / 2 - 1 in
    let* nb := copy_slots (Z.to_nat (d_size d)) (d_buf d) (d_cap d) (d_first d)
                          (fun _ => None) nc ns in
    Ok (mk_deq nb (d_size d) nc ns).

(** The requested capacity at growth (Deque.h:317, 337). *)
Definition deq_next_cap {A} (d : deq A) : Z :=
  if d_cap d =? 0 then GLOBAL_ALIGNMENT else d_cap d * 2.

(** Deque.h:312-329 addBack. *)
Definition deq_add_back {A} (x : A) (d : deq A) : res (deq A) :=
  let* d1 := (if d_cap d <=? d_first d + d_size d
              then deq_reserve (deq_next_cap d) d else Ok d) in
  let i := d_first d1 + d_size d1 in
  if d_in d1 i
  then Ok (mk_deq (upd (d_buf d1) i (Some x)) (d_size d1 + 1) (d_cap d1) (d_first d1))
  else Ub.

(** Deque.h:332-351 addFront. *)
Definition deq_add_front {A} (x : A) (d : deq A) : res (deq A) :=
  let* d1 := (if d_first d =? 0 then deq_reserve (deq_next_cap d) d else Ok d) in
  let f := d_first d1 - 1 in
  if d_in d1 f
  then Ok (mk_deq (upd (d_buf d1) f (Some x)) (d_size d1 + 1) (d_cap d1) f)
  else Ub.

(** The centre position used for an empty deque (Deque.h:365, 385, 415). *)
Definition centre {A} (d : deq A) : Z := d_cap d / 2 - 1.

(** Deque.h:354-371 popFront. *)
Definition deq_pop_front {A} (d : deq A) : res (deq A) :=
  if 0 <? d_size d then
    if d_in d (d_first d) then
      let n := d_size d - 1 in
      Ok (mk_deq (upd (d_buf d) (d_first d) None) n (d_cap d)
                 (if n =? 0 then centre d else d_first d + 1))
    else Ub
  else Ok d.

(** Deque.h:374-390 popBack. *)
Definition deq_pop_back {A} (d : deq A) : res (deq A) :=
  if 0 <? d_size d then
    let l := d_first d + d_size d - 1 in
    if d_in d l then
      let n := d_size d - 1 in
      Ok (mk_deq (upd (d_buf d) l None) n (d_cap d) (if n =? 0 then centre d else d_first d))
    else Ub
  else Ok d.

(** Deque.h:75-81, 425-434 getItem / operator[]. *)
Definition deq_get {A} (i : Z) (d : deq A) : res A :=
  if (0 <=? i) && (i <? d_size d) && d_in d (d_first d + i)
  then rd (d_buf d (d_first d + i)) else Ub.

(** Assignment through operator[]. *)
Definition deq_set {A} (i : Z) (x : A) (d : deq A) : res (deq A) :=
  if (0 <=? i) && (i <? d_size d) && d_in d (d_first d + i)
  then Ok (mk_deq (upd (d_buf d) (d_first d + i) (Some x)) (d_size d) (d_cap d) (d_first d))
  else Ub.

(** Deque.h:393-402 getFront, getBack: the slot is read whatever the size is. *)
Definition deq_front {A} (d : deq A) : res A :=
  if d_in d (d_first d) then rd (d_buf d (d_first d)) else Ub.

Definition deq_back {A} (d : deq A) : res A :=
  let i := d_first d + d_size d - 1 in
  if d_in d i then rd (d_buf d i) else Ub.

(** Deque.h:405-417 clear. *)
Definition deq_clear {A} (d : deq A) : deq A :=
  if 0 <? d_size d then
    mk_deq (fun j => if (d_first d <=? j) && (j <? d_first d + d_size d) then None
                     else d_buf d j) 0 (d_cap d) (centre d)
  else d.

(** Deque.h:437-448 operator==. *)
Fixpoint deq_eq_loop {A} (eqb : A -> A -> bool) (n : nat) (i : Z) (d e : deq A) : res bool :=
  match n with
  | O => Ok true
  | S n' =>
      let* x := deq_get i d in
      let* y := deq_get i e in
      if eqb x y then deq_eq_loop eqb n' (i + 1) d e else Ok false
  end.

Definition deq_eq {A} (eqb : A -> A -> bool) (d e : deq A) : res bool :=
  if d_size d =? d_size e then deq_eq_loop eqb (Z.to_nat (d_size d)) 0 d e else Ok false.

(** Deque.h:274-292 copy constructor: the slots are constructed at the *source's* first index,
    while [reserve] has set this deque's first index to the centre. *)
Definition deq_copy {A} (e : deq A) : res (deq A) :=
  let* d1 := deq_reserve (d_cap e) (mk_deq (fun _ => None) 0 0 (d_first e)) in
  let* nb := copy_slots (Z.to_nat (d_size e)) (d_buf e) (d_cap e) (d_first e)
                        (d_buf d1) (d_cap d1) (d_first e) in
  Ok (mk_deq nb (d_size e) (d_cap d1) (d_first d1)).

(** Deque.h:457-484 operator= (from a different deque). *)
Definition deq_assign {A} (e d : deq A) : res (deq A) :=
  let* d1 := deq_reserve (d_cap e) (deq_clear d) in
  let* nb := copy_slots (Z.to_nat (d_size e)) (d_buf e) (d_cap e) (d_first e)
                        (d_buf d1) (d_cap d1) (d_first d1) in
  Ok (mk_deq nb (d_size e) (d_cap d1) (d_first d1)).

(** Deque.h:124-262, 486-495: iteration from begin() to end() reads the virtual indices
    0, 1, ..., size-1. *)
Fixpoint deq_iter_loop {A} (n : nat) (i : Z) (d : deq A) : res (list A) :=
  match n with
  | O => Ok []
  | S n' =>
      let* x := deq_get i d in
      let* l := deq_iter_loop n' (i + 1) d in
      Ok (x :: l)
  end.

Definition deq_iter {A} (d : deq A) : res (list A) := deq_iter_loop (Z.to_nat (d_size d)) 0 d.

(** Public operations on the deques of a store. *)
Inductive dop (A : Type) : Type :=
| DAddBack (k : nat) (x : A)
| DAddFront (k : nat) (x : A)
| DPopFront (k : nat)
| DPopBack (k : nat)
| DClear (k : nat)
| DCopy (k k' : nat)          (* destroy d_k, then construct it as a copy of d_k' *)
| DAssign (k k' : nat)        (* d_k = d_k' *)
| DSize (k : nat)
| DGet (k : nat) (i : Z)
| DSet (k : nat) (i : Z) (x : A)
| DFront (k : nat)
| DBack (k : nat)
| DEq (k k' : nat)
| DIter (k : nat).
Arguments DAddBack {A}. Arguments DAddFront {A}. Arguments DPopFront {A}.
Arguments DPopBack {A}. Arguments DClear {A}. Arguments DCopy {A}. Arguments DAssign {A}.
Arguments DSize {A}. Arguments DGet {A}. Arguments DSet {A}. Arguments DFront {A}.
Arguments DBack {A}. Arguments DEq {A}. Arguments DIter {A}.

Definition dstore (A : Type) := nat -> deq A.

(** One call of the API. *)
Definition deq_step {A} (eqb : A -> A -> bool) (s : dstore A) (o : dop A)
  : res (dstore A * aout A) :=
  match o with
  | DAddBack k x => let* d := deq_add_back x (s k) in Ok (nupd s k d, AUnit)
  | DAddFront k x => let* d := deq_add_front x (s k) in Ok (nupd s k d, AUnit)
  | DPopFront k => let* d := deq_pop_front (s k) in Ok (nupd s k d, AUnit)
  | DPopBack k => let* d := deq_pop_back (s k) in Ok (nupd s k d, AUnit)
  | DClear k => Ok (nupd s k (deq_clear (s k)), AUnit)
  | DCopy k k' =>
      if Nat.eqb k k' then Ub
      else let* d := deq_copy (s k') in Ok (nupd s k d, AUnit)
  | DAssign k k' =>
      if Nat.eqb k k' then Ok (s, AUnit)
      else let* d := deq_assign (s k') (s k) in Ok (nupd s k d, AUnit)
  | DSize k => Ok (s, AInt (d_size (s k)))
  | DGet k i => let* x := deq_get i (s k) in Ok (s, AVal x)
  | DSet k i x => let* d := deq_set i x (s k) in Ok (nupd s k d, AUnit)
  | DFront k => let* x := deq_front (s k) in Ok (s, AVal x)
  | DBack k => let* x := deq_back (s k) in Ok (s, AVal x)
  | DEq k k' => let* b := deq_eq eqb (s k) (s k') in Ok (s, ABool b)
  | DIter k => let* l := deq_iter (s k) in Ok (s, AList l)
  end.

Fixpoint deq_run {A} (eqb : A -> A -> bool) (s : dstore A) (os : list (dop A))
  : res (dstore A * list (aout A)) :=
  match os with
  | [] => Ok (s, [])
  | o :: os' =>
      let* (s1, r) := deq_step eqb s o in
      let* (s2, rs) := deq_run eqb s1 os' in
      Ok (s2, r :: rs)
  end.

Definition dstore_init {A} : dstore A := fun _ => deq_empty.
