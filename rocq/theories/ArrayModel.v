(** Model of [reactphysics3d::Array<T>] (include/reactphysics3d/containers/Array.h).

    A buffer is a memory [Z -> option A]: [None] is a slot holding no (initialised) object.
    Sizes and capacities are unbounded integers (no 64-bit wrap: a machine cannot hold that
    many elements); the rounding of capacities through [float] is modelled exactly
    (Float24.v).  Allocation never fails.  Several arrays live in a store [nat -> arr A] so that
    operations between two arrays (addRange, assignment, comparison) are part of the histories. *)
From Verif Require Import Base Float24.
Open Scope Z_scope.

(** Array.h:50-66: mBuffer, mSize, mCapacity (mAllocator omitted).  [a_mem] is the number of slots
    of the memory block mBuffer points to (0 for a null or released buffer): accesses are checked
    against it, while the code only looks at mCapacity. *)
Record arr (A : Type) : Type := mk_arr {
  a_buf : Z -> option A;
  a_size : Z;
  a_cap : Z;
  a_mem : Z
}.
Arguments mk_arr {A} _ _ _ _.
Arguments a_buf {A} _ _.
Arguments a_size {A} _.
Arguments a_cap {A} _.
Arguments a_mem {A} _.

(** Array.h:216-217: constructor with capacity 0. *)
Definition arr_empty {A} : arr A := mk_arr (fun _ => None) 0 0 0.

(** A slot index is inside the allocated buffer. *)
Definition in_buf {A} (a : arr A) (i : Z) : bool := (0 <=? i) && (i <? a_mem a).

(** [std::uninitialized_copy] of [n] slots from index [s] of [src] (capacity [scap]) to index
    [d] of [dst] (capacity [dcap]); used at Array.h:266.  A slot without object is copied as
    such (bitwise), an index outside either buffer is undefined behaviour. *)
Fixpoint copy_slots {A} (n : nat) (src : Z -> option A) (scap s : Z)
         (dst : Z -> option A) (dcap d : Z) : res (Z -> option A) :=
  match n with
  | O => Ok dst
  | S n' =>
      if (0 <=? s) && (s <? scap) && (0 <=? d) && (d <? dcap)
      then copy_slots n' src scap (s + 1) (upd dst d (src s)) dcap (d + 1)
      else Ub
  end.

(** Array.h:250-282 reserve. *)
Definition arr_reserve {A} (c : Z) (a : arr A) : res (arr A) :=
  if c <=? a_cap a then Ok a
  else
    let nc := round_cap c in
    let* nb := copy_slots (Z.to_nat (a_size a)) (a_buf a) (a_mem a) 0 (fun _ => None) nc 0 in
    Ok (mk_arr nb (a_size a) nc nc).

(** Placement-new of an object into slot [i] (Array.h:293, 308, 401). *)
Definition arr_construct {A} (a : arr A) (i : Z) (v : option A) : res (arr A) :=
  if in_buf a i then Ok (mk_arr (upd (a_buf a) i v) (a_size a) (a_cap a) (a_mem a)) else Ub.

(** Array.h:285-296 add (and 300-311 emplace, which only differs in how the element is built). *)
Definition arr_grow {A} (a : arr A) : res (arr A) :=
  if a_size a =? a_cap a
  then arr_reserve (if a_cap a =? 0 then GLOBAL_ALIGNMENT else a_cap a * 2) a
  else Ok a.

Definition arr_push {A} (v : option A) (a : arr A) : res (arr A) :=
  let* a1 := arr_construct a (a_size a) v in
  Ok (mk_arr (a_buf a1) (a_size a1 + 1) (a_cap a1) (a_mem a1)).

Definition arr_add {A} (x : A) (a : arr A) : res (arr A) :=
  let* a1 := arr_grow a in
  arr_push (Some x) a1.

(** Array.h:314-322 addWithoutInit. *)
Definition arr_add_without_init {A} (n : Z) (a : arr A) : res (arr A) :=
  let* a1 := (if a_cap a <? a_size a + n
              then arr_reserve (if a_cap a =? 0 then n else (a_cap a + n) * 2) a
              else Ok a) in
  (* the added slots must exist and hold no object *)
  if a_size a1 + n <=? a_mem a1
  then Ok (mk_arr (fun j => if (a_size a1 <=? j) && (j <? a_size a1 + n)
                            then None else a_buf a1 j)
                  (a_size a1 + n) (a_cap a1) (a_mem a1))
  else Ub.

(** Array.h:438-447 operator[] : a reference to a constructed element. *)
Definition arr_get {A} (i : Z) (a : arr A) : res A :=
  if (0 <=? i) && (i <? a_size a) && in_buf a i then rd (a_buf a i) else Ub.

(** Assignment through operator[] (Array.h:438). *)
Definition arr_set {A} (i : Z) (x : A) (a : arr A) : res (arr A) :=
  if (0 <=? i) && (i <? a_size a) && in_buf a i
  then Ok (mk_arr (upd (a_buf a) i (Some x)) (a_size a) (a_cap a) (a_mem a)) else Ub.

(** Array.h:327-336 find: index of the first equal element, [mSize] (end()) if none. *)
Fixpoint arr_find_loop {A} (eqb : A -> A -> bool) (n : nat) (i : Z) (x : A) (a : arr A) : res Z :=
  match n with
  | O => Ok i
  | S n' =>
      if in_buf a i then
        let* y := rd (a_buf a i) in
        if eqb x y then Ok i else arr_find_loop eqb n' (i + 1) x a
      else Ub
  end.

Definition arr_find {A} (eqb : A -> A -> bool) (x : A) (a : arr A) : res Z :=
  arr_find_loop eqb (Z.to_nat (a_size a)) 0 x a.

(** Array.h:351-370 removeAt.  The bytes left behind the last element by memmove are not an
    object any more.  Returns the index of the element after the removed one. *)
Definition arr_remove_at {A} (i : Z) (a : arr A) : res (arr A * Z) :=
  if (0 <=? i) && (i <? a_size a) && (a_size a <=? a_mem a) then
    let n := a_size a - 1 in
    Ok (mk_arr (fun j => if (i <=? j) && (j <? n) then a_buf a (j + 1)
                         else if j =? n then None else a_buf a j)
               n (a_cap a) (a_mem a), i)
  else Ub.

(** Array.h:339-348 remove(value). *)
Definition arr_remove {A} (eqb : A -> A -> bool) (x : A) (a : arr A) : res (arr A * Z) :=
  let* i := arr_find eqb x a in
  arr_remove_at i a.

(** Array.h:373-383 removeAtAndReplaceByLast. *)
Definition arr_remove_last {A} (i : Z) (a : arr A) : res (arr A) :=
  if (0 <=? i) && (i <? a_size a) && (a_size a <=? a_mem a) then
    let l := a_size a - 1 in
    Ok (mk_arr (upd (upd (a_buf a) i (a_buf a l)) l None) l (a_cap a) (a_mem a))
  else Ub.

(** Array.h:399-403: the copying loop of addRange ([b] is a different array than [a]). *)
Fixpoint arr_append_loop {A} (n : nat) (i : Z) (b : arr A) (a : arr A) : res (arr A) :=
  match n with
  | O => Ok a
  | S n' =>
      if in_buf b i then
        let* a1 := arr_push (a_buf b i) a in
        arr_append_loop n' (i + 1) b a1
      else Ub
  end.

(** Array.h:387-404 addRange from a different array. *)
Definition arr_add_range {A} (start : Z) (b : arr A) (a : arr A) : res (arr A) :=
  if (0 <=? start) && (start <=? a_size b) then
    let* a1 := (if a_cap a <? a_size a + (a_size b - start)
                then arr_reserve (a_size a + a_size b - start) a else Ok a) in
    arr_append_loop (Z.to_nat (a_size b - start)) start b a1
  else Ub.

(** Array.h:387-404 addRange of an array to itself: the loop bound [array.size()] grows with
    every iteration, so unless nothing is to be copied the loop never ends and writes past the
    buffer. *)
Definition arr_add_range_self {A} (start : Z) (a : arr A) : res (arr A) :=
  if start =? a_size a then Ok a else Ub.

(** Array.h:407-425 clear. *)
Definition arr_clear {A} (release : bool) (a : arr A) : arr A :=
  let b := fun j => if (0 <=? j) && (j <? a_size a) then None else a_buf a j in
  if release && (0 <? a_cap a) then mk_arr (fun _ => None) 0 0 0
  else mk_arr b 0 (a_cap a) (a_mem a).

(** Array.h:450-461 operator==. *)
Fixpoint arr_eq_loop {A} (eqb : A -> A -> bool) (n : nat) (i : Z) (a b : arr A) : res bool :=
  match n with
  | O => Ok true
  | S n' =>
      if in_buf a i && in_buf b i then
        let* x := rd (a_buf a i) in
        let* y := rd (a_buf b i) in
        if eqb x y then arr_eq_loop eqb n' (i + 1) a b else Ok false
      else Ub
  end.

Definition arr_eq {A} (eqb : A -> A -> bool) (a b : arr A) : res bool :=
  if a_size a =? a_size b then arr_eq_loop eqb (Z.to_nat (a_size a)) 0 a b else Ok false.

(** Array.h:470-482 operator= (from a different array). *)
Definition arr_assign {A} (b a : arr A) : res (arr A) :=
  arr_add_range 0 b (arr_clear false a).

(** Array.h:227-236 copy constructor. *)
Definition arr_copy {A} (b : arr A) : res (arr A) :=
  let* a1 := (if 0 <? a_cap b then arr_reserve (a_cap b) arr_empty else Ok arr_empty) in
  arr_add_range 0 b a1.

(** Array.h:485-492 begin()..end(): the elements visited by an iteration. *)
Fixpoint arr_iter_loop {A} (n : nat) (i : Z) (a : arr A) : res (list A) :=
  match n with
  | O => Ok []
  | S n' =>
      if in_buf a i then
        let* x := rd (a_buf a i) in
        let* l := arr_iter_loop n' (i + 1) a in
        Ok (x :: l)
      else Ub
  end.

Definition arr_iter {A} (a : arr A) : res (list A) :=
  arr_iter_loop (Z.to_nat (a_size a)) 0 a.

(** Public operations on the arrays of a store; [k], [k'] name arrays. *)
Inductive aop (A : Type) : Type :=
| AAdd (k : nat) (x : A)                 (* a_k.add(x) / emplace(x) *)
| AAddElem (k k' : nat) (i : Z)          (* a_k.add(a_k'[i]) *)
| AAddWithoutInit (k : nat) (n : Z)
| AAddRange (k k' : nat) (start : Z)
| ARemoveAt (k : nat) (i : Z)
| ARemove (k : nat) (x : A)
| ARemoveLast (k : nat) (i : Z)
| AClear (k : nat) (release : bool)
| AReserve (k : nat) (c : Z)
| AAssign (k k' : nat)
| ACopy (k k' : nat)                     (* destroy a_k, then construct it as a copy of a_k' *)
| ASize (k : nat)
| AGet (k : nat) (i : Z)
| ASet (k : nat) (i : Z) (x : A)
| AFind (k : nat) (x : A)
| AEq (k k' : nat)
| AIter (k : nat).
Arguments AAdd {A}. Arguments AAddElem {A}. Arguments AAddWithoutInit {A}.
Arguments AAddRange {A}. Arguments ARemoveAt {A}. Arguments ARemove {A}.
Arguments ARemoveLast {A}. Arguments AClear {A}. Arguments AReserve {A}.
Arguments AAssign {A}. Arguments ACopy {A}. Arguments ASize {A}. Arguments AGet {A}.
Arguments ASet {A}. Arguments AFind {A}. Arguments AEq {A}. Arguments AIter {A}.

(** What the caller observes. *)
Inductive aout (A : Type) : Type :=
| AUnit
| AInt (z : Z)
| AVal (x : A)
| ABool (b : bool)
| AList (l : list A).
Arguments AUnit {A}. Arguments AInt {A}. Arguments AVal {A}.
Arguments ABool {A}. Arguments AList {A}.

Definition astore (A : Type) := nat -> arr A.

(** One call of the API. *)
Definition arr_step {A} (eqb : A -> A -> bool) (s : astore A) (o : aop A)
  : res (astore A * aout A) :=
  match o with
  | AAdd k x => let* a := arr_add x (s k) in Ok (nupd s k a, AUnit)
  | AAddElem k k' i =>
      let* x := arr_get i (s k') in
      (* the reference [element] points into the buffer of a_k'; when the same array is
         reallocated by the call it dangles before it is copied (Array.h:285-293) *)
      if Nat.eqb k k' && (a_size (s k) =? a_cap (s k)) then Ub
      else let* a := arr_add x (s k) in Ok (nupd s k a, AUnit)
  | AAddWithoutInit k n =>
      if 0 <=? n then let* a := arr_add_without_init n (s k) in Ok (nupd s k a, AUnit) else Ub
  | AAddRange k k' st =>
      let* a := (if Nat.eqb k k' then arr_add_range_self st (s k)
                 else arr_add_range st (s k') (s k)) in
      Ok (nupd s k a, AUnit)
  | ARemoveAt k i => let* (a, r) := arr_remove_at i (s k) in Ok (nupd s k a, AInt r)
  | ARemove k x => let* (a, r) := arr_remove eqb x (s k) in Ok (nupd s k a, AInt r)
  | ARemoveLast k i => let* a := arr_remove_last i (s k) in Ok (nupd s k a, AUnit)
  | AClear k r => Ok (nupd s k (arr_clear r (s k)), AUnit)
  | AReserve k c => let* a := arr_reserve c (s k) in Ok (nupd s k a, AUnit)
  | AAssign k k' =>
      if Nat.eqb k k' then Ok (s, AUnit)
      else let* a := arr_assign (s k') (s k) in Ok (nupd s k a, AUnit)
  | ACopy k k' =>
      if Nat.eqb k k' then Ub
      else let* a := arr_copy (s k') in Ok (nupd s k a, AUnit)
  | ASize k => Ok (s, AInt (a_size (s k)))
  | AGet k i => let* x := arr_get i (s k) in Ok (s, AVal x)
  | ASet k i x => let* a := arr_set i x (s k) in Ok (nupd s k a, AUnit)
  | AFind k x => let* i := arr_find eqb x (s k) in Ok (s, AInt i)
  | AEq k k' => let* b := arr_eq eqb (s k) (s k') in Ok (s, ABool b)
  | AIter k => let* l := arr_iter (s k) in Ok (s, AList l)
  end.

(** A history of calls. *)
Fixpoint arr_run {A} (eqb : A -> A -> bool) (s : astore A) (os : list (aop A))
  : res (astore A * list (aout A)) :=
  match os with
  | [] => Ok (s, [])
  | o :: os' =>
      let* (s1, r) := arr_step eqb s o in
      let* (s2, rs) := arr_run eqb s1 os' in
      Ok (s2, r :: rs)
  end.

Definition astore_init {A} : astore A := fun _ => arr_empty.
