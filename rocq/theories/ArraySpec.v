(** Specification of Array: finite sequences.  An element [None] is a position created by
    [addWithoutInit] whose value has not been written yet.  The specification does not know
    about buffers or capacities. *)
From Verif Require Import Base ArrayModel.
Open Scope Z_scope.

Definition sseq (A : Type) := list (option A).
Definition sstore (A : Type) := nat -> sseq A.

(** Largest number of elements for which bulk growth is guaranteed. *)
Definition MAX_BULK : Z := 2 ^ 24.

Definition s_in {A} (i : Z) (l : sseq A) : bool := (0 <=? i) && (i <? zlen l).

Definition s_get {A} (i : Z) (l : sseq A) : res A :=
  match znth l i with Some (Some x) => Ok x | _ => Ub end.

Definition s_set {A} (i : Z) (x : A) (l : sseq A) : sseq A :=
  firstn (Z.to_nat i) l ++ Some x :: skipn (S (Z.to_nat i)) l.

Definition s_delete {A} (i : Z) (l : sseq A) : sseq A :=
  firstn (Z.to_nat i) l ++ skipn (S (Z.to_nat i)) l.

(** Replace position [i] by the last element, then drop the last position. *)
Definition s_swap_delete {A} (i : Z) (l : sseq A) : sseq A :=
  removelast (firstn (Z.to_nat i) l ++ last l None :: skipn (S (Z.to_nat i)) l).

Fixpoint s_find {A} (eqb : A -> A -> bool) (x : A) (l : sseq A) : res Z :=
  match l with
  | [] => Ok 0
  | None :: _ => Ub
  | Some y :: t => if eqb x y then Ok 0 else let* i := s_find eqb x t in Ok (i + 1)
  end.

(** All elements, when all are initialised. *)
Fixpoint s_values {A} (l : sseq A) : res (list A) :=
  match l with
  | [] => Ok []
  | None :: _ => Ub
  | Some x :: t => let* v := s_values t in Ok (x :: v)
  end.

Fixpoint s_eq {A} (eqb : A -> A -> bool) (l1 l2 : sseq A) : res bool :=
  match l1, l2 with
  | [], [] => Ok true
  | Some x :: t1, Some y :: t2 => if eqb x y then s_eq eqb t1 t2 else Ok false
  | _, _ => Ub
  end.

(** The sequence edit and answer of each operation; [Ub] marks the calls outside the contract:
    index out of range, removal of an absent value, self-append, reading an uninitialised
    position, bulk growth beyond 2^24 elements. *)
Definition s_step {A} (eqb : A -> A -> bool) (s : sstore A) (o : aop A)
  : res (sstore A * aout A) :=
  match o with
  | AAdd k x => Ok (nupd s k (s k ++ [Some x]), AUnit)
  | AAddElem k k' i =>
      if Nat.eqb k k' then Ub
      else let* x := s_get i (s k') in Ok (nupd s k (s k ++ [Some x]), AUnit)
  | AAddWithoutInit k n =>
      if (0 <=? n) && (n <=? MAX_BULK)
      then Ok (nupd s k (s k ++ repeat None (Z.to_nat n)), AUnit) else Ub
  | AAddRange k k' st =>
      if negb (Nat.eqb k k') && (0 <=? st) && (st <=? zlen (s k'))
         && (zlen (s k) + (zlen (s k') - st) <=? MAX_BULK)
      then Ok (nupd s k (s k ++ skipn (Z.to_nat st) (s k')), AUnit) else Ub
  | ARemoveAt k i =>
      if s_in i (s k) then Ok (nupd s k (s_delete i (s k)), AInt i) else Ub
  | ARemove k x =>
      let* i := s_find eqb x (s k) in
      if i <? zlen (s k) then Ok (nupd s k (s_delete i (s k)), AInt i) else Ub
  | ARemoveLast k i =>
      if s_in i (s k) then Ok (nupd s k (s_swap_delete i (s k)), AUnit) else Ub
  | AClear k r => Ok (nupd s k [], AUnit)
  | AReserve k c => if c <=? MAX_BULK then Ok (s, AUnit) else Ub
  | AAssign k k' =>
      if Nat.eqb k k' || (zlen (s k') <=? MAX_BULK) then Ok (nupd s k (s k'), AUnit) else Ub
  | ACopy k k' =>
      if negb (Nat.eqb k k') && (zlen (s k') <=? MAX_BULK)
      then Ok (nupd s k (s k'), AUnit) else Ub
  | ASize k => Ok (s, AInt (zlen (s k)))
  | AGet k i => let* x := s_get i (s k) in Ok (s, AVal x)
  | ASet k i x => if s_in i (s k) then Ok (nupd s k (s_set i x (s k)), AUnit) else Ub
  | AFind k x => let* i := s_find eqb x (s k) in Ok (s, AInt i)
  | AEq k k' =>
      if zlen (s k) =? zlen (s k')
      then let* b := s_eq eqb (s k) (s k') in Ok (s, ABool b) else Ok (s, ABool false)
  | AIter k => let* l := s_values (s k) in Ok (s, AList l)
  end.

Fixpoint s_run {A} (eqb : A -> A -> bool) (s : sstore A) (os : list (aop A))
  : res (sstore A * list (aout A)) :=
  match os with
  | [] => Ok (s, [])
  | o :: os' =>
      let* (s1, r) := s_step eqb s o in
      let* (s2, rs) := s_run eqb s1 os' in
      Ok (s2, r :: rs)
  end.

Definition sstore_init {A} : sstore A := fun _ => [].
