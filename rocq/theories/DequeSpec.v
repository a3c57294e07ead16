(** Specification of Deque: finite sequences edited at both ends. *)
From Verif Require Import Base ArrayModel DequeModel.
Open Scope Z_scope.

Definition qstore (A : Type) := nat -> list A.

Definition q_get {A} (i : Z) (l : list A) : res A :=
  match znth l i with Some x => Ok x | None => Ub end.

Definition q_set {A} (i : Z) (x : A) (l : list A) : list A :=
  firstn (Z.to_nat i) l ++ x :: skipn (S (Z.to_nat i)) l.

Fixpoint q_eq {A} (eqb : A -> A -> bool) (l1 l2 : list A) : bool :=
  match l1, l2 with
  | [], [] => true
  | x :: t1, y :: t2 => if eqb x y then q_eq eqb t1 t2 else false
  | _, _ => false
  end.

(** Effect and answer of each call.  [Ub] marks reading an element that does not exist. *)
Definition q_step {A} (eqb : A -> A -> bool) (s : qstore A) (o : dop A)
  : res (qstore A * aout A) :=
  match o with
  | DAddBack k x => Ok (nupd s k (s k ++ [x]), AUnit)
  | DAddFront k x => Ok (nupd s k (x :: s k), AUnit)
  | DPopFront k => Ok (nupd s k (tl (s k)), AUnit)
  | DPopBack k => Ok (nupd s k (removelast (s k)), AUnit)
  | DClear k => Ok (nupd s k [], AUnit)
  | DCopy k k' => if Nat.eqb k k' then Ub else Ok (nupd s k (s k'), AUnit)
  | DAssign k k' => Ok (nupd s k (s k'), AUnit)
  | DSize k => Ok (s, AInt (zlen (s k)))
  | DGet k i => let* x := q_get i (s k) in Ok (s, AVal x)
  | DSet k i x =>
      if (0 <=? i) && (i <? zlen (s k)) then Ok (nupd s k (q_set i x (s k)), AUnit) else Ub
  | DFront k => let* x := q_get 0 (s k) in Ok (s, AVal x)
  | DBack k => let* x := q_get (zlen (s k) - 1) (s k) in Ok (s, AVal x)
  | DEq k k' => Ok (s, ABool (q_eq eqb (s k) (s k')))
  | DIter k => Ok (s, AList (s k))
  end.

Fixpoint q_run {A} (eqb : A -> A -> bool) (s : qstore A) (os : list (dop A))
  : res (qstore A * list (aout A)) :=
  match os with
  | [] => Ok (s, [])
  | o :: os' =>
      let* (s1, r) := q_step eqb s o in
      let* (s2, rs) := q_run eqb s1 os' in
      Ok (s2, r :: rs)
  end.

Definition qstore_init {A} : qstore A := fun _ => [].

(** When copies are part of the history one more bit per deque is tracked: [true] while
    the front has not been touched (no addFront, no popFront) since the deque was last empty. *)
Definition track (f : nat -> bool) {A} (s : qstore A) (o : dop A) : nat -> bool :=
  match o with
  | DAddFront k _ => nupd f k false
  | DPopFront k => nupd f k (Nat.leb (length (s k)) 1)
  | DPopBack k => nupd f k (f k || Nat.leb (length (s k)) 1)
  | DClear k => nupd f k true
  | DCopy k _ => nupd f k true
  | DAssign k k' => if Nat.eqb k k' then f else nupd f k true
  | _ => f
  end.

(** Calls that copy a deque are accepted when the source's front is untouched; assignment is
    also accepted from any source of at most nine elements, copying from any empty one. *)
Definition copy_ok {A} (f : nat -> bool) (s : qstore A) (o : dop A) : bool :=
  match o with
  | DCopy k k' => f k' || Nat.eqb (length (s k')) 0
  | DAssign k k' => Nat.eqb k k' || f k' || Nat.leb (length (s k')) 9
  | _ => true
  end.

Fixpoint copies_ok {A} (eqb : A -> A -> bool) (f : nat -> bool) (s : qstore A)
         (os : list (dop A)) : bool :=
  match os with
  | [] => true
  | o :: os' =>
      copy_ok f s o &&
      match q_step eqb s o with
      | Ok (s1, _) => copies_ok eqb (track f s o) s1 os'
      | _ => false
      end
  end.

Definition is_copy {A} (o : dop A) : bool :=
  match o with DCopy _ _ | DAssign _ _ => true | _ => false end.
