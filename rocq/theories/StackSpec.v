(** A stack is a list with its top in front; capacities do not matter. *)
From Verif Require Import Base ArrayModel StackModel.
Open Scope Z_scope.

Definition spec_step {A} (o : stop A) (s : nat -> list A) : res ((nat -> list A) * stout A) :=
  match o with
  | StNew k _ => Ok (put s k [], StNone)
  | StCopy k k' => Ok (put s k (s k'), StNone)
  | StPush k x => Ok (put s k (x :: s k), StNone)
  | StPushTop k => match s k with x :: l => Ok (put s k (x :: x :: l), StNone) | [] => Ub end
  | StPop k => match s k with x :: l => Ok (put s k l, StVal x) | [] => Ub end
  | StTop k => match s k with x :: _ => Ok (s, StVal x) | [] => Ub end
  | StSetTop k y => match s k with _ :: l => Ok (put s k (y :: l), StNone) | [] => Ub end
  | StClear k => Ok (put s k [], StNone)
  | StSize k => Ok (s, StNum (zlen (s k)))
  end.

Fixpoint spec_run {A} (os : list (stop A)) (s : nat -> list A) : res ((nat -> list A) * list (stout A)) :=
  match os with
  | [] => Ok (s, [])
  | o :: os' =>
      let* r := spec_step o s in
      let* r' := spec_run os' (fst r) in
      Ok (fst r', snd r :: snd r')
  end.

(** push(top()) is called only on stacks with size() < capacity(). *)
Definition room {A} (o : stop A) (s : nat -> arr A) : Prop :=
  match o with StPushTop k => a_size (s k) < a_cap (s k) | _ => True end.
Fixpoint roomy {A} (os : list (stop A)) (s : nat -> arr A) : Prop :=
  match os with
  | [] => True
  | o :: os' => room o s /\ forall r, stack_step o s = Ok r -> roomy os' (fst r)
  end.
