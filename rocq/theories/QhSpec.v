(** Half-edges as a list of numbered edges (start, end). *)
From Verif Require Import Base QhModel.
Open Scope Z_scope.

Definition flip (k : Z * Z) : Z * Z := (snd k, fst k).

(** The new edge goes directly before the opposite edge, or to the front if there is none. *)
Fixpoint before (k : Z * Z) (e : nat * (Z * Z)) (l : list (nat * (Z * Z))) : option (list (nat * (Z * Z))) :=
  match l with
  | [] => None
  | y :: r => if keqb (snd y) k then Some (e :: y :: r) else option_map (cons y) (before k e r)
  end.
Definition sp_step (o : qop) (s : list (nat * (Z * Z)) * nat) : res (list (nat * (Z * Z)) * nat) :=
  let (l, n) := s in
  match o with
  | QAdd a b =>
      if existsb (fun y => keqb (snd y) (a, b)) l then Ub
      else Ok (match before (b, a) (n, (a, b)) l with Some l' => l' | None => (n, (a, b)) :: l end, S n)
  | QDel x => if existsb (fun y => Nat.eqb (fst y) x) l then Ok (filter (fun y => negb (Nat.eqb (fst y) x)) l, n) else Ub
  end.
Fixpoint sp_run (os : list qop) (s : list (nat * (Z * Z)) * nat) : res (list (nat * (Z * Z)) * nat) :=
  match os with [] => Ok s | o :: os' => let* s' := sp_step o s in sp_run os' s' end.

(** No edge starts where it ends. *)
Definition two_ends (os : list qop) : Prop := forall a b, In (QAdd a b) os -> a <> b.

(** [x] and [y] are neighbours in [l]. *)
Definition next_to (x y : nat) (l : list nat) : Prop :=
  exists l1 l2, l = l1 ++ x :: y :: l2 \/ l = l1 ++ y :: x :: l2.

(** The list is made of twins, two by two. *)
Fixpoint by_twos (tw : nat -> option nat) (l : list nat) : Prop :=
  match l with
  | [] => True
  | [_] => False
  | x :: (y :: r) => tw x = Some y /\ tw y = Some x /\ by_twos tw r
  end.
