(** A list of numbers: the newest in front. *)
From Verif Require Import Base QhModel QlModel.
Open Scope Z_scope.

Definition ls_step (o : dop) (s : list nat * nat) : res (list nat * nat) :=
  let (l, n) := s in
  match o with
  | DAdd => Ok (n :: l, S n)
  | DDel x => if existsb (Nat.eqb x) l then Ok (filter (fun y => negb (Nat.eqb y x)) l, n) else Ub
  end.
Fixpoint ls_run (os : list dop) (s : list nat * nat) : res (list nat * nat) :=
  match os with [] => Ok s | o :: os' => let* s' := ls_step o s in ls_run os' s' end.
