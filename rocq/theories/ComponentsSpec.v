(** A component store as seen by its clients: a partial function from entities to their data and
    whether they are disabled. *)
From Verif Require Import Base HashSpec ComponentsModel.
Open Scope Z_scope.

Section Spec.
Context {D : Type}.
Definition store : Type := list (Z * (D * bool)).

(** [Ub] marks calls outside the contract: adding an entity twice, using an absent entity. *)
Definition spec_step (s : store) (o : cop D) : res store :=
  match o with
  | CAdd e b d => if has Z.eqb e s then Ub else Ok (m_set Z.eqb e (d, b) s)
  | CRemove e => if has Z.eqb e s then Ok (m_remove Z.eqb e s) else Ub
  | CSetDisabled e b =>
      match lookup Z.eqb e s with
      | Some (d, _) => Ok (m_set Z.eqb e (d, b) s)
      | None => Ub
      end
  | CSet e d =>
      match lookup Z.eqb e s with
      | Some (_, b) => Ok (m_set Z.eqb e (d, b) s)
      | None => Ub
      end
  end.

Fixpoint spec_run (s : store) (os : list (cop D)) : res store :=
  match os with
  | [] => Ok s
  | o :: os' => let* s1 := spec_step s o in spec_run s1 os'
  end.
End Spec.
Arguments store : clear implicits.
