(** Specification of Map and Set: finite partial functions as association lists without
    repeated keys.  [phase] records what the API calls have done to the memory of the table:
    [Fresh] before the first add/reserve, [Released] after clear(true) of a table that had
    memory. *)
From Verif Require Import Base HashModel.
Open Scope Z_scope.

Inductive phase : Type := Fresh | Used | Released.

Section Spec.
Context {K V : Type}.
Variable keq : K -> K -> bool.
Variable veq : V -> V -> bool.

Fixpoint lookup (k : K) (m : list (K * V)) : option V :=
  match m with
  | [] => None
  | (k', v) :: m' => if keq k' k then Some v else lookup k m'
  end.

Definition m_remove (k : K) (m : list (K * V)) : list (K * V) :=
  filter (fun p => negb (keq (fst p) k)) m.

Definition m_set (k : K) (v : V) (m : list (K * V)) : list (K * V) := (k, v) :: m_remove k m.

Definition has (k : K) (m : list (K * V)) : bool :=
  match lookup k m with Some _ => true | None => false end.

(** Every binding of [m1] is one of [m2]. *)
Definition m_incl (eqv : V -> V -> bool) (m1 m2 : list (K * V)) : bool :=
  forallb (fun p => match lookup (fst p) m2 with Some w => eqv w (snd p) | None => false end) m1.

Definition m_eq (m1 m2 : list (K * V)) : bool :=
  (zlen m1 =? zlen m2) && m_incl veq m1 m2 && m_incl veq m2 m1.

Definition m_eq_set (m1 m2 : list (K * V)) : bool :=
  (zlen m1 =? zlen m2) && m_incl (fun _ _ => true) m1 m2.

Definition fstate := (phase * list (K * V))%type.
Definition fstore := nat -> fstate.
Definition fstore_init : fstore := fun _ => (Fresh, []).

(** [Ub] marks the calls outside the contract: add of a present key without overwrite, access to
    a missing key, reserve beyond 2^63, growing a table whose memory was released. *)
Definition f_step (s : fstore) (o : top K V) : res (fstore * tout V) :=
  match o with
  | TAdd x mode k v =>
      let (ph, m) := s x in
      match ph with
      | Released => Ub
      | _ =>
          if has k m then
            match mode with
            | Overwrite => Ok (nupd s x (Used, m_set k v m), OBool true)
            | Refuse => Ok (s, OBool false)
            | Duplicate => Ub
            end
          else Ok (nupd s x (Used, m_set k v m), OBool true)
      end
  | TRemove x k => let (ph, m) := s x in Ok (nupd s x (ph, m_remove k m), OUnit)
  | TClear x r =>
      let (ph, m) := s x in
      Ok (nupd s x (match ph, r with Used, true => Released | _, _ => ph end, []), OUnit)
  | TReserve x c =>
      let (ph, m) := s x in
      match ph with
      | Released => if c <=? 0 then Ok (s, OUnit) else Ub
      | _ => if c <=? 2 ^ 63
             then Ok (nupd s x (if c <=? 0 then ph else Used, m), OUnit) else Ub
      end
  | TCopy x y => if Nat.eqb x y then Ub else Ok (nupd s x (s y), OUnit)
  | TAssign x y => Ok (nupd s x (s y), OUnit)
  | TSetAt x k v =>
      let (ph, m) := s x in
      if has k m then Ok (nupd s x (ph, m_set k v m), OUnit) else Ub
  | TContains x k => Ok (s, OBool (has k (snd (s x))))
  | TAt x k => match lookup k (snd (s x)) with Some v => Ok (s, OVal v) | None => Ub end
  | TFindIs x k => Ok (s, OOpt (lookup k (snd (s x))))
  | TSize x => Ok (s, OInt (zlen (snd (s x))))
  | TEq x y => Ok (s, OBool (m_eq (snd (s x)) (snd (s y))))
  | TEqSet x y => Ok (s, OBool (m_eq_set (snd (s x)) (snd (s y))))
  end.

Fixpoint f_run (s : fstore) (os : list (top K V)) : res (fstore * list (tout V)) :=
  match os with
  | [] => Ok (s, [])
  | o :: os' =>
      let* (s1, r) := f_step s o in
      let* (s2, rs) := f_run s1 os' in
      Ok (s2, r :: rs)
  end.

End Spec.
