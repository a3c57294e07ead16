(** Faces as a list: number, first edge, number of edges. *)
From Verif Require Import Base QhModel QrModel.

Record rface := mk_rface { f_id : nat; f_first : nat; f_len : nat }.
Definition f_edges (g : rface) : list nat := seq (f_first g) (f_len g).

(** Faces there, number of edges ever made, number of faces ever made. *)
Definition rs_step (o : rop) (t : list rface * nat * nat) : res (list rface * nat * nat) :=
  let '(l, ne, nf) := t in
  match o with
  | RAdd n => if (3 <=? n)%nat then Ok (mk_rface nf ne n :: l, (ne + n)%nat, S nf) else Ub
  | RDel f => if existsb (fun g => Nat.eqb (f_id g) f) l
              then Ok (filter (fun g => negb (Nat.eqb (f_id g) f)) l, ne, nf) else Ub
  end.
Fixpoint rs_run (os : list rop) (t : list rface * nat * nat) : res (list rface * nat * nat) :=
  match os with [] => Ok t | o :: os' => let* t' := rs_step o t in rs_run os' t' end.
