(** Model of the links around the faces of [QHHalfEdgeStructure] (src/utils/quickhull/QHHalfEdgeStructure.cpp):
    nextFaceEdge, previousFaceEdge and the edge of a face, made by addFace and followed by removeFace.

    Simplified: edges and faces are numbers that are not used again after a release; the edges of a
    face get consecutive numbers.  Access to a released edge or face, and a failing assertion, is
    [Ub].  The other links are in QhModel and QlModel.  Not modelled: the merging of faces in
    QuickHull.cpp, which changes these links itself. *)
From Verif Require Import Base QhModel.

(** QHHalfEdgeStructure.h:59-87 Edge, 113-122 Face; a face that is not there has no edge. *)
Record rings := mk_rings {
  r_live : nat -> bool;
  r_next : nat -> option nat;
  r_prev : nat -> option nat;
  r_edge : nat -> option nat;
  r_newe : nat;
  r_newf : nat }.

(** QHHalfEdgeStructure.cpp:121-163: the loop of addFace from the edge [e], [p] is prevFaceEdge. *)
Fixpoint ring_loop (n e : nat) (p : option nat) (s : rings) : rings :=
  match n with
  | O => s
  | S n' =>
      let nx := setn (r_next s) e None in
      ring_loop n' (S e) (Some e)
        (mk_rings (setn (r_live s) e true)
           (match p with Some q => setn nx q (Some e) | None => nx end)
           (setn (r_prev s) e p) (r_edge s) (S e) (r_newf s))
  end.

(** QHHalfEdgeStructure.cpp:109-178 addFace of a face with [n] vertices. *)
Definition ring_add (n : nat) (s : rings) : res rings :=
  if (3 <=? n)%nat then
    let b := r_newe s in
    let f := r_newf s in
    let s1 := ring_loop n b None s in
    let z := (b + n - 1)%nat in
    Ok (mk_rings (r_live s1) (setn (r_next s1) z (Some b)) (setn (r_prev s1) b (Some z))
          (setn (r_edge s1) f (Some b)) (r_newe s1) (S f))
  else Ub.

(** QHHalfEdgeStructure.cpp:277-293 removeFace; the release of one edge is 259-274. *)
Fixpoint ring_free (fuel c first : nat) (s : rings) : res rings :=
  match fuel with
  | O => Fuel
  | S fu =>
      if r_live s c then
        let s1 := mk_rings (setn (r_live s) c false) (r_next s) (r_prev s) (r_edge s) (r_newe s) (r_newf s) in
        match r_next s c with
        | None => Ub
        | Some n => if Nat.eqb n first then Ok s1 else ring_free fu n first s1
        end
      else Ub
  end.
Definition ring_del (f : nat) (s : rings) : res rings :=
  let* b := rd (r_edge s f) in
  let* s1 := ring_free (r_newe s) b b s in
  Ok (mk_rings (r_live s1) (r_next s1) (r_prev s1) (setn (r_edge s1) f None) (r_newe s1) (r_newf s1)).

(** QHHalfEdgeStructure.h:155-170: the loop of recalculateFace, which visits the edges of a face. *)
Fixpoint ring_walk (fuel c first : nat) (s : rings) : res (list nat) :=
  match fuel with
  | O => Fuel
  | S fu =>
      if r_live s c then
        match r_next s c with
        | None => Ub
        | Some n => if Nat.eqb n first then Ok [c] else let* r := ring_walk fu n first s in Ok (c :: r)
        end
      else Ub
  end.
Definition ring_edges (f : nat) (s : rings) : res (list nat) :=
  let* b := rd (r_edge s f) in ring_walk (r_newe s) b b s.

(** Calls. *)
Inductive rop := RAdd (n : nat) | RDel (f : nat).
Definition r_step (o : rop) (s : rings) : res rings :=
  match o with RAdd n => ring_add n s | RDel f => ring_del f s end.
Fixpoint r_run (os : list rop) (s : rings) : res rings :=
  match os with [] => Ok s | o :: os' => let* s' := r_step o s in r_run os' s' end.
Definition r_empty : rings := mk_rings (fun _ => false) (fun _ => None) (fun _ => None) (fun _ => None) 0 0.
