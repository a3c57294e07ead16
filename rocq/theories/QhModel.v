(** Model of the half-edges of [QHHalfEdgeStructure] (src/utils/quickhull/QHHalfEdgeStructure.cpp): their
    doubly linked list, their twins, the map from pairs of vertices to edges, and their release.

    Simplified: an edge is a number, and numbers are not used again after a release; the fields of
    all edges are functions of that number.  A vertex is an integer.  mMapVerticesToEdge is a partial
    function (C04 is about Map).  The edges of addFace are added one at a time.  A failing assertion,
    and access to a released edge, is [Ub].  Not modelled here: faces, the links around a face; the
    lists of faces and vertices are in QlModel. *)
From Verif Require Import Base.
Open Scope Z_scope.

(** QHHalfEdgeStructure.h:59-87 Edge (startVertex and endVertex together are [q_key]) and
    QHHalfEdgeStructure.h:264-282 (mMapVerticesToEdge, mNbHalfEdges, mHalfEdges). *)
Record qh := mk_qh {
  q_live : nat -> bool;
  q_key  : nat -> Z * Z;
  q_prev : nat -> option nat;
  q_next : nat -> option nat;
  q_twin : nat -> option nat;
  q_head : option nat;
  q_map  : Z * Z -> option nat;
  q_new  : nat;
  q_nb   : Z }.

Definition setn {A} (f : nat -> A) (i : nat) (v : A) : nat -> A := fun j => if Nat.eqb j i then v else f j.
Definition keqb (k k' : Z * Z) : bool := (fst k =? fst k') && (snd k =? snd k').
Definition setk {A} (f : Z * Z -> A) (i : Z * Z) (v : A) : Z * Z -> A := fun j => if keqb j i then v else f j.

Definition with_live (q : qh) v := mk_qh v (q_key q) (q_prev q) (q_next q) (q_twin q) (q_head q) (q_map q) (q_new q) (q_nb q).
Definition with_prev (q : qh) v := mk_qh (q_live q) (q_key q) v (q_next q) (q_twin q) (q_head q) (q_map q) (q_new q) (q_nb q).
Definition with_next (q : qh) v := mk_qh (q_live q) (q_key q) (q_prev q) v (q_twin q) (q_head q) (q_map q) (q_new q) (q_nb q).
Definition with_twin (q : qh) v := mk_qh (q_live q) (q_key q) (q_prev q) (q_next q) v (q_head q) (q_map q) (q_new q) (q_nb q).
Definition with_head (q : qh) v := mk_qh (q_live q) (q_key q) (q_prev q) (q_next q) (q_twin q) v (q_map q) (q_new q) (q_nb q).
Definition with_map (q : qh) v := mk_qh (q_live q) (q_key q) (q_prev q) (q_next q) (q_twin q) (q_head q) v (q_new q) (q_nb q).
Definition with_nb (q : qh) v := mk_qh (q_live q) (q_key q) (q_prev q) (q_next q) (q_twin q) (q_head q) (q_map q) (q_new q) v.

(** Writing a field of an edge. *)
Definition set_prev (x : nat) (v : option nat) (q : qh) : res qh :=
  if q_live q x then Ok (with_prev q (setn (q_prev q) x v)) else Ub.
Definition set_next (x : nat) (v : option nat) (q : qh) : res qh :=
  if q_live q x then Ok (with_next q (setn (q_next q) x v)) else Ub.
Definition set_twin (x : nat) (v : option nat) (q : qh) : res qh :=
  if q_live q x then Ok (with_twin q (setn (q_twin q) x v)) else Ub.

Definition is_ptr (o : option nat) (x : nat) : bool := match o with Some y => Nat.eqb y x | None => false end.

(** QHHalfEdgeStructure.cpp:181-214 addEdgeToLinkedListBefore. *)
Definition link_before (e : nat) (o : option nat) (q : qh) : res qh :=
  match o with
  | None =>
      let* q1 := set_next e (q_head q) q in
      let* q2 := set_prev e None q1 in
      let* q3 := match q_head q2 with Some h => set_prev h (Some e) q2 | None => Ok q2 end in
      Ok (with_head q3 (Some e))
  | Some t =>
      if q_live q t then
        let* q1 := match q_prev q t with
                   | Some p => if is_ptr (q_next q p) t then set_next p (Some e) q else Ub
                   | None => if is_ptr (q_head q) t then Ok (with_head q (Some e)) else Ub
                   end in
        let* q2 := set_prev e (q_prev q1 t) q1 in
        let* q3 := set_prev t (Some e) q2 in
        set_next e (Some t) q3
      else Ub
  end.

(** QHHalfEdgeStructure.cpp:217-230 removeEdgeFromLinkedList. *)
Definition unlink (x : nat) (q : qh) : res qh :=
  let* q1 := match q_next q x with Some n => set_prev n (q_prev q x) q | None => Ok q end in
  match q_prev q1 x with
  | Some p => set_next p (q_next q1 x) q1
  | None => if is_ptr (q_head q1) x then Ok (with_head q1 (q_next q1 x)) else Ub
  end.

(** QHHalfEdgeStructure.cpp:123-162: one edge of addFace, from [a] to [b]. *)
Definition q_add (a b : Z) (q : qh) : res qh :=
  match q_map q (a, b) with
  | Some _ => Ub
  | None =>
      let e := q_new q in
      let q1 := mk_qh (setn (q_live q) e true) (setn (q_key q) e (a, b)) (setn (q_prev q) e None)
                  (setn (q_next q) e None) (setn (q_twin q) e None) (q_head q) (q_map q) (S e) (q_nb q) in
      let tw := q_map q1 (b, a) in
      let* q2 := match tw with
                 | Some t => match q_twin q1 t with None => set_twin t (Some e) q1 | Some _ => Ub end
                 | None => Ok q1
                 end in
      let* q3 := set_twin e tw q2 in
      let* q4 := link_before e tw q3 in
      Ok (with_map (with_nb q4 (q_nb q4 + 1)) (setk (q_map q4) (a, b) (Some e)))
  end.

(** QHHalfEdgeStructure.cpp:259-274 removeHalfEdge. *)
Definition q_del (x : nat) (q : qh) : res qh :=
  if q_live q x then
    match q_map q (q_key q x) with
    | None => Ub
    | Some _ =>
        let q1 := with_map q (setk (q_map q) (q_key q x) None) in
        let* q2 := match q_twin q1 x with Some t => set_twin t None q1 | None => Ok q1 end in
        let* q3 := unlink x q2 in
        Ok (with_nb (with_live q3 (setn (q_live q3) x false)) (q_nb q3 - 1))
    end
  else Ub.

(** QHHalfEdgeStructure.cpp:55-65: the edges in the destructor. *)
Fixpoint q_free (fuel : nat) (c : option nat) (q : qh) : res qh :=
  match c with
  | None => Ok q
  | Some x =>
      match fuel with
      | O => Fuel
      | S f => if q_live q x then q_free f (q_next q x) (with_live q (setn (q_live q) x false)) else Ub
      end
  end.
Definition q_destroy (q : qh) : res qh := q_free (q_new q) (q_head q) q.

(** What a client does: from getHalfEdges() (QHHalfEdgeStructure.h:385-387) along nextEdge. *)
Fixpoint q_walk (fuel : nat) (c : option nat) (q : qh) : res (list nat) :=
  match c with
  | None => Ok []
  | Some x =>
      match fuel with
      | O => Fuel
      | S f => if q_live q x then let* r := q_walk f (q_next q x) q in Ok (x :: r) else Ub
      end
  end.
Definition q_edges (q : qh) : res (list nat) := q_walk (q_new q) (q_head q) q.

(** Calls. *)
Inductive qop := QAdd (a b : Z) | QDel (x : nat).
Definition q_step (o : qop) (q : qh) : res qh :=
  match o with QAdd a b => q_add a b q | QDel x => q_del x q end.
Fixpoint q_run (os : list qop) (q : qh) : res qh :=
  match os with [] => Ok q | o :: os' => let* q' := q_step o q in q_run os' q' end.

(** QHHalfEdgeStructure.h:307 constructor. *)
Definition q_empty : qh :=
  mk_qh (fun _ => false) (fun _ => (0, 0)) (fun _ => None) (fun _ => None) (fun _ => None) None (fun _ => None) 0 0.
