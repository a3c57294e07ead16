(** Model of the lists of faces and of vertices of [QHHalfEdgeStructure]
    (src/utils/quickhull/QHHalfEdgeStructure.cpp).

    Simplified: an element is a number, numbers are not used again after a release, and the fields
    of all elements are functions of that number.  Access to a released element, and a failing
    assertion, is [Ub].  Not modelled: the contents of faces and vertices, and their links to edges. *)
From Verif Require Import Base QhModel.
Open Scope Z_scope.

(** QHHalfEdgeStructure.h:116-119 (nextFace, previousFace), 245-248 (previousVertex, nextVertex) and
    267-279 (the counters and heads). *)
Record dl := mk_dl {
  d_live : nat -> bool;
  d_prev : nat -> option nat;
  d_next : nat -> option nat;
  d_head : option nat;
  d_new  : nat;
  d_nb   : Z }.

Definition dl_prev (x : nat) (v : option nat) (d : dl) : res dl :=
  if d_live d x then Ok (mk_dl (d_live d) (setn (d_prev d) x v) (d_next d) (d_head d) (d_new d) (d_nb d)) else Ub.
Definition dl_next (x : nat) (v : option nat) (d : dl) : res dl :=
  if d_live d x then Ok (mk_dl (d_live d) (d_prev d) (setn (d_next d) x v) (d_head d) (d_new d) (d_nb d)) else Ub.
Definition dl_head (v : option nat) (d : dl) : dl := mk_dl (d_live d) (d_prev d) (d_next d) v (d_new d) (d_nb d).
Definition dl_nb (n : Z) (d : dl) : dl := mk_dl (d_live d) (d_prev d) (d_next d) (d_head d) (d_new d) n.
Definition dl_alloc (p n : option nat) (d : dl) : dl :=
  let e := d_new d in
  mk_dl (setn (d_live d) e true) (setn (d_prev d) e p) (setn (d_next d) e n) (d_head d) (S e) (d_nb d).
Definition dl_release (x : nat) (d : dl) : dl :=
  mk_dl (setn (d_live d) x false) (d_prev d) (d_next d) (d_head d) (d_new d) (d_nb d).

(** QHHalfEdgeStructure.cpp:85-99 addVertex. *)
Definition add_vertex (d : dl) : res dl :=
  let e := d_new d in
  let d1 := dl_alloc None (d_head d) d in
  let* d2 := match d_head d1 with Some h => dl_prev h (Some e) d1 | None => Ok d1 end in
  let d3 := dl_head (Some e) d2 in
  Ok (dl_nb (d_nb d3 + 1) d3).

(** QHHalfEdgeStructure.cpp:115, 170-172: the face in addFace, and 233-241 addFaceToLinkedList. *)
Definition add_face (d : dl) : res dl :=
  let e := d_new d in
  let d1 := dl_alloc None None d in
  let* d2 := match d_head d1 with Some h => dl_prev h (Some e) d1 | None => Ok d1 end in
  let* d3 := dl_next e (d_head d2) d2 in
  let d4 := dl_head (Some e) d3 in
  Ok (dl_nb (d_nb d4 + 1) d4).

(** QHHalfEdgeStructure.cpp:308-325 removeVertex. *)
Definition del_vertex (x : nat) (d : dl) : res dl :=
  if d_live d x then
    let* d1 := match d_prev d x with Some p => dl_next p (d_next d x) d | None => Ok d end in
    let* d2 := match d_next d1 x with Some n => dl_prev n (d_prev d1 x) d1 | None => Ok d1 end in
    let d3 := if is_ptr (d_head d2) x then dl_head (d_next d2 x) d2 else d2 in
    let d4 := dl_release x d3 in
    Ok (dl_nb (d_nb d4 - 1) d4)
  else Ub.

(** QHHalfEdgeStructure.cpp:296-305 deleteFace with 244-256 removeFaceFromLinkedList. *)
Definition del_face (x : nat) (d : dl) : res dl :=
  if d_live d x then
    let* d1 := match d_next d x with Some n => dl_prev n (d_prev d x) d | None => Ok d end in
    let* d2 := match d_prev d1 x with
               | Some p => dl_next p (d_next d1 x) d1
               | None => if is_ptr (d_head d1) x then Ok (dl_head (d_next d1 x) d1) else Ub
               end in
    let d3 := dl_release x d2 in
    Ok (dl_nb (d_nb d3 - 1) d3)
  else Ub.

(** QHHalfEdgeStructure.cpp:43-53, 67-77: faces and vertices in the destructor. *)
Fixpoint dl_free (fuel : nat) (c : option nat) (d : dl) : res dl :=
  match c with
  | None => Ok d
  | Some x =>
      match fuel with
      | O => Fuel
      | S f => if d_live d x then dl_free f (d_next d x) (dl_release x d) else Ub
      end
  end.
Definition dl_destroy (d : dl) : res dl := dl_free (d_new d) (d_head d) d.

(** From getFaces() or getVertices() (QHHalfEdgeStructure.h:380-392) along the next pointers. *)
Fixpoint dl_walk (fuel : nat) (c : option nat) (d : dl) : res (list nat) :=
  match c with
  | None => Ok []
  | Some x =>
      match fuel with
      | O => Fuel
      | S f => if d_live d x then let* r := dl_walk f (d_next d x) d in Ok (x :: r) else Ub
      end
  end.
Definition dl_list (d : dl) : res (list nat) := dl_walk (d_new d) (d_head d) d.

(** Calls, on the list of faces or that of vertices. *)
Inductive kind := Faces | Vertices.
Inductive dop := DAdd | DDel (x : nat).
Definition d_step (k : kind) (o : dop) (d : dl) : res dl :=
  match k, o with
  | Faces, DAdd => add_face d
  | Faces, DDel x => del_face x d
  | Vertices, DAdd => add_vertex d
  | Vertices, DDel x => del_vertex x d
  end.
Fixpoint d_run (k : kind) (os : list dop) (d : dl) : res dl :=
  match os with [] => Ok d | o :: os' => let* d' := d_step k o d in d_run k os' d' end.
Definition d_empty : dl := mk_dl (fun _ => false) (fun _ => None) (fun _ => None) None 0 0.
