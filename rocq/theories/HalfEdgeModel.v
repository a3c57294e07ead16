(** Model of the half-edge structure of a mesh (HalfEdgeStructure.cpp) and of its creation by
    ConvexMesh.cpp.  Indices are natural numbers: the 32-bit counters are taken not to wrap.  The maps
    are partial functions (what C04 proves of Map). *)
From Verif Require Import Base.

(** HalfEdgeStructure.h:44 VerticesPair. *)
Definition vpair : Type := nat * nat.
Definition vpair_eqb (a b : vpair) : bool := (Nat.eqb (fst a) (fst b) && Nat.eqb (snd a) (snd b))%bool.

(** Map.h:357-440 add without insertIfAlreadyPresent: an existing key violates the assertion (which of
    the two entries is found later is not specified), so it is [Ub]. *)
Definition madd {K V} (eqb : K -> K -> bool) (k : K) (v : V) (m : K -> option V) : res (K -> option V) :=
  match m k with Some _ => Ub | None => Ok (fun x => if eqb k x then Some v else m x) end.
(** The same with insertIfAlreadyPresent. *)
Definition mput {K V} (eqb : K -> K -> bool) (k : K) (v : V) (m : K -> option V) : K -> option V :=
  fun x => if eqb k x then Some v else m x.

(** HalfEdgeStructure.h:47-52 Edge; [None]: not initialised. *)
Record edge : Type := mk_edge { e_vertex : nat; e_twin : option nat; e_face : nat; e_next : option nat }.

(** The local maps and the members of computeHalfEdges (HalfEdgeStructure.cpp:37-44).  [h_verts]: the
    field edgeIndex of the vertices.  mapEdgeToStartVertex is written and never read: left out. *)
Record hstate : Type := mk_hstate {
  h_map : vpair -> option edge;
  h_nextkey : vpair -> option vpair;
  h_index : vpair -> option nat;
  h_key : nat -> option vpair;
  h_facekey : nat -> option vpair;
  h_edges : list edge;
  h_verts : list nat }.

(** Writing an element of an array: out of range is undefined. *)
Fixpoint wr {A} (l : list A) (i : nat) (a : A) : res (list A) :=
  match l, i with
  | [], _ => Ub
  | _ :: r, O => Ok (a :: r)
  | x :: r, S i => let* r := wr r i a in Ok (x :: r)
  end.

(** HalfEdgeStructure.cpp:71-100, one half-edge of the face [f] from [v1] to [v2], apart from nextEdges. *)
Definition visit_edge (f v1 v2 : nat) (s : hstate) : res hstate :=
  let e := mk_edge v1 None f None in
  let* m := madd vpair_eqb (v1, v2) e (h_map s) in
  let fk := mput Nat.eqb f (v1, v2) (h_facekey s) in
  match m (v2, v1) with
  | None => Ok (mk_hstate m (h_nextkey s) (h_index s) (h_key s) fk (h_edges s) (h_verts s))
  | Some e' =>
      let i := length (h_edges s) in
      let e1 := mk_edge (e_vertex e') (Some (S i)) (e_face e') (e_next e') in
      let m := mput vpair_eqb (v2, v1) e1 m in
      let e2 := mk_edge v1 (Some i) f None in
      let* ks := madd Nat.eqb i (v2, v1) (h_key s) in
      let* ks := madd Nat.eqb (S i) (v1, v2) ks in
      let* vs := wr (h_verts s) v1 (S i) in
      let* vs := wr vs v2 i in
      let* ix := madd vpair_eqb (v1, v2) (S i) (h_index s) in
      let* ix := madd vpair_eqb (v2, v1) i ix in
      Ok (mk_hstate m (h_nextkey s) ix ks fk (h_edges s ++ [e1; e2]) vs)
  end.
(** HalfEdgeStructure.cpp:62-70: nextEdges.  [prev]: the last element of currentFaceEdges. *)
Definition add_next (k k' : vpair) (s : hstate) : res hstate :=
  let* m := madd vpair_eqb k k' (h_nextkey s) in
  Ok (mk_hstate (h_map s) m (h_index s) (h_key s) (h_facekey s) (h_edges s) (h_verts s)).
(** HalfEdgeStructure.cpp:55-103, the loop over the vertices of the face [f] from index [v] on. *)
Fixpoint visit_face (f : nat) (vs : list nat) (v : nat) (todo : nat) (first : vpair) (prev : vpair) (s : hstate) : res hstate :=
  match todo with
  | O => Ok s
  | S todo' =>
      let* v1 := rd (nth_error vs v) in
      let* v2 := rd (nth_error vs (if Nat.eqb v (length vs - 1) then O else S v)) in
      let k := (v1, v2) in
      let first := if Nat.eqb v 0 then k else first in
      let* s := (if Nat.eqb v 0 then Ok s else add_next prev k s) in
      let* s := (if Nat.eqb v (length vs - 1) then add_next k first s else Ok s) in
      let* s := visit_edge f v1 v2 s in
      visit_face f vs (S v) todo' first k s
  end.
(** HalfEdgeStructure.cpp:47-106, the loop over the faces from index [f] on. *)
Fixpoint visit_faces (f : nat) (faces : list (list nat)) (s : hstate) : res hstate :=
  match faces with
  | [] => Ok s
  | vs :: r => let* s := visit_face f vs 0 (length vs) (O, O) (O, O) s in visit_faces (S f) r s
  end.
(** HalfEdgeStructure.cpp:109-112: reading a map at a missing key is an access out of range. *)
Fixpoint set_next (s : hstate) (i : nat) (es : list edge) : res (list edge) :=
  match es with
  | [] => Ok []
  | e :: r =>
      let* k := rd (h_key s i) in
      let* k' := rd (h_nextkey s k) in
      let* j := rd (h_index s k') in
      let* r := set_next s (S i) r in
      Ok (mk_edge (e_vertex e) (e_twin e) (e_face e) (Some j) :: r)
  end.
(** HalfEdgeStructure.cpp:115-117. *)
Fixpoint set_faces (s : hstate) (fs : list nat) : res (list nat) :=
  match fs with
  | [] => Ok []
  | f :: r =>
      let* k := rd (h_facekey s f) in
      let* j := rd (h_index s k) in
      let* r := set_faces s r in
      Ok (j :: r)
  end.

(** The structure: half-edges, one half-edge of each face, one half-edge of each vertex. *)
Record structure : Type := mk_structure { st_edges : list edge; st_faces : list nat; st_verts : list nat }.
Definition init_hstate (nv : nat) : hstate :=
  mk_hstate (fun _ => None) (fun _ => None) (fun _ => None) (fun _ => None) (fun _ => None) [] (repeat O nv).
(** HalfEdgeStructure.cpp:35-118 computeHalfEdges on the vertices 0 ... nv-1 (addVertex, edgeIndex 0);
    line 44 reads the first face. *)
Definition compute_half_edges (nv : nat) (faces : list (list nat)) : res structure :=
  let* _ := rd (nth_error faces 0) in
  let* s := visit_faces 0 faces (init_hstate nv) in
  let* es := set_next s 0 (h_edges s) in
  let* fs := set_faces s (seq 0 (length faces)) in
  Ok (mk_structure es fs (h_verts s)).

(** ConvexMesh.cpp:117-183 createHalfEdgeStructure: the half-edges are computed whether or not the
    faces passed the checks.  The unsigned 32-bit arithmetic of Euler's formula is exact here. *)
Definition euler_ok (nv : nat) (faces : list (list nat)) : bool :=
  Z.eqb (2 + Z.of_nat (Nat.div2 (list_sum (map (@length nat) faces))) - Z.of_nat (length faces)) (Z.of_nat nv).
Definition create_half_edges (nv : nat) (faces : list (list nat)) : res (bool * structure) :=
  let valid := (forallb (fun vs => Nat.leb 3 (length vs)) faces && euler_ok nv faces)%bool in
  let* h := compute_half_edges nv faces in
  Ok (valid, h).
