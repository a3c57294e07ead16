(** Meshes and what a half-edge structure says about them. *)
From Verif Require Import Base HalfEdgeModel.

(** The directed edges of a face, in order: every vertex to the next one, the last one to the first. *)
Definition around (vs : list nat) : list vpair :=
  match vs with [] => [] | v :: r => combine vs (r ++ [v]) end.
Definition mesh_edges (faces : list (list nat)) : list vpair := flat_map around faces.
Definition rev_edge (k : vpair) : vpair := (snd k, fst k).
(** Closed and oriented: every directed edge occurs once and joins two different vertices, and so does
    its reverse. *)
Definition closed (faces : list (list nat)) : Prop :=
  NoDup (mesh_edges faces) /\
  forall k, In k (mesh_edges faces) -> fst k <> snd k /\ In (rev_edge k) (mesh_edges faces).
Definition in_range (nv : nat) (faces : list (list nat)) : Prop :=
  forall vs v, In vs faces -> In v vs -> v < nv.

(** Half-edge [i] goes from [a] to [b] along face [f]: its vertex is [a], the vertex of the next one is [b]. *)
Definition is_edge (h : structure) (i : nat) (f : nat) (a b : nat) : Prop :=
  exists e n e', nth_error (st_edges h) i = Some e /\ e_vertex e = a /\ e_face e = f /\ e_next e = Some n /\
    nth_error (st_edges h) n = Some e' /\ e_vertex e' = b.
(** Half-edge [j] follows [i]. *)
Definition follows (h : structure) (i j : nat) : Prop := exists e, nth_error (st_edges h) i = Some e /\ e_next e = Some j.
Definition twins (h : structure) (i j : nat) : Prop := exists e, nth_error (st_edges h) i = Some e /\ e_twin e = Some j.

Definition consistent (nv : nat) (faces : list (list nat)) (h : structure) : Prop :=
  (* as many half-edges as directed edges; each directed edge of each face is one half-edge *)
  length (st_edges h) = length (mesh_edges faces) /\
  (forall f vs a b, nth_error faces f = Some vs -> In (a, b) (around vs) -> exists i, is_edge h i f a b /\ forall i' f', is_edge h i' f' a b -> i' = i) /\
  (* twins: every half-edge has one, the reversed edge, whose twin is the half-edge itself *)
  (forall i f a b, is_edge h i f a b -> exists j g, j <> i /\ twins h i j /\ twins h j i /\ is_edge h j g b a) /\
  (* next walks around the face *)
  (forall f vs n a b c, nth_error faces f = Some vs -> nth_error (around vs) n = Some (a, b) ->
     nth_error (around vs) (if Nat.eqb (S n) (length vs) then O else S n) = Some (b, c) ->
     exists i j, is_edge h i f a b /\ is_edge h j f b c /\ follows h i j) /\
  (* every half-edge is one of the above *)
  (forall i, i < length (st_edges h) -> exists f vs a b, nth_error faces f = Some vs /\ In (a, b) (around vs) /\ is_edge h i f a b) /\
  (* faces and used vertices refer to one of their own half-edges *)
  (length (st_faces h) = length faces /\
   forall f i, nth_error (st_faces h) f = Some i -> exists a b, is_edge h i f a b) /\
  (length (st_verts h) = nv /\
   forall v i, nth_error (st_verts h) v = Some i -> In v (concat faces) -> exists f b, is_edge h i f v b).
