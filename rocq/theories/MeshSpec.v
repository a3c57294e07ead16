(** Polyhedra: signed volume, area vectors, planes. *)
From Verif Require Import Base VecModel HalfEdgeModel HalfEdgeSpec MeshModel.
Open Scope R_scope.

(** The vertex with a given index. *)
Definition at_ (vs : list vec3) (i : nat) : vec3 := nth i vs vzero.
Fixpoint rsum (l : list R) : R := match l with [] => 0 | x :: r => x + rsum r end.
(** Six times the signed volume of the tetrahedron [p a b c]. *)
Definition det (p a b c : vec3) : R := vdot (vsub a p) (vcross (vsub b p) (vsub c p)).
(** The triangles of a face cut from its first vertex. *)
Fixpoint fan (a : nat) (l : list nat) : list (nat * nat * nat) :=
  match l with b :: (c :: _) as r => (a, b, c) :: fan a r | _ => [] end.
Definition triangles (face : list nat) : list (nat * nat * nat) :=
  match face with [] => [] | a :: r => fan a r end.
(** The signed volume enclosed by the triangulated faces, summed over the tetrahedra with apex [p]. *)
Definition signed_volume (p : vec3) (vs : list vec3) (faces : list (list nat)) : R :=
  rsum (map (fun t => let '(a, b, c) := t in det p (at_ vs a) (at_ vs b) (at_ vs c)) (flat_map triangles faces)) / 6.

(** The area vector of a polygon: half of the sum of the cross products of consecutive vertices. *)
Fixpoint vsum (l : list vec3) : vec3 := match l with [] => vzero | x :: r => vadd x (vsum r) end.
Definition area_vector (vs : list vec3) (face : list nat) : vec3 :=
  vscale (1 / 2) (vsum (map (fun e => vcross (at_ vs (fst e)) (at_ vs (snd e))) (around face))).
(** All vertices of the face lie in the plane [n . x = d]. *)
Definition in_plane (vs : list vec3) (face : list nat) (n : vec3) (d : R) : Prop :=
  forall i, In i face -> vdot n (at_ vs i) = d.

(** The polygon data the engine accepts. *)
Definition euler (nv : nat) (faces : list (list nat)) : Prop :=
  (nv + length faces = 2 + Nat.div2 (list_sum (map (@length nat) faces)))%nat.
Definition good (eps : R) (vs : list vec3) (faces : list (list nat)) : Prop :=
  vs <> [] /\ faces <> [] /\ in_range (length vs) faces /\ closed faces /\ euler (length vs) faces /\
  (forall face, In face faces -> (3 <= length face)%nat /\ eps < 2 * vlen (area_vector vs face)).

(** The box is the smallest one that contains the points. *)
Definition tight (b : vec3 * vec3) (vs : list vec3) : Prop :=
  (forall v, In v vs -> vx (fst b) <= vx v <= vx (snd b) /\ vy (fst b) <= vy v <= vy (snd b) /\ vz (fst b) <= vz v <= vz (snd b)) /\
  (exists v, In v vs /\ vx (fst b) = vx v) /\ (exists v, In v vs /\ vy (fst b) = vy v) /\ (exists v, In v vs /\ vz (fst b) = vz v) /\
  (exists v, In v vs /\ vx (snd b) = vx v) /\ (exists v, In v vs /\ vy (snd b) = vy v) /\ (exists v, In v vs /\ vz (snd b) = vz v).

(** The centre of mass of the solid enclosed by the faces, of uniform density: the mean of the centres of
    the tetrahedra with apex [p], weighted by their signed volumes. *)
Definition solid_center (p : vec3) (vs : list vec3) (faces : list (list nat)) : vec3 :=
  vdiv (vsum (map (fun t => let '(a, b, c) := t in
          vscale (det p (at_ vs a) (at_ vs b) (at_ vs c) / 6)
                 (vscale (1 / 4) (vadd (vadd p (at_ vs a)) (vadd (at_ vs b) (at_ vs c))))) (flat_map triangles faces)))
       (signed_volume p vs faces).
