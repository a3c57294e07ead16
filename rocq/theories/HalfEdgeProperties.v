(** C55: the half-edge structure of a closed mesh. *)
From Verif Require Import Base HalfEdgeModel HalfEdgeSpec HalfEdgeProofs MeshModel MeshSpec MeshProofs.

(** For every closed oriented face list over the vertices 0 ... nv-1 the structure is computed and
    consistent: one half-edge per directed edge, twins are involutive and reversed, next walks around the
    face, faces and used vertices refer to their own half-edges. *)
Theorem C55_half_edges : forall nv faces, faces <> [] -> (forall vs, In vs faces -> vs <> []) -> in_range nv faces -> closed faces ->
  exists h, compute_half_edges nv faces = Ok h /\ consistent nv faces h.
Proof. exact half_edges_ok. Qed.
Print Assumptions C55_half_edges.
(** The structure is computed for no other face list. *)
Theorem C55_only_closed : forall nv faces h, compute_half_edges nv faces = Ok h ->
  faces <> [] /\ (forall vs, In vs faces -> vs <> []) /\ in_range nv faces /\ closed faces /\ consistent nv faces h.
Proof.
  intros nv faces h H. destruct (half_edges_closed _ _ _ H) as [A [B [C D]]].
  destruct (half_edges_ok nv faces A B C D) as [h' [H' K]]. rewrite H in H'. injection H' as <-.
  split; [exact A|]. split; [exact B|]. split; [exact C|]. split; [exact D|exact K].
Qed.
Print Assumptions C55_only_closed.

(** The structures the engine builds itself: PhysicsCommon.cpp:73-128 (box and triangle). *)
Definition box_faces : list (list nat) := [[0;1;2;3];[1;5;6;2];[4;7;6;5];[4;0;3;7];[4;5;1;0];[2;6;7;3]].
Definition triangle_faces : list (list nat) := [[0;1;2];[0;2;1]].
Example C55_not_vacuous : closed box_faces /\ in_range 8 box_faces /\ closed triangle_faces /\ in_range 3 triangle_faces.
Proof.
  split; [apply closedb_ok; reflexivity|]. split; [apply in_rangeb_ok; reflexivity|].
  split; [apply closedb_ok; reflexivity|apply in_rangeb_ok; reflexivity].
Qed.
Example C55_box : exists h, compute_half_edges 8 box_faces = Ok h /\ length (st_edges h) = 24 /\ consistent 8 box_faces h.
Proof.
  destruct (C55_half_edges 8 box_faces) as [h [H K]].
  - discriminate.
  - intros vs Hv ->. cbn in Hv. repeat (destruct Hv as [Hv|Hv]; [discriminate|]). exact Hv.
  - apply in_rangeb_ok. reflexivity.
  - apply closedb_ok. reflexivity.
  - exists h. split; [exact H|]. split; [|exact K]. destruct K as [K _]. rewrite K. reflexivity.
Qed.
