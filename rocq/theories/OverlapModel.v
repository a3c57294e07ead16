(** The overlap and collision queries of a world (src/systems/CollisionDetectionSystem.cpp:744-905, 1775-1955), on top of
    the model of bodies, colliders and pairs (WorldModel.v).
    Simplified: the narrow phase is a test [hits] of two colliders (for a concave shape: one of its triangles is hit); the
    contacts themselves and the data kept for the next frame (LastFrameCollisionInfo) are left out. *)
From Verif Require Import Base HashSpec BitsModel PairsModel PairsSpec WorldModel.
Open Scope Z_scope.

Section Overlap.
Variable box : Type.
Variable overlap : box -> box -> bool.
(** The narrow phase. *)
Variable hits : Z -> Z -> bool.
(** ColliderComponents: mIsWorldQueryCollider and mIsTrigger. *)
Variable queryable trigger : Z -> bool.
Notation world := (world box).

(** OverlappingPairs.h:308-311: mConvexPairs and mConcavePairs, without the arrays of disabled pairs. *)
Definition current_pairs (w : world) : list pair :=
  flat_map (fun id => match find box id w with Some p => if p_enabled p then [p] else [] | None => [] end) (all_ids box w).
Fixpoint keep (f : pair -> res bool) (ps : list pair) : res (list pair) :=
  match ps with
  | [] => Ok []
  | p :: ps => let* b := f p in let* r := keep f ps in Ok (if b : bool then p :: r else r)
  end.
(** CollisionDetectionSystem.cpp:1899-1921 filterOverlappingPairs for one body. *)
Definition pairs_with (b : Z) (w : world) : res (list pair) :=
  keep (fun p => let* (b1, b2) := pair_bodies box p w in Ok ((b1 =? b) || (b2 =? b))) (current_pairs w).
(** CollisionDetectionSystem.cpp:1924-1955 filterOverlappingPairs for two bodies. *)
Definition pairs_between (a b : Z) (w : world) : res (list pair) :=
  keep (fun p => let* (b1, b2) := pair_bodies box p w in Ok (((b1 =? a) && (b2 =? b)) || ((b1 =? b) && (b2 =? a)))) (current_pairs w).
(** CollisionDetectionSystem.cpp:345-456 computeMiddlePhase for a world query: the pairs to test; the flags of this frame are reset. *)
Definition middle_phase (w : world) : res (world * list pair) :=
  let* w := pairs_step box PClearCurrent w in
  Ok (w, filter (fun p => queryable (p_c1 p) && queryable (p_c2 p)) (current_pairs w)).
(** CollisionDetectionSystem.cpp:744-767 computeNarrowPhaseOverlapSnapshot and 805-841 computeOverlapSnapshotContactPairs. *)
Definition overlapping (ps : list pair) : list (Z * Z) := map (fun p => (p_c1 p, p_c2 p)) (filter (fun p => hits (p_c1 p) (p_c2 p)) ps).

(** CollisionDetectionSystem.cpp:1775-1797 testOverlap(body1, body2). *)
Definition test_overlap_bodies (a b : Z) (w : world) : res (world * bool) :=
  let* w := broad_phase box overlap w in
  let* ps := pairs_between a b w in
  Ok (w, existsb (fun p => hits (p_c1 p) (p_c2 p)) ps).
(** CollisionDetectionSystem.cpp:1815-1835 testOverlap(body, callback): the pairs of colliders reported. *)
Definition test_overlap_body (b : Z) (w : world) : res (world * list (Z * Z)) :=
  let* w := broad_phase box overlap w in
  let* ps := pairs_with b w in
  Ok (w, overlapping ps).
(** CollisionDetectionSystem.cpp:1800-1812 testOverlap(callback). *)
Definition test_overlap_world (w : world) : res (world * list (Z * Z)) :=
  let* w := broad_phase box overlap w in
  let* (w, ps) := middle_phase w in
  Ok (w, overlapping ps).

(** CollisionDetectionSystem.cpp:1200-1245 processPotentialContacts: the pairs that collide are marked; CollisionCallback.cpp:86-93: triggers are not
    reported. *)
Definition mark (ps : list pair) (w : world) : res world :=
  each box (fun p => pairs_step box (PSetColliding (p_id p))) (filter (fun p => hits (p_c1 p) (p_c2 p)) ps) w.
Definition touching (ps : list pair) : list (Z * Z) := filter (fun e => negb (trigger (fst e) || trigger (snd e))) (overlapping ps).
(** CollisionDetectionSystem.cpp:1838-1858 testCollision(body1, body2, callback). *)
Definition test_collision_bodies (a b : Z) (w : world) : res (world * list (Z * Z)) :=
  let* w := broad_phase box overlap w in
  let* ps := pairs_between a b w in
  let* w := mark ps w in
  Ok (w, touching ps).
(** CollisionDetectionSystem.cpp:1861-1881 testCollision(body, callback). *)
Definition test_collision_body (b : Z) (w : world) : res (world * list (Z * Z)) :=
  let* w := broad_phase box overlap w in
  let* ps := pairs_with b w in
  let* w := mark ps w in
  Ok (w, touching ps).
(** CollisionDetectionSystem.cpp:1884-1896 testCollision(callback). *)
Definition test_collision_world (w : world) : res (world * list (Z * Z)) :=
  let* w := broad_phase box overlap w in
  let* (w, ps) := middle_phase w in
  let* w := mark ps w in
  Ok (w, touching ps).
End Overlap.
