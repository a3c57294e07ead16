(** Specification of the overlap queries of a world. *)
From Verif Require Import Base HashSpec BitsModel PairsModel PairsSpec WorldModel WorldSpec.
Open Scope Z_scope.

Section Spec.
Variable box : Type.
Variable overlap : box -> box -> bool.
Variable hits : Z -> Z -> bool.
Notation world := (world box).

(** The two colliders belong to the two bodies, in one order or the other. *)
Definition belong (w : world) (a b c1 c2 : Z) : Prop :=
  exists x1 x2, the_coll box c1 w = Some x1 /\ the_coll box c2 w = Some x2 /\ same_bodies a b (c_body x1) (c_body x2).
(** The collider belongs to an active body. *)
Definition live (w : world) (c : Z) : Prop :=
  exists x y, the_coll box c w = Some x /\ the_body box (c_body x) w = Some y /\ b_active y = true.
(** The body is neither static nor asleep. *)
Definition awake (w : world) (b : Z) : Prop := exists y, the_body box b w = Some y /\ b_type y <> Static /\ b_sleeping y = false.
(** The collider belongs to the body. *)
Definition part_of (w : world) (b c : Z) : Prop := exists x, the_coll box c w = Some x /\ c_body x = b.
(** The two colliders belong to different active bodies, the shapes hit, and so do the boxes around them. *)
Definition meets (w : world) (c1 c2 : Z) : Prop :=
  live w c1 /\ live w c2 /\ hits c1 c2 = true /\
  exists x1 x2, the_coll box c1 w = Some x1 /\ the_coll box c2 w = Some x2 /\ c_body x1 <> c_body x2 /\ boxes_overlap box overlap w (c_node x1) (c_node x2).
(** The two colliders collide: both are in the world, the filters let them, the shapes hit, and so do the boxes around them. *)
Definition colliding (w : world) (c1 c2 : Z) : Prop :=
  live w c1 /\ live w c2 /\ hits c1 c2 = true /\
  exists x1 x2, the_coll box c1 w = Some x1 /\ the_coll box c2 w = Some x2 /\ eligible box w x1 x2 /\ boxes_overlap box overlap w (c_node x1) (c_node x2).
End Spec.
