(** What is stated about worlds: the histories considered, and the facts about pairs, bodies and
    joints that users rely on. *)
From Verif Require Import Base HashSpec BitsModel PairsModel PairsSpec WorldModel.
Open Scope Z_scope.

Section Spec.
Variable box : Type.
Variable overlap covers : box -> box -> bool.
Variable inflate : box -> box.
Notation world := (world box).

Definition the_body (b : Z) (w : world) : option body := lookup Z.eqb b (ww_bodies _ w).
Definition the_coll (c : Z) (w : world) : option collider := lookup Z.eqb c (ww_coll _ w).
Definition the_joint (j : Z) (w : world) : option joint := lookup Z.eqb j (ww_joints _ w).
Definition the_pair (id : Z) (w : world) : option pair := lookup Z.eqb id (sp_pairs (ww_pairs _ w)).

(** Collider [c] of body [b] takes part in a pair that is not simulated. *)
Definition has_disabled_pair (b : Z) (w : world) : Prop :=
  exists id p c x, the_pair id w = Some p /\ p_enabled p = false /\ involves c p = true /\ the_coll c w = Some x /\ c_body x = b.
Definition coll_has_disabled_pair (c : Z) (w : world) : Prop :=
  exists id p, the_pair id w = Some p /\ p_enabled p = false /\ involves c p = true.
Definition in_lost (c : Z) (w : world) : Prop := exists e, In e (ww_lost _ w) /\ (fst e = c \/ snd e = c).
Definition fresh_node (n : Z) (w : world) : Prop := 0 <= n < 2 ^ 31 /\ lookup Z.eqb n (ww_tree _ w) = None.
Definition same_bodies (a b c d : Z) : Prop := (a = c /\ b = d) \/ (a = d /\ b = c).

(** The calls considered.  Besides existing arguments and fresh identifiers:
    - a static body is not moved, and does not become movable, while one of its pairs is disabled;
    - filter bits of a collider are not changed while one of its pairs is disabled;
    - a collider waiting to be reported as having lost a contact is not destroyed before the report;
    - [strict]: joints that disable collisions are destroyed only together with one of their bodies;
    - [single]: two bodies have at most one joint that disables their collisions. *)
Definition allowed (strict single : bool) (w : world) (op : wop box) : Prop :=
  match op with
  | WCreateBody _ b => the_body b w = None
  | WDestroyBody _ b => exists x, the_body b w = Some x /\ forall c, In c (b_colliders x) -> ~ in_lost c w
  | WAddCollider _ b c n _ _ => (exists x, the_body b w = Some x) /\ the_coll c w = None /\ fresh_node n w
  | WRemoveCollider _ c => (exists x, the_coll c w = Some x) /\ ~ in_lost c w
  | WSetType _ b t => exists x, the_body b w = Some x /\ (b_type x = Static -> t <> Static -> ~ has_disabled_pair b w)
  | WSetActive _ b v node _ => exists x, the_body b w = Some x /\
      (forall c, In c (b_colliders x) -> fresh_node (node c) w) /\ (forall c d, In c (b_colliders x) -> In d (b_colliders x) -> node c = node d -> c = d)
  | WSetTransform _ b _ _ => exists x, the_body b w = Some x /\ (b_type x = Static -> ~ has_disabled_pair b w)
  | WSetCategory _ c _ | WSetMask _ c _ => (exists x, the_coll c w = Some x) /\ ~ coll_has_disabled_pair c w
  | WCreateJoint _ j b1 b2 collide => the_joint j w = None /\ (exists x, the_body b1 w = Some x) /\ (exists x, the_body b2 w = Some x) /\ b1 <> b2 /\
      (single = true -> collide = false -> forall k x, the_joint k w = Some x -> j_collide x = false -> ~ same_bodies b1 b2 (j_b1 x) (j_b2 x))
  | WDestroyJoint _ j => exists x, the_joint j w = Some x /\ (strict = true -> j_collide x = true)
  | WWake _ b | WSleep _ b | WIntegrate _ b _ _ => exists x, the_body b w = Some x
  | WBroadPhase _ | WNarrowPhase _ _ | WLostContacts _ | WReport _ => True
  end.

Inductive history (strict single : bool) : world -> Prop :=
| h_init : history strict single (init_world box)
| h_step : forall w op w', history strict single w -> allowed strict single w op ->
    wstep box overlap covers inflate w op = Ok w' -> history strict single w'.

(** Two colliders that should be tested for collision when their enlarged boxes overlap. *)
Definition eligible (w : world) (x1 x2 : collider) : Prop :=
  c_body x1 <> c_body x2 /\
  Z.land (c_mask x1) (c_cat x2) <> 0 /\ Z.land (c_cat x1) (c_mask x2) <> 0 /\
  (c_convex x1 = true \/ c_convex x2 = true) /\
  ~ (exists j x, the_joint j w = Some x /\ j_collide x = false /\ same_bodies (c_body x1) (c_body x2) (j_b1 x) (j_b2 x)).
Definition boxes_overlap (w : world) (n1 n2 : Z) : Prop :=
  exists a b, lookup Z.eqb n1 (ww_tree _ w) = Some a /\ lookup Z.eqb n2 (ww_tree _ w) = Some b /\ overlap a b = true.
End Spec.
