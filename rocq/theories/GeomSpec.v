(** Points of segments, distances, half spaces: the vocabulary of the geometric theorems. *)
From Coq Require Import Reals List.
From Verif Require Import VecModel.
Import ListNotations.
Local Open Scope R_scope.

(** The point of the line through [a] and [b] with parameter [t]. *)
Definition lerp (a b : vec3) (t : R) : vec3 :=
  V3 (vx a + t * (vx b - vx a)) (vy a + t * (vy b - vy a)) (vz a + t * (vz b - vz a)).
Definition on_segment (a b p : vec3) : Prop := exists t, 0 <= t <= 1 /\ p = lerp a b t.
Definition dist (p q : vec3) : R :=
  sqrt ((vx p - vx q) * (vx p - vx q) + (vy p - vy q) * (vy p - vy q) + (vz p - vz q) * (vz p - vz q)).
(** Signed offset of a point from a plane given by a point and a normal. *)
Definition offset (pp n p : vec3) : R :=
  (vx p - vx pp) * vx n + (vy p - vy pp) * vy n + (vz p - vz pp) * vz n.
Definition front (pl : vec3 * vec3) (p : vec3) : Prop := 0 <= offset (fst pl) (snd pl) p.
(** [u] and [v] are neighbours in a cyclic list of vertices. *)
Definition neighbours (l : list vec3) (u v : vec3) : Prop :=
  exists l1 l2, last l vzero :: l = l1 ++ u :: v :: l2.
(** Order-preserving embedding of one list in another. *)
Inductive sublist {A : Type} : list A -> list A -> Prop :=
| sub_nil : sublist [] []
| sub_keep x l l' : sublist l l' -> sublist (x :: l) (x :: l')
| sub_skip x l l' : sublist l l' -> sublist l (x :: l').

(** The part of a segment in front of some planes. *)
Definition part (a b : vec3) (planes : list (vec3 * vec3)) (p : vec3) : Prop :=
  on_segment a b p /\ Forall (fun q => front q p) planes.
(** No plane cuts the part in front of the earlier planes at a grazing angle: if points of that part are on both sides,
    then some points of it on both sides are further apart along the normal than one ten thousandth. *)
Definition no_graze (a b : vec3) (planes : list (vec3 * vec3)) : Prop :=
  forall before pl after, planes = before ++ pl :: after ->
  (exists x y, part a b before x /\ part a b before y /\ ~ front pl x /\ front pl y) ->
  exists x y, part a b before x /\ part a b before y /\ ~ front pl x /\ front pl y /\
    / 10000 < offset (fst pl) (snd pl) y - offset (fst pl) (snd pl) x.
