(** Specification of the ray casts of a world. *)
From Coq Require Import List ZArith.
From Verif Require Import Base Decimal TreeModel RayModel RaySpec VecModel GeomSpec ShapeModel ShapeSpec TriMeshModel QueryModel.
Import ListNotations.
Local Open Scope R_scope.

(** ** The points of a collider *)
Definition shape_set (s : wshape) : vec3 -> Prop :=
  match s with WSphere r => ball vzero r | WBox h => cuboid h | WCapsule hh r => capsule hh r end.
Definition shape_ok (s : wshape) : Prop :=
  match s with WSphere r => 0 < r | WBox h => 0 < vx h /\ 0 < vy h /\ 0 < vz h | WCapsule hh r => 0 < hh /\ 0 < r end.
Definition unit_pose (t : transform) : Prop := quat_len2 (t_rot t) = 1.
(** The collider [c] is at [t] with the shape [s]: what getTransform, getLocalToBodyTransform and getCollisionShape say. *)
Definition stands (w : qworld) (c : nat) (t : transform) (s : wshape) : Prop :=
  exists k x, qw_colliders w c = Some k /\ qw_bodies w (wc_body k) = Some x /\ qw_shapes w (wc_shape k) = Some s /\ t = tr_mul (wb_pose x) (wc_local k).
Definition region (w : qworld) (c : nat) (p : vec3) : Prop := exists t s, stands w c t s /\ moved t (shape_set s) p.
(** The body of the collider is active. *)
Definition in_play (w : qworld) (c : nat) : Prop :=
  exists k x, qw_colliders w c = Some k /\ qw_bodies w (wc_body k) = Some x /\ wb_active x = true.
(** The collider takes part in a ray cast with the given mask. *)
Definition targeted (w : qworld) (mask : Z) (c : nat) : Prop :=
  in_play w c /\ exists k, qw_colliders w c = Some k /\ Z.land mask (wc_bits k) <> 0%Z /\ wc_query k = true.
(** The shape of the collider was not resized since the broad phase saw it last. *)
Definition settled (w : qworld) (c : nat) : Prop := exists k, qw_colliders w c = Some k /\ wc_resized k = false.
(** The box of the collider in the broad phase. *)
Definition broad_box (w : qworld) (c : nat) (b : box3) : Prop :=
  exists k fb, qw_colliders w c = Some k /\ get_fat (wc_node k) (qw_tree w) = Ok fb /\ b = real_box fb.

(** ** Histories *)
(** There are at most [n] colliders. *)
Definition at_most (n : Z) (w : qworld) : Prop :=
  forall l, NoDup l -> (forall c, In c l -> qw_colliders w c <> None) -> (Z.of_nat (length l) <= n)%Z.
(** The calls that are allowed: they name things that exist, the transforms are rigid motions, the sizes are positive. *)
Definition allowed (w : qworld) (o : wop) : Prop :=
  match o with
  | OpShape s => shape_ok s
  | OpBody t => unit_pose t
  | OpAdd b s local => qw_bodies w b <> None /\ qw_shapes w s <> None /\ unit_pose local /\ at_most 32767 w
  | OpRemove c => qw_colliders w c <> None
  | OpDestroy b => qw_bodies w b <> None
  | OpTransform b t => qw_bodies w b <> None /\ unit_pose t
  | OpLocal c t => qw_colliders w c <> None /\ unit_pose t
  | OpActive b _ => qw_bodies w b <> None
  | OpSleep b _ => qw_bodies w b <> None
  | OpBits c _ => qw_colliders w c <> None
  | OpQuery c _ => qw_colliders w c <> None
  | OpResize s new => qw_shapes w s <> None /\ shape_ok new
  | OpStep pose => forall b, unit_pose (pose b)
  end.
Inductive reachable (pct : R) : qworld -> Prop :=
| reach_start : reachable pct empty_world
| reach_call : forall w o w', reachable pct w -> allowed w o -> run pct o w = Ok w' -> reachable pct w'.

(** ** Ray casts *)
Definition cut (y : ray) (m : R) : ray := Ray (ray_p1 y) (ray_p2 y) m.
(** The ray in the space of a collider at [t]. *)
Definition seen_from (t : transform) (y : ray) : ray := Ray (tr_point (tr_inverse t) (ray_p1 y)) (tr_point (tr_inverse t) (ray_p2 y)) (ray_max y).
(** The ray cast of a shape alone answers correctly. *)
Definition right_answer (eps big : R) (s : wshape) (y : ray) : Prop :=
  match wshape_cast eps big s y with
  | Some h => first_hit (shape_set s) y h /\ eps <= vlen (hit_normal h)
  | None => misses (shape_set s) y
  end.
(** The shape of the collider answers correctly to the ray, however short it is cut. *)
Definition dependable (eps big : R) (w : qworld) (y : ray) (c : nat) : Prop :=
  forall t s, stands w c t s -> forall m, m <= ray_max y -> right_answer eps big s (seen_from t (cut y m)).
(** The ray does not run in the plane of a face of the box of the collider in the broad phase. *)
Definition clear_of (w : qworld) (y : ray) (c : nat) : Prop :=
  forall b, broad_box w c b -> off_faces real_ops (world_ray y) (tree_box b).
(** The colliders for which the answer is exact. *)
Definition plain (eps big : R) (w : qworld) (y : ray) (c : nat) : Prop := settled w c /\ dependable eps big w y c /\ clear_of w y c.

(** The dialogue with the user: colliders, hits and returned fractions.  The state of the callback afterwards. *)
Definition talk : Type := list (nat * hit * R).
Fixpoint answers_are {St : Type} (notify : user St) (s : St) (d : talk) (s' : St) : Prop :=
  match d with
  | [] => s' = s
  | (c, h, f) :: d => snd (notify s c h) = f /\ (f = 0 -> d = []) /\ answers_are notify (fst (notify s c h)) d s'
  end.
(** The rest of the ray: positive answers shorten it. *)
Fixpoint left_over (m : R) (d : talk) : R :=
  match d with
  | [] => m
  | (_, _, f) :: d => left_over (if Rlt_dec 0 f then Rmin f m else m) d
  end.
(** Each hit lies on the part of the ray that the earlier answers have left. *)
Fixpoint in_turn (m : R) (d : talk) : Prop :=
  match d with
  | [] => True
  | (_, h, f) :: d => 0 <= hit_fraction h <= m /\ in_turn (if Rlt_dec 0 f then Rmin f m else m) d
  end.
(** The callback that collects all hits: it answers -1. *)
Definition all_hits : user (list (nat * hit)) := fun l c h => (l ++ [(c, h)], -1).
(** The callback that keeps the closest hit: it answers with the fraction of each hit. *)
Definition closest_hit : user (option (nat * hit)) := fun _ c h => (Some (c, h), hit_fraction h).
