(** What users expect of colliders, of the shapes they share and of their roles. *)
From Verif Require Import Base RolesModel.

(** The objects named by a call exist, a collider is removed from the body it belongs to, and a
    shape is destroyed only while no collider uses it. *)
Definition used_shape (s : nat) (k : scene) : Prop := exists c y, k_cols k c = Some y /\ kc_shape y = s.
Definition proper (o : kop) (k : scene) : Prop :=
  match o with
  | KWorld | KShape => True
  | KBody w | KDestroyWorld w => k_worlds k w <> None
  | KAdd b s => k_bodies k b <> None /\ k_shapes k s <> None
  | KRemove b c => exists y, k_cols k c = Some y /\ kc_body y = b
  | KDestroyBody b | KActive b _ => k_bodies k b <> None
  | KDestroyShape s => k_shapes k s <> None /\ ~ used_shape s k
  | KResize s => k_shapes k s <> None
  | KTrigger c _ | KSimulation c _ => k_cols k c <> None
  end.

(** A history of proper calls. *)
Fixpoint proper_all (os : list kop) (k : scene) : Prop :=
  match os with
  | [] => True
  | o :: os' => proper o k /\ forall k1, kstep o k = Ok k1 -> proper_all os' k1
  end.

(** The list [l] holds each of the things with the property [P] once, and nothing else. *)
Definition lists (l : list nat) (P : nat -> Prop) : Prop := NoDup l /\ forall n, In n l <-> P n.

(** Bodies, colliders, shapes and worlds agree about each other. *)
Record agree (k : scene) : Prop := {
  ag_body : forall b x, k_bodies k b = Some x ->
    lists (kb_colliders x) (fun c => exists y, k_cols k c = Some y /\ kc_body y = b);
  ag_shape : forall s l, k_shapes k s = Some l ->
    lists l (fun c => exists y, k_cols k c = Some y /\ kc_shape y = s);
  ag_world : forall w l, k_worlds k w = Some l ->
    lists l (fun b => exists x, k_bodies k b = Some x /\ kb_world x = w);
  ag_owner : forall c y, k_cols k c = Some y -> k_bodies k (kc_body y) <> None /\ k_shapes k (kc_shape y) <> None;
  ag_home : forall b x, k_bodies k b = Some x -> k_worlds k (kb_world x) <> None;
  ag_tree : forall c y x, k_cols k c = Some y -> k_bodies k (kc_body y) = Some x -> kc_tree y = kb_active x
}.

(** No collider is a trigger and a simulation collider at the same time. *)
Definition one_role (k : scene) : Prop := forall c y, k_cols k c = Some y -> kc_trigger y && kc_sim y = false.

(** Every collider but [c] is as before. *)
Definition same_but (c : nat) (k k' : scene) : Prop := forall d, d <> c -> k_cols k' d = k_cols k d.
