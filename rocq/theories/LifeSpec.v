(** What users expect of the life of bodies and joints. *)
From Coq Require Import Permutation.
From Verif Require Import Base LifeModel.

(** The bodies and the joints that exist. *)
Definition bodies (w : world) : list nat := map b_id (slots (w_bodies w)).
Definition joints (w : world) : list joint := slots (w_joints w).

(** The joint [y] holds the body [b]. *)
Definition involves (b : nat) (y : joint) : bool := Nat.eqb (j_body1 y) b || Nat.eqb (j_body2 y) b.

(** The entries for the joint [y] that the body [b] must have. *)
Definition ends (b : nat) (y : joint) : list nat :=
  (if Nat.eqb (j_body1 y) b then [j_id y] else []) ++ (if Nat.eqb (j_body2 y) b then [j_id y] else []).

(** Every object, living or released. *)
Definition objects (w : world) : list object :=
  map OBody (bodies w) ++ map (fun y => OJoint (j_id y)) (joints w) ++ w_gone w.

Definition number (o : object) : nat := match o with OBody n => n | OJoint n => n end.

(** A world in order: no object is there twice, released objects are not used any more, both bodies
    of every joint exist, and every body knows exactly the joints that hold it. *)
Record linked (w : world) : Prop := {
  lk_objects : NoDup (map number (objects w));
  lk_fresh : forall o, In o (objects w) -> number o < w_next w;
  lk_array : Permutation (w_array w) (bodies w);
  lk_ends : forall y, In y (joints w) -> In (j_body1 y) (bodies w) /\ In (j_body2 y) (bodies w);
  lk_lists : forall x, In x (slots (w_bodies w)) -> Permutation (b_joints x) (flat_map (ends (b_id x)) (joints w));
  lk_enabled : enabled (w_bodies w) <= length (slots (w_bodies w)) /\ enabled (w_joints w) <= length (slots (w_joints w))
}.

(** The body [b] is awake and not static (isSleeping() is false, getType() is not STATIC). *)
Definition awake_movable (b : nat) (w : world) : Prop :=
  exists x, In x (slots (w_bodies w)) /\ b_id x = b /\ b_asleep x = false /\ b_static x = false.
(** No body sleeps. *)
Definition all_awake (w : world) : Prop := forall x, In x (slots (w_bodies w)) -> b_asleep x = false.

Definition undisturbed (b : nat) (w : world) : Prop := awake_movable b w \/ all_awake w.

(** Histories in which bodies are only destroyed while they are awake and not static, or while all
    bodies are awake. *)
Fixpoint careful (os : list lop) (w : world) : Prop :=
  match os with
  | [] => True
  | o :: os' =>
      (match o with LDestroyBody b => undisturbed b w | _ => True end) /\
      (forall w1, life_step o w = Ok w1 -> careful os' w1)
  end.

(** The objects named by a call exist. *)
Definition names_living (o : lop) (w : world) : Prop :=
  match o with
  | LBody => True
  | LJoint b1 b2 => In b1 (bodies w) /\ In b2 (bodies w)
  | LDestroyJoint j | LUpdateJoint j => In j (map j_id (joints w))
  | LDestroyBody b | LSleep b _ | LStatic b _ | LActive b _ => In b (bodies w)
  end.
