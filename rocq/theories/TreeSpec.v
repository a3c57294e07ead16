(** What the users of the broad-phase tree rely on. *)
From Verif Require Import Base Decimal HashSpec TreeModel.
Open Scope Z_scope.

Section Spec.
Context {T : Type} (o : decimal_ops T).

(** A box whose corners are in order. *)
Definition valid_box (b : box T) : Prop :=
  d_le o (vx (b_min b)) (vx (b_max b)) = true /\
  d_le o (vy (b_min b)) (vy (b_max b)) = true /\
  d_le o (vz (b_min b)) (vz (b_max b)) = true.

(** Binary trees: what the array of nodes represents. *)
Inductive shape : Type :=
| Leaf (id : Z) (b : box T) (data : option Z)
| Node (id : Z) (b : box T) (l r : shape).

Definition root_id (s : shape) : Z := match s with Leaf i _ _ => i | Node i _ _ _ => i end.
Definition root_box (s : shape) : box T := match s with Leaf _ b _ => b | Node _ b _ _ => b end.
Fixpoint height (s : shape) : Z :=
  match s with Leaf _ _ _ => 0 | Node _ _ l r => Z.max (height l) (height r) + 1 end.
Fixpoint ids (s : shape) : list Z :=
  match s with Leaf i _ _ => [i] | Node i _ l r => i :: ids l ++ ids r end.
Fixpoint leaves (s : shape) : list (Z * (box T * option Z)) :=
  match s with Leaf i b d => [(i, (b, d))] | Node _ _ l r => leaves l ++ leaves r end.

(** The array [ns] stores the tree [s] whose root has the parent link [p]. *)
Fixpoint stored (ns : Z -> option (node T)) (p : Z) (s : shape) : Prop :=
  match s with
  | Leaf i b d => exists n, ns i = Some n /\ n_link n = p /\ n_height n = 0 /\ n_box n = b /\ n_data n = d
  | Node i b l r => exists n, ns i = Some n /\ n_link n = p /\ n_height n = height s /\ n_box n = b /\
      n_c0 n = Some (root_id l) /\ n_c1 n = Some (root_id r) /\ stored ns i l /\ stored ns i r
  end.

(** Points of a box; [b] lies in [a]; two boxes overlap (touching counts). *)
Definition point_in (p : vec T) (b : box T) : Prop :=
  (d_le o (vx (b_min b)) (vx p) = true /\ d_le o (vx p) (vx (b_max b)) = true) /\
  (d_le o (vy (b_min b)) (vy p) = true /\ d_le o (vy p) (vy (b_max b)) = true) /\
  (d_le o (vz (b_min b)) (vz p) = true /\ d_le o (vz p) (vz (b_max b)) = true).
Definition within (b a : box T) : Prop :=
  (d_le o (vx (b_min a)) (vx (b_min b)) = true /\ d_le o (vx (b_max b)) (vx (b_max a)) = true) /\
  (d_le o (vy (b_min a)) (vy (b_min b)) = true /\ d_le o (vy (b_max b)) (vy (b_max a)) = true) /\
  (d_le o (vz (b_min a)) (vz (b_min b)) = true /\ d_le o (vz (b_max b)) (vz (b_max a)) = true).
Definition overlap (a b : box T) : Prop :=
  (d_le o (vx (b_min a)) (vx (b_max b)) = true /\ d_le o (vx (b_min b)) (vx (b_max a)) = true) /\
  (d_le o (vy (b_min a)) (vy (b_max b)) = true /\ d_le o (vy (b_min b)) (vy (b_max a)) = true) /\
  (d_le o (vz (b_min a)) (vz (b_max b)) = true /\ d_le o (vz (b_min b)) (vz (b_max a)) = true).

(** [b] is the smallest box containing [b1] and [b2]. *)
Definition join (b b1 b2 : box T) : Prop :=
  within b1 b /\ within b2 b /\ forall c, within b1 c -> within b2 c -> within b c.
Fixpoint tight (s : shape) : Prop :=
  match s with
  | Leaf _ _ _ => True
  | Node _ b l r => join b (root_box l) (root_box r) /\ tight l /\ tight r
  end.

(** The list of free nodes starting at [h]. *)
Fixpoint free_list (ns : Z -> option (node T)) (h : Z) (l : list Z) : Prop :=
  match l with
  | [] => h = -1
  | i :: l' => h = i /\ exists n, ns i = Some n /\ n_height n = -1 /\ free_list ns (n_link n) l'
  end.

(** The tree represented by the array: [None] when it is empty. *)
Definition leaves_of (so : option shape) : list (Z * (box T * option Z)) := match so with None => [] | Some s => leaves s end.
Definition ids_of (so : option shape) : list Z := match so with None => [] | Some s => ids s end.
Definition represents (t : dtree T) (so : option shape) (F : list Z) : Prop :=
  match so with
  | None => t_root t = -1
  | Some s => t_root t = root_id s /\ stored (t_nodes t) (-1) s /\ tight s
  end /\
  free_list (t_nodes t) (t_free t) F /\
  NoDup (ids_of so ++ F) /\
  (forall x, In x (ids_of so ++ F) <-> 0 <= x < t_alloc t) /\
  t_n t = zlen (ids_of so).

(** Histories of the interface.  The second component maps the live identifiers to the box
    reported last and the data.  At most 32768 objects live at a time (the height is an int16). *)
Variable pct : T.
Inductive tree_history : dtree T -> list (Z * (box T * Z)) -> Prop :=
| th_init : tree_history (init_tree o) []
| th_add : forall t s b d t' id, tree_history t s -> valid_box b -> zlen s < 32768 ->
    add_object o pct b d t = Ok (t', id) -> tree_history t' ((id, (b, d)) :: s)
| th_remove : forall t s id t', tree_history t s -> has Z.eqb id s = true ->
    remove_object o id t = Ok t' -> tree_history t' (m_remove Z.eqb id s)
| th_update : forall t s id b0 d b force t' r, tree_history t s -> lookup Z.eqb id s = Some (b0, d) -> valid_box b ->
    update_object o pct id b force t = Ok (t', r) -> tree_history t' (m_set Z.eqb id (b, d) s).
End Spec.
Arguments shape : clear implicits.
