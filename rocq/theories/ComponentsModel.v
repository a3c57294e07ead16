(** Model of the component storage of the entity-component system
    (include/reactphysics3d/components/Components.h, src/components/*.cpp).

    All component classes derive from [Components] and store one record per entity in parallel
    arrays (struct of arrays).  One slot of the model is the tuple of the data of all arrays at one
    index.  [swap_copy] describes how [swapComponents] of the concrete class saves the data of the
    first component: it is the identity for all classes except HingeJointComponents and
    SliderJointComponents (see the end of this file).  The map from entities to indices is
    represented by the partial function it implements (C04).  Entities are identifiers. *)
From Verif Require Import Base Float24 HashSpec.
Open Scope Z_scope.

Section Model.
Context {D : Type}.
Variable swap_copy : D -> D.

(** Components.h:56-79.  [c_slots i = None]: no constructed component at index [i]. *)
Record comps : Type := mk_comps {
  c_n : Z;
  c_alloc : Z;
  c_slots : Z -> option (Z * D);
  c_map : list (Z * Z);
  c_dis : Z
}.

Definition in_mem (c : comps) (i : Z) : bool := (0 <=? i) && (i <? c_alloc c).

(** Map::operator[] on a missing key and Map::add of a present key (without overwrite) are
    undefined / excluded by assertions. *)
Definition map_at (m : list (Z * Z)) (e : Z) : res Z := rd (lookup Z.eqb e m).
Definition map_add (m : list (Z * Z)) (e i : Z) : res (list (Z * Z)) :=
  if has Z.eqb e m then Ub else Ok (m_set Z.eqb e i m).

(** <Class>::allocate (e.g. TransformComponents.cpp:43-88): the used slots are copied. *)
Definition comps_allocate (n : Z) (c : comps) : res comps :=
  let n' := round_cap n in
  let* _ := check (c_n c <=? n') in
  Ok (mk_comps (c_n c) n' (fun i => if i <? c_n c then c_slots c i else None) (c_map c) (c_dis c)).

(** Components.cpp:34-40 constructor and 62-66 init(). *)
Definition comps_init : res comps :=
  comps_allocate 10 (mk_comps 0 0 (fun _ => None) [] 0).

(** Placement new of a component at an index. *)
Definition construct (i : Z) (v : Z * D) (c : comps) : res comps :=
  let* _ := check (in_mem c i) in
  Ok (mk_comps (c_n c) (c_alloc c) (upd (c_slots c) i (Some v)) (c_map c) (c_dis c)).

Definition read_slot (i : Z) (c : comps) : res (Z * D) :=
  let* _ := check (in_mem c i) in rd (c_slots c i).

(** <Class>::destroyComponent (e.g. TransformComponents.cpp:158-168). *)
Definition destroy_component (i : Z) (c : comps) : res comps :=
  let* (e, _) := read_slot i c in
  Ok (mk_comps (c_n c) (c_alloc c) (upd (c_slots c) i None) (m_remove Z.eqb e (c_map c)) (c_dis c)).

(** mMapEntityToComponentIndex.add(entity, index). *)
Definition map_entity (e i : Z) (c : comps) : res comps :=
  let* m := map_add (c_map c) e i in
  Ok (mk_comps (c_n c) (c_alloc c) (c_slots c) m (c_dis c)).

(** <Class>::moveComponentToIndex (e.g. TransformComponents.cpp:112-130). *)
Definition move_component (src dst : Z) (c : comps) : res comps :=
  let* (e, d) := read_slot src c in
  let* c1 := construct dst (e, d) c in
  let* c2 := destroy_component src c1 in
  map_entity e dst c2.

(** <Class>::swapComponents (e.g. TransformComponents.cpp:133-155). *)
Definition swap_components (i1 i2 : Z) (c : comps) : res comps :=
  let* (e1, d1) := read_slot i1 c in
  let* c1 := destroy_component i1 c in
  let* c2 := move_component i2 i1 c1 in
  let* c3 := construct i2 (e1, swap_copy d1) c2 in
  map_entity e1 i2 c3.

Definition with_n (n : Z) (c : comps) : comps := mk_comps n (c_alloc c) (c_slots c) (c_map c) (c_dis c).
Definition with_dis (k : Z) (c : comps) : comps := mk_comps (c_n c) (c_alloc c) (c_slots c) (c_map c) k.

(** Components.cpp:69-99 prepareAddComponent. *)
Definition prepare_add (disabled : bool) (c : comps) : res (comps * Z) :=
  let* c1 := (if c_n c =? c_alloc c then comps_allocate (c_alloc c * 2) c else Ok c) in
  if disabled then Ok (c1, c_n c1)
  else
    let* c2 := (if negb (c_dis c1 =? c_n c1) then move_component (c_dis c1) (c_n c1) c1 else Ok c1) in
    Ok (with_dis (c_dis c2 + 1) c2, c_dis c2).

(** <Class>::addComponent (e.g. TransformComponents.cpp:91-108). *)
Definition add_component (e : Z) (disabled : bool) (d : D) (c : comps) : res comps :=
  let* (c1, i) := prepare_add disabled c in
  let* c2 := construct i (e, d) c1 in
  let* c3 := map_entity e i c2 in
  Ok (with_n (c_n c3 + 1) c3).

(** Components.cpp:108-156 removeComponent. *)
Definition remove_component (e : Z) (c : comps) : res comps :=
  let* i := map_at (c_map c) e in
  let* c1 := destroy_component i c in
  let* c2 :=
    (if c_dis c1 <=? i then
       if negb (i =? c_n c1 - 1) then move_component (c_n c1 - 1) i c1 else Ok c1
     else
       let* c' := (if negb (i =? c_dis c1 - 1) then move_component (c_dis c1 - 1) i c1 else Ok c1) in
       let* c'' := (if negb (c_dis c' =? c_n c') then move_component (c_n c' - 1) (c_dis c' - 1) c' else Ok c') in
       Ok (with_dis (c_dis c'' - 1) c'')) in
  Ok (with_n (c_n c2 - 1) c2).

(** Components.cpp:159-194 setIsEntityDisabled. *)
Definition set_disabled (e : Z) (disabled : bool) (c : comps) : res comps :=
  let* i := map_at (c_map c) e in
  if negb disabled && (c_dis c <=? i) then
    let* c1 := (if negb (c_dis c =? i) then swap_components i (c_dis c) c else Ok c) in
    Ok (with_dis (c_dis c1 + 1) c1)
  else if disabled && (i <? c_dis c) then
    let* c1 := (if negb (i =? c_dis c - 1) then swap_components i (c_dis c - 1) c else Ok c) in
    Ok (with_dis (c_dis c1 - 1) c1)
  else Ok c.

(** Components.h:129-165 queries. *)
Definition is_disabled (e : Z) (c : comps) : res bool :=
  let* i := map_at (c_map c) e in Ok (c_dis c <=? i).
Definition has_component (e : Z) (c : comps) : bool := has Z.eqb e (c_map c).
Definition entity_index (e : Z) (c : comps) : res Z := map_at (c_map c) e.

(** Getters and setters of the concrete classes: data[mMapEntityToComponentIndex[entity]]. *)
Definition get_data (e : Z) (c : comps) : res D :=
  let* i := map_at (c_map c) e in
  let* (_, d) := read_slot i c in Ok d.
Definition set_data (e : Z) (d : D) (c : comps) : res comps :=
  let* i := map_at (c_map c) e in
  let* (e', _) := read_slot i c in
  construct i (e', d) c.

(** One call of the interface. *)
Inductive cop : Type :=
| CAdd (e : Z) (disabled : bool) (d : D)
| CRemove (e : Z)
| CSetDisabled (e : Z) (disabled : bool)
| CSet (e : Z) (d : D).

Definition comps_step (c : comps) (o : cop) : res comps :=
  match o with
  | CAdd e b d => add_component e b d c
  | CRemove e => remove_component e c
  | CSetDisabled e b => set_disabled e b c
  | CSet e d => set_data e d c
  end.

Fixpoint comps_run (c : comps) (os : list cop) : res comps :=
  match os with
  | [] => Ok c
  | o :: os' => let* c1 := comps_step c o in comps_run c1 os'
  end.
End Model.
Arguments comps : clear implicits.
Arguments cop : clear implicits.

(** HingeJointComponents.cpp:357 and SliderJointComponents.cpp:388: [bUpperLimit] is saved from
    mUpperLimit.  Only the two fields concerned are represented. *)
Record limit_data : Type := mk_limit { upper_limit : Z; b_upper_limit : Z }.
Definition hinge_swap_copy (d : limit_data) : limit_data := mk_limit (upper_limit d) (upper_limit d).

(** Layout of the parallel arrays in one allocated buffer: every array but the first starts at
    alignAddress of the end of the previous one (e.g. TransformComponents.cpp:59-64;
    MemoryAllocator::alignAddress is modelled in HeapModel.v). *)
From Verif Require Import HeapModel.
Fixpoint layout_from (start n : Z) (sizes : list Z) : list (Z * Z) :=
  match sizes with
  | [] => []
  | s :: sizes' => (start, n * s) :: layout_from (align_address (start + n * s) 16) n sizes'
  end.
(** e.g. TransformComponents.cpp:51: totalSizeBytes, with mAlignmentMarginSize = k * 16 for k
    arrays (all constructors of src/components). *)
Definition layout_bytes (n : Z) (sizes : list Z) : Z :=
  n * fold_right Z.add 0 sizes + zlen sizes * 16.
