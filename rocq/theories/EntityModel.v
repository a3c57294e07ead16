(** Model of [reactphysics3d::Entity] and [EntityManager] (include/reactphysics3d/engine/Entity.h,
    EntityManager.h, src/engine/Entity.cpp, EntityManager.cpp).  The Array of generations and the
    Deque of free indices are represented by the sequences they implement (C01, C02). *)
From Verif Require Import Base.
Open Scope Z_scope.

(** Entity.cpp:33-37. *)
Definition INDEX_BITS : Z := 24.
Definition INDEX_MASK : Z := Z.shiftl 1 INDEX_BITS - 1.
Definition GENERATION_BITS : Z := 8.
Definition GENERATION_MASK : Z := Z.shiftl 1 GENERATION_BITS - 1.
Definition MIN_FREE : Z := 1024.

(** Entity.cpp:40-45 constructor: the identifier. *)
Definition entity_id (index generation : Z) : Z :=
  Z.lor (Z.land index INDEX_MASK) (Z.shiftl (Z.land generation GENERATION_MASK) INDEX_BITS).

(** Entity.h:104-111 getIndex, getGeneration. *)
Definition get_index (id : Z) : Z := Z.land id INDEX_MASK.
Definition get_generation (id : Z) : Z := Z.land (Z.shiftr id INDEX_BITS) GENERATION_MASK.

(** EntityManager.h:48-52. *)
Record manager : Type := mk_manager { m_gens : list Z; m_free : list Z }.

(** EntityManager.cpp:33-36. *)
Definition manager_init : manager := mk_manager [] [].

(** EntityManager.cpp:39-64 createEntity.  [static_cast<uint32>] wraps. *)
Definition create_entity (m : manager) : res (manager * Z) :=
  if MIN_FREE <? zlen (m_free m) then
    match m_free m with
    | [] => Ub
    | index :: rest =>
        let* g := rd (znth (m_gens m) index) in
        Ok (mk_manager (m_gens m) rest, entity_id index g)
    end
  else
    let gens := m_gens m ++ [0] in
    let index := wrap32 (zlen gens) - 1 in
    let* g := rd (znth gens index) in
    Ok (mk_manager gens (m_free m), entity_id index g).

(** Assignment to one element. *)
Definition set_nth (l : list Z) (i v : Z) : list Z :=
  firstn (Z.to_nat i) l ++ v :: skipn (S (Z.to_nat i)) l.

(** EntityManager.cpp:67-76 destroyEntity: the generation is an 8-bit number. *)
Definition destroy_entity (id : Z) (m : manager) : res manager :=
  let index := get_index id in
  let* g := rd (znth (m_gens m) index) in
  Ok (mk_manager (set_nth (m_gens m) index ((g + 1) mod 256)) (m_free m ++ [index])).

(** EntityManager.h:75-77 isValid. *)
Definition is_valid (id : Z) (m : manager) : res bool :=
  let* g := rd (znth (m_gens m) (get_index id)) in
  Ok (g =? get_generation id).
