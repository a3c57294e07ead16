(** Model of OverlappingPairs (include/reactphysics3d/engine/OverlappingPairs.h,
    src/engine/OverlappingPairs.cpp).

    Arrays are lists and the maps from pair identifiers to indices are association lists (their
    specifications, C01 and C04).  The functions for convex and concave pairs are copies of each
    other; the model has one with a parameter.  The collision information cached from the last
    frame is not modelled. *)
From Verif Require Import Base HashSpec Lists BitsModel.
Open Scope Z_scope.

(** OverlappingPairs.h:116-161 and 187-198 ([p_concave]: the pair is a ConcaveOverlappingPair). *)
Record pair : Type := mk_pair {
  p_id : Z;
  p_b1 : Z;
  p_b2 : Z;
  p_c1 : Z;
  p_c2 : Z;
  p_test : bool;
  p_prev : bool;
  p_cur : bool;
  p_enabled : bool;
  p_concave : bool
}.
(** OverlappingPairs.h:151-157: a pair not yet tested, not colliding. *)
Definition new_pair (id b1 b2 c1 c2 : Z) (enabled concave : bool) : pair := mk_pair id b1 b2 c1 c2 false false false enabled concave.
Definition with_flags (prev cur : bool) (p : pair) : pair :=
  mk_pair (p_id p) (p_b1 p) (p_b2 p) (p_c1 p) (p_c2 p) (p_test p) prev cur (p_enabled p) (p_concave p).
Definition with_test (v : bool) (p : pair) : pair :=
  mk_pair (p_id p) (p_b1 p) (p_b2 p) (p_c1 p) (p_c2 p) v (p_prev p) (p_cur p) (p_enabled p) (p_concave p).

(** One array and its map. *)
Record pstore : Type := mk_pstore { s_arr : list pair; s_map : list (Z * Z) }.
Definition no_pairs : pstore := mk_pstore [] [].

(** OverlappingPairs.h:307-332.  [o_coll]: ColliderComponents::mOverlappingPairs, the array of
    pair identifiers of each collider. *)
Record pairs : Type := mk_pairs {
  o_convex : pstore;
  o_concave : pstore;
  o_dconvex : pstore;
  o_dconcave : pstore;
  o_coll : list (Z * list Z)
}.
Definition init_pairs : pairs := mk_pairs no_pairs no_pairs no_pairs no_pairs [].
Definition sel (concave enabled : bool) (o : pairs) : pstore :=
  match concave, enabled with
  | false, true => o_convex o | true, true => o_concave o
  | false, false => o_dconvex o | true, false => o_dconcave o
  end.
Definition with_sel (concave enabled : bool) (s : pstore) (o : pairs) : pairs :=
  match concave, enabled with
  | false, true => mk_pairs s (o_concave o) (o_dconvex o) (o_dconcave o) (o_coll o)
  | true, true => mk_pairs (o_convex o) s (o_dconvex o) (o_dconcave o) (o_coll o)
  | false, false => mk_pairs (o_convex o) (o_concave o) s (o_dconcave o) (o_coll o)
  | true, false => mk_pairs (o_convex o) (o_concave o) (o_dconvex o) s (o_coll o)
  end.
Definition with_coll (c : list (Z * list Z)) (o : pairs) : pairs := mk_pairs (o_convex o) (o_concave o) (o_dconvex o) (o_dconcave o) c.

(** Map::add without overwriting, and emplace at the end (OverlappingPairs.cpp:422-425 and others).
    Adding a key that is present is outside the contract of the map. *)
Definition store_add (p : pair) (s : pstore) : res pstore :=
  let* _ := check (negb (has Z.eqb (p_id p) (s_map s))) in
  Ok (mk_pstore (s_arr s ++ [p]) (m_set Z.eqb (p_id p) (zlen (s_arr s)) (s_map s))).

(** OverlappingPairs.cpp:123-136, 153-166, 188-199, 221-235. *)
Definition store_remove (i : Z) (s : pstore) : res pstore :=
  let* p := rd (znth (s_arr s) i) in
  let m := m_remove Z.eqb (p_id p) (s_map s) in
  let n := zlen (s_arr s) in
  let* m := (if (1 <? n) && (i <? n - 1) then
               let* q := rd (znth (s_arr s) (n - 1)) in
               let* _ := check (has Z.eqb (p_id q) m) in
               Ok (m_set Z.eqb (p_id q) i m)
             else Ok m) in
  let* a := swap_delete (s_arr s) i in
  Ok (mk_pstore a m).

(** ColliderComponents::getOverlappingPairs (ColliderComponents.h) and the change of one array. *)
Definition coll_get (c : Z) (o : pairs) : res (list Z) := rd (lookup Z.eqb c (o_coll o)).
Definition coll_remove (c id : Z) (o : pairs) : res pairs :=
  let* l := coll_get c o in
  let* l := remove_value id l in
  Ok (with_coll (m_set Z.eqb c l (o_coll o)) o).
Definition coll_add (c id : Z) (o : pairs) : res pairs :=
  let* l := coll_get c o in
  Ok (with_coll (m_set Z.eqb c (l ++ [id]) (o_coll o)) o).

(** OverlappingPairs.cpp:110-137, 140-167, 170-200, 203-236 remove(Disabled)(Convex|Concave)PairWithIndex. *)
Definition remove_with_index (concave enabled : bool) (i : Z) (from_colliders : bool) (o : pairs) : res pairs :=
  let* p := rd (znth (s_arr (sel concave enabled o)) i) in
  let* o := (if from_colliders then
               let* o := coll_remove (p_c1 p) (p_id p) o in
               coll_remove (p_c2 p) (p_id p) o
             else Ok o) in
  let* s := store_remove i (sel concave enabled o) in
  Ok (with_sel concave enabled s o).

(** OverlappingPairs.cpp:77-107 removePair. *)
Definition remove_pair (id : Z) (o : pairs) : res pairs :=
  match lookup Z.eqb id (s_map (o_convex o)) with
  | Some i => remove_with_index false true i true o
  | None =>
  match lookup Z.eqb id (s_map (o_concave o)) with
  | Some i => remove_with_index true true i true o
  | None =>
  match lookup Z.eqb id (s_map (o_dconvex o)) with
  | Some i => remove_with_index false false i true o
  | None =>
  match lookup Z.eqb id (s_map (o_dconcave o)) with
  | Some i => remove_with_index true false i true o
  | None => Ok o
  end end end end.

(** OverlappingPairs.cpp:301-394 (enable|disable)(Convex|Concave)PairWithIndex: the pair at [i]
    moves from the array [negb enabled] to the array [enabled]. *)
Definition move_with_index (concave enabled : bool) (i : Z) (o : pairs) : res pairs :=
  let* p := rd (znth (s_arr (sel concave (negb enabled) o)) i) in
  let q := with_flags (p_prev p) (p_cur p) (new_pair (p_id p) (p_b1 p) (p_b2 p) (p_c1 p) (p_c2 p) enabled concave) in
  let* s := store_add q (sel concave enabled o) in
  remove_with_index concave (negb enabled) i false (with_sel concave enabled s o).

(** OverlappingPairs.cpp:239-267 enablePair and 270-298 disablePair (the assertions are no code). *)
Definition enable_pair (id : Z) (o : pairs) : res pairs :=
  match lookup Z.eqb id (s_map (o_dconvex o)) with
  | Some i => move_with_index false true i o
  | None =>
  match lookup Z.eqb id (s_map (o_dconcave o)) with
  | Some i => move_with_index true true i o
  | None => Ok o
  end end.
Definition disable_pair (id : Z) (o : pairs) : res pairs :=
  match lookup Z.eqb id (s_map (o_convex o)) with
  | Some i => move_with_index false false i o
  | None =>
  match lookup Z.eqb id (s_map (o_concave o)) with
  | Some i => move_with_index true false i o
  | None => Ok o
  end end.

(** OverlappingPairs.cpp:397-449 addPair.  The colliders are given by their entities, broad-phase
    identifiers and whether the pair is convex-convex. *)
Definition add_pair (c1 b1 c2 b2 : Z) (convex : bool) (o : pairs) : res (pairs * Z) :=
  let id := pair_id b1 b2 in
  let* s := store_add (new_pair id b1 b2 c1 c2 true (negb convex)) (sel (negb convex) true o) in
  let* o := coll_add c1 id (with_sel (negb convex) true s o) in
  let* o := coll_add c2 id o in
  Ok (o, id).

(** OverlappingPairs.h:459-470 setNeedToTestOverlap: indexing the concave map with a missing key is
    an access out of range. *)
Definition set_need_test (id : Z) (v : bool) (o : pairs) : res pairs :=
  match lookup Z.eqb id (s_map (o_convex o)) with
  | Some i =>
      let* p := rd (znth (s_arr (o_convex o)) i) in
      Ok (with_sel false true (mk_pstore (lset (s_arr (o_convex o)) i (with_test v p)) (s_map (o_convex o))) o)
  | None =>
      let* i := rd (lookup Z.eqb id (s_map (o_concave o))) in
      let* p := rd (znth (s_arr (o_concave o)) i) in
      Ok (with_sel true true (mk_pstore (lset (s_arr (o_concave o)) i (with_test v p)) (s_map (o_concave o))) o)
  end.

(** OverlappingPairs.h:473-493 getOverlappingPair: the place of the pair, if any. *)
Definition find_pair (id : Z) (o : pairs) : option (bool * bool * Z) :=
  match lookup Z.eqb id (s_map (o_convex o)) with
  | Some i => Some (false, true, i)
  | None =>
  match lookup Z.eqb id (s_map (o_concave o)) with
  | Some i => Some (true, true, i)
  | None =>
  match lookup Z.eqb id (s_map (o_dconvex o)) with
  | Some i => Some (false, false, i)
  | None =>
  match lookup Z.eqb id (s_map (o_dconcave o)) with
  | Some i => Some (true, false, i)
  | None => None
  end end end end.
Definition get_pair (id : Z) (o : pairs) : res (option pair) :=
  match find_pair id o with
  | None => Ok None
  | Some (k, e, i) => let* p := rd (znth (s_arr (sel k e o)) i) in Ok (Some p)
  end.
(** A write through the pointer returned by getOverlappingPair (CollisionDetectionSystem.cpp:337
    and 1230). *)
Definition update_pair (id : Z) (f : pair -> pair) (o : pairs) : res pairs :=
  match find_pair id o with
  | None => Ub
  | Some (k, e, i) =>
      let* p := rd (znth (s_arr (sel k e o)) i) in
      Ok (with_sel k e (mk_pstore (lset (s_arr (sel k e o)) i (f p)) (s_map (sel k e o))) o)
  end.

(** OverlappingPairs.h:496-498 isPairDisabled. *)
Definition is_disabled (id : Z) (o : pairs) : bool :=
  has Z.eqb id (s_map (o_dconvex o)) || has Z.eqb id (s_map (o_dconcave o)).

(** Loops over the enabled arrays: OverlappingPairs.cpp:465-482 updateCollidingInPreviousFrame,
    CollisionDetectionSystem.cpp:389 and 441 (the flag is cleared before the narrow phase). *)
Definition map_enabled (f : pair -> pair) (o : pairs) : pairs :=
  mk_pairs (mk_pstore (map f (s_arr (o_convex o))) (s_map (o_convex o)))
           (mk_pstore (map f (s_arr (o_concave o))) (s_map (o_concave o))) (o_dconvex o) (o_dconcave o) (o_coll o).
Definition update_previous : pairs -> pairs := map_enabled (fun p => with_flags (p_cur p) (p_cur p) p).
Definition clear_current : pairs -> pairs := map_enabled (fun p => with_flags (p_prev p) false p).

(** A collider component is created with an empty array (ColliderComponents.cpp: addComponent) and
    destroyed. *)
Definition add_collider (c : Z) (o : pairs) : pairs := with_coll (m_set Z.eqb c [] (o_coll o)) o.
Definition delete_collider (c : Z) (o : pairs) : pairs := with_coll (m_remove Z.eqb c (o_coll o)) o.

(** Calls on the pair storage. *)
Inductive pop : Type :=
| PAdd (c1 b1 c2 b2 : Z) (convex : bool)
| PRemove (id : Z)
| PEnable (id : Z)
| PDisable (id : Z)
| PNeedTest (id : Z) (v : bool)
| PSetTest (id : Z) (v : bool)
| PSetColliding (id : Z)
| PUpdatePrevious
| PClearCurrent
| PAddCollider (c : Z)
| PDeleteCollider (c : Z).
Definition pstep (o : pairs) (op : pop) : res pairs :=
  match op with
  | PAdd c1 b1 c2 b2 convex => let* (o, _) := add_pair c1 b1 c2 b2 convex o in Ok o
  | PRemove id => remove_pair id o
  | PEnable id => enable_pair id o
  | PDisable id => disable_pair id o
  | PNeedTest id v => set_need_test id v o
  | PSetTest id v => update_pair id (with_test v) o
  | PSetColliding id => update_pair id (fun p => with_flags (p_prev p) true p) o
  | PUpdatePrevious => Ok (update_previous o)
  | PClearCurrent => Ok (clear_current o)
  | PAddCollider c => Ok (add_collider c o)
  | PDeleteCollider c => Ok (delete_collider c o)
  end.
Fixpoint prun (o : pairs) (ops : list pop) : res pairs :=
  match ops with [] => Ok o | op :: ops' => let* o := pstep o op in prun o ops' end.
