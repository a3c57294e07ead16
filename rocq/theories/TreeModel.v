(** Model of the dynamic AABB tree (src/collision/broadphase/DynamicAABBTree.cpp,
    include/reactphysics3d/collision/broadphase/DynamicAABBTree.h) and of the operations of AABB
    it uses (include/reactphysics3d/collision/shapes/AABB.h).

    The arithmetic is a parameter (Decimal.v).  Reading a node outside the allocated array, an
    uninitialised child or the children of a node whose union holds leaf data is [Ub].  Debug
    assertions and profiling are left out.  The two stacks of the queries are lists. *)
From Verif Require Import Base Decimal.
Open Scope Z_scope.

Section Model.
Context {T : Type} (o : decimal_ops T).

(** Vector3.h:  three coordinates. *)
Record vec : Type := mk_vec { vx : T; vy : T; vz : T }.

(** AABB.h:49-52. *)
Record box : Type := mk_box { b_min : vec; b_max : vec }.

(** std::min and std::max. *)
Definition dmin (a b : T) : T := if d_lt o b a then b else a.
Definition dmax (a b : T) : T := if d_lt o a b then b else a.

(** Vector3 operators used below. *)
Definition vadd (a b : vec) : vec := mk_vec (d_add o (vx a) (vx b)) (d_add o (vy a) (vy b)) (d_add o (vz a) (vz b)).
Definition vsub (a b : vec) : vec := mk_vec (d_sub o (vx a) (vx b)) (d_sub o (vy a) (vy b)) (d_sub o (vz a) (vz b)).
Definition vscale (a : vec) (s : T) : vec := mk_vec (d_mul o (vx a) s) (d_mul o (vy a) s) (d_mul o (vz a) s).

(** AABB.h:149-151 getExtent. *)
Definition extent (b : box) : vec := vsub (b_max b) (b_min b).

(** AABB.h:179-188 testCollision. *)
Definition test_collision (a b : box) : bool :=
  if d_lt o (vx (b_max a)) (vx (b_min b)) || d_lt o (vx (b_max b)) (vx (b_min a)) then false
  else if d_lt o (vy (b_max a)) (vy (b_min b)) || d_lt o (vy (b_max b)) (vy (b_min a)) then false
  else if d_lt o (vz (b_max a)) (vz (b_min b)) || d_lt o (vz (b_max b)) (vz (b_min a)) then false
  else true.

(** AABB.h:191-194 getVolume. *)
Definition volume (b : box) : T :=
  let d := vsub (b_max b) (b_min b) in d_mul o (d_mul o (vx d) (vy d)) (vz d).

(** AABB.h:235-243 mergeTwoAABBs. *)
Definition merge (a b : box) : box :=
  mk_box (mk_vec (dmin (vx (b_min a)) (vx (b_min b))) (dmin (vy (b_min a)) (vy (b_min b))) (dmin (vz (b_min a)) (vz (b_min b))))
         (mk_vec (dmax (vx (b_max a)) (vx (b_max b))) (dmax (vy (b_max a)) (vy (b_max b))) (dmax (vz (b_max a)) (vz (b_max b)))).

(** AABB.h:246-257 contains. *)
Definition contains (a b : box) : bool :=
  d_le o (vx (b_min a)) (vx (b_min b)) && d_le o (vy (b_min a)) (vy (b_min b)) && d_le o (vz (b_min a)) (vz (b_min b)) &&
  d_le o (vx (b_max b)) (vx (b_max a)) && d_le o (vy (b_max b)) (vy (b_max a)) && d_le o (vz (b_max b)) (vz (b_max a)).

(** DynamicAABBTree.h:42-91.  [n_link]: parentID or nextNodeID (a union).  The children and the
    data of a leaf share memory: writing one makes the other unreadable.  [None]: not initialised. *)
Record node : Type := mk_node {
  n_link : Z;
  n_c0 : option Z;
  n_c1 : option Z;
  n_data : option Z;
  n_height : Z;
  n_box : box
}.
Definition NULL : Z := -1.

(** DynamicAABBTree.h:145-161. *)
Record dtree : Type := mk_dtree {
  t_nodes : Z -> option node;
  t_root : Z;
  t_free : Z;
  t_alloc : Z;
  t_n : Z
}.

(** int16 conversion. *)
Definition wrap16 (x : Z) : Z := (x + 32768) mod 65536 - 32768.

Definition get (i : Z) (t : dtree) : res node :=
  let* _ := check ((0 <=? i) && (i <? t_alloc t)) in rd (t_nodes t i).
Definition put (i : Z) (n : node) (t : dtree) : dtree :=
  mk_dtree (upd (t_nodes t) i (Some n)) (t_root t) (t_free t) (t_alloc t) (t_n t).
Definition modify (i : Z) (f : node -> node) (t : dtree) : res dtree :=
  let* n := get i t in Ok (put i (f n) t).
Definition with_root (r : Z) (t : dtree) : dtree := mk_dtree (t_nodes t) r (t_free t) (t_alloc t) (t_n t).

Definition w_link (v : Z) (n : node) : node := mk_node v (n_c0 n) (n_c1 n) (n_data n) (n_height n) (n_box n).
Definition w_c0 (v : Z) (n : node) : node := mk_node (n_link n) (Some v) (n_c1 n) None (n_height n) (n_box n).
Definition w_c1 (v : Z) (n : node) : node := mk_node (n_link n) (n_c0 n) (Some v) None (n_height n) (n_box n).
Definition w_data (v : Z) (n : node) : node := mk_node (n_link n) None None (Some v) (n_height n) (n_box n).
Definition w_height (v : Z) (n : node) : node := mk_node (n_link n) (n_c0 n) (n_c1 n) (n_data n) (wrap16 v) (n_box n).
Definition w_box (v : box) (n : node) : node := mk_node (n_link n) (n_c0 n) (n_c1 n) (n_data n) (n_height n) v.

(** DynamicAABBTree.h:317-319 isLeaf. *)
Definition is_leaf (n : node) : bool := n_height n =? 0.

(** A default-constructed node (DynamicAABBTree.h:86-88; Vector3() is zero). *)
Definition zero_box : box := let z := mk_vec (d_zero o) (d_zero o) (d_zero o) in mk_box z z.
Definition free_node (next : Z) : node := mk_node next None None None (-1) zero_box.

(** DynamicAABBTree.cpp:52-74 init (16 = GLOBAL_ALIGNMENT). *)
Definition init_tree : dtree :=
  mk_dtree (fun i => if (0 <=? i) && (i <? 16) then Some (free_node (if i =? 15 then NULL else i + 1)) else None)
           NULL 0 16 0.

(** DynamicAABBTree.cpp:93-131 allocateNode.  The first mNbNodes nodes are copied; the doubled
    capacity is an int32. *)
Definition allocate_node (t : dtree) : res (dtree * Z) :=
  let* t1 :=
    (if t_free t =? NULL then
       let a := t_alloc t * 2 in
       let* _ := check (a <? 2 ^ 31) in
       Ok (mk_dtree (fun i => if (0 <=? i) && (i <? t_n t) then t_nodes t i
                              else if (0 <=? i) && (i <? a) then Some (free_node (if i =? a - 1 then NULL else i + 1))
                              else None)
                    (t_root t) (t_n t) a (t_n t))
     else Ok t) in
  let f := t_free t1 in
  let* n := get f t1 in
  let* t2 := modify f (fun n => w_height 0 (w_link NULL n)) t1 in
  Ok (mk_dtree (t_nodes t2) (t_root t2) (n_link n) (t_alloc t2) (t_n t2 + 1), f).

(** DynamicAABBTree.cpp:134-143 releaseNode. *)
Definition release_node (i : Z) (t : dtree) : res dtree :=
  let* t1 := modify i (fun n => w_height (-1) (w_link (t_free t) n)) t in
  Ok (mk_dtree (t_nodes t1) (t_root t1) i (t_alloc t1) (t_n t1 - 1)).

(** DynamicAABBTree.cpp:441-508 and 511-578, one rotation: [up] is the higher child of [id] (C or
    B in the code), [other] its sibling (B or C), [right] tells whether [up] is the right child.
    The two branches of the code are the same up to this choice. *)
Definition rotate_finish (id up other big small : Z) (right : bool) (t : dtree) : res dtree :=
  let* t := modify up (w_c1 big) t in
  let* t := (if right then modify id (w_c1 small) t else modify id (w_c0 small) t) in
  let* t := modify small (w_link id) t in
  let* no := get other t in
  let* ns := get small t in
  let* t := modify id (w_box (merge (n_box no) (n_box ns))) t in
  let* na := get id t in
  let* nb := get big t in
  let* t := modify up (w_box (merge (n_box na) (n_box nb))) t in
  let* no := get other t in
  let* ns := get small t in
  let* t := modify id (w_height (Z.max (n_height no) (n_height ns) + 1)) t in
  let* na := get id t in
  let* nb := get big t in
  modify up (w_height (Z.max (n_height na) (n_height nb) + 1)) t.

Definition rotate (id up other : Z) (right : bool) (t : dtree) : res (dtree * Z) :=
  let* nu := get up t in
  let* f := rd (n_c0 nu) in
  let* g := rd (n_c1 nu) in
  let* na := get id t in
  let* t := modify up (w_c0 id) t in
  let* t := modify up (w_link (n_link na)) t in
  let* t := modify id (w_link up) t in
  let p := n_link na in
  let* t :=
    (if negb (p =? NULL) then
       let* np := get p t in
       let* c := rd (n_c0 np) in
       if c =? id then modify p (w_c0 up) t else modify p (w_c1 up) t
     else Ok (with_root up t)) in
  let* nf := get f t in
  let* ng := get g t in
  let* t := (if n_height ng <? n_height nf then rotate_finish id up other f g right t
             else rotate_finish id up other g f right t) in
  Ok (t, up).

(** DynamicAABBTree.cpp:420-586 balanceSubTreeAtNode. *)
Definition balance (id : Z) (t : dtree) : res (dtree * Z) :=
  let* na := get id t in
  if is_leaf na || (n_height na <? 2) then Ok (t, id)
  else
    let* b := rd (n_c0 na) in
    let* c := rd (n_c1 na) in
    let* nb := get b t in
    let* nc := get c t in
    let factor := n_height nc - n_height nb in
    if 1 <? factor then rotate id c b true t
    else if factor <? -1 then rotate id b c false t
    else Ok (t, id).

(** DynamicAABBTree.cpp:321-344 and 388-406: the way back to the root (the two loops differ only
    in the order of the two assignments). *)
Fixpoint fix_up (fuel : nat) (cur : Z) (t : dtree) : res dtree :=
  match fuel with
  | O => Fuel
  | S fuel' =>
      if cur =? NULL then Ok t
      else
        let* (t, cur) := balance cur t in
        let* n := get cur t in
        let* l := rd (n_c0 n) in
        let* r := rd (n_c1 n) in
        let* nl := get l t in
        let* nr := get r t in
        let* t := modify cur (w_height (Z.max (n_height nl) (n_height nr) + 1)) t in
        let* nl := get l t in
        let* nr := get r t in
        let* t := modify cur (w_box (merge (n_box nl) (n_box nr))) t in
        let* n := get cur t in
        fix_up fuel' (n_link n) t
  end.

(** DynamicAABBTree.cpp:248-283: the costs compared during the descent. *)
Definition cost_sibling (cur new : box) : T := d_mul o (d_two o) (volume (merge cur new)).
Definition cost_inherit (cur new : box) : T :=
  d_mul o (d_two o) (d_sub o (volume (merge cur new)) (volume cur)).
Definition cost_child (cur new : box) (child : node) : T :=
  if is_leaf child then d_add o (volume (merge new (n_box child))) (cost_inherit cur new)
  else d_sub o (d_add o (cost_inherit cur new) (volume (merge new (n_box child)))) (volume (n_box child)).

(** DynamicAABBTree.cpp:231-295: the descent to the best sibling. *)
Fixpoint find_sibling (fuel : nat) (new : box) (cur : Z) (t : dtree) : res Z :=
  match fuel with
  | O => Fuel
  | S fuel' =>
      let* n := get cur t in
      if is_leaf n then Ok cur
      else
        let* l := rd (n_c0 n) in
        let* r := rd (n_c1 n) in
        let* nl := get l t in
        let* nr := get r t in
        let cs := cost_sibling (n_box n) new in
        let cl := cost_child (n_box n) new nl in
        let cr := cost_child (n_box n) new nr in
        if d_lt o cs cl && d_lt o cs cr then Ok cur
        else find_sibling fuel' new (if d_lt o cl cr then l else r) t
  end.

(** Number of steps after which the loops of the model stop. *)
Definition fuel_of (t : dtree) : nat := S (S (Z.to_nat (t_n t))).

(** DynamicAABBTree.cpp:219-346 insertLeafNode. *)
Definition insert_leaf (id : Z) (t : dtree) : res dtree :=
  if t_root t =? NULL then modify id (w_link NULL) (with_root id t)
  else
    let* nn := get id t in
    let* sib := find_sibling (fuel_of t) (n_box nn) (t_root t) t in
    let* ns := get sib t in
    let old := n_link ns in
    let* (t, new) := allocate_node t in
    let* t := modify new (w_link old) t in
    let* ns := get sib t in
    let* t := modify new (w_box (merge (n_box ns) (n_box nn))) t in
    let* ns := get sib t in
    let* t := modify new (w_height (n_height ns + 1)) t in
    let* t :=
      (if negb (old =? NULL) then
         let* no := get old t in
         let* c := rd (n_c0 no) in
         let* t := (if c =? sib then modify old (w_c0 new) t else modify old (w_c1 new) t) in
         let* t := modify new (w_c0 sib) t in
         let* t := modify new (w_c1 id) t in
         let* t := modify sib (w_link new) t in
         modify id (w_link new) t
       else
         let* t := modify new (w_c0 sib) t in
         let* t := modify new (w_c1 id) t in
         let* t := modify sib (w_link new) t in
         let* t := modify id (w_link new) t in
         Ok (with_root new t)) in
    let* n := get id t in
    fix_up (fuel_of t) (n_link n) t.

(** DynamicAABBTree.cpp:349-415 removeLeafNode. *)
Definition remove_leaf (id : Z) (t : dtree) : res dtree :=
  if t_root t =? id then Ok (with_root NULL t)
  else
    let* n := get id t in
    let par := n_link n in
    let* np := get par t in
    let grand := n_link np in
    let* c0 := rd (n_c0 np) in
    let* sib := (if c0 =? id then rd (n_c1 np) else rd (n_c0 np)) in
    if negb (grand =? NULL) then
      let* ng := get grand t in
      let* c := rd (n_c0 ng) in
      let* t := (if c =? par then modify grand (w_c0 sib) t else modify grand (w_c1 sib) t) in
      let* t := modify sib (w_link grand) t in
      let* t := release_node par t in
      fix_up (fuel_of t) grand t
    else
      let* t := modify sib (w_link NULL) (with_root sib t) in
      release_node par t.

(** DynamicAABBTree.cpp:152-154 and 204-206: the fat box. *)
Definition fat_box (pct : T) (b : box) : box :=
  let gap := vscale (vscale (extent b) pct) (d_half o) in
  mk_box (vsub (b_min b) gap) (vadd (b_max b) gap).

(** DynamicAABBTree.cpp:146-166 addObjectInternal and DynamicAABBTree.h:348-366 addObject. *)
Definition add_object (pct : T) (b : box) (data : Z) (t : dtree) : res (dtree * Z) :=
  let* (t, id) := allocate_node t in
  let* t := modify id (w_box (fat_box pct b)) t in
  let* t := modify id (w_height 0) t in
  let* t := insert_leaf id t in
  let* t := modify id (w_data data) t in
  Ok (t, id).

(** DynamicAABBTree.cpp:169-177 removeObject. *)
Definition remove_object (id : Z) (t : dtree) : res dtree :=
  let* t := remove_leaf id t in
  release_node id t.

(** DynamicAABBTree.cpp:186-214 updateObject. *)
Definition update_object (pct : T) (id : Z) (b : box) (force : bool) (t : dtree) : res (dtree * bool) :=
  let* n := get id t in
  if negb force && contains (n_box n) b then Ok (t, false)
  else
    let* t := remove_leaf id t in
    let* t := modify id (w_box (fat_box pct b)) t in
    let* t := insert_leaf id t in
    Ok (t, true).

(** DynamicAABBTree.h:322-338 getFatAABB, getNodeDataInt/Pointer, 341 getRootAABB. *)
Definition get_fat (id : Z) (t : dtree) : res box := let* n := get id t in Ok (n_box n).
Definition get_data (id : Z) (t : dtree) : res Z := let* n := get id t in rd (n_data n).
Definition get_root_box (t : dtree) : res box := get_fat (t_root t) t.

(** DynamicAABBTree.cpp:641-681 reportAllShapesOverlappingWithAABB. *)
Fixpoint query_loop (fuel : nat) (q : box) (stack out : list Z) (t : dtree) : res (list Z) :=
  match stack with
  | [] => Ok out
  | i :: stack' =>
      match fuel with
      | O => Fuel
      | S fuel' =>
          if i =? NULL then query_loop fuel' q stack' out t
          else
            let* n := get i t in
            if test_collision q (n_box n) then
              if is_leaf n then query_loop fuel' q stack' (out ++ [i]) t
              else
                let* l := rd (n_c0 n) in
                let* r := rd (n_c1 n) in
                query_loop fuel' q (r :: l :: stack') out t
            else query_loop fuel' q stack' out t
      end
  end.
Definition query (q : box) (t : dtree) : res (list Z) := query_loop (fuel_of t) q [t_root t] [] t.

(** DynamicAABBTree.cpp:589-638 reportAllShapesOverlappingWithShapes (the whole array). *)
Fixpoint query_shapes (ids : list Z) (t : dtree) : res (list (Z * Z)) :=
  match ids with
  | [] => Ok []
  | i :: ids' =>
      let* q := get_fat i t in
      let* hits := query_loop (fuel_of t) q [t_root t] [] t in
      let* rest := query_shapes ids' t in
      Ok (map (fun h => (i, h)) hits ++ rest)
  end.

(** DynamicAABBTree.cpp:684-747 raycast.  [hit b m]: AABB::testRayIntersect for the given ray and
    maximal fraction; [callback s id m]: the new state of the callback and the returned fraction. *)
Section Raycast.
Context {S : Type}.
Variable hit : box -> T -> bool.
Variable callback : S -> Z -> T -> S * T.
Definition d_eq0 (f : T) : bool := d_le o f (d_zero o) && d_le o (d_zero o) f.
Fixpoint raycast_loop (fuel : nat) (stack : list Z) (m : T) (s : S) (t : dtree) : res (S * T) :=
  match stack with
  | [] => Ok (s, m)
  | i :: stack' =>
      match fuel with
      | O => Fuel
      | Datatypes.S fuel' =>
          if i =? NULL then raycast_loop fuel' stack' m s t
          else
            let* n := get i t in
            if negb (hit (n_box n) m) then raycast_loop fuel' stack' m s t
            else if is_leaf n then
              let (s', f) := callback s i m in
              if d_eq0 f then Ok (s', m)
              else
                let m' := (if d_lt o (d_zero o) f then if d_lt o f m then f else m else m) in
                raycast_loop fuel' stack' m' s' t
            else
              let* l := rd (n_c0 n) in
              let* r := rd (n_c1 n) in
              raycast_loop fuel' (r :: l :: stack') m s t
      end
  end.
Definition raycast (m : T) (s : S) (t : dtree) : res (S * T) := raycast_loop (fuel_of t) [t_root t] m s t.
End Raycast.
End Model.
Arguments vec : clear implicits.
Arguments box : clear implicits.
Arguments node : clear implicits.
Arguments dtree : clear implicits.
