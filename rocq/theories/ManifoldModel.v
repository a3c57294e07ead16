(** From narrow-phase results to contacts (src/systems/CollisionDetectionSystem.cpp), over the real numbers.  Arrays are lists and
    positions in them natural numbers; reading outside an array is undefined behaviour.  Array lengths do not wrap. *)
From Coq Require Import List ZArith Reals.
From Verif Require Import Base VecModel.
Import ListNotations.
Local Open Scope R_scope.

(** ContactPointInfo.h:40-63. *)
Record cinfo : Type := CInfo { i_n : vec3; i_p1 : vec3; i_p2 : vec3; i_depth : R }.

(** configuration.h:137, 140, 143 NB_MAX_CONTACT_MANIFOLDS, NB_MAX_POTENTIAL_CONTACT_MANIFOLDS,
    NB_MAX_CONTACT_POINTS_IN_POTENTIAL_MANIFOLD; ContactManifold.h:37 MAX_CONTACT_POINTS_IN_MANIFOLD. *)
Definition max_manifolds : nat := 4.
Definition max_potential_manifolds : nat := 64.
Definition max_potential_points : nat := 255.
Definition max_points : nat := 4.
(** configuration.h:146 SAME_CONTACT_POINT_DISTANCE_THRESHOLD. *)
Definition same_distance : R := 1 / 100.

(** Array access and assignment. *)
Definition get {A : Type} (l : list A) (i : nat) : res A := rd (nth_error l i).
Fixpoint put {A : Type} (l : list A) (i : nat) (x : A) : list A :=
  match l, i with
  | [], _ => []
  | _ :: t, O => x :: t
  | a :: t, S j => a :: put t j x
  end.

(** CollisionDetectionSystem.cpp:1665-1670 removeItemAtInArray, ContactPair.h:107-112 removePotentialManifoldAtIndex: the last element
    replaces the removed one. *)
Definition remove_at {A : Type} (l : list A) (i : nat) : res (list A) :=
  let* _ := check (Nat.ltb i (length l)) in
  let* x := get l (length l - 1) in
  Ok (removelast (put l i x)).

(** CollisionDetectionSystem.cpp:1516-1527: the candidate farthest in direction (1, 1, 1).  [best] starts as DECIMAL_SMALLEST. *)
Fixpoint farthest_along (pts : list cinfo) (cands : list nat) (i : nat) (best : R) (keep : nat) : res nat :=
  match cands with
  | [] => Ok keep
  | c :: rest =>
      let* e := get pts c in
      let d := vdot (V3 1 1 1) (i_p1 e) in
      if rlt best d then farthest_along pts rest (S i) d i else farthest_along pts rest (S i) best keep
  end.
(** CollisionDetectionSystem.cpp:1536-1552: the candidate farthest from the first point. *)
Fixpoint farthest_from (pts : list cinfo) (p : vec3) (cands : list nat) (i : nat) (best : R) (keep : nat) : res nat :=
  match cands with
  | [] => Ok keep
  | c :: rest =>
      let* e := get pts c in
      let d := vlen2 (vsub p (i_p1 e)) in
      if rle best d then farthest_from pts p rest (S i) d i else farthest_from pts p rest (S i) best keep
  end.
(** CollisionDetectionSystem.cpp:1575-1579, 1631-1635: signed area (times two) of the triangle of a candidate and an edge. *)
Definition area_of (n a b p : vec3) : R := vdot (vcross (vsub a p) (vsub b p)) n.
(** CollisionDetectionSystem.cpp:1560-1589: the candidates giving the largest and the smallest area. *)
Fixpoint extreme_areas (pts : list cinfo) (n a b : vec3) (cands : list nat) (i : nat) (amax : R) (kmax : nat) (amin : R) (kmin : nat)
  : res (R * nat * R * nat) :=
  match cands with
  | [] => Ok (amax, kmax, amin, kmin)
  | c :: rest =>
      let* e := get pts c in
      let s := area_of n a b (i_p1 e) in
      let '(amax', kmax') := if rle amax s then (s, i) else (amax, kmax) in
      let '(amin', kmin') := if rle s amin then (s, i) else (amin, kmin) in
      extreme_areas pts n a b rest (S i) amax' kmax' amin' kmin'
  end.
(** CollisionDetectionSystem.cpp:1622-1648: the three edges for one candidate, then all candidates. *)
Definition edge_step (positive : bool) (n p : vec3) (i : nat) (st : R * nat) (edge : vec3 * vec3) : R * nat :=
  let s := area_of n (fst edge) (snd edge) p in
  if (positive && rle s (fst st) || negb positive && rle (fst st) s)%bool then (s, i) else st.
Fixpoint opposite_area (pts : list cinfo) (positive : bool) (n : vec3) (edges : list (vec3 * vec3)) (cands : list nat) (i : nat)
  (st : R * nat) : res nat :=
  match cands with
  | [] => Ok (snd st)
  | c :: rest =>
      let* e := get pts c in
      opposite_area pts positive n edges rest (S i) (fold_left (edge_step positive n (i_p1 e) i) edges st)
  end.

(** CollisionDetectionSystem.cpp:1483-1662 reduceContactPoints; [rot] is the orientation of the first collider, [top] DECIMAL_LARGEST. *)
Definition reduce_points (top : R) (rot : quat) (pts : list cinfo) (m : list nat) : res (list nat) :=
  let* c0 := get m 0 in
  let* e0 := get pts c0 in
  let n := quat_vec (quat_inverse rot) (i_n e0) in
  let* i1 := farthest_along pts m 0 (- top) 0 in
  let* k1 := get m i1 in
  let* m1 := remove_at m i1 in
  let* q1 := get pts k1 in
  let* i2 := farthest_from pts (i_p1 q1) m1 0 0 0 in
  let* k2 := get m1 i2 in
  let* m2 := remove_at m1 i2 in
  let* q2 := get pts k2 in
  let* (amax, kmax, amin, kmin) := extreme_areas pts n (i_p1 q1) (i_p1 q2) m2 0 0 0 0 0 in
  let positive := rlt (- amin) amax in
  let i3 := if positive then kmax else kmin in
  let* k3 := get m2 i3 in
  let* m3 := remove_at m2 i3 in
  let* q3 := get pts k3 in
  let* i4 := opposite_area pts positive n [(i_p1 q1, i_p1 q2); (i_p1 q2, i_p1 q3); (i_p1 q3, i_p1 q1)] m3 0 (0, 0%nat) in
  let* k4 := get m3 i4 in
  Ok [k1; k2; k3; k4].

(** CollisionDetectionSystem.cpp:1685-1704: the inner loop of removeDuplicatedContactPointsInManifold; after a removal the position [j]
    is looked at again. *)
Fixpoint dedupe_from (fuel : nat) (thr2 : R) (pts : list cinfo) (m : list nat) (i j : nat) : res (list nat) :=
  if Nat.ltb j (length m) then
    match fuel with
    | O => Fuel
    | S f =>
        let* a := get m i in
        let* b := get m j in
        let* p := get pts a in
        let* q := get pts b in
        if rlt (vlen2 (vsub (i_p1 q) (i_p1 p))) thr2
        then let* m' := remove_at m j in dedupe_from f thr2 pts m' i j
        else dedupe_from f thr2 pts m i (S j)
    end
  else Ok m.
(** CollisionDetectionSystem.cpp:1684: the outer loop. *)
Fixpoint dedupe (fuel : nat) (thr2 : R) (pts : list cinfo) (m : list nat) (i : nat) : res (list nat) :=
  if Nat.ltb i (length m) then
    match fuel with
    | O => Fuel
    | S f => let* m' := dedupe_from (length m) thr2 pts m i (S i) in dedupe f thr2 pts m' (S i)
    end
  else Ok m.
(** CollisionDetectionSystem.cpp:1673-1705 removeDuplicatedContactPointsInManifold. *)
Definition remove_duplicates (pts : list cinfo) (m : list nat) : res (list nat) :=
  dedupe (length m) (same_distance * same_distance) pts m 0.

(** CollisionDetectionSystem.cpp:1458-1476 computePotentialManifoldLargestContactDepth. *)
Fixpoint largest_depth (pts : list cinfo) (m : list nat) (best : R) : res R :=
  match m with
  | [] => Ok best
  | c :: rest => let* e := get pts c in largest_depth pts rest (if rlt best (i_depth e) then i_depth e else best)
  end.
(** CollisionDetectionSystem.cpp:1411-1426: the shallowest manifold; [None] is index -1. *)
Fixpoint shallowest (pts : list cinfo) (mans : list (list nat)) (ids : list nat) (j : nat) (best : R) (keep : option nat)
  : res (option nat) :=
  match ids with
  | [] => Ok keep
  | k :: rest =>
      let* m := get mans k in
      let* d := largest_depth pts m 0 in
      if rlt d best then shallowest pts mans rest (S j) d (Some j) else shallowest pts mans rest (S j) best keep
  end.
(** CollisionDetectionSystem.cpp:1408-1431: the loop removing manifolds of a pair. *)
Fixpoint drop_manifolds (fuel : nat) (top : R) (pts : list cinfo) (mans : list (list nat)) (ids : list nat) : res (list nat) :=
  if Nat.ltb max_manifolds (length ids) then
    match fuel with
    | O => Fuel
    | S f =>
        let* k := shallowest pts mans ids 0 top None in
        match k with
        | None => Ub
        | Some j => let* ids' := remove_at ids j in drop_manifolds f top pts mans ids'
        end
    end
  else Ok ids.
(** CollisionDetectionSystem.cpp:1443-1455: the points of one manifold. *)
Definition reduce_manifold (top : R) (rot : quat) (pts : list cinfo) (m : list nat) : res (list nat) :=
  let* m' := if Nat.ltb max_points (length m) then reduce_points top rot pts m else Ok m in
  remove_duplicates pts m'.

(** ContactPair.h: identifier, colliders (the bodies are those of the colliders), flags, potential manifolds, position and number of the
    manifolds and points. *)
Record cpair : Type := CPair {
  c_id : Z; c_k1 : nat; c_k2 : nat; c_prev : bool; c_trigger : bool; c_pots : list nat; c_m0 : nat; c_nm : nat; c_p0 : nat; c_np : nat
}.
Definition with_pots (l : list nat) (c : cpair) : cpair :=
  CPair (c_id c) (c_k1 c) (c_k2 c) (c_prev c) (c_trigger c) l (c_m0 c) (c_nm c) (c_p0 c) (c_np c).
Definition with_ranges (m0 nm p0 np : nat) (c : cpair) : cpair :=
  CPair (c_id c) (c_k1 c) (c_k2 c) (c_prev c) (c_trigger c) (c_pots c) m0 nm p0 np.
(** NarrowPhaseInfoBatch.h:50-96 with the flags read from the two colliders and from the overlapping pair; [n_convex]: both colliders have
    convex shapes. *)
Record ninfo : Type := NInfo {
  n_pair : Z; n_k1 : nat; n_k2 : nat; n_convex : bool; n_prev : bool; n_trigger : bool; n_colliding : bool; n_points : list cinfo
}.
(** mPotentialContactPoints, mPotentialContactManifolds, mCurrentContactPairs, and the map from pair to contact pair
    (CollisionDetectionSystem.cpp:670). *)
Record potential : Type := Potential { o_points : list cinfo; o_mans : list (list nat); o_pairs : list cpair; o_map : list (Z * nat) }.
Definition no_potential : potential := Potential [] [] [] [].
Definition new_pair (i : ninfo) (pots : list nat) : cpair := CPair (n_pair i) (n_k1 i) (n_k2 i) (n_prev i) (n_trigger i) pots 0 0 0 0.
Fixpoint lookup (id : Z) (m : list (Z * nat)) : option nat :=
  match m with
  | [] => None
  | (k, v) :: rest => if Z.eqb k id then Some v else lookup id rest
  end.

(** CollisionDetectionSystem.cpp:1247-1287: a pair of convex shapes. *)
Definition add_convex (i : ninfo) (o : potential) : potential :=
  let kept := firstn max_potential_points (n_points i) in
  match kept with
  | [] => Potential (o_points o) (o_mans o) (o_pairs o ++ [new_pair i []]) (o_map o)
  | _ => Potential (o_points o ++ kept) (o_mans o ++ [seq (length (o_points o)) (length kept)])
           (o_pairs o ++ [new_pair i [length (o_mans o)]]) (o_map o)
  end.
(** CollisionDetectionSystem.cpp:1334-1363: the first manifold of the pair with room and a similar normal. *)
Fixpoint similar_manifold (cosmin : R) (pts : list cinfo) (mans : list (list nat)) (ids : list nat) (n : vec3) : res (option nat) :=
  match ids with
  | [] => Ok None
  | k :: rest =>
      let* m := get mans k in
      if Nat.ltb (length m) max_potential_points then
        let* f := get m 0 in
        let* e := get pts f in
        if rle cosmin (vdot (i_n e) n) then Ok (Some k) else similar_manifold cosmin pts mans rest n
      else similar_manifold cosmin pts mans rest n
  end.
(** CollisionDetectionSystem.cpp:1319-1384: one contact point of the contact pair [x]. *)
Definition add_point (cosmin : R) (x : nat) (o : potential) (e : cinfo) : res potential :=
  let* c := get (o_pairs o) x in
  let k := length (o_points o) in
  let pts := o_points o ++ [e] in
  let* s := similar_manifold cosmin pts (o_mans o) (c_pots c) (i_n e) in
  match s with
  | Some j =>
      let* m := get (o_mans o) j in
      Ok (Potential pts (put (o_mans o) j (m ++ [k])) (o_pairs o) (o_map o))
  | None =>
      if Nat.ltb (length (c_pots c)) max_potential_manifolds
      then Ok (Potential pts (o_mans o ++ [[k]]) (put (o_pairs o) x (with_pots (c_pots c ++ [length (o_mans o)]) c)) (o_map o))
      else Ok (Potential pts (o_mans o) (o_pairs o) (o_map o))
  end.
Fixpoint add_points (cosmin : R) (x : nat) (l : list cinfo) (o : potential) : res potential :=
  match l with
  | [] => Ok o
  | e :: rest => let* o' := add_point cosmin x o e in add_points cosmin x rest o'
  end.
(** CollisionDetectionSystem.cpp:1289-1385: a pair with a concave shape. *)
Definition add_concave (cosmin : R) (i : ninfo) (o : potential) : res potential :=
  match lookup (n_pair i) (o_map o) with
  | Some x => add_points cosmin x (n_points i) o
  | None =>
      let x := length (o_pairs o) in
      add_points cosmin x (n_points i) (Potential (o_points o) (o_mans o) (o_pairs o ++ [new_pair i []]) ((n_pair i, x) :: o_map o))
  end.
(** CollisionDetectionSystem.cpp:663-696 processAllPotentialContacts, 1198-1391 processPotentialContacts: the batches one after the other. *)
Definition process_one (cosmin : R) (i : ninfo) (o : potential) : res potential :=
  if n_colliding i then (if n_convex i then Ok (add_convex i o) else add_concave cosmin i o) else Ok o.
Fixpoint process (cosmin : R) (l : list ninfo) (o : potential) : res potential :=
  match l with
  | [] => Ok o
  | i :: rest => let* o' := process_one cosmin i o in process cosmin rest o'
  end.

(** CollisionDetectionSystem.cpp:1401-1433: first all pairs drop manifolds. *)
Fixpoint drop_all (top : R) (pts : list cinfo) (mans : list (list nat)) (l : list cpair) : res (list cpair) :=
  match l with
  | [] => Ok []
  | c :: rest =>
      let* ids := drop_manifolds (length (c_pots c)) top pts mans (c_pots c) in
      let* rest' := drop_all top pts mans rest in
      Ok (with_pots ids c :: rest')
  end.
(** CollisionDetectionSystem.cpp:1436-1456: then the manifolds of every pair are reduced in place; [rot] gives the orientation of a
    collider. *)
Fixpoint reduce_ids (top : R) (rot : quat) (pts : list cinfo) (ids : list nat) (mans : list (list nat)) : res (list (list nat)) :=
  match ids with
  | [] => Ok mans
  | k :: rest =>
      let* m := get mans k in
      let* m' := reduce_manifold top rot pts m in
      reduce_ids top rot pts rest (put mans k m')
  end.
Fixpoint reduce_all (top : R) (rot : nat -> quat) (pts : list cinfo) (l : list cpair) (mans : list (list nat)) : res (list (list nat)) :=
  match l with
  | [] => Ok mans
  | c :: rest => let* mans' := reduce_ids top (rot (c_k1 c)) pts (c_pots c) mans in reduce_all top rot pts rest mans'
  end.
(** CollisionDetectionSystem.cpp:1394-1457 reducePotentialContactManifolds. *)
Definition reduce (top : R) (rot : nat -> quat) (o : potential) : res potential :=
  let* pairs := drop_all top (o_points o) (o_mans o) (o_pairs o) in
  let* mans := reduce_all top rot (o_points o) pairs (o_mans o) in
  Ok (Potential (o_points o) mans pairs (o_map o)).

(** ContactPoint.cpp:52-67: a new contact point has no impulse and is not resting; ContactManifold.cpp:33-40.  The friction vectors of a
    new manifold are zero (Vector3.h, default constructor). *)
Record dpoint : Type := DPoint { d_info : cinfo; d_imp : R; d_rest : bool }.
Record dman : Type := DMan { y_k1 : nat; y_k2 : nat; y_p0 : nat; y_np : nat; y_v1 : vec3; y_v2 : vec3; y_f1 : R; y_f2 : R; y_tw : R }.
Definition new_point (e : cinfo) : dpoint := DPoint e 0 false.
(** mCurrentContactPairs, mCurrentContactManifolds, mCurrentContactPoints after createContacts. *)
Record frame : Type := Frame { f_pairs : list cpair; f_mans : list dman; f_points : list dpoint }.

Fixpoint get_all {A : Type} (l : list A) (ids : list nat) : res (list A) :=
  match ids with
  | [] => Ok []
  | k :: rest => let* a := get l k in let* b := get_all l rest in Ok (a :: b)
  end.
(** CollisionDetectionSystem.cpp:913-939: the manifolds of one pair. *)
Fixpoint create_manifolds (o : potential) (k1 k2 : nat) (ids : list nat) (mans : list dman) (pts : list dpoint) (np : nat)
  : res (list dman * list dpoint * nat) :=
  match ids with
  | [] => Ok (mans, pts, np)
  | k :: rest =>
      let* m := get (o_mans o) k in
      let* l := get_all (o_points o) m in
      create_manifolds o k1 k2 rest (mans ++ [DMan k1 k2 (length pts) (length m) vzero vzero 0 0 0]) (pts ++ map new_point l) (np + length m)
  end.
(** CollisionDetectionSystem.cpp:900-941 createContacts: the contact pairs in the order given by the islands;
    1021-1065 createSnapshotContacts does the same for all pairs in their order. *)
Fixpoint create (o : potential) (order : list nat) (f : frame) : res frame :=
  match order with
  | [] => Ok f
  | x :: rest =>
      let* c := get (f_pairs f) x in
      let* (mans, pts, np) := create_manifolds o (c_k1 c) (c_k2 c) (c_pots c) (f_mans f) (f_points f) (c_np c) in
      create o rest (Frame (put (f_pairs f) x (with_ranges (length (f_mans f)) (length (c_pots c)) (length (f_points f)) np c)) mans pts)
  end.

(** Narrow phase to contacts of one update (CollisionDetectionSystem.cpp:699-726 computeNarrowPhase and 900-941). *)
Definition contacts (top cosmin : R) (rot : nat -> quat) (infos : list ninfo) (order : list nat) : res frame :=
  let* o := process cosmin infos no_potential in
  let* o' := reduce top rot o in
  create o' order (Frame (o_pairs o') [] []).

(** CollisionDetectionSystem.cpp:735-742 computeMapPreviousContactPairs; the pair identifiers of a frame are different. *)
Definition previous_pair (old : frame) (id : Z) : option cpair := find (fun c => Z.eqb (c_id c) id) (f_pairs old).
(** CollisionDetectionSystem.cpp:1102-1122: the first old manifold in the range with a similar normal of its first point. *)
Fixpoint matching_manifold (cosmin : R) (old : frame) (n : vec3) (start nb : nat) : res (option dman) :=
  match nb with
  | O => Ok None
  | S k =>
      let* m := get (f_mans old) start in
      let* p := get (f_points old) (y_p0 m) in
      if rle cosmin (vdot (i_n (d_info p)) n) then Ok (Some m) else matching_manifold cosmin old n (S start) k
  end.
(** CollisionDetectionSystem.cpp:1091-1124: the manifolds of one pair. *)
Fixpoint inherit_manifolds (cosmin : R) (old : frame) (oc : cpair) (start nb : nat) (f : frame) : res frame :=
  match nb with
  | O => Ok f
  | S k =>
      let* m := get (f_mans f) start in
      let* p := get (f_points f) (y_p0 m) in
      let* r := matching_manifold cosmin old (i_n (d_info p)) (c_m0 oc) (c_nm oc) in
      let m' := match r with
                | Some b => DMan (y_k1 m) (y_k2 m) (y_p0 m) (y_np m) (y_v1 b) (y_v2 b) (y_f1 b) (y_f2 b) (y_tw b)
                | None => m
                end in
      inherit_manifolds cosmin old oc (S start) k (Frame (f_pairs f) (put (f_mans f) start m') (f_points f))
  end.
(** CollisionDetectionSystem.cpp:1138-1156: the first old point in the range close to the new one. *)
Fixpoint matching_point (per2 : R) (old : frame) (p : vec3) (start nb : nat) : res (option dpoint) :=
  match nb with
  | O => Ok None
  | S k =>
      let* q := get (f_points old) start in
      if rle (vlen2 (vsub p (i_p1 (d_info q)))) per2 then Ok (Some q) else matching_point per2 old p (S start) k
  end.
(** CollisionDetectionSystem.cpp:1128-1157: the points of one pair. *)
Fixpoint inherit_points (per2 : R) (old : frame) (oc : cpair) (start nb : nat) (f : frame) : res frame :=
  match nb with
  | O => Ok f
  | S k =>
      let* q := get (f_points f) start in
      let* r := matching_point per2 old (i_p1 (d_info q)) (c_p0 oc) (c_np oc) in
      let q' := match r with
                | Some b => DPoint (d_info q) (d_imp b) (d_rest b)
                | None => q
                end in
      inherit_points per2 old oc (S start) k (Frame (f_pairs f) (f_mans f) (put (f_points f) start q'))
  end.
(** CollisionDetectionSystem.cpp:1069-1160 initContactsWithPreviousOnes; [per] is persistentContactDistanceThreshold. *)
Fixpoint inherit (per cosmin : R) (old : frame) (l : list cpair) (f : frame) : res frame :=
  match l with
  | [] => Ok f
  | c :: rest =>
      match previous_pair old (c_id c) with
      | None => inherit per cosmin old rest f
      | Some oc =>
          let* f1 := inherit_manifolds cosmin old oc (c_m0 c) (c_nm c) f in
          let* f2 := inherit_points (per * per) old oc (c_p0 c) (c_np c) f1 in
          inherit per cosmin old rest f2
      end
  end.
(** Narrow phase, creation of the contacts and inheritance from the contacts of the previous update. *)
Definition update_contacts (top per cosmin : R) (rot : nat -> quat) (infos : list ninfo) (order : list nat) (old : frame) : res frame :=
  let* f := contacts top cosmin rot infos order in
  inherit per cosmin old (f_pairs f) f.
