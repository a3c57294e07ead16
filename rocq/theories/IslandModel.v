(** Model of the islands of an update and of putting islands to sleep
    (src/engine/PhysicsWorld.cpp:695-866 and 871-926, include/reactphysics3d/engine/Islands.h). *)
From Verif Require Import Base.
Open Scope Z_scope.

Definition memb (x : Z) (l : list Z) : bool := existsb (Z.eqb x) l.

(** ContactPair (include/reactphysics3d/collision/ContactPair.h): the two bodies, whether both
    colliders are simulation colliders (PhysicsWorld.cpp:780-786), number of potential manifolds. *)
Record cpair : Type := mk_cpair { cp_b1 : Z; cp_b2 : Z; cp_sim : bool; cp_nman : Z }.
(** JointComponents: mBody1Entities, mBody2Entities. *)
Record jpair : Type := mk_jpair { jp_b1 : Z; jp_b2 : Z }.

(** What createIslands reads and does not change: body types, activity, mHasSimulationCollider,
    mCurrentContactPairs, the joints and the array of joints of each body. *)
Record graph : Type := mk_graph {
  g_static : Z -> bool;
  g_active : Z -> bool;
  g_hassim : Z -> bool;
  g_cpairs : list cpair;
  g_joint : Z -> option jpair;
  g_joints_of : Z -> list Z
}.

(** An island: contactManifoldsIndices, nbContactManifolds, and its part of bodyEntities (the array
    stores the bodies of all islands one after the other with start indices and counts). *)
Record island : Type := mk_island { is_first : Z; is_nman : Z; is_bodies : list Z }.

(** [n_en], [n_dis]: the rigid body components in order, enabled ones first; [n_sleep]: bodies whose
    mIsSleeping is set; [n_in], [n_pin], [n_jin]: the bodies, contact pairs and joints whose
    isAlreadyInIsland is set; [n_order]: mProcessContactPairsOrderIslands; [n_tot]: nbTotalManifolds;
    [n_isl]: the islands, latest first; the head is the island under construction. *)
Record istate : Type := mk_istate {
  n_en : list Z; n_dis : list Z; n_sleep : list Z;
  n_in : list Z; n_pin : list Z; n_jin : list Z;
  n_order : list Z; n_tot : Z; n_isl : list island
}.
Definition w_flags en dis sl (s : istate) := mk_istate en dis sl (n_in s) (n_pin s) (n_jin s) (n_order s) (n_tot s) (n_isl s).
Definition w_in x (s : istate) := mk_istate (n_en s) (n_dis s) (n_sleep s) x (n_pin s) (n_jin s) (n_order s) (n_tot s) (n_isl s).
Definition w_pin x (s : istate) := mk_istate (n_en s) (n_dis s) (n_sleep s) (n_in s) x (n_jin s) (n_order s) (n_tot s) (n_isl s).
Definition w_jin x (s : istate) := mk_istate (n_en s) (n_dis s) (n_sleep s) (n_in s) (n_pin s) x (n_order s) (n_tot s) (n_isl s).
Definition w_order x t i (s : istate) := mk_istate (n_en s) (n_dis s) (n_sleep s) (n_in s) (n_pin s) (n_jin s) x t i.
Definition w_isl i (s : istate) := w_order (n_order s) (n_tot s) i s.

Section Islands.
Variable g : graph.

(** CollisionDetectionSystem.cpp:719-732 addContactPairsToBodies: mContactPairs of a body. *)
Definition pairs_of_body (b : Z) : list Z :=
  flat_map (fun e : nat * cpair => let (k, p) := e in
    (if cp_b1 p =? b then [Z.of_nat k] else []) ++ (if cp_b2 p =? b then [Z.of_nat k] else []))
    (combine (seq 0 (length (g_cpairs g))) (g_cpairs g)).

(** RigidBody.cpp:1006-1057 setIsSleeping(false): here its effect on the rigid body components
    (Components.cpp:159-193 setIsEntityDisabled swaps the component to the end of the enabled ones). *)
Definition enable_comp (x : Z) (en dis : list Z) : list Z * list Z :=
  if memb x en then (en, dis)
  else match dis with
       | [] => (en, dis)
       | d :: rest => (en ++ [x], if x =? d then rest else map (fun y => if y =? x then d else y) rest)
       end.
Definition wake (x : Z) (s : istate) : istate :=
  if negb (memb x (n_sleep s)) then s
  else if g_static g x then s
  else if negb (g_active g x) then s
  else let (en, dis) := enable_comp x (n_en s) (n_dis s) in
       w_flags en dis (filter (fun y => negb (y =? x)) (n_sleep s)) s.

(** Islands.h:91-106 addIsland and 108-115 addBodyToIsland. *)
Definition add_island (s : istate) : istate := w_isl (mk_island (n_tot s) 0 [] :: n_isl s) s.
Definition cur (s : istate) (f : island -> island) : res (list island) :=
  match n_isl s with i :: l => Ok (f i :: l) | [] => Ub end.
Definition add_body (x : Z) (s : istate) : res istate :=
  let* l := cur s (fun i => mk_island (is_first i) (is_nman i) (is_bodies i ++ [x])) in Ok (w_isl l s).

(** PhysicsWorld.cpp:766-818, one contact pair of the visited body; the stack has its top first. *)
Definition visit_pair (b k : Z) (st : list Z * istate) : res (list Z * istate) :=
  let (stack, s) := st in
  let* p := rd (znth (g_cpairs g) k) in
  if memb k (n_pin s) then Ok (stack, s)
  else
    let s := w_pin (k :: n_pin s) s in
    if negb (cp_sim p) then Ok (stack, s)
    else
      let other := if cp_b1 p =? b then cp_b2 p else cp_b1 p in
      if negb (g_hassim g other) then Ok (stack, s)
      else
        let* l := cur s (fun i => mk_island (is_first i) (is_nman i + cp_nman p) (is_bodies i)) in
        let s := w_order (n_order s ++ [k]) (n_tot s + cp_nman p) l s in
        if memb other (n_in s) then Ok (stack, s)
        else Ok (other :: stack, w_in (other :: n_in s) s).
(** PhysicsWorld.cpp:820-843, one joint of the visited body. *)
Definition visit_joint (b j : Z) (st : list Z * istate) : res (list Z * istate) :=
  let (stack, s) := st in
  let* p := rd (g_joint g j) in
  if memb j (n_jin s) then Ok (stack, s)
  else
    let s := w_jin (j :: n_jin s) s in
    let other := if jp_b1 p =? b then jp_b2 p else jp_b1 p in
    if memb other (n_in s) then Ok (stack, s)
    else Ok (other :: stack, w_in (other :: n_in s) s).
Fixpoint visit_all (f : Z -> list Z * istate -> res (list Z * istate)) (l : list Z) (st : list Z * istate) : res (list Z * istate) :=
  match l with [] => Ok st | k :: l' => let* st := f k st in visit_all f l' st end.

(** PhysicsWorld.cpp:741-844, the loop over the stack; [statics]: staticBodiesAddedToIsland. *)
Fixpoint dfs (fuel : nat) (stack statics : list Z) (s : istate) : res (list Z * istate) :=
  match stack with
  | [] => Ok (statics, s)
  | b :: stack =>
      match fuel with
      | O => Fuel
      | S fuel =>
          let* s := add_body b s in
          let s := wake b s in
          if g_static g b then dfs fuel stack (statics ++ [b]) s
          else
            let* (stack, s) := visit_all (visit_pair b) (pairs_of_body b) (stack, s) in
            let* (stack, s) := visit_all (visit_joint b) (g_joints_of g b) (stack, s) in
            dfs fuel stack statics s
      end
  end.

(** PhysicsWorld.cpp:721-857, the loop over the enabled components from index [i]. *)
Fixpoint island_loop (fuel : nat) (i : nat) (s : istate) : res istate :=
  match nth_error (n_en s) i with
  | None => Ok s
  | Some b =>
      match fuel with
      | O => Fuel
      | S fuel =>
          if memb b (n_in s) then island_loop fuel (S i) s
          else if g_static g b then island_loop fuel (S i) s
          else
            let s := add_island (w_in (b :: n_in s) s) in
            let* (statics, s) := dfs (length (n_en s) + length (n_dis s)) [b] [] s in
            island_loop fuel (S i) (w_in (filter (fun x => negb (memb x statics)) (n_in s)) s)
      end
  end.
(** PhysicsWorld.cpp:695-866 createIslands: [en], [dis], [sleeping] describe the rigid body
    components; isAlreadyInIsland is reset first. *)
Definition create_islands (en dis sleeping : list Z) : res istate :=
  island_loop (length en + length dis) 0 (mk_istate en dis sleeping [] [] [] [] 0 []).
End Islands.
