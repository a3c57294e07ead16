(** Model of the contact and trigger events: which callback of the event listener receives what
    during PhysicsWorld::update.  The pair storage is its specification (PairsSpec.v, proved of the
    storage in PairsProperties.v). *)
From Verif Require Import Base HashSpec BitsModel PairsModel PairsSpec.
Open Scope Z_scope.

(** CollisionCallback.h (EventType) and OverlapCallback.h (EventType): the three kinds of events
    have the same names up to the prefix. *)
Inductive kind : Type := Start | Stay | Exit.
Definition kind_eqb (a b : kind) : bool :=
  match a, b with Start, Start | Stay, Stay | Exit, Exit => true | _, _ => false end.

(** ContactPair.h:45-106, the fields that matter for events: pair identifier, colliders, colliding in
    the previous frame, trigger. *)
Record cpair : Type := mk_cpair { cp_id : Z; cp_c1 : Z; cp_c2 : Z; cp_prev : bool; cp_trigger : bool }.
(** What a callback receives for one pair. *)
Record event : Type := mk_event { ev_kind : kind; ev_trigger : bool; ev_id : Z; ev_c1 : Z; ev_c2 : Z }.

(** [es_lost]: mLostContactPairs; [es_trigger]: the colliders whose flag mIsTrigger is set. *)
Record estate : Type := mk_estate { es_pairs : pspec; es_lost : list cpair; es_trigger : list Z }.
Definition init_estate : estate := mk_estate init_pspec [] [].
Definition get (id : Z) (s : estate) : option pair := lookup Z.eqb id (sp_pairs (es_pairs s)).
Definition ids (s : estate) : list Z := nodup Z.eq_dec (map fst (sp_pairs (es_pairs s))).
Definition on_pairs (op : pop) (s : estate) : res estate :=
  let* p := pspec_step (es_pairs s) op in Ok (mk_estate p (es_lost s) (es_trigger s)).
Fixpoint on_each (f : Z -> pop) (l : list Z) (s : estate) : res estate :=
  match l with [] => Ok s | id :: l' => let* s := on_pairs (f id) s in on_each f l' s end.

(** Collider.cpp:239-241 getIsTrigger and 250-257 setIsTrigger. *)
Definition is_trigger (c : Z) (s : estate) : bool := existsb (Z.eqb c) (es_trigger s).
Definition set_trigger (c : Z) (v : bool) (s : estate) : estate :=
  let l := filter (fun x => negb (x =? c)) (es_trigger s) in
  mk_estate (es_pairs s) (es_lost s) (if v then c :: l else l).
Definition pair_trigger (p : pair) (s : estate) : bool := is_trigger (p_c1 p) s || is_trigger (p_c2 p) s.

(** CollisionDetectionSystem.cpp:218-236 addLostContactPair. *)
Definition add_lost (p : pair) (s : estate) : estate :=
  mk_estate (es_pairs s) (es_lost s ++ [mk_cpair (p_id p) (p_c1 p) (p_c2 p) true (pair_trigger p s)]) (es_trigger s).
(** CollisionDetectionSystem.cpp:175-187 removeOverlappingPair with notifyLostContact, 190-203 and
    205-216 (the broad phase found that the boxes are apart). *)
Definition lose (id : Z) (s : estate) : res estate :=
  let* p := rd (get id s) in
  on_pairs (PRemove id) (if p_prev p then add_lost p s else s).

(** The enabled pairs for which the tests of the narrow phase answer yes. *)
Definition hits (hit : Z -> bool) (s : estate) : list Z :=
  filter (fun id => match get id s with Some p => p_enabled p && hit id | None => false end) (ids s).

(** A world query (CollisionDetectionSystem.cpp:1775-1896), its broad phase apart.  The queries about
    the whole world clear the flag of the current frame of every enabled pair (389 and 441), those
    about given bodies do not (462-516); testCollision then sets it for the pairs it finds (1230),
    testOverlap does not (806-841). *)
Definition query (whole : bool) (found : Z -> bool) (s : estate) : res estate :=
  let* s := (if whole then on_pairs PClearCurrent s else Ok s) in
  on_each PSetColliding (hits found s) s.

(** CollisionDetectionSystem.cpp:346-459 computeMiddlePhase (the flag of the current frame is cleared
    for every enabled pair) and 1199-1330 processPotentialContacts: the contact pairs of the frame.
    Simplified: one contact pair for each colliding overlapping pair, as proved of the batches in
    ManifoldProperties.v (C95); the order of the contact pairs is that of [ids]. *)
Definition contact_pairs (hit : Z -> bool) (s : estate) : list cpair :=
  flat_map (fun id => match get id s with
    | Some p => [mk_cpair id (p_c1 p) (p_c2 p) (p_prev p) (pair_trigger p s)]
    | None => [] end) (hits hit s).
Definition narrow (hit : Z -> bool) (s : estate) : res (estate * list cpair) :=
  let* s := on_pairs PClearCurrent s in
  let cs := contact_pairs hit s in
  let* s := on_each PSetColliding (hits hit s) s in
  Ok (s, cs).

(** CollisionDetectionSystem.cpp:978-1012 computeLostContactPairs. *)
Definition lost_now (s : estate) : list cpair :=
  flat_map (fun id => match get id s with
    | Some p => if p_enabled p && p_prev p && negb (p_cur p) then [mk_cpair (p_id p) (p_c1 p) (p_c2 p) true (pair_trigger p s)] else []
    | None => [] end) (ids s).
Definition compute_lost (s : estate) : estate := mk_estate (es_pairs s) (es_lost s ++ lost_now s) (es_trigger s).

(** CollisionCallback.cpp:66-75 and OverlapCallback.cpp:59-66 getEventType. *)
Definition event_kind (lost : bool) (c : cpair) : kind :=
  if lost then Exit else if cp_prev c then Stay else Start.
Definition event_of (lost : bool) (c : cpair) : event :=
  mk_event (event_kind lost c) (cp_trigger c) (cp_id c) (cp_c1 c) (cp_c2 c).
(** CollisionCallback.cpp:78-104 and 122-138: the pairs without a trigger, lost ones last. *)
Definition on_contact (cs lost : list cpair) : list event :=
  map (event_of false) (filter (fun c => negb (cp_trigger c)) cs) ++
  map (event_of true) (filter (fun c => negb (cp_trigger c)) lost).
(** OverlapCallback.cpp:69-92 and OverlapCallback.h (getOverlappingPair): the pairs with a trigger,
    lost ones last. *)
Definition on_trigger (cs lost : list cpair) : list event :=
  map (event_of false) (filter cp_trigger cs) ++ map (event_of true) (filter cp_trigger lost).
(** CollisionDetectionSystem.cpp:1708-1726 reportContactsAndTriggers, with OverlappingPairs.cpp:464-482
    updateCollidingInPreviousFrame. *)
Definition report (cs : list cpair) (s : estate) : res (estate * list event) :=
  let evs := on_contact cs (es_lost s) ++ on_trigger cs (es_lost s) in
  let* s := on_pairs PUpdatePrevious s in
  Ok (mk_estate (es_pairs s) [] (es_trigger s), evs).

(** PhysicsWorld.cpp:239-307 update, from the narrow phase to the report: the narrow phase, createIslands
    (753: bodies touched by awake ones wake up; [woken]: the pairs that RigidBody.cpp:1060-1082
    enableOverlappingPairs enables), createContacts (CollisionDetectionSystem.cpp:959-960) and the
    report.  The broad phase before it and the sleeping after it are operations of their own. *)
Definition update (hit : Z -> bool) (woken : list Z) (s : estate) : res (estate * list event) :=
  let* (s, cs) := narrow hit s in
  let* s := on_each PEnable woken s in
  report cs (compute_lost s).

(** One step of a history.
    - [ECall op]: a change of the pair storage: the broad phase adds a pair (CollisionDetectionSystem.cpp:323)
      or changes the request for an overlap test (138, 158, 337 and OverlappingPairs.h:459-470), a body
      falls asleep or wakes up and its pairs are disabled or enabled (RigidBody.cpp:1060-1147), a pair is
      removed without notification (CollisionDetectionSystem.cpp:1163-1183: a collider or body is
      destroyed or deactivated), a collider is created or destroyed.
    - [ELose id]: a pair is removed with notification (the broad phase of an update or of a query, 124-167;
      addNoCollisionPair, 239-267).
    - [ETrigger], [EQuery], [EUpdate]: see above. *)
Inductive eop : Type :=
| ECall (op : pop)
| ELose (id : Z)
| ETrigger (c : Z) (v : bool)
| EQuery (whole : bool) (found : Z -> bool)
| EUpdate (hit : Z -> bool) (woken : list Z).
(** The flags of the frame are written by updates and queries only. *)
Definition call_allowed (op : pop) : bool :=
  match op with PSetColliding _ | PUpdatePrevious | PClearCurrent => false | _ => true end.
Definition estep (s : estate) (op : eop) : res (estate * list event) :=
  match op with
  | ECall o => let* _ := check (call_allowed o) in let* s := on_pairs o s in Ok (s, [])
  | ELose id => let* s := lose id s in Ok (s, [])
  | ETrigger c v => Ok (set_trigger c v s, [])
  | EQuery w f => let* s := query w f s in Ok (s, [])
  | EUpdate hit woken => update hit woken s
  end.
