(** What a listener may expect of the events. *)
From Verif Require Import Base BitsModel PairsModel PairsSpec EventModel.
Open Scope Z_scope.

(** A history: the state before each operation, the operation, the events it reported. *)
Record step : Type := mk_step { before : estate; what : eop; told : list event }.
Inductive history : estate -> list step -> estate -> Prop :=
| HNil : forall s, history s [] s
| HCons : forall s op s1 evs h s2, estep s op = Ok (s1, evs) -> history s1 h s2 ->
    history s (mk_step s op evs :: h) s2.

(** ** One pair *)

(** The pair is tracked before every operation and at the end. *)
Definition tracked (id : Z) (h : list step) (s' : estate) : Prop :=
  (forall st, In st h -> get id (before st) <> None) /\ get id s' <> None.
(** In every update: was the pair tested (a sleeping pair is not), and did the test find a contact? *)
Definition test_in (id : Z) (st : step) : list (option bool) :=
  match what st with
  | EUpdate hit _ => [match get id (before st) with Some p => if p_enabled p then Some (hit id) else None | None => None end]
  | _ => []
  end.
Definition tests (id : Z) (h : list step) : list (option bool) := flat_map (test_in id) h.
(** In every update: the kinds of the events reported about the pair. *)
Definition told_about (id : Z) (evs : list event) : list kind := map ev_kind (filter (fun e => ev_id e =? id) evs).
Definition reports (id : Z) (h : list step) : list (list kind) :=
  flat_map (fun st => match what st with EUpdate _ _ => [told_about id (told st)] | _ => [] end) h.

(** What should be reported: start in the first update that finds a contact, stay in each following
    one, exit in the first one without a contact. *)
Fixpoint expected (touching : bool) (ts : list (option bool)) : list (list kind) :=
  match ts with
  | [] => []
  | None :: ts' => [] :: expected touching ts'
  | Some now :: ts' =>
      match touching, now with
      | false, true => [Start] | true, true => [Stay] | true, false => [Exit] | false, false => []
      end :: expected now ts'
  end.
(** Words made of blocks Start Stay* Exit, the last one possibly unfinished. *)
Definition block (l : list kind) : Prop := exists n, l = Start :: repeat Stay n ++ [Exit].
Definition unfinished (l : list kind) : Prop := l = [] \/ exists n, l = Start :: repeat Stay n.
Definition in_blocks (l : list kind) : Prop :=
  exists bs u, Forall block bs /\ unfinished u /\ l = concat bs ++ u.

(** Was there a world query since the last update? *)
Definition queried (h : list step) : bool :=
  fold_left (fun q st => match what st with EQuery _ _ => true | EUpdate _ _ => false | _ => q end) h false.
(** The pair is not put to sleep between a world query and the next update. *)
Definition no_sleep_after_query (id : Z) (h : list step) : Prop :=
  forall h1 st h2, h = h1 ++ st :: h2 -> what st = ECall (PDisable id) -> queried h1 = false.

(** ** All pairs *)

(** Does the last test of the pair, since it is tracked, say that the colliders touch? *)
Definition touching (id : Z) (h : list step) : bool :=
  fold_left (fun t st => match what st with
    | EUpdate hit _ => match get id (before st) with Some p => if p_enabled p then hit id else t | None => t end
    | ECall (PRemove i) | ELose i => if i =? id then false else t
    | _ => t end) h false.
(** Has the pair been dropped with notification since the last update? *)
Definition dropped (id : Z) (h : list step) : bool :=
  fold_left (fun d st => match what st with ELose i => (i =? id) || d | EUpdate _ _ => false | _ => d end) h false.

(** A listener keeps the set of the pairs that touch, for each of the two callbacks.  [None]: an event
    contradicts the ones before. *)
Definition key : Type := bool * Z.
Definition key_eqb (a b : key) : bool := Bool.eqb (fst a) (fst b) && (snd a =? snd b).
Definition knows (k : key) (v : list key) : bool := existsb (key_eqb k) v.
Definition hear (v : list key) (e : event) : option (list key) :=
  let k := (ev_trigger e, ev_id e) in
  match ev_kind e with
  | Start => if knows k v then None else Some (k :: v)
  | Stay => if knows k v then Some v else None
  | Exit => if knows k v then Some (filter (fun x => negb (key_eqb k x)) v) else None
  end.
Fixpoint listen (v : list key) (evs : list event) : option (list key) :=
  match evs with [] => Some v | e :: r => match hear v e with Some v' => listen v' r | None => None end end.
Definition all_told (h : list step) : list event := flat_map told h.
Definition after_update (h : list step) : Prop := exists h1 st hit woken, h = h1 ++ [st] /\ what st = EUpdate hit woken.
(** The listener knows exactly the pairs that touch, in the callback that fits. *)
Definition well_informed (h : list step) (s : estate) : Prop :=
  exists v, listen [] (all_told h) = Some v /\
  forall t id, knows (t, id) v = true <->
    touching id h = true /\ exists p, get id s = Some p /\ t = pair_trigger p s.

(** What spoils it: a collider or body that is destroyed or deactivated while it touches, a trigger
    flag that changes while the collider touches, a pair that is dropped and found again between two
    updates, a body that is put to sleep between a world query and the next update. *)
Definition harmless (h : list step) (st : step) : Prop :=
  match what st with
  | ECall (PRemove id) => touching id h = false
  | ETrigger c _ => forall id p, get id (before st) = Some p -> involves c p = true -> touching id h = false
  | ECall (PAdd _ b1 _ b2 _) => dropped (pair_id b1 b2) h = false
  | ECall (PDisable _) => queried h = false
  | _ => True
  end.
Definition orderly (h : list step) : Prop := forall h1 st h2, h = h1 ++ st :: h2 -> harmless h1 st.
