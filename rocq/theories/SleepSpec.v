(** Specification of falling asleep: what a user can observe of each body. *)
From Verif Require Import Base IslandModel IslandSpec SleepModel.
Open Scope Z_scope.

Section Spec.
Variable T : Type.
Variable tadd : T -> T -> T.
Variable tle : T -> T -> bool.
Variables (tzero tlargest : T).
Notation sstate := (sstate T).
Notation uinput := (uinput T).
Notation update := (update T tadd tle tzero tlargest).

(** The body is allowed to sleep and below both velocity thresholds. *)
Definition rests (u : uinput) (b : Z) : Prop :=
  tle (u_lin2 T u b) (u_sleep_lin2 T u) = true /\ tle (u_ang2 T u b) (u_sleep_ang2 T u) = true /\ u_allowed T u b = true.

(** What happened to a body, latest first: an update with sleeping enabled of which it was part, resting
    during [dt] or not; or it was woken up, put to sleep, or created. *)
Inductive sevent : Type := SRest (dt : T) | SMove | SClear.
(** For how long the body has been resting without interruption. *)
Fixpoint rest_time (l : list sevent) : T :=
  match l with SRest dt :: l => tadd (rest_time l) dt | _ => tzero end.

Definition is_member (n : istate) (x : Z) : bool := existsb (fun i => memb x (is_bodies i)) (n_isl n).
Definition was_woken (s : sstate) (n : istate) (x : Z) : bool := memb x (ss_sleep T s) && negb (memb x (n_sleep n)).
Definition woken (s : sstate) (n : istate) (x : Z) (l : list sevent) : list sevent := if was_woken s n x then SClear :: l else l.
Definition rests_b (u : uinput) (b : Z) : bool := tle (u_lin2 T u b) (u_sleep_lin2 T u) && tle (u_ang2 T u b) (u_sleep_ang2 T u) && u_allowed T u b.
Definition took_part (u : uinput) (n : istate) (x : Z) (l : list sevent) : list sevent :=
  if u_enabled T u && is_member n x && negb (g_static (u_graph T u) x)
  then (if rests_b u x then SRest (u_dt T u) else SMove) :: l else l.
Definition slept (n : istate) (s' : sstate) (x : Z) (l : list sevent) : list sevent :=
  if negb (memb x (n_sleep n)) && memb x (ss_sleep T s') then SClear :: l else l.

(** Components in agreement with the flags: exactly the active bodies that do not sleep are enabled. *)
Definition bodies_ok (g : graph) (s : sstate) : Prop :=
  NoDup (ss_en T s ++ ss_dis T s) /\ graph_ok g (ss_en T s ++ ss_dis T s) /\
  (forall x, In x (ss_en T s) <-> In x (ss_en T s ++ ss_dis T s) /\ g_active g x = true /\ ~ In x (ss_sleep T s)).

(** Histories of a world with what happened to each body.  Between updates the user may create and
    destroy bodies, wake bodies up or put them to sleep, activate them, and change their types; the only
    thing this does to sleep times is to clear them for some of the bodies. *)
Inductive sleep_history : sstate -> (Z -> list sevent) -> Prop :=
| sh_start : forall s, (forall x, ss_time T s x = tzero) -> sleep_history s (fun _ => [])
| sh_calls : forall s tr s' cleared, sleep_history s tr ->
    (forall x, ss_time T s' x = if memb x cleared then tzero else ss_time T s x) ->
    sleep_history s' (fun x => if memb x cleared then SClear :: tr x else tr x)
| sh_update : forall s tr u n s', sleep_history s tr -> bodies_ok (u_graph T u) s -> update u s = Ok (n, s') ->
    sleep_history s' (fun x => slept n s' x (took_part u n x (woken s n x (tr x)))).
End Spec.
Arguments SRest {T} dt. Arguments SMove {T}. Arguments SClear {T}.
