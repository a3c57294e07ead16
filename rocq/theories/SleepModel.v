(** Model of putting islands to sleep (src/engine/PhysicsWorld.cpp:868-926) on top of [IslandModel]. *)
From Verif Require Import Base IslandModel.
Open Scope Z_scope.

Section Sleep.
(** The type decimal with the operations the function uses. *)
Variable T : Type.
Variable tadd : T -> T -> T.
Variable tle : T -> T -> bool.
Variables (tzero tlargest : T).
Definition tlt (a b : T) : bool := negb (tle b a).

(** The rigid body components (see [istate]) and mSleepTimes. *)
Record sstate : Type := mk_sstate { ss_en : list Z; ss_dis : list Z; ss_sleep : list Z; ss_time : Z -> T }.

(** Everything an update reads that other parts of the engine or the user decide: contact and joint graph,
    square lengths of the velocities after the solver, allowed-to-sleep flags, time step, thresholds,
    mIsSleepingEnabled. *)
Record uinput : Type := mk_uinput {
  u_graph : graph; u_lin2 : Z -> T; u_ang2 : Z -> T; u_allowed : Z -> bool; u_dt : T;
  u_sleep_lin2 : T; u_sleep_ang2 : T; u_before : T; u_enabled : bool
}.

Section Update.
Variable u : uinput.
Let static := g_static (u_graph u).

(** PhysicsWorld.cpp:892-895, negated. *)
Definition resting (b : Z) : bool :=
  negb (tlt (u_sleep_lin2 u) (u_lin2 u b) || tlt (u_sleep_ang2 u) (u_ang2 u b) || negb (u_allowed u b)).

(** PhysicsWorld.cpp:884-911: the sleep times and the smallest one. *)
Fixpoint scan_bodies (l : list Z) (time : Z -> T) (m : T) : (Z -> T) * T :=
  match l with
  | [] => (time, m)
  | b :: l =>
      if static b then scan_bodies l time m
      else if negb (resting b) then scan_bodies l (upd time b tzero) tzero
      else let t := tadd (time b) (u_dt u) in
           scan_bodies l (upd time b t) (if tlt t m then t else m)
  end.

(** Components.cpp:176-189 setIsEntityDisabled(true): swaps with the last enabled component. *)
Definition disable_comp (x : Z) (en dis : list Z) : list Z * list Z :=
  if memb x en then
    (map (fun y => if y =? x then last en x else y) (removelast en), x :: dis)
  else (en, dis).
(** RigidBody.cpp:1006-1057 setIsSleeping(true): its effects on the components of the body. *)
Definition fall_asleep (x : Z) (s : sstate) : sstate :=
  if memb x (ss_sleep s) then s
  else if static x then s
  else if negb (g_active (u_graph u) x) then s
  else let (en, dis) := disable_comp x (ss_en s) (ss_dis s) in
       mk_sstate en dis (x :: ss_sleep s) (upd (ss_time s) x tzero).

(** PhysicsWorld.cpp:879-925: one island, all islands. *)
Definition sleep_island (i : island) (s : sstate) : sstate :=
  let (time, m) := scan_bodies (is_bodies i) (ss_time s) tlargest in
  let s := mk_sstate (ss_en s) (ss_dis s) (ss_sleep s) time in
  if tle (u_before u) m then fold_left (fun s b => fall_asleep b s) (is_bodies i) s else s.
Definition update_sleeping_bodies (l : list island) (s : sstate) : sstate :=
  fold_left (fun s i => sleep_island i s) l s.

(** PhysicsWorld.cpp:239-307 update, the parts about islands and sleep.  RigidBody::setIsSleeping(false)
    called by createIslands also clears the sleep times of the bodies it wakes up. *)
Definition update (s : sstate) : res (istate * sstate) :=
  let* n := create_islands (u_graph u) (ss_en s) (ss_dis s) (ss_sleep s) in
  let time := fun x => if memb x (ss_sleep s) && negb (memb x (n_sleep n)) then tzero else ss_time s x in
  let s := mk_sstate (n_en n) (n_dis n) (n_sleep n) time in
  Ok (n, if u_enabled u then update_sleeping_bodies (rev (n_isl n)) s else s).
End Update.
End Sleep.
