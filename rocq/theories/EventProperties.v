(** The properties of the events. *)
From Verif Require Import Base HashSpec BitsModel PairsModel PairsSpec EventModel EventSpec EventProofs.
Open Scope Z_scope.

(** C28, with the condition that makes it true: from the moment the pair is tracked, and as long as it
    is, every update reports what the automaton [expected] says, so the events form blocks Start Stay*
    Exit.  Missing: a pair that is put to sleep between a world query and the next update
    ([C28_exit_while_touching_refuted], [C28_stay_without_start_refuted]), and a pair that is dropped and
    found again between two updates ([C98_dropped_and_found_refuted]). *)
Theorem C28_event_sequence_partial : forall h0 s c1 b1 c2 b2 convex s0 h s' id,
  history init_estate h0 s0 -> dropped id h0 = false ->
  estep s0 (ECall (PAdd c1 b1 c2 b2 convex)) = Ok (s, []) -> id = pair_id b1 b2 ->
  history s h s' -> tracked id h s' -> no_sleep_after_query id h ->
  reports id h = expected false (tests id h) /\ in_blocks (concat (reports id h)).
Proof.
  intros h0 s c1 b1 c2 b2 convex s0 h s' id H0 D A Ei H T Q. subst id.
  pose proof (history_wf _ _ _ H0 init_wf) as W0. pose proof (step_wf _ _ _ _ W0 A) as W.
  cbn [estep call_allowed check bind] in A. destruct (on_pairs (PAdd c1 b1 c2 b2 convex) s0) as [s1| |] eqn:E; try discriminate. cbn [bind] in A. injection A as ->.
  destruct (call_effect _ _ _ (pair_id b1 b2) E eq_refl) as (EL & _ & K).
  assert (R : reports (pair_id b1 b2) h = expected false (tests (pair_id b1 b2) h)).
  { apply (one_pair _ s h s' H false false W); [|exact T|exact Q].
    unfold on_pairs in E. cbn [pspec_step] in E. destruct (has Z.eqb (pair_id b1 b2) (sp_pairs (es_pairs s0)) || _ || _ || _) eqn:B; [discriminate|].
    apply orb_false_elim in B as [B _]. apply orb_false_elim in B as [B _]. apply orb_false_elim in B as [B _]. unfold has in B. fold (get (pair_id b1 b2) s0) in B.
    destruct (get (pair_id b1 b2) s0) as [q|]; [discriminate|]. destruct (get (pair_id b1 b2) s) as [p|] eqn:G.
    - destruct K as (_ & (P1 & P2) & _). exists p. split; [exact G|]. split; [exact P1|]. split; [congruence|]. rewrite EL. intros I. rewrite (lost_dropped _ _ _ H0 I) in D. discriminate.
    - exfalso. destruct T as [T1 T2]. inversion H; subst; [exact (T2 G)|]. exact (T1 _ (or_introl eq_refl) G). }
  split; [exact R|]. rewrite R. exact (expected_blocks (tests (pair_id b1 b2) h) false).
Qed.
Print Assumptions C28_event_sequence_partial.

(** Colliders 1, 2 and 3 with the broad-phase nodes 0, 1 and 2. *)
Definition world3 : list eop := [ECall (PAddCollider 1); ECall (PAddCollider 2); ECall (PAddCollider 3)].
Definition p12 : Z := pair_id 0 1.
Definition p13 : Z := pair_id 0 2.
Definition all : Z -> bool := fun _ => true.
Definition none : Z -> bool := fun _ => false.
Definition only (i : Z) : Z -> bool := fun id => id =? i.

Ltac each_step :=
  let h1 := fresh "h" in let st := fresh "st" in let h2 := fresh "h" in let E := fresh "E" in
  intros h1 st h2 E; repeat (destruct h1 as [|? h1]; [injection E as <- <-|injection E as <- E]); [..|destruct h1; discriminate E].
Ltac all_tracked := split; [let st := fresh in let I := fresh in intros st I; cbn [In] in I; repeat (destruct I as [<-|I]; [vm_compute; discriminate|]); destruct I|vm_compute; discriminate].

(** The pair touches, separates, sleeps, wakes up touched by a third body, touches again. *)
Definition story : list eop :=
  [EUpdate all []; EUpdate all []; EQuery true none; EUpdate none []; EUpdate all []; ECall (PDisable p12); EQuery true all; ECall (PAdd 1 0 3 2 true);
   EUpdate none []; EUpdate (only p13) [p12]; EUpdate (only p12) []].
Example C28_event_sequence_not_vacuous : exists h0 s0 s h s',
  history init_estate h0 s0 /\ dropped p12 h0 = false /\ estep s0 (ECall (PAdd 1 0 2 1 true)) = Ok (s, []) /\ history s h s' /\
  tracked p12 h s' /\ no_sleep_after_query p12 h /\
  reports p12 h = [[Start]; [Stay]; [Exit]; [Start]; []; []; [Stay]].
Proof.
  eexists. eexists. eexists. eexists. eexists. split; [apply (play_history world3); vm_compute; reflexivity|].
  split; [reflexivity|]. split; [vm_compute; reflexivity|]. split; [apply (play_history story); vm_compute; reflexivity|].
  split; [all_tracked|]. split; [|vm_compute; reflexivity]. each_step; cbn [what]; try discriminate; intros _; reflexivity.
Qed.

(** C28 is false without the condition: the colliders touch in every test, the body is put to sleep
    after a query about the whole world, another body touches it and wakes it up, and the update reports that
    the contact is over. *)
Theorem C28_exit_while_touching_refuted : exists h s id,
  history init_estate h s /\ get id s <> None /\
  (forall b, In (Some b) (tests id h) -> b = true) /\ In [Exit] (reports id h) /\
  reports id h <> expected false (tests id h).
Proof.
  eexists. eexists. exists p12.
  split; [apply (play_history (world3 ++ [ECall (PAdd 1 0 2 1 true); EUpdate all []; EQuery true none; ECall (PDisable p12); ECall (PAdd 1 0 3 2 true); EUpdate (only p13) [p12]; EUpdate all []])); vm_compute; reflexivity|].
  split; [vm_compute; discriminate|]. split; [|split].
  - intros b I. vm_compute in I. destruct I as [I|[I|[I|[]]]]; congruence.
  - vm_compute. auto.
  - vm_compute. discriminate.
Qed.
Print Assumptions C28_exit_while_touching_refuted.

(** The colliders start to touch, testCollision notices it, the body is put to sleep before the next
    update: no start is ever reported. *)
Theorem C28_stay_without_start_refuted : exists h s id,
  history init_estate h s /\ get id s <> None /\ tests id h = [None; Some true] /\ reports id h = [[]; [Stay]].
Proof.
  eexists. eexists. exists p12.
  split; [apply (play_history (world3 ++ [ECall (PAdd 1 0 2 1 true); EQuery false all; ECall (PDisable p12); ECall (PAdd 1 0 3 2 true); EUpdate (only p13) [p12]; EUpdate all []])); vm_compute; reflexivity|].
  split; [vm_compute; discriminate|]. split; vm_compute; reflexivity.
Qed.
Print Assumptions C28_stay_without_start_refuted.

(** C98, with the conditions that make it true ([orderly]): after every update a listener that keeps
    the set of touching pairs by the events alone is well informed, and no event contradicts what it has been
    told before. *)
Theorem C98_listener_informed_partial : forall h s,
  history init_estate h s -> orderly h -> after_update h -> well_informed h s.
Proof.
  intros h s H O (h1 & st & hit & woken & -> & E). destruct (orderly_informed _ _ H O) as (W & (v & L & V) & _ & _ & TO & _).
  assert (L0 : es_lost s = []).
  { destruct (history_snoc _ _ _ _ H) as [H1 S]. rewrite E in S. cbn [estep] in S. pose proof (history_wf _ _ _ H1 init_wf) as W0.
    destruct (update_effect hit woken (before st) W0) as (s1 & ev1 & cs & lost & EE & L0 & _). rewrite EE in S. injection S as <- _. exact L0. }
  exists v. split; [exact L|]. intros t id. rewrite knows_iff, V, (TO id). split.
  - intros [(p & G & P & T)|(c & I & _)]; [|rewrite L0 in I; destruct I]. rewrite G. split; [exact P|]. exists p. auto.
  - intros (X & p & G & T). left. rewrite G in X. exists p. auto.
Qed.
Print Assumptions C98_listener_informed_partial.

(** Two pairs, one of them a trigger pair; one is dropped while it touches, the other sleeps and wakes. *)
Definition story2 : list eop :=
  world3 ++ [ETrigger 3 true; ECall (PAdd 1 0 2 1 true); ECall (PAdd 1 0 3 2 true); EUpdate all []; EUpdate (only p13) []; EQuery true none; EUpdate all [];
   ELose p13; ECall (PDisable p12); EUpdate all [p12]].
Example C98_not_vacuous : exists h s, history init_estate h s /\ orderly h /\ after_update h /\
  listen [] (all_told h) = Some [(false, p12)] /\ length (all_told h) = 7%nat.
Proof.
  eexists. eexists. split; [apply (play_history story2); vm_compute; reflexivity|].
  split; [|split; [|split; vm_compute; reflexivity]].
  - each_step; cbn; try exact I; reflexivity.
  - eexists [_; _; _; _; _; _; _; _; _; _; _; _], _, _, _. split; reflexivity.
Qed.

(** A collider that touches is destroyed, or its body deactivated: the listener never hears of it
    and believes that the pair still touches. *)
Theorem C98_removed_silently_refuted : exists h s, history init_estate h s /\ after_update h /\ ~ well_informed h s /\
  exists id, listen [] (all_told h) = Some [(false, id)] /\ get id s = None.
Proof.
  eexists. eexists. split; [apply (play_history (world3 ++ [ECall (PAdd 1 0 2 1 true); EUpdate all []; ECall (PRemove p12); EUpdate all []])); vm_compute; reflexivity|].
  split; [|split].
  - eexists [_; _; _; _; _; _], _, _, _. split; reflexivity.
  - intros (v & L & V). vm_compute in L. injection L as <-. destruct (proj1 (V false p12) eq_refl) as (_ & p & G & _). vm_compute in G. discriminate G.
  - exists p12. split; vm_compute; reflexivity.
Qed.
Print Assumptions C98_removed_silently_refuted.

(** The body is deactivated and activated again: a second start is reported without an exit between. *)
Theorem C98_started_twice_refuted : exists h s, history init_estate h s /\ after_update h /\ ~ well_informed h s /\
  exists id, concat (reports id h) = [Start; Start].
Proof.
  eexists. eexists. split; [apply (play_history (world3 ++ [ECall (PAdd 1 0 2 1 true); EUpdate all []; ECall (PRemove p12); ECall (PAdd 1 0 2 1 true); EUpdate all []])); vm_compute; reflexivity|].
  split; [|split].
  - eexists [_; _; _; _; _; _; _], _, _, _. split; reflexivity.
  - intros (v & L & _). vm_compute in L. discriminate L.
  - exists p12. vm_compute. reflexivity.
Qed.
Print Assumptions C98_started_twice_refuted.

(** A collider becomes a trigger while it touches: the contact starts in one callback and ends in the
    other. *)
Theorem C98_trigger_switched_refuted : exists h s, history init_estate h s /\ after_update h /\ ~ well_informed h s /\
  exists id, map (fun e => (ev_trigger e, ev_kind e)) (filter (fun e => ev_id e =? id) (all_told h)) = [(false, Start); (true, Exit)].
Proof.
  eexists. eexists. split; [apply (play_history (world3 ++ [ECall (PAdd 1 0 2 1 true); EUpdate all []; ETrigger 2 true; EUpdate none []])); vm_compute; reflexivity|].
  split; [|split].
  - eexists [_; _; _; _; _; _], _, _, _. split; reflexivity.
  - intros (v & L & _). vm_compute in L. discriminate L.
  - exists p12. vm_compute. reflexivity.
Qed.
Print Assumptions C98_trigger_switched_refuted.

(** The bodies separate, a query notices it, they touch again before the update: the update reports the
    start before the exit, and the listener believes that they are apart. *)
Theorem C98_dropped_and_found_refuted : exists h s, history init_estate h s /\ after_update h /\ ~ well_informed h s /\
  exists id, reports id h = [[Start]; [Start; Exit]] /\ touching id h = true.
Proof.
  eexists. eexists. split; [apply (play_history (world3 ++ [ECall (PAdd 1 0 2 1 true); EUpdate all []; ELose p12; EQuery true none; ECall (PAdd 1 0 2 1 true); EUpdate all []])); vm_compute; reflexivity|].
  split; [|split].
  - eexists [_; _; _; _; _; _; _; _], _, _, _. split; reflexivity.
  - intros (v & L & _). vm_compute in L. discriminate L.
  - exists p12. split; vm_compute; reflexivity.
Qed.
Print Assumptions C98_dropped_and_found_refuted.
