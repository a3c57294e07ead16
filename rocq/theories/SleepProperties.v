(** Theorems about bodies falling asleep (C26). *)
From Verif Require Import Base IslandModel IslandSpec IslandProofs IslandProperties SleepModel SleepSpec SleepProofs.
Open Scope Z_scope.

Section Theorems.
Variable T : Type.
Variable tadd : T -> T -> T.
Variable tle : T -> T -> bool.
Variables (tzero tlargest : T).
Hypothesis tle_trans : forall a b c, tle a b = true -> tle b c = true -> tle a c = true.
Hypothesis tle_total : forall a b, tle a b = true \/ tle b a = true.
Notation sstate := (sstate T).
Notation uinput := (uinput T).
Notation update := (update T tadd tle tzero tlargest).
Notation sleep_history := (sleep_history T tadd tle tzero tlargest).
Notation rest_time := (rest_time T tadd tzero).

Lemma FOP_rev : forall A (R : A -> A -> Prop), (forall a b, R a b -> R b a) -> forall l, ForallOrdPairs R l -> ForallOrdPairs R (rev l).
Proof.
  intros A R Sy l F. induction F as [|a l F1 F2 IH]; [constructor|]. simpl.
  assert (Q : forall l1, ForallOrdPairs R l1 -> Forall (fun x => R x a) l1 -> ForallOrdPairs R (l1 ++ [a])).
  { induction 1; intros G; simpl; [constructor; constructor|]. inversion G; subst. constructor; auto.
    apply Forall_app. split; auto. }
  apply Q; auto. apply Forall_rev. eapply Forall_impl; [|exact F1]. auto.
Qed.

Record facts (u : uinput) (s : sstate) (n : istate) (s' : sstate) : Prop := {
  f_isl : create_islands (u_graph T u) (ss_en T s) (ss_dis T s) (ss_sleep T s) = Ok n;
  f_sleep : forall y, In y (ss_sleep T s') <-> In y (n_sleep n) \/ (u_enabled T u = true /\ exists i, In i (islands n) /\
              fires T tadd tle tzero tlargest u (fun x => if was_woken T s n x then tzero else ss_time T s x) i = true /\ tosleep T u y (is_bodies i));
  f_time : forall y, ss_time T s' y = if negb (memb y (n_sleep n)) && memb y (ss_sleep T s') then tzero
             else if u_enabled T u && is_member n y && negb (g_static (u_graph T u) y)
                  then newt T tadd tle tzero u (fun x => if was_woken T s n x then tzero else ss_time T s x) y
                  else if was_woken T s n y then tzero else ss_time T s y;
  f_sc : SC T u (ss_en T s ++ ss_dis T s) s'
}.

Lemma update_facts : forall u s n s', bodies_ok T (u_graph T u) s -> update u s = Ok (n, s') -> facts u s n s'.
Proof.
  intros u s n s' B E. unfold SleepModel.update in E.
  destruct (create_islands (u_graph T u) (ss_en T s) (ss_dis T s) (ss_sleep T s)) as [n0| |] eqn:CI; cbn [bind] in E; try discriminate.
  set (time := fun x => if memb x (ss_sleep T s) && negb (memb x (n_sleep n0)) then tzero else ss_time T s x) in E.
  set (s1 := mk_sstate T (n_en n0) (n_dis n0) (n_sleep n0) time) in E.
  injection E as En Es. subst n0.
  assert (B' := B). change (bodies_ok T (u_graph T u) s) with (world_ok (u_graph T u) (ss_en T s) (ss_dis T s) (ss_sleep T s)) in B'.
  destruct (inv_of _ _ _ _ B' n CI) as (m & I & _). pose proof (o_W _ _ _ _ _ _ _ I) as Ww.
  pose proof (fun x => C25_members_awake _ _ _ _ B' n x CI) as Aw.
  assert (C0 : SC T u (ss_en T s ++ ss_dis T s) s1).
  { constructor; simpl.
    - apply (w_ndp _ _ _ _ _ _ _ Ww).
    - apply (w_arr _ _ _ _ _ _ _ Ww).
    - intros x. apply Aw. }
  assert (P : ForallOrdPairs (apart (u_graph T u)) (islands n)).
  { apply FOP_rev; [|apply (o_apart _ _ _ _ _ _ _ I)]. intros a b R x Xb Xa. apply R; auto. }
  assert (N : Forall (fun i => NoDup (is_bodies i)) (islands n)).
  { apply Forall_forall. intros i Hi. apply (gd_nd _ _ _ (good_of _ _ _ _ B' n i CI Hi)). }
  destruct (usb_spec T tadd tle tzero tlargest u (ss_en T s ++ ss_dis T s) (islands n) s1 P N) as (U1 & U2 & U3).
  assert (NS : forall i y, In i (islands n) -> tosleep T u y (is_bodies i) -> ~ In y (ss_sleep T s1)).
  { intros i y Hi (Y & Sy & Ay) C. simpl in C. apply (proj1 (Aw y)) in C. destruct C as (_ & C). apply C. split; eauto. }
  assert (IM : forall y, existsb (fun i => memb y (is_bodies i)) (islands n) = is_member n y).
  { intros y. unfold is_member, islands. apply eq_iff_eq_true. rewrite !existsb_exists. split; intros (i & Hi & Q); exists i; (split; [apply in_rev; rewrite ?rev_involutive|]); auto. }
  constructor; auto.
  - intros y. destruct (u_enabled T u); [|subst s'; simpl; intuition discriminate].
    subst s'. fold (islands n). rewrite U1. simpl. intuition.
  - intros y. destruct (u_enabled T u).
    + subst s'. fold (islands n). rewrite (U2 NS y). rewrite IM. reflexivity.
    + subst s'. simpl. destruct (memb y (n_sleep n)); reflexivity.
  - destruct (u_enabled T u); subst s'; auto. apply U3; auto. intros i x Hi X.
    apply (gd_arr _ _ _ (good_of _ _ _ _ B' n i CI Hi)); auto.
Qed.

(** The sleep time of a body is the time for which it has been resting without interruption. *)
Lemma history_time : forall s tr, sleep_history s tr -> forall x, ss_time T s x = rest_time (tr x).
Proof.
  induction 1 as [s H0 | s tr s' cleared H IH E | s tr u n s' H IH B U]; intros x; simpl.
  - apply H0.
  - rewrite E, IH. destruct (memb x cleared); reflexivity.
  - pose proof (update_facts u s n s' B U) as F. rewrite (f_time _ _ _ _ F).
    unfold slept. destruct (negb (memb x (n_sleep n)) && memb x (ss_sleep T s')); [reflexivity|].
    unfold took_part. destruct (u_enabled T u && is_member n x && negb (g_static (u_graph T u) x)).
    + unfold newt. destruct (rests_b T tle u x); [|reflexivity]. simpl. unfold woken. destruct (was_woken T s n x); simpl; auto. now rewrite IH.
    + unfold woken. destruct (was_woken T s n x); simpl; auto.
Qed.

Lemma fires_spec : forall u time i, NoDup (is_bodies i) -> tle (u_before T u) tzero = false -> tle (u_before T u) tlargest = true ->
  (fires T tadd tle tzero tlargest u time i = true <->
   forall y, In y (is_bodies i) -> g_static (u_graph T u) y = false -> rests T tle u y /\ tle (u_before T u) (tadd (time y) (u_dt T u)) = true).
Proof.
  intros u time i N Z L. unfold fires. rewrite scan_min by auto. rewrite L. simpl. rewrite forallb_forall. unfold ripe, newt. split.
  - intros A y Y Sy. specialize (A y Y). rewrite Sy in A. simpl in A. apply andb_true_iff in A. destruct A as (A & B).
    rewrite A in B. split; [now apply (rests_b_true T tadd tle tzero) | auto].
  - intros A y Y. destruct (g_static (u_graph T u) y) eqn:Sy; [reflexivity|]. simpl. destruct (A y Y Sy) as (R & Q).
    apply (rests_b_true T tadd tle tzero) in R. rewrite R. simpl. exact Q.
Qed.

Section Update.
Variables (s : sstate) (tr : Z -> list (sevent T)) (u : uinput) (n : istate) (s' : sstate).
Hypothesis H : sleep_history s tr.
Hypothesis B : bodies_ok T (u_graph T u) s.
Hypothesis U : update u s = Ok (n, s').

(** What the history of [y] says once this update is counted as rest. *)
Definition rest_now (y : Z) : T := rest_time (SRest (u_dt T u) :: woken T s n y (tr y)).

Lemma rest_now_eq : forall y, tadd (if was_woken T s n y then tzero else ss_time T s y) (u_dt T u) = rest_now y.
Proof.
  intros y. unfold rest_now, woken. simpl. rewrite (history_time s tr H y). destruct (was_woken T s n y); reflexivity.
Qed.

(** If a body of an island sleeps at the end of the update, every body of the island that is not static
    is allowed to sleep, is below both thresholds now, and has been so for the time before sleep; and all
    active bodies of the island sleep. *)
Theorem C26_only_resting_islands_partial : forall i x, tle (u_before T u) tzero = false ->
  In i (islands n) -> In x (is_bodies i) -> g_static (u_graph T u) x = false -> g_active (u_graph T u) x = true -> In x (ss_sleep T s') ->
  forall y, In y (is_bodies i) -> g_static (u_graph T u) y = false ->
    rests T tle u y /\ tle (u_before T u) (rest_now y) = true /\ (g_active (u_graph T u) y = true -> In y (ss_sleep T s')).
Proof.
  intros i x Z Ii X Sx Ax Sl y Y Sy.
  pose proof (update_facts u s n s' B U) as F.
  assert (B' := B). change (bodies_ok T (u_graph T u) s) with (world_ok (u_graph T u) (ss_en T s) (ss_dis T s) (ss_sleep T s)) in B'.
  apply (f_sleep _ _ _ _ F) in Sl. destruct Sl as [Sl | (En & j & Ij & Fj & Xj & _)].
  - exfalso. apply (proj1 (C25_members_awake _ _ _ _ B' n x (f_isl _ _ _ _ F))) in Sl. destruct Sl as (_ & Sl). apply Sl. split; eauto.
  - assert (i = j).
    { destruct (In_nth_error _ _ Ii) as (a & Ea). destruct (In_nth_error _ _ Ij) as (b & Eb).
      assert (a = b) by (eapply (one_island _ _ _ _ B' n a b i j x); eauto using f_isl). congruence. }
    subst j. pose proof (good_of _ _ _ _ B' n i (f_isl _ _ _ _ F) Ii) as Gd.
    assert (NN : tle (u_before T u) tlargest = true).
    { unfold fires in Fj. rewrite scan_min in Fj; auto; [|apply (gd_nd _ _ _ Gd)]. apply andb_true_iff in Fj. tauto. }
    assert (Fj' := Fj). rewrite fires_spec in Fj'; auto; [|apply (gd_nd _ _ _ Gd)].
    destruct (Fj' y Y Sy) as (R & Q). rewrite rest_now_eq in Q. splits; auto.
    intros Ay. apply (f_sleep _ _ _ _ F). right. split; auto. exists i. splits; auto. split; auto.
Qed.

(** Conversely such an island falls asleep. *)
Theorem C26_resting_islands_sleep : forall i, tle (u_before T u) tzero = false -> tle (u_before T u) tlargest = true -> u_enabled T u = true ->
  In i (islands n) ->
  (forall y, In y (is_bodies i) -> g_static (u_graph T u) y = false -> rests T tle u y /\ tle (u_before T u) (rest_now y) = true) ->
  forall x, In x (is_bodies i) -> g_static (u_graph T u) x = false -> g_active (u_graph T u) x = true -> In x (ss_sleep T s').
Proof.
  intros i Z L En Ii A x X Sx Ax.
  pose proof (update_facts u s n s' B U) as F.
  assert (B' := B). change (bodies_ok T (u_graph T u) s) with (world_ok (u_graph T u) (ss_en T s) (ss_dis T s) (ss_sleep T s)) in B'.
  pose proof (good_of _ _ _ _ B' n i (f_isl _ _ _ _ F) Ii) as Gd.
  apply (f_sleep _ _ _ _ F). right. split; auto. exists i. splits; auto; [|split; auto].
  apply fires_spec; auto; [apply (gd_nd _ _ _ Gd)|].
  intros y Y Sy. destruct (A y Y Sy). split; auto. now rewrite rest_now_eq.
Qed.

(** An update puts to sleep only members of its islands that are active and not static, and none when
    sleeping is disabled; nothing else changes whether a body sleeps. *)
Theorem C26_only_members_sleep : forall x, In x (ss_sleep T s') -> ~ In x (ss_sleep T s) ->
  u_enabled T u = true /\ g_static (u_graph T u) x = false /\ g_active (u_graph T u) x = true /\ exists i, In i (islands n) /\ In x (is_bodies i).
Proof.
  intros x X N.
  pose proof (update_facts u s n s' B U) as F.
  assert (B' := B). change (bodies_ok T (u_graph T u) s) with (world_ok (u_graph T u) (ss_en T s) (ss_dis T s) (ss_sleep T s)) in B'.
  apply (f_sleep _ _ _ _ F) in X. destruct X as [X | (En & j & Ij & Fj & Xj & Sx & Ax)].
  - exfalso. apply (proj1 (C25_members_awake _ _ _ _ B' n x (f_isl _ _ _ _ F))) in X. tauto.
  - splits; auto. eauto.
Qed.

(** After the update exactly the active bodies that do not sleep take part in the next one. *)
Theorem C26_components_follow : bodies_ok T (u_graph T u) s'.
Proof.
  pose proof (update_facts u s n s' B U) as F. destruct B as (N & G & En). destruct (f_sc _ _ _ _ F) as [A1 A2 A3].
  assert (Q : forall x, In x (ss_en T s' ++ ss_dis T s') <-> In x (ss_en T s ++ ss_dis T s)).
  { intros x. rewrite A2, in_app_iff. tauto. }
  unfold bodies_ok. splits; [exact A1 | |].
  - destruct G as [G1 G2 G3 G4]. constructor; auto.
    + intros k p K. rewrite !Q. eauto.
    + intros k p K. rewrite !Q. eauto.
  - intros x. rewrite Q. apply A3.
Qed.
End Update.

(** Updates always succeed. *)
Theorem C26_update_succeeds : forall u s, bodies_ok T (u_graph T u) s -> exists n s', update u s = Ok (n, s').
Proof.
  intros u s B. assert (B' := B). change (bodies_ok T (u_graph T u) s) with (world_ok (u_graph T u) (ss_en T s) (ss_dis T s) (ss_sleep T s)) in B'.
  destruct (C25_islands_built _ _ _ _ B') as (n & E). unfold SleepModel.update. rewrite E. cbn [bind]. eauto.
Qed.
End Theorems.

(** Examples: time in milliseconds. *)
Definition zupdate := update Z Z.add Z.leb 0 1000000.
Definition zhistory := sleep_history Z Z.add Z.leb 0 1000000.
Definition g1 : graph := mk_graph (fun x => x =? 0) (fun _ => true) (fun _ => true) [mk_cpair 0 1 true 1; mk_cpair 1 2 true 1] (fun _ => None) (fun _ => []).
Definition zin (before dt : Z) (speed : Z) (enabled : bool) : uinput Z :=
  mk_uinput Z g1 (fun x => if x =? 2 then speed else 0) (fun _ => 0) (fun _ => true) dt 4 4 before enabled.
Definition z0 : sstate Z := mk_sstate Z [0; 1; 2] [] [] (fun _ => 0).
Lemma g1_ok : graph_ok g1 [0; 1; 2].
Proof.
  constructor.
  - intros k p (Hk & E). simpl in E. destruct (Z.to_nat k) as [|[|n]]; simpl in E; try (injection E as <-; simpl; splits; auto; discriminate). destruct n; discriminate.
  - intros; split; reflexivity.
  - intros j p E. discriminate.
  - intros b j. simpl. split; [tauto | intros (p & E & _); discriminate].
Qed.
Lemma z0_ok : bodies_ok Z g1 z0.
Proof.
  unfold bodies_ok. simpl. splits.
  - repeat constructor; simpl; intuition discriminate.
  - apply g1_ok.
  - intros x. simpl. tauto.
Qed.
(** Two updates of 500 ms at rest put the two moving bodies of the island to sleep. *)
Example C26_falls_asleep : exists n1 s1 n2 s2,
  zupdate (zin 1000 500 0 true) z0 = Ok (n1, s1) /\ ss_sleep Z s1 = [] /\
  zupdate (zin 1000 500 0 true) s1 = Ok (n2, s2) /\ ss_sleep Z s2 = [2; 1] /\ islands n2 = [mk_island 0 2 [1; 2; 0]].
Proof. do 4 eexists. splits; vm_compute; reflexivity. Qed.

(** Finding: with a time before sleep of zero (which setTimeBeforeSleep accepts) a moving body, and its
    island, are put to sleep. *)
Theorem C26_zero_time_refuted : exists u s n s', bodies_ok Z (u_graph Z u) s /\ zhistory s (fun _ => []) /\ zupdate u s = Ok (n, s') /\
  u_before Z u = 0 /\ In 2 (ss_sleep Z s') /\ ~ rests Z Z.leb u 2.
Proof.
  exists (zin 0 500 100 true), z0. do 2 eexists. splits; [apply z0_ok | apply sh_start; reflexivity | vm_compute; reflexivity | reflexivity | simpl; auto | ].
  intros (A & _). discriminate.
Qed.

(** Finding: sleep times are kept while sleeping is disabled: a body that rested 900 ms, moved while
    sleeping was disabled, and then rested 100 ms falls asleep although the time before sleep is 1000 ms. *)
Theorem C26_disabled_gap_refuted : exists n1 s1 n2 s2 n3 s3,
  bodies_ok Z g1 z0 /\ zhistory z0 (fun _ => []) /\
  zupdate (zin 1000 900 0 true) z0 = Ok (n1, s1) /\ zupdate (zin 1000 5000 100 false) s1 = Ok (n2, s2) /\
  zupdate (zin 1000 100 0 true) s2 = Ok (n3, s3) /\
  ~ rests Z Z.leb (zin 1000 5000 100 false) 2 /\ In 2 (ss_sleep Z s3).
Proof.
  do 6 eexists. splits; [apply z0_ok | apply sh_start; reflexivity | vm_compute; reflexivity | vm_compute; reflexivity | vm_compute; reflexivity | | simpl; auto].
  intros (A & _). discriminate.
Qed.

Print Assumptions C26_only_resting_islands_partial.
Print Assumptions C26_resting_islands_sleep.
Print Assumptions C26_only_members_sleep.
Print Assumptions C26_components_follow.
Print Assumptions C26_update_succeeds.
Print Assumptions C26_zero_time_refuted.
Print Assumptions C26_disabled_gap_refuted.
