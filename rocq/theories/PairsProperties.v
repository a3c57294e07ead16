(** C22, C23: the storage of overlapping pairs. *)
From Verif Require Import Base HashSpec BitsModel ComponentsProofs PairsModel PairsSpec PairsProofs.
Open Scope Z_scope.

(** C22: after every history of calls within the contract, the storage answers like a finite map:
    every pair is stored exactly once, in the array of its kind and state, found under its
    identifier, and listed once by each of its two colliders. *)
Theorem C22_pairs : forall ops s, pspec_run init_pspec ops = Ok s ->
  exists o, prun init_pairs ops = Ok o /\ p_represents o s.
Proof.
  intros ops s H. destruct (run_ok ops init_pairs init_pspec s init_inv H) as (o & A & B). exists o. split; [exact A|]. apply inv_represents. exact B.
Qed.
Print Assumptions C22_pairs.

(** Enabling or disabling a pair leaves every other pair as it was, and of the pair itself changes
    only the state and the pending overlap test. *)
Theorem C22_toggle_frame : forall ops s id o op, (op = PEnable id \/ op = PDisable id) ->
  pspec_run init_pspec ops = Ok s -> prun init_pairs ops = Ok o ->
  exists o', pstep o op = Ok o' /\
    (forall id', id' <> id -> get_pair id' o' = get_pair id' o) /\
    (forall p, get_pair id o = Ok (Some p) -> exists p', get_pair id o' = Ok (Some p') /\
       (p_b1 p', p_b2 p', p_c1 p', p_c2 p', p_concave p') = (p_b1 p, p_b2 p, p_c1 p, p_c2 p, p_concave p) /\
       p_prev p' = p_prev p /\ p_cur p' = p_cur p /\
       p_enabled p' = match op with PEnable _ => true | _ => false end) /\
    (get_pair id o = Ok None -> get_pair id o' = Ok None).
Proof.
  intros ops s id o op OP H R. destruct (run_ok ops init_pairs init_pspec s init_inv H) as (o1 & A & I). rewrite R in A. injection A as <-.
  assert (S : exists s', pspec_step s op = Ok s' /\ (forall id', id' <> id -> lookup Z.eqb id' (sp_pairs s') = lookup Z.eqb id' (sp_pairs s)) /\
    (forall p, lookup Z.eqb id (sp_pairs s) = Some p -> exists p', lookup Z.eqb id (sp_pairs s') = Some p' /\
       (p_b1 p', p_b2 p', p_c1 p', p_c2 p', p_concave p') = (p_b1 p, p_b2 p, p_c1 p, p_c2 p, p_concave p) /\
       p_prev p' = p_prev p /\ p_cur p' = p_cur p /\
       p_enabled p' = match op with PEnable _ => true | _ => false end) /\
    (lookup Z.eqb id (sp_pairs s) = None -> lookup Z.eqb id (sp_pairs s') = None)).
  { destruct OP; subst op; cbn [pspec_step]; destruct (lookup Z.eqb id (sp_pairs s)) as [p|] eqn:L.
    2, 4: exists s; splits; [reflexivity|reflexivity|intros p X; discriminate|auto].
    all: destruct (p_enabled p) eqn:E; eexists; (split; [reflexivity|]); cbn [sp_pairs].
    1, 4: splits; [reflexivity|intros q Q; injection Q as <-; exists p; splits; auto|discriminate].
    all: splits; [intros id' N; rewrite lookup_set; destruct (Z.eqb_spec id' id); [contradiction|reflexivity]
                 |intros q Q; injection Q as <-; rewrite lookup_set, Z.eqb_refl; eexists; split; [reflexivity|]; cbn; auto|discriminate]. }
  destruct S as (s' & S & F1 & F2 & F3). destruct (step_ok _ _ _ _ I S) as (o' & ST & I').
  destruct (inv_represents _ _ I) as (G & _). destruct (inv_represents _ _ I') as (G' & _).
  exists o'. split; [exact ST|]. splits.
  - intros id' N. rewrite G, G', (F1 _ N). reflexivity.
  - intros p P. rewrite G in P. injection P as P. destruct (F2 _ P) as (p' & Q & K). exists p'. split; [rewrite G', Q; reflexivity|exact K].
  - intros P. rewrite G in P. injection P as P. rewrite G', (F3 P). reflexivity.
Qed.
Print Assumptions C22_toggle_frame.

(** C23 for the pairs in the simulated state: a request to test again succeeds and marks exactly
    that pair. *)
Theorem C23_retest_enabled_partial : forall ops s id p v, pspec_run init_pspec ops = Ok s ->
  lookup Z.eqb id (sp_pairs s) = Some p -> p_enabled p = true ->
  exists o o', prun init_pairs ops = Ok o /\ set_need_test id v o = Ok o' /\
    get_pair id o' = Ok (Some (with_test v p)) /\ forall id', id' <> id -> get_pair id' o' = get_pair id' o.
Proof.
  intros ops s id p v H L E. destruct (run_ok ops init_pairs init_pspec s init_inv H) as (o & A & I).
  assert (S : pspec_step s (PNeedTest id v) = Ok (mk_pspec (m_set Z.eqb id (with_test v p) (sp_pairs s)) (sp_coll s))) by (cbn [pspec_step]; rewrite L, E; reflexivity).
  destruct (step_ok _ _ _ _ I S) as (o' & ST & I'). exists o, o'. cbn [pstep] in ST.
  destruct (inv_represents _ _ I) as (G & _). destruct (inv_represents _ _ I') as (G' & _). splits; [exact A|exact ST| |].
  - rewrite G'. cbn [sp_pairs]. rewrite lookup_set, Z.eqb_refl. reflexivity.
  - intros id' N. rewrite G, G'. cbn [sp_pairs]. rewrite lookup_set. destruct (Z.eqb_spec id' id); [contradiction|reflexivity].
Qed.
Print Assumptions C23_retest_enabled_partial.

(** C23 fails for pairs in the disabled state: the request indexes a map with a missing key. *)
Theorem C23_retest_disabled_refuted : forall ops s id p v, pspec_run init_pspec ops = Ok s ->
  lookup Z.eqb id (sp_pairs s) = Some p -> p_enabled p = false ->
  exists o, prun init_pairs ops = Ok o /\ get_pair id o = Ok (Some p) /\ set_need_test id v o = Ub.
Proof.
  intros ops s id p v H L E. destruct (run_ok ops init_pairs init_pspec s init_inv H) as (o & A & I). exists o.
  destruct (inv_represents _ _ I) as (G & _). splits; [exact A|rewrite G, L; reflexivity|].
  pose proof (find_ok o s id I) as F. rewrite L in F. destruct F as (i & _ & _ & _ & N).
  pose proof (N false true) as N1. pose proof (N true true) as N2. cbn [sel] in *. unfold set_need_test. rewrite N1, N2 by congruence. reflexivity.
Qed.
Print Assumptions C23_retest_disabled_refuted.

(** A history with three pairs of both kinds, swap-deletions, disabled and re-enabled pairs. *)
Definition sample : list pop :=
  [PAddCollider 1; PAddCollider 2; PAddCollider 3; PAdd 1 10 2 20 true; PAdd 2 20 3 30 false; PAdd 1 10 3 30 true;
   PSetColliding (pair_id 10 20); PUpdatePrevious; PDisable (pair_id 10 20); PDisable (pair_id 20 30); PNeedTest (pair_id 30 10) true;
   PEnable (pair_id 20 10); PRemove (pair_id 10 30)].
Example sample_ok : exists s, pspec_run init_pspec sample = Ok s /\
  lookup Z.eqb (pair_id 20 30) (sp_pairs s) = Some (mk_pair (pair_id 20 30) 20 30 2 3 false false false false true) /\
  lookup Z.eqb (pair_id 10 20) (sp_pairs s) = Some (mk_pair (pair_id 10 20) 10 20 1 2 false true true true false).
Proof. eexists. split; [vm_compute; reflexivity|]. split; reflexivity. Qed.
Example sample_run : exists o, prun init_pairs sample = Ok o /\ coll_get 2 o = Ok [pair_id 10 20; pair_id 20 30] /\
  set_need_test (pair_id 20 30) true o = Ub.
Proof. eexists. split; [vm_compute; reflexivity|]. split; reflexivity. Qed.
