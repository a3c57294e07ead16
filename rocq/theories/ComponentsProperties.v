(** C17: a component store keeps every entity's data, packed and partitioned.
    C61: the parallel arrays fit in the allocated buffer. *)
From Verif Require Import Base Float24 HashSpec HeapModel HashProofs ComponentsModel ComponentsSpec ComponentsProofs.
Open Scope Z_scope.

(** The entities and data met by a loop [for i = a .. a+n-1] over the arrays of a store. *)
Definition loop {D} (c : comps D) (a n : Z) : list (option (Z * D)) := map (c_slots c) (zrange a n).

(** For every history of additions, removals, (de)activations and writes inside the contract, the
    store succeeds (no index out of the arrays, no read of an unconstructed or missing element)
    and answers as the partial function of the specification does. *)
Theorem C17_components_answers : forall D (os : list (cop D)) s, spec_run [] os = Ok s ->
  exists c0 c, comps_init = Ok c0 /\ comps_run (fun d => d) c0 os = Ok c /\
    (forall e, has_component e c = has Z.eqb e s) /\
    (forall e d b, lookup Z.eqb e s = Some (d, b) ->
       get_data e c = Ok d /\ is_disabled e c = Ok b /\
       exists i, entity_index e c = Ok i /\ 0 <= i < c_n c /\ (i < c_dis c <-> b = false)).
Proof.
  intros D os s H. destruct (@init_inv D) as (c0 & E0 & I0). destruct (run_refines _ _ _ _ I0 H) as (c & R & I).
  exists c0, c. splits; auto.
  - intros e. unfold has_component, has. destruct (lookup Z.eqb e s) as [[d b]|] eqn:L.
    + destruct (cinv_index _ _ _ _ _ I L) as (i & LM & _). rewrite LM. reflexivity.
    + rewrite (cinv_absent _ _ _ I L). reflexivity.
  - intros e d b L. destruct (cinv_index _ _ _ _ _ I L) as (i & LM & Ri & A & B).
    unfold get_data, is_disabled, entity_index, map_at, read_slot. rewrite LM. cbn [rd bind].
    rewrite in_mem_ok by (apply (g_mem _ _ (ci_good _ _ I)); exact Ri). cbn [check bind]. rewrite A. cbn [rd bind].
    splits; auto; [congruence|]. exists i. splits; auto; try lia. subst b. rewrite Z.leb_gt. tauto.
Qed.
Print Assumptions C17_components_answers.

(** The engine's loops over the first [getNbEnabledComponents()] (resp. all) slots meet exactly the
    enabled (resp. all) entities, each once, with their data. *)
Theorem C17_components_loops : forall D (os : list (cop D)) s, spec_run [] os = Ok s ->
  exists c0 c, comps_init = Ok c0 /\ comps_run (fun d => d) c0 os = Ok c /\ 0 <= c_dis c <= c_n c /\
    NoDup (map (option_map fst) (loop c 0 (c_n c))) /\ ~ In None (loop c 0 (c_n c)) /\
    (forall e d, In (Some (e, d)) (loop c 0 (c_dis c)) <-> lookup Z.eqb e s = Some (d, false)) /\
    (forall e d, In (Some (e, d)) (loop c (c_dis c) (c_n c - c_dis c)) <-> lookup Z.eqb e s = Some (d, true)).
Proof.
  intros D os s H. destruct (@init_inv D) as (c0 & E0 & I0). destruct (run_refines _ _ _ _ I0 H) as (c & R & I).
  exists c0, c. destruct (visit_inv _ _ I) as (V1 & V2 & V3 & V4). pose proof (ci_dis _ _ I).
  splits; auto; lia.
Qed.
Print Assumptions C17_components_loops.

(** Hinge and slider joints: activating a joint corrupts its stored upper-limit impulse. *)
Theorem C17_joint_limit_refuted : exists (os : list (cop limit_data)) c0 c d,
  spec_run [] os = Ok (m_set Z.eqb 1 (mk_limit 5 7, false) (m_set Z.eqb 2 (mk_limit 3 4, true) (m_set Z.eqb 1 (mk_limit 5 7, true) []))) /\
  comps_init = Ok c0 /\ comps_run hinge_swap_copy c0 os = Ok c /\
  get_data 2 c = Ok (mk_limit 3 4) /\ get_data 1 c = Ok d /\ d <> mk_limit 5 7.
Proof.
  exists [CAdd 2 true (mk_limit 3 4); CAdd 1 true (mk_limit 5 7); CSetDisabled 1 false].
  do 3 eexists. splits; try (vm_compute; reflexivity). discriminate.
Qed.
Print Assumptions C17_joint_limit_refuted.

Example C17_ex : exists s, spec_run [] [CAdd 1 false 10; CAdd 2 true 20; CAdd 3 false 30; CSetDisabled 1 true; CRemove 3; CSet 2 21; CSetDisabled 2 false] = Ok s /\
  lookup Z.eqb 2 s = Some (21, false) /\ lookup Z.eqb 1 s = Some (10, true) /\ lookup Z.eqb 3 s = None.
Proof. eexists. splits; vm_compute; reflexivity. Qed.

(** The arrays laid out in a buffer of [layout_bytes] bytes at a 16-aligned address are 16-aligned,
    pairwise disjoint and inside the buffer, for every number of components and element sizes. *)
Theorem C61_component_arrays : forall base n sizes,
  0 <= n -> Forall (fun s => 0 <= s) sizes -> base mod 16 = 0 ->
  length (layout_from base n sizes) = length sizes /\
  Forall2 (fun al s => snd al = n * s) (layout_from base n sizes) sizes /\
  (forall a l, In (a, l) (layout_from base n sizes) ->
     a mod 16 = 0 /\ base <= a /\ a + l <= base + layout_bytes n sizes) /\
  ForallOrdPairs (fun x y => fst x + snd x <= fst y) (layout_from base n sizes).
Proof.
  intros base n sizes Hn F M. destruct (layout_from_ok sizes base n Hn F M) as (A & B). splits; auto.
  - clear. revert base. induction sizes; intros; cbn; auto.
  - clear. revert base. induction sizes; intros; cbn; constructor; auto.
Qed.
Print Assumptions C61_component_arrays.
(** TransformComponents with 16 components: an entity (4 bytes) and a transform (28 bytes). *)
Example C61_ex : layout_from 1024 17 [4; 28] = [(1024, 68); (1104, 476)] /\ layout_bytes 17 [4; 28] = 576.
Proof. vm_compute. auto. Qed.
