(** C16: entity identifiers. *)
From Verif Require Import Base EntityModel EntitySpec EntityProofs.
Open Scope Z_scope.

(** A new entity can always be created, and its identifier differs from every live one. *)
Theorem C16_create_fresh : forall tr m, entity_history tr m ->
  zlen (alive tr) + 1025 <= 16777216 ->
  exists m' id, create_entity m = Ok (m', id) /\ ~ In id (alive tr).
Proof.
  intros tr m H Cap.
  destruct (create_inv _ _ (history_inv _ _ H) Cap) as (m' & id & R & _ & N & _). eauto.
Qed.
Print Assumptions C16_create_fresh.

(** Live identifiers are pairwise distinct, valid, and can be destroyed. *)
Theorem C16_live_valid : forall tr m, entity_history tr m ->
  NoDup (alive tr) /\
  (forall id, In id (alive tr) -> is_valid id m = Ok true /\ exists m', destroy_entity id m = Ok m').
Proof.
  intros tr m H. pose proof (history_inv _ _ H) as I. split; [exact (einv_live_nodup _ _ I)|].
  intros id L. split.
  - destruct (ei_live _ _ I _ L) as (g & G & E). unfold is_valid. rewrite G. cbn [rd bind]. f_equal. apply Z.eqb_eq.
    rewrite E. symmetry. apply pack_generation; [|eapply (ei_gens _ _ I); eauto].
    pose proof (znth_bounds _ _ _ _ G). pose proof (ei_len _ _ I). lia.
  - destruct (destroy_inv _ _ _ I L) as (m' & g & R & _). eauto.
Qed.
Print Assumptions C16_live_valid.

(** A destroyed identifier is invalid during the next 255 * 1025 - 1 destructions (of whatever
    entities, with any number of creations in between). *)
Theorem C16_destroyed_invalid : forall tr1 tr2 id m,
  entity_history (tr2 ++ Destroyed id :: tr1) m ->
  destructions tr2 < 255 * 1025 -> is_valid id m = Ok false.
Proof. exact stale. Qed.
Print Assumptions C16_destroyed_invalid.

(** An identifier is only handed out a second time after at least 256 * 1025 destructions. *)
Theorem C16_identifier_reuse : forall tr1 tr2 id m,
  entity_history (Created id :: tr2 ++ Created id :: tr1) m -> 256 * 1025 <= destructions tr2.
Proof. exact reuse. Qed.
Print Assumptions C16_identifier_reuse.

(** Two entities, the first destroyed. *)
Example C16_ex : exists m, entity_history [Destroyed 0; Created 1; Created 0] m /\
  is_valid 0 m = Ok false /\ is_valid 1 m = Ok true.
Proof.
  eexists. splits.
  - eapply eh_destroy; [eapply eh_create; [eapply eh_create; [apply eh_init|..]|..]|..]; try reflexivity; cbn; try lia; auto.
  - reflexivity.
  - reflexivity.
Qed.
