(** C147, C148: colliders, the shapes they share and their roles. *)
From Verif Require Import Base LifeModel RolesModel RolesSpec RolesProofs.

(** C147.  After every history of proper calls bodies, colliders, shapes and worlds agree: a body
    lists each of its colliders once, a shape lists each of its users once, a world lists each of
    its bodies once, nothing refers to a destroyed object, and exactly the colliders of active
    bodies are in the broad phase. *)
Theorem C147_agree : forall os k, proper_all os empty_scene -> kruns os empty_scene = Ok k -> agree k.
Proof. intros os k P E. apply good_agree. apply (reached_good os k P E). Qed.
Print Assumptions C147_agree.

(** C147.  No proper call runs into undefined behaviour or an assertion. *)
Theorem C147_total : forall os o k, proper_all os empty_scene -> kruns os empty_scene = Ok k -> proper o k ->
  exists k', kstep o k = Ok k'.
Proof.
  intros os o k P E Q. destruct (kstep_good o k (reached_good os k P E) Q) as (k' & A & _). exists k'. exact A.
Qed.
Print Assumptions C147_total.

(** C147.  Removing a collider removes it and leaves the other colliders as they were. *)
Theorem C147_remove : forall os k b c k', proper_all os empty_scene -> kruns os empty_scene = Ok k ->
  proper (KRemove b c) k -> kstep (KRemove b c) k = Ok k' -> k_cols k' c = None /\ same_but c k k'.
Proof.
  intros os k b c k' P E (y & Y & YB) S. destruct (remove_good b c y k (reached_good os k P E) Y YB) as (k2 & A & _ & T).
  simpl in S. rewrite A in S. injection S as <-. split.
  - rewrite (tk_cols c k k2 T), Nat.eqb_refl. reflexivity.
  - intros d D. rewrite (tk_cols c k k2 T). destruct (Nat.eqb_spec d c); [contradiction|reflexivity].
Qed.
Print Assumptions C147_remove.

(** C147.  Destroying a body destroys exactly its own colliders; every shape stays. *)
Theorem C147_destroy_body : forall os k b k', proper_all os empty_scene -> kruns os empty_scene = Ok k ->
  proper (KDestroyBody b) k -> kstep (KDestroyBody b) k = Ok k' ->
  k_bodies k' b = None /\
  (forall c y, k_cols k c = Some y -> k_cols k' c = if Nat.eqb (kc_body y) b then None else Some y) /\
  (forall d, d <> b -> (k_bodies k' d = None <-> k_bodies k d = None)) /\
  (forall s, k_shapes k' s = None <-> k_shapes k s = None).
Proof.
  intros os k b k' P E Q S. simpl in Q, S. destruct (k_bodies k b) as [x|] eqn:X; [|contradiction].
  destruct (destroy_body_good b x k (reached_good os k P E) X) as (k2 & l & l' & A & _ & _ & _ & _ & _ & BO & SH & GONE & KEPT).
  rewrite A in S. injection S as <-. split; [|split; [|split]].
  - specialize (BO b). rewrite Nat.eqb_refl in BO. unfold bworld in BO. destruct (k_bodies k2 b); [discriminate|reflexivity].
  - intros c y Y. destruct (Nat.eqb_spec (kc_body y) b).
    + apply GONE. unfold cbody. rewrite Y. simpl. congruence.
    + rewrite KEPT; [exact Y|]. unfold cbody. rewrite Y. simpl. congruence.
  - intros d D. specialize (BO d). destruct (Nat.eqb_spec d b); [contradiction|]. unfold bworld in BO.
    destruct (k_bodies k2 d), (k_bodies k d); simpl in BO; try discriminate; split; congruence.
  - exact SH.
Qed.
Print Assumptions C147_destroy_body.

(** C147.  Destroying a world destroys exactly its bodies; colliders of bodies of other worlds stay
    as they were, and so do the shapes. *)
Theorem C147_destroy_world : forall os k w k', proper_all os empty_scene -> kruns os empty_scene = Ok k ->
  proper (KDestroyWorld w) k -> kstep (KDestroyWorld w) k = Ok k' ->
  (forall b x, k_bodies k b = Some x -> (k_bodies k' b = None <-> kb_world x = w)) /\
  (forall c y x, k_cols k c = Some y -> k_bodies k (kc_body y) = Some x ->
     k_cols k' c = if Nat.eqb (kb_world x) w then None else Some y) /\
  (forall s, k_shapes k' s = None <-> k_shapes k s = None).
Proof.
  intros os k w k' P E Q S. pose proof (reached_good os k P E) as G.
  destruct (destroy_world_good w k G Q) as (k2 & A & G2 & W & BO & SH & KEPT & ANY).
  simpl in S. rewrite A in S. injection S as <-.
  assert (B1 : forall b x, k_bodies k b = Some x -> (k_bodies k2 b = None <-> kb_world x = w)).
  { intros b x X. specialize (BO b). unfold bworld in BO. rewrite X in BO. simpl in BO.
    destruct (Nat.eqb_spec (kb_world x) w); destruct (k_bodies k2 b); simpl in BO; try discriminate; split; congruence. }
  split; [exact B1|split; [|exact SH]].
  intros c y x Y X. destruct (Nat.eqb_spec (kb_world x) w) as [EW|NE].
  - destruct (k_cols k2 c) as [z|] eqn:Z; [|reflexivity]. exfalso.
    destruct (ANY c) as [Z0|Z0]; rewrite Z in Z0; [discriminate|]. rewrite Y in Z0. injection Z0 as ->.
    destruct (col_body k2 c y (g_st k2 G2) Z) as (x2 & X2 & _).
    apply (B1 _ _ X) in EW. congruence.
  - rewrite (KEPT c (kc_body y)); [exact Y| |].
    + unfold cbody. rewrite Y. reflexivity.
    + unfold bworld. rewrite X. simpl. congruence.
Qed.
Print Assumptions C147_destroy_world.

(** C147.  A change of the size of a shape reaches exactly the colliders that use it. *)
Theorem C147_resize : forall os k s k', proper_all os empty_scene -> kruns os empty_scene = Ok k ->
  proper (KResize s) k -> kstep (KResize s) k = Ok k' ->
  forall c y, k_cols k c = Some y ->
    exists y', k_cols k' c = Some y' /\ kc_changed y' = kc_changed y || Nat.eqb (kc_shape y) s /\
      (kc_body y', kc_shape y', kc_tree y', kc_trigger y', kc_sim y') =
      (kc_body y, kc_shape y, kc_tree y, kc_trigger y, kc_sim y).
Proof.
  intros os k s k' P E Q S c y Y. destruct (resize_good s k (reached_good os k P E) Q) as (k2 & A & _ & C).
  simpl in S. rewrite A in S. injection S as <-. rewrite C, Y. simpl.
  destruct (Nat.eqb (kc_shape y) s); eexists; (split; [reflexivity|]); simpl; split; try reflexivity;
    destruct (kc_changed y); reflexivity.
Qed.
Print Assumptions C147_resize.

(** C147.  When all worlds are destroyed no shape is used any more, so every shape may be destroyed:
    the order of PhysicsCommon::release (PhysicsCommon.cpp:134-178) is safe. *)
Theorem C147_release : forall os k, proper_all os empty_scene -> kruns os empty_scene = Ok k ->
  (forall w, k_worlds k w = None) ->
  (forall b, k_bodies k b = None) /\ (forall c, k_cols k c = None) /\
  (forall s, k_shapes k s <> None -> proper (KDestroyShape s) k /\ k_shapes k s = Some []).
Proof.
  intros os k P E NW. pose proof (reached_good os k P E) as G. pose proof (good_agree k G) as AG.
  assert (NB : forall b, k_bodies k b = None).
  { intros b. destruct (k_bodies k b) as [x|] eqn:X; [|reflexivity]. exfalso. apply (ag_home k AG b x X). apply NW. }
  assert (NC : forall c, k_cols k c = None).
  { intros c. destruct (k_cols k c) as [y|] eqn:Y; [|reflexivity]. exfalso. destruct (ag_owner k AG c y Y) as [O _]. apply O. apply NB. }
  split; [exact NB|]. split; [exact NC|]. intros s NS. split; [split; [exact NS|intros (c & y & Y & _); rewrite NC in Y; discriminate]|].
  destruct (k_shapes k s) as [l|] eqn:L; [|contradiction]. destruct (ag_shape k AG s l L) as [_ I].
  destruct l as [|c l]; [reflexivity|]. destruct (I c) as [I1 _]. destruct (I1 (or_introl eq_refl)) as (y & Y & _).
  rewrite NC in Y. discriminate.
Qed.
Print Assumptions C147_release.

(** Two worlds, a shape shared between them, two bodies with three colliders; a body is deactivated,
    the shape resized, one world destroyed. *)
Definition roles_example : list kop :=
  [KWorld; KShape; KWorld; KBody 0; KBody 2; KAdd 3 1; KAdd 4 1; KAdd 3 1; KActive 3 false; KResize 1; KDestroyWorld 2].
Example C147_case : proper_all roles_example empty_scene /\
  match kruns roles_example empty_scene with
  | Ok k => k_shapes k 1 = Some [5; 7] /\
      k_bodies k 3 = Some (mk_kbody 0 [5; 7] false true) /\ k_bodies k 4 = None /\
      k_cols k 5 = Some (mk_kcol 3 1 false true false true) /\ k_cols k 6 = None
  | _ => False
  end.
Proof. split; [apply proper_allb_sound; vm_compute; reflexivity|vm_compute; repeat split]. Qed.

(** C148.  No collider is ever a trigger and a simulation collider at the same time. *)
Theorem C148_one_role : forall os k, proper_all os empty_scene -> kruns os empty_scene = Ok k -> one_role k.
Proof. intros os k P E. apply (g_role k (reached_good os k P E)). Qed.
Print Assumptions C148_one_role.

(** C148.  setIsTrigger and setIsSimulationCollider set their own role, a set role ends the other
    one, a cleared role leaves the other one as it was, and no other collider changes. *)
Theorem C148_set_role : forall os k c y v, proper_all os empty_scene -> kruns os empty_scene = Ok k ->
  k_cols k c = Some y ->
  (exists k' y', kstep (KTrigger c v) k = Ok k' /\ k_cols k' c = Some y' /\ kc_trigger y' = v /\
     kc_sim y' = (if v then false else kc_sim y) /\ same_but c k k') /\
  (exists k' y', kstep (KSimulation c v) k = Ok k' /\ k_cols k' c = Some y' /\ kc_sim y' = v /\
     kc_trigger y' = (if v then false else kc_trigger y) /\ same_but c k k').
Proof.
  intros os k c y v P E Y. pose proof (reached_good os k P E) as G. split.
  - destruct (trigger_good c v y k G Y) as (k' & A & _ & C & D). exists k'. eexists. split; [exact A|]. split; [exact C|].
    simpl. repeat split; auto. destruct v, (kc_sim y); reflexivity.
  - destruct (simulation_good c v y k G Y) as (k' & A & _ & C & D). exists k'. eexists. split; [exact A|]. split; [exact C|].
    simpl. repeat split; auto. destruct v, (kc_trigger y); reflexivity.
Qed.
Print Assumptions C148_set_role.

(** C148.  A contact is solved exactly if both its colliders are simulation colliders, and a contact
    with a trigger never is; the flag of the bodies makes no difference. *)
Theorem C148_contact : forall os k c1 c2 y1 y2, proper_all os empty_scene -> kruns os empty_scene = Ok k ->
  k_cols k c1 = Some y1 -> k_cols k c2 = Some y2 ->
  solves_contact c1 c2 k = Ok (kc_sim y1 && kc_sim y2) /\
  (kc_trigger y1 || kc_trigger y2 = true -> solves_contact c1 c2 k = Ok false).
Proof.
  intros os k c1 c2 y1 y2 P E Y1 Y2. pose proof (reached_good os k P E) as G.
  assert (A : solves_contact c1 c2 k = Ok (kc_sim y1 && kc_sim y2)).
  { unfold solves_contact. rewrite Y1, Y2. simpl. destruct (kc_sim y1), (kc_sim y2) eqn:S2; simpl; try reflexivity.
    destruct (col_body k c2 y2 (g_st k G) Y2) as (x & X & _). rewrite X. simpl.
    rewrite (g_flag k G c2 y2 x Y2 X S2). reflexivity. }
  split; [exact A|]. intros T. rewrite A. f_equal.
  pose proof (g_role k G c1 y1 Y1) as R1. pose proof (g_role k G c2 y2 Y2) as R2.
  destruct (kc_trigger y1), (kc_trigger y2), (kc_sim y1), (kc_sim y2); auto; discriminate.
Qed.
Print Assumptions C148_contact.

(** The first collider of a body becomes a trigger, the second a simulation collider again after
    being a trigger; only contacts with the second one are solved. *)
Definition role_changes : list kop :=
  [KWorld; KShape; KBody 0; KBody 0; KAdd 2 1; KAdd 2 1; KAdd 3 1; KTrigger 4 true; KTrigger 5 true; KSimulation 5 true].
Example C148_case : proper_all role_changes empty_scene /\
  match kruns role_changes empty_scene with
  | Ok k => k_cols k 4 = Some (mk_kcol 2 1 true false true false) /\
      k_cols k 5 = Some (mk_kcol 2 1 true false false true) /\
      solves_contact 6 4 k = Ok false /\ solves_contact 6 5 k = Ok true
  | _ => False
  end.
Proof. split; [apply proper_allb_sound; vm_compute; reflexivity|vm_compute; repeat split]. Qed.
