(** C145: destroying a body destroys its joints and nothing else.
    C146: destroying a world releases every body and every joint exactly once. *)
From Coq Require Import Permutation.
From Verif Require Import Base LifeModel LifeSpec LifeProofs LifeWorldProofs LifeAwakeProofs.

(** Histories in which bodies are only destroyed while they are awake and not static, or while no body
    sleeps: the world stays in order ... *)
Theorem C145_in_order_partial : forall os w, careful os empty_world -> life_run os empty_world = Ok w -> linked w.
Proof. intros os w C R. apply (life_run_linked os empty_world w empty_linked empty_sound C R). Qed.
Print Assumptions C145_in_order_partial.

(** ... every further call on living objects succeeds ... *)
Theorem C145_total_partial : forall os w o, careful os empty_world -> life_run os empty_world = Ok w ->
  names_living o w -> (match o with LDestroyBody b => undisturbed b w | _ => True end) ->
  exists w', life_step o w = Ok w'.
Proof.
  intros os w o C R N U. destruct (life_run_linked os empty_world w empty_linked empty_sound C R) as (L & S).
  destruct (life_step_ok o w L N) as (w' & E & _); eauto. destruct o; auto. now apply undisturbed_steady.
Qed.
Print Assumptions C145_total_partial.

(** ... destroying a joint takes away that joint and nothing else ... *)
Theorem C145_destroy_joint_partial : forall os w y, careful os empty_world -> life_run os empty_world = Ok w ->
  In y (joints w) ->
  exists w', destroy_joint (j_id y) w = Ok w' /\ Permutation (joints w) (y :: joints w') /\
    Permutation (bodies w) (bodies w') /\ w_gone w' = OJoint (j_id y) :: w_gone w.
Proof.
  intros os w y C R Hy. destruct (destroy_joint_ok y w (C145_in_order_partial os w C R) Hy)
    as (w' & E & _ & PJ & PB & _ & _ & EG & _). exists w'. auto.
Qed.
Print Assumptions C145_destroy_joint_partial.

(** ... and destroying a body that is awake and not static, or while no body sleeps, takes away that body and the
    joints that hold it, and nothing else; each of them is released once. *)
Theorem C145_destroy_body_partial : forall os w b, careful os empty_world -> life_run os empty_world = Ok w ->
  In b (bodies w) -> undisturbed b w ->
  exists w', destroy_body b w = Ok w' /\ Permutation (bodies w) (b :: bodies w') /\
    Permutation (joints w') (filter (fun y => negb (involves b y)) (joints w)) /\
    Permutation (w_gone w') (OBody b :: map (fun y => OJoint (j_id y)) (filter (involves b) (joints w)) ++ w_gone w) /\
    NoDup (map number (w_gone w')).
Proof.
  intros os w b C R Hb U. destruct (life_run_linked os empty_world w empty_linked empty_sound C R) as (L0 & S).
  destruct (destroy_body_ok b w L0 Hb (undisturbed_steady b w S U))
    as (w' & E & L & PB & _ & _ & PJ & PG & _). exists w'. do 4 (split; [assumption|]).
  pose proof (lk_objects _ L) as ND. rewrite objects_numbers in ND. eapply NoDup_app_r, NoDup_app_r; eauto.
Qed.
Print Assumptions C145_destroy_body_partial.

(** Two pairs of bodies, each held together by a joint, all asleep.  Destroying the body 1 of the
    first pair destroys the joint 5 of the second pair too, although it does not hold that body. *)
Definition two_pairs : list lop :=
  [LBody; LBody; LBody; LBody; LJoint 0 1; LJoint 2 3; LSleep 0 true; LSleep 1 true; LSleep 2 true; LSleep 3 true].

Theorem C145_other_joint_refuted : exists w w' y,
  careful two_pairs empty_world /\ life_run two_pairs empty_world = Ok w /\ linked w /\
  In y (joints w) /\ involves 1 y = false /\
  destroy_body 1 w = Ok w' /\ ~ In y (joints w') /\ In (OJoint (j_id y)) (w_gone w').
Proof.
  assert (C : careful two_pairs empty_world) by (cbn; intuition).
  eexists. eexists. exists (mk_joint 5 2 3). split; [exact C|].
  split; [vm_compute; reflexivity|]. split.
  { eapply C145_in_order_partial; [exact C|vm_compute; reflexivity]. }
  split; [cbn; auto|]. split; [reflexivity|]. split; [vm_compute; reflexivity|]. split; cbn; auto.
Qed.
Print Assumptions C145_other_joint_refuted.

(** A chain of three bodies with two joints beside two single bodies, all asleep.  Destroying the
    middle body leaves one of its joints in the world; the next update() and a call that destroys
    that joint use the body that was released. *)
Definition chain_of_three : list lop :=
  [LBody; LBody; LBody; LBody; LBody; LJoint 0 1; LJoint 1 2;
   LSleep 0 true; LSleep 1 true; LSleep 2 true; LSleep 3 true; LSleep 4 true].

Theorem C145_joint_left_refuted : exists w w' y,
  careful chain_of_three empty_world /\ life_run chain_of_three empty_world = Ok w /\ linked w /\
  destroy_body 1 w = Ok w' /\ In y (joints w') /\ involves 1 y = true /\ In (OBody 1) (w_gone w') /\
  life_step (LUpdateJoint (j_id y)) w' = Ub /\ life_step (LDestroyJoint (j_id y)) w' = Ub.
Proof.
  assert (C : careful chain_of_three empty_world) by (cbn; intuition).
  eexists. eexists. exists (mk_joint 6 1 2). split; [exact C|].
  split; [vm_compute; reflexivity|]. split.
  { eapply C145_in_order_partial; [exact C|vm_compute; reflexivity]. }
  split; [vm_compute; reflexivity|]. split; [cbn; auto|]. split; [reflexivity|]. split; [cbn; auto|].
  split; vm_compute; reflexivity.
Qed.
Print Assumptions C145_joint_left_refuted.

(** Three bodies in a chain, one of them asleep: the awake middle one is destroyed with both joints. *)
Example C145_case : exists w w',
  life_run [LBody; LBody; LBody; LJoint 0 1; LJoint 1 2; LJoint 0 2; LSleep 2 true] empty_world = Ok w /\
  undisturbed 1 w /\ destroy_body 1 w = Ok w' /\ bodies w' = [0; 2] /\ map j_id (joints w') = [5] /\
  w_gone w' = [OBody 1; OJoint 4; OJoint 3].
Proof.
  eexists. eexists. split; [vm_compute; reflexivity|]. split.
  - left. eexists. split; [right; left; reflexivity|]. auto.
  - split; [vm_compute; reflexivity|]. repeat split.
Qed.

(** A world in which no body sleeps is destroyed without touching a released object, nothing is left,
    and what was released, now or before, are all the objects there were, each exactly once.  (The
    loop over the joints leaves some of them, the loop over the bodies destroys these.) *)
Theorem C146_destroy_world_partial : forall os w, careful os empty_world -> life_run os empty_world = Ok w ->
  all_awake w ->
  exists w', destroy_world w = Ok w' /\ bodies w' = [] /\ joints w' = [] /\ w_array w' = [] /\
    Permutation (w_gone w') (map OBody (bodies w) ++ map (fun y => OJoint (j_id y)) (joints w) ++ w_gone w) /\
    NoDup (map number (w_gone w')).
Proof.
  intros os w C R AW. pose proof (C145_in_order_partial os w C R) as L.
  destruct (destroy_world_ok w L AW) as (w' & E & B & J & A & P). exists w'. do 5 (split; [assumption|]).
  eapply Permutation_NoDup; [apply Permutation_map, Permutation_sym, P|apply L].
Qed.
Print Assumptions C146_destroy_world_partial.

(** Two bodies with two joints, a chain of three bodies with two joints and a single body, all
    asleep: destroying the world uses a body that was released before. *)
Definition sleeping_world : list lop :=
  [LBody; LBody; LBody; LBody; LBody; LBody; LJoint 2 5; LJoint 5 3; LJoint 0 1; LJoint 0 1;
   LSleep 0 true; LSleep 1 true; LSleep 2 true; LSleep 5 true; LSleep 3 true; LSleep 4 true;
   LUpdateJoint 6; LUpdateJoint 7; LUpdateJoint 8; LUpdateJoint 9].

Theorem C146_sleeping_refuted : exists w,
  careful sleeping_world empty_world /\ life_run sleeping_world empty_world = Ok w /\ linked w /\
  destroy_world w = Ub.
Proof.
  assert (C : careful sleeping_world empty_world) by (cbn; intuition).
  eexists. split; [exact C|]. split; [vm_compute; reflexivity|]. split.
  { eapply C145_in_order_partial; [exact C|vm_compute; reflexivity]. }
  vm_compute; reflexivity.
Qed.
Print Assumptions C146_sleeping_refuted.

(** The same bodies and joints, awake. *)
Example C146_case : exists w w',
  life_run (firstn 10 sleeping_world) empty_world = Ok w /\ all_awake w /\
  destroy_world w = Ok w' /\ bodies w' = [] /\
  w_gone w' = [OBody 0; OBody 1; OJoint 9; OJoint 8; OBody 2; OBody 3; OBody 4; OBody 5; OJoint 7; OJoint 6].
Proof.
  eexists. eexists. split; [vm_compute; reflexivity|]. split.
  - intros x Hx. cbn in Hx. intuition (subst; reflexivity).
  - split; [vm_compute; reflexivity|]. split; reflexivity.
Qed.
