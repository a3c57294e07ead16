(** C23, C27, C29, C30, C63, C64, C65: which pairs of colliders a world tracks and simulates. *)
From Verif Require Import Base HashSpec BitsModel BitsProofs ComponentsProofs PairsModel PairsSpec PairsProofs WorldModel WorldSpec WorldProofs WorldProofs2 WorldProofs3 WorldProofs4 WorldProofs5 WorldProofs6.
Open Scope Z_scope.

Section Properties.
Variable box : Type.
Variable overlap covers : box -> box -> bool.
Variable inflate : box -> box.
Hypothesis overlap_sym : forall a b, overlap a b = overlap b a.
Notation world := (world box).
Notation history := (history box overlap covers inflate).
Notation step := (wstep box overlap covers inflate).
Notation tracked n1 n2 w := (exists p, the_pair box (pair_id n1 n2) w = Some p).

(** C23: every call in the histories considered succeeds: in particular no request to test a pair
    again, no report of an event and no update of a collider reads outside a container. *)
Theorem C23_calls_succeed : forall strict single w op, history strict single w -> allowed box strict single w op ->
  exists w', step w op = Ok w' /\ history strict single w'.
Proof.
  intros strict single w op H A. destruct (history_inv box overlap overlap_sym covers inflate _ _ _ H) as (I & J & J2).
  destruct (wstep_ok box overlap overlap_sym covers inflate strict single (pending strict) w op I) as (w' & R & _); auto.
  exists w'. split; [exact R|]. eapply h_step; eassumption.
Qed.

(** C27, one direction: a tracked pair is simulated as soon as one of its bodies is awake and not
    static. *)
Theorem C27_simulated_when_awake : forall strict single w id p x1 x2 y1 y2, history strict single w ->
  the_pair box id w = Some p -> the_coll box (p_c1 p) w = Some x1 -> the_coll box (p_c2 p) w = Some x2 ->
  the_body box (c_body x1) w = Some y1 -> the_body box (c_body x2) w = Some y2 ->
  (b_type y1 <> Static /\ b_sleeping y1 = false) \/ (b_type y2 <> Static /\ b_sleeping y2 = false) ->
  p_enabled p = true.
Proof.
  intros strict single w id p x1 x2 y1 y2 H P C1 C2 B1 B2 A. destruct (history_inv box overlap overlap_sym covers inflate _ _ _ H) as (I & _).
  destruct (p_enabled p) eqn:EN; [reflexivity|]. exfalso. destruct (wi_dis I _ _ _ _ _ _ P EN C1 C2 B1 B2) as [K|[]].
  apply Bool.andb_true_iff in K. destruct K as (K1 & K2). destruct A as [(T & S)|(T & S)]; [pose proof (wi_flags I _ _ B1 T S)|pose proof (wi_flags I _ _ B2 T S)]; congruence.
Qed.

(** The two colliders of a tracked pair exist, belong to different bodies, and are both in the
    broad phase. *)
Theorem C27_tracked_live : forall strict single w id p, history strict single w -> the_pair box id w = Some p ->
  exists x1 x2 y1 y2, the_coll box (p_c1 p) w = Some x1 /\ the_coll box (p_c2 p) w = Some x2 /\ c_body x1 <> c_body x2 /\
    the_body box (c_body x1) w = Some y1 /\ the_body box (c_body x2) w = Some y2 /\ b_active y1 = true /\ b_active y2 = true /\
    c_node x1 = p_b1 p /\ c_node x2 = p_b2 p /\ id = pair_id (p_b1 p) (p_b2 p).
Proof.
  intros strict single w id p H P. destruct (history_inv box overlap overlap_sym covers inflate _ _ _ H) as (I & _).
  destruct (wi_pair I _ _ P) as (_ & K0 & K1 & K2 & x1 & x2 & C1 & C2 & N1 & N2 & NE & _). destruct (wi_coll I _ _ C1) as (y1 & B1 & _). destruct (wi_coll I _ _ C2) as (y2 & B2 & _).
  exists x1, x2, y1, y2. splits; auto; [destruct (wi_active I _ _ _ C1 B1) as [K|[]]|destruct (wi_active I _ _ _ C2 B2) as [K|[]]]; apply K; congruence.
Qed.

(** C29, with at most one collision-disabling joint per pair of bodies: the bodies of such a joint
    have no tracked pair, so no contact between them is computed. *)
Theorem C29_one_joint : forall strict w j x id p x1 x2, history strict true w ->
  the_joint box j w = Some x -> j_collide x = false ->
  the_pair box id w = Some p -> the_coll box (p_c1 p) w = Some x1 -> the_coll box (p_c2 p) w = Some x2 ->
  ~ same_bodies (c_body x1) (c_body x2) (j_b1 x) (j_b2 x).
Proof.
  intros strict w j x id p x1 x2 H J JC P C1 C2 SB. destruct (history_inv box overlap overlap_sym covers inflate _ _ _ H) as (I & HJ & _).
  destruct (HJ eq_refl _ _ J JC) as (FB & _). destruct (wi_pair I _ _ P) as (_ & _ & _ & _ & z1 & z2 & D1 & D2 & _ & _ & _ & NF).
  change (the_coll box (p_c1 p) w = Some z1) in D1. change (the_coll box (p_c2 p) w = Some z2) in D2. rewrite C1 in D1. injection D1 as <-. rewrite C2 in D2. injection D2 as <-. apply NF.
  destruct SB as [(-> & ->)|(-> & ->)]; [exact FB|]. unfold forbidden in *. rewrite body_pair_sym. exact FB.
Qed.

Lemma forbidden_joint : forall w b1 b2, JInv2 box w -> forbidden box b1 b2 w = true -> exists j x, the_joint box j w = Some x /\ j_collide x = false /\ same_bodies b1 b2 (j_b1 x) (j_b2 x).
Proof.
  intros w b1 b2 H F. apply forbidden_in in F. destruct (H _ F) as (j & x & J & JC & Q). exists j, x. splits; auto. apply body_pair_inj in Q. exact Q.
Qed.

(** C63: right after the broad phase, every pair of eligible colliders whose enlarged boxes overlap
    is tracked, and every simulated pair has overlapping boxes. *)
Theorem C63_broad_phase_complete : forall single w w' c1 c2 x1 x2, history true single w -> step w (WBroadPhase _) = Ok w' ->
  the_coll box c1 w' = Some x1 -> the_coll box c2 w' = Some x2 -> c_node x1 <> -1 -> c_node x2 <> -1 ->
  eligible box w' x1 x2 -> boxes_overlap box overlap w' (c_node x1) (c_node x2) -> tracked (c_node x1) (c_node x2) w'.
Proof.
  intros single w w' c1 c2 x1 x2 H R C1 C2 N1 N2 (E1 & E2 & E3 & E4 & E5) BV. destruct (history_inv box overlap overlap_sym covers inflate _ _ _ H) as (I & _ & J2).
  destruct (broad_phase_ok box overlap overlap_sym (pending true) w I) as (w2 & R2 & I2 & EJ & EN & M2 & _). cbn [wstep] in R. rewrite R in R2. injection R2 as <-.
  destruct (wi_comp I2 _ _ _ _ C1 C2 N1 N2) as [K|[K|[K|K]]]; auto; try (rewrite M2 in K; destruct K); try discriminate.
  unfold okpair, filter_pass. splits; auto.
  - apply Z.eqb_neq in E2, E3. rewrite E2, E3. reflexivity.
  - apply Bool.orb_true_iff. exact E4.
  - destruct (forbidden box (c_body x1) (c_body x2) w') eqn:F; [|reflexivity]. exfalso. apply E5. apply forbidden_joint; [|exact F]. eapply jinv2_same; eauto.
Qed.
Theorem C63_simulated_pairs_overlap : forall strict single w w' id p, history strict single w -> step w (WBroadPhase _) = Ok w' ->
  the_pair box id w' = Some p -> p_enabled p = true -> boxes_overlap box overlap w' (p_b1 p) (p_b2 p).
Proof.
  intros strict single w w' id p H R P EN. destruct (history_inv box overlap overlap_sym covers inflate _ _ _ H) as (I & _).
  destruct (broad_phase_ok box overlap overlap_sym (pending strict) w I) as (w2 & R2 & I2 & _ & _ & _ & T2). cbn [wstep] in R. rewrite R in R2. injection R2 as <-.
  destruct (wi_test I2 _ _ P EN (T2 _ _ P EN)) as [K|[]]. exact K.
Qed.

(** A move of a body (by the user or by the integration of an awake body) leaves every one of its
    colliders with a stored box that contains the new box. *)
Theorem C63_moved_boxes_covered : (forall a, covers (inflate a) a = true) -> forall strict single w b y bx force op w' c x, history strict single w ->
  the_body box b w = Some y -> op = WSetTransform _ b bx force \/ (op = WIntegrate _ b bx force /\ b_disabled y = false) -> step w op = Ok w' ->
  In c (b_colliders y) -> the_coll box c w = Some x -> c_node x <> -1 -> exists bb, lookup Z.eqb (c_node x) (ww_tree _ w') = Some bb /\ covers bb (bx c) = true.
Proof.
  intros CI strict single w b y bx force op w' c x H B OP R IN C N. destruct (history_inv box overlap overlap_sym covers inflate _ _ _ H) as (I & _). unfold the_body, the_coll in *.
  destruct OP as [->|(-> & D)]; cbn [wstep] in R.
  - unfold set_transform in R. destruct (set_sleeping_ok box overlap overlap_sym (pending strict) none none w b false y I B) as (w1 & R1 & I1 & F1 & _). rewrite R1 in R. cbn [bind] in R.
    destruct (f_body F1 _ _ B) as (y1 & B1 & _ & _ & EC). eapply (update_body_box box overlap covers inflate CI); eauto; [congruence|]. rewrite (f_coll F1). exact C.
  - unfold integrate, get_body in R. rewrite B in R. cbn [rd bind] in R. rewrite D in R. eapply (update_body_box box overlap covers inflate CI); eauto.
Qed.

(** C64: the colliders of a body that is not active take part in no tracked pair. *)
Theorem C64_inactive_untracked_partial : forall strict single w b y c id p, history strict single w ->
  the_body box b w = Some y -> b_active y = false -> In c (b_colliders y) -> the_pair box id w = Some p -> p_c1 p <> c /\ p_c2 p <> c.
Proof.
  intros strict single w b y c id p H B A C P. destruct (C27_tracked_live _ _ _ _ _ H P) as (x1 & x2 & y1 & y2 & C1 & C2 & _ & B1 & B2 & A1 & A2 & _).
  destruct (history_inv box overlap overlap_sym covers inflate _ _ _ H) as (I & _). destruct (wi_body I _ _ _ B C) as (x & X1 & X2). unfold the_body, the_coll in *.
  split; intros <-; rewrite ?C1, ?C2 in X1; injection X1 as <-; congruence.
Qed.

(** C65: every pair of colliders waiting to be reported to the listener still exists. *)
Theorem C65_events_live : forall strict single w e, history strict single w -> In e (ww_lost _ w) ->
  (exists x, the_coll box (fst e) w = Some x) /\ (exists x, the_coll box (snd e) w = Some x).
Proof. intros strict single w e H IN. destruct (history_inv box overlap overlap_sym covers inflate _ _ _ H) as (I & _). exact (wi_lost I e IN). Qed.

(** C30: the broad phase starts to track two colliders exactly when their enlarged boxes overlap, one
    of them was created or moved since the last time, and they are eligible: different bodies,
    category bits meeting the mask bits of the other both ways, at least one convex shape, no joint
    forbidding the collision.  [eligible] is symmetric.  Nothing is asked about body types. *)
Theorem C30_creation_partial : forall strict w w' c1 c2 x1 x2, history strict true w -> step w (WBroadPhase _) = Ok w' ->
  the_coll box c1 w = Some x1 -> the_coll box c2 w = Some x2 -> c_node x1 <> -1 -> c_node x2 <> -1 -> c1 <> c2 ->
  the_pair box (pair_id (c_node x1) (c_node x2)) w = None ->
  (tracked (c_node x1) (c_node x2) w' <->
   eligible box w x1 x2 /\ boxes_overlap box overlap w (c_node x1) (c_node x2) /\ (In (c_node x1) (ww_moved _ w) \/ In (c_node x2) (ww_moved _ w))).
Proof.
  intros strict w w' c1 c2 x1 x2 H R C1 C2 N1 N2 NC NP. destruct (history_inv box overlap overlap_sym covers inflate _ _ _ H) as (I & HJ & J2).
  pose proof (broad_phase_new box overlap overlap_sym _ _ _ _ _ _ _ I R C1 C2 N1 N2 NC NP) as K. unfold the_pair in *.
  assert (T : (exists p, lookup Z.eqb (pair_id (c_node x1) (c_node x2)) (sp_pairs (ww_pairs box w')) = Some p) <-> lookup Z.eqb (pair_id (c_node x1) (c_node x2)) (sp_pairs (ww_pairs box w')) <> None).
  { generalize (lookup Z.eqb (pair_id (c_node x1) (c_node x2)) (sp_pairs (ww_pairs box w'))). intros [q|]; split; [discriminate|eauto|intros (p & Q); discriminate|intros Q; contradiction]. }
  rewrite T, K. assert (OE : okpair box x1 x2 w <-> eligible box w x1 x2); [|tauto].
  unfold okpair, eligible, filter_pass. rewrite Bool.andb_true_iff, Bool.orb_true_iff, !Bool.negb_true_iff, !Z.eqb_neq. split.
  - intros (E1 & (E2 & E3) & E4 & E5). splits; auto. intros (j & x & J & JC & SB). destruct (HJ eq_refl _ _ J JC) as (F & _). destruct SB as [(Q1 & Q2)|(Q1 & Q2)]; rewrite Q1, Q2 in E5; [congruence|]. unfold forbidden in *. rewrite body_pair_sym in F. congruence.
  - intros (E1 & E2 & E3 & E4 & E5). splits; auto. destruct (forbidden box (c_body x1) (c_body x2) w) eqn:F; [|reflexivity]. exfalso. apply E5. apply forbidden_joint; [exact J2|exact F].
Qed.
Theorem C30_symmetric : forall (w : world) x1 x2, eligible box w x1 x2 -> eligible box w x2 x1.
Proof.
  intros w x1 x2 (E1 & E2 & E3 & E4 & E5). unfold eligible. splits; auto.
  - rewrite Z.land_comm. exact E3.
  - rewrite Z.land_comm. exact E2.
  - tauto.
  - intros (j & x & J & JC & SB). apply E5. exists j, x. splits; auto. unfold same_bodies in *. tauto.
Qed.
End Properties.
Print Assumptions C23_calls_succeed.
Print Assumptions C27_simulated_when_awake.
Print Assumptions C27_tracked_live.
Print Assumptions C29_one_joint.
Print Assumptions C30_creation_partial.
Print Assumptions C30_symmetric.
Print Assumptions C63_broad_phase_complete.
Print Assumptions C63_simulated_pairs_overlap.
Print Assumptions C63_moved_boxes_covered.
Print Assumptions C64_inactive_untracked_partial.
Print Assumptions C65_events_live.

(** ** Concrete worlds: boxes are intervals, enlarged by 1 on both sides. *)
Definition ibox : Type := (Z * Z)%type.
Definition ioverlap (a b : ibox) : bool := (fst a <=? snd b) && (fst b <=? snd a).
Definition icovers (a b : ibox) : bool := (fst a <=? fst b) && (snd b <=? snd a).
Definition iinflate (a : ibox) : ibox := (fst a - 1, snd a + 1).
Lemma ioverlap_sym : forall a b, ioverlap a b = ioverlap b a.
Proof. intros a b. unfold ioverlap. apply Bool.andb_comm. Qed.
Notation run := (wrun ibox ioverlap icovers iinflate).
Notation istep := (wstep ibox ioverlap icovers iinflate).
Notation ihistory := (history ibox ioverlap icovers iinflate).
Definition at_box (b : ibox) : Z -> ibox := fun _ => b.
Definition no_force : Z -> bool := fun _ => false.

(** Two bodies, one on the other: body 1 with collider 11 (node 0), body 2 with collider 12 (node 1). *)
Definition two_bodies : list (wop ibox) :=
  [WCreateBody _ 1; WAddCollider _ 1 11 0 (0, 10) true; WCreateBody _ 2; WAddCollider _ 2 12 1 (10, 20) true].
Definition one_update (colliding : list Z) : list (wop ibox) := [WBroadPhase _; WNarrowPhase _ colliding; WLostContacts _; WReport _].
Definition id01 : Z := pair_id 0 1.

Lemma forward : forall w op ops (Q : world ibox -> Prop), ihistory true true w -> allowed _ true true w op ->
  (exists w1, istep w op = Ok w1 /\ (ihistory true true w1 -> exists w', run w1 ops = Ok w' /\ Q w')) -> exists w', run w (op :: ops) = Ok w' /\ Q w'.
Proof.
  intros w op ops Q H A (w1 & R & K). destruct (K (h_step _ _ _ _ _ _ _ _ _ H A R)) as (w' & R' & KQ). exists w'. split; [|exact KQ]. cbn [wrun]. rewrite R. exact R'.
Qed.
Ltac go H := apply forward; [exact H|repeat split; try (eexists; vm_compute; reflexivity); try (vm_compute; auto; discriminate)|eexists; split; [vm_compute; reflexivity|clear H; intros H]].
(** The hypotheses of the theorems above are met: an awake body on a sleeping one, and a world after
    the broad phase. *)
Example history_meets : exists w, run (init_world _) (two_bodies ++ one_update [id01] ++ [WSleep _ 2]) = Ok w /\ ihistory true true w /\
  the_body _ 2 w = Some (mk_body Dynamic true true true [12]) /\
  exists p, the_pair _ id01 w = Some p /\ p_enabled p = true /\ p_prev p = true.
Proof.
  assert (H : ihistory true true (init_world ibox)) by apply h_init. cbn [two_bodies one_update app].
  do 9 go H. eexists. split; [reflexivity|]. split; [exact H|]. split; [reflexivity|]. eexists. vm_compute. auto.
Qed.
Example jointed_meets : exists w, run (init_world _) (two_bodies ++ one_update [id01] ++ [WCreateJoint _ 5 1 2 false] ++ one_update []) = Ok w /\
  the_joint _ 5 w = Some (mk_joint 1 2 false) /\ the_pair _ id01 w = None.
Proof. eexists. split; [vm_compute; reflexivity|]. split; reflexivity. Qed.

(** ** Violations, each by a short history of calls. *)
(** C23: a static body with a sleeping body on it is moved. *)
Definition static_and_sleeper : list (wop ibox) := two_bodies ++ [WSetType _ 1 Static] ++ one_update [id01] ++ [WSleep _ 2].
Theorem C23_move_static_refuted : exists w, run (init_world _) static_and_sleeper = Ok w /\
  istep w (WSetTransform _ 1 (at_box (5, 15)) no_force) = Ub.
Proof. eexists. split; vm_compute; reflexivity. Qed.
Theorem C23_filter_bits_refuted : exists w, run (init_world _) static_and_sleeper = Ok w /\
  istep w (WSetMask _ 12 3) = Ub /\ istep w (WSetCategory _ 11 3) = Ub.
Proof. eexists. split; [|split]; vm_compute; reflexivity. Qed.

(** C27: the static body becomes dynamic: it is awake and its pair stays disabled. *)
Theorem C27_static_to_dynamic_refuted : exists w p y, run (init_world _) (static_and_sleeper ++ [WSetType _ 1 Dynamic]) = Ok w /\
  the_pair _ id01 w = Some p /\ p_enabled p = false /\ the_body _ 1 w = Some y /\ b_type y = Dynamic /\ b_sleeping y = false /\ b_active y = true /\
  istep w (WIntegrate _ 1 (at_box (5, 15)) no_force) = Ub.
Proof. eexists. eexists. eexists. split; [vm_compute; reflexivity|]. repeat split; vm_compute; reflexivity. Qed.
(** C27, other direction, and C30: two static bodies that overlap get a simulated pair. *)
Theorem C27_two_static_refuted : exists w p y1 y2, run (init_world _) (two_bodies ++ [WSetType _ 1 Static; WSetType _ 2 Static] ++ one_update []) = Ok w /\
  the_pair _ id01 w = Some p /\ p_enabled p = true /\ the_body _ 1 w = Some y1 /\ b_type y1 = Static /\ the_body _ 2 w = Some y2 /\ b_type y2 = Static.
Proof. eexists. eexists. eexists. eexists. split; [vm_compute; reflexivity|]. repeat split; vm_compute; reflexivity. Qed.

(** C29: two joints disable the collision; destroying one of them enables it again. *)
Theorem C29_two_joints_refuted : exists w p,
  run (init_world _) (two_bodies ++ [WCreateJoint _ 5 1 2 false; WCreateJoint _ 6 1 2 false] ++ one_update [] ++ [WDestroyJoint _ 5; WSetTransform _ 2 (at_box (9, 30)) no_force] ++ one_update [id01]) = Ok w /\
  the_joint _ 6 w = Some (mk_joint 1 2 false) /\ the_pair _ id01 w = Some p /\ p_enabled p = true /\ p_prev p = true.
Proof. eexists. eexists. split; [vm_compute; reflexivity|]. repeat split; vm_compute; reflexivity. Qed.

(** C63: after the last joint that disabled the collision of two resting bodies is destroyed, their
    overlap goes unnoticed. *)
Theorem C63_destroyed_joint_refuted : exists w x1 x2,
  run (init_world _) (two_bodies ++ [WCreateJoint _ 5 1 2 false] ++ one_update [] ++ [WDestroyJoint _ 5] ++ one_update []) = Ok w /\
  the_coll _ 11 w = Some x1 /\ the_coll _ 12 w = Some x2 /\ eligible _ w x1 x2 /\ boxes_overlap _ ioverlap w (c_node x1) (c_node x2) /\
  the_pair _ (pair_id (c_node x1) (c_node x2)) w = None.
Proof.
  eexists. eexists. eexists. split; [vm_compute; reflexivity|]. split; [vm_compute; reflexivity|]. split; [vm_compute; reflexivity|]. splits; try (vm_compute; reflexivity).
  - unfold eligible. cbn. splits; auto; try discriminate. intros (j & x & J & _). vm_compute in J. destruct j; discriminate.
  - exists (-1, 11), (9, 21). vm_compute. auto.
Qed.
(** C63: changed filter bits of colliders that overlap already change nothing. *)
Theorem C63_filter_bits_refuted : exists w p x1 x2,
  run (init_world _) (two_bodies ++ one_update [] ++ [WSetMask _ 11 0; WSetMask _ 12 0] ++ one_update [id01]) = Ok w /\
  the_coll _ 11 w = Some x1 /\ the_coll _ 12 w = Some x2 /\ c_mask x1 = 0 /\ c_mask x2 = 0 /\
  the_pair _ id01 w = Some p /\ p_enabled p = true /\ p_prev p = true.
Proof. eexists. eexists. eexists. eexists. split; [vm_compute; reflexivity|]. repeat split; vm_compute; reflexivity. Qed.

(** C64: a deactivated body is simulated again after a change of type, and an activated body stays
    asleep. *)
Definition nodes (c : Z) : Z := c + 100.
Theorem C64_inactive_simulated_refuted : exists w y,
  run (init_world _) (two_bodies ++ [WSetActive _ 1 false nodes (at_box (0, 10)); WSetType _ 1 Kinematic]) = Ok w /\
  the_body _ 1 w = Some y /\ b_active y = false /\ b_disabled y = false.
Proof. eexists. eexists. split; [vm_compute; reflexivity|]. repeat split; vm_compute; reflexivity. Qed.
Theorem C64_reactivated_asleep_refuted : exists w y,
  run (init_world _) (two_bodies ++ [WSetActive _ 1 false nodes (at_box (0, 10)); WSetActive _ 1 true nodes (at_box (0, 10))]) = Ok w /\
  the_body _ 1 w = Some y /\ b_active y = true /\ b_sleeping y = true /\ b_disabled y = true.
Proof. eexists. eexists. split; [vm_compute; reflexivity|]. repeat split; vm_compute; reflexivity. Qed.

(** C65: a joint between touching bodies records a lost contact; if a collider is destroyed before the
    next report, the report reads a collider that is gone. *)
Theorem C65_lost_contact_refuted : exists w,
  run (init_world _) (two_bodies ++ one_update [id01] ++ [WCreateJoint _ 5 1 2 false; WRemoveCollider _ 12; WBroadPhase _; WNarrowPhase _ []; WLostContacts _]) = Ok w /\
  istep w (WReport _) = Ub.
Proof. eexists. split; vm_compute; reflexivity. Qed.
Print Assumptions C23_move_static_refuted.
Print Assumptions C23_filter_bits_refuted.
Print Assumptions C27_static_to_dynamic_refuted.
Print Assumptions C27_two_static_refuted.
Print Assumptions C29_two_joints_refuted.
Print Assumptions C63_destroyed_joint_refuted.
Print Assumptions C63_filter_bits_refuted.
Print Assumptions C64_inactive_simulated_refuted.
Print Assumptions C64_reactivated_asleep_refuted.
Print Assumptions C65_lost_contact_refuted.
