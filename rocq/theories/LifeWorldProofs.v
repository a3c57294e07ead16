From Coq Require Import Permutation FinFun.
From Verif Require Import Base LifeModel LifeSpec LifeProofs.

Lemma objects_numbers : forall w, map number (objects w) = bodies w ++ map j_id (joints w) ++ map number (w_gone w).
Proof.
  intros w. unfold objects. rewrite !map_app, !map_map. cbn [number]. now rewrite map_id.
Qed.

Lemma NoDup_app_l : forall A (l m : list A), NoDup (l ++ m) -> NoDup l.
Proof. intros A l m. induction l as [|x l IH]; cbn; intros H; [constructor|]. inversion_clear H. constructor; auto. rewrite in_app_iff in H0. tauto. Qed.
Lemma NoDup_app_r : forall A (l m : list A), NoDup (l ++ m) -> NoDup m.
Proof. intros A l m. induction l as [|x l IH]; cbn; intros H; auto. inversion_clear H. auto. Qed.

Lemma linked_nodup_bodies : forall w, linked w -> NoDup (bodies w).
Proof. intros w L. pose proof (lk_objects w L) as H. rewrite objects_numbers in H. eapply NoDup_app_l; eauto. Qed.
Lemma linked_nodup_joints : forall w, linked w -> NoDup (map j_id (joints w)).
Proof.
  intros w L. pose proof (lk_objects w L) as H. rewrite objects_numbers in H.
  eapply NoDup_app_l, NoDup_app_r; eauto.
Qed.

Lemma nodup_map_inj : forall A B (f : A -> B) l a b, NoDup (map f l) -> In a l -> In b l -> f a = f b -> a = b.
Proof.
  intros A B f l. induction l as [|x l IH]; cbn; intros a b H Ia Ib E; [contradiction|].
  inversion_clear H. destruct Ia as [<-|Ia], Ib as [<-|Ib]; auto.
  - exfalso. apply H0. rewrite E. now apply in_map.
  - exfalso. apply H0. rewrite <- E. now apply in_map.
Qed.

Lemma flat_map_perm : forall A B (f : A -> list B) l m, Permutation l m -> Permutation (flat_map f l) (flat_map f m).
Proof.
  intros A B f l m P. induction P; cbn; auto.
  - now apply Permutation_app_head.
  - rewrite !app_assoc. apply Permutation_app_tail, Permutation_app_comm.
  - etransitivity; eauto.
Qed.

Lemma filter_perm : forall A (f : A -> bool) l m, Permutation l m -> Permutation (filter f l) (filter f m).
Proof.
  intros A f l m P. induction P; cbn; auto.
  - destruct (f x); auto.
  - destruct (f x), (f y); auto. apply perm_swap.
  - etransitivity; eauto.
Qed.

(** a new arrangement of the same things is linked *)
Lemma linked_perm : forall w w', linked w -> Permutation (links w) (links w') -> Permutation (joints w) (joints w') ->
  w_array w' = w_array w -> w_next w' = w_next w -> w_gone w' = w_gone w -> bounded w' ->
  enabled (w_joints w') <= length (slots (w_joints w')) -> linked w'.
Proof.
  intros w w' L PL PJ EA EN EG B BJ.
  assert (PB : Permutation (bodies w) (bodies w')) by (rewrite <- !links_bodies; now apply Permutation_map).
  assert (PO : Permutation (objects w) (objects w')).
  { unfold objects. rewrite EG. apply Permutation_app; [now apply Permutation_map|].
    apply Permutation_app_tail. now apply Permutation_map. }
  constructor.
  - eapply Permutation_NoDup; [apply Permutation_map, PO|apply L].
  - intros o Ho. rewrite EN. apply L. apply Permutation_in with (objects w'); auto. now symmetry.
  - rewrite EA. transitivity (bodies w); [apply L|auto].
  - intros y Hy. destruct (lk_ends w L y) as (A1 & A2).
    { apply Permutation_in with (joints w'); auto. now symmetry. }
    split; eapply Permutation_in; eauto.
  - intros x Hx. assert (In (lk x) (links w)).
    { apply Permutation_in with (links w'); [now symmetry|]. now apply in_map. }
    apply in_map_iff in H. destruct H as (x0 & E0 & H0). unfold lk in E0. injection E0 as E1 E2.
    rewrite <- E1, <- E2. transitivity (flat_map (ends (b_id x0)) (joints w)); [now apply L|].
    now apply flat_map_perm.
  - split; auto.
Qed.

Lemma linked_same : forall w w', linked w -> same w w' -> linked w'.
Proof.
  intros w w' L S. destruct S as [A1 A2 A3 A4 A5 A6]. eapply linked_perm; eauto.
  - unfold joints. now rewrite A2.
  - rewrite A2. apply L.
Qed.

Lemma linked_bounded : forall w, linked w -> bounded w.
Proof. intros w L. apply L. Qed.

(* ---------- joints of bodies ---------- *)
Lemma remove_joint_from_ok : forall b j w, NoDup (bodies w) -> In b (bodies w) ->
  (forall x, In x (slots (w_bodies w)) -> b_id x = b -> In j (b_joints x)) ->
  exists w', remove_joint_from b j w = Ok w' /\ bodies w' = bodies w /\ enabled (w_bodies w') = enabled (w_bodies w) /\
    length (slots (w_bodies w')) = length (slots (w_bodies w)) /\
    w_joints w' = w_joints w /\ w_array w' = w_array w /\ w_next w' = w_next w /\ w_gone w' = w_gone w /\
    (all_awake w -> all_awake w') /\
    (forall x', In x' (slots (w_bodies w')) -> exists x, In x (slots (w_bodies w)) /\ b_id x' = b_id x /\
       (b_id x = b -> Permutation (b_joints x) (j :: b_joints x')) /\ (b_id x <> b -> b_joints x' = b_joints x)).
Proof.
  intros b j w ND H HJ. destruct (body_at b w H) as (i & x & E & N & I & G).
  unfold remove_joint_from. rewrite G. cbn [bind].
  pose proof (nth_error_In _ _ N) as Hx.
  destruct (array_remove_ok j (b_joints x) (HJ x Hx I)) as (l & El & Pl). rewrite El. cbn [bind].
  rewrite (put_body_ok b i x (with_joints l x) w E N I I).
  eexists. split; [reflexivity|]. split; [apply (put_ids i x); auto|]. cbn [set_bodies w_bodies enabled slots w_joints w_array w_next w_gone].
  rewrite set_nth_length. do 6 (split; [reflexivity|]). split.
  - intros AW x' Hx'. cbn [w_bodies set_bodies slots] in Hx'. apply set_nth_in in Hx'. destruct Hx' as [->|(k & Nk & Hk)].
    + cbn. apply AW. auto.
    + apply AW. eapply nth_error_In; eauto.
  - intros x' Hx'. apply set_nth_in in Hx'. destruct Hx' as [->|(k & Nk & Hk)].
    + exists x. cbn. split; [auto|]. split; [auto|]. split; [auto|contradiction].
    + exists x'. split; [eapply nth_error_In; eauto|]. split; [auto|]. split; [|auto].
      intros Eb. exfalso. apply Nk. apply (proj1 (NoDup_nth_error (bodies w)) ND).
      * apply nth_error_Some. unfold bodies. rewrite nth_error_map, Hk. discriminate.
      * unfold bodies. rewrite !nth_error_map, Hk, N. cbn. congruence.
Qed.

Lemma add_joint_to_ok : forall b j w, NoDup (bodies w) -> In b (bodies w) ->
  exists w', add_joint_to b j w = Ok w' /\ bodies w' = bodies w /\ enabled (w_bodies w') = enabled (w_bodies w) /\
    length (slots (w_bodies w')) = length (slots (w_bodies w)) /\
    w_joints w' = w_joints w /\ w_array w' = w_array w /\ w_next w' = w_next w /\ w_gone w' = w_gone w /\
    (forall x', In x' (slots (w_bodies w')) -> exists x, In x (slots (w_bodies w)) /\ b_id x' = b_id x /\
       (b_id x = b -> Permutation (b_joints x') (j :: b_joints x)) /\ (b_id x <> b -> b_joints x' = b_joints x)).
Proof.
  intros b j w ND H. destruct (body_at b w H) as (i & x & E & N & I & G).
  unfold add_joint_to. rewrite G. cbn [bind].
  pose proof (nth_error_In _ _ N) as Hx.
  rewrite (put_body_ok b i x (with_joints (b_joints x ++ [j]) x) w E N I I).
  eexists. split; [reflexivity|]. split; [apply (put_ids i x); auto|]. cbn [set_bodies w_bodies enabled slots w_joints w_array w_next w_gone].
  rewrite set_nth_length. do 6 (split; [reflexivity|]).
  intros x' Hx'. apply set_nth_in in Hx'. destruct Hx' as [->|(k & Nk & Hk)].
  - exists x. cbn. split; [auto|]. split; [auto|]. split; [|contradiction]. intros _.
    apply Permutation_sym, Permutation_cons_append.
  - exists x'. split; [eapply nth_error_In; eauto|]. split; [auto|]. split; [|auto].
    intros Eb. exfalso. apply Nk. apply (proj1 (NoDup_nth_error (bodies w)) ND).
    + apply nth_error_Some. unfold bodies. rewrite nth_error_map, Hk. discriminate.
    + unfold bodies. rewrite !nth_error_map, Hk, N. cbn. congruence.
Qed.

Lemma joint_at : forall j w, In j (map j_id (joints w)) -> exists i y,
  slot_of (is_joint j) (slots (w_joints w)) = Some i /\ nth_error (slots (w_joints w)) i = Some y /\
  j_id y = j /\ In y (joints w) /\ get_joint j w = Ok y.
Proof.
  intros j w H. apply in_map_iff in H. destruct H as (y0 & E0 & H0).
  destruct (slot_of_in _ (is_joint j) _ y0 H0) as (i & y & E & N & F).
  { unfold is_joint. rewrite E0. apply Nat.eqb_refl. }
  unfold joints in E, N. exists i, y. unfold get_joint. rewrite E. cbn [rd bind]. rewrite N. cbn [rd].
  unfold is_joint in F. apply Nat.eqb_eq in F. split; [auto|]. split; [auto|]. split; [auto|]. split; [|auto].
  eapply nth_error_In; eauto.
Qed.

Definition one (b b' j : nat) : list nat := if Nat.eqb b' b then [j] else [].

Lemma ends_one : forall b y, ends b y = one b (j_body1 y) (j_id y) ++ one b (j_body2 y) (j_id y).
Proof. reflexivity. Qed.

Lemma destroy_joint_ok : forall y w, linked w -> In y (joints w) ->
  exists w', destroy_joint (j_id y) w = Ok w' /\ linked w' /\ Permutation (joints w) (y :: joints w') /\
    Permutation (bodies w) (bodies w') /\ w_array w' = w_array w /\ w_next w' = w_next w /\
    w_gone w' = OJoint (j_id y) :: w_gone w /\ keeps w w' /\
    (all_awake w -> bodies w' = bodies w /\ all_awake w').
Proof.
  intros y w L Hy. set (j := j_id y).
  destruct (joint_at j w) as (i & y' & Es & Ey & Ej & Iy & G). { now apply in_map. }
  assert (y' = y) as ->.
  { apply (nodup_map_inj _ _ j_id (joints w)); auto. now apply linked_nodup_joints. }
  destruct (lk_ends w L y Hy) as (B1 & B2).
  unfold destroy_joint. rewrite G. cbn [bind].
  destruct (body_at _ w B1) as (i1 & x1 & _ & _ & _ & G1). rewrite G1. cbn [bind].
  destruct (body_at _ w B2) as (i2 & x2 & _ & _ & _ & G2). rewrite G2. cbn [bind].
  destruct (set_sleeping_ok (j_body1 y) false w B1 (linked_bounded _ L)) as (w1 & E1 & S1 & K1 & A1).
  rewrite E1. cbn [bind].
  destruct (set_sleeping_ok (j_body2 y) false w1) as (w2 & E2 & S2 & K2 & A2).
  { apply (Permutation_in _ (same_bodies _ _ S1)). auto. } { apply S1. }
  rewrite E2. cbn [bind].
  pose proof (same_trans _ _ _ S1 S2) as S. pose proof (linked_same _ _ L S) as L2.
  pose proof (same_bodies _ _ S) as PB.
  pose proof (linked_nodup_bodies _ L2) as ND2.
  assert (J2 : w_joints w2 = w_joints w) by apply S.
  assert (PJ0 : exists p, packed_remove i (w_joints w) = Ok p /\ Permutation (slots (w_joints w)) (y :: slots p) /\ enabled p <= length (slots p)).
  { apply packed_remove_ok; auto. apply L. }
  destruct PJ0 as (p & Ep & PJ & Bp).
  assert (LL : forall x, In x (slots (w_bodies w2)) ->
    Permutation (b_joints x) (one (b_id x) (j_body1 y) j ++ one (b_id x) (j_body2 y) j ++ flat_map (ends (b_id x)) (slots p))).
  { intros x Hx. rewrite (lk_lists _ L2 x Hx). unfold joints. rewrite J2. rewrite (flat_map_perm _ _ _ _ _ PJ).
    cbn [flat_map]. rewrite ends_one, <- app_assoc. apply Permutation_refl. }
  destruct (remove_joint_from_ok (j_body1 y) j w2) as (w3 & E3 & Q1 & Q2 & Q3 & Q4 & Q5 & Q6 & Q7 & Q8 & Q9); auto.
  { apply (Permutation_in _ PB). auto. }
  { intros x Hx Ix. apply (Permutation_in _ (Permutation_sym (LL x Hx))). unfold one at 1. rewrite Ix, Nat.eqb_refl. now left. }
  rewrite E3. cbn [bind].
  assert (LL3 : forall x, In x (slots (w_bodies w3)) ->
    Permutation (b_joints x) (one (b_id x) (j_body2 y) j ++ flat_map (ends (b_id x)) (slots p))).
  { intros x' Hx'. destruct (Q9 x' Hx') as (x & Hx & I & Z1 & Z2). pose proof (LL x Hx) as P. rewrite I.
    destruct (Nat.eq_dec (b_id x) (j_body1 y)) as [Eb|Nb].
    - apply Permutation_cons_inv with (a := j). rewrite <- (Z1 Eb). rewrite P. unfold one at 1.
      rewrite Eb, Nat.eqb_refl. apply Permutation_refl.
    - rewrite (Z2 Nb), P. unfold one at 1. destruct (Nat.eqb_spec (j_body1 y) (b_id x)); [congruence|]. apply Permutation_refl. }
  destruct (remove_joint_from_ok (j_body2 y) j w3) as (w4 & E4 & R1 & R2 & R3 & R4 & R5 & R6 & R7 & R8 & R9).
  { rewrite Q1; auto. }
  { rewrite Q1. apply (Permutation_in _ PB). auto. }
  { intros x Hx Ix. apply (Permutation_in _ (Permutation_sym (LL3 x Hx))). unfold one at 1. rewrite Ix, Nat.eqb_refl. now left. }
  rewrite E4. cbn [bind].
  assert (LL4 : forall x, In x (slots (w_bodies w4)) ->
    Permutation (b_joints x) (flat_map (ends (b_id x)) (slots p))).
  { intros x' Hx'. destruct (R9 x' Hx') as (x & Hx & I & Z1 & Z2). pose proof (LL3 x Hx) as P. rewrite I.
    destruct (Nat.eq_dec (b_id x) (j_body2 y)) as [Eb|Nb].
    - apply Permutation_cons_inv with (a := j). rewrite <- (Z1 Eb). rewrite P. unfold one at 1.
      rewrite Eb, Nat.eqb_refl. apply Permutation_refl.
    - rewrite (Z2 Nb), P. unfold one at 1. destruct (Nat.eqb_spec (j_body2 y) (b_id x)); [congruence|]. apply Permutation_refl. }
  rewrite R4, Q4, J2, Es. cbn [rd bind]. rewrite Ep. cbn [bind].
  eexists. split; [reflexivity|].
  assert (EB : bodies w4 = bodies w2) by congruence.
  assert (PO : Permutation (objects w) (objects (release (OJoint j) (set_joints p w4)))).
  { unfold objects. cbn [release set_joints w_gone]. rewrite R7, Q7, (sm_gone _ _ S).
    change (bodies (release (OJoint j) (set_joints p w4))) with (bodies w4). rewrite EB.
    change (joints (release (OJoint j) (set_joints p w4))) with (slots p).
    apply Permutation_app; [now apply Permutation_map|].
    transitivity (map (fun y0 => OJoint (j_id y0)) (y :: slots p) ++ w_gone w).
    - apply Permutation_app_tail, Permutation_map. exact PJ.
    - cbn [map app]. fold j. apply Permutation_middle. }
  split; [|split; [|split; [|split; [|split; [|split; [|split]]]]]].
  - constructor.
    + eapply Permutation_NoDup; [apply Permutation_map, PO|apply L].
    + intros o Ho. cbn [release set_joints w_next]. rewrite R6, Q6, (sm_next _ _ S). apply L.
      eapply Permutation_in; [apply Permutation_sym, PO|auto].
    + change (bodies (release (OJoint j) (set_joints p w4))) with (bodies w4). cbn [release set_joints w_array].
      rewrite R5, Q5, EB, (sm_array _ _ S). transitivity (bodies w); [apply L|auto].
    + intros z Hz. change (bodies (release (OJoint j) (set_joints p w4))) with (bodies w4). rewrite EB.
      destruct (lk_ends w L z) as (U & V).
      { apply (Permutation_in _ (Permutation_sym PJ)). now right. }
      split; apply (Permutation_in _ PB); auto.
    + intros x Hx. apply LL4. exact Hx.
    + cbn [release set_joints w_bodies w_joints]. rewrite R2, R3, Q2, Q3. split; [apply S2|exact Bp].
  - exact PJ.
  - change (bodies (release (OJoint j) (set_joints p w4))) with (bodies w4). now rewrite EB.
  - cbn [release set_joints w_array]. rewrite R5, Q5. apply S.
  - cbn [release set_joints w_next]. rewrite R6, Q6. apply S.
  - cbn [release set_joints w_gone]. rewrite R7, Q7, (sm_gone _ _ S). reflexivity.
  - apply keeps_trans with w2; [eapply keeps_trans; eauto|]. split.
    + cbn [release set_joints w_bodies]. rewrite R2, Q2. auto.
    + intros k Hk. change (bodies (release (OJoint j) (set_joints p w4))) with (bodies w4). now rewrite EB.
  - intros AW. pose proof (A1 eq_refl AW) as ->. pose proof (A2 eq_refl AW) as ->. split; [exact EB|].
    intros x Hx. apply (R8 (Q8 AW)). exact Hx.
Qed.

(* ---------- the loop over the joints of one body ---------- *)
Definition loop_ok (b i : nat) (w : world) : Prop :=
  nth_error (bodies w) i = Some b /\ (i < enabled (w_bodies w) \/ all_awake w).

Lemma loop_ok_keeps : forall b i w w', loop_ok b i w -> keeps w w' ->
  (all_awake w -> bodies w' = bodies w /\ all_awake w') -> loop_ok b i w'.
Proof.
  intros b i w w' (N & [E|AW]) (K1 & K2) A.
  - split; [rewrite K2; auto|]. left. lia.
  - destruct (A AW) as (EB & AW'). split; [now rewrite EB|auto].
Qed.

Lemma destroy_joints_ok : forall fuel b i w, linked w -> loop_ok b i w -> length (joints w) < fuel ->
  exists w', destroy_joints_at fuel i w = Ok w' /\ linked w' /\ loop_ok b i w' /\
    Permutation (bodies w) (bodies w') /\ w_array w' = w_array w /\ w_next w' = w_next w /\
    Permutation (joints w') (filter (fun y => negb (involves b y)) (joints w)) /\
    Permutation (w_gone w') (map (fun y => OJoint (j_id y)) (filter (involves b) (joints w)) ++ w_gone w) /\
    (all_awake w -> all_awake w').
Proof.
  induction fuel as [|fuel IH]; intros b i w L O Hf; [lia|].
  cbn [destroy_joints_at]. destruct O as (N & O).
  unfold bodies in N. rewrite nth_error_map in N.
  destruct (nth_error (slots (w_bodies w)) i) as [x|] eqn:Ex; [|discriminate].
  cbn [option_map] in N. injection N as Ib. cbn [rd bind].
  pose proof (lk_lists w L x (nth_error_In _ _ Ex)) as P. rewrite Ib in P.
  assert (NI : forall y, In y (joints w) -> involves b y = true -> In (j_id y) (b_joints x)).
  { intros y Hy V. apply (Permutation_in _ (Permutation_sym P)). apply in_flat_map. exists y. split; [auto|].
    unfold ends. unfold involves in V. apply orb_true_iff in V. apply in_app_iff. destruct V as [V|V]; rewrite V; cbn; auto. }
  assert (OO : loop_ok b i w). { split; auto. unfold bodies. rewrite nth_error_map, Ex. cbn. now rewrite Ib. }
  destruct (b_joints x) as [|j r] eqn:Ej.
  - exists w. split; [auto|]. split; [auto|]. split; [auto|]. do 3 (split; [auto|]).
    assert (F : forall y, In y (joints w) -> involves b y = false).
    { intros y Hy. destruct (involves b y) eqn:V; auto. exfalso. apply (NI y Hy V). }
    clear - F. assert (filter (involves b) (joints w) = [] /\ filter (fun y => negb (involves b y)) (joints w) = joints w) as (-> & ->).
    { induction (joints w) as [|y l IH]; cbn; auto. rewrite (F y) by (now left). cbn.
      destruct IH as (A & B). { intros; apply F; now right. } rewrite A, B. auto. }
    cbn. auto.
  - assert (In j (flat_map (ends b) (joints w))) as Hj by (apply (Permutation_in _ P); now left).
    apply in_flat_map in Hj. destruct Hj as (y & Hy & Hj).
    assert (V : involves b y = true /\ j_id y = j).
    { unfold ends in Hj. unfold involves. apply in_app_iff in Hj.
      destruct (Nat.eqb (j_body1 y) b), (Nat.eqb (j_body2 y) b); cbn in Hj; intuition. }
    destruct V as (V & <-).
    destruct (destroy_joint_ok y w L Hy) as (w1 & E1 & L1 & PJ & PB & EA & EN & EG & K & A).
    rewrite E1. cbn [bind].
    destruct (IH b i w1 L1) as (w2 & E2 & L2 & O2 & PB2 & EA2 & EN2 & PJ2 & PG2 & A2).
    { eapply loop_ok_keeps; eauto. }
    { apply Permutation_length in PJ. cbn [length] in PJ. lia. }
    exists w2. split; [auto|]. split; [auto|]. split; [auto|].
    split; [now transitivity (bodies w1)|]. split; [congruence|]. split; [congruence|].
    assert (F1 : Permutation (filter (fun z => negb (involves b z)) (joints w)) (filter (fun z => negb (involves b z)) (joints w1))).
    { rewrite (filter_perm _ _ _ _ PJ). cbn [filter]. rewrite V. cbn. auto. }
    assert (F2 : Permutation (filter (involves b) (joints w)) (y :: filter (involves b) (joints w1))).
    { rewrite (filter_perm _ _ _ _ PJ). cbn [filter]. rewrite V. auto. }
    split; [now rewrite F1|]. split.
    + rewrite PG2, EG. rewrite F2. cbn [map app]. apply Permutation_sym, Permutation_middle.
    + intros AW. apply A2. now apply A.
Qed.

Lemma filter_split : forall A (f : A -> bool) l, Permutation l (filter f l ++ filter (fun y => negb (f y)) l).
Proof.
  intros A f l. induction l as [|x l IH]; cbn; auto. destruct (f x); cbn; auto.
  rewrite <- Permutation_middle. auto.
Qed.

Lemma destroy_body_ok : forall b w, linked w -> In b (bodies w) -> steady b w ->
  exists w', destroy_body b w = Ok w' /\ linked w' /\
    Permutation (bodies w) (b :: bodies w') /\ w_next w' = w_next w /\
    Permutation (w_array w) (b :: w_array w') /\
    Permutation (joints w') (filter (fun y => negb (involves b y)) (joints w)) /\
    Permutation (w_gone w') (OBody b :: map (fun y => OJoint (j_id y)) (filter (involves b) (joints w)) ++ w_gone w) /\
    Permutation (objects w) (objects w') /\
    (all_awake w -> all_awake w').
Proof.
  intros b w L Hb U. destruct (body_at b w Hb) as (i & x & Es & Ex & Ib & _).
  unfold destroy_body. rewrite Es. cbn [bind].
  assert (O : loop_ok b i w).
  { assert (NB : nth_error (bodies w) i = Some b) by (unfold bodies; rewrite nth_error_map, Ex; cbn; congruence).
    split; auto. destruct U as [(k & Nk & Lk)|AW]; auto. left.
    assert (i = k) as ->; auto. apply (proj1 (NoDup_nth_error (bodies w)) (linked_nodup_bodies _ L)); [|congruence].
    apply nth_error_Some. congruence. }
  destruct (destroy_joints_ok (S (length (slots (w_joints w)))) b i w L O) as (w1 & E1 & L1 & O1 & PB1 & EA1 & EN1 & PJ1 & PG1 & A1).
  { unfold joints. lia. }
  rewrite E1. cbn [bind].
  assert (Hb1 : In b (bodies w1)) by (apply (Permutation_in _ PB1); auto).
  destruct (body_at b w1 Hb1) as (i1 & x1 & Es1 & Ex1 & Ib1 & _). rewrite Es1. cbn [bind].
  destruct (packed_remove_ok i1 x1 (w_bodies w1) Ex1) as (p & Ep & PP & Bp). { apply L1. }
  rewrite Ep. cbn [bind].
  destruct (array_remove_ok b (w_array w1)) as (l & El & Pl).
  { apply (Permutation_in _ (Permutation_sym (lk_array _ L1))). auto. }
  rewrite El. cbn [bind]. eexists. split; [reflexivity|].
  set (w' := release (OBody b) (set_array l (set_bodies p w1))).
  assert (PB : Permutation (bodies w1) (b :: bodies w')).
  { unfold bodies. rewrite (Permutation_map b_id PP). cbn [map]. rewrite Ib1. reflexivity. }
  assert (PO : Permutation (objects w) (objects w')).
  { transitivity (objects w1).
    - unfold objects. rewrite PG1. apply Permutation_app; [now apply Permutation_map|].
      rewrite PJ1. rewrite app_assoc. apply Permutation_app_tail. rewrite <- map_app. apply Permutation_map.
      rewrite (filter_split _ (involves b) (joints w)) at 1. apply Permutation_app_comm.
    - unfold objects. change (joints w') with (joints w1). cbn [w' release set_array set_bodies w_gone].
      rewrite PB. cbn [map app]. rewrite !app_assoc. apply Permutation_middle. }
  split; [|split; [|split; [|split; [|split; [|split; [|split]]]]]].
  - constructor.
    + eapply Permutation_NoDup; [apply Permutation_map, PO|apply L].
    + intros o Ho. change (w_next w') with (w_next w1). rewrite EN1. apply L.
      eapply Permutation_in; [apply Permutation_sym, PO|auto].
    + apply Permutation_cons_inv with (a := b). change (w_array w') with l. rewrite <- Pl, <- PB. apply L1.
    + intros y Hy. change (joints w') with (joints w1) in Hy.
      pose proof (Permutation_in _ PJ1 Hy) as F. apply filter_In in F. destruct F as (_ & V).
      apply negb_true_iff in V. unfold involves in V. apply orb_false_iff in V. destruct V as (V1 & V2).
      apply Nat.eqb_neq in V1, V2. destruct (lk_ends _ L1 y Hy) as (U1 & U2).
      apply (Permutation_in _ PB) in U1, U2. cbn in U1, U2. split; [destruct U1|destruct U2]; auto; congruence.
    + intros z Hz. change (joints w') with (joints w1). apply L1.
      apply (Permutation_in _ (Permutation_sym PP)). now right.
    + split; [exact Bp|apply L1].
  - now rewrite PB1.
  - exact EN1.
  - change (w_array w') with l. now rewrite <- EA1.
  - exact PJ1.
  - cbn [w' release set_array set_bodies w_gone]. now apply perm_skip.
  - exact PO.
  - intros AW z Hz. apply (A1 AW). apply (Permutation_in _ (Permutation_sym PP)). now right.
Qed.

(* ---------- the whole world ---------- *)
Lemma joint_objects : forall y w w', Permutation (joints w) (y :: joints w') -> Permutation (bodies w) (bodies w') ->
  w_gone w' = OJoint (j_id y) :: w_gone w -> Permutation (objects w) (objects w').
Proof.
  intros y w w' PJ PB EG. unfold objects. rewrite EG. apply Permutation_app; [now apply Permutation_map|].
  rewrite (Permutation_map (fun z => OJoint (j_id z)) PJ). cbn [map app]. apply Permutation_middle.
Qed.

Lemma world_joints_ok : forall fuel i w, linked w -> all_awake w -> length (joints w) < fuel ->
  exists w', world_joints_loop fuel i w = Ok w' /\ linked w' /\ all_awake w' /\ Permutation (objects w) (objects w').
Proof.
  induction fuel as [|fuel IH]; intros i w L AW Hf; [lia|]. cbn [world_joints_loop].
  destruct (Nat.ltb_spec i (length (slots (w_joints w)))) as [Hi|Hi].
  2:{ exists w. auto. }
  destruct (nth_error (slots (w_joints w)) i) as [y|] eqn:Ey.
  2:{ apply nth_error_None in Ey. lia. }
  cbn [rd bind].
  destruct (destroy_joint_ok y w L (nth_error_In _ _ Ey)) as (w1 & E1 & L1 & PJ & PB & EA & EN & EG & K & A).
  rewrite E1. cbn [bind]. destruct (A AW) as (_ & AW1).
  destruct (IH (S i) w1 L1 AW1) as (w2 & E2 & L2 & AW2 & PO).
  { apply Permutation_length in PJ. cbn [length] in PJ. lia. }
  exists w2. split; [auto|]. split; [auto|]. split; [auto|].
  transitivity (objects w1); auto. eapply joint_objects; eauto.
Qed.

Lemma world_bodies_ok : forall n w, linked w -> all_awake w -> length (w_array w) = n ->
  exists w', world_bodies_loop n w = Ok w' /\ linked w' /\ w_array w' = [] /\ Permutation (objects w) (objects w').
Proof.
  induction n as [|n IH]; intros w L AW Hn; cbn [world_bodies_loop].
  - exists w. split; [auto|]. split; [auto|]. split; [now apply length_zero_iff_nil|auto].
  - destruct (nth_error (w_array w) n) as [b|] eqn:Eb.
    2:{ apply nth_error_None in Eb. lia. }
    cbn [rd bind].
    destruct (destroy_body_ok b w L) as (w1 & E1 & L1 & PB & EN & PA & PJ & PG & PO & A).
    { apply (Permutation_in _ (lk_array _ L)). eapply nth_error_In; eauto. }
    { now right. }
    rewrite E1. cbn [bind].
    destruct (IH w1 L1 (A AW)) as (w2 & E2 & L2 & EA2 & PO2).
    { apply Permutation_length in PA. cbn [length] in PA. lia. }
    exists w2. split; [auto|]. split; [auto|]. split; [auto|]. now transitivity (objects w1).
Qed.

Lemma destroy_world_ok : forall w, linked w -> all_awake w ->
  exists w', destroy_world w = Ok w' /\ bodies w' = [] /\ joints w' = [] /\ w_array w' = [] /\
    Permutation (w_gone w') (objects w).
Proof.
  intros w L AW. unfold destroy_world.
  destruct (world_joints_ok (S (length (slots (w_joints w)))) 0 w L AW) as (w1 & E1 & L1 & AW1 & PO1).
  { unfold joints. lia. }
  rewrite E1. cbn [bind].
  destruct (world_bodies_ok _ w1 L1 AW1 eq_refl) as (w2 & E2 & L2 & EA2 & PO2).
  assert (B0 : bodies w2 = []).
  { apply Permutation_nil. rewrite <- EA2. apply L2. }
  assert (J0 : joints w2 = []).
  { destruct (joints w2) as [|y r] eqn:Ey; auto. exfalso.
    destruct (lk_ends _ L2 y) as (U & _); [rewrite Ey; now left|]. rewrite B0 in U. exact U. }
  exists w2. split; [auto|]. split; [auto|]. split; [auto|]. split; [auto|].
  rewrite PO1, PO2. unfold objects. rewrite B0, J0. auto.
Qed.

(* ---------- histories ---------- *)
Lemma empty_linked : linked empty_world.
Proof. constructor; cbn; auto; try contradiction. constructor. Qed.

Lemma create_body_ok : forall w, linked w -> exists w', create_body w = Ok w' /\ linked w'.
Proof.
  intros w L. unfold create_body. eexists. split; [reflexivity|].
  set (n := w_next w). set (x := mk_body n false false true []).
  set (w' := mk_world _ _ _ _ _).
  pose proof (packed_add_perm false x (w_bodies w)) as PP.
  assert (PB : Permutation (bodies w') (n :: bodies w)).
  { unfold bodies. cbn [w' w_bodies]. now rewrite (Permutation_map b_id PP). }
  assert (PO : Permutation (objects w') (OBody n :: objects w)).
  { unfold objects. rewrite PB. reflexivity. }
  constructor.
  - eapply Permutation_NoDup; [apply Permutation_map, Permutation_sym, PO|]. cbn [map number]. constructor.
    + intros H. apply in_map_iff in H. destruct H as (o & Eo & Ho). pose proof (lk_fresh _ L o Ho). unfold n in Eo. lia.
    + apply L.
  - intros o Ho. apply (Permutation_in _ PO) in Ho. cbn [w' w_next]. destruct Ho as [<-|Ho].
    + cbn. unfold n. lia.
    + pose proof (lk_fresh _ L o Ho). unfold n. lia.
  - cbn [w' w_array]. rewrite PB, <- Permutation_cons_append. apply perm_skip, L.
  - intros y Hy. destruct (lk_ends _ L y Hy). split; apply (Permutation_in _ (Permutation_sym PB)); now right.
  - intros z Hz. apply (Permutation_in _ PP) in Hz. change (joints w') with (joints w). destruct Hz as [<-|Hz].
    + cbn [x b_joints b_id]. replace (flat_map (ends n) (joints w)) with (@nil nat); auto.
      symmetry. assert (F : forall y, In y (joints w) -> j_body1 y <> n /\ j_body2 y <> n).
      { intros y Hy. destruct (lk_ends _ L y Hy) as (U & V).
        assert (FB : forall b, In b (bodies w) -> b < n).
        { intros b Hb. apply (lk_fresh _ L (OBody b)). unfold objects. apply in_app_iff. left. now apply in_map. }
        apply FB in U, V. lia. }
      induction (joints w) as [|y l IH]; cbn; auto. destruct (F y) as (U & V); [now left|].
      unfold ends at 1. apply Nat.eqb_neq in U, V. rewrite U, V. cbn. apply IH. intros; apply F; now right.
    + now apply L.
  - split; [|apply L]. cbn [w' w_bodies]. apply packed_add_enabled. apply L.
Qed.

Lemma create_joint_ok : forall b1 b2 w, linked w -> In b1 (bodies w) -> In b2 (bodies w) ->
  exists w', create_joint b1 b2 w = Ok w' /\ linked w'.
Proof.
  intros b1 b2 w L H1 H2. unfold create_joint, body_disabled.
  destruct (body_at b1 w H1) as (i1 & x1 & E1 & _). rewrite E1. cbn [bind].
  destruct (body_at b2 w H2) as (i2 & x2 & E2 & _). rewrite E2. cbn [bind].
  set (d := _ && _). set (n := w_next w). set (y := mk_joint n b1 b2).
  set (w1 := mk_world _ _ _ _ _).
  pose proof (linked_nodup_bodies _ L) as ND.
  destruct (add_joint_to_ok b1 n w1 ND H1) as (w2 & E3 & Q1 & Q2 & Q3 & Q4 & Q5 & Q6 & Q7 & Q9).
  rewrite E3. cbn [bind].
  destruct (add_joint_to_ok b2 n w2) as (w3 & E4 & R1 & R2 & R3 & R4 & R5 & R6 & R7 & R9).
  { rewrite Q1. exact ND. } { rewrite Q1. exact H2. }
  exists w3. split; [auto|].
  assert (EB : bodies w3 = bodies w) by (rewrite R1, Q1; reflexivity).
  pose proof (packed_add_perm d y (w_joints w)) as PP.
  assert (PJ : Permutation (joints w3) (y :: joints w)).
  { unfold joints. rewrite R4, Q4. exact PP. }
  assert (PO : Permutation (objects w3) (OJoint n :: objects w)).
  { unfold objects. rewrite EB, PJ, R7, Q7. cbn [w1 w_gone map]. apply Permutation_sym, Permutation_middle. }
  constructor.
  - eapply Permutation_NoDup; [apply Permutation_map, Permutation_sym, PO|]. cbn [map number]. constructor.
    + intros H. apply in_map_iff in H. destruct H as (o & Eo & Ho). pose proof (lk_fresh _ L o Ho). unfold n in Eo. lia.
    + apply L.
  - intros o Ho. apply (Permutation_in _ PO) in Ho. rewrite R6, Q6. cbn [w1 w_next]. destruct Ho as [<-|Ho].
    + cbn. lia.
    + pose proof (lk_fresh _ L o Ho). unfold n. lia.
  - rewrite R5, Q5, EB. apply L.
  - intros z Hz. rewrite EB. apply (Permutation_in _ PJ) in Hz. destruct Hz as [<-|Hz]; [cbn; auto|now apply L].
  - intros x3 Hx3. destruct (R9 x3 Hx3) as (x' & Hx' & I3 & Z3 & Z4). destruct (Q9 x' Hx') as (x & Hx & I & Z1 & Z2).
    rewrite (flat_map_perm _ _ _ _ _ PJ). cbn [flat_map]. rewrite ends_one. cbn [y j_body1 j_body2 j_id].
    rewrite I3, I. rewrite <- app_assoc, <- (lk_lists _ L x Hx).
    assert (P1 : Permutation (b_joints x') (one (b_id x) b1 n ++ b_joints x)).
    { unfold one. destruct (Nat.eqb_spec b1 (b_id x)) as [Eb|Nb]; [rewrite Z1; auto|rewrite Z2; auto]. }
    assert (P2 : Permutation (b_joints x3) (one (b_id x) b2 n ++ b_joints x')).
    { unfold one. rewrite <- I. destruct (Nat.eqb_spec b2 (b_id x')) as [Eb|Nb]; [rewrite Z3; auto|rewrite Z4; auto]. }
    rewrite P2, P1. rewrite !app_assoc. apply Permutation_app_tail, Permutation_app_comm.
  - rewrite R2, R3, Q2, Q3, R4, Q4. cbn [w1 w_bodies w_joints]. split; [apply L|]. apply packed_add_enabled. apply L.
Qed.

Lemma update_joint_ok : forall j w, linked w -> In j (map j_id (joints w)) ->
  exists w', update_joint j w = Ok w' /\ linked w'.
Proof.
  intros j w L H. destruct (joint_at j w H) as (i & y & Es & Ey & Ej & Iy & G).
  unfold update_joint, body_disabled. rewrite G. cbn [bind]. destruct (lk_ends _ L y Iy) as (U & V).
  destruct (body_at _ w U) as (i1 & x1 & E1 & _). rewrite E1. cbn [bind].
  destruct (body_at _ w V) as (i2 & x2 & E2 & _). rewrite E2. cbn [bind]. rewrite Es. cbn [rd bind].
  destruct (packed_disable_ok i ((enabled (w_bodies w) <=? i1) && (enabled (w_bodies w) <=? i2)) (w_joints w)) as (p & Ep & P & B & _).
  { apply nth_error_Some. congruence. } { apply L. }
  rewrite Ep. cbn [bind]. eexists. split; [reflexivity|].
  apply linked_perm with w; auto. apply L.
Qed.

Lemma life_step_ok : forall o w, linked w -> names_living o w ->
  (match o with LDestroyBody b => steady b w | _ => True end) ->
  exists w', life_step o w = Ok w' /\ linked w'.
Proof.
  intros o w L N U. destruct o as [|b1 b2|j|b|b v|b v|b v|j]; cbn [life_step names_living] in *.
  - now apply create_body_ok.
  - destruct N. now apply create_joint_ok.
  - apply in_map_iff in N. destruct N as (y & <- & Hy).
    destruct (destroy_joint_ok y w L Hy) as (w' & E & L' & _). eauto.
  - destruct (destroy_body_ok b w L N U) as (w' & E & L' & _). eauto.
  - destruct (set_sleeping_ok b v w N (linked_bounded _ L)) as (w' & E & S & _). exists w'. split; auto. eapply linked_same; eauto.
  - destruct (set_static_ok b v w N (linked_bounded _ L)) as (w' & E & S). exists w'. split; auto. eapply linked_same; eauto.
  - destruct (set_active_ok b v w N (linked_bounded _ L)) as (w' & E & S). exists w'. split; auto. eapply linked_same; eauto.
  - now apply update_joint_ok.
Qed.

Lemma slot_of_some : forall A (f : A -> bool) l i, slot_of f l = Some i -> exists x, In x l /\ f x = true.
Proof.
  intros A f l. induction l as [|z l IH]; intros i H; cbn in *; [discriminate|].
  destruct (f z) eqn:F; [eauto|]. destruct (slot_of f l) as [k|]; [|discriminate].
  destruct (IH k eq_refl) as (x & Hx & Fx). eauto.
Qed.

Lemma body_slot_in : forall b w i, body_slot b w = Ok i -> In b (bodies w).
Proof.
  intros b w i H. unfold body_slot in H. destruct (slot_of _ _) as [k|] eqn:E; [|discriminate].
  apply slot_of_some in E. destruct E as (x & Hx & F). unfold is_body in F. apply Nat.eqb_eq in F. subst b.
  now apply in_map.
Qed.
Lemma get_body_in : forall b w x, get_body b w = Ok x -> In b (bodies w).
Proof.
  intros b w x H. unfold get_body in H. destruct (body_slot b w) as [i| |] eqn:E; try discriminate. eapply body_slot_in; eauto.
Qed.
Lemma get_joint_in : forall j w x, get_joint j w = Ok x -> In j (map j_id (joints w)).
Proof.
  intros j w x H. unfold get_joint in H. destruct (slot_of _ _) as [k|] eqn:E; [|discriminate].
  apply slot_of_some in E. destruct E as (y & Hy & F). unfold is_joint in F. apply Nat.eqb_eq in F. subst j. now apply in_map.
Qed.

(** a call that ends normally named living objects *)
Lemma life_step_living : forall o w w', life_step o w = Ok w' -> names_living o w.
Proof.
  intros o w w' H. destruct o as [|b1 b2|j|b|b v|b v|b v|j]; cbn [life_step names_living] in *; auto.
  - unfold create_joint, body_disabled in H. destruct (body_slot b1 w) as [i| |] eqn:E1; try discriminate. cbn [bind] in H.
    destruct (body_slot b2 w) as [i2| |] eqn:E2; try discriminate. split; eapply body_slot_in; eauto.
  - unfold destroy_joint in H. destruct (get_joint j w) as [y| |] eqn:E; try discriminate. eapply get_joint_in; eauto.
  - unfold destroy_body in H. destruct (body_slot b w) as [i| |] eqn:E1; try discriminate. eapply body_slot_in; eauto.
  - unfold set_sleeping in H. destruct (get_body b w) as [x| |] eqn:E; try discriminate. eapply get_body_in; eauto.
  - unfold set_static in H. destruct (get_body b w) as [x| |] eqn:E; try discriminate. eapply get_body_in; eauto.
  - unfold set_active in H. destruct (get_body b w) as [x| |] eqn:E; try discriminate. eapply get_body_in; eauto.
  - unfold update_joint in H. destruct (get_joint j w) as [y| |] eqn:E; try discriminate. eapply get_joint_in; eauto.
Qed.
