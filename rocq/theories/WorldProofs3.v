(** Invariant of worlds: body types, colliders entering and leaving the broad phase. *)
From Verif Require Import Base HashSpec BitsModel BitsProofs ComponentsProofs PairsModel PairsSpec PairsProofs WorldModel WorldSpec WorldProofs WorldProofs2.
Open Scope Z_scope.

Section Proofs.
Variable box : Type.
Variable overlap : box -> box -> bool.
Hypothesis overlap_sym : forall a b, overlap a b = overlap b a.
Notation world := (world box).
Notation theb b w := (lookup Z.eqb b (ww_bodies _ w)).
Notation thec c w := (lookup Z.eqb c (ww_coll _ w)).
Notation thep id w := (lookup Z.eqb id (sp_pairs (ww_pairs _ w))).
Notation forbidden := (forbidden box).
Notation bov := (boxes_overlap box overlap).
Notation WInv := (WInv box overlap).
Notation Frame := (Frame box).
Notation Touch := (Touch box).

(** Joints and forbidden pairs are not changed, nor the contacts to be reported as lost. *)
Definition Jsame (w w' : world) : Prop := ww_joints _ w' = ww_joints _ w /\ ww_nocoll _ w' = ww_nocoll _ w /\ ww_lost _ w' = ww_lost _ w.
Lemma jsame_refl : forall w, Jsame w w.
Proof. intros; unfold Jsame; auto. Qed.
Lemma jsame_trans : forall a b c, Jsame a b -> Jsame b c -> Jsame a c.
Proof. unfold Jsame. intros a b c (A & B & C) (D & G & H). splits; congruence. Qed.
Lemma frame_jsame : forall w w', Frame w w' -> Jsame w w'.
Proof. intros w w' []. unfold Jsame. auto. Qed.

Lemma put_body_lookup : forall b y (w : world) k, theb k (put_body box b y w) = if k =? b then Some y else theb k w.
Proof. intros. unfold put_body. cbn [set_bodies ww_bodies]. apply lookup_set. Qed.
Lemma put_coll_lookup : forall c x (w : world) k, thec k (put_coll box c x w) = if k =? c then Some x else thec k w.
Proof. intros. unfold put_coll. cbn [set_coll ww_coll]. apply lookup_set. Qed.

Lemma winv_bodies_ext : forall X Y E F XA w l l', WInv X Y E F XA (set_bodies box l w) -> (forall k, lookup Z.eqb k l' = lookup Z.eqb k l) -> WInv X Y E F XA (set_bodies box l' w).
Proof.
  intros X Y E F XA w l l' I L. destruct I. constructor; auto; cbn [set_bodies ww_bodies ww_coll ww_joints ww_pairs ww_tree ww_map ww_moved ww_nocoll ww_lost] in *; intros;
    repeat match goal with H : lookup Z.eqb _ l' = _ |- _ => rewrite L in H end; eauto.
  - destruct (wi_coll c x H) as (z & K1 & K2). exists z. rewrite L. auto.
  - destruct (wi_joint j x H) as ((z1 & Z1) & (z2 & Z2) & N). splits; auto; [exists z1|exists z2]; rewrite L; assumption.
Qed.
Lemma winv_put2 : forall X Y E F XA w b y z, WInv X Y E F XA (put_body box b z w) -> WInv X Y E F XA (put_body box b z (put_body box b y w)).
Proof.
  intros X Y E F XA w b y z I. unfold put_body in *. cbn [set_bodies ww_bodies ww_coll ww_joints ww_pairs ww_tree ww_map ww_moved ww_nocoll ww_lost].
  change (WInv X Y E F XA (set_bodies box (m_set Z.eqb b z (m_set Z.eqb b y (ww_bodies box w))) w)). eapply winv_bodies_ext; [exact I|].
  intros k. rewrite !lookup_set. destruct (k =? b); reflexivity.
Qed.
Lemma set_disabled_eq : forall b v y (w : world), set_body_disabled box b v (put_body box b y w) = Ok (put_body box b (w_disabled v y) (put_body box b y w)).
Proof. intros. unfold set_body_disabled, get_body. rewrite put_body_lookup, Z.eqb_refl. reflexivity. Qed.

Lemma drop_Y : forall X Y E F XA w, WInv X Y E F XA w -> (forall id p, thep id w = Some p -> Y id -> p_enabled p = true) -> WInv X none E F XA w.
Proof.
  intros X Y E F XA w I H. destruct I. constructor; auto. intros id p x1 x2 y1 y2 P EN C1 C2 B1 B2. destruct (wi_dis _ _ _ _ _ _ P EN C1 C2 B1 B2) as [|K]; auto.
  rewrite (H _ _ P K) in EN. discriminate.
Qed.

Lemma touch_body : forall X Y E F XA w b y id p c, WInv X Y E F XA w -> theb b w = Some y -> thep id w = Some p -> In c (b_colliders y) -> involves c p = true ->
  exists x1 x2 y1 y2, thec (p_c1 p) w = Some x1 /\ thec (p_c2 p) w = Some x2 /\ theb (c_body x1) w = Some y1 /\ theb (c_body x2) w = Some y2 /\ (y1 = y \/ y2 = y).
Proof.
  intros X Y E F XA w b y id p c I B P C V. destruct (pair_range box overlap X Y E F XA w id p I P) as (x1 & x2 & C1 & C2 & _ & _ & _ & _ & _ & _ & _ & _ & _ & y1 & y2 & Y1 & Y2).
  exists x1, x2, y1, y2. splits; auto. destruct (wi_body I _ _ _ B C) as (x & K1 & K2). unfold involves in V.
  destruct (Z.eqb_spec (p_c1 p) c) as [<-|]; [left; congruence|]. destruct (Z.eqb_spec (p_c2 p) c) as [<-|]; [right; congruence|discriminate].
Qed.
(** The pairs of a body that is not disabled are enabled, a body out of the broad phase has none. *)
Lemma awake_pairs : forall X E F XA w b y id p, WInv X none E F XA w -> theb b w = Some y -> b_disabled y = false -> thep id w = Some p -> Touch (b_colliders y) w id -> p_enabled p = true.
Proof.
  intros X E F XA w b y id p I B D P (q & c & Q & C & V). rewrite P in Q. injection Q as <-. destruct (touch_body _ _ _ _ _ _ _ _ _ _ _ I B P C V) as (x1 & x2 & y1 & y2 & C1 & C2 & B1 & B2 & K).
  destruct (p_enabled p) eqn:EN; [reflexivity|]. destruct (wi_dis I _ _ _ _ _ _ P EN C1 C2 B1 B2) as [W|[]]. apply Bool.andb_true_iff in W. destruct K as [->| ->]; destruct W; congruence.
Qed.
Lemma inactive_pairs : forall X Y E F w b y id p, WInv X Y E F none w -> theb b w = Some y -> b_active y = false -> thep id w = Some p -> Touch (b_colliders y) w id -> False.
Proof.
  intros X Y E F w b y id p I B A P (q & c & Q & C & V). rewrite P in Q. injection Q as <-. destruct (wi_body I _ _ _ B C) as (x & K1 & K2). rewrite <- K2 in B.
  eapply (no_node_no_pair box overlap); eauto. destruct (wi_active I _ _ _ K1 B) as [K|[]]. destruct (Z.eq_dec (c_node x) (-1)); auto. destruct K as (_ & K). rewrite (K n) in A. discriminate.
Qed.

Lemma set_type_ok : forall E F w b t x, WInv none none E F none w -> theb b w = Some x ->
  (b_type x = Static -> t <> Static -> forall id p, thep id w = Some p -> Touch (b_colliders x) w id -> p_enabled p = true) ->
  exists w', set_type box b t w = Ok w' /\ WInv none none E F none w' /\ Jsame w w'.
Proof.
  intros E F w b t x I B H. unfold set_type. unfold get_body at 1. rewrite B. cbn [rd bind].
  destruct (btype_eqb (b_type x) t) eqn:BT; [exists w; splits; auto using jsame_refl|]. rewrite set_disabled_eq. cbn [bind].
  set (x2 := w_disabled (btype_eqb t Static) (w_type t x)). set (w1 := put_body box b x2 _).
  assert (B1 : theb b w1 = Some x2) by (unfold w1; rewrite put_body_lookup, Z.eqb_refl; reflexivity).
  assert (J1 : Jsame w w1) by (unfold Jsame; auto).
  assert (I1 : WInv none (fun id => none id \/ (b_disabled x2 = false /\ Touch (b_colliders x) w id)) E F none w1).
  { apply winv_put2. apply (put_flags box overlap none none E F none w b x x2); auto. cbn. intros N _. destruct t; auto. congruence. }
  assert (FIN : forall w2, WInv none none E F none w2 -> Jsame w w2 -> theb b w2 <> None -> (set_sleeping box b false w1 = Ok w2) ->
    exists w', (let* w0 := set_sleeping box b false w1 in if btype_eqb t Static then check_disabled_pairs box b w0 else Ok w0) = Ok w' /\ WInv none none E F none w' /\ Jsame w w').
  { intros w2 I2 J2 B2 R2. rewrite R2. cbn [bind]. destruct (btype_eqb t Static); [|exists w2; auto]. destruct (theb b w2) as [z|] eqn:B3; [|contradiction].
    destruct (check_disabled_ok box overlap overlap_sym _ _ _ _ _ _ b z I2 B3) as (w3 & R3 & I3 & F3 & _). exists w3. splits; auto. eapply jsame_trans; [exact J2|]. apply frame_jsame. exact F3. }
  assert (NOY : (forall id p, thep id w = Some p -> b_disabled x2 = false -> Touch (b_colliders x) w id -> p_enabled p = true) ->
    exists w', (let* w0 := set_sleeping box b false w1 in if btype_eqb t Static then check_disabled_pairs box b w0 else Ok w0) = Ok w' /\ WInv none none E F none w' /\ Jsame w w').
  { intros HN. assert (I1' : WInv none none E F none w1). { eapply drop_Y; [exact I1|]. intros id p P [[]|(K1 & K2)]. eapply HN; eauto. }
    destruct (set_sleeping_ok box overlap overlap_sym E F none w1 b false x2 I1' B1) as (w2 & R2 & I2 & F2 & _ & _ & _). apply (FIN w2); auto.
    - eapply jsame_trans; [exact J1|]. apply frame_jsame. exact F2.
    - destruct (f_body F2 _ _ B1) as (z & Z1 & _). congruence. }
  destruct (btype_eqb t Static) eqn:TS; [apply NOY; cbn; discriminate|].
  assert (NT : t <> Static) by (intros K; rewrite K in TS; discriminate).
  destruct (b_active x) eqn:ACT.
  2: { apply NOY. intros id p P _ T. exfalso. eapply (inactive_pairs _ _ _ _ _ _ _ id p I B ACT P T). }
  destruct (b_sleeping x) eqn:SL.
  - destruct (wake_ok box overlap overlap_sym _ E F none w1 b x2 I1 B1) as (w2 & R2 & I2 & F2 & B2 & _).
    { intros id p P [[]|(_ & K)]. exact K. }
    apply (FIN w2); auto; [eapply jsame_trans; [exact J1|]; apply frame_jsame; exact F2|congruence|].
    unfold set_sleeping. unfold get_body at 1. rewrite B1. cbn [rd bind]. cbn [b_sleeping x2 w_disabled w_type b_type b_active]. rewrite SL, TS, ACT. exact R2.
  - apply NOY. intros id p P _ T. destruct (btype_eqb (b_type x) Static) eqn:XS.
    + apply (H) with (id := id); auto. destruct (b_type x); auto; discriminate.
    + eapply awake_pairs; eauto. apply (wi_flags I _ _ B); auto. intros K. rewrite K in XS. discriminate.
Qed.

(** ** Leaving the broad phase *)
Definition with_node (n : Z) (id : Z) : Prop := exists m, 0 <= m < 2 ^ 31 /\ id = pair_id n m.

Lemma remove_pair_ok : forall X Y E F XA w id p, WInv X Y E F XA w -> thep id w = Some p ->
  E id \/ ~ bov w (p_b1 p) (p_b2 p) \/ (forall x1 x2, thec (p_c1 p) w = Some x1 -> thec (p_c2 p) w = Some x2 -> forbidden (c_body x1) (c_body x2) w = true) ->
  WInv X Y E F XA (set_pairs box (mk_pspec (m_remove Z.eqb id (sp_pairs (ww_pairs _ w))) (sp_coll (ww_pairs _ w))) w).
Proof.
  intros X Y E F XA w id p I P H. assert (L : forall k q, lookup Z.eqb k (m_remove Z.eqb id (sp_pairs (ww_pairs _ w))) = Some q -> thep k w = Some q).
  { intros k q. rewrite lookup_remove. destruct (k =? id); [discriminate|auto]. }
  apply (pairs_change box overlap overlap_sym X Y E F); auto; cbn [sp_pairs sp_coll].
  - intros k q K. exists q. split; [apply L; exact K|reflexivity].
  - intros k q x1 x2 y1 y2 K EN C1 C2 B1 B2. exact (wi_dis I _ _ _ _ _ _ (L _ _ K) EN C1 C2 B1 B2).
  - intros k q K EN T. exact (wi_test I _ _ (L _ _ K) EN T).
  - intros k q K R. rewrite lookup_remove in R. destruct (Z.eqb_spec k id) as [->|N]; [|congruence]. rewrite P in K. injection K as <-. exact H.
Qed.

Lemma lost_add : forall X Y E F XA w id p, WInv X Y E F XA w -> thep id w = Some p -> WInv X Y E F XA (add_lost box p w).
Proof.
  intros X Y E F XA w id p I P. destruct (wi_pair I _ _ P) as (_ & _ & _ & _ & x1 & x2 & C1 & C2 & _). destruct I. constructor; auto.
  unfold add_lost. cbn [set_lost ww_lost ww_coll]. intros e IN. apply in_app_iff in IN. destruct IN as [IN|[<-|[]]]; [auto|]. cbn. split; eauto.
Qed.

Lemma NoDup_pairs_of : forall c (w : world), NoDup (pairs_of box c w).
Proof. intros. unfold pairs_of. apply NoDup_filter. apply NoDup_nodup. Qed.

Definition no_pair (c : Z) (w : world) : Prop := forall id p, thep id w = Some p -> involves c p = false.
(** Removing the pairs of a collider. *)
Lemma remove_pairs_ok : forall X Y E F XA w c x, WInv X Y E F XA w -> thec c w = Some x ->
  exists w', each box (fun id => remove_overlapping box id false) (pairs_of box c w) w = Ok w' /\ WInv X Y (fun id => E id \/ with_node (c_node x) id) F XA w' /\ no_pair c w' /\
    (exists s, w' = set_pairs box s w /\ sp_coll s = sp_coll (ww_pairs _ w)).
Proof.
  intros X Y E F XA w c x I C. set (E1 := fun id => E id \/ with_node (c_node x) id).
  destruct (each_ind box Z (fun l w1 => WInv X Y E1 F XA w1 /\ (exists s, w1 = set_pairs box s w /\ sp_coll s = sp_coll (ww_pairs _ w)) /\ NoDup l /\
    (forall id, In id l -> exists p, thep id w1 = Some p /\ involves c p = true) /\ (forall id p, thep id w1 = Some p -> involves c p = true -> In id l))
    (fun id => remove_overlapping box id false) (pairs_of box c w) w) as (w' & R & I' & (s & S1 & S2) & _ & _ & N').
  - intros id l w1 SUB (I1 & (s & S1 & S2) & ND & HL & HN). destruct (HL id (or_introl eq_refl)) as (p & P & V). unfold remove_overlapping, find. rewrite P. cbn [rd bind].
    rewrite Bool.andb_false_r. unfold pairs_step, pspec_step. cbn [bind]. eexists. split; [reflexivity|]. splits.
    + apply (remove_pair_ok _ _ _ _ _ w1 id p I1 P). left. right. destruct (pair_range box overlap X Y E1 F XA w1 id p I1 P) as (x1 & x2 & C1 & C2 & _ & _ & R1 & R2 & _).
      destruct (wi_pair I1 _ _ P) as (_ & Q & _). assert (C' : thec c w1 = Some x) by (rewrite S1; exact C).
      destruct (pair_nodes box overlap X Y E1 F XA w1 id p c x I1 P C' V) as [K|K]; rewrite K; [exists (p_b2 p)|exists (p_b1 p)]; split; auto. rewrite pair_id_sym. exact Q.
    + rewrite S1. eexists. split; [reflexivity|]. exact S2.
    + inversion ND; assumption.
    + intros id' IN. cbn [set_pairs ww_pairs sp_pairs]. inversion ND as [|? ? NI ND']; subst. destruct (HL id' (or_intror IN)) as (q & Q & V'). exists q. rewrite lookup_remove.
      destruct (Z.eqb_spec id' id) as [->|]; [contradiction|auto].
    + intros id' q. cbn [set_pairs ww_pairs sp_pairs]. rewrite lookup_remove. destruct (Z.eqb_spec id' id) as [->|NE]; [discriminate|]. intros Q V'. destruct (HN _ _ Q V') as [K|K]; [congruence|exact K].
  - splits.
    + eapply winv_weaken; eauto. intros id K. left. exact K.
    + exists (ww_pairs _ w). split; [destruct w; reflexivity|reflexivity].
    + apply NoDup_pairs_of.
    + intros id IN. apply in_pairs_of in IN. exact IN.
    + intros id p P V. apply in_pairs_of. eauto.
  - exists w'. splits; auto; [|eauto]. intros id p P. destruct (involves c p) eqn:V; auto. destruct (N' _ _ P V).
Qed.

Lemma in_m_remove : forall A k (e : Z * A) m, In e (m_remove Z.eqb k m) <-> In e m /\ fst e <> k.
Proof. intros A k e m. unfold m_remove. rewrite filter_In. destruct (Z.eqb_spec (fst e) k); cbn; intuition congruence. Qed.

Lemma leave_ok : forall E F XA w c x, WInv none none E F XA w -> thec c w = Some x -> c_node x <> -1 ->
  exists w', remove_from_broadphase box c w = Ok w' /\ WInv none none E F (fun d => XA d \/ d = c) w' /\ no_pair c w' /\ Jsame w w' /\
    ww_bodies _ w' = ww_bodies _ w /\ sp_coll (ww_pairs _ w') = sp_coll (ww_pairs _ w) /\ (forall d, thec d w' = if d =? c then Some (w_node (-1) x) else thec d w).
Proof.
  intros E F XA w c x I C N. unfold remove_from_broadphase, get_coll. rewrite C. cbn [rd bind].
  destruct (remove_pairs_ok _ _ _ _ _ w c x I C) as (w1 & R1 & I1 & NP & s & S1 & S2). rewrite R1. cbn [bind]. eexists. split; [reflexivity|].
  assert (C1 : thec c w1 = Some x) by (rewrite S1; exact C). destruct (wi_node I1 _ _ C1 N) as (RN & MN & bN & TN).
  set (n := c_node x) in *. set (w' := set_moved box _ _).
  assert (LC : forall d, thec d w' = if d =? c then Some (w_node (-1) x) else thec d w1).
  { intros d. unfold w', put_coll. cbn [set_moved set_tree set_coll set_map ww_coll]. apply lookup_set. }
  assert (UN : forall d z, thec d w1 = Some z -> d <> c -> c_node z <> n).
  { intros d z D ND K. destruct (wi_node I1 _ _ D) as (_ & M & _); [congruence|]. rewrite K, MN in M. congruence. }
  assert (LT : forall m, lookup Z.eqb m (ww_tree _ w') = if m =? n then None else lookup Z.eqb m (ww_tree _ w1)).
  { intros m. unfold w'. cbn [set_moved set_tree put_coll set_coll set_map ww_tree]. apply lookup_remove. }
  assert (LM : forall m, lookup Z.eqb m (ww_map _ w') = if m =? n then None else lookup Z.eqb m (ww_map _ w1)).
  { intros m. unfold w'. cbn [set_moved set_tree put_coll set_coll set_map ww_map]. apply lookup_remove. }
  assert (PC : forall id p, thep id w1 = Some p -> p_c1 p <> c /\ p_c2 p <> c).
  { intros id p P. pose proof (NP _ _ P) as K. unfold involves in K. apply Bool.orb_false_iff in K. destruct K as (K1 & K2). apply Z.eqb_neq in K1. apply Z.eqb_neq in K2. auto. }
  assert (BO : forall a b, a <> n -> b <> n -> (bov w' a b <-> bov w1 a b)).
  { intros a b NA NB. unfold boxes_overlap. rewrite !LT. apply Z.eqb_neq in NA. apply Z.eqb_neq in NB. rewrite NA, NB. tauto. }
  splits.
  2: exact NP.
  2: (subst w1; unfold Jsame; auto).
  2: (subst w1; reflexivity).
  2: (subst w1; exact S2).
  2: (intros d; rewrite LC; subst w1; reflexivity).
  pose proof I1 as I1c. destruct I1. constructor; auto.
  - intros d z. rewrite LC. destruct (Z.eqb_spec d c) as [->|ND]; [|apply wi_coll]. intros K. injection K as <-. exact (wi_coll _ _ C1).
  - intros k z d B D. destruct (wi_body _ _ _ B D) as (u & U1 & U2). rewrite LC. destruct (Z.eqb_spec d c) as [->|ND]; [|eauto]. exists (w_node (-1) x). split; [reflexivity|]. cbn. congruence.
  - intros d. change (sp_coll (ww_pairs _ w')) with (sp_coll (ww_pairs _ w1)). rewrite wi_pcoll. rewrite LC. destruct (Z.eqb_spec d c) as [->|ND]; [|reflexivity]. split; eauto.
  - intros d z. rewrite LC. destruct (Z.eqb_spec d c) as [->|ND]; intros D NN; [injection D as <-; cbn in NN; congruence|]. destruct (wi_node _ _ D NN) as (K1 & K2 & K3).
    pose proof (UN _ _ D ND) as U. apply Z.eqb_neq in U. rewrite LM, LT, U. auto.
  - intros m d. rewrite LM. destruct (Z.eqb_spec m n) as [->|NM]; [discriminate|]. intros M. destruct (wi_map _ _ M) as (K1 & z & K2 & K3). split; [exact K1|]. exists z. rewrite LC.
    destruct (Z.eqb_spec d c) as [->|ND]; [|auto]. exfalso. rewrite C1 in K2. injection K2 as <-. unfold n in NM. congruence.
  - intros m bx. rewrite LT. destruct (Z.eqb_spec m n) as [->|NM]; [discriminate|]. intros T. destruct (wi_tree _ _ T) as (d & D). exists d. rewrite LM. apply Z.eqb_neq in NM. rewrite NM. exact D.
  - intros m bx IN. unfold w' in IN. cbn [set_moved set_tree put_coll set_coll set_map ww_tree] in IN. apply in_m_remove in IN. cbn in IN. destruct IN as (IN & NM). rewrite LT. apply Z.eqb_neq in NM. rewrite NM. auto.
  - intros m IN. unfold w' in IN. cbn [set_moved ww_moved] in IN. apply filter_In in IN. destruct IN as (IN & NM). destruct (Z.eqb_spec m n) as [|NM']; [discriminate|]. rewrite LT. apply Z.eqb_neq in NM'. rewrite NM'. eauto.
  - intros d z y. rewrite LC. destruct (Z.eqb_spec d c) as [->|ND]; [auto|]. intros D B. destruct (wi_active _ _ _ D B); auto.
  - intros id p P. change (thep id w1 = Some p) in P. destruct (PC _ _ P) as (P1 & P2). destruct (wi_pair _ _ P) as (K1 & K2 & K3 & K4 & x1 & x2 & K). splits; auto. exists x1, x2.
    rewrite !LC. apply Z.eqb_neq in P1. apply Z.eqb_neq in P2. rewrite P1, P2. exact K.
  - intros id p x1 x2 y1 y2 P EN. change (thep id w1 = Some p) in P. destruct (PC _ _ P) as (P1 & P2). rewrite !LC. apply Z.eqb_neq in P1. apply Z.eqb_neq in P2. rewrite P1, P2. eauto.
  - intros id p P EN T. change (thep id w1 = Some p) in P. destruct (PC _ _ P) as (P1 & P2). destruct (wi_pair _ _ P) as (K1 & K2 & K3 & K4 & x1 & x2 & Q1 & Q2 & Q3 & Q4 & _).
    destruct (wi_test _ _ P EN T) as [K|K]; [left|auto]. apply BO; auto; [rewrite <- Q3|rewrite <- Q4]; eauto.
  - intros c1 c2 x1 x2. rewrite !LC. destruct (Z.eqb_spec c1 c) as [->|N1]; [intros K; injection K as <-; cbn; congruence|]. destruct (Z.eqb_spec c2 c) as [->|N2]; [intros _ K; injection K as <-; cbn; congruence|].
    intros D1 D2 G1 G2 OK BV. pose proof (UN _ _ D1 N1) as U1. pose proof (UN _ _ D2 N2) as U2. apply BO in BV; auto.
    assert (INF : forall m, m <> n -> In m (ww_moved _ w1) -> In m (ww_moved _ w')). { intros m K1 K2. unfold w'. cbn [set_moved ww_moved]. apply filter_In. split; [exact K2|]. apply Z.eqb_neq in K1. rewrite K1. reflexivity. }
    destruct (wi_comp _ _ _ _ D1 D2 G1 G2 OK BV) as [K|[K|[K|[K|(m & M1 & M2)]]]]; auto.
    exfalso. destruct (wi_node _ _ D1 G1) as (V1 & _). destruct (wi_node _ _ D2 G2) as (V2 & _).
    destruct (pair_id_inj (c_node x1) (c_node x2) n m) as [(W & _)|(_ & W)]; [lia|lia|lia|lia|exact M2|congruence|congruence].
  - intros e IN. destruct (wi_lost e IN) as ((a & A1) & (b & B1)). rewrite !LC. split; [destruct (fst e =? c)|destruct (snd e =? c)]; eauto.
Qed.

(** ** Entering the broad phase *)
Variable inflate : box -> box.
Lemma enter_ok : forall E F XA w c x y n bx, WInv none none E F XA w -> thec c w = Some x -> c_node x = -1 -> theb (c_body x) w = Some y -> b_active y = true -> fresh_node box n w ->
  exists w', add_to_broadphase box inflate c n bx w = Ok w' /\ WInv none none E F (fun d => XA d /\ d <> c) w' /\ Jsame w w' /\ ww_bodies _ w' = ww_bodies _ w /\
    (forall m, lookup Z.eqb m (ww_tree _ w') = if m =? n then Some (inflate bx) else lookup Z.eqb m (ww_tree _ w)) /\
    (forall d, thec d w' = if d =? c then Some (w_node n x) else thec d w).
Proof.
  intros E F XA w c x y n bx I C NX B ACT (RN & FN). unfold add_to_broadphase, get_coll. rewrite C. cbn [rd bind]. unfold add_moved, notify.
  match goal with |- context [pairs_of box c ?a] => set (w1 := a) end.
  assert (NP : pairs_of box c w1 = []).
  { destruct (pairs_of box c w1) as [|id l] eqn:L; [reflexivity|]. exfalso. assert (IN : In id (pairs_of box c w1)) by (rewrite L; left; reflexivity). apply in_pairs_of in IN. destruct IN as (p & P & V).
    exact (no_node_no_pair box overlap none none E F XA w c x id p I C NX P V). }
  rewrite NP. cbn [each bind]. eexists. split; [reflexivity|]. set (w' := set_map box _ w1).
  assert (LC : forall d, thec d w' = if d =? c then Some (w_node n x) else thec d w).
  { intros d. unfold w', w1, put_coll. cbn [set_moved set_tree set_coll set_map ww_coll]. apply lookup_set. }
  assert (LT : forall m, lookup Z.eqb m (ww_tree _ w') = if m =? n then Some (inflate bx) else lookup Z.eqb m (ww_tree _ w)).
  { intros m. unfold w', w1. cbn [set_moved set_tree put_coll set_coll set_map ww_tree]. apply lookup_set. }
  assert (LM : forall m, lookup Z.eqb m (ww_map _ w') = if m =? n then Some c else lookup Z.eqb m (ww_map _ w)).
  { intros m. unfold w', w1. cbn [set_moved set_tree put_coll set_coll set_map ww_map]. apply lookup_set. }
  assert (LV : forall m, In m (ww_moved _ w') <-> m = n \/ In m (ww_moved _ w)).
  { intros m. unfold w', w1. cbn [set_moved set_tree put_coll set_coll set_map ww_moved In]. rewrite filter_In. destruct (Z.eqb_spec m n) as [->|]; cbn; intuition congruence. }
  assert (UN : forall d z, thec d w = Some z -> c_node z <> -1 -> c_node z <> n).
  { intros d z D ND K. destruct (wi_node I _ _ D ND) as (_ & _ & b0 & T). rewrite K in T. congruence. }
  assert (PC : forall id p, thep id w = Some p -> p_c1 p <> c /\ p_c2 p <> c).
  { intros id p P. split; intros K; apply (no_node_no_pair box overlap none none E F XA w c x id p I C NX P); unfold involves; rewrite K, Z.eqb_refl; [reflexivity|apply Bool.orb_true_r]. }
  assert (BO : forall a b, a <> n -> b <> n -> (bov w' a b <-> bov w a b)).
  { intros a b NA NB. unfold boxes_overlap. rewrite !LT. apply Z.eqb_neq in NA. apply Z.eqb_neq in NB. rewrite NA, NB. tauto. }
  splits; auto; [|unfold Jsame; auto].
  pose proof I as I0. destruct I. constructor; auto.
  - intros d z. rewrite LC. destruct (Z.eqb_spec d c) as [->|ND]; [|apply wi_coll]. intros K. injection K as <-. exact (wi_coll _ _ C).
  - intros k z d B' D. destruct (wi_body _ _ _ B' D) as (u & U1 & U2). rewrite LC. destruct (Z.eqb_spec d c) as [->|ND]; [|eauto]. exists (w_node n x). split; [reflexivity|]. cbn. congruence.
  - intros d. change (sp_coll (ww_pairs _ w')) with (sp_coll (ww_pairs _ w)). rewrite wi_pcoll. rewrite LC. destruct (Z.eqb_spec d c) as [->|ND]; [|reflexivity]. split; eauto.
  - intros d z. rewrite LC. destruct (Z.eqb_spec d c) as [->|ND]; intros D NN.
    + injection D as <-. cbn [w_node c_node]. rewrite LM, LT, Z.eqb_refl. splits; eauto; lia.
    + destruct (wi_node _ _ D NN) as (K1 & K2 & K3). pose proof (UN _ _ D NN) as U. apply Z.eqb_neq in U. rewrite LM, LT, U. auto.
  - intros m d. rewrite LM. destruct (Z.eqb_spec m n) as [->|NM]; intros M.
    + injection M as <-. split; [lia|]. exists (w_node n x). rewrite LC, Z.eqb_refl. auto.
    + destruct (wi_map _ _ M) as (K1 & z & K2 & K3). split; [exact K1|]. exists z. rewrite LC. destruct (Z.eqb_spec d c) as [->|ND]; [|auto]. exfalso. congruence.
  - intros m b0. rewrite LT, LM. destruct (Z.eqb_spec m n) as [->|NM]; intros T; [eauto|]. eauto.
  - intros m b0 IN. unfold w', w1 in IN. cbn [set_moved set_tree put_coll set_coll set_map ww_tree] in IN. destruct IN as [K|IN]; [injection K as <- <-; rewrite LT, Z.eqb_refl; reflexivity|].
    apply in_m_remove in IN. cbn in IN. destruct IN as (IN & NM). rewrite LT. apply Z.eqb_neq in NM. rewrite NM. auto.
  - intros m IN. apply LV in IN. rewrite LT. destruct (Z.eqb_spec m n) as [->|NM]; [eauto|]. destruct IN as [|IN]; [contradiction|eauto].
  - intros d z y'. rewrite LC. destruct (Z.eqb_spec d c) as [->|ND]; intros D B'.
    + injection D as <-. cbn in B'. left. cbn. change (theb (c_body x) w = Some y') in B'. rewrite B in B'. injection B' as <-. split; [intros _; lia|auto].
    + destruct (wi_active _ _ _ D B'); auto.
  - intros id p P. change (thep id w = Some p) in P. destruct (PC _ _ P) as (P1 & P2). destruct (wi_pair _ _ P) as (K1 & K2 & K3 & K4 & x1 & x2 & K). splits; auto. exists x1, x2.
    rewrite !LC. apply Z.eqb_neq in P1. apply Z.eqb_neq in P2. rewrite P1, P2. exact K.
  - intros id p x1 x2 y1 y2 P EN. change (thep id w = Some p) in P. destruct (PC _ _ P) as (P1 & P2). rewrite !LC. apply Z.eqb_neq in P1. apply Z.eqb_neq in P2. rewrite P1, P2. eauto.
  - intros id p P EN T. change (thep id w = Some p) in P. destruct (PC _ _ P) as (P1 & P2). destruct (wi_pair _ _ P) as (K1 & K2 & K3 & K4 & x1 & x2 & Q1 & Q2 & Q3 & Q4 & _).
    destruct (wi_test _ _ P EN T) as [K|K]; [left|auto]. apply BO; auto; [rewrite <- Q3; apply (UN _ _ Q1)|rewrite <- Q4; apply (UN _ _ Q2)]; congruence.
  - intros c1 c2 x1 x2. rewrite !LC, !LV. destruct (Z.eqb_spec c1 c) as [->|N1]; [intros K; injection K as <-; cbn; auto|]. destruct (Z.eqb_spec c2 c) as [->|N2]; [intros _ K; injection K as <-; cbn; auto|].
    intros D1 D2 G1 G2 OK BV. pose proof (UN _ _ D1 G1) as U1. pose proof (UN _ _ D2 G2) as U2. apply BO in BV; auto.
    destruct (wi_comp _ _ _ _ D1 D2 G1 G2 OK BV) as [K|[K|[K|K]]]; auto.
  - intros e IN. destruct (wi_lost e IN) as ((a & A1) & (b & B1)). rewrite !LC. split; [destruct (fst e =? c)|destruct (snd e =? c)]; eauto.
Qed.
End Proofs.
