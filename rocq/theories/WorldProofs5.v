(** Invariant of worlds: joints, destruction of bodies, the stages of an update, histories. *)
From Verif Require Import Base HashSpec BitsModel BitsProofs ComponentsProofs PairsModel PairsSpec PairsProofs WorldModel WorldSpec WorldProofs WorldProofs2 WorldProofs3 WorldProofs4.
Open Scope Z_scope.

Section Proofs.
Variable box : Type.
Variable overlap : box -> box -> bool.
Hypothesis overlap_sym : forall a b, overlap a b = overlap b a.
Notation world := (world box).
Notation theb b w := (lookup Z.eqb b (ww_bodies _ w)).
Notation thec c w := (lookup Z.eqb c (ww_coll _ w)).
Notation thej j w := (lookup Z.eqb j (ww_joints _ w)).
Notation thep id w := (lookup Z.eqb id (sp_pairs (ww_pairs _ w))).
Notation forbidden := (forbidden box).
Notation bov := (boxes_overlap box overlap).
Notation WInv := (WInv box overlap).
Notation Frame := (Frame box).
Notation Touch := (Touch box).
Notation Jsame := (Jsame box).

Lemma pair_eqb_eq : forall p q, pair_eqb p q = true <-> p = q.
Proof. intros [a b] [c d]. unfold pair_eqb. cbn. rewrite Bool.andb_true_iff, !Z.eqb_eq. split; [intros (-> & ->); reflexivity|intros H; injection H as -> ->; auto]. Qed.
Lemma forbidden_in : forall a b w, forbidden a b w = true <-> In (body_pair a b) (ww_nocoll _ w).
Proof. intros a b w. unfold WorldModel.forbidden. rewrite existsb_exists. split; [intros (q & Q & K); apply pair_eqb_eq in K; subst; exact Q|intros H; exists (body_pair a b); split; [exact H|apply pair_eqb_eq; reflexivity]]. Qed.
Lemma body_pair_sym : forall a b, body_pair a b = body_pair b a.
Proof. intros a b. unfold body_pair. destruct (Z.ltb_spec a b), (Z.ltb_spec b a); try lia; try reflexivity. assert (a = b) by lia. congruence. Qed.
Lemma body_pair_inj : forall a b c d, body_pair a b = body_pair c d -> (a = c /\ b = d) \/ (a = d /\ b = c).
Proof. intros a b c d. unfold body_pair. destruct (a <? b), (c <? d); intros H; injection H; auto. Qed.

(** Every forbidden pair of bodies comes from a joint. *)
Definition JInv2 (w : world) : Prop := forall q, In q (ww_nocoll _ w) -> exists j x, thej j w = Some x /\ j_collide x = false /\ q = body_pair (j_b1 x) (j_b2 x).
Lemma jinv2_same : forall w w', ww_joints _ w' = ww_joints _ w -> ww_nocoll _ w' = ww_nocoll _ w -> JInv2 w -> JInv2 w'.
Proof. intros w w' A B H. unfold JInv2 in *. rewrite A, B. exact H. Qed.
Lemma jinv2_destroy : forall w w' j x, thej j w = Some x -> ww_joints _ w' = m_remove Z.eqb j (ww_joints _ w) ->
  ww_nocoll _ w' = (if j_collide x then ww_nocoll _ w else filter (fun q => negb (pair_eqb (body_pair (j_b1 x) (j_b2 x)) q)) (ww_nocoll _ w)) -> JInv2 w -> JInv2 w'.
Proof.
  intros w w' j x J EJ EN H q Q. rewrite EN in Q. assert (Q0 : In q (ww_nocoll _ w)) by (destruct (j_collide x); [exact Q|apply filter_In in Q; apply Q]).
  destruct (H _ Q0) as (k & z & K & KC & KQ). exists k, z. splits; auto. rewrite EJ, lookup_remove. destruct (Z.eqb_spec k j) as [->|]; [|exact K]. exfalso. rewrite J in K. injection K as <-. rewrite KC in Q.
  apply filter_In in Q. destruct Q as (_ & Q). rewrite (proj2 (pair_eqb_eq _ _) (eq_sym KQ)) in Q. discriminate.
Qed.

(** ** Joints *)
Lemma set_nocoll_more : forall E w l, WInv none none E none none w -> (forall q, In q (ww_nocoll _ w) -> In q l) ->
  WInv none none E (fun id => exists p x1 x2, thep id w = Some p /\ thec (p_c1 p) w = Some x1 /\ thec (p_c2 p) w = Some x2 /\ In (body_pair (c_body x1) (c_body x2)) l) none (set_nocoll box l w).
Proof.
  intros E w l I H. destruct I. constructor; auto.
  - intros id p P. destruct (wi_pair _ _ P) as (K1 & K2 & K3 & K4 & x1 & x2 & C1 & C2 & Q1 & Q2 & Q3 & Q4). splits; auto. exists x1, x2. splits; auto. intros FB. apply forbidden_in in FB. exists p, x1, x2. auto.
  - intros c1 c2 x1 x2 D1 D2 G1 G2 (O1 & O2 & O3 & O4) BV. apply (wi_comp _ _ _ _ D1 D2 G1 G2); auto. unfold okpair. splits; auto.
    destruct (forbidden (c_body x1) (c_body x2) w) eqn:FB; [|reflexivity]. apply forbidden_in in FB. apply H in FB. apply (forbidden_in _ _ (set_nocoll box l w)) in FB. congruence.
Qed.

Lemma NoDup_app2 : forall A (l m : list A), NoDup l -> NoDup m -> (forall x, In x l -> ~ In x m) -> NoDup (l ++ m).
Proof.
  intros A l m HL HM H. induction l as [|a l IH]; [exact HM|]. inversion HL; subst. cbn. constructor; [|apply IH; [assumption|intros x X; apply H; right; exact X]].
  rewrite in_app_iff. intros [K|K]; [contradiction|apply (H a); [left; reflexivity|exact K]].
Qed.
Lemma NoDup_flat_map : forall A B (f : A -> list B) l, NoDup l -> (forall a, In a l -> NoDup (f a)) -> (forall a b x, In a l -> In b l -> In x (f a) -> In x (f b) -> a = b) -> NoDup (flat_map f l).
Proof.
  intros A B f l ND H1 H2. induction l as [|a l IH]; [constructor|]. inversion ND; subst. cbn [flat_map]. apply NoDup_app2.
  - apply H1. left. reflexivity.
  - apply IH; [assumption|intros b Q; apply H1; right; exact Q|intros b c x Q1 Q2; apply H2; right; assumption].
  - intros x X K. apply in_flat_map in K. destruct K as (b & Q & K). assert (a = b) by (eapply H2; [left; reflexivity|right; exact Q|exact X|exact K]). congruence.
Qed.

Lemma set_joints_ok : forall E F w l, WInv none none E F none w -> (forall j x, lookup Z.eqb j l = Some x -> (exists y, theb (j_b1 x) w = Some y) /\ (exists y, theb (j_b2 x) w = Some y) /\ j_b1 x <> j_b2 x) ->
  WInv none none E F none (set_joints box l w).
Proof. intros E F w l I H. destruct I. constructor; auto. Qed.

Lemma add_no_collision_ok : forall E w b1 b2 y1 y2, WInv none none E none none w -> theb b1 w = Some y1 -> theb b2 w = Some y2 -> b1 <> b2 ->
  exists w', add_no_collision box b1 b2 w = Ok w' /\ WInv none none E none none w' /\ ww_joints _ w' = ww_joints _ w /\
    ww_nocoll _ w' = body_pair b1 b2 :: filter (fun q => negb (pair_eqb (body_pair b1 b2) q)) (ww_nocoll _ w) /\ ww_bodies _ w' = ww_bodies _ w.
Proof.
  intros E w b1 b2 y1 y2 I B1 B2 NB. unfold add_no_collision. set (l := body_pair b1 b2 :: _).
  assert (LI : forall q, In q l <-> q = body_pair b1 b2 \/ In q (ww_nocoll _ w)).
  { intros q. unfold l. cbn [In]. rewrite filter_In. destruct (pair_eqb (body_pair b1 b2) q) eqn:Q; cbn; [apply pair_eqb_eq in Q; subst; intuition congruence|].
    intuition. }
  pose proof (set_nocoll_more E w l I) as I1. specialize (I1 (fun q K => proj2 (LI q) (or_intror K))). set (w1 := set_nocoll box l w) in *.
  set (F1 := fun id : Z => exists p x1 x2, thep id w = Some p /\ thec (p_c1 p) w = Some x1 /\ thec (p_c2 p) w = Some x2 /\ In (body_pair (c_body x1) (c_body x2)) l) in *.
  unfold get_body. change (ww_bodies box w1) with (ww_bodies box w). rewrite B1. cbn [rd bind]. set (ids := filter _ _).
  assert (IDS : forall id, In id ids <-> exists p c x1 x2, thep id w = Some p /\ In c (b_colliders y1) /\ involves c p = true /\ thec (p_c1 p) w = Some x1 /\ thec (p_c2 p) w = Some x2 /\ (c_body x1 = b2 \/ c_body x2 = b2)).
  { intros id. unfold ids. rewrite filter_In, in_flat_map. unfold find. split.
    - intros ((c & C & J) & K). apply in_pairs_of in J. destruct J as (p & P & V). change (thep id w = Some p) in P. change (ww_pairs box w1) with (ww_pairs box w) in K. rewrite P in K.
      change (ww_coll box w1) with (ww_coll box w) in K. destruct (thec (p_c1 p) w) as [x1|] eqn:C1; [|discriminate]. destruct (thec (p_c2 p) w) as [x2|] eqn:C2; [|discriminate].
      exists p, c, x1, x2. splits; auto. apply Bool.orb_true_iff in K. rewrite !Z.eqb_eq in K. exact K.
    - intros (p & c & x1 & x2 & P & C & V & C1 & C2 & K). split; [exists c; split; [exact C|]; apply in_pairs_of; exists p; auto|]. change (ww_pairs box w1) with (ww_pairs box w). rewrite P. change (ww_coll box w1) with (ww_coll box w). rewrite C1, C2.
      apply Bool.orb_true_iff. rewrite !Z.eqb_eq. exact K. }
  assert (ND : NoDup ids).
  { unfold ids. apply NoDup_filter. apply NoDup_flat_map; [exact (wi_nodup I _ _ B1)|intros c _; apply NoDup_pairs_of|]. intros c d id C D J1 J2. apply in_pairs_of in J1, J2. destruct J1 as (p & P & V). destruct J2 as (q & Q & W). rewrite P in Q. injection Q as <-.
    change (thep id w = Some p) in P. destruct (wi_pair I _ _ P) as (_ & _ & _ & _ & x1 & x2 & C1 & C2 & _ & _ & NE & _). destruct (wi_body I _ _ _ B1 C) as (u & U1 & U2). destruct (wi_body I _ _ _ B1 D) as (v & V1 & V2).
    unfold involves in V, W. destruct (Z.eqb_spec (p_c1 p) c) as [<-|]; destruct (Z.eqb_spec (p_c1 p) d) as [<-|]; auto.
    - destruct (Z.eqb_spec (p_c2 p) d) as [<-|]; [|discriminate]. exfalso. apply NE. congruence.
    - destruct (Z.eqb_spec (p_c2 p) c) as [<-|]; [|discriminate]. exfalso. apply NE. congruence.
    - destruct (Z.eqb_spec (p_c2 p) c) as [<-|]; [|discriminate]. destruct (Z.eqb_spec (p_c2 p) d) as [<-|]; [auto|discriminate]. }
  assert (FB : forall id p x1 x2, In id ids -> thep id w = Some p -> thec (p_c1 p) w = Some x1 -> thec (p_c2 p) w = Some x2 -> forbidden (c_body x1) (c_body x2) w1 = true).
  { intros id p x1 x2 J P C1 C2. apply IDS in J. destruct J as (p' & c & z1 & z2 & P' & C & V & D1 & D2 & K). rewrite P in P'. injection P' as <-. rewrite C1 in D1. injection D1 as <-. rewrite C2 in D2. injection D2 as <-.
    apply forbidden_in. change (ww_nocoll box w1) with l. apply LI. left. destruct (wi_body I _ _ _ B1 C) as (u & U1 & U2). destruct (wi_pair I _ _ P) as (_ & _ & _ & _ & t1 & t2 & T1 & T2 & _ & _ & NE & _).
    unfold involves in V. destruct (Z.eqb_spec (p_c1 p) c) as [<-|]; [|destruct (Z.eqb_spec (p_c2 p) c) as [<-|]; [|discriminate]].
    - assert (c_body x1 = b1) by congruence. destruct K; [congruence|]. congruence.
    - assert (c_body x2 = b1) by congruence. destruct K as [K|K]; [|congruence]. rewrite K, H. apply body_pair_sym. }
  destruct (each_ind box Z (fun l0 w2 => WInv none none E F1 none w2 /\ ww_joints _ w2 = ww_joints _ w /\ ww_nocoll _ w2 = l /\ ww_bodies _ w2 = ww_bodies _ w /\ ww_coll _ w2 = ww_coll _ w /\ NoDup l0 /\
    (forall id p, thep id w2 = Some p -> thep id w = Some p /\ (In id ids -> In id l0)) /\ (forall id, In id l0 -> exists p, thep id w2 = Some p))
    (fun id => remove_overlapping box id true) ids w1) as (w' & R & I' & J' & NC' & BD' & CO' & _ & S1 & _).
  - intros id l0 w2 SUB (I2 & J2 & NC2 & BD2 & CO2 & ND2 & S1 & S2). destruct (S2 id (or_introl eq_refl)) as (p & P). inversion ND2 as [|? ? NI ND3]; subst.
    unfold remove_overlapping, find. rewrite P. cbn [rd bind]. destruct (S1 _ _ P) as (P0 & _).
    set (w3 := if p_prev p && true then add_lost box p w2 else w2).
    assert (I3 : WInv none none E F1 none w3) by (unfold w3; destruct (p_prev p && true); [eapply lost_add; eauto|exact I2]).
    assert (P3 : thep id w3 = Some p) by (unfold w3; destruct (p_prev p && true); exact P).
    assert (EQ3 : ww_pairs _ w3 = ww_pairs _ w2 /\ ww_joints _ w3 = ww_joints _ w2 /\ ww_nocoll _ w3 = ww_nocoll _ w2 /\ ww_bodies _ w3 = ww_bodies _ w2 /\ ww_coll _ w3 = ww_coll _ w2) by (unfold w3; destruct (p_prev p && true); splits; reflexivity).
    destruct EQ3 as (Q1 & Q2 & Q3 & Q4 & Q5). unfold pairs_step, pspec_step. cbn [bind]. eexists. split; [reflexivity|]. splits.
    + apply (remove_pair_ok box overlap overlap_sym _ _ _ _ _ w3 id p I3 P3). right. right. intros x1 x2 C1 C2. rewrite Q5, CO2 in C1, C2. unfold WorldModel.forbidden. rewrite Q3, NC2. apply (FB id p); auto.
      apply SUB. left. reflexivity.
    + cbn [set_pairs ww_joints]. congruence.
    + cbn [set_pairs ww_nocoll]. congruence.
    + cbn [set_pairs ww_bodies]. congruence.
    + cbn [set_pairs ww_coll]. congruence.
    + exact ND3.
    + intros id' p'. cbn [set_pairs ww_pairs sp_pairs]. rewrite lookup_remove, Q1. destruct (Z.eqb_spec id' id) as [->|NE]; [discriminate|]. intros P'. destruct (S1 _ _ P') as (K1 & K2). split; [exact K1|]. intros K. destruct (K2 K); [congruence|assumption].
    + intros id' IN. cbn [set_pairs ww_pairs sp_pairs]. rewrite lookup_remove, Q1. destruct (Z.eqb_spec id' id) as [->|NE]; [contradiction|]. apply S2. right. exact IN.
  - splits; auto. intros id IN. apply IDS in IN. destruct IN as (p & _ & _ & _ & P & _). exists p. exact P.
  - exists w'. splits; auto. destruct I'. constructor; auto. intros id p P. destruct (wi_pair _ _ P) as (K1 & K2 & K3 & K4 & x1 & x2 & C1 & C2 & Q1 & Q2 & Q3 & Q4). splits; auto. exists x1, x2. splits; auto.
    intros FX. exfalso. destruct (S1 _ _ P) as (P0 & S3). apply forbidden_in in FX. rewrite NC' in FX. apply LI in FX. rewrite CO' in C1, C2. destruct FX as [FX|FX].
    + apply S3. apply IDS. destruct (WorldProofs.wi_coll I _ _ C1) as (u1 & U1 & V1). destruct (WorldProofs.wi_coll I _ _ C2) as (u2 & U2 & V2). destruct (body_pair_inj _ _ _ _ FX) as [(E1 & E2)|(E1 & E2)].
      * exists p, (p_c1 p), x1, x2. splits; auto; [rewrite E1, B1 in U1; injection U1 as <-; exact V1|unfold involves; rewrite Z.eqb_refl; reflexivity].
      * exists p, (p_c2 p), x1, x2. splits; auto; [rewrite E2, B1 in U2; injection U2 as <-; exact V2|unfold involves; rewrite Z.eqb_refl; apply Bool.orb_true_r].
    + apply (proj2 (forbidden_in _ _ w)) in FX. destruct (WorldProofs.wi_pair I _ _ P0) as (_ & _ & _ & _ & z1 & z2 & D1 & D2 & _ & _ & _ & D3). rewrite C1 in D1. injection D1 as <-. rewrite C2 in D2. injection D2 as <-. exact (D3 FX).
Qed.

Lemma create_joint_ok : forall E w j b1 b2 cl y1 y2, WInv none none E none none w -> thej j w = None -> theb b1 w = Some y1 -> theb b2 w = Some y2 -> b1 <> b2 ->
  exists w', create_joint box j b1 b2 cl w = Ok w' /\ WInv none none E none none w' /\ ww_joints _ w' = m_set Z.eqb j (mk_joint b1 b2 cl) (ww_joints _ w) /\
    ww_nocoll _ w' = if cl then ww_nocoll _ w else body_pair b1 b2 :: filter (fun q => negb (pair_eqb (body_pair b1 b2) q)) (ww_nocoll _ w).
Proof.
  intros E w j b1 b2 cl y1 y2 I J B1 B2 NB. unfold create_joint, get_body. rewrite B1, B2. cbn [rd bind].
  assert (I1 : WInv none none E none none (set_joints box (m_set Z.eqb j (mk_joint b1 b2 cl) (ww_joints _ w)) w)).
  { apply set_joints_ok; [exact I|]. intros k x. rewrite lookup_set. destruct (Z.eqb_spec k j) as [->|N]; intros K; [injection K as <-; cbn; eauto|exact (wi_joint I _ _ K)]. }
  destruct cl; [eexists; split; [reflexivity|]; splits; auto|].
  destruct (add_no_collision_ok E _ b1 b2 y1 y2 I1 B1 B2 NB) as (w' & R & I' & J' & N' & _). exists w'. splits; auto.
Qed.

Lemma unforbid_ok : forall E w b1 b2, WInv none none E none none w ->
  ((forall id, E id) \/ (exists y, (theb b1 w = Some y \/ theb b2 w = Some y) /\ b_colliders y = [])) ->
  WInv none none E none none (remove_no_collision box b1 b2 w).
Proof.
  intros E w b1 b2 I H. unfold remove_no_collision. set (l := filter _ _). pose proof I as I0. destruct I. constructor; auto.
  - intros id p P. destruct (wi_pair _ _ P) as (K1 & K2 & K3 & K4 & x1 & x2 & C1 & C2 & Q1 & Q2 & Q3 & Q4). splits; auto. exists x1, x2. splits; auto. intros FB. apply Q4. apply forbidden_in in FB. apply forbidden_in.
    cbn [set_nocoll ww_nocoll] in FB. unfold l in FB. apply filter_In in FB. apply FB.
  - intros c1 c2 x1 x2 D1 D2 G1 G2 (O1 & O2 & O3 & O4) BV. destruct H as [H|(y & HB & HC)]; [auto|]. apply (wi_comp _ _ _ _ D1 D2 G1 G2); auto. unfold okpair. splits; auto.
    destruct (forbidden (c_body x1) (c_body x2) w) eqn:FB; [|reflexivity]. apply forbidden_in in FB. rewrite <- O4. symmetry. apply forbidden_in. cbn [set_nocoll ww_nocoll]. unfold l. apply filter_In. split; [exact FB|].
    destruct (pair_eqb (body_pair b1 b2) (body_pair (c_body x1) (c_body x2))) eqn:Q; [|reflexivity]. exfalso. apply pair_eqb_eq in Q.
    change (thec c1 w = Some x1) in D1. change (thec c2 w = Some x2) in D2. destruct (wi_coll _ _ D1) as (u1 & U1 & V1). destruct (wi_coll _ _ D2) as (u2 & U2 & V2).
    assert (Z1 : u1 = y -> False) by (intros ->; rewrite HC in V1; exact V1). assert (Z2 : u2 = y -> False) by (intros ->; rewrite HC in V2; exact V2).
    destruct (body_pair_inj _ _ _ _ Q) as [(E1 & E2)|(E1 & E2)]; destruct HB as [HB|HB]; [apply Z1|apply Z2|apply Z2|apply Z1]; congruence.
Qed.

Lemma destroy_joint_ok : forall E w j x, WInv none none E none none w -> thej j w = Some x ->
  (j_collide x = true \/ (forall id, E id) \/ (exists y, (theb (j_b1 x) w = Some y \/ theb (j_b2 x) w = Some y) /\ b_colliders y = [])) ->
  exists w', destroy_joint box j w = Ok w' /\ WInv none none E none none w' /\ ww_joints _ w' = m_remove Z.eqb j (ww_joints _ w) /\
    ww_nocoll _ w' = (if j_collide x then ww_nocoll _ w else filter (fun q => negb (pair_eqb (body_pair (j_b1 x) (j_b2 x)) q)) (ww_nocoll _ w)) /\
    ww_coll _ w' = ww_coll _ w /\ ww_lost _ w' = ww_lost _ w /\
    (forall b y, theb b w = Some y -> exists y', theb b w' = Some y' /\ b_colliders y' = b_colliders y).
Proof.
  intros E w j x I J H. unfold destroy_joint. rewrite J. cbn [rd bind].
  set (w1 := if j_collide x then w else remove_no_collision box (j_b1 x) (j_b2 x) w).
  assert (I1 : WInv none none E none none w1). { unfold w1. destruct (j_collide x) eqn:JC; [exact I|]. apply unforbid_ok; [exact I|]. destruct H as [H|[H|H]]; [discriminate|auto|auto]. }
  assert (EQ : ww_bodies _ w1 = ww_bodies _ w /\ ww_coll _ w1 = ww_coll _ w /\ ww_lost _ w1 = ww_lost _ w /\ ww_joints _ w1 = ww_joints _ w /\
    ww_nocoll _ w1 = (if j_collide x then ww_nocoll _ w else filter (fun q => negb (pair_eqb (body_pair (j_b1 x) (j_b2 x)) q)) (ww_nocoll _ w))) by (unfold w1; destruct (j_collide x); splits; reflexivity).
  destruct EQ as (Q1 & Q2 & Q3 & Q4 & Q5). destruct (wi_joint I _ _ J) as ((y1 & Y1) & (y2 & Y2) & _). rewrite <- Q1 in Y1, Y2.
  destruct (set_sleeping_ok box overlap overlap_sym E none none w1 (j_b1 x) false y1 I1 Y1) as (w2 & R2 & I2 & F2 & _). rewrite R2. cbn [bind].
  destruct (f_body F2 _ _ Y2) as (y3 & Y3 & _).
  destruct (set_sleeping_ok box overlap overlap_sym E none none w2 (j_b2 x) false y3 I2 Y3) as (w3 & R3 & I3 & F3 & _). rewrite R3. cbn [bind].
  pose proof (frame_trans _ _ _ _ F2 F3) as FF. eexists. split; [reflexivity|]. cbn [set_joints ww_joints ww_nocoll ww_coll ww_lost ww_bodies]. splits.
  - apply set_joints_ok; [exact I3|]. intros k z. rewrite lookup_remove. destruct (k =? j); [discriminate|]. exact (wi_joint I3 k z).
  - rewrite (f_joints FF), Q4. reflexivity.
  - rewrite (f_nocoll FF), Q5. reflexivity.
  - rewrite (f_coll FF), Q2. reflexivity.
  - rewrite (f_lost FF), Q3. reflexivity.
  - intros b y B. rewrite <- Q1 in B. destruct (f_body FF _ _ B) as (y' & K1 & _ & _ & K2). eauto.
Qed.

(** ** Bodies *)
Lemma create_body_ok : forall E w b, WInv none none E none none w -> theb b w = None -> WInv none none E none none (create_body box b w) /\ Jsame w (create_body box b w).
Proof.
  intros E w b I B. split; [|unfold create_body; unfold WorldProofs3.Jsame; auto]. unfold create_body. set (y0 := mk_body Dynamic true false false []).
  assert (L : forall k, theb k (put_body box b y0 w) = if k =? b then Some y0 else theb k w) by (intros; apply put_body_lookup).
  assert (L2 : forall k z, theb k w = Some z -> theb k (put_body box b y0 w) = Some z) by (intros k z K; rewrite L; destruct (Z.eqb_spec k b) as [->|]; [congruence|exact K]).
  assert (L3 : forall k z, theb k (put_body box b y0 w) = Some z -> z = y0 \/ theb k w = Some z) by (intros k z; rewrite L; destruct (k =? b); [intros K; injection K as <-; auto|auto]).
  assert (L4 : forall c x z, thec c w = Some x -> theb (c_body x) (put_body box b y0 w) = Some z -> theb (c_body x) w = Some z).
  { intros c x z C. destruct (wi_coll I _ _ C) as (u & U & _). rewrite L. destruct (Z.eqb_spec (c_body x) b) as [E1|]; [congruence|auto]. }
  destruct I. constructor; auto.
  - intros c x C. destruct (wi_coll _ _ C) as (u & U & V). eauto.
  - intros k z c K C. destruct (L3 _ _ K) as [->|K2]; [destruct C|eauto].
  - intros k z K. destruct (L3 _ _ K) as [->|K2]; [constructor|eauto].
  - intros c x z C K. eapply wi_active; eauto.
  - intros id p x1 x2 z1 z2 P EN C1 C2 K1 K2. eapply wi_dis; eauto.
  - intros k z K. destruct (L3 _ _ K) as [->|K2]; [auto|eauto].
  - intros j x J. destruct (wi_joint _ _ J) as ((z1 & Z1) & (z2 & Z2) & N). splits; eauto.
Qed.

Lemma filter_notin : forall c l, NoDup (c :: l) -> filter (fun d => negb (d =? c)) (c :: l) = l.
Proof.
  intros c l ND. inversion ND; subst. cbn [filter]. rewrite Z.eqb_refl. cbn [negb]. clear ND H2. induction l as [|a l IH]; [reflexivity|]. cbn [filter]. destruct (Z.eqb_spec a c) as [->|N]; [exfalso; apply H1; left; reflexivity|].
  cbn [negb]. f_equal. apply IH. intros K. apply H1. right. exact K.
Qed.

Lemma destroy_body_ok : forall E w b y, WInv none none E none none w -> theb b w = Some y -> (forall c, In c (b_colliders y) -> ~ in_lost box c w) ->
  exists w', destroy_body box b w = Ok w' /\ WInv none none E none none w' /\
    (forall j x, thej j w' = Some x -> thej j w = Some x /\ j_b1 x <> b /\ j_b2 x <> b) /\
    (forall q, In q (ww_nocoll _ w) -> In q (ww_nocoll _ w') \/ exists j x, thej j w = Some x /\ (j_b1 x = b \/ j_b2 x = b) /\ j_collide x = false /\ q = body_pair (j_b1 x) (j_b2 x)) /\ (JInv2 w -> JInv2 w').
Proof.
  intros E w b y I B NL. unfold destroy_body, get_body. rewrite B. cbn [rd bind].
  destruct (each_ind box Z (fun l w1 => WInv none none E none none w1 /\ Jsame w w1 /\ exists y1, theb b w1 = Some y1 /\ b_colliders y1 = l) (remove_collider box) (b_colliders y) w) as (w1 & R1 & I1 & J1 & y1 & B1 & C1).
  - intros c l w1 SUB (I1 & J1 & y1 & B1 & C1). assert (CI : In c (b_colliders y1)) by (rewrite C1; left; reflexivity). destruct (wi_body I1 _ _ _ B1 CI) as (x & X1 & X2).
    assert (NL1 : ~ in_lost box c w1). { unfold in_lost. destruct J1 as (_ & _ & ->). apply NL. apply SUB. left. reflexivity. }
    assert (B2 : theb (c_body x) w1 = Some y1) by (rewrite X2; exact B1).
    destruct (remove_collider_ok box overlap overlap_sym E none w1 c x y1 I1 X1 B2 NL1) as (w2 & R2 & I2 & J2 & (y2 & Y1 & Y2) & _). exists w2. splits; auto; [eapply jsame_trans; eassumption|].
    exists y2. rewrite X2 in Y1. split; [exact Y1|]. rewrite Y2, C1. apply filter_notin. rewrite <- C1. exact (wi_nodup I1 _ _ B1).
  - splits; auto using jsame_refl. eauto.
  - rewrite R1. cbn [bind]. destruct J1 as (Q1 & Q2 & Q3).
    assert (JO : forall j, In j (joints_of box b w1) <-> exists x, thej j w1 = Some x /\ (j_b1 x = b \/ j_b2 x = b)).
    { intros j. unfold joints_of. rewrite filter_In, nodup_In. split.
      - intros (_ & K). destruct (thej j w1) as [x|]; [|discriminate]. exists x. split; [reflexivity|]. apply Bool.orb_true_iff in K. rewrite !Z.eqb_eq in K. exact K.
      - intros (x & J & K). split; [|rewrite J; apply Bool.orb_true_iff; rewrite !Z.eqb_eq; exact K]. clear K Q1. induction (ww_joints box w1) as [|[a v] m IH]; [discriminate|]. cbn [lookup map fst] in *. destruct (Z.eqb_spec a j); [left; assumption|right; auto]. }
    destruct (each_ind box Z (fun l w2 => WInv none none E none none w2 /\ (exists y2, theb b w2 = Some y2 /\ b_colliders y2 = []) /\ NoDup l /\
      (forall j, In j l -> exists x, thej j w2 = Some x /\ (j_b1 x = b \/ j_b2 x = b)) /\ (forall j x, thej j w2 = Some x -> thej j w = Some x /\ (j_b1 x = b \/ j_b2 x = b -> In j l)) /\
      (forall q, In q (ww_nocoll _ w) -> In q (ww_nocoll _ w2) \/ exists j x, thej j w = Some x /\ (j_b1 x = b \/ j_b2 x = b) /\ j_collide x = false /\ q = body_pair (j_b1 x) (j_b2 x)) /\ (JInv2 w -> JInv2 w2))
      (destroy_joint box) (joints_of box b w1) w1) as (w2 & R2 & I2 & (y2 & B2 & C2) & _ & _ & K1 & K2 & K3).
    + intros j l w2 SUB (I2 & (y2 & B2 & C2) & ND & HJ & K1 & K2 & K3). destruct (HJ j (or_introl eq_refl)) as (x & J & JB).
      destruct (destroy_joint_ok E w2 j x I2 J) as (w3 & R3 & I3 & J3 & N3 & _ & _ & B3). { right. right. exists y2. split; [|exact C2]. destruct JB as [<-|<-]; auto. }
      exists w3. inversion ND as [|? ? NI ND2]; subst. splits; auto.
      * destruct (B3 _ _ B2) as (y3 & Y1 & Y2). exists y3. split; congruence.
      * intros k IN. rewrite J3, lookup_remove. destruct (Z.eqb_spec k j) as [->|]; [contradiction|]. apply HJ. right. exact IN.
      * intros k z. rewrite J3, lookup_remove. destruct (Z.eqb_spec k j) as [->|NE]; [discriminate|]. intros K. destruct (K1 _ _ K) as (U1 & U2). split; [exact U1|]. intros U3. destruct (U2 U3); [congruence|assumption].
      * intros q Q. rewrite N3. destruct (K2 q Q) as [U|U]; [|right; exact U]. destruct (j_collide x) eqn:JC; [left; exact U|]. destruct (pair_eqb (body_pair (j_b1 x) (j_b2 x)) q) eqn:PQ.
        -- right. exists j, x. apply pair_eqb_eq in PQ. splits; auto. apply K1. exact J.
        -- left. apply filter_In. rewrite PQ. auto.
      * intros H2. eapply jinv2_destroy; eauto.
    + rewrite Q1, Q2. splits; auto.
      * eauto.
      * unfold joints_of. apply NoDup_filter. apply NoDup_nodup.
      * intros j IN. apply JO in IN. rewrite Q1 in IN. exact IN.
      * intros j x J. split; [exact J|]. intros K. apply JO. exists x. rewrite Q1. auto.
      * apply jinv2_same; auto.
    + rewrite R2. cbn [bind]. eexists. split; [reflexivity|]. cbn [set_bodies ww_joints ww_nocoll]. splits; auto.
      * assert (L : forall k, theb k (set_bodies box (m_remove Z.eqb b (ww_bodies box w2)) w2) = if k =? b then None else theb k w2) by (intros k; cbn [set_bodies ww_bodies]; apply lookup_remove).
        assert (L2 : forall k z, theb k (set_bodies box (m_remove Z.eqb b (ww_bodies box w2)) w2) = Some z -> theb k w2 = Some z) by (intros k z; rewrite L; destruct (k =? b); [discriminate|auto]).
        destruct I2. constructor; try assumption.
        -- intros c x C. destruct (wi_coll _ _ C) as (u & U1 & U2). exists u. rewrite L. destruct (Z.eqb_spec (c_body x) b) as [E1|]; [|auto]. exfalso. rewrite E1, B2 in U1. injection U1 as <-. rewrite C2 in U2. exact U2.
        -- intros k z c K. apply L2 in K. exact (wi_body _ _ _ K).
        -- intros k z K. apply L2 in K. eauto.
        -- intros c x z C K. apply L2 in K. eapply wi_active; eauto.
        -- intros id p x1 x2 z1 z2 P EN D1 D2 U1 U2. apply L2 in U1, U2. eapply wi_dis; eauto.
        -- intros k z K. apply L2 in K. eauto.
        -- intros j x J. destruct (wi_joint _ _ J) as ((z1 & Z1) & (z2 & Z2) & N). destruct (K1 _ _ J) as (_ & U). rewrite !L. destruct (Z.eqb_spec (j_b1 x) b) as [E1|]; [destruct (U (or_introl E1))|]. destruct (Z.eqb_spec (j_b2 x) b) as [E1|]; [destruct (U (or_intror E1))|]. splits; eauto.
      * intros j x J. destruct (K1 _ _ J) as (U1 & U2). splits; auto; intros K; destruct U2; auto.
Qed.

(** ** Broad phase *)
Lemma overlapping_nodes_ok : forall X Y E F XA w, WInv X Y E F XA w -> exists l, overlapping_nodes box overlap w = Ok l /\
  forall m k, In (m, k) l <-> In m (ww_moved _ w) /\ bov w m k.
Proof.
  intros X Y E F XA w I. unfold overlapping_nodes.
  assert (G : forall ms, incl ms (ww_moved _ w) -> exists l, (fix go (l : list Z) : res (list (Z * Z)) :=
     match l with [] => Ok [] | m :: l' => let* bm := rd (lookup Z.eqb m (ww_tree box w)) in let* r := go l' in
         Ok (map (fun e => (m, fst e)) (filter (fun e => overlap bm (snd e)) (ww_tree box w)) ++ r) end) ms = Ok l /\ forall m k, In (m, k) l <-> In m ms /\ bov w m k).
  { induction ms as [|m ms IH]; intros SUB; [exists []; split; [reflexivity|]; cbn; tauto|]. destruct IH as (l & R & H); [intros x K; apply SUB; right; exact K|].
    destruct (wi_moved I m) as (bm & BM); [apply SUB; left; reflexivity|]. rewrite BM. cbn [rd bind]. rewrite R. cbn [bind]. eexists. split; [reflexivity|]. intros m' k. rewrite in_app_iff, in_map_iff, H. cbn [In]. split.
    - intros [((n & bn) & K & IN)|(K1 & K2)]; [|auto]. cbn in K. injection K as <- <-. apply filter_In in IN. destruct IN as (IN & OV). cbn in OV. split; [auto|]. exists bm, bn. splits; auto. apply (wi_treeu I). exact IN.
    - intros ([<-|K1] & K2); [|auto]. left. destruct K2 as (a & b & L1 & L2 & OV). rewrite BM in L1. injection L1 as <-. exists (k, b). split; [reflexivity|]. apply filter_In. split; [|exact OV].
      clear - L2. induction (ww_tree box w) as [|[n v] t IH]; [discriminate|]. cbn [lookup] in L2. destruct (Z.eqb_spec n k) as [->|]; [injection L2 as ->; left; reflexivity|right; auto]. }
  apply (G (ww_moved _ w)). intros x K. exact K.
Qed.

Lemma bov_sym : forall w a b, bov w a b -> bov w b a.
Proof. intros w a b (x & y & L1 & L2 & O). exists y, x. splits; auto. rewrite overlap_sym. exact O. Qed.

Lemma add_pair_ok : forall E w c1 c2 x1 x2 cv, WInv none none E none none w -> thec c1 w = Some x1 -> thec c2 w = Some x2 -> c_node x1 <> -1 -> c_node x2 <> -1 ->
  c_body x1 <> c_body x2 -> forbidden (c_body x1) (c_body x2) w = false -> bov w (c_node x1) (c_node x2) -> thep (pair_id (c_node x1) (c_node x2)) w = None ->
  exists w', pairs_step box (PAdd c1 (c_node x1) c2 (c_node x2) cv) w = Ok w' /\ WInv none none E none none w' /\
    (exists s, w' = set_pairs box s w) /\ (forall id, thep id w <> None -> thep id w' <> None) /\ thep (pair_id (c_node x1) (c_node x2)) w' <> None.
Proof.
  intros E w c1 c2 x1 x2 cv I C1 C2 N1 N2 NB FB BV NP. unfold pairs_step, pspec_step. rewrite has_lookup, NP. cbn [orb].
  assert (NC : c1 <> c2) by congruence. apply Z.eqb_neq in NC. rewrite NC.
  assert (S1 : existsb (Z.eqb c1) (sp_coll (ww_pairs box w)) = true) by (apply existsb_in, (wi_pcoll I); eauto). assert (S2 : existsb (Z.eqb c2) (sp_coll (ww_pairs box w)) = true) by (apply existsb_in, (wi_pcoll I); eauto).
  rewrite S1, S2. cbn [orb negb bind]. eexists. split; [reflexivity|]. set (id0 := pair_id (c_node x1) (c_node x2)) in *. set (q := new_pair _ _ _ _ _ _ _). set (w' := set_pairs box _ w).
  assert (L : forall id, thep id w' = if id =? id0 then Some q else thep id w) by (intros id; unfold w'; cbn [set_pairs ww_pairs sp_pairs]; apply lookup_set).
  assert (L2 : forall id p, thep id w' = Some p -> (id = id0 /\ p = q) \/ thep id w = Some p) by (intros id p; rewrite L; destruct (Z.eqb_spec id id0); [intros K; injection K as <-; auto|auto]).
  splits.
  - destruct I. constructor; auto.
    + intros id p P. destruct (L2 _ _ P) as [(-> & ->)|P0]; [|exact (wi_pair _ _ P0)]. cbn. splits; auto. exists x1, x2. splits; auto. intros K. change (forbidden (c_body x1) (c_body x2) w = true) in K. congruence.
    + intros id p z1 z2 y1 y2 P EN. destruct (L2 _ _ P) as [(-> & ->)|P0]; [discriminate|exact (wi_dis _ _ _ _ _ _ P0 EN)].
    + intros id p P EN T. destruct (L2 _ _ P) as [(-> & ->)|P0]; [left; exact BV|exact (wi_test _ _ P0 EN T)].
    + intros d1 d2 z1 z2 D1 D2 G1 G2 OK OV. destruct (wi_comp _ _ _ _ D1 D2 G1 G2 OK OV) as [(p & P)|[K|[K|K]]]; auto. left. rewrite L. destruct (_ =? id0); eauto.
  - eexists. reflexivity.
  - intros id. rewrite L. destruct (id =? id0); [discriminate|auto].
  - rewrite L, Z.eqb_refl. discriminate.
Qed.

Definition left_nodes (l : list (Z * Z)) (id : Z) : Prop := exists n1 n2, In (n1, n2) l /\ id = pair_id n1 n2.

Lemma update_nodes_ok : forall E w nn l, WInv none none (fun id => E id \/ left_nodes (nn :: l) id) none none w -> bov w (fst nn) (snd nn) ->
  exists w', update_pair_of_nodes box nn w = Ok w' /\ WInv none none (fun id => E id \/ left_nodes l id) none none w' /\ exists s, w' = set_pairs box s w.
Proof.
  intros E w (n1 & n2) l I BV. cbn [fst snd] in BV. unfold update_pair_of_nodes. set (E1 := fun id => E id \/ left_nodes ((n1, n2) :: l) id) in *.
  assert (REF : exists s, w = set_pairs box s w) by (exists (ww_pairs _ w); destruct w; reflexivity).
  pose proof BV as BV0. destruct BV as (b1 & b2 & T1 & T2 & OV). destruct (wi_tree I _ _ T1) as (c1 & M1). destruct (wi_tree I _ _ T2) as (c2 & M2).
  destruct (wi_map I _ _ M1) as (NN1 & x1 & C1 & Q1). destruct (wi_map I _ _ M2) as (NN2 & x2 & C2 & Q2).
  (* dropping the pair from the set of pending pairs *)
  assert (DROP : forall w1, WInv none none E1 none none w1 -> ww_coll _ w1 = ww_coll _ w -> ww_map _ w1 = ww_map _ w -> ww_tree _ w1 = ww_tree _ w -> ww_nocoll _ w1 = ww_nocoll _ w -> ww_moved _ w1 = ww_moved _ w ->
    (thep (pair_id n1 n2) w1 <> None \/ n1 = n2 \/ ~ okpair box x1 x2 w) -> WInv none none (fun id => E id \/ left_nodes l id) none none w1).
  { intros w1 I1 EC EM ET EN EV H. pose proof I1 as I1c. destruct I1. constructor; auto. intros d1 d2 z1 z2 D1 D2 G1 G2 OK BV. destruct (wi_comp _ _ _ _ D1 D2 G1 G2 OK BV) as [K|[K|[K|[K|(m1 & m2 & IN & EQ)]]]]; auto.
    destruct IN as [IN|IN]; [|right; right; right; right; exists m1, m2; auto]. injection IN as <- <-. rewrite EC in D1, D2.
    destruct (WorldProofs.wi_node I _ _ D1 G1) as (R1 & U1 & _). destruct (WorldProofs.wi_node I _ _ D2 G2) as (R2 & U2 & _).
    assert (RN1 : 0 <= n1 < 2 ^ 31) by (rewrite <- Q1; apply (WorldProofs.wi_node I _ _ C1); congruence). assert (RN2 : 0 <= n2 < 2 ^ 31) by (rewrite <- Q2; apply (WorldProofs.wi_node I _ _ C2); congruence).
    destruct H as [H|[H|H]].
    - left. rewrite EQ. destruct (thep (pair_id n1 n2) w1); [eauto|contradiction].
    - exfalso. destruct OK as (O1 & _). apply O1. destruct (pair_id_inj (c_node z1) (c_node z2) n1 n2) as [(W1 & W2)|(W1 & W2)]; [lia|lia|lia|lia|exact EQ| |]; rewrite W1 in U1; rewrite W2 in U2; rewrite H in *; congruence.
    - exfalso. apply H. destruct OK as (O1 & O2 & O3 & O4). assert (O4' : forbidden (c_body z1) (c_body z2) w = false) by (unfold WorldModel.forbidden in *; rewrite EN in O4; exact O4).
      destruct (pair_id_inj (c_node z1) (c_node z2) n1 n2) as [(W1 & W2)|(W1 & W2)]; [lia|lia|lia|lia|exact EQ| |]; rewrite W1 in U1; rewrite W2 in U2.
      + assert (d1 = c1) by congruence. assert (d2 = c2) by congruence. subst d1 d2. rewrite C1 in D1. injection D1 as <-. rewrite C2 in D2. injection D2 as <-. unfold okpair. auto.
      + assert (d1 = c2) by congruence. assert (d2 = c1) by congruence. subst d1 d2. rewrite C2 in D1. injection D1 as <-. rewrite C1 in D2. injection D2 as <-. unfold okpair. splits; auto.
        * unfold filter_pass in *. rewrite (Z.land_comm (c_mask x1)), (Z.land_comm (c_cat x1)). rewrite Bool.andb_comm. exact O2.
        * rewrite Bool.orb_comm. exact O3.
        * unfold WorldModel.forbidden in *. rewrite body_pair_sym. exact O4'. }
  destruct (Z.eqb_spec n1 n2) as [EQN|NEN]; [exists w; splits; auto|].
  rewrite M1, M2. cbn [rd bind]. unfold get_coll. rewrite C1, C2. cbn [rd bind].
  destruct ((c_body x1 =? c_body x2) || forbidden (c_body x1) (c_body x2) w) eqn:SB.
  { exists w. splits; auto. apply DROP; auto. right. right. intros (O1 & _ & _ & O4). rewrite O4 in SB. apply Z.eqb_neq in O1. rewrite O1 in SB. discriminate. }
  apply Bool.orb_false_iff in SB. destruct SB as (SB1 & SB2). apply Z.eqb_neq in SB1. unfold find. destruct (thep (pair_id n1 n2) w) as [p|] eqn:P.
  - unfold pairs_step, pspec_step. rewrite P. cbn [bind]. eexists. split; [reflexivity|]. split; [|eexists; reflexivity]. apply DROP; auto.
    + apply (replace_pair box overlap overlap_sym none none E1 none none w _ p); auto.
      * intros EN y1' y2' u1 u2 A1 A2 A3 A4. exact (wi_dis I _ _ _ _ _ _ P EN A1 A2 A3 A4).
      * intros _ _. left. destruct (pair_range box overlap _ _ _ _ _ w _ p I P) as (z1 & z2 & D1 & D2 & D3 & D4 & R1 & R2 & _). destruct (wi_pair I _ _ P) as (_ & EQ & _).
        assert (RN1 : 0 <= n1 < 2 ^ 31) by (rewrite <- Q1; apply (WorldProofs.wi_node I _ _ C1); congruence). assert (RN2 : 0 <= n2 < 2 ^ 31) by (rewrite <- Q2; apply (WorldProofs.wi_node I _ _ C2); congruence).
        destruct (pair_id_inj n1 n2 (p_b1 p) (p_b2 p)) as [(W1 & W2)|(W1 & W2)]; [lia|lia|lia|lia|exact EQ| |]; rewrite <- W1, <- W2; [exact BV0|apply bov_sym; exact BV0].
    + left. cbn [set_pairs ww_pairs sp_pairs]. rewrite lookup_set, Z.eqb_refl. discriminate.
  - destruct (filter_pass x1 x2 && (c_convex x1 || c_convex x2)) eqn:FP.
    + destruct (add_pair_ok E1 w c1 c2 x1 x2 (c_convex x1 && c_convex x2) I C1 C2) as (w' & R & I' & (s & S) & K1 & K2); rewrite ?Q1, ?Q2; auto.
      rewrite Q1, Q2 in *. exists w'. splits; auto; [|eauto]. subst w'. apply DROP; auto.
    + exists w. splits; auto. apply DROP; auto. right. right. intros (_ & O2 & O3 & _). rewrite O2, O3 in FP. discriminate.
Qed.

Lemma retest_all_ok : forall E w, WInv none none E none none w -> exists w', each box (retest_pair box overlap) (all_ids box w) w = Ok w' /\ WInv none none E none none w' /\
  ww_joints _ w' = ww_joints _ w /\ ww_nocoll _ w' = ww_nocoll _ w /\ ww_moved _ w' = ww_moved _ w /\ (forall id p, thep id w' = Some p -> p_enabled p = true -> p_test p = false).
Proof.
  intros E w I.
  destruct (each_ind box Z (fun l w1 => WInv none none E none none w1 /\ ww_joints _ w1 = ww_joints _ w /\ ww_nocoll _ w1 = ww_nocoll _ w /\ ww_moved _ w1 = ww_moved _ w /\ NoDup l /\
    (forall id, In id l -> exists p, thep id w1 = Some p) /\ (forall id p, thep id w1 = Some p -> p_enabled p = true -> p_test p = false \/ In id l)) (retest_pair box overlap) (all_ids box w) w) as (w' & R & I' & J' & N' & M' & _ & _ & T').
  - intros id l w1 SUB (I1 & J1 & N1 & M1 & ND & H1 & T1). inversion ND as [|? ? NI ND2]; subst. destruct (H1 id (or_introl eq_refl)) as (p & P). unfold retest_pair, find. rewrite P. cbn [rd bind].
    assert (REST : forall k, In k l -> k <> id) by (intros k K ->; contradiction).
    destruct (p_enabled p && p_test p) eqn:ET.
    2: { exists w1. splits; auto; [intros k K; apply H1; right; exact K|]. intros k q Q EN. destruct (T1 _ _ Q EN) as [|[<-|]]; auto. rewrite P in Q. injection Q as <-. rewrite EN in ET. auto. }
    apply Bool.andb_true_iff in ET. destruct ET as (EN & TE).
    destruct (pair_range box overlap _ _ _ _ _ w1 _ p I1 P) as (z1 & z2 & D1 & D2 & D3 & D4 & R1 & R2 & _ & _ & (bx1 & T1') & (bx2 & T2') & _). rewrite T1', T2'. cbn [rd bind].
    destruct (overlap bx1 bx2) eqn:OV.
    + unfold pairs_step, pspec_step. rewrite P. cbn [bind]. eexists. split; [reflexivity|]. cbn [set_pairs ww_joints ww_nocoll ww_moved ww_pairs sp_pairs]. splits; auto.
      * apply (replace_pair box overlap overlap_sym none none E none none w1 _ p); auto; [cbn; congruence|]. intros _ _. left. exists bx1, bx2. auto.
      * intros k K. rewrite lookup_set. destruct (k =? id); [eauto|]. apply H1. right. exact K.
      * intros k q. rewrite lookup_set. destruct (Z.eqb_spec k id) as [->|NE]; intros Q QE; [injection Q as <-; auto|]. destruct (T1 _ _ Q QE) as [|[|]]; auto. congruence.
    + set (w2 := if p_prev p then add_lost box p w1 else w1).
      assert (I2 : WInv none none E none none w2) by (unfold w2; destruct (p_prev p); [eapply lost_add; eauto|exact I1]).
      assert (EQ2 : ww_pairs _ w2 = ww_pairs _ w1 /\ ww_joints _ w2 = ww_joints _ w1 /\ ww_nocoll _ w2 = ww_nocoll _ w1 /\ ww_moved _ w2 = ww_moved _ w1 /\ ww_tree _ w2 = ww_tree _ w1) by (unfold w2; destruct (p_prev p); splits; reflexivity).
      destruct EQ2 as (Q1 & Q2 & Q3 & Q4 & Q5). unfold pairs_step, pspec_step. cbn [bind]. eexists. split; [reflexivity|]. cbn [set_pairs ww_joints ww_nocoll ww_moved ww_pairs sp_pairs]. rewrite Q1. splits; auto; try congruence.
      * rewrite <- Q1. apply (remove_pair_ok box overlap overlap_sym _ _ _ _ _ w2 id p I2); [rewrite Q1; exact P|]. right. left. intros (a & b & L1 & L2 & O). rewrite Q5 in L1, L2. congruence.
      * intros k K. rewrite lookup_remove. pose proof (REST _ K) as NE. apply Z.eqb_neq in NE. rewrite NE. apply H1. right. exact K.
      * intros k q. rewrite lookup_remove. destruct (Z.eqb_spec k id) as [->|NE]; [discriminate|]. intros Q QE. destruct (T1 _ _ Q QE) as [|[|]]; auto. congruence.
  - splits; auto; [unfold all_ids; apply NoDup_nodup|intros id K; apply in_all_ids in K; exact K|]. intros id p P _. right. apply in_all_ids. eauto.
  - exists w'. splits; auto. intros id p P EN. destruct (T' _ _ P EN) as [|[]]. assumption.
Qed.

Lemma broad_phase_ok : forall E w, WInv none none E none none w -> exists w', broad_phase box overlap w = Ok w' /\ WInv none none E none none w' /\
  ww_joints _ w' = ww_joints _ w /\ ww_nocoll _ w' = ww_nocoll _ w /\ ww_moved _ w' = [] /\ (forall id p, thep id w' = Some p -> p_enabled p = true -> p_test p = false).
Proof.
  intros E w I. unfold broad_phase. destruct (overlapping_nodes_ok _ _ _ _ _ w I) as (l & R & H). rewrite R. cbn [bind].
  assert (I1 : WInv none none (fun id => E id \/ left_nodes l id) none none (set_moved box [] w)).
  { pose proof I as I0. destruct I. constructor; auto; [intros n []|]. intros c1 c2 x1 x2 D1 D2 G1 G2 OK BV. destruct (wi_comp _ _ _ _ D1 D2 G1 G2 OK BV) as [K|[K|[K|K]]]; auto; right; right; right; right.
    - exists (c_node x1), (c_node x2). split; [apply H; auto|reflexivity].
    - exists (c_node x2), (c_node x1). split; [apply H; split; [exact K|apply bov_sym; exact BV]|apply pair_id_sym]. }
  set (w1 := set_moved box [] w) in *.
  destruct (each_ind box (Z * Z) (fun l2 w2 => WInv none none (fun id => E id \/ left_nodes l2 id) none none w2 /\ exists s, w2 = set_pairs box s w1) (update_pair_of_nodes box) l w1) as (w2 & R2 & I2 & s & S2).
  - intros nn l2 w2 SUB (I2 & s & S2). destruct (update_nodes_ok E w2 nn l2 I2) as (w3 & R3 & I3 & s3 & S3).
    + assert (IN : In nn l) by (apply SUB; left; reflexivity). destruct nn as (m & k). apply H in IN. destruct IN as (_ & K). subst w2. exact K.
    + exists w3. splits; auto. exists s3. subst w2. exact S3.
  - split; [exact I1|]. exists (ww_pairs _ w1). destruct w; reflexivity.
  - rewrite R2. cbn [bind]. destruct (retest_all_ok E w2) as (w3 & R3 & I3 & J3 & N3 & M3 & T3).
    + eapply winv_weaken; eauto. intros id [K|(n1 & n2 & [] & _)]. exact K.
    + exists w3. splits; auto; [rewrite J3|rewrite N3|rewrite M3]; subst w2; reflexivity.
Qed.

(** ** Narrow phase, contacts to report *)
Lemma lookup_map_flags : forall (f : pair -> pair) m id, lookup Z.eqb id (map (fun e : Z * pair => (fst e, f (snd e))) m) = match lookup Z.eqb id m with Some p => Some (f p) | None => None end.
Proof. intros f m id. induction m as [|[a v] m IH]; [reflexivity|]. cbn [map lookup fst snd]. destruct (a =? id); [reflexivity|exact IH]. Qed.
Lemma map_flags_ok : forall E w (f : pair -> pair), WInv none none E none none w -> (forall p, core (f p) = core p /\ p_enabled (f p) = p_enabled p /\ p_test (f p) = p_test p) ->
  WInv none none E none none (set_pairs box (mk_pspec (map (fun e => (fst e, f (snd e))) (sp_pairs (ww_pairs _ w))) (sp_coll (ww_pairs _ w))) w).
Proof.
  intros E w f I H. assert (L : forall id p', lookup Z.eqb id (map (fun e : Z * pair => (fst e, f (snd e))) (sp_pairs (ww_pairs box w))) = Some p' -> exists p, thep id w = Some p /\ p' = f p).
  { intros id p'. rewrite lookup_map_flags. destruct (lookup Z.eqb id (sp_pairs (ww_pairs box w))) as [p|]; [intros K; injection K as <-; eauto|discriminate]. }
  apply (pairs_change box overlap overlap_sym none none E none); auto; cbn [sp_pairs sp_coll].
  - intros id p' P'. destruct (L _ _ P') as (p & P & ->). exists p. split; [exact P|apply H].
  - intros id p' x1 x2 y1 y2 P' EN C1 C2. destruct (L _ _ P') as (p & P & ->). destruct (H p) as (K1 & K2 & K3). destruct (core_fields _ _ K1) as (_ & _ & _ & Q1 & Q2). rewrite Q1 in C1. rewrite Q2 in C2. rewrite K2 in EN. exact (wi_dis I _ _ _ _ _ _ P EN C1 C2).
  - intros id p' P' EN T. destruct (L _ _ P') as (p & P & ->). destruct (H p) as (K1 & K2 & K3). destruct (core_fields _ _ K1) as (_ & Q1 & Q2 & _). rewrite Q1, Q2. rewrite K2 in EN. rewrite K3 in T. exact (wi_test I _ _ P EN T).
  - intros id p P. rewrite lookup_map_flags, P. discriminate.
Qed.

Lemma narrow_phase_ok : forall E w ids, WInv none none E none none w -> exists w', narrow_phase box ids w = Ok w' /\ WInv none none E none none w' /\ Jsame w w'.
Proof.
  intros E w ids I. unfold narrow_phase. unfold pairs_step at 1. cbn [pspec_step bind].
  set (f := fun p => if p_enabled p then with_flags (p_prev p) false p else p). set (w1 := set_pairs box _ w).
  assert (I1 : WInv none none E none none w1). { apply (map_flags_ok E w f I). intros p. unfold f. destruct (p_enabled p) eqn:EN; auto. }
  destruct (each_ok box Z (fun w2 => WInv none none E none none w2 /\ Jsame w w2) (fun id w => match find box id w with Some p => if p_enabled p then pairs_step box (PSetColliding id) w else Ok w | None => Ok w end) ids w1) as (w' & R & I' & J').
  - intros id w2 _ (I2 & J2). unfold find. destruct (thep id w2) as [p|] eqn:P; [|exists w2; auto]. destruct (p_enabled p) eqn:EN; [|exists w2; auto]. unfold pairs_step, pspec_step. rewrite P. cbn [bind]. eexists. split; [reflexivity|]. split.
    + apply (replace_pair box overlap overlap_sym none none E none none w2 _ p); auto; cbn; [congruence|]. intros _ T. exact (wi_test I2 _ _ P EN T).
    + eapply jsame_trans; [exact J2|]. unfold WorldProofs3.Jsame. auto.
  - split; [exact I1|]. unfold w1, WorldProofs3.Jsame. auto.
  - exists w'. auto.
Qed.

Lemma lost_contacts_ok : forall E w, WInv none none E none none w -> WInv none none E none none (lost_contacts box w).
Proof.
  intros E w I. pose proof I as I0. destruct I. constructor; auto. unfold lost_contacts. cbn [set_lost ww_lost ww_coll]. intros e IN. apply in_app_iff in IN. destruct IN as [IN|IN]; [auto|].
  apply in_flat_map in IN. destruct IN as (id & _ & IN). unfold find in IN. destruct (thep id w) as [p|] eqn:P; [|destruct IN]. destruct (p_enabled p && p_prev p && negb (p_cur p)); [|destruct IN]. destruct IN as [<-|[]]. cbn.
  destruct (wi_pair _ _ P) as (_ & _ & _ & _ & x1 & x2 & C1 & C2 & _). split; eauto.
Qed.

Lemma report_ok : forall E w, WInv none none E none none w -> exists w', report box w = Ok w' /\ WInv none none E none none w' /\ ww_joints _ w' = ww_joints _ w /\ ww_nocoll _ w' = ww_nocoll _ w.
Proof.
  intros E w I. unfold report.
  assert (R : each box (fun e w => let* _ := get_coll box (fst e) w in let* _ := get_coll box (snd e) w in Ok w) (ww_lost box w) w = Ok w).
  { assert (G : forall l, incl l (ww_lost _ w) -> each box (fun e w => let* _ := get_coll box (fst e) w in let* _ := get_coll box (snd e) w in Ok w) l w = Ok w).
    { induction l as [|e l IH]; intros SUB; [reflexivity|]. cbn [each]. destruct (wi_lost I e) as ((a & A1) & (b & B1)); [apply SUB; left; reflexivity|]. unfold get_coll at 1 2. rewrite A1, B1. cbn [rd bind]. apply IH. intros x K. apply SUB. right. exact K. }
    apply G. intros x K. exact K. }
  rewrite R. cbn [bind]. unfold pairs_step. cbn [pspec_step bind]. eexists. split; [reflexivity|]. cbn [set_lost set_pairs ww_joints ww_nocoll]. splits; auto.
  set (f := fun p => if p_enabled p then with_flags (p_cur p) (p_cur p) p else p).
  assert (I1 : WInv none none E none none (set_pairs box (mk_pspec (map (fun e => (fst e, f (snd e))) (sp_pairs (ww_pairs _ w))) (sp_coll (ww_pairs _ w))) w)).
  { apply (map_flags_ok E w f I). intros p. unfold f. destruct (p_enabled p) eqn:EN; auto. }
  unfold f in I1. destruct I1. constructor; auto. intros e [].
Qed.

(** ** Histories *)
Variable covers : box -> box -> bool.
Variable inflate : box -> box.

Definition JInv (w : world) : Prop := forall j x, thej j w = Some x -> j_collide x = false ->
  forbidden (j_b1 x) (j_b2 x) w = true /\ forall k z, thej k w = Some z -> j_collide z = false -> body_pair (j_b1 z) (j_b2 z) = body_pair (j_b1 x) (j_b2 x) -> k = j.
Lemma jinv_same : forall w w', ww_joints _ w' = ww_joints _ w -> ww_nocoll _ w' = ww_nocoll _ w -> JInv w -> JInv w'.
Proof. intros w w' A B H. unfold JInv, WorldModel.forbidden in *. rewrite A, B. exact H. Qed.

Lemma init_winv : WInv none none none none none (init_world box).
Proof.
  constructor; cbn; try discriminate; try contradiction.
  - intros c. split; [intros []|intros (x & K); discriminate].
Qed.

Lemma joint_mode : forall strict single w j x w', allowed box strict single w (WDestroyJoint box j) -> thej j w = Some x -> JInv w ->
  ww_joints _ w' = m_remove Z.eqb j (ww_joints _ w) -> ww_nocoll _ w' = (if j_collide x then ww_nocoll _ w else filter (fun q => negb (pair_eqb (body_pair (j_b1 x) (j_b2 x)) q)) (ww_nocoll _ w)) -> JInv w'.
Proof.
  intros strict single w j x w' _ J H EJ EN k z K KC. rewrite EJ, lookup_remove in K. destruct (Z.eqb_spec k j) as [->|NE]; [discriminate|]. destruct (H _ _ K KC) as (H1 & H2). split.
  - apply forbidden_in. rewrite EN. apply forbidden_in in H1. destruct (j_collide x) eqn:JC; [exact H1|]. apply filter_In. split; [exact H1|]. destruct (pair_eqb _ _) eqn:Q; [|reflexivity]. exfalso. apply pair_eqb_eq in Q. apply NE. symmetry. apply (H2 _ _ J JC Q).
  - intros k' z' K' KC' Q. rewrite EJ, lookup_remove in K'. destruct (k' =? j); [discriminate|]. eauto.
Qed.

(** Every allowed call succeeds and keeps the invariant. *)
Lemma wstep_ok : forall (strict single : bool) E w op, WInv none none E none none w -> (strict = false -> forall id, E id) -> (single = true -> JInv w) -> JInv2 w -> allowed box strict single w op ->
  exists w', wstep box overlap covers inflate w op = Ok w' /\ WInv none none E none none w' /\ (single = true -> JInv w') /\ JInv2 w'.
Proof.
  intros strict single E w op I HE HJ HJ2 A.
  assert (JS : forall w', Jsame w w' -> (single = true -> JInv w') /\ JInv2 w') by (intros w' (J1 & J2 & _); split; [intros S; eapply jinv_same; eauto|eapply jinv2_same; eauto]).
  destruct op as [b|b|b c n bx cv|c|b t|b v node bx|b bx fo|c v|c v|j b1 b2 cl|j|b|b| |ids| | |b bx fo]; cbn [wstep allowed] in *; unfold the_body, the_coll, the_joint in A.
  - destruct (create_body_ok E w b I A) as (K1 & K2). eexists. split; [reflexivity|]. split; [exact K1|]. auto.
  - destruct A as (y & B & NL). destruct (destroy_body_ok E w b y I B NL) as (w' & R & I' & K1 & K2 & K3). exists w'. splits; auto. intros S j x J JC. destruct (K1 _ _ J) as (J0 & N1 & N2). destruct (HJ S _ _ J0 JC) as (H1 & H2). split.
    + apply forbidden_in in H1. apply forbidden_in. destruct (K2 _ H1) as [K|(k & z & Z1 & Z2 & Z3 & Z4)]; [exact K|]. exfalso. assert (k = j) by (eapply H2; eauto). subst k. rewrite J0 in Z1. injection Z1 as <-. destruct Z2; congruence.
    + intros k z K KC Q. destruct (K1 _ _ K) as (K0 & _). eauto.
  - destruct A as ((x & B) & C & FN). destruct (add_collider_ok box overlap inflate E none w b c n bx cv x I B C FN) as (w' & R & I' & J'). exists w'. split; [exact R|]. split; [exact I'|]. auto.
  - destruct A as ((x & C) & NL). destruct (wi_coll I _ _ C) as (y & B & _). destruct (remove_collider_ok box overlap overlap_sym E none w c x y I C B NL) as (w' & R & I' & J' & _). exists w'. split; [exact R|]. split; [exact I'|]. auto.
  - destruct A as (x & B & H). destruct (set_type_ok box overlap overlap_sym E none w b t x I B) as (w' & R & I' & J'); [|exists w'; split; [exact R|]; split; [exact I'|]; auto].
    intros T1 T2 id p P (q & c & Q & C & V). destruct (p_enabled p) eqn:EN; [reflexivity|]. exfalso. apply (H T1 T2). rewrite P in Q. injection Q as <-. destruct (wi_body I _ _ _ B C) as (z & Z1 & Z2). exists id, p, c, z. auto.
  - destruct A as (x & B & FN & INJ). destruct (set_active_ok box overlap overlap_sym inflate E none w b v node bx x I B FN INJ) as (w' & R & I' & J'). exists w'. split; [exact R|]. split; [exact I'|]. auto.
  - destruct A as (x & B & H). destruct (set_transform_ok box overlap overlap_sym covers inflate E none w b x bx fo I B H) as (w' & R & I' & J'). exists w'. split; [exact R|]. split; [exact I'|]. auto.
  - destruct A as ((x & C) & ND). unfold set_category, get_coll. rewrite C. cbn [rd bind]. destruct (set_filter_ok box overlap overlap_sym E none w c x (w_cat v x) I C) as (w' & R & I' & J'); auto. exists w'. split; [exact R|]. split; [exact I'|]. auto.
  - destruct A as ((x & C) & ND). unfold set_mask, get_coll. rewrite C. cbn [rd bind]. destruct (set_filter_ok box overlap overlap_sym E none w c x (w_mask v x) I C) as (w' & R & I' & J'); auto. exists w'. split; [exact R|]. split; [exact I'|]. auto.
  - destruct A as (J & (y1 & B1) & (y2 & B2) & NB & SG). destruct (create_joint_ok E w j b1 b2 cl y1 y2 I J B1 B2 NB) as (w' & R & I' & EJ & EN). exists w'. splits; auto.
    2: { intros q Q. rewrite EN in Q. assert (OLD : In q (ww_nocoll _ w) -> exists k x, thej k w' = Some x /\ j_collide x = false /\ q = body_pair (j_b1 x) (j_b2 x)).
         { intros Q0. destruct (HJ2 _ Q0) as (k & z & K & KC & KQ). exists k, z. splits; auto. rewrite EJ, lookup_set. destruct (Z.eqb_spec k j) as [->|]; [congruence|exact K]. }
         destruct cl; [auto|]. destruct Q as [<-|Q]; [exists j, (mk_joint b1 b2 false); splits; auto; rewrite EJ, lookup_set, Z.eqb_refl; reflexivity|apply filter_In in Q; apply OLD; apply Q]. }
    intros S k x K KC. specialize (HJ S).
    rewrite EJ, lookup_set in K. assert (KEEP : forall q, In q (ww_nocoll _ w) -> In q (ww_nocoll _ w')).
    { intros q Q. rewrite EN. destruct cl; [exact Q|]. destruct (pair_eqb (body_pair b1 b2) q) eqn:PQ; [apply pair_eqb_eq in PQ; left; exact PQ|right; apply filter_In; rewrite PQ; auto]. }
    destruct (Z.eqb_spec k j) as [->|NE].
    + injection K as <-. cbn in KC. subst cl. cbn [j_b1 j_b2]. split; [apply forbidden_in; rewrite EN; left; reflexivity|]. intros k z K KC Q. rewrite EJ, lookup_set in K. destruct (Z.eqb_spec k j) as [->|NE]; [reflexivity|].
      exfalso. apply (SG S eq_refl k z K KC). unfold same_bodies. symmetry in Q. apply body_pair_inj. exact Q.
    + destruct (HJ _ _ K KC) as (H1 & H2). split; [apply forbidden_in; apply KEEP; apply forbidden_in; exact H1|]. intros k' z K' KC' Q. rewrite EJ, lookup_set in K'. destruct (Z.eqb_spec k' j) as [->|NE']; [|eauto].
      injection K' as <-. cbn in KC', Q. subst cl. exfalso. apply (SG S eq_refl k x K KC). unfold same_bodies. apply body_pair_inj. exact Q.
  - destruct A as (x & J & ST). destruct (destroy_joint_ok E w j x I J) as (w' & R & I' & EJ & EN & _).
    { destruct strict; [left; auto|right; left; auto]. }
    exists w'. splits; auto; [|eapply jinv2_destroy; eauto]. intros S. eapply (joint_mode strict single w j x w'); eauto. cbn. exists x. auto.
  - destruct A as (x & B). destruct (set_sleeping_ok box overlap overlap_sym E none none w b false x I B) as (w' & R & I' & F' & _). exists w'. split; [exact R|]. split; [exact I'|]. apply JS. apply frame_jsame. exact F'.
  - destruct A as (x & B). destruct (set_sleeping_ok box overlap overlap_sym E none none w b true x I B) as (w' & R & I' & F' & _). exists w'. split; [exact R|]. split; [exact I'|]. apply JS. apply frame_jsame. exact F'.
  - destruct (broad_phase_ok E w I) as (w' & R & I' & EJ & EN & _). exists w'. splits; auto; [intros S; eapply jinv_same; eauto|eapply jinv2_same; eauto].
  - destruct (narrow_phase_ok E w ids I) as (w' & R & I' & J'). exists w'. split; [exact R|]. split; [exact I'|]. auto.
  - eexists. split; [reflexivity|]. split; [apply lost_contacts_ok; exact I|]. split; [intros S; apply (jinv_same w); auto|apply (jinv2_same w); auto].
  - destruct (report_ok E w I) as (w' & R & I' & EJ & EN). exists w'. splits; auto; [intros S; eapply jinv_same; eauto|eapply jinv2_same; eauto].
  - destruct A as (x & B). destruct (integrate_ok box overlap overlap_sym covers inflate E none w b x bx fo I B) as (w' & R & I' & J'). exists w'. split; [exact R|]. split; [exact I'|]. auto.
Qed.

Definition pending (strict : bool) : Z -> Prop := fun _ => strict = false.
Lemma history_inv : forall strict single w, history box overlap covers inflate strict single w -> WInv none none (pending strict) none none w /\ (single = true -> JInv w) /\ JInv2 w.
Proof.
  intros strict single w H. induction H as [|w op w' H (I & J & J3) A R].
  - split; [eapply winv_weaken; [apply init_winv| | | | |]; auto; intros ? []|]. split; [intros _ j x K; discriminate|intros q []].
  - destruct (wstep_ok strict single (pending strict) w op I) as (w2 & R2 & I2 & J2); auto. rewrite R in R2. injection R2 as <-. auto.
Qed.
End Proofs.
