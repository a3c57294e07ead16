(** Which pairs the broad phase creates. *)
From Verif Require Import Base HashSpec BitsModel BitsProofs ComponentsProofs PairsModel PairsSpec PairsProofs WorldModel WorldSpec WorldProofs WorldProofs2 WorldProofs3 WorldProofs4 WorldProofs5.
Open Scope Z_scope.

Section Proofs.
Variable box : Type.
Variable overlap : box -> box -> bool.
Hypothesis overlap_sym : forall a b, overlap a b = overlap b a.
Notation world := (world box).
Notation thec c w := (lookup Z.eqb c (ww_coll _ w)).
Notation thep id w := (lookup Z.eqb id (sp_pairs (ww_pairs _ w))).
Notation bov := (boxes_overlap box overlap).
Notation WInv := (WInv box overlap).

Definition newpair (w : world) (nn : Z * Z) (id : Z) : Prop :=
  id = pair_id (fst nn) (snd nn) /\ fst nn <> snd nn /\
  exists c1 c2 x1 x2, lookup Z.eqb (fst nn) (ww_map _ w) = Some c1 /\ lookup Z.eqb (snd nn) (ww_map _ w) = Some c2 /\ thec c1 w = Some x1 /\ thec c2 w = Some x2 /\ okpair box x1 x2 w.

Lemma update_nodes_new : forall X Y E F XA w nn w', WInv X Y E F XA w -> update_pair_of_nodes box nn w = Ok w' ->
  (forall id, thep id w' <> None <-> thep id w <> None \/ newpair w nn id) /\
  (forall id p, thep id w' = Some p -> p_test p = true -> exists q, thep id w = Some q /\ p_test q = true).
Proof.
  intros X Y E F XA w (n1 & n2) w' I R. unfold newpair. cbn [fst snd]. unfold update_pair_of_nodes in R.
  destruct (Z.eqb_spec n1 n2) as [EQ|NE]; [injection R as <-; split; [intros id; tauto|eauto]|].
  destruct (lookup Z.eqb n1 (ww_map box w)) as [c1|] eqn:M1; [|discriminate]. destruct (lookup Z.eqb n2 (ww_map box w)) as [c2|] eqn:M2; [|discriminate]. cbn [rd bind] in R.
  unfold get_coll in R. destruct (thec c1 w) as [x1|] eqn:C1; [|discriminate]. destruct (thec c2 w) as [x2|] eqn:C2; [|discriminate]. cbn [rd bind] in R.
  destruct (wi_map I _ _ M1) as (_ & z1 & Z1 & Q1). destruct (wi_map I _ _ M2) as (_ & z2 & Z2 & Q2). rewrite C1 in Z1. injection Z1 as <-. rewrite C2 in Z2. injection Z2 as <-.
  assert (NEW : forall id, (id = pair_id n1 n2 /\ n1 <> n2 /\ (exists c3 c4 x3 x4, Some c1 = Some c3 /\ Some c2 = Some c4 /\ thec c3 w = Some x3 /\ thec c4 w = Some x4 /\ okpair box x3 x4 w)) <-> id = pair_id n1 n2 /\ okpair box x1 x2 w).
  { intros id. split; [intros (-> & _ & c3 & c4 & x3 & x4 & K1 & K2 & K3 & K4 & K5)|intros (-> & K); splits; auto; exists c1, c2, x1, x2; auto]. injection K1 as <-. injection K2 as <-. rewrite C1 in K3. injection K3 as <-. rewrite C2 in K4. injection K4 as <-. auto. }
  destruct ((c_body x1 =? c_body x2) || forbidden box (c_body x1) (c_body x2) w) eqn:SB.
  { injection R as <-. split; [|eauto]. intros id. rewrite NEW. split; [auto|]. intros [K|(_ & O1 & _ & _ & O4)]; [exact K|]. rewrite O4 in SB. apply Z.eqb_neq in O1. rewrite O1 in SB. discriminate. }
  apply Bool.orb_false_iff in SB. destruct SB as (SB1 & SB2). apply Z.eqb_neq in SB1. unfold find in R. destruct (thep (pair_id n1 n2) w) as [p|] eqn:P.
  - unfold pairs_step, pspec_step in R. rewrite P in R. cbn [bind] in R. injection R as <-. cbn [set_pairs ww_pairs sp_pairs]. split.
    + intros id. rewrite NEW, lookup_set. destruct (Z.eqb_spec id (pair_id n1 n2)) as [->|N]; [rewrite P; split; [left; discriminate|discriminate]|tauto].
    + intros id q. rewrite lookup_set. destruct (Z.eqb_spec id (pair_id n1 n2)) as [->|N]; [intros K; injection K as <-; discriminate|eauto].
  - destruct (filter_pass x1 x2 && (c_convex x1 || c_convex x2)) eqn:FP.
    + apply Bool.andb_true_iff in FP. destruct FP as (FP1 & FP2). unfold pairs_step in R. rewrite Q1, Q2 in R. destruct (pspec_step (ww_pairs box w) _) as [s| |] eqn:ST; try discriminate. cbn [bind] in R. injection R as <-. cbn [set_pairs ww_pairs].
      cbn [pspec_step] in ST. destruct (_ || _) in ST; [discriminate|]. injection ST as <-. cbn [sp_pairs]. split.
      * intros id. rewrite NEW, lookup_set. destruct (Z.eqb_spec id (pair_id n1 n2)) as [->|N]; [split; [intros _; right; split; [reflexivity|unfold okpair; auto]|discriminate]|tauto].
      * intros id q. rewrite lookup_set. destruct (Z.eqb_spec id (pair_id n1 n2)) as [->|N]; [intros K; injection K as <-; discriminate|eauto].
    + injection R as <-. split; [|eauto]. intros id. rewrite NEW. split; [auto|]. intros [K|(_ & _ & O2 & O3 & _)]; [exact K|]. rewrite O2, O3 in FP. discriminate.
Qed.

Lemma each_nodes_new : forall E l w w', WInv none none (fun id => E id \/ left_nodes l id) none none w -> (forall nn, In nn l -> bov w (fst nn) (snd nn)) -> each box (update_pair_of_nodes box) l w = Ok w' ->
  (forall id, thep id w' <> None <-> thep id w <> None \/ exists nn, In nn l /\ newpair w nn id) /\
  (forall id p, thep id w' = Some p -> p_test p = true -> exists q, thep id w = Some q /\ p_test q = true).
Proof.
  intros E l. induction l as [|nn l IH]; intros w w' I H R.
  - injection R as <-. split; [|eauto]. intros id. split; [auto|]. intros [K|(nn & [] & _)]. exact K.
  - cbn [each] in R. destruct (update_nodes_ok box overlap overlap_sym E w nn l I) as (w1 & R1 & I1 & s & S1); [apply H; left; reflexivity|]. rewrite R1 in R. cbn [bind] in R.
    destruct (update_nodes_new _ _ _ _ _ _ _ _ I R1) as (K1 & K2). destruct (IH w1 w' I1) as (K3 & K4); [subst w1; intros mm IN; apply (H mm); right; exact IN|exact R|]. split.
    + intros id. rewrite K3, K1. subst w1. split.
      * intros [[K|K]|(mm & IN & K)]; [auto|right; exists nn; split; [left; reflexivity|exact K]|right; exists mm; split; [right; exact IN|exact K]].
      * intros [K|(mm & [<-|IN] & K)]; [auto|auto|right; exists mm; split; [exact IN|exact K]].
    + intros id p P T. destruct (K4 _ _ P T) as (q & Q & TQ). eauto.
Qed.

Lemma retest_tracked : forall l w w', each box (retest_pair box overlap) l w = Ok w' ->
  (forall id, thep id w' <> None -> thep id w <> None) /\ (forall id p, thep id w = Some p -> p_test p = false -> thep id w' <> None).
Proof.
  induction l as [|k l IH]; intros w w' R; [injection R as <-; split; [auto|congruence]|]. cbn [each] in R. destruct (retest_pair box overlap k w) as [w1| |] eqn:R1; try discriminate. cbn [bind] in R. destruct (IH _ _ R) as (K1 & K2).
  unfold retest_pair, find in R1. destruct (thep k w) as [p|] eqn:P; [|discriminate]. cbn [rd bind] in R1. destruct (p_enabled p && p_test p) eqn:ET; [|injection R1 as <-; auto].
  apply Bool.andb_true_iff in ET. destruct ET as (EN & TE). destruct (lookup Z.eqb (p_b1 p) (ww_tree box w)) as [b1|]; [|discriminate]. destruct (lookup Z.eqb (p_b2 p) (ww_tree box w)) as [b2|]; [|discriminate]. cbn [rd bind] in R1.
  destruct (overlap b1 b2).
  - unfold pairs_step, pspec_step in R1. rewrite P in R1. cbn [bind] in R1. injection R1 as <-. cbn [set_pairs ww_pairs sp_pairs] in *. split.
    + intros id K. apply K1 in K. rewrite lookup_set in K. destruct (Z.eqb_spec id k) as [EE|]; [rewrite EE, P; discriminate|exact K].
    + intros id q Q T. destruct (Z.eqb_spec id k) as [->|N]; [congruence|]. apply (K2 id q); [|exact T]. rewrite lookup_set. apply Z.eqb_neq in N. rewrite N. exact Q.
  - unfold pairs_step, pspec_step in R1. cbn [bind] in R1. injection R1 as <-. cbn [set_pairs ww_pairs sp_pairs] in *. assert (EQ : ww_pairs _ (if p_prev p then add_lost box p w else w) = ww_pairs _ w) by (destruct (p_prev p); reflexivity). rewrite EQ in *. split.
    + intros id K. apply K1 in K. rewrite lookup_remove in K. destruct (id =? k); congruence.
    + intros id q Q T. destruct (Z.eqb_spec id k) as [->|N]; [congruence|]. apply (K2 id q); [|exact T]. rewrite lookup_remove. apply Z.eqb_neq in N. rewrite N. exact Q.
Qed.

Lemma broad_phase_new : forall E w w' c1 c2 x1 x2, WInv none none E none none w -> broad_phase box overlap w = Ok w' ->
  thec c1 w = Some x1 -> thec c2 w = Some x2 -> c_node x1 <> -1 -> c_node x2 <> -1 -> c1 <> c2 -> thep (pair_id (c_node x1) (c_node x2)) w = None ->
  (thep (pair_id (c_node x1) (c_node x2)) w' <> None <-> okpair box x1 x2 w /\ bov w (c_node x1) (c_node x2) /\ (In (c_node x1) (ww_moved _ w) \/ In (c_node x2) (ww_moved _ w))).
Proof.
  intros E w w' c1 c2 x1 x2 I R C1 C2 N1 N2 NC NP. unfold broad_phase in R. destruct (overlapping_nodes_ok box overlap _ _ _ _ _ w I) as (l & RL & H). rewrite RL in R. cbn [bind] in R.
  assert (I1 : WInv none none (fun id => True \/ left_nodes l id) none none (set_moved box [] w)).
  { pose proof I as I0. destruct I. constructor; auto. intros n []. }
  destruct (each box (update_pair_of_nodes box) l (set_moved box [] w)) as [w2| |] eqn:R2; try discriminate. cbn [bind] in R.
  destruct (each_nodes_new (fun _ => True) l (set_moved box [] w) w2 I1) as (K1 & K2); [intros (m & k) IN; apply H in IN; apply IN|exact R2|]. destruct (retest_tracked _ _ _ R) as (K3 & K4). set (id := pair_id (c_node x1) (c_node x2)) in *.
  destruct (wi_node I _ _ C1 N1) as (R1 & U1 & _). destruct (wi_node I _ _ C2 N2) as (R22 & U2 & _). split.
  - intros T. apply K3, K1 in T. change (thep id (set_moved box [] w)) with (thep id w) in T. rewrite NP in T. destruct T as [T|((m & k) & IN & (EQ & NE & d1 & d2 & z1 & z2 & M1 & M2 & D1 & D2 & OK))]; [contradiction|].
    cbn [fst snd] in *. apply H in IN. destruct IN as (MV & BV). change (ww_map _ (set_moved box [] w)) with (ww_map _ w) in M1, M2. change (ww_coll _ (set_moved box [] w)) with (ww_coll _ w) in D1, D2.
    destruct (wi_map I _ _ M1) as (A1 & a1 & A2 & A3). destruct (wi_map I _ _ M2) as (B1 & b1 & B2 & B3). rewrite D1 in A2. injection A2 as <-. rewrite D2 in B2. injection B2 as <-.
    destruct (wi_node I _ _ D1 ltac:(congruence)) as (RR1 & _). destruct (wi_node I _ _ D2 ltac:(congruence)) as (RR2 & _).
    destruct (pair_id_inj (c_node x1) (c_node x2) m k) as [(W1 & W2)|(W1 & W2)]; [lia|lia|lia|lia|exact EQ| |].
    + assert (d1 = c1) by congruence. assert (d2 = c2) by congruence. subst d1 d2. rewrite C1 in D1. injection D1 as <-. rewrite C2 in D2. injection D2 as <-. rewrite W1, W2. auto.
    + assert (d1 = c2) by congruence. assert (d2 = c1) by congruence. subst d1 d2. rewrite C2 in D1. injection D1 as <-. rewrite C1 in D2. injection D2 as <-. rewrite W1, W2. splits; auto; [|apply (bov_sym box overlap overlap_sym); exact BV].
      destruct OK as (O1 & O2 & O3 & O4). unfold okpair. splits; auto.
      * unfold filter_pass in *. rewrite (Z.land_comm (c_mask x1)), (Z.land_comm (c_cat x1)). rewrite Bool.andb_comm. exact O2.
      * rewrite Bool.orb_comm. exact O3.
      * unfold forbidden in *. rewrite body_pair_sym. exact O4.
  - intros (OK & BV & MV). assert (NEN : c_node x1 <> c_node x2) by congruence.
    assert (T2 : thep id w2 <> None).
    { apply K1. right. destruct MV as [MV|MV].
      - exists (c_node x1, c_node x2). split; [apply H; auto|]. unfold newpair. cbn [fst snd]. splits; auto. exists c1, c2, x1, x2. splits; auto.
      - exists (c_node x2, c_node x1). split; [apply H; split; [exact MV|apply (bov_sym box overlap overlap_sym); exact BV]|]. unfold newpair. cbn [fst snd]. splits; auto; [apply pair_id_sym|]. exists c2, c1, x2, x1. splits; auto.
        destruct OK as (O1 & O2 & O3 & O4). unfold okpair. splits; auto.
        * unfold filter_pass in *. rewrite (Z.land_comm (c_mask x2)), (Z.land_comm (c_cat x2)). rewrite Bool.andb_comm. exact O2.
        * rewrite Bool.orb_comm. exact O3.
        * unfold forbidden in *. rewrite body_pair_sym. exact O4. }
    destruct (thep id w2) as [p|] eqn:P2; [|contradiction]. apply (K4 id p P2). destruct (p_test p) eqn:T; [|reflexivity]. destruct (K2 _ _ P2 T) as (q & Q & _). change (thep id w = Some q) in Q. congruence.
Qed.
End Proofs.

(** The boxes stored for the colliders of a body that was moved. *)
Section Boxes.
Variable box : Type.
Variable overlap covers : box -> box -> bool.
Variable inflate : box -> box.
Hypothesis overlap_sym : forall a b, overlap a b = overlap b a.
Hypothesis covers_inflate : forall a, covers (inflate a) a = true.
Notation world := (world box).
Notation theb b w := (lookup Z.eqb b (ww_bodies _ w)).
Notation thec c w := (lookup Z.eqb c (ww_coll _ w)).
Notation WInv := (WInv box overlap).

Lemma each_pairs_frame : forall A (f : A -> world -> res world) (l : list A) w w', (forall a w w', f a w = Ok w' -> ww_tree _ w' = ww_tree _ w /\ ww_coll _ w' = ww_coll _ w) -> each box f l w = Ok w' -> ww_tree _ w' = ww_tree _ w /\ ww_coll _ w' = ww_coll _ w.
Proof.
  intros A f l. induction l as [|a l IH]; intros w w' H R; [injection R as <-; auto|]. cbn [each] in R. destruct (f a w) as [w1| |] eqn:R1; try discriminate. cbn [bind] in R. destruct (H _ _ _ R1). destruct (IH _ _ H R). split; congruence.
Qed.
Lemma add_moved_frame : forall n c w w', add_moved box n c w = Ok w' -> ww_tree _ w' = ww_tree _ w /\ ww_coll _ w' = ww_coll _ w.
Proof.
  intros n c w w' R. unfold add_moved, notify in R. apply each_pairs_frame in R; [exact R|]. intros id u u' K. unfold pairs_step in K. destruct (pspec_step _ _); try discriminate. cbn [bind] in K. injection K as <-. auto.
Qed.
Lemma update_collider_box : forall bx force c w w', update_collider box covers inflate bx force c w = Ok w' -> ww_coll _ w' = ww_coll _ w /\
  (forall n, (forall x, thec c w = Some x -> c_node x <> n) -> lookup Z.eqb n (ww_tree _ w') = lookup Z.eqb n (ww_tree _ w)) /\
  (forall x, thec c w = Some x -> c_node x <> -1 -> exists b, lookup Z.eqb (c_node x) (ww_tree _ w') = Some b /\ covers b (bx c) = true).
Proof.
  intros bx force c w w' R. unfold update_collider, get_coll in R. destruct (thec c w) as [x|] eqn:C; [|discriminate]. cbn [rd bind] in R. destruct (Z.eqb_spec (c_node x) (-1)) as [E|NE].
  { injection R as <-. splits; auto. intros x' K. injection K as <-. contradiction. }
  destruct (lookup Z.eqb (c_node x) (ww_tree box w)) as [old|] eqn:T; [|discriminate]. cbn [rd bind] in R. destruct (negb (force c) && covers old (bx c)) eqn:CV.
  - injection R as <-. splits; auto. intros x' K _. injection K as <-. exists old. split; [exact T|]. apply Bool.andb_true_iff in CV. apply CV.
  - apply add_moved_frame in R. destruct R as (R1 & R2). rewrite R1, R2. cbn [set_tree ww_tree ww_coll]. splits; auto.
    + intros n N. rewrite lookup_set. destruct (Z.eqb_spec n (c_node x)) as [->|]; [exfalso; eapply N; eauto|reflexivity].
    + intros x' K _. injection K as <-. rewrite lookup_set, Z.eqb_refl. eexists. split; [reflexivity|]. apply covers_inflate.
Qed.
Lemma update_body_box : forall X Y E F XA w b y bx force w', WInv X Y E F XA w -> theb b w = Some y -> update_body box covers inflate b bx force w = Ok w' ->
  forall c x, In c (b_colliders y) -> thec c w = Some x -> c_node x <> -1 -> exists bb, lookup Z.eqb (c_node x) (ww_tree _ w') = Some bb /\ covers bb (bx c) = true.
Proof.
  intros X Y E F XA w b y bx force w' I B R. unfold update_body, get_body in R. rewrite B in R. cbn [rd bind] in R.
  assert (G : forall l w0, ww_coll _ w0 = ww_coll _ w -> each box (update_collider box covers inflate bx force) l w0 = Ok w' -> ww_coll _ w' = ww_coll _ w /\
    (forall c x, thec c w = Some x -> c_node x <> -1 -> (In c l \/ exists bb, lookup Z.eqb (c_node x) (ww_tree _ w0) = Some bb /\ covers bb (bx c) = true) -> exists bb, lookup Z.eqb (c_node x) (ww_tree _ w') = Some bb /\ covers bb (bx c) = true)).
  { induction l as [|d l IH]; intros w0 EC K; [injection K as <-; split; [exact EC|intros c x _ _ [[]|H]; exact H]|]. cbn [each] in K. destruct (update_collider box covers inflate bx force d w0) as [w1| |] eqn:R1; try discriminate. cbn [bind] in K.
    destruct (update_collider_box _ _ _ _ _ R1) as (K1 & K2 & K3). rewrite EC in *. destruct (IH w1 K1 K) as (K4 & K5). split; [exact K4|]. intros c x C N H. apply (K5 c x C N).
    destruct H as [[<-|IN]|H]; [right; apply K3; auto|left; exact IN|]. destruct (Z.eq_dec c d) as [->|NE]; [right; apply K3; auto|]. right. rewrite K2; [exact H|]. intros z Z EQ.
    destruct (wi_node I _ _ C N) as (_ & M1 & _). destruct (wi_node I _ _ Z ltac:(congruence)) as (_ & M2 & _). rewrite EQ in M2. congruence. }
  intros c x IN C N. apply (proj2 (G (b_colliders y) w eq_refl R)); auto.
Qed.
End Boxes.
