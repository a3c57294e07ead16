(** Invariant of worlds: colliders, activation, movement, filter bits. *)
From Verif Require Import Base HashSpec BitsModel BitsProofs ComponentsProofs PairsModel PairsSpec PairsProofs WorldModel WorldSpec WorldProofs WorldProofs2 WorldProofs3.
Open Scope Z_scope.

Section Proofs.
Variable box : Type.
Variable overlap : box -> box -> bool.
Hypothesis overlap_sym : forall a b, overlap a b = overlap b a.
Notation world := (world box).
Notation theb b w := (lookup Z.eqb b (ww_bodies _ w)).
Notation thec c w := (lookup Z.eqb c (ww_coll _ w)).
Notation thep id w := (lookup Z.eqb id (sp_pairs (ww_pairs _ w))).
Notation forbidden := (forbidden box).
Notation bov := (boxes_overlap box overlap).
Notation WInv := (WInv box overlap).
Notation Frame := (Frame box).
Notation Touch := (Touch box).
Notation Jsame := (Jsame box).
Notation no_pair := (no_pair box).

Lemma drop_XA : forall X Y E F XA w, WInv X Y E F XA w -> (forall c x y, XA c -> thec c w = Some x -> theb (c_body x) w = Some y -> (b_active y = true <-> c_node x <> -1)) -> WInv X Y E F none w.
Proof. intros X Y E F XA w I H. destruct I. constructor; auto. intros c x y C B. destruct (wi_active _ _ _ C B); [auto|]. left. eauto. Qed.

Lemma awake_neighbors_ok : forall E F XA w b x, WInv none none E F XA w -> theb b w = Some x ->
  exists w', awake_neighbors box b w = Ok w' /\ WInv none none E F XA w' /\ Frame w w'.
Proof.
  intros E F XA w b x I B. unfold awake_neighbors, get_body at 1. rewrite B. cbn [rd bind].
  set (Inv := fun w1 => WInv none none E F XA w1 /\ Frame w w1).
  apply (each_ok box Z Inv); [|split; auto using frame_refl]. intros c w1 C V1. apply (each_ok box Z Inv); [|exact V1].
  intros id w2 J (I2 & F2). destruct V1 as (I1 & F1). apply (frame_pairs_of _ w w1 c id F1) in J. apply (frame_pairs_of _ w w2 c id F2) in J. apply in_pairs_of in J. destruct J as (p & P & V).
  unfold find. rewrite P. cbn [rd bind]. destruct (p_prev p); [|exists w2; split; [reflexivity|split; auto]].
  destruct (pair_range box overlap none none E F XA w2 id p I2 P) as (x1 & x2 & C1 & C2 & _ & _ & _ & _ & _ & _ & _ & _ & _ & y1 & y2 & Y1 & Y2).
  unfold pair_bodies, get_coll, get_body. rewrite C1, C2. cbn [rd bind].
  assert (YO : exists yo, theb (if b =? c_body x1 then c_body x2 else c_body x1) w2 = Some yo) by (destruct (b =? c_body x1); eauto). destruct YO as (yo & YO). rewrite YO. cbn [rd bind].
  destruct (b_disabled yo); [|exists w2; split; [reflexivity|split; auto]].
  destruct (set_sleeping_ok box overlap overlap_sym E F XA w2 _ false yo I2 YO) as (w3 & R3 & I3 & F3 & _). exists w3. split; [exact R3|]. split; [exact I3|]. eapply frame_trans; eassumption.
Qed.

Lemma delete_coll_ok : forall E F w c x y, WInv none none E F (fun d => d = c) w -> thec c w = Some x -> c_node x = -1 -> theb (c_body x) w = Some y -> ~ in_lost box c w ->
  exists w', pairs_step box (PDeleteCollider c) (set_coll box (m_remove Z.eqb c (ww_coll _ (put_body box (c_body x) (w_colliders (filter (fun d => negb (d =? c)) (b_colliders y)) y) w)))
      (put_body box (c_body x) (w_colliders (filter (fun d => negb (d =? c)) (b_colliders y)) y) w)) = Ok w' /\
    WInv none none E F none w' /\ Jsame w w' /\ (forall k, theb k w' = if k =? c_body x then Some (w_colliders (filter (fun d => negb (d =? c)) (b_colliders y)) y) else theb k w) /\
    (forall d, thec d w' = if d =? c then None else thec d w).
Proof.
  intros E F w c x y I C N B NL. unfold pairs_step, pspec_step. cbn [set_coll put_body set_bodies ww_pairs].
  assert (NP : forall id p, thep id w = Some p -> involves c p = false).
  { intros id p P. destruct (involves c p) eqn:V; [|reflexivity]. exfalso. eapply (no_node_no_pair box overlap); eauto. }
  match goal with |- context [if ?b then _ else _] => destruct b eqn:EX end.
  { exfalso. apply existsb_exists in EX. destruct EX as (e & _ & K). destruct (lookup Z.eqb (fst e) (sp_pairs (ww_pairs box w))) as [p|] eqn:P; [|discriminate]. rewrite (NP _ _ P) in K. discriminate. }
  cbn [bind]. eexists. split; [reflexivity|]. set (cs := filter (fun d => negb (d =? c)) (b_colliders y)). set (w' := set_pairs box _ _).
  assert (LB : forall k, theb k w' = if k =? c_body x then Some (w_colliders cs y) else theb k w) by (intros k; unfold w'; cbn [set_pairs set_coll ww_bodies set_bodies]; apply lookup_set).
  assert (LC : forall d, thec d w' = if d =? c then None else thec d w) by (intros d; unfold w'; cbn [set_pairs set_coll ww_coll set_bodies]; apply lookup_remove).
  assert (IC : forall d, In d cs <-> In d (b_colliders y) /\ d <> c) by (intros d; unfold cs; rewrite filter_In; destruct (Z.eqb_spec d c); cbn; intuition congruence).
  assert (PC : forall id p, thep id w = Some p -> p_c1 p <> c /\ p_c2 p <> c).
  { intros id p P. pose proof (NP _ _ P) as K. unfold involves in K. apply Bool.orb_false_iff in K. destruct K as (K1 & K2). apply Z.eqb_neq in K1. apply Z.eqb_neq in K2. auto. }
  assert (LC2 : forall d z, thec d w' = Some z -> d <> c /\ thec d w = Some z) by (intros d z; rewrite LC; destruct (Z.eqb_spec d c); [discriminate|auto]).
  assert (LB2 : forall k z, theb k w' = Some z -> exists z0, theb k w = Some z0 /\ b_active z = b_active z0 /\ b_type z = b_type z0 /\ b_sleeping z = b_sleeping z0 /\ b_disabled z = b_disabled z0 /\ incl (b_colliders z) (b_colliders z0)).
  { intros k z. rewrite LB. destruct (Z.eqb_spec k (c_body x)) as [->|NK]; intros K; [injection K as <-; exists y|exists z]; splits; auto; intros d D; auto. apply IC in D. apply D. }
  splits; auto; [|unfold Jsame; auto]. destruct I. constructor; auto.
  - intros d z D. apply LC2 in D. destruct D as (ND & D). destruct (wi_coll _ _ D) as (u & U1 & U2). rewrite LB. destruct (Z.eqb_spec (c_body z) (c_body x)) as [EQ|NE]; [|eauto].
    exists (w_colliders cs y). split; [reflexivity|]. cbn. apply IC. rewrite EQ, B in U1. injection U1 as <-. auto.
  - intros k z d K D. rewrite LC. assert (D' : In d (b_colliders z) /\ d <> c /\ exists z0, theb k w = Some z0 /\ In d (b_colliders z0)).
    { rewrite LB in K. destruct (Z.eqb_spec k (c_body x)) as [->|NK]; [injection K as <-|].
      - pose proof D as D0. cbn in D. apply IC in D. splits; [exact D0|apply D|]. exists y. split; [exact B|apply D].
      - splits; auto; [|eauto]. intros ->. destruct (wi_body _ _ _ K D) as (u & U1 & U2). congruence. }
    destruct D' as (_ & ND & z0 & Z1 & Z2). destruct (wi_body _ _ _ Z1 Z2) as (u & U1 & U2). exists u. apply Z.eqb_neq in ND. rewrite ND. auto.
  - intros k z. rewrite LB. destruct (Z.eqb_spec k (c_body x)) as [->|NK]; intros K; [|eauto]. injection K as <-. cbn. apply NoDup_filter. eauto.
  - intros d. unfold w'. cbn [set_pairs ww_pairs sp_coll]. rewrite filter_In, wi_pcoll. fold w'. rewrite LC. destruct (Z.eqb_spec d c) as [->|ND]; cbn; [|intuition].
    split; [intros (_ & K); discriminate|intros (z & K); discriminate].
  - intros d z D NN. apply LC2 in D. destruct D as (ND & D). exact (wi_node _ _ D NN).
  - intros m d M. destruct (wi_map _ _ M) as (K1 & z & K2 & K3). split; [exact K1|]. exists z. rewrite LC. destruct (Z.eqb_spec d c) as [->|ND]; [|auto]. exfalso. congruence.
  - intros d z u D U. apply LC2 in D. destruct D as (ND & D). apply LB2 in U. destruct U as (u0 & U1 & U2 & _). rewrite U2. destruct (wi_active _ _ _ D U1) as [K|K]; [left; exact K|contradiction].
  - intros id p P. change (thep id w = Some p) in P. destruct (PC _ _ P) as (P1 & P2). destruct (wi_pair _ _ P) as (K1 & K2 & K3 & K4 & x1 & x2 & K). splits; auto. exists x1, x2.
    rewrite !LC. apply Z.eqb_neq in P1. apply Z.eqb_neq in P2. rewrite P1, P2. exact K.
  - intros id p x1 x2 y1 y2 P EN C1 C2 B1 B2. change (thep id w = Some p) in P. apply LC2 in C1, C2. apply LB2 in B1, B2. destruct B1 as (z1 & Z1 & _ & _ & _ & D1 & _). destruct B2 as (z2 & Z2 & _ & _ & _ & D2 & _).
    destruct C1 as (_ & C1). destruct C2 as (_ & C2). rewrite D1, D2. exact (wi_dis _ _ _ _ _ _ P EN C1 C2 Z1 Z2).
  - intros c1 c2 x1 x2 D1 D2. apply LC2 in D1, D2. destruct D1 as (_ & D1). destruct D2 as (_ & D2). exact (wi_comp _ _ _ _ D1 D2).
  - intros k z K. apply LB2 in K. destruct K as (z0 & Z0 & _ & Z1 & Z2 & Z3 & _). rewrite Z1, Z2, Z3. eauto.
  - intros j z J. destruct (wi_joint _ _ J) as ((z1 & Z1) & (z2 & Z2) & NN). splits; auto; rewrite LB; [destruct (j_b1 z =? c_body x)|destruct (j_b2 z =? c_body x)]; eauto.
  - intros e IN. destruct (wi_lost e IN) as ((a & A1) & (b & B1)). rewrite !LC. assert (K1 : fst e <> c) by (intros K; apply NL; exists e; auto). assert (K2 : snd e <> c) by (intros K; apply NL; exists e; auto).
    apply Z.eqb_neq in K1. apply Z.eqb_neq in K2. rewrite K1, K2. eauto.
Qed.

Lemma remove_collider_ok : forall E F w c x y, WInv none none E F none w -> thec c w = Some x -> theb (c_body x) w = Some y -> ~ in_lost box c w ->
  exists w', remove_collider box c w = Ok w' /\ WInv none none E F none w' /\ Jsame w w' /\
    (exists y', theb (c_body x) w' = Some y' /\ b_colliders y' = filter (fun d => negb (d =? c)) (b_colliders y)) /\ (forall d, thec d w' = if d =? c then None else if d =? c then None else thec d w).
Proof.
  intros E F w c x y I C B NL. unfold remove_collider, get_coll at 1. rewrite C. cbn [rd bind].
  destruct (awake_neighbors_ok E F none w (c_body x) y I B) as (w1 & R1 & I1 & F1). rewrite R1. cbn [bind].
  assert (C1 : thec c w1 = Some x) by (rewrite (f_coll F1); exact C). unfold get_coll at 1. rewrite C1. cbn [rd bind]. destruct (f_body F1 _ _ B) as (y1 & B1 & S1).
  assert (NL1 : ~ in_lost box c w1) by (unfold in_lost; rewrite (f_lost F1); exact NL).
  assert (MID : exists w2 x2, (if c_node x =? -1 then Ok w1 else remove_from_broadphase box c w1) = Ok w2 /\ WInv none none E F (fun d => d = c) w2 /\ Jsame w1 w2 /\ ww_bodies _ w2 = ww_bodies _ w1 /\
    thec c w2 = Some x2 /\ c_node x2 = -1 /\ c_body x2 = c_body x /\ forall d, d <> c -> thec d w2 = thec d w1).
  { destruct (Z.eqb_spec (c_node x) (-1)) as [N|N].
    - exists w1, x. splits; auto using jsame_refl. eapply winv_weaken; eauto; intros ? [].
    - destruct (leave_ok box overlap overlap_sym E F none w1 c x I1 C1 N) as (w2 & R2 & I2 & NP & J2 & B2 & _ & L2). exists w2, (w_node (-1) x). splits; auto.
      + eapply winv_weaken; eauto. intros d [[]|K]; exact K.
      + rewrite L2, Z.eqb_refl. reflexivity.
      + intros d ND. rewrite L2. apply Z.eqb_neq in ND. rewrite ND. reflexivity. }
  destruct MID as (w2 & x2 & R2 & I2 & J2 & B2 & C2 & N2 & Q2 & L2). rewrite R2. cbn [bind]. unfold get_body. rewrite B2, B1. cbn [rd bind].
  assert (B3 : theb (c_body x2) w2 = Some y1) by (rewrite Q2, B2; exact B1).
  assert (NL2 : ~ in_lost box c w2) by (unfold in_lost; destruct J2 as (_ & _ & K); rewrite K; exact NL1).
  destruct (delete_coll_ok E F w2 c x2 y1 I2 C2 N2 B3 NL2) as (w' & R' & I' & J' & LB & LC). rewrite Q2 in R', LB. exists w'. splits; auto.
  - eapply jsame_trans; [apply frame_jsame; exact F1|]. eapply jsame_trans; eassumption.
  - eexists. split; [rewrite LB, Z.eqb_refl; reflexivity|]. cbn. destruct S1 as (_ & _ & S1). rewrite S1. reflexivity.
  - intros d. rewrite LC. destruct (Z.eqb_spec d c) as [|ND]; [reflexivity|]. rewrite (L2 _ ND), (f_coll F1). reflexivity.
Qed.

Variable covers : box -> box -> bool.
Variable inflate : box -> box.

Lemma add_collider_ok : forall E F w b c n bx cv x, WInv none none E F none w -> theb b w = Some x -> thec c w = None -> fresh_node box n w ->
  exists w', add_collider box inflate b c n bx cv w = Ok w' /\ WInv none none E F none w' /\ Jsame w w'.
Proof.
  intros E F w b c n bx cv x I B C FN. unfold add_collider, get_body. rewrite B. cbn [rd bind]. unfold pairs_step, pspec_step. cbn [put_coll set_coll ww_pairs].
  destruct (existsb (Z.eqb c) (sp_coll (ww_pairs box w))) eqn:EX.
  { exfalso. apply existsb_in in EX. apply (wi_pcoll I) in EX. destruct EX as (z & Z1). congruence. }
  cbn [bind]. set (x0 := mk_collider b (-1) 1 65535 cv). set (y' := w_colliders (b_colliders x ++ [c]) x). set (w1 := put_body box b y' _).
  assert (LB : forall k, theb k w1 = if k =? b then Some y' else theb k w) by (intros k; unfold w1; rewrite put_body_lookup; reflexivity).
  assert (LC : forall d, thec d w1 = if d =? c then Some x0 else thec d w) by (intros d; unfold w1; cbn [put_body set_bodies set_pairs set_coll ww_coll]; apply lookup_set).
  assert (PC : forall id p, thep id w = Some p -> p_c1 p <> c /\ p_c2 p <> c).
  { intros id p P. destruct (wi_pair I _ _ P) as (_ & _ & _ & _ & x1 & x2 & K1 & K2 & _). split; congruence. }
  assert (IW : WInv none none E F (fun d => d = c) w1).
  { assert (LC2 : forall d z, thec d w1 = Some z -> (d = c /\ z = x0) \/ (d <> c /\ thec d w = Some z)).
    { intros d z. rewrite LC. destruct (Z.eqb_spec d c); [intros K; injection K as <-; auto|auto]. }
    assert (LB2 : forall k z, theb k w1 = Some z -> exists z0, theb k w = Some z0 /\ b_active z = b_active z0 /\ b_type z = b_type z0 /\ b_sleeping z = b_sleeping z0 /\ b_disabled z = b_disabled z0).
    { intros k z. rewrite LB. destruct (Z.eqb_spec k b) as [->|NK]; intros K; [injection K as <-; exists x|exists z]; splits; auto. }
    destruct I. constructor; auto.
    - intros d z D. destruct (LC2 _ _ D) as [(-> & ->)|(ND & D')]; rewrite LB; cbn [c_body x0].
      + rewrite Z.eqb_refl. exists y'. split; [reflexivity|]. cbn. apply in_app_iff. right. left. reflexivity.
      + destruct (wi_coll _ _ D') as (u & U1 & U2). destruct (Z.eqb_spec (c_body z) b) as [EQ|NE]; [|eauto]. exists y'. split; [reflexivity|]. cbn. apply in_app_iff. left. congruence.
    - intros k z d K D. rewrite LB in K. rewrite LC. destruct (Z.eqb_spec k b) as [->|NK].
      + injection K as <-. cbn in D. apply in_app_iff in D. destruct (Z.eqb_spec d c) as [->|ND]; [exists x0; auto|]. destruct D as [D|[D|[]]]; [eauto|congruence].
      + destruct (wi_body _ _ _ K D) as (u & U1 & U2). exists u. destruct (Z.eqb_spec d c) as [->|ND]; [congruence|auto].
    - intros k z. rewrite LB. destruct (Z.eqb_spec k b) as [->|NK]; intros K; [|eauto]. injection K as <-. cbn.
      assert (NI : ~ In c (b_colliders x)) by (intros IN; destruct (wi_body _ _ _ B IN) as (u & U1 & _); congruence).
      apply NoDup_Add with (a := c) (l := b_colliders x); [|split; eauto]. replace (b_colliders x) with (b_colliders x ++ []) at 1 by apply app_nil_r. apply Add_app.
    - intros d. unfold w1. cbn [put_body set_bodies set_pairs ww_pairs sp_coll In]. rewrite wi_pcoll. fold w1. rewrite LC. destruct (Z.eqb_spec d c) as [->|ND]; [split; eauto|]. split; [intros [K|K]; [congruence|exact K]|auto].
    - intros d z D NN. destruct (LC2 _ _ D) as [(-> & ->)|(ND & D')]; [cbn in NN; congruence|exact (wi_node _ _ D' NN)].
    - intros m d M. destruct (wi_map _ _ M) as (K1 & z & K2 & K3). split; [exact K1|]. exists z. rewrite LC. destruct (Z.eqb_spec d c) as [->|ND]; [congruence|auto].
    - intros d z u D U. destruct (LC2 _ _ D) as [(-> & ->)|(ND & D')]; [auto|]. apply LB2 in U. destruct U as (u0 & U1 & U2 & _). rewrite U2. destruct (wi_active _ _ _ D' U1) as [K|[]]; auto.
    - intros id p P. change (thep id w = Some p) in P. destruct (PC _ _ P) as (P1 & P2). destruct (wi_pair _ _ P) as (K1 & K2 & K3 & K4 & x1 & x2 & K). splits; auto. exists x1, x2.
      rewrite !LC. apply Z.eqb_neq in P1. apply Z.eqb_neq in P2. rewrite P1, P2. exact K.
    - intros id p x1 x2 y1 y2 P EN C1 C2 B1 B2. change (thep id w = Some p) in P. destruct (PC _ _ P) as (P1 & P2). destruct (LC2 _ _ C1) as [(? & _)|(_ & C1')]; [contradiction|]. destruct (LC2 _ _ C2) as [(? & _)|(_ & C2')]; [contradiction|].
      apply LB2 in B1, B2. destruct B1 as (z1 & Z1 & _ & _ & _ & D1). destruct B2 as (z2 & Z2 & _ & _ & _ & D2). rewrite D1, D2. exact (wi_dis _ _ _ _ _ _ P EN C1' C2' Z1 Z2).
    - intros c1 c2 x1 x2 D1 D2 N1 N2. destruct (LC2 _ _ D1) as [(-> & ->)|(_ & D1')]; [cbn in N1; congruence|]. destruct (LC2 _ _ D2) as [(-> & ->)|(_ & D2')]; [cbn in N2; congruence|]. exact (wi_comp _ _ _ _ D1' D2' N1 N2).
    - intros k z K. apply LB2 in K. destruct K as (z0 & Z0 & _ & Z1 & Z2 & Z3). rewrite Z1, Z2, Z3. eauto.
    - intros j z J. destruct (wi_joint _ _ J) as ((z1 & Z1) & (z2 & Z2) & NN). splits; auto; rewrite LB; [destruct (j_b1 z =? b)|destruct (j_b2 z =? b)]; eauto.
    - intros e IN. destruct (wi_lost e IN) as ((a & A1) & (b0 & B1)). rewrite !LC. split; [destruct (fst e =? c)|destruct (snd e =? c)]; eauto. }
  assert (C1 : thec c w1 = Some x0) by (rewrite LC, Z.eqb_refl; reflexivity). assert (B1 : theb (c_body x0) w1 = Some y') by (rewrite LB; cbn; rewrite Z.eqb_refl; reflexivity).
  destruct (b_active x) eqn:ACT.
  - destruct (enter_ok box overlap inflate E F (fun d => d = c) w1 c x0 y' n bx IW C1 eq_refl B1 ACT FN) as (w' & R & I' & J' & _). exists w'. splits; auto.
    eapply winv_weaken; eauto. intros d (K1 & K2). contradiction.
  - exists w1. splits; auto; [|unfold Jsame; auto]. eapply drop_XA; [exact IW|]. intros d z u -> D U. rewrite C1 in D. injection D as <-. rewrite B1 in U. injection U as <-. cbn. rewrite ACT. split; [discriminate|congruence].
Qed.

(** ** Activation *)
Lemma put_active : forall E F w b y v, WInv none none E F none w -> theb b w = Some y ->
  WInv none none E F (fun d => In d (b_colliders y)) (put_body box b (w_active v y) w).
Proof.
  intros E F w b y v I B. destruct I.
  assert (L : forall k z, theb k (put_body box b (w_active v y) w) = Some z -> exists z0, theb k w = Some z0 /\ b_colliders z = b_colliders z0 /\ b_type z = b_type z0 /\ b_sleeping z = b_sleeping z0 /\ b_disabled z = b_disabled z0 /\ (k = b \/ z = z0)).
  { intros k z. rewrite put_body_lookup. destruct (Z.eqb_spec k b) as [->|N]; intros H; [injection H as <-; exists y|exists z]; splits; auto. }
  assert (L2 : forall k z, theb k w = Some z -> exists z', theb k (put_body box b (w_active v y) w) = Some z' /\ b_colliders z' = b_colliders z).
  { intros k z H. rewrite put_body_lookup. destruct (Z.eqb_spec k b) as [->|N]; [exists (w_active v y); split; [reflexivity|cbn; congruence]|eauto]. }
  constructor; auto.
  - intros c x C. destruct (wi_coll _ _ C) as (z & Z1 & Z2). destruct (L2 _ _ Z1) as (z' & Z3 & Z4). exists z'. rewrite Z4. auto.
  - intros k z c K C. destruct (L _ _ K) as (z0 & K1 & K2 & _). rewrite K2 in C. eauto.
  - intros k z K. destruct (L _ _ K) as (z0 & K1 & K2 & _). rewrite K2. eauto.
  - intros c x z C K. destruct (L _ _ K) as (z0 & K1 & _ & _ & _ & _ & [K2| ->]); [|destruct (wi_active _ _ _ C K1) as [|[]]; auto]. right. destruct (wi_coll _ _ C) as (u & U1 & U2). rewrite K2, B in U1. injection U1 as <-. exact U2.
  - intros id p x1 x2 y1 y2 P EN C1 C2 B1 B2. apply L in B1, B2. destruct B1 as (z1 & Z1 & _ & _ & _ & D1 & _). destruct B2 as (z2 & Z2 & _ & _ & _ & D2 & _). rewrite D1, D2. exact (wi_dis _ _ _ _ _ _ P EN C1 C2 Z1 Z2).
  - intros k z K. destruct (L _ _ K) as (z0 & Z0 & _ & Z1 & Z2 & Z3 & _). rewrite Z1, Z2, Z3. eauto.
  - intros j x J. destruct (wi_joint _ _ J) as ((z1 & Z1) & (z2 & Z2) & N). splits; auto; [destruct (L2 _ _ Z1) as (? & ? & _)|destruct (L2 _ _ Z2) as (? & ? & _)]; eauto.
Qed.

Lemma set_active_ok : forall E F w b v node bx x, WInv none none E F none w -> theb b w = Some x ->
  (forall c, In c (b_colliders x) -> fresh_node box (node c) w) -> (forall c d, In c (b_colliders x) -> In d (b_colliders x) -> node c = node d -> c = d) ->
  exists w', set_active box inflate b v node bx w = Ok w' /\ WInv none none E F none w' /\ Jsame w w'.
Proof.
  intros E F w b v node bx x I B FN INJ. unfold set_active. unfold get_body at 1. rewrite B. cbn [rd bind].
  destruct (Bool.eqb (b_active x) v) eqn:AV; [exists w; splits; auto using jsame_refl|].
  destruct (set_sleeping_ok box overlap overlap_sym E F none w b (negb v) x I B) as (w1 & R1 & I1 & F1 & _). rewrite R1. cbn [bind].
  destruct (f_body F1 _ _ B) as (y & B1 & S1 & S2 & S3). unfold body_set_active, get_body. rewrite B1. cbn [rd bind]. rewrite S2, AV.
  pose proof (put_active E F w1 b y v I1 B1) as I2. set (w2 := put_body box b (w_active v y) w1) in *. assert (J2 : Jsame w w2) by (eapply jsame_trans; [apply frame_jsame; exact F1|unfold Jsame; auto]).
  assert (B2 : theb b w2 = Some (w_active v y)) by (unfold w2; rewrite put_body_lookup, Z.eqb_refl; reflexivity).
  assert (ND : NoDup (b_colliders y)) by exact (wi_nodup I1 _ _ B1).
  assert (CB : forall c, In c (b_colliders y) -> exists z, thec c w2 = Some z /\ c_body z = b) by (intros c; exact (wi_body I1 _ _ c B1)).
  destruct v.
  - assert (AX : b_active x = false) by (destruct (b_active x); [discriminate|reflexivity]).
    destruct (each_ind box Z (fun l w3 => WInv none none E F (fun d => In d l) w3 /\ Jsame w w3 /\ ww_bodies _ w3 = ww_bodies _ w2 /\ NoDup l /\
      (forall c, In c l -> fresh_node box (node c) w3 /\ exists z, thec c w3 = Some z /\ c_node z = -1 /\ c_body z = b)) (fun c => add_to_broadphase box inflate c (node c) (bx c)) (b_colliders y) w2) as (w3 & R3 & I3 & J3 & _).
    + intros c l w3 SUB (I3 & J3 & B3 & ND3 & H3). destruct (H3 c (or_introl eq_refl)) as (FC & z & Z1 & Z2 & Z3). inversion ND3 as [|? ? NI ND4]; subst.
      destruct (enter_ok box overlap inflate E F _ w3 c z (w_active true y) (node c) (bx c) I3 Z1 Z2) as (w4 & R4 & I4 & J4 & B4 & T4 & C4); auto; [rewrite B3; exact B2|].
      exists w4. splits; auto.
      * eapply winv_weaken; eauto. intros d ([K|K] & K2); [congruence|exact K].
      * eapply jsame_trans; eassumption.
      * congruence.
      * intros d IN. destruct (H3 d (or_intror IN)) as ((FD1 & FD2) & z' & D1 & D2 & D3). assert (NE : d <> c) by congruence. split.
        -- split; [exact FD1|]. rewrite T4. destruct (Z.eqb_spec (node d) (node c)) as [EQ|]; [|exact FD2]. exfalso. apply NE. rewrite S3 in SUB. apply INJ; [apply SUB; right; exact IN|apply SUB; left; reflexivity|exact EQ].
        -- exists z'. rewrite C4. apply Z.eqb_neq in NE. rewrite NE. auto.
    + splits; auto. intros c IN. split.
      * rewrite S3 in IN. destruct (FN c IN) as (K1 & K2). split; [exact K1|]. unfold w2. cbn [put_body set_bodies ww_tree]. rewrite (f_tree F1). exact K2.
      * destruct (CB c IN) as (z & Z1 & Z2). exists z. splits; auto. assert (B' : theb (c_body z) w1 = Some y) by (rewrite Z2; exact B1). destruct (wi_active I1 _ _ _ Z1 B') as [K|[]]. rewrite S2, AX in K.
        destruct (Z.eq_dec (c_node z) (-1)); auto. apply K in n. discriminate.
    + exists w3. splits; auto.
  - set (XL := fun d => In d (b_colliders y)).
    destruct (each_ind box Z (fun l w3 => WInv none none E F XL w3 /\ Jsame w w3 /\ ww_bodies _ w3 = ww_bodies _ w2 /\
      (forall c, XL c -> exists z, thec c w3 = Some z /\ c_body z = b /\ (In c l \/ c_node z = -1))) (fun c w => let* y := get_coll box c w in if c_node y =? -1 then Ok w else remove_from_broadphase box c w) (b_colliders y) w2) as (w3 & R3 & I3 & J3 & B3 & H3).
    + intros c l w3 SUB (I3 & J3 & B3 & H3). assert (XC : XL c) by (apply SUB; left; reflexivity). destruct (H3 c XC) as (z & Z1 & Z2 & _). unfold get_coll. rewrite Z1. cbn [rd bind].
      destruct (Z.eqb_spec (c_node z) (-1)) as [N|N].
      * exists w3. splits; auto. intros d D. destruct (H3 d D) as (z' & D1 & D2 & [[D3|D3]|D3]); exists z'; splits; auto. subst d. rewrite Z1 in D1. injection D1 as <-. auto.
      * destruct (leave_ok box overlap overlap_sym E F XL w3 c z I3 Z1 N) as (w4 & R4 & I4 & _ & J4 & B4 & _ & C4). exists w4. splits; auto.
        -- eapply winv_weaken; eauto. intros d [K| ->]; auto.
        -- eapply jsame_trans; eassumption.
        -- congruence.
        -- intros d D. rewrite C4. destruct (Z.eqb_spec d c) as [->|NE]; [exists (w_node (-1) z); splits; auto|]. destruct (H3 d D) as (z' & D1 & D2 & [[D3|D3]|D3]); [congruence| |]; exists z'; splits; auto.
    + splits; auto. intros c IN. destruct (CB c IN) as (z & Z1 & Z2). exists z. splits; auto.
    + exists w3. splits; auto. eapply drop_XA; [exact I3|]. intros c z u XC C U. destruct (H3 c XC) as (z' & D1 & D2 & [[]|D3]). rewrite C in D1. injection D1 as <-. rewrite D2, B3, B2 in U. injection U as <-. cbn. split; [discriminate|congruence].
Qed.

(** ** Movement *)
Lemma drop_moved : forall X Y E F XA w n, WInv X Y (fun id => E id \/ with_node n id) F XA w -> In n (ww_moved _ w) -> 0 <= n < 2 ^ 31 -> WInv X Y E F XA w.
Proof.
  intros X Y E F XA w n I M R. destruct I. constructor; auto. intros c1 c2 x1 x2 D1 D2 G1 G2 OK BV. destruct (wi_comp _ _ _ _ D1 D2 G1 G2 OK BV) as [K|[K|[K|[K|(m & M1 & M2)]]]]; auto.
  destruct (wi_node _ _ D1 G1) as (V1 & _). destruct (wi_node _ _ D2 G2) as (V2 & _).
  destruct (pair_id_inj (c_node x1) (c_node x2) n m) as [(W & _)|(_ & W)]; [lia|lia|lia|lia|exact M2|rewrite W; auto|rewrite W; auto].
Qed.
Lemma drop_X : forall X Y E F XA w, WInv X Y E F XA w -> (forall id p, thep id w = Some p -> X id -> p_test p = true) -> WInv none Y E F XA w.
Proof. intros X Y E F XA w I H. destruct I. constructor; auto. intros id p P EN T. destruct (wi_test _ _ P EN T) as [|K]; auto. rewrite (H _ _ P K) in T. discriminate. Qed.

Lemma move_box : forall X Y E F XA w c x bx, WInv X Y E F XA w -> thec c w = Some x -> c_node x <> -1 ->
  WInv (fun id => X id \/ Touch [c] w id) Y (fun id => E id \/ with_node (c_node x) id) F XA (set_tree box (m_set Z.eqb (c_node x) bx (ww_tree _ w)) w).
Proof.
  intros X Y E F XA w c x bx I C N. pose proof I as I0. destruct (wi_node I _ _ C N) as (RN & MN & bN & TN). set (n := c_node x) in *. set (w' := set_tree box _ w).
  assert (LT : forall m, lookup Z.eqb m (ww_tree _ w') = if m =? n then Some bx else lookup Z.eqb m (ww_tree _ w)) by (intros m; unfold w'; cbn [set_tree ww_tree]; apply lookup_set).
  assert (BO : forall a b, a <> n -> b <> n -> (bov w' a b <-> bov w a b)).
  { intros a b NA NB. unfold boxes_overlap. rewrite !LT. apply Z.eqb_neq in NA. apply Z.eqb_neq in NB. rewrite NA, NB. tauto. }
  assert (T1 : forall m, (exists b0, lookup Z.eqb m (ww_tree _ w) = Some b0) -> exists b0, lookup Z.eqb m (ww_tree _ w') = Some b0) by (intros m (b0 & K); rewrite LT; destruct (m =? n); eauto).
  destruct I. constructor; auto.
  - intros d z D NN. destruct (wi_node _ _ D NN) as (K1 & K2 & K3). splits; auto; lia.
  - intros m b0. rewrite LT. destruct (Z.eqb_spec m n) as [->|NM]; intros T; [eauto|]. eauto.
  - intros m b0 IN. unfold w' in IN. cbn [set_tree ww_tree] in IN. destruct IN as [K|IN]; [injection K as <- <-; rewrite LT, Z.eqb_refl; reflexivity|].
    apply in_m_remove in IN. cbn in IN. destruct IN as (IN & NM). rewrite LT. apply Z.eqb_neq in NM. rewrite NM. auto.
  - intros id p P EN T. change (thep id w = Some p) in P. destruct (involves c p) eqn:V; [right; right; exists p, c; cbn; auto|].
    destruct (wi_pair _ _ P) as (_ & _ & N1 & N2 & x1 & x2 & C1 & C2 & Q1 & Q2 & _). destruct (wi_test _ _ P EN T) as [K|K]; auto. left. apply BO; auto.
    + intros K1. rewrite <- Q1 in K1, N1. destruct (wi_node _ _ C1 N1) as (_ & M & _). rewrite K1, MN in M. injection M as M. unfold involves in V. rewrite <- M, Z.eqb_refl in V. discriminate.
    + intros K1. rewrite <- Q2 in K1, N2. destruct (wi_node _ _ C2 N2) as (_ & M & _). rewrite K1, MN in M. injection M as M. unfold involves in V. rewrite <- M, Z.eqb_refl, Bool.orb_true_r in V. discriminate.
  - intros c1 c2 x1 x2 D1 D2 G1 G2 OK BV. destruct (wi_node _ _ D1 G1) as (V1 & _). destruct (wi_node _ _ D2 G2) as (V2 & _).
    destruct (Z.eq_dec (c_node x1) n) as [E1|E1]; [right; right; right; right; rewrite E1; exists (c_node x2); auto|].
    destruct (Z.eq_dec (c_node x2) n) as [E2|E2]; [right; right; right; right; rewrite E2, pair_id_sym; exists (c_node x1); auto|].
    apply BO in BV; auto. destruct (wi_comp _ _ _ _ D1 D2 G1 G2 OK BV) as [K|[K|[K|K]]]; auto.
Qed.

Lemma update_collider_ok : forall E F w c x bx force, WInv none none E F none w -> thec c w = Some x -> (forall id p, thep id w = Some p -> involves c p = true -> p_enabled p = true) ->
  exists w', update_collider box covers inflate bx force c w = Ok w' /\ WInv none none E F none w' /\ Jsame w w' /\ ww_bodies _ w' = ww_bodies _ w /\ ww_coll _ w' = ww_coll _ w /\
    (forall id p', thep id w' = Some p' -> exists p, thep id w = Some p /\ core p' = core p /\ p_enabled p' = p_enabled p).
Proof.
  intros E F w c x bx force I C H. unfold update_collider, get_coll. rewrite C. cbn [rd bind].
  assert (SAME : exists w', Ok w = Ok w' /\ WInv none none E F none w' /\ Jsame w w' /\ ww_bodies _ w' = ww_bodies _ w /\ ww_coll _ w' = ww_coll _ w /\
    (forall id p', thep id w' = Some p' -> exists p, thep id w = Some p /\ core p' = core p /\ p_enabled p' = p_enabled p)).
  { exists w. splits; auto using jsame_refl. eauto. }
  destruct (Z.eqb_spec (c_node x) (-1)) as [N|N]; [exact SAME|]. destruct (wi_node I _ _ C N) as (RN & MN & bN & TN). rewrite TN. cbn [rd bind].
  destruct (negb (force c) && covers bN (bx c)); [exact SAME|].
  pose proof (move_box none none E F none w c x (inflate (bx c)) I C N) as I1. set (w1 := set_tree box _ w) in *.
  destruct (add_moved_ok box overlap overlap_sym _ _ _ _ _ w1 (c_node x) c (inflate (bx c)) I1) as (w' & R & I2 & F2 & B2 & M2 & T2 & K2); [unfold w1; cbn [set_tree ww_tree]; rewrite lookup_set, Z.eqb_refl; reflexivity|exact H|].
  exists w'. splits; auto.
  - eapply drop_moved with (n := c_node x); [|apply M2; auto|exact RN]. eapply drop_X; [exact I2|]. intros id p P [[]|(q & d & Q & [<-|[]] & V)].
    apply (T2 _ _ P). change (thep id w1 = Some q) in Q. destruct (f_pair F2 _ _ Q) as (q' & Q' & KK & _). rewrite P in Q'. injection Q' as <-. rewrite (involves_core c p q KK). exact V.
  - eapply jsame_trans; [|apply frame_jsame; exact F2]. unfold Jsame. auto.
  - rewrite (f_coll F2). reflexivity.
  - intros id p' P'. destruct (f_pair' F2 _ _ P') as (p & P & KK & _). exists p. splits; auto. destruct (K2 _ _ P) as (q & Q & EQ & _). congruence.
Qed.

Lemma update_body_ok : forall E F w b y bx force, WInv none none E F none w -> theb b w = Some y -> (forall id p, thep id w = Some p -> Touch (b_colliders y) w id -> p_enabled p = true) ->
  exists w', update_body box covers inflate b bx force w = Ok w' /\ WInv none none E F none w' /\ Jsame w w'.
Proof.
  intros E F w b y bx force I B H. unfold update_body, get_body. rewrite B. cbn [rd bind].
  destruct (each_ok box Z (fun w1 => WInv none none E F none w1 /\ Jsame w w1 /\ ww_coll _ w1 = ww_coll _ w /\
    (forall id p', thep id w1 = Some p' -> exists p, thep id w = Some p /\ core p' = core p /\ p_enabled p' = p_enabled p)) (update_collider box covers inflate bx force) (b_colliders y) w) as (w' & R & I' & J' & _).
  - intros c w1 IN (I1 & J1 & C1 & K1). destruct (wi_body I _ _ _ B IN) as (x & C & _). rewrite <- C1 in C.
    destruct (update_collider_ok E F w1 c x bx force I1 C) as (w2 & R2 & I2 & J2 & _ & C2 & K2).
    { intros id p P V. destruct (K1 _ _ P) as (q & Q & KK & EQ). rewrite EQ. apply (H _ _ Q). exists q, c. rewrite <- (involves_core c p q KK). auto. }
    exists w2. splits; auto.
    + eapply jsame_trans; eassumption.
    + congruence.
    + intros id p' P'. destruct (K2 _ _ P') as (p & P & KK & EQ). destruct (K1 _ _ P) as (q & Q & KK2 & EQ2). exists q. splits; congruence.
  - splits; auto using jsame_refl. eauto.
  - exists w'. auto.
Qed.

Lemma set_transform_ok : forall E F w b y bx force, WInv none none E F none w -> theb b w = Some y -> (b_type y = Static -> ~ has_disabled_pair box b w) ->
  exists w', set_transform box covers inflate b bx force w = Ok w' /\ WInv none none E F none w' /\ Jsame w w'.
Proof.
  intros E F w b y bx force I B H. unfold set_transform. destruct (set_sleeping_ok box overlap overlap_sym E F none w b false y I B) as (w1 & R1 & I1 & F1 & _ & _ & AW & ST). rewrite R1. cbn [bind].
  destruct (f_body F1 _ _ B) as (y1 & B1 & S1 & S2 & S3). destruct (update_body_ok E F w1 b y1 bx force I1 B1) as (w2 & R2 & I2 & J2).
  - intros id p P T. destruct (b_active y) eqn:ACT; [|exfalso; eapply (inactive_pairs box overlap); eauto]. destruct (btype_eqb (b_type y) Static) eqn:BT.
    + assert (TS : b_type y = Static) by (destruct (b_type y); auto; discriminate). rewrite (ST TS) in *. destruct (p_enabled p) eqn:EN; [reflexivity|]. exfalso. apply (H TS).
      destruct T as (q & c & Q & C & V). rewrite P in Q. injection Q as <-. destruct (wi_body I1 _ _ _ B1 C) as (x & X1 & X2). exists id, p, c, x. auto.
    + destruct AW as (x' & X1 & X2 & X3); auto; [intros K; rewrite K in BT; discriminate|]. rewrite B1 in X1. injection X1 as <-. eapply (awake_pairs box overlap); eauto.
  - exists w2. splits; auto. eapply jsame_trans; [apply frame_jsame; exact F1|exact J2].
Qed.
Lemma integrate_ok : forall E F w b y bx force, WInv none none E F none w -> theb b w = Some y ->
  exists w', integrate box covers inflate b bx force w = Ok w' /\ WInv none none E F none w' /\ Jsame w w'.
Proof.
  intros E F w b y bx force I B. unfold integrate, get_body. rewrite B. cbn [rd bind]. destruct (b_disabled y) eqn:D; [exists w; splits; auto using jsame_refl|].
  eapply update_body_ok; eauto. intros id p P T. eapply (awake_pairs box overlap); eauto.
Qed.

(** ** Filter bits *)
Lemma put_filter : forall E F w c x x', WInv none none E F none w -> thec c w = Some x -> c_body x' = c_body x -> c_node x' = c_node x ->
  WInv none none (fun id => E id \/ (c_node x <> -1 /\ with_node (c_node x) id)) F none (put_coll box c x' w).
Proof.
  intros E F w c x x' I C HB HN. pose proof I as I0. destruct I.
  assert (L : forall d z, thec d (put_coll box c x' w) = Some z -> exists z0, thec d w = Some z0 /\ c_body z = c_body z0 /\ c_node z = c_node z0 /\ (d = c \/ z = z0)).
  { intros d z. rewrite put_coll_lookup. destruct (Z.eqb_spec d c) as [->|N]; intros H; [injection H as <-; exists x|exists z]; splits; auto. }
  assert (L2 : forall d z, thec d w = Some z -> exists z', thec d (put_coll box c x' w) = Some z' /\ c_body z' = c_body z /\ c_node z' = c_node z).
  { intros d z H. rewrite put_coll_lookup. destruct (Z.eqb_spec d c) as [->|N]; [exists x'; splits; congruence|exists z; splits; auto]. }
  constructor; auto.
  - intros d z D. destruct (L _ _ D) as (z0 & K1 & K2 & _). rewrite K2. exact (wi_coll _ _ K1).
  - intros k y d B IN. destruct (wi_body _ _ _ B IN) as (u & U1 & U2). destruct (L2 _ _ U1) as (u' & K1 & K2 & _). exists u'. split; [exact K1|congruence].
  - intros d. change (sp_coll (ww_pairs _ (put_coll box c x' w))) with (sp_coll (ww_pairs _ w)). rewrite wi_pcoll. split; intros (z & K); [destruct (L2 _ _ K) as (z' & ? & _)|destruct (L _ _ K) as (z' & ? & _)]; eauto.
  - intros d z D. destruct (L _ _ D) as (z0 & K1 & _ & K2 & _). rewrite K2. exact (wi_node _ _ K1).
  - intros m d M. destruct (wi_map _ _ M) as (K1 & z & K2 & K3). split; [exact K1|]. destruct (L2 _ _ K2) as (z' & U1 & _ & U2). exists z'. split; [exact U1|congruence].
  - intros d z y D B. destruct (L _ _ D) as (z0 & K1 & K2 & K3 & _). rewrite K2 in B. rewrite K3. exact (wi_active _ _ _ K1 B).
  - intros id p P. destruct (wi_pair _ _ P) as (K1 & K2 & K3 & K4 & x1 & x2 & C1 & C2 & Q1 & Q2 & Q3 & Q4). splits; auto. destruct (L2 _ _ C1) as (z1 & U1 & U2 & U3). destruct (L2 _ _ C2) as (z2 & V1 & V2 & V3).
    exists z1, z2. rewrite U2, U3, V2, V3. splits; auto.
  - intros id p x1 x2 y1 y2 P EN C1 C2 B1 B2. destruct (L _ _ C1) as (z1 & U1 & U2 & _). destruct (L _ _ C2) as (z2 & V1 & V2 & _). rewrite U2 in B1. rewrite V2 in B2. exact (wi_dis _ _ _ _ _ _ P EN U1 V1 B1 B2).
  - intros c1 c2 x1 x2 D1 D2 G1 G2 OK BV. destruct (L _ _ D1) as (z1 & U1 & U2 & U3 & U4). destruct (L _ _ D2) as (z2 & V1 & V2 & V3 & V4). rewrite U3 in *. rewrite V3 in *.
    destruct (wi_node _ _ U1 G1) as (R1 & _). destruct (wi_node _ _ V1 G2) as (R2 & _).
    destruct U4 as [->|E1]; [right; right; right; right; rewrite C in U1; injection U1 as <-; split; [exact G1|]; exists (c_node z2); auto|].
    destruct V4 as [->|E2]; [right; right; right; right; rewrite C in V1; injection V1 as <-; split; [exact G2|]; rewrite pair_id_sym; exists (c_node z1); auto|].
    subst x1 x2. destruct (wi_comp _ _ _ _ U1 V1 G1 G2 OK BV) as [K|[K|[K|K]]]; auto.
  - intros e IN. destruct (wi_lost e IN) as ((a & A1) & (b & B1)). destruct (L2 _ _ A1) as (? & ? & _). destruct (L2 _ _ B1) as (? & ? & _). eauto.
Qed.

Lemma set_filter_ok : forall E F w c x x', WInv none none E F none w -> thec c w = Some x -> c_body x' = c_body x -> c_node x' = c_node x -> ~ coll_has_disabled_pair box c w ->
  exists w', ask_check box c (put_coll box c x' w) = Ok w' /\ WInv none none E F none w' /\ Jsame w w'.
Proof.
  intros E F w c x x' I C HB HN ND. pose proof (put_filter E F w c x x' I C HB HN) as I1. set (w1 := put_coll box c x' w) in *.
  assert (C1 : thec c w1 = Some x') by (unfold w1; rewrite put_coll_lookup, Z.eqb_refl; reflexivity).
  destruct (ask_ok box overlap overlap_sym _ _ _ _ _ w1 c x' I1 C1) as (w' & R & I2 & F2 & _ & M2 & _).
  { intros id p P V. destruct (p_enabled p) eqn:EN; [reflexivity|]. exfalso. apply ND. exists id, p. auto. }
  exists w'. splits; auto; [|eapply jsame_trans; [|apply frame_jsame; exact F2]; unfold Jsame; auto].
  destruct (Z.eq_dec (c_node x) (-1)) as [N|N].
  - eapply winv_weaken; eauto. intros id [K|(K & _)]; [exact K|contradiction].
  - eapply drop_moved with (n := c_node x); [eapply winv_weaken; eauto; intros id [K|(_ & K)]; auto|apply M2; left; rewrite HN; auto|].
    destruct (wi_node I _ _ C N) as (RN & _). exact RN.
Qed.
End Proofs.
