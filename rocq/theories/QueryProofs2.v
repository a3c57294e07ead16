(** Proofs about the calls of a world: every allowed call succeeds and keeps the invariant. *)
From Coq Require Import List Arith Lia Bool ZArith.
From Verif Require Import Base Decimal HashSpec TreeModel TreeSpec ComponentsProofs TreeProofs5
  VecModel VecProofs GeomSpec ShapeModel ShapeSpec TriMeshModel TriMeshTreeProofs TriMeshProofs QueryModel QuerySpec QueryProofs.
Import ListNotations.
Local Open Scope R_scope.

Section Calls.
Variable pct : R.
Notation winv := (winv pct).
Notation winv' := (winv' pct).

(** ** Loops *)
(** The worlds differ in the tree and in some colliders, which keep what is not the place. *)
Record kin (cs : list nat) (w w' : qworld) : Prop :=
  { k_shapes : forall s, qw_shapes w' s = qw_shapes w s
  ; k_bodies : forall b, qw_bodies w' b = qw_bodies w b
  ; k_next : qw_next w' = qw_next w
  ; k_other : forall d, ~ In d cs -> qw_colliders w' d = qw_colliders w d
  ; k_this : forall d k, qw_colliders w d = Some k -> exists k', qw_colliders w' d = Some k' /\ wc_body k' = wc_body k /\ wc_shape k' = wc_shape k /\
      wc_local k' = wc_local k /\ wc_bits k' = wc_bits k /\ wc_query k' = wc_query k /\ (wc_resized k = false -> wc_resized k' = false) }.
Lemma kin_refl w : kin [] w w.
Proof. constructor; auto. intros d k H. exists k. repeat split; auto. Qed.
Lemma kin_framed c k k' w w' : qw_colliders w c = Some k -> framed c k' w w' -> wc_body k' = wc_body k -> wc_shape k' = wc_shape k -> wc_local k' = wc_local k ->
  wc_bits k' = wc_bits k -> wc_query k' = wc_query k -> (wc_resized k = false -> wc_resized k' = false) -> kin [c] w w'.
Proof.
  intros K [A B C D E] E1 E2 E3 E4 E5 E6. constructor; auto.
  - intros d N. apply E. intros ->. apply N. now left.
  - intros d kd H. destruct (Nat.eq_dec d c) as [->|N].
    + rewrite K in H. injection H as <-. exists k'. repeat split; auto.
    + exists kd. rewrite E by exact N. repeat split; auto.
Qed.
Lemma kin_trans c cs w1 w2 w3 : kin [c] w1 w2 -> kin cs w2 w3 -> kin (c :: cs) w1 w3.
Proof.
  intros [A1 B1 C1 D1 E1] [A2 B2 C2 D2 E2]. constructor; intros; try congruence.
  - rewrite D2, D1; [reflexivity|intros [<-|[]]; apply H; now left|intros X; apply H; now right].
  - destruct (E1 d k H) as (k1 & K1 & P1 & P2 & P3 & P4 & P5 & P6). destruct (E2 d k1 K1) as (k2 & K2 & Q1 & Q2 & Q3 & Q4 & Q5 & Q6).
    exists k2. repeat split; try congruence. auto.
Qed.
Lemma moves_ok : forall cs (D : nat -> Prop) w a, winv D w a -> (forall c, In c cs -> qw_colliders w c <> None) ->
  exists w' a', for_each (move_collider pct) cs w = Ok w' /\ winv (fun d => D d /\ ~ In d cs) w' a' /\ kin cs w w' /\
    (forall d k k', qw_colliders w d = Some k -> qw_colliders w' d = Some k' -> wc_node k' = wc_node k /\ (In d cs -> wc_node k <> (-1)%Z -> wc_resized k' = false)).
Proof.
  induction cs as [|c cs IH]; intros D w a I L; cbn [for_each].
  - exists w, a. split; [reflexivity|]. split; [eapply winv_weaken; [|exact I]; auto|]. split; [apply kin_refl|]. intros d k k' H H'. rewrite H in H'. injection H' as <-. split; [reflexivity|intros []].
  - destruct (qw_colliders w c) as [k|] eqn:K; [|exfalso; now apply (L c (or_introl eq_refl))].
    destruct (v_coll _ _ _ _ I c k K) as (_ & _ & x & s & B & S & _). destruct (move_collider_ok pct D w a c k x I K B) as (w1 & a1 & E1 & I1 & F1). rewrite E1. cbn [bind].
    assert (K1 : kin [c] w w1). { eapply kin_framed; eauto; try reflexivity. cbn. intros ->. now destruct (Z.eqb (wc_node k) (-1)). }
    destruct (IH _ w1 a1 I1) as (w2 & a2 & E2 & I2 & K2 & N2).
    { intros d Hd. assert (X := L d (or_intror Hd)). destruct (qw_colliders w d) as [kd|] eqn:Kd; [|congruence]. destruct (k_this _ _ _ K1 d kd Kd) as (k1 & -> & _). discriminate. }
    exists w2, a2. split; [exact E2|]. split; [|split; [eapply kin_trans; eauto|]].
    + eapply winv_weaken; [|exact I2]. cbn beta. intros d ((P & Q) & R). split; [exact P|]. intros [<-|X]; auto.
    + intros d kd kd' H H'. destruct (Nat.eq_dec d c) as [->|N].
      * rewrite K in H. injection H as <-. destruct (N2 c _ _ (f_this _ _ _ _ F1) H') as (P & Q). cbn [wc_node relocated] in P. split; [exact P|]. intros _ X.
        destruct (in_dec Nat.eq_dec c cs) as [J|J].
        -- apply Q; [exact J|]. cbn. exact X.
        -- rewrite (k_other _ _ _ K2 c J) in H'. rewrite (f_this _ _ _ _ F1) in H'. injection H' as <-. cbn. destruct (Z.eqb_spec (wc_node k) (-1)%Z); [contradiction|reflexivity].
      * assert (H1 : qw_colliders w1 d = Some kd) by (rewrite (f_other _ _ _ _ F1 d N); exact H). destruct (N2 d _ _ H1 H') as (P & Q). split; [exact P|]. intros [->|X]; [congruence|auto].
Qed.
Lemma ins_ok : forall cs (D : nat -> Prop) w a, winv D w a -> NoDup cs -> (forall c, In c cs -> exists k, qw_colliders w c = Some k /\ wc_node k = (-1)%Z) ->
  exists w' a', for_each (into_tree pct) cs w = Ok w' /\ winv D w' a' /\ kin cs w w' /\ (forall c k', In c cs -> qw_colliders w' c = Some k' -> wc_node k' <> (-1)%Z).
Proof.
  induction cs as [|c cs IH]; intros D w a I ND L; cbn [for_each].
  - exists w, a. split; [reflexivity|]. split; [exact I|]. split; [apply kin_refl|]. intros c k' [].
  - inversion ND as [|? ? NI ND']; subst. destruct (L c (or_introl eq_refl)) as (k & K & N). destruct (into_tree_ok pct D w a c k I K N) as (t & id & a1 & E1 & NID & I1). rewrite E1. cbn [bind].
    set (w1 := with_collider c (Some (with_node id k)) (with_tree t w)) in *. pose proof (framed_put c (with_node id k) t w) as F1. fold w1 in F1.
    assert (K1 : kin [c] w w1) by (eapply kin_framed; eauto; reflexivity).
    destruct (IH D w1 a1 I1 ND') as (w2 & a2 & E2 & I2 & K2 & N2).
    { intros d Hd. destruct (L d (or_intror Hd)) as (kd & Kd & Nd). exists kd. rewrite (f_other _ _ _ _ F1); [auto|]. intros ->. contradiction. }
    exists w2, a2. split; [exact E2|]. split; [exact I2|]. split; [eapply kin_trans; eauto|].
    intros d k' [<-|X] H; [|eauto]. rewrite (k_other _ _ _ K2 c NI), (f_this _ _ _ _ F1) in H. injection H as <-. exact NID.
Qed.
Lemma outs_ok : forall cs (D : nat -> Prop) w a, winv D w a -> (forall c, In c cs -> qw_colliders w c <> None) ->
  exists w' a', for_each out_of_tree cs w = Ok w' /\ winv D w' a' /\ kin cs w w' /\ (forall c k', In c cs -> qw_colliders w' c = Some k' -> wc_node k' = (-1)%Z).
Proof.
  induction cs as [|c cs IH]; intros D w a I L; cbn [for_each].
  - exists w, a. split; [reflexivity|]. split; [exact I|]. split; [apply kin_refl|]. intros c k' [].
  - destruct (qw_colliders w c) as [k|] eqn:K; [|exfalso; now apply (L c (or_introl eq_refl))].
    destruct (out_of_tree_ok pct D w a c k I K) as (w1 & a1 & E1 & I1 & F1). rewrite E1. cbn [bind].
    assert (K1 : kin [c] w w1) by (eapply kin_framed; eauto; reflexivity).
    destruct (IH D w1 a1 I1) as (w2 & a2 & E2 & I2 & K2 & N2).
    { intros d Hd. assert (X := L d (or_intror Hd)). destruct (qw_colliders w d) as [kd|] eqn:Kd; [|congruence]. destruct (k_this _ _ _ K1 d kd Kd) as (k1 & -> & _). discriminate. }
    exists w2, a2. split; [exact E2|]. split; [exact I2|]. split; [eapply kin_trans; eauto|].
    intros d k' J H. destruct (in_dec Nat.eq_dec d cs) as [X|X]; [eauto|]. destruct J as [<-|J]; [|contradiction].
    rewrite (k_other _ _ _ K2 c X), (f_this _ _ _ _ F1) in H. injection H as <-. reflexivity.
Qed.

(** ** Bodies *)
Lemma winv_body (D D' : nat -> Prop) w a b x x' : winv D w a -> qw_bodies w b = Some x -> wb_colliders x' = wb_colliders x -> unit_pose (wb_pose x') ->
  (forall c, D c -> D' c) -> (wb_pose x' = wb_pose x \/ forall c, In c (wb_colliders x) -> D' c) -> winv D' (with_body b (Some x') w) a.
Proof.
  intros [T SH BO CO NO OW FE] B EC U DD PO. constructor; cbn [qw_tree qw_shapes qw_bodies qw_colliders qw_next with_body]; auto.
  - intros d y H. destruct (Nat.eq_dec d b) as [->|N].
    + rewrite nupd_same in H. injection H as <-. destruct (BO b x B) as (_ & B2 & B3 & B4). rewrite EC. auto.
    + rewrite nupd_other in H by exact N. exact (BO d y H).
  - intros c k H. destruct (CO c k H) as (A1 & A2 & y & s & C1 & C2 & C3 & C4). split; [exact A1|]. split; [exact A2|].
    destruct (Nat.eq_dec (wc_body k) b) as [E|N].
    + rewrite E in *. rewrite B in C1. injection C1 as <-. exists x', s. rewrite nupd_same, EC. repeat (split; [auto|]). intros ND.
      destruct PO as [->|PO]; [apply C4; auto|]. exfalso. auto.
    + rewrite nupd_other by exact N. exists y, s. repeat (split; [auto|]). intros ND. apply C4. auto.
  - intros c k H NN. destruct (NO c k H NN) as (bx & A1 & A2). exists bx. split; [exact A1|]. intros ND RS y s H1 H2.
    destruct (Nat.eq_dec (wc_body k) b) as [E|N].
    + rewrite E, nupd_same in H1. injection H1 as <-. destruct PO as [PO|PO].
      * rewrite PO. apply (A2 ltac:(auto) RS x s); [now rewrite E|exact H2].
      * exfalso. apply ND. apply PO. destruct (CO c k H) as (_ & _ & y & s' & C1 & _ & C3 & _). rewrite E, B in C1. injection C1 as <-. exact C3.
    + rewrite nupd_other in H1 by exact N. apply (A2 ltac:(auto) RS y s); assumption.
Qed.
Lemma all_in_body w b x x' : all_in w -> qw_bodies w b = Some x -> wb_active x' = wb_active x -> all_in (with_body b (Some x') w).
Proof.
  intros A B E c k y H H1. cbn in H, H1. destruct (Nat.eq_dec (wc_body k) b) as [E1|N].
  - rewrite E1, nupd_same in H1. injection H1 as <-. rewrite E. apply (A c k x H). now rewrite E1.
  - rewrite nupd_other in H1 by exact N. exact (A c k y H H1).
Qed.
(** Only the flags and the lists of bodies, the nodes and the names of the bodies matter. *)
Lemma all_in_kin w w' : all_in w -> (forall b, qw_bodies w' b = qw_bodies w b) -> (forall c k', qw_colliders w' c = Some k' -> exists k, qw_colliders w c = Some k /\ wc_body k' = wc_body k /\ wc_node k' = wc_node k) -> all_in w'.
Proof. intros A B C c k' x H H1. destruct (C c k' H) as (k & K & E1 & E2). rewrite E1, B in H1. rewrite E2. exact (A c k x K H1). Qed.
Lemma kin_back cs w w' : kin cs w w' -> (forall c, In c cs -> qw_colliders w c <> None) -> forall d k', qw_colliders w' d = Some k' -> exists k, qw_colliders w d = Some k.
Proof.
  intros K L d k' H. destruct (in_dec Nat.eq_dec d cs) as [J|J].
  - specialize (L d J). destruct (qw_colliders w d); [eauto|congruence].
  - rewrite (k_other _ _ _ K d J) in H. eauto.
Qed.

(** ** The calls *)
Lemma set_sleeping_ok b v w : winv' w -> qw_bodies w b <> None -> exists w', set_sleeping b v w = Ok w' /\ winv' w' /\
  (forall s, qw_shapes w' s = qw_shapes w s) /\ (forall c, qw_colliders w' c = qw_colliders w c) /\
  forall d x, qw_bodies w d = Some x -> exists x', qw_bodies w' d = Some x' /\ wb_pose x' = wb_pose x /\ wb_active x' = wb_active x /\ wb_colliders x' = wb_colliders x.
Proof.
  intros ((a & I) & A) B. destruct (qw_bodies w b) as [x|] eqn:Hb; [|congruence]. unfold set_sleeping. rewrite Hb. cbn [rd bind]. eexists. split; [reflexivity|].
  destruct (wb_active x) eqn:Ha.
  - split; [|split; [reflexivity|split; [reflexivity|]]].
    + split; [exists a; eapply winv_body; eauto|].
      * exact (proj1 (v_body _ _ _ _ I b x Hb)).
      * eapply all_in_body; eauto.
    + intros d y H. cbn. destruct (Nat.eq_dec d b) as [->|N]; [rewrite nupd_same|rewrite nupd_other by exact N; eauto]. rewrite Hb in H. injection H as <-. eexists. split; [reflexivity|]. auto.
  - split; [split; eauto|]. split; [reflexivity|]. split; [reflexivity|]. eauto.
Qed.
Lemma create_shape_ok s w : winv' w -> shape_ok s -> winv' (create_shape s w).
Proof.
  intros ((a & [T SH BO CO NO OW FE]) & A) S. split; [exists a|exact A]. constructor; cbn [qw_tree qw_shapes qw_bodies qw_colliders qw_next create_shape]; auto.
  - intros d x H. unfold nupd in H. destruct (Nat.eqb_spec d (qw_next w)) as [->|N]; [injection H as <-; auto|]. destruct (SH d x H). auto.
  - intros b x H. destruct (BO b x H) as (B1 & B2 & B3). auto.
  - intros c k H. destruct (CO c k H) as (A1 & A2 & x & sh & C1 & C2 & C3). split; [lia|]. split; [exact A2|]. exists x, sh. rewrite nupd_other; [auto|]. intros E. destruct (SH _ _ C2). lia.
  - intros c k H N. destruct (NO c k H N) as (b & A1 & A2). exists b. split; [exact A1|]. intros ND R x sh H1 H2. rewrite nupd_other in H2; [eauto|].
    destruct (CO c k H) as (_ & _ & x0 & sh0 & _ & C2 & _). intros E. destruct (SH _ _ C2). lia.
Qed.
Lemma create_body_ok t w : winv' w -> unit_pose t -> winv' (create_body t w).
Proof.
  intros ((a & [T SH BO CO NO OW FE]) & A) U. split; [exists a|]; [constructor; cbn [qw_tree qw_shapes qw_bodies qw_colliders qw_next create_body]; auto|].
  - intros s x H. destruct (SH s x H). auto.
  - intros b x H. unfold nupd in H. destruct (Nat.eqb_spec b (qw_next w)) as [->|N].
    + injection H as <-. cbn. split; [exact U|]. split; [lia|]. split; [constructor|intros c []].
    + destruct (BO b x H) as (B1 & B2 & B3). auto.
  - intros c k H. destruct (CO c k H) as (A1 & A2 & x & sh & C1 & C2 & C3). split; [lia|]. split; [exact A2|]. exists x, sh. rewrite nupd_other; [auto|]. intros E. destruct (BO _ _ C1) as (_ & Q & _). lia.
  - intros c k H N. destruct (NO c k H N) as (b & A1 & A2). exists b. split; [exact A1|]. intros ND R x sh H1 H2. rewrite nupd_other in H1; [eauto|].
    destruct (CO c k H) as (_ & _ & x0 & sh0 & C1 & _). intros E. destruct (BO _ _ C1) as (_ & Q & _). lia.
  - intros c k x H H1. cbn in H, H1. rewrite nupd_other in H1; [exact (A c k x H H1)|]. destruct (CO c k H) as (_ & _ & x0 & sh0 & C1 & _). intros E. destruct (BO _ _ C1) as (_ & Q & _). lia.
Qed.
Lemma add_collider_ok b s local w : winv' w -> allowed w (OpAdd b s local) -> exists w', add_collider pct b s local w = Ok w' /\ winv' w'.
Proof.
  intros ((a & I) & A) (HB & HS & UL & RO). destruct (qw_bodies w b) as [x|] eqn:Hb; [|congruence]. destruct (qw_shapes w s) as [sh|] eqn:Hs; [|congruence].
  unfold add_collider. rewrite Hb, Hs. cbn [rd bind]. set (c := qw_next w). set (k := WCollider b s local (tr_mul (wb_pose x) local) 1 true (-1) false).
  set (x' := with_colliders (wb_colliders x ++ [c]) x). set (w1 := QWorld _ _ _ _ _).
  assert (FR : qw_colliders w c = None). { destruct (qw_colliders w c) as [k0|] eqn:E; [|reflexivity]. destruct (v_coll _ _ _ _ I c k0 E) as (X & _). unfold c in X. lia. }
  assert (I1 : winv nothing w1 a).
  { destruct I as [T SH BO CO NO OW FE]. unfold w1. constructor; cbn [qw_tree qw_shapes qw_bodies qw_colliders qw_next]; auto.
    - intros d y H. destruct (SH d y H). split; [assumption|]. unfold c. lia.
    - intros d y H. destruct (Nat.eq_dec d b) as [->|N].
      + rewrite nupd_same in H. injection H as <-. destruct (BO b x Hb) as (B1 & B2 & B3 & B4). cbn. split; [exact B1|]. split; [unfold c; lia|]. split.
        * apply NoDup_app_snoc; [exact B3|]. intros X. destruct (B4 c X) as (k0 & K0 & _). congruence.
        * intros d H. apply in_app_iff in H. destruct H as [H|[<-|[]]].
          -- destruct (B4 d H) as (kd & Kd & Ed). exists kd. rewrite nupd_other; [auto|]. intros ->. congruence.
          -- exists k. rewrite nupd_same. auto.
      + rewrite nupd_other in H by exact N. destruct (BO d y H) as (B1 & B2 & B3 & B4). split; [exact B1|]. split; [unfold c; lia|]. split; [exact B3|].
        intros e He. destruct (B4 e He) as (ke & Ke & Ee). exists ke. rewrite nupd_other; [auto|]. intros ->. congruence.
    - intros d kd H. destruct (Nat.eq_dec d c) as [->|N].
      + rewrite nupd_same in H. injection H as <-. split; [unfold c; lia|]. split; [exact UL|]. exists x', sh. cbn. rewrite nupd_same. split; [reflexivity|]. split; [exact Hs|].
        split; [apply in_app_iff; right; now left|]. reflexivity.
      + rewrite nupd_other in H by exact N. destruct (CO d kd H) as (A1 & A2 & y & sy & C1 & C2 & C3 & C4). split; [unfold c; lia|]. split; [exact A2|].
        destruct (Nat.eq_dec (wc_body kd) b) as [E|NE].
        * rewrite E in *. rewrite Hb in C1. injection C1 as <-. exists x', sy. rewrite nupd_same. split; [reflexivity|]. split; [exact C2|]. split; [cbn; apply in_app_iff; now left|]. exact C4.
        * exists y, sy. rewrite nupd_other by exact NE. auto.
    - intros d kd H NN. destruct (Nat.eq_dec d c) as [->|N].
      + rewrite nupd_same in H. injection H as <-. cbn in NN. congruence.
      + rewrite nupd_other in H by exact N. destruct (NO d kd H NN) as (bx & A1 & A2). exists bx. split; [exact A1|]. intros ND R y sy H1 H2.
        destruct (Nat.eq_dec (wc_body kd) b) as [E|NE].
        * rewrite E, nupd_same in H1. injection H1 as <-. apply (A2 ND R x sy); [now rewrite E|exact H2].
        * rewrite nupd_other in H1 by exact NE. eauto.
    - intros id bx d H. destruct (OW id bx d H) as (e & ke & E1 & E2 & E3). exists e, ke. rewrite nupd_other; [auto|]. intros ->. congruence.
    - intros l ND L. destruct (in_dec Nat.eq_dec c l) as [J|J].
      + apply in_split in J. destruct J as (l1 & l2 & ->). apply NoDup_remove in ND. destruct ND as (ND & NI).
        assert (X := RO (l1 ++ l2) ND). rewrite app_length in *. cbn [length]. assert (Z.of_nat (length l1 + length l2) <= 32767)%Z; [|lia]. apply X.
        intros d Hd. specialize (L d). cbn in L. rewrite nupd_other in L; [|intros ->; contradiction]. apply L. apply in_app_iff in Hd. apply in_app_iff. cbn. tauto.
      + assert (X := RO l ND). assert (Z.of_nat (length l) <= 32767)%Z; [|lia]. apply X. intros d Hd. specialize (L d Hd). cbn in L. rewrite nupd_other in L; [exact L|]. intros ->. contradiction. }
  assert (K1 : qw_colliders w1 c = Some k) by (unfold w1; cbn; apply nupd_same).
  destruct (wb_active x) eqn:Ha.
  - destruct (into_tree_ok pct nothing w1 a c k I1 K1 eq_refl) as (t & id & a' & E & NID & I'). rewrite E. eexists. split; [reflexivity|]. split; [eauto|].
    intros d kd y H H1. cbn in H, H1. destruct (Nat.eq_dec d c) as [->|N].
    + rewrite nupd_same in H. injection H as <-. cbn in *. rewrite nupd_same in H1. injection H1 as <-. cbn. rewrite Ha. split; congruence.
    + rewrite !nupd_other in H by exact N. destruct (Nat.eq_dec (wc_body kd) b) as [E1|NE].
      * rewrite E1, nupd_same in H1. injection H1 as <-. cbn. apply (A d kd x H). now rewrite E1.
      * rewrite nupd_other in H1 by exact NE. exact (A d kd y H H1).
  - eexists. split; [reflexivity|]. split; [eauto|].
    intros d kd y H H1. cbn in H, H1. destruct (Nat.eq_dec d c) as [->|N].
    + rewrite nupd_same in H. injection H as <-. cbn in *. rewrite nupd_same in H1. injection H1 as <-. cbn. rewrite Ha. split; congruence.
    + rewrite !nupd_other in H by exact N. destruct (Nat.eq_dec (wc_body kd) b) as [E1|NE].
      * rewrite E1, nupd_same in H1. injection H1 as <-. cbn. apply (A d kd x H). now rewrite E1.
      * rewrite nupd_other in H1 by exact NE. exact (A d kd y H H1).
Qed.

Lemma remove_collider_ok D w a c k x : winv D w a -> qw_colliders w c = Some k -> qw_bodies w (wc_body k) = Some x ->
  exists w' a', remove_collider c w = Ok w' /\ winv D w' a' /\ (forall s, qw_shapes w' s = qw_shapes w s) /\ qw_next w' = qw_next w /\
    qw_colliders w' c = None /\ (forall d, d <> c -> qw_colliders w' d = qw_colliders w d) /\
    qw_bodies w' (wc_body k) = Some (with_colliders (filter (fun d => negb (Nat.eqb d c)) (wb_colliders x)) x) /\ (forall b, b <> wc_body k -> qw_bodies w' b = qw_bodies w b).
Proof.
  intros I K B. destruct (out_of_tree_ok pct D w a c k I K) as (w1 & a1 & E1 & I1 & F1). unfold remove_collider. rewrite E1. cbn [bind]. rewrite (f_this _ _ _ _ F1). cbn [rd bind wc_body with_node].
  rewrite (f_bodies _ _ _ _ F1), B. cbn [rd bind]. set (x' := with_colliders _ x). eexists _, a1. split; [reflexivity|].
  split; [|cbn; repeat split].
  - assert (K1 := f_this _ _ _ _ F1). assert (B1 : qw_bodies w1 (wc_body k) = Some x) by (rewrite (f_bodies _ _ _ _ F1); exact B). clear F1 E1 I K B.
    destruct I1 as [T SH BO CO NO OW FE]. constructor; cbn [qw_tree qw_shapes qw_bodies qw_colliders qw_next with_collider with_body]; auto.
    + intros d y H. destruct (Nat.eq_dec d (wc_body k)) as [->|N].
      * rewrite nupd_same in H. injection H as <-. destruct (BO _ x B1) as (A1 & A2 & A3 & A4). cbn. split; [exact A1|]. split; [exact A2|]. split; [now apply NoDup_filter|].
        intros d Hd. apply filter_In in Hd. destruct Hd as (Hd & ND). destruct (A4 d Hd) as (kd & Kd & Ed). exists kd. rewrite nupd_other; [auto|]. intros ->. rewrite Nat.eqb_refl in ND. discriminate.
      * rewrite nupd_other in H by exact N. destruct (BO d y H) as (A1 & A2 & A3 & A4). repeat (split; [assumption|]). intros e He. destruct (A4 e He) as (ke & Ke & Ee). exists ke. rewrite nupd_other; [auto|].
        intros ->. rewrite K1 in Ke. injection Ke as <-. cbn in Ee. congruence.
    + intros d kd H. destruct (Nat.eq_dec d c) as [->|N]; [rewrite nupd_same in H; discriminate|]. rewrite nupd_other in H by exact N.
      destruct (CO d kd H) as (A1 & A2 & y & s & C1 & C2 & C3 & C4). split; [exact A1|]. split; [exact A2|]. destruct (Nat.eq_dec (wc_body kd) (wc_body k)) as [E|NE].
      * rewrite E in *. rewrite B1 in C1. injection C1 as <-. exists x', s. rewrite nupd_same. split; [reflexivity|]. split; [exact C2|]. split; [|exact C4].
        cbn. apply filter_In. split; [exact C3|]. destruct (Nat.eqb_spec d c); [contradiction|reflexivity].
      * exists y, s. rewrite nupd_other by exact NE. auto.
    + intros d kd H NN. destruct (Nat.eq_dec d c) as [->|N]; [rewrite nupd_same in H; discriminate|]. rewrite nupd_other in H by exact N.
      destruct (NO d kd H NN) as (bx & A1 & A2). exists bx. split; [exact A1|]. intros ND R y s H1 H2. destruct (Nat.eq_dec (wc_body kd) (wc_body k)) as [E|NE].
      * rewrite E, nupd_same in H1. injection H1 as <-. apply (A2 ND R x s); [now rewrite E|exact H2].
      * rewrite nupd_other in H1 by exact NE. eauto.
    + intros id bx d H. destruct (OW id bx d H) as (e & ke & P1 & P2 & P3). exists e, ke. rewrite nupd_other; [auto|]. intros ->. rewrite K1 in P2. injection P2 as <-. cbn in P3. subst id.
      now apply (live_range pct _ _ _ _ _ T H).
    + eapply at_most_domain; [|exact FE]. cbn. intros d. unfold nupd. destruct (Nat.eqb d c); congruence.
  - apply (f_shapes _ _ _ _ F1).
  - apply (f_next _ _ _ _ F1).
  - apply nupd_same.
  - intros d N. rewrite nupd_other by exact N. apply (f_other _ _ _ _ F1 d N).
  - apply nupd_same.
  - intros b N. rewrite nupd_other by exact N. apply (f_bodies _ _ _ _ F1).
Qed.
Lemma remove_ok c w : winv' w -> qw_colliders w c <> None -> exists w', remove_collider c w = Ok w' /\ winv' w'.
Proof.
  intros ((a & I) & A) H. destruct (qw_colliders w c) as [k|] eqn:K; [|congruence]. destruct (v_coll _ _ _ _ I c k K) as (_ & _ & x & s & B & _).
  destruct (remove_collider_ok _ w a c k x I K B) as (w' & a' & E & I' & ES & EN & EC & EO & EB & EBO). exists w'. split; [exact E|]. split; [eauto|].
  intros d kd y Hd Hy. destruct (Nat.eq_dec d c) as [->|N]; [congruence|]. rewrite EO in Hd by exact N. destruct (Nat.eq_dec (wc_body kd) (wc_body k)) as [E1|NE].
  - rewrite E1, EB in Hy. injection Hy as <-. cbn. apply (A d kd x Hd). now rewrite E1.
  - rewrite EBO in Hy by exact NE. exact (A d kd y Hd Hy).
Qed.
Lemma removes_ok b : forall cs w x, winv' w -> qw_bodies w b = Some x -> wb_colliders x = cs -> exists w' x', for_each remove_collider cs w = Ok w' /\ winv' w' /\ qw_bodies w' b = Some x' /\ wb_colliders x' = [].
Proof.
  induction cs as [|c cs IH]; intros w x I B EX; cbn [for_each]; [exists w, x; auto|].
  destruct I as ((a & I) & A). destruct (v_body _ _ _ _ I b x B) as (_ & _ & ND & L). destruct (L c) as (k & K & E); [rewrite EX; now left|].
  assert (NN : qw_colliders w c <> None) by congruence. destruct (remove_ok c w (conj (ex_intro _ a I) A) NN) as (w1 & E1 & I1). rewrite E1. cbn [bind].
  rewrite <- E in B. destruct (remove_collider_ok _ w a c k x I K B) as (w' & a' & E1' & _ & _ & _ & _ & _ & EB & _). rewrite E1 in E1'. injection E1' as <-. rewrite E in EB.
  eapply (IH w1 _ I1 EB). cbn. rewrite EX in ND |- *. cbn. rewrite Nat.eqb_refl. cbn. inversion ND as [|? ? NI ND']; subst. clear - NI.
  induction cs as [|d cs IH]; [reflexivity|]. cbn. destruct (Nat.eqb_spec d c) as [->|N]; [exfalso; apply NI; now left|]. cbn. f_equal. apply IH. intros X. apply NI. now right.
Qed.
Lemma destroy_ok b w : winv' w -> qw_bodies w b <> None -> exists w', destroy_body b w = Ok w' /\ winv' w'.
Proof.
  intros I H. destruct (qw_bodies w b) as [x|] eqn:B; [|congruence]. unfold destroy_body. rewrite B. cbn [rd bind].
  destruct (removes_ok b _ w x I B eq_refl) as (w1 & x1 & -> & ((a & I1) & A1) & B1 & C1). cbn [bind]. eexists. split; [reflexivity|].
  assert (NO1 : forall c k, qw_colliders w1 c = Some k -> wc_body k <> b).
  { intros c k K E. destruct (v_coll _ _ _ _ I1 c k K) as (_ & _ & y & s & P1 & _ & P2 & _). rewrite E, B1 in P1. injection P1 as <-. rewrite C1 in P2. destruct P2. }
  split.
  - exists a. destruct I1 as [T SH BO CO NO OW FE]. constructor; cbn [qw_tree qw_shapes qw_bodies qw_colliders qw_next with_body]; auto.
    + intros d y Hd. unfold nupd in Hd. destruct (Nat.eqb d b); [discriminate|]. auto.
    + intros c k K. rewrite nupd_other by eauto. auto.
    + intros c k K N. rewrite nupd_other by eauto. auto.
  - intros c k y K Hy. cbn in K, Hy. rewrite nupd_other in Hy by eauto. eauto.
Qed.
Lemma set_transform_ok b t w : winv' w -> qw_bodies w b <> None -> unit_pose t -> exists w', set_transform pct b t w = Ok w' /\ winv' w'.
Proof.
  intros I H U. destruct (set_sleeping_ok b false w I H) as (w1 & E1 & ((a & I1) & A1) & _ & _ & BB). unfold set_transform. rewrite E1. cbn [bind].
  destruct (qw_bodies w b) as [x0|] eqn:B0; [|congruence]. destruct (BB b x0 B0) as (x & B & _). clear BB B0 H x0 E1. rewrite B. cbn [rd bind].
  pose proof (winv_body nothing (fun c => In c (wb_colliders x)) w1 a b x (with_pose t x) I1 B eq_refl U ltac:(intros c []) (or_intror (fun c h => h))) as I2.
  pose proof (all_in_body w1 b x (with_pose t x) A1 B eq_refl) as A2. set (w2 := with_body b (Some (with_pose t x)) w1) in *.
  assert (L : forall c, In c (wb_colliders x) -> qw_colliders w2 c <> None).
  { intros c Hc. destruct (v_body _ _ _ _ I1 b x B) as (_ & _ & _ & L). destruct (L c Hc) as (k & K & _). cbn. congruence. }
  destruct (moves_ok _ _ _ _ I2 L) as (w' & a' & E & I' & KN & NO). exists w'. split; [exact E|]. split.
  - exists a'. eapply winv_weaken; [|exact I']. cbn beta. intros c (P & Q). contradiction.
  - eapply all_in_kin; [exact A2|apply (k_bodies _ _ _ KN)|]. intros c k' Hc. destruct (kin_back _ _ _ KN L c k' Hc) as (k & K). exists k. split; [exact K|].
    destruct (k_this _ _ _ KN c k K) as (k2 & K2 & P1 & _). rewrite Hc in K2. injection K2 as <-. split; [exact P1|]. exact (proj1 (NO c k k' K Hc)).
Qed.
Lemma set_local_ok c t w : winv' w -> qw_colliders w c <> None -> unit_pose t -> exists w', set_local pct c t w = Ok w' /\ winv' w'.
Proof.
  intros I H U. destruct (qw_colliders w c) as [k|] eqn:K; [|congruence]. unfold set_local. rewrite K. cbn [rd bind].
  destruct I as ((a & I) & A). destruct (v_coll _ _ _ _ I c k K) as (_ & _ & x & s & B & _). rewrite B. cbn [rd bind].
  assert (HB : qw_bodies w (wc_body k) <> None) by congruence.
  destruct (set_sleeping_ok (wc_body k) false w (conj (ex_intro _ a I) A) HB) as (w1 & E1 & ((a1 & I1) & A1) & _ & EC & BB).
  destruct (BB _ x B) as (x1 & B1 & EP & _).
  assert (E2 : set_sleeping (wc_body k) false (with_collider c (Some (with_world (tr_mul (wb_pose x) t) (with_local t k))) w) =
               Ok (with_collider c (Some (with_world (tr_mul (wb_pose x) t) (with_local t k))) w1)).
  { unfold set_sleeping in *. cbn [qw_bodies with_collider]. rewrite B in *. cbn [rd bind] in *. injection E1 as <-. destruct (wb_active x); reflexivity. }
  rewrite E2. cbn [bind]. assert (K1 : qw_colliders w1 c = Some k) by (rewrite EC; exact K).
  destruct (refresh_moved pct nothing w1 a1 c k t x1 I1 K1 B1 U) as (w' & a' & E & I' & F). rewrite EP in E. exists w'. split; [exact E|]. split.
  - exists a'. eapply winv_weaken; [|exact I']. cbn beta. intros d (P & _). exact P.
  - eapply all_in_kin; [exact A1|apply (f_bodies _ _ _ _ F)|]. intros d kd Hd. destruct (Nat.eq_dec d c) as [->|N].
    + rewrite (f_this _ _ _ _ F) in Hd. injection Hd as <-. exists k. auto.
    + rewrite (f_other _ _ _ _ F d N) in Hd. eauto.
Qed.
Lemma set_active_ok b v w : winv' w -> qw_bodies w b <> None -> exists w', set_active pct b v w = Ok w' /\ winv' w'.
Proof.
  intros I H. destruct (qw_bodies w b) as [x0|] eqn:B0; [|congruence]. unfold set_active. rewrite B0. cbn [rd bind].
  destruct (Bool.eqb (wb_active x0) v) eqn:EV; [eauto|]. apply Bool.eqb_false_iff in EV.
  assert (HB : qw_bodies w b <> None) by congruence. destruct (set_sleeping_ok b (negb v) w I HB) as (w1 & E1 & ((a & I1) & A1) & _ & EC & BB). rewrite E1. cbn [bind].
  destruct (BB b x0 B0) as (x & B & _ & EA & _). rewrite B. cbn [rd bind]. rewrite <- EA in EV. clear BB B0 HB H I E1 EA x0 EC.
  pose proof (winv_body nothing nothing w1 a b x (with_active v x) I1 B eq_refl (proj1 (v_body _ _ _ _ I1 b x B)) (fun c h => h) (or_introl eq_refl)) as I2.
  set (w2 := with_body b (Some (with_active v x)) w1) in *. destruct (v_body _ _ _ _ I1 b x B) as (_ & _ & ND & L).
  assert (L2 : forall c, In c (wb_colliders x) -> qw_colliders w2 c <> None) by (intros c Hc; destruct (L c Hc) as (k & K & _); cbn; congruence).
  assert (BV : forall y, qw_bodies w2 b = Some y -> wb_active y = v) by (cbn; rewrite nupd_same; intros y [= <-]; reflexivity).
  assert (OT : forall c k y, qw_colliders w2 c = Some k -> wc_body k <> b -> qw_bodies w2 (wc_body k) = Some y -> (wc_node k = (-1)%Z <-> wb_active y = false)).
  { intros c k y Hc N Hy. cbn in Hc, Hy. rewrite nupd_other in Hy by exact N. eauto. }
  assert (IC : forall c k, qw_colliders w2 c = Some k -> (In c (wb_colliders x) <-> wc_body k = b)).
  { intros c k Hc. cbn in Hc. split; [intros Hi; destruct (L c Hi) as (k0 & K0 & E0); congruence|]. intros E0. destruct (v_coll _ _ _ _ I1 c k Hc) as (_ & _ & y & s & P1 & _ & P2 & _).
    rewrite E0, B in P1. injection P1 as <-. exact P2. }
  assert (X : exists w' a', (if v then for_each (into_tree pct) (wb_colliders x) w2 else for_each out_of_tree (wb_colliders x) w2) = Ok w' /\ winv nothing w' a' /\ kin (wb_colliders x) w2 w' /\
    forall c k', In c (wb_colliders x) -> qw_colliders w' c = Some k' -> (wc_node k' = (-1)%Z <-> v = false)).
  { destruct v.
    - destruct (ins_ok (wb_colliders x) nothing w2 a I2 ND) as (w' & a' & E & I' & KN & NN).
      + intros c Hc. destruct (L c Hc) as (k & K & E0). exists k. split; [exact K|]. rewrite <- E0 in B. apply (A1 c k x K B). now destruct (wb_active x).
      + exists w', a'. repeat (split; [assumption|]). intros c k' Hc Hk. specialize (NN c k' Hc Hk). split; [contradiction|discriminate].
    - destruct (outs_ok (wb_colliders x) nothing w2 a I2 L2) as (w' & a' & E & I' & KN & NN).
      exists w', a'. repeat (split; [assumption|]). intros c k' Hc Hk. specialize (NN c k' Hc Hk). split; auto. }
  destruct X as (w' & a' & E & I' & KN & NN). exists w'. split; [exact E|]. split; [eauto|].
  intros c k' y Hc Hy. destruct (kin_back _ _ _ KN L2 c k' Hc) as (k & K). destruct (k_this _ _ _ KN c k K) as (k2 & K2 & P1 & _). rewrite Hc in K2. injection K2 as <-.
  rewrite (k_bodies _ _ _ KN), P1 in Hy. destruct (in_dec Nat.eq_dec c (wb_colliders x)) as [J|J].
  - rewrite (proj1 (IC c k K) J) in Hy. rewrite (BV y Hy). eauto.
  - rewrite (k_other _ _ _ KN c J), K in Hc. injection Hc as <-. apply (OT c k y K); [|exact Hy]. intros E0. apply J. apply (IC c k K). exact E0.
Qed.
Lemma set_flags_ok c k k' w : winv' w -> qw_colliders w c = Some k -> wc_body k' = wc_body k -> wc_shape k' = wc_shape k -> wc_local k' = wc_local k -> wc_world k' = wc_world k ->
  wc_node k' = wc_node k -> wc_resized k' = wc_resized k -> winv' (with_collider c (Some k') w).
Proof.
  intros ((a & I) & A) K E1 E2 E3 E4 E5 E6. split.
  - exists a. apply winv_ext with (w := with_collider c (Some k') (with_tree (qw_tree w) w)); [reflexivity..|].
    destruct (v_coll _ _ _ _ I c k K) as (_ & U & x & s & C1 & C2 & _ & C4).
    eapply (winv_put pct nothing nothing w a c k k'); eauto.
    + now rewrite E3.
    + exact (v_tree _ _ _ _ I).
    + intros ND y By. rewrite C1 in By. injection By as <-. rewrite E3, E4. auto.
    + rewrite E5, E3, E6. apply (v_node _ _ _ _ I c k K).
  - intros d kd y Hd Hy. cbn in Hd, Hy. destruct (Nat.eq_dec d c) as [->|N].
    + rewrite nupd_same in Hd. injection Hd as <-. rewrite E5. rewrite E1 in Hy. eauto.
    + rewrite nupd_other in Hd by exact N. eauto.
Qed.
Lemma resize_ok s new w : winv' w -> qw_shapes w s <> None -> shape_ok new -> exists w', resize s new w = Ok w' /\ winv' w'.
Proof.
  intros ((a & I) & A) H OKN. unfold resize. destruct (qw_shapes w s) as [old|] eqn:S; [|congruence]. cbn [rd bind]. eexists. split; [reflexivity|].
  assert (FL : forall c k', match qw_colliders w c with Some k => Some (if Nat.eqb (wc_shape k) s then with_resized true k else k) | None => None end = Some k' ->
    exists k, qw_colliders w c = Some k /\ wc_body k' = wc_body k /\ wc_shape k' = wc_shape k /\ wc_local k' = wc_local k /\ wc_world k' = wc_world k /\ wc_node k' = wc_node k /\
      (wc_resized k' = false -> wc_resized k = false /\ wc_shape k <> s)).
  { intros c k' Hk. destruct (qw_colliders w c) as [k|] eqn:K; [|discriminate]. injection Hk as <-. exists k. split; [reflexivity|]. destruct (Nat.eqb_spec (wc_shape k) s); cbn; repeat split; auto; discriminate. }
  split.
  - exists a. destruct I as [T SH BO CO NO OW FE]. constructor; cbn [qw_tree qw_shapes qw_bodies qw_colliders qw_next]; auto.
    + intros d y Hd. unfold nupd in Hd. destruct (Nat.eqb_spec d s) as [->|N]; [injection Hd as <-; split; [exact OKN|]|auto]. exact (proj2 (SH s old S)).
    + intros b x Hb. destruct (BO b x Hb) as (P1 & P2 & P3 & P4). repeat (split; [assumption|]). intros c Hc. destruct (P4 c Hc) as (k & K & E). rewrite K. eexists. split; [reflexivity|]. now destruct (Nat.eqb (wc_shape k) s).
    + intros c k' Hk. destruct (FL c k' Hk) as (k & K & E1 & E2 & E3 & E4 & E5 & E6). rewrite E1, E2, E3, E4. destruct (CO c k K) as (A1 & A2 & x & sh & C1 & C2 & C3 & C4).
      split; [exact A1|]. split; [exact A2|]. unfold nupd. destruct (Nat.eqb (wc_shape k) s); eexists x, _; split; eauto.
    + intros c k' Hk NN. destruct (FL c k' Hk) as (k & K & E1 & E2 & E3 & E4 & E5 & E6). rewrite E1, E2, E3, E5 in *. destruct (NO c k K NN) as (b & A1 & A2). exists b. split; [exact A1|].
      intros ND R. destruct (E6 R) as (R1 & NS). intros x sh Hx Hs. rewrite nupd_other in Hs by exact NS. eauto.
    + intros id b d Hd. destruct (OW id b d Hd) as (c & k & P1 & P2 & P3). exists c. rewrite P2. eexists. split; [exact P1|]. split; [reflexivity|]. now destruct (Nat.eqb (wc_shape k) s).
    + eapply at_most_domain; [|exact FE]. cbn. intros c. destruct (qw_colliders w c); congruence.
  - intros c k' x Hk Hx. cbn in Hk, Hx. destruct (FL c k' Hk) as (k & K & E1 & E2 & E3 & E4 & E5 & E6). rewrite E1 in Hx. rewrite E5. eauto.
Qed.

(** ** Steps of the simulation *)
Definition awake (w : qworld) (c : nat) : Prop := exists k x, qw_colliders w c = Some k /\ qw_bodies w (wc_body k) = Some x /\ wb_asleep x = false.
Lemma awake_kin cs w w' : kin cs w w' -> (forall c, In c cs -> qw_colliders w c <> None) -> forall d, awake w' d <-> awake w d.
Proof.
  intros K L d. split; intros (k & x & H1 & H2 & H3).
  - destruct (kin_back _ _ _ K L d k H1) as (k0 & K0). destruct (k_this _ _ _ K d k0 K0) as (k2 & K2 & P1 & _). rewrite H1 in K2. injection K2 as <-.
    rewrite (k_bodies _ _ _ K), P1 in H2. exists k0, x. auto.
  - destruct (k_this _ _ _ K d k H1) as (k2 & K2 & P1 & _). exists k2, x. rewrite (k_bodies _ _ _ K), P1. auto.
Qed.
Lemma moved_bodies_ok pose w : winv' w -> (forall b, unit_pose (pose b)) -> exists a, winv (awake w) (move_bodies pose w) a.
Proof.
  intros ((a & [T SH BO CO NO OW FE]) & A) U. exists a. constructor; cbn [qw_tree qw_shapes qw_bodies qw_colliders qw_next move_bodies]; auto.
  - intros b y Hb. destruct (qw_bodies w b) as [x|] eqn:B; [|discriminate]. injection Hb as <-. destruct (BO b x B) as (P1 & P2 & P3 & P4). destruct (wb_asleep x); cbn; auto.
  - intros c k K. destruct (CO c k K) as (A1 & A2 & x & s & C1 & C2 & C3 & C4). split; [exact A1|]. split; [exact A2|]. rewrite C1. eexists _, s. split; [reflexivity|]. split; [exact C2|].
    destruct (wb_asleep x) eqn:AS; [split; [exact C3|]; intros _; apply C4; intros []|]. split; [exact C3|]. intros ND. exfalso. apply ND. exists k, x. auto.
  - intros c k K NN. destruct (NO c k K NN) as (b & A1 & A2). exists b. split; [exact A1|]. intros ND R y s Hy Hs. destruct (qw_bodies w (wc_body k)) as [x|] eqn:B; [|discriminate]. injection Hy as <-.
    destruct (wb_asleep x) eqn:AS; [apply A2; auto|]. exfalso. apply ND. exists k, x. auto.
Qed.
Lemma steps_ok : forall cs (D : nat -> Prop) w a, winv D w a ->
  exists w' a', for_each (step_collider pct) cs w = Ok w' /\ winv (fun d => D d /\ ~ (In d cs /\ awake w d)) w' a' /\
    (forall b, qw_bodies w' b = qw_bodies w b) /\ (forall s, qw_shapes w' s = qw_shapes w s) /\ qw_next w' = qw_next w /\
    (forall d k', qw_colliders w' d = Some k' -> exists k, qw_colliders w d = Some k /\ wc_body k' = wc_body k /\ wc_node k' = wc_node k /\ wc_shape k' = wc_shape k /\ wc_local k' = wc_local k /\
       (wc_resized k = false -> wc_resized k' = false) /\ (In d cs -> awake w d -> wc_node k <> (-1)%Z -> wc_resized k' = false)).
Proof.
  induction cs as [|c cs IH]; intros D w a I; cbn [for_each].
  - exists w, a. split; [reflexivity|]. split; [eapply winv_weaken; [|exact I]; cbn; tauto|]. repeat (split; [reflexivity|]). intros d k' H. exists k'. repeat split; auto. intros [].
  - assert (X : exists w1 a1, step_collider pct c w = Ok w1 /\ winv (fun d => D d /\ ~ (d = c /\ awake w c)) w1 a1 /\
      (forall b, qw_bodies w1 b = qw_bodies w b) /\ (forall s, qw_shapes w1 s = qw_shapes w s) /\ qw_next w1 = qw_next w /\ (forall d, awake w1 d <-> awake w d) /\
      (forall d k', qw_colliders w1 d = Some k' -> exists k, qw_colliders w d = Some k /\ wc_body k' = wc_body k /\ wc_node k' = wc_node k /\ wc_shape k' = wc_shape k /\ wc_local k' = wc_local k /\
       (wc_resized k = false -> wc_resized k' = false) /\ (d = c -> awake w d -> wc_node k <> (-1)%Z -> wc_resized k' = false))).
    { unfold step_collider. destruct (qw_colliders w c) as [k|] eqn:K.
      - destruct (v_coll _ _ _ _ I c k K) as (_ & _ & x & s & B & _). rewrite B. cbn [rd bind]. destruct (wb_asleep x) eqn:AS.
        + assert (NA : ~ awake w c) by (intros (k0 & x0 & H1 & H2 & H3); rewrite K in H1; injection H1 as <-; congruence).
          exists w, a. split; [reflexivity|]. split; [eapply winv_weaken; [|exact I]; cbn; tauto|]. repeat (split; [reflexivity|]). intros d k' H. exists k'. repeat split; auto. intros -> X. contradiction.
        + destruct (move_collider_ok pct D w a c k x I K B) as (w1 & a1 & E1 & I1 & F1). exists w1, a1. split; [exact E1|]. split.
          * eapply winv_weaken; [|exact I1]. cbn. intros d (P & Q). split; [exact P|]. intros (-> & _). congruence.
          * assert (K1 : kin [c] w w1). { eapply kin_framed; eauto; try reflexivity. cbn. intros ->. now destruct (Z.eqb (wc_node k) (-1)). }
            split; [apply (f_bodies _ _ _ _ F1)|]. split; [apply (f_shapes _ _ _ _ F1)|]. split; [apply (f_next _ _ _ _ F1)|]. split; [apply (awake_kin [c]); [exact K1|]; intros d [<-|[]]; congruence|].
            intros d k' H. destruct (Nat.eq_dec d c) as [->|N].
            -- rewrite (f_this _ _ _ _ F1) in H. injection H as <-. exists k. cbn. repeat split; auto.
               ++ intros ->. now destruct (Z.eqb (wc_node k) (-1)).
               ++ intros _ _ NN. destruct (Z.eqb_spec (wc_node k) (-1)%Z); [contradiction|reflexivity].
            -- rewrite (f_other _ _ _ _ F1 d N) in H. exists k'. repeat split; auto. intros ->. contradiction.
      - exists w, a. split; [reflexivity|]. split; [|repeat (split; [reflexivity|])].
        + eapply winv_weaken; [|exact I]. cbn. intros d P. split; [exact P|]. intros (-> & k0 & x0 & H1 & _). congruence.
        + intros d k' H. exists k'. repeat split; auto. intros ->. congruence. }
    destruct X as (w1 & a1 & E1 & I1 & EB1 & ES1 & EN1 & AW & C1). rewrite E1. cbn [bind]. destruct (IH _ w1 a1 I1) as (w2 & a2 & E2 & I2 & EB2 & ES2 & EN2 & C2).
    exists w2, a2. split; [exact E2|]. split; [|split; [intros; rewrite EB2; auto|split; [intros; rewrite ES2; auto|split; [congruence|]]]].
    + eapply winv_weaken; [|exact I2]. cbn beta. intros d ((P & Q) & R). split; [exact P|]. intros ([->|Hd] & W); [apply Q; auto|]. apply R. split; [exact Hd|]. now apply AW.
    + intros d k2 H. destruct (C2 d k2 H) as (k1 & K1 & P1 & P2 & P3 & P4 & P5 & P6). destruct (C1 d k1 K1) as (k & K & Q1 & Q2 & Q3 & Q4 & Q5 & Q6).
      exists k. repeat split; try congruence; [auto|]. intros [<-|Hd] W NN.
      * apply P5. apply Q6; auto.
      * apply P6; [exact Hd|now apply AW|congruence].
Qed.
Lemma step_ok pose w : winv' w -> (forall b, unit_pose (pose b)) -> exists w', step pct pose w = Ok w' /\ winv' w' /\
  (forall c, awake w' c -> in_play w' c -> settled w' c).
Proof.
  intros I U. destruct (moved_bodies_ok pose w I U) as (a & I1). destruct I as (_ & A). unfold step.
  destruct (steps_ok (seq 0 (qw_next w)) _ _ _ I1) as (w' & a' & E & I2 & EB & ES & EN & EC). exists w'. split; [exact E|].
  assert (AM : forall d, awake (move_bodies pose w) d <-> awake w d).
  { intros d. unfold awake. cbn. split; intros (k & x & H1 & H2 & H3).
    - destruct (qw_bodies w (wc_body k)) as [y|] eqn:B; [|discriminate]. injection H2 as <-. exists k, y. split; [exact H1|]. split; [exact B|]. destruct (wb_asleep y) eqn:AS; congruence.
    - exists k, (with_pose (pose (wc_body k)) x). rewrite H2, H3. auto. }
  assert (A' : all_in w').
  { intros c k' y Hc Hy. destruct (EC c k' Hc) as (k & K & P1 & P2 & _). rewrite EB, P1 in Hy. cbn in K, Hy. destruct (qw_bodies w (wc_body k)) as [x|] eqn:B; [|discriminate]. injection Hy as <-.
    rewrite P2. rewrite (A c k x K B). now destruct (wb_asleep x). }
  split; [split; [|exact A']|].
  - exists a'. eapply winv_weaken; [|exact I2]. cbn beta. intros d (P & Q). apply Q. split; [|now apply AM].
    apply in_seq. destruct P as (k & x & K & _). destruct (v_coll _ _ _ _ I1 d k K) as (L & _). cbn in L. lia.
  - intros c (k' & x & K' & X' & AS) (k2 & x2 & K2 & X2 & AC). rewrite K' in K2. injection K2 as <-. rewrite X' in X2. injection X2 as <-.
    destruct (EC c k' K') as (k & K & P1 & P2 & P3 & P4 & P5 & P6). exists k'. split; [exact K'|]. apply P6.
    + apply in_seq. destruct (v_coll _ _ _ _ I1 c k K) as (L & _). cbn in L. lia.
    + rewrite EB, P1 in X'. exists k, x. auto.
    + rewrite <- P2. intros X. rewrite (A' c k' x K' X') in X. congruence.
Qed.
Lemma run_ok o w : winv' w -> allowed w o -> exists w', run pct o w = Ok w' /\ winv' w'.
Proof.
  intros I L. destruct o; cbn [run allowed] in *.
  - eexists. split; [reflexivity|]. now apply create_shape_ok.
  - eexists. split; [reflexivity|]. now apply create_body_ok.
  - now apply add_collider_ok.
  - now apply remove_ok.
  - now apply destroy_ok.
  - now apply set_transform_ok.
  - now apply set_local_ok.
  - now apply set_active_ok.
  - destruct (set_sleeping_ok b v w I L) as (w' & E & I' & _). eauto.
  - unfold set_bits. destruct (qw_colliders w c) as [k|] eqn:K; [|congruence]. cbn [rd bind]. eexists. split; [reflexivity|]. eapply set_flags_ok; eauto.
  - unfold set_query. destruct (qw_colliders w c) as [k|] eqn:K; [|congruence]. cbn [rd bind]. eexists. split; [reflexivity|]. eapply set_flags_ok; eauto.
  - now apply resize_ok.
  - destruct (step_ok pose w I L) as (w' & E & I' & _). eauto.
Qed.
Lemma empty_ok : winv' empty_world.
Proof.
  split; [exists []; constructor; cbn; try discriminate; try contradiction|intros c k x H; discriminate].
  - apply th_init.
  - intros l ND L. destruct l as [|c l]; [cbn; lia|]. exfalso. now apply (L c (or_introl eq_refl)).
Qed.
Lemma reachable_ok w : reachable pct w -> winv' w.
Proof.
  induction 1 as [|w o w' R IH L E]; [apply empty_ok|]. destruct (run_ok o w IH L) as (w2 & E2 & I2). rewrite E in E2. injection E2 as <-. exact I2.
Qed.
End Calls.
