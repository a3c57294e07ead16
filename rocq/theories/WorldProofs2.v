(** Invariant of worlds: sleeping, body types. *)
From Verif Require Import Base HashSpec BitsModel BitsProofs ComponentsProofs PairsModel PairsSpec PairsProofs WorldModel WorldSpec WorldProofs.
Open Scope Z_scope.

Section Proofs.
Variable box : Type.
Variable overlap : box -> box -> bool.
Hypothesis overlap_sym : forall a b, overlap a b = overlap b a.
Notation world := (world box).
Notation theb b w := (lookup Z.eqb b (ww_bodies _ w)).
Notation thec c w := (lookup Z.eqb c (ww_coll _ w)).
Notation thep id w := (lookup Z.eqb id (sp_pairs (ww_pairs _ w))).
Notation forbidden := (forbidden box).
Notation bov := (boxes_overlap box overlap).
Notation WInv := (WInv box overlap).
Notation Frame := (Frame box).

Definition Touch (l : list Z) (w : world) (id : Z) : Prop := exists p c, thep id w = Some p /\ In c l /\ involves c p = true.
Lemma touch_frame : forall w w' l id, Frame w w' -> Touch l w id <-> Touch l w' id.
Proof.
  intros w w' l id F. split; intros (p & c & P & C & V).
  - destruct (f_pair F _ _ P) as (q & Q & K & _). exists q, c. rewrite (involves_core c q p K). auto.
  - destruct (f_pair' F _ _ P) as (q & Q & K & _). exists q, c. rewrite <- (involves_core c p q K). auto.
Qed.

Lemma put_flags : forall X Y E F XA w b y y', WInv X Y E F XA w -> theb b w = Some y -> b_active y' = b_active y -> b_colliders y' = b_colliders y ->
  (b_type y' <> Static -> b_sleeping y' = false -> b_disabled y' = false) ->
  WInv X (fun id => Y id \/ (b_disabled y' = false /\ Touch (b_colliders y) w id)) E F XA (put_body box b y' w).
Proof.
  intros X Y E F XA w b y y' I B HA HC HF. pose proof I as I0. destruct I.
  assert (L : forall k z, theb k (put_body box b y' w) = Some z -> (k = b /\ z = y') \/ (k <> b /\ theb k w = Some z)).
  { intros k z. unfold put_body. cbn [set_bodies ww_bodies]. rewrite lookup_set. destruct (Z.eqb_spec k b) as [->|N]; [intros H; injection H as <-; auto|auto]. }
  assert (L2 : forall k z, theb k w = Some z -> exists z', theb k (put_body box b y' w) = Some z' /\ b_colliders z' = b_colliders z).
  { intros k z H. unfold put_body. cbn [set_bodies ww_bodies]. rewrite lookup_set. destruct (Z.eqb_spec k b) as [->|N]; [exists y'; split; congruence|eauto]. }
  constructor; auto.
  - intros c x C. destruct (wi_coll _ _ C) as (z & Z1 & Z2). destruct (L2 _ _ Z1) as (z' & Z3 & Z4). exists z'. rewrite Z4. auto.
  - intros k z c K C. destruct (L _ _ K) as [(-> & ->)|(N & K1)]; [rewrite HC in C; exact (wi_body _ _ _ B C)|exact (wi_body _ _ _ K1 C)].
  - intros k z K. destruct (L _ _ K) as [(-> & ->)|(N & K1)]; [rewrite HC|]; eauto.
  - intros c x z C K. destruct (L _ _ K) as [(EQ & ->)|(N & K1)]; [rewrite HA|]; eapply wi_active; eauto. rewrite EQ. exact B.
  - intros id p x1 x2 y1 y2 P EN C1 C2 B1 B2. change (thep id w = Some p) in P. change (thec (p_c1 p) w = Some x1) in C1. change (thec (p_c2 p) w = Some x2) in C2.
    assert (T : forall c x, thec c w = Some x -> c_body x = b -> involves c p = true -> Touch (b_colliders y) w id).
    { intros c x C Q V. exists p, c. splits; auto. destruct (wi_coll _ _ C) as (z & Z1 & Z2). rewrite Q, B in Z1. injection Z1 as <-. exact Z2. }
    assert (V1 : involves (p_c1 p) p = true) by (unfold involves; rewrite Z.eqb_refl; reflexivity).
    assert (V2 : involves (p_c2 p) p = true) by (unfold involves; rewrite Z.eqb_refl; apply Bool.orb_true_r).
    destruct (L _ _ B1) as [(Q1 & ->)|(N1 & K1)].
    + destruct (b_disabled y') eqn:DY; [|right; right; split; [reflexivity|eauto]].
      destruct (L _ _ B2) as [(Q2 & ->)|(N2 & K2)]; [left; rewrite DY; reflexivity|].
      destruct (wi_dis id p x1 x2 y y2) as [W|W]; auto; [congruence|]. left. apply Bool.andb_true_iff in W. apply W.
    + destruct (L _ _ B2) as [(Q2 & ->)|(N2 & K2)].
      * destruct (b_disabled y') eqn:DY; [|right; right; split; [reflexivity|eauto]].
        destruct (wi_dis id p x1 x2 y1 y) as [W|W]; auto; [congruence|]. left. apply Bool.andb_true_iff in W. rewrite Bool.andb_true_r. apply W.
      * destruct (wi_dis id p x1 x2 y1 y2) as [W|W]; auto.
  - intros k z K. destruct (L _ _ K) as [(-> & ->)|(N & K1)]; [exact HF|eauto].
  - intros j x J. destruct (wi_joint _ _ J) as ((z1 & Z1) & (z2 & Z2) & N). splits; auto; [destruct (L2 _ _ Z1) as (? & ? & _)|destruct (L2 _ _ Z2) as (? & ? & _)]; eauto.
Qed.

Lemma enable_pairs_ok : forall X Y E F XA w b x, WInv X Y E F XA w -> theb b w = Some x ->
  exists w', enable_pairs box b w = Ok w' /\ WInv (fun id => X id \/ Touch (b_colliders x) w id) Y E F XA w' /\ Frame w w' /\
    ww_bodies _ w' = ww_bodies _ w /\ ww_moved _ w' = ww_moved _ w /\
    (forall id p, thep id w' = Some p -> Touch (b_colliders x) w id -> p_enabled p = true).
Proof.
  intros X Y E F XA w b x I B. unfold enable_pairs, get_body. rewrite B. cbn [rd bind]. set (X' := fun id => X id \/ Touch (b_colliders x) w id).
  set (Inv := fun w1 => WInv X' Y E F XA w1 /\ Frame w w1 /\ ww_bodies _ w1 = ww_bodies _ w /\ ww_moved _ w1 = ww_moved _ w).
  destruct (each_ind box Z (fun l w1 => Inv w1 /\ forall id p c, thep id w1 = Some p -> In c (b_colliders x) -> involves c p = true -> p_enabled p = true \/ In c l)
    (fun c w => each box (fun id w => let* p := rd (find box id w) in if p_enabled p then Ok w else pairs_step box (PEnable id) w) (pairs_of box c w) w) (b_colliders x) w)
    as (w' & R & (I1 & F1 & B1 & M1) & T1).
  - intros c l w1 SUB (V1 & T1).
    destruct (each_ind box Z (fun ids w2 => Inv w2 /\ forall id p c', thep id w2 = Some p -> In c' (b_colliders x) -> involves c' p = true -> p_enabled p = true \/ In c' l \/ (c' = c /\ In id ids))
      (fun id w => let* p := rd (find box id w) in if p_enabled p then Ok w else pairs_step box (PEnable id) w) (pairs_of box c w1) w1) as (w2 & R2 & V2 & T2).
    + intros id ids w2 SUB2 ((I2 & F2 & B2 & M2) & T2). assert (J : In id (pairs_of box c w1)) by (apply SUB2; left; reflexivity).
      destruct V1 as (I1 & F1 & B1 & M1).
      apply (frame_pairs_of _ w w1 c id F1) in J. assert (J0 : Touch (b_colliders x) w id). { apply in_pairs_of in J. destruct J as (p & P & V). exists p, c. splits; auto. apply SUB. left. reflexivity. }
      apply (frame_pairs_of _ w w2 c id F2) in J. apply in_pairs_of in J. destruct J as (p & P & V).
      unfold find. rewrite P. cbn [rd bind]. destruct (p_enabled p) eqn:EN.
      * exists w2. split; [reflexivity|]. split; [unfold Inv; splits; auto|]. intros id' p' c' P' C' V'. destruct (T2 _ _ _ P' C' V') as [|[|(-> & [<-|])]]; auto. left. congruence.
      * unfold pairs_step, pspec_step. rewrite P, EN. cbn [bind]. eexists. split; [reflexivity|]. split.
        -- unfold Inv. splits; auto.
           ++ apply (replace_pair box overlap overlap_sym X' Y E F XA w2 id p); auto; cbn; [discriminate|]. intros _ _. right. right. exact J0.
           ++ eapply frame_trans; [exact F2|]. apply (replace_frame box w2 id p); auto.
        -- cbn [set_pairs ww_pairs sp_pairs]. intros id' p' c'. rewrite lookup_set. destruct (Z.eqb_spec id' id) as [->|N]; intros P' C' V'; [injection P' as <-; left; reflexivity|].
           destruct (T2 _ _ _ P' C' V') as [|[|(-> & [Q|])]]; auto; congruence.
    + split; [exact V1|]. intros id p c' P C' V'. destruct (T1 _ _ _ P C' V') as [|[->|]]; auto. right. right. split; [reflexivity|]. apply in_pairs_of. eauto.
    + exists w2. split; [exact R2|]. split; [exact V2|]. intros id p c' P C' V'. destruct (T2 _ _ _ P C' V') as [|[|(_ & [])]]; auto.
  - split; [|intros; auto]. unfold Inv. splits; auto using frame_refl. eapply winv_weaken; eauto. intros id p _ K. left. exact K.
  - exists w'. splits; auto. intros id p P (q & c & Q & C & V). destruct (f_pair F1 _ _ Q) as (q' & Q' & K & _). rewrite P in Q'. injection Q' as <-.
    destruct (T1 _ _ c P C) as [|[]]; auto. rewrite (involves_core c p q K). exact V.
Qed.

Lemma check_disabled_ok : forall X Y E F XA w b x, WInv X Y E F XA w -> theb b w = Some x ->
  exists w', check_disabled_pairs box b w = Ok w' /\ WInv X Y E F XA w' /\ Frame w w' /\ ww_bodies _ w' = ww_bodies _ w /\ ww_moved _ w' = ww_moved _ w.
Proof.
  intros X Y E F XA w b x I B. unfold check_disabled_pairs, get_body at 1. rewrite B. cbn [rd bind].
  set (Inv := fun w1 => WInv X Y E F XA w1 /\ Frame w w1 /\ ww_bodies _ w1 = ww_bodies _ w /\ ww_moved _ w1 = ww_moved _ w).
  apply (each_ok box Z Inv); [|unfold Inv; splits; auto using frame_refl].
  intros c w1 C V1. apply (each_ok box Z Inv); [|exact V1].
  intros id w2 J (I2 & F2 & B2 & M2). destruct V1 as (I1 & F1 & B1 & M1). apply (frame_pairs_of _ w w1 c id F1) in J. apply (frame_pairs_of _ w w2 c id F2) in J. apply in_pairs_of in J. destruct J as (p & P & V).
  unfold find. rewrite P. cbn [rd bind]. destruct (pair_range box overlap X Y E F XA w2 id p I2 P) as (x1 & x2 & C1 & C2 & _ & _ & _ & _ & _ & _ & _ & _ & _ & y1 & y2 & Y1 & Y2).
  unfold pair_bodies, get_coll, get_body. rewrite C1, C2. cbn [rd bind]. rewrite Y1, Y2. cbn [rd bind].
  destruct (b_disabled y1 && b_disabled y2) eqn:BD; [|exists w2; split; [reflexivity|unfold Inv; splits; auto]].
  unfold pairs_step, pspec_step. rewrite P. destruct (p_enabled p) eqn:EN; cbn [bind].
  - eexists. split; [reflexivity|]. unfold Inv. splits; auto.
    + apply (replace_pair box overlap overlap_sym X Y E F XA w2 id p); auto; cbn; [|discriminate]. intros _ z1 z2 t1 t2 D1 D2 D3 D4. left. congruence.
    + eapply frame_trans; [exact F2|]. apply (replace_frame box w2 id p); auto.
  - eexists. split; [reflexivity|]. replace (set_pairs box (ww_pairs box w2) w2) with w2 by (destruct w2; reflexivity). unfold Inv. splits; auto.
Qed.

Lemma no_node_no_pair : forall X Y E F XA w c x id p, WInv X Y E F XA w -> thec c w = Some x -> c_node x = -1 -> thep id w = Some p -> involves c p = true -> False.
Proof.
  intros X Y E F XA w c x id p I C N P V. pose proof (wi_pair I _ _ P) as (_ & _ & N1 & N2 & _). destruct (pair_nodes box overlap X Y E F XA w id p c x I P C V); congruence.
Qed.

Lemma ask_ok : forall X Y E F XA w c x, WInv X Y E F XA w -> thec c w = Some x -> (forall id p, thep id w = Some p -> involves c p = true -> p_enabled p = true) ->
  exists w', ask_check box c w = Ok w' /\ WInv X Y E F XA w' /\ Frame w w' /\ ww_bodies _ w' = ww_bodies _ w /\
    (forall m, In m (ww_moved _ w') <-> (m = c_node x /\ m <> -1) \/ In m (ww_moved _ w)) /\
    (forall id p, thep id w' = Some p -> involves c p = true -> p_test p = true) /\
    (forall id p, thep id w = Some p -> exists p', thep id w' = Some p' /\ p_enabled p' = p_enabled p /\ (p_test p = true -> p_test p' = true)).
Proof.
  intros X Y E F XA w c x I C H. unfold ask_check, get_coll. rewrite C. cbn [rd bind]. destruct (Z.eqb_spec (c_node x) (-1)) as [N|N].
  - exists w. splits; auto using frame_refl; [|intros id p P V; exfalso; eapply no_node_no_pair; eauto|eauto]. intros m. split; [auto|]. intros [(K1 & K2)|K]; [congruence|exact K].
  - destruct (wi_node I _ _ C N) as (_ & _ & bx & T). destruct (add_moved_ok box overlap overlap_sym X Y E F XA w (c_node x) c bx I T H) as (w' & R & I1 & F1 & B1 & M1 & T1 & K1).
    exists w'. splits; auto. intros m. rewrite M1. split; [intros [->|]; auto|intros [(-> & _)|]; auto].
Qed.

Lemma ask_all_ok : forall X Y E F XA w l, WInv X Y E F XA w -> (forall c, In c l -> exists x, thec c w = Some x) ->
  (forall id p, thep id w = Some p -> Touch l w id -> p_enabled p = true) ->
  exists w', each box (ask_check box) l w = Ok w' /\ WInv X Y E F XA w' /\ Frame w w' /\ ww_bodies _ w' = ww_bodies _ w /\ incl (ww_moved _ w) (ww_moved _ w') /\
    (forall id p, thep id w' = Some p -> Touch l w id -> p_test p = true) /\
    (forall id p, thep id w = Some p -> exists p', thep id w' = Some p' /\ p_enabled p' = p_enabled p).
Proof.
  intros X Y E F XA w l I HC HE.
  destruct (each_ind box Z (fun l1 w1 => WInv X Y E F XA w1 /\ Frame w w1 /\ ww_bodies _ w1 = ww_bodies _ w /\ incl (ww_moved _ w) (ww_moved _ w1) /\
    (forall id p c, thep id w1 = Some p -> In c l -> involves c p = true -> p_test p = true \/ In c l1) /\
    (forall id p, thep id w = Some p -> exists p', thep id w1 = Some p' /\ p_enabled p' = p_enabled p)) (ask_check box) l w) as (w' & R & I1 & F1 & B1 & M1 & T1 & K1).
  - intros c l1 w1 SUB (I1 & F1 & B1 & M1 & T1 & K1). assert (CL : In c l) by (apply SUB; left; reflexivity). destruct (HC _ CL) as (x & C). rewrite <- (f_coll F1) in C.
    destruct (ask_ok X Y E F XA w1 c x I1 C) as (w2 & R2 & I2 & F2 & B2 & M2 & T2 & K2).
    { intros id p P V. destruct (f_pair' F1 _ _ P) as (q & Q & KK & _). destruct (K1 _ _ Q) as (q' & Q' & EN). rewrite P in Q'. injection Q' as <-. rewrite EN. apply (HE id q Q). exists q, c. rewrite <- (involves_core c p q KK). auto. }
    exists w2. splits; auto.
    + eapply frame_trans; eassumption.
    + congruence.
    + intros m IN. apply M2. right. apply M1. exact IN.
    + intros id p c' P C' V'. destruct (Z.eq_dec c' c) as [->|N]; [left; eapply T2; eauto|]. destruct (f_pair' F2 _ _ P) as (q & Q & KK & _).
      rewrite (involves_core c' p q KK) in V'. destruct (T1 id q c' Q C' V') as [T|[EQ|IN]]; [|congruence|auto]. left. destruct (K2 _ _ Q) as (q' & Q' & _ & TT). rewrite P in Q'. injection Q' as <-. auto.
    + intros id p P. destruct (K1 _ _ P) as (q & Q & EN). destruct (K2 _ _ Q) as (r & RR & EN2 & _). exists r. split; congruence.
  - splits; auto using frame_refl; [intros m; auto|eauto].
  - exists w'. splits; auto. intros id p P (q & c & Q & C & V). destruct (f_pair F1 _ _ Q) as (q' & Q' & KK & _). rewrite P in Q'. injection Q' as <-.
    destruct (T1 id p c P C) as [|[]]; auto. rewrite (involves_core c p q KK). exact V.
Qed.

(** Waking a body: its pairs are enabled and will be tested again. *)
Lemma put_frame : forall w b y y', theb b w = Some y -> same_body y y' -> Frame w (put_body box b y' w).
Proof.
  intros w b y y' B S. constructor; auto.
  - intros k z K. unfold put_body. cbn [set_bodies ww_bodies]. rewrite lookup_set. destruct (Z.eqb_spec k b) as [->|N]; [rewrite K in B; injection B as <-|]; eauto using same_body_refl.
  - intros k z. unfold put_body. cbn [set_bodies ww_bodies]. rewrite lookup_set. destruct (Z.eqb_spec k b) as [->|N]; intros K; [injection K as <-|]; eauto using same_body_refl.
  - intros id p P. eauto.
  - intros id p P. eauto.
Qed.
Definition wake_steps (b : Z) (x : body) (w : world) : res world :=
  let* w := set_body_disabled box b false (put_body box b (w_sleeping false x) w) in
  let* w := enable_pairs box b w in each box (ask_check box) (b_colliders x) w.

Lemma wake_ok : forall Y E F XA w b x, WInv none Y E F XA w -> theb b w = Some x ->
  (forall id p, thep id w = Some p -> Y id -> Touch (b_colliders x) w id) ->
  exists w', wake_steps b x w = Ok w' /\ WInv none none E F XA w' /\ Frame w w' /\ theb b w' = Some (w_disabled false (w_sleeping false x)) /\
    (forall k, k <> b -> theb k w' = theb k w) /\ incl (ww_moved _ w) (ww_moved _ w').
Proof.
  intros Y E F XA w b x I B HY. unfold wake_steps, set_body_disabled, get_body.
  set (wa := put_body box b (w_sleeping false x) w). assert (BA : theb b wa = Some (w_sleeping false x)) by (unfold wa, put_body; cbn [set_bodies ww_bodies]; rewrite lookup_set, Z.eqb_refl; reflexivity).
  rewrite BA. cbn [rd bind]. set (xb := w_disabled false (w_sleeping false x)). set (wb := put_body box b xb wa).
  assert (BB : theb b wb = Some xb) by (unfold wb, put_body; cbn [set_bodies ww_bodies]; rewrite lookup_set, Z.eqb_refl; reflexivity).
  assert (I0 : WInv none (fun id => Y id \/ (b_disabled xb = false /\ Touch (b_colliders x) w id)) E F XA (put_body box b xb w)) by (apply (put_flags none Y E F XA w b x xb); auto).
  assert (L : forall k, lookup Z.eqb k (ww_bodies _ wb) = lookup Z.eqb k (ww_bodies _ (put_body box b xb w))).
  { intros k. unfold wb, wa, put_body. cbn [set_bodies ww_bodies]. rewrite !lookup_set. destruct (k =? b); reflexivity. }
  assert (I1 : WInv none (fun id => Y id \/ (b_disabled xb = false /\ Touch (b_colliders x) w id)) E F XA wb).
  { destruct I0. constructor; auto; intros; repeat match goal with H : lookup Z.eqb _ (ww_bodies _ wb) = _ |- _ => rewrite L in H end; eauto.
    - destruct (wi_coll c x0 H) as (z & K1 & K2). exists z. rewrite L. auto.
    - destruct (wi_joint j x0 H) as ((z1 & Z1) & (z2 & Z2) & N). splits; auto; [exists z1|exists z2]; rewrite L; assumption. }
  assert (F0 : Frame w wb). { unfold wb. eapply frame_trans; [apply (put_frame w b x (w_sleeping false x) B); unfold same_body; auto|]. fold wa. apply (put_frame wa b (w_sleeping false x)); unfold same_body; auto. }
  destruct (enable_pairs_ok _ _ _ _ _ _ b xb I1 BB) as (wc & Rc & Ic & Fc & Bc & Mc & Tc). rewrite Rc. cbn [bind]. change (b_colliders xb) with (b_colliders x) in *.
  assert (T0 : forall id, Touch (b_colliders x) w id <-> Touch (b_colliders x) wb id) by (intros; apply touch_frame; exact F0).
  assert (T1 : forall id, Touch (b_colliders x) wb id <-> Touch (b_colliders x) wc id) by (intros; apply touch_frame; exact Fc).
  destruct (ask_all_ok (fun id => none id \/ Touch (b_colliders x) wb id) none E F XA wc (b_colliders x)) as (w' & R & I' & F' & B' & M' & T' & K').
  - apply (winv_weaken box overlap (fun id => none id \/ Touch (b_colliders x) wb id) none E F XA); auto.
    destruct Ic. constructor; auto. intros id p x1 x2 y1 y2 P EN C1 C2 B1 B2.
    destruct (wi_dis id p x1 x2 y1 y2 P EN C1 C2 B1 B2) as [|K]; auto. exfalso. assert (TT : Touch (b_colliders x) wb id).
    { destruct K as [K|(_ & K)]; [|apply T0; exact K]. destruct (f_pair' Fc _ _ P) as (q & Q & _). destruct (f_pair' F0 _ _ Q) as (r & RR & _). apply T0. eapply HY; eauto. }
    rewrite (Tc _ _ P TT) in EN. discriminate.
  - intros c C. destruct (wi_body I _ _ _ B C) as (z & Z1 & _). exists z. rewrite (f_coll Fc), (f_coll F0). exact Z1.
  - intros id p P T. apply (Tc _ _ P). apply T1. exact T.
  - exists w'. splits; auto.
    + destruct I'. constructor; auto. intros id p P EN TE. destruct (wi_test id p P EN TE) as [|[[]|K]]; auto. apply T1 in K. rewrite (T' _ _ P K) in TE. discriminate.
    + eapply frame_trans; [exact F0|]. eapply frame_trans; eassumption.
    + rewrite B', Bc. exact BB.
    + intros k N. rewrite B', Bc. unfold wb, wa, put_body. cbn [set_bodies ww_bodies]. rewrite !lookup_set. apply Z.eqb_neq in N. rewrite N. reflexivity.
    + intros m M. apply M'. rewrite Mc. exact M.
Qed.

Lemma set_sleeping_ok : forall E F XA w b v x, WInv none none E F XA w -> theb b w = Some x ->
  exists w', set_sleeping box b v w = Ok w' /\ WInv none none E F XA w' /\ Frame w w' /\
    (forall k, k <> b -> theb k w' = theb k w) /\ incl (ww_moved _ w) (ww_moved _ w') /\
    (b_type x <> Static -> b_active x = true -> v = false -> exists x', theb b w' = Some x' /\ b_sleeping x' = false /\ b_disabled x' = false) /\
    (b_type x = Static -> w' = w).
Proof.
  intros E F XA w b v x I B. unfold set_sleeping. unfold get_body at 1. rewrite B. cbn [rd bind].
  assert (SAME : exists w', Ok w = Ok w' /\ WInv none none E F XA w' /\ Frame w w' /\ (forall k, k <> b -> theb k w' = theb k w) /\ incl (ww_moved _ w) (ww_moved _ w') /\ theb b w' = Some x /\ w' = w).
  { exists w. splits; auto using frame_refl. intros m; auto. }
  destruct (Bool.eqb (b_sleeping x) v) eqn:SV.
  { apply Bool.eqb_prop in SV. destruct SAME as (w' & K1 & K2 & K3 & K4 & K5 & K6 & K7). exists w'. splits; auto. intros T _ ->. exists x. splits; auto. exact (wi_flags I _ _ B T SV). }
  destruct (btype_eqb (b_type x) Static) eqn:BT.
  { destruct SAME as (w' & K1 & K2 & K3 & K4 & K5 & K6 & K7). exists w'. splits; auto. intros T. destruct (b_type x); cbn in BT; congruence. }
  destruct (b_active x) eqn:BA; cbn [negb].
  2: { destruct SAME as (w' & K1 & K2 & K3 & K4 & K5 & K6 & K7). exists w'. splits; auto. discriminate. }
  assert (NS : b_type x <> Static) by (intros K; rewrite K in BT; discriminate).
  destruct v.
  - unfold set_body_disabled, get_body. cbn [put_body set_bodies ww_bodies]. rewrite lookup_set, Z.eqb_refl. cbn [rd bind].
    set (xb := w_disabled true (w_sleeping true x)). set (wa := put_body box b (w_sleeping true x) w). set (wb := put_body box b xb wa).
    assert (BB : theb b wb = Some xb) by (unfold wb, put_body; cbn [set_bodies ww_bodies]; rewrite lookup_set, Z.eqb_refl; reflexivity).
    assert (I0 : WInv none (fun id => none id \/ (b_disabled xb = false /\ Touch (b_colliders x) w id)) E F XA (put_body box b xb w)) by (apply (put_flags none none E F XA w b x xb); auto; discriminate).
    assert (L : forall k, lookup Z.eqb k (ww_bodies _ wb) = lookup Z.eqb k (ww_bodies _ (put_body box b xb w))).
    { intros k. unfold wb, wa, put_body. cbn [set_bodies ww_bodies]. rewrite !lookup_set. destruct (k =? b); reflexivity. }
    assert (I1 : WInv none none E F XA wb).
    { eapply winv_weaken with (Y' := none) in I0; eauto; [|intros ? ? _ [[]|(K & _)]; discriminate]. destruct I0. constructor; auto; intros; repeat match goal with H : lookup Z.eqb _ (ww_bodies _ wb) = _ |- _ => rewrite L in H end; eauto.
      - destruct (wi_coll c x0 H) as (z & K1 & K2). exists z. rewrite L. auto.
      - destruct (wi_joint j x0 H) as ((z1 & Z1) & (z2 & Z2) & N). splits; auto; [exists z1|exists z2]; rewrite L; assumption. }
    assert (F0 : Frame w wb). { unfold wb. eapply frame_trans; [apply (put_frame w b x (w_sleeping true x) B); unfold same_body; auto|]. fold wa. apply (put_frame wa b (w_sleeping true x)); [|unfold same_body; auto].
      unfold wa, put_body. cbn [set_bodies ww_bodies]. rewrite lookup_set, Z.eqb_refl. reflexivity. }
    change (put_body box b xb (set_bodies box (m_set Z.eqb b (w_sleeping true x) (ww_bodies box w)) w)) with wb.
    destruct (check_disabled_ok _ _ _ _ _ _ b xb I1 BB) as (w' & R & I' & F' & B' & M'). exists w'. splits; auto.
    + eapply frame_trans; eassumption.
    + intros k N. rewrite B'. unfold wb, wa, put_body. cbn [set_bodies ww_bodies]. rewrite !lookup_set. apply Z.eqb_neq in N. rewrite N. reflexivity.
    + rewrite M'. intros m M. exact M.
    + discriminate.
    + contradiction.
  - destruct (wake_ok none E F XA w b x I B) as (w' & R & I' & F' & B' & K' & M'); [intros ? ? _ []|]. exists w'. splits; auto. 2: contradiction. intros _ _ _. eexists. splits; [exact B'|reflexivity|reflexivity].
Qed.
End Proofs.
