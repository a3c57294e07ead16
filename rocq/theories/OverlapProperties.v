(** C134, C135: the overlap and collision queries of a world. *)
From Verif Require Import Base HashSpec BitsModel BitsProofs ComponentsProofs PairsModel PairsSpec PairsProofs WorldModel WorldSpec WorldProofs WorldProofs2 WorldProofs3 WorldProofs4 WorldProofs5 WorldProofs6 WorldProperties OverlapModel OverlapSpec.
Open Scope Z_scope.

Section Properties.
Variable box : Type.
Variable overlap covers : box -> box -> bool.
Variable inflate : box -> box.
Hypothesis overlap_sym : forall a b, overlap a b = overlap b a.
Variable hits : Z -> Z -> bool.
Hypothesis hits_sym : forall c1 c2, hits c1 c2 = hits c2 c1.
Variable queryable trigger : Z -> bool.
Notation world := (world box).
Notation history := (history box overlap covers inflate).
Notation step := (wstep box overlap covers inflate).
Notation part_of := (part_of box).
Notation meets := (meets box overlap hits).
Notation live := (live box).
Notation awake := (awake box).
Notation belong := (belong box).
Notation colliding := (colliding box overlap hits).
Notation overlap_bodies := (test_overlap_bodies box overlap hits).
Notation overlap_body := (test_overlap_body box overlap hits).
Notation overlap_world := (test_overlap_world box overlap hits queryable).
Notation collision_bodies := (test_collision_bodies box overlap hits trigger).
Notation collision_body := (test_collision_body box overlap hits trigger).
Notation collision_world := (test_collision_world box overlap hits queryable trigger).

(** ** Lists of pairs *)
Lemma in_current (w : world) p : In p (current_pairs box w) <-> exists id, the_pair box id w = Some p /\ p_enabled p = true.
Proof.
  unfold current_pairs. rewrite in_flat_map. unfold find, the_pair. split.
  - intros (id & _ & Hp). exists id. destruct (lookup Z.eqb id _) as [q|]; [|destruct Hp]. destruct (p_enabled q) eqn:E; [|destruct Hp]. destruct Hp as [<-|[]]. auto.
  - intros (id & P & E). exists id. split; [apply in_all_ids; eauto|]. rewrite P, E. now left.
Qed.
Lemma keep_ok f : forall ps, (forall p, In p ps -> exists b, f p = Ok b) -> exists r, keep f ps = Ok r /\ (forall p, In p r <-> In p ps /\ f p = Ok true) /\ (forall (A : Type) (g : pair -> A), NoDup (map g ps) -> NoDup (map g r)).
Proof.
  induction ps as [|p ps IH]; intros H; cbn [keep]; [exists []; split; [reflexivity|]; split; [intros p; cbn; tauto|auto]|].
  destruct (H p (or_introl eq_refl)) as (b & Eb). rewrite Eb. cbn [bind]. destruct IH as (r & -> & Hr & ND); [intros q Hq; apply H; now right|]. cbn [bind].
  exists (if b then p :: r else r). split; [reflexivity|]. split.
  - intros q. destruct b; cbn [In]; rewrite Hr; (split; [intros K|intros ([->|K] & E)]); [destruct K as [<-|(K & E)]; auto|auto|auto|tauto|congruence|auto].
  - intros A g N. cbn [map] in N. inversion N as [|? ? N1 N2]; subst. destruct b; [|auto]. cbn [map]. constructor; [|auto]. rewrite in_map_iff. intros (q & Eq & Hq). apply N1. apply Hr in Hq. rewrite in_map_iff. exists q. tauto.
Qed.
(** The pairs of a world are named by their colliders. *)
Lemma current_nodup (w : world) E : WInv box overlap none none E none none w -> NoDup (map (fun p => (p_c1 p, p_c2 p)) (current_pairs box w)).
Proof.
  intros I. unfold current_pairs. pose proof (NoDup_nodup Z.eq_dec (map fst (sp_pairs (ww_pairs box w)))) as ND. fold (all_ids box w) in ND. revert ND. generalize (all_ids box w). induction l as [|id l IH]; intros ND; [constructor|].
  inversion ND as [|? ? N1 N2]; subst. cbn [flat_map]. unfold find at 1. destruct (lookup Z.eqb id (sp_pairs (ww_pairs box w))) as [p|] eqn:P; [|auto]. destruct (p_enabled p); [|auto]. cbn [app map]. constructor; [|auto].
  rewrite in_map_iff. intros (q & Eq & Hq). apply in_flat_map in Hq. destruct Hq as (id' & Hi & Hq). unfold find in Hq. destruct (lookup Z.eqb id' (sp_pairs (ww_pairs box w))) as [q'|] eqn:Q; [|destruct Hq]. destruct (p_enabled q'); [|destruct Hq]. destruct Hq as [->|[]].
  injection Eq as E1 E2. destruct (wi_pair I _ _ P) as (_ & K1 & _ & _ & x1 & x2 & X1 & X2 & X3 & X4 & _). destruct (wi_pair I _ _ Q) as (_ & L1 & _ & _ & z1 & z2 & Z1 & Z2 & Z3 & Z4 & _).
  rewrite E1 in Z1. rewrite E2 in Z2. rewrite X1 in Z1. rewrite X2 in Z2. injection Z1 as <-. injection Z2 as <-. assert (K : id = id') by congruence. apply N1. rewrite K. exact Hi.
Qed.
Lemma pair_bodies_ok (w : world) E p id : WInv box overlap none none E none none w -> the_pair box id w = Some p -> exists x1 x2, the_coll box (p_c1 p) w = Some x1 /\ the_coll box (p_c2 p) w = Some x2 /\ pair_bodies box p w = Ok (c_body x1, c_body x2).
Proof.
  intros I P. destruct (wi_pair I _ _ P) as (_ & _ & _ & _ & x1 & x2 & X1 & X2 & _). exists x1, x2. split; [exact X1|]. split; [exact X2|]. unfold pair_bodies, get_coll. rewrite X1, X2. reflexivity.
Qed.
(** What a query sees: the pairs tested and reported. *)
Definition tested (w : world) (c1 c2 : Z) : Prop := exists id p, the_pair box id w = Some p /\ p_enabled p = true /\ p_c1 p = c1 /\ p_c2 p = c2.
Lemma between_ok (w : world) E a b : WInv box overlap none none E none none w -> exists r, pairs_between box a b w = Ok r /\
  (forall c1 c2, In (c1, c2) (map (fun p => (p_c1 p, p_c2 p)) r) <-> tested w c1 c2 /\ belong w a b c1 c2) /\ NoDup (map (fun p => (p_c1 p, p_c2 p)) r) /\ forall p, In p r -> In p (current_pairs box w).
Proof.
  intros I. unfold pairs_between. set (f := fun p : pair => _). destruct (keep_ok f (current_pairs box w)) as (r & E1 & H & ND).
  { intros p Hp. apply in_current in Hp. destruct Hp as (id & P & _). destruct (pair_bodies_ok w E p id I P) as (x1 & x2 & _ & _ & EB). unfold f. rewrite EB. cbn [bind]. eauto. }
  exists r. split; [exact E1|]. split; [|split; [apply ND, (current_nodup w E I)|intros p Hp; apply H in Hp; tauto]].
  assert (F : forall id p, the_pair box id w = Some p -> (f p = Ok true <-> belong w a b (p_c1 p) (p_c2 p))).
  { intros id p P. destruct (pair_bodies_ok w E p id I P) as (x1 & x2 & X1 & X2 & EB). unfold f. rewrite EB. cbn [bind]. unfold belong, OverlapSpec.belong, same_bodies. split.
    - intros K. injection K as K. apply Bool.orb_true_iff in K. exists x1, x2. split; [exact X1|]. split; [exact X2|]. rewrite !Bool.andb_true_iff, !Z.eqb_eq in K. intuition congruence.
    - intros (z1 & z2 & Z1 & Z2 & S). rewrite X1 in Z1. rewrite X2 in Z2. injection Z1 as <-. injection Z2 as <-. f_equal. apply Bool.orb_true_iff. rewrite !Bool.andb_true_iff, !Z.eqb_eq. intuition congruence. }
  intros c1 c2. rewrite in_map_iff. split.
  - intros (p & Ep & Hp). injection Ep as <- <-. apply H in Hp. destruct Hp as (Hp & Fp). apply in_current in Hp. destruct Hp as (id & P & EN). split; [exists id, p; auto|]. apply (F id p P). exact Fp.
  - intros ((id & p & P & EN & <- & <-) & BL). exists p. split; [reflexivity|]. apply H. split; [apply in_current; eauto|]. apply (F id p P). exact BL.
Qed.
Lemma with_ok (w : world) E b : WInv box overlap none none E none none w -> exists r, pairs_with box b w = Ok r /\
  (forall c1 c2, In (c1, c2) (map (fun p => (p_c1 p, p_c2 p)) r) <-> tested w c1 c2 /\ (part_of w b c1 \/ part_of w b c2)) /\ NoDup (map (fun p => (p_c1 p, p_c2 p)) r) /\ forall p, In p r -> In p (current_pairs box w).
Proof.
  intros I. unfold pairs_with. set (f := fun p : pair => _). destruct (keep_ok f (current_pairs box w)) as (r & E1 & H & ND).
  { intros p Hp. apply in_current in Hp. destruct Hp as (id & P & _). destruct (pair_bodies_ok w E p id I P) as (x1 & x2 & _ & _ & EB). unfold f. rewrite EB. cbn [bind]. eauto. }
  exists r. split; [exact E1|]. split; [|split; [apply ND, (current_nodup w E I)|intros p Hp; apply H in Hp; tauto]].
  assert (F : forall id p, the_pair box id w = Some p -> (f p = Ok true <-> part_of w b (p_c1 p) \/ part_of w b (p_c2 p))).
  { intros id p P. destruct (pair_bodies_ok w E p id I P) as (x1 & x2 & X1 & X2 & EB). unfold f. rewrite EB. cbn [bind]. unfold part_of, OverlapSpec.part_of. split.
    - intros K. injection K as K. apply Bool.orb_true_iff in K. rewrite !Z.eqb_eq in K. destruct K; eauto.
    - intros K. f_equal. apply Bool.orb_true_iff. rewrite !Z.eqb_eq. destruct K as [(z & Z1 & <-)|(z & Z1 & <-)]; [left|right]; congruence. }
  intros c1 c2. rewrite in_map_iff. split.
  - intros (p & Ep & Hp). injection Ep as <- <-. apply H in Hp. destruct Hp as (Hp & Fp). apply in_current in Hp. destruct Hp as (id & P & EN). split; [exists id, p; auto|]. apply (F id p P). exact Fp.
  - intros ((id & p & P & EN & <- & <-) & BL). exists p. split; [reflexivity|]. apply H. split; [apply in_current; eauto|]. apply (F id p P). exact BL.
Qed.
Lemma filter_nodup {A B} (g : A -> B) (f : A -> bool) : forall l, NoDup (map g l) -> NoDup (map g (filter f l)).
Proof.
  induction l as [|a l IH]; intros N; [constructor|]. cbn [map] in N. inversion N as [|? ? N1 N2]; subst. cbn [filter]. destruct (f a); [|auto]. cbn [map]. constructor; [|auto].
  rewrite in_map_iff. intros (x & Ex & Hx). apply filter_In in Hx. apply N1. rewrite in_map_iff. exists x. tauto.
Qed.
Lemma in_overlapping ps c1 c2 : In (c1, c2) (overlapping hits ps) <-> In (c1, c2) (map (fun p => (p_c1 p, p_c2 p)) ps) /\ hits c1 c2 = true.
Proof.
  unfold overlapping. rewrite !in_map_iff. split.
  - intros (p & Ep & Hp). apply filter_In in Hp. destruct Hp as (Hp & Hh). injection Ep as <- <-. split; [exists p; auto|exact Hh].
  - intros ((p & Ep & Hp) & Hh). injection Ep as <- <-. exists p. split; [reflexivity|]. apply filter_In. auto.
Qed.
Lemma overlapping_nodup ps : NoDup (map (fun p => (p_c1 p, p_c2 p)) ps) -> NoDup (overlapping hits ps).
Proof. intros N. unfold overlapping. now apply filter_nodup. Qed.
(** The reset of the flags of the frame. *)
Definition unflag (p : pair) : pair := if p_enabled p then with_flags (p_prev p) false p else p.
Lemma clear_pairs (w : world) : exists w', pairs_step box PClearCurrent w = Ok w' /\ narrow_phase box [] w = Ok w' /\ (forall id, the_pair box id w' = option_map unflag (the_pair box id w)) /\ ww_coll _ w' = ww_coll _ w /\ ww_bodies _ w' = ww_bodies _ w /\ ww_tree _ w' = ww_tree _ w.
Proof.
  eexists. split; [reflexivity|]. split; [reflexivity|]. split; [|repeat split; reflexivity]. intros id. unfold the_pair. cbn. induction (sp_pairs (ww_pairs box w)) as [|[k p] m IH]; [reflexivity|]. cbn. destruct (k =? id); [reflexivity|exact IH].
Qed.
Lemma unflag_core p : p_enabled (unflag p) = p_enabled p /\ p_c1 (unflag p) = p_c1 p /\ p_c2 (unflag p) = p_c2 p.
Proof. unfold unflag. destruct (p_enabled p) eqn:E; cbn; auto. Qed.
Lemma world_ok (w : world) E : WInv box overlap none none E none none w -> exists w' r, middle_phase box queryable w = Ok (w', r) /\ narrow_phase box [] w = Ok w' /\
  (forall c1 c2, In (c1, c2) (map (fun p => (p_c1 p, p_c2 p)) r) <-> tested w c1 c2 /\ queryable c1 = true /\ queryable c2 = true) /\ NoDup (map (fun p => (p_c1 p, p_c2 p)) r) /\ forall p, In p r -> In p (current_pairs box w').
Proof.
  intros I. unfold middle_phase. destruct (clear_pairs w) as (w' & -> & E2 & E3 & _). cbn [bind]. eexists w', _. split; [reflexivity|]. split; [exact E2|].
  destruct (narrow_phase_ok box overlap overlap_sym E w [] I) as (w2 & R2 & I2 & _). rewrite E2 in R2. injection R2 as <-.
  assert (T : forall c1 c2, tested w' c1 c2 <-> tested w c1 c2).
  { intros c1 c2. unfold tested. split; intros (id & p & P & A & B & C).
    - rewrite E3 in P. destruct (the_pair box id w) as [q|] eqn:Q; [|discriminate]. cbn in P. injection P as <-. destruct (unflag_core q) as (U1 & U2 & U3). exists id, q. rewrite U1 in A. rewrite U2 in B. rewrite U3 in C. auto.
    - exists id, (unflag p). destruct (unflag_core p) as (U1 & U2 & U3). rewrite E3, P, U1, U2, U3. auto. }
  split; [|split; [apply filter_nodup, (current_nodup w' E I2)|intros p Hp; apply filter_In in Hp; tauto]].
  intros c1 c2. rewrite <- T. rewrite in_map_iff. split.
  - intros (p & Ep & Hp). injection Ep as <- <-. apply filter_In in Hp. destruct Hp as (Hp & Q). apply Bool.andb_true_iff in Q. apply in_current in Hp. destruct Hp as (id & P & EN). split; [exists id, p; auto|exact Q].
  - intros ((id & p & P & EN & <- & <-) & Q). exists p. split; [reflexivity|]. apply filter_In. split; [apply in_current; eauto|]. apply Bool.andb_true_iff. exact Q.
Qed.
Lemma broad_history strict single (w : world) : history strict single w -> exists w', broad_phase box overlap w = Ok w' /\ history strict single w' /\ exists E, WInv box overlap none none E none none w'.
Proof.
  intros H. destruct (C23_calls_succeed box overlap covers inflate overlap_sym strict single w (WBroadPhase _) H I) as (w' & R & H'). exists w'. split; [exact R|]. split; [exact H'|].
  destruct (history_inv box overlap overlap_sym covers inflate _ _ _ H') as (I' & _). eauto.
Qed.
Lemma clear_history strict single (w w' : world) : history strict single w -> narrow_phase box [] w = Ok w' -> history strict single w'.
Proof. intros H E. eapply h_step; [exact H| |exact (E : step w (WNarrowPhase _ []) = Ok w')]. exact Logic.I. Qed.

(** ** C134 *)
(** No query fails, and the world afterwards is one that updates can produce. *)
Theorem C134_runs : forall strict single w a b, history strict single w ->
  (exists w' r, overlap_bodies a b w = Ok (w', r) /\ history strict single w') /\
  (exists w' l, overlap_body a w = Ok (w', l) /\ history strict single w') /\
  (exists w' l, overlap_world w = Ok (w', l) /\ history strict single w').
Proof.
  intros strict single w a b H. destruct (broad_history strict single w H) as (w1 & R & H1 & E & I1). splits.
  - unfold test_overlap_bodies. rewrite R. cbn [bind]. destruct (between_ok w1 E a b I1) as (r & -> & _). cbn [bind]. eauto.
  - unfold test_overlap_body. rewrite R. cbn [bind]. destruct (with_ok w1 E a I1) as (r & -> & _). cbn [bind]. eauto.
  - unfold test_overlap_world. rewrite R. cbn [bind]. destruct (world_ok w1 E I1) as (w2 & r & -> & E2 & _). cbn [bind]. exists w2. eexists. split; [reflexivity|]. eapply clear_history; eauto.
Qed.

Lemma tested_meets strict single (w w' : world) c1 c2 : history strict single w -> broad_phase box overlap w = Ok w' -> tested w' c1 c2 -> hits c1 c2 = true -> meets w' c1 c2.
Proof.
  intros H R (id & p & P & EN & <- & <-) Hh. assert (H' : history strict single w') by (eapply h_step; [exact H|exact (Logic.I : allowed box strict single w (WBroadPhase _))|exact R]).
  pose proof (C63_simulated_pairs_overlap box overlap covers inflate overlap_sym strict single w w' id p H R P EN) as BO.
  destruct (C27_tracked_live box overlap covers inflate overlap_sym strict single w' id p H' P) as (x1 & x2 & y1 & y2 & X1 & X2 & NE & Y1 & Y2 & A1 & A2 & N1 & N2 & _).
  split; [exists x1, y1; auto|]. split; [exists x2, y2; auto|]. split; [exact Hh|]. exists x1, x2. rewrite N1, N2. auto.
Qed.
Lemma colliding_tested single (w w' : world) c1 c2 a b : history true single w -> broad_phase box overlap w = Ok w' -> colliding w' c1 c2 -> part_of w' a c1 -> part_of w' b c2 -> awake w' a \/ awake w' b -> tested w' c1 c2 \/ tested w' c2 c1.
Proof.
  intros H R ((v1 & y1 & V1 & Y1 & A1) & (v2 & y2 & V2 & Y2 & A2) & _ & x1 & x2 & X1 & X2 & EL & BO) (u1 & U1 & <-) (u2 & U2 & <-) AW.
  rewrite X1 in V1, U1. rewrite X2 in V2, U2. injection V1 as <-. injection V2 as <-. injection U1 as <-. injection U2 as <-.
  assert (H' : history true single w') by (eapply h_step; [exact H|exact (Logic.I : allowed box true single w (WBroadPhase _))|exact R]).
  destruct (history_inv box overlap overlap_sym covers inflate _ _ _ H') as (I' & _).
  assert (N1 : c_node x1 <> -1) by (destruct (wi_active I' _ _ _ X1 Y1) as [K|[]]; apply K; exact A1).
  assert (N2 : c_node x2 <> -1) by (destruct (wi_active I' _ _ _ X2 Y2) as [K|[]]; apply K; exact A2).
  destruct (C63_broad_phase_complete box overlap covers inflate overlap_sym single w w' c1 c2 x1 x2 H R X1 X2 N1 N2 EL BO) as (p & P).
  destruct (wi_pair I' _ _ P) as (_ & K0 & K1 & K2 & z1 & z2 & Z1 & Z2 & M1 & M2 & _).
  assert (SB : (p_c1 p = c1 /\ p_c2 p = c2) \/ (p_c1 p = c2 /\ p_c2 p = c1)).
  { destruct (wi_node I' _ _ X1 N1) as (R1 & L1 & _). destruct (wi_node I' _ _ X2 N2) as (R2 & L2 & _).
    assert (Q1 : c_node z1 <> -1) by congruence. assert (Q2 : c_node z2 <> -1) by congruence.
    destruct (wi_node I' _ _ Z1 Q1) as (R3 & L3 & _). destruct (wi_node I' _ _ Z2 Q2) as (R4 & L4 & _).
    rewrite <- M1, <- M2 in K0. apply pair_id_inj in K0; [|lia|lia|lia|lia]. destruct K0 as [(E1 & E2)|(E1 & E2)]; [left|right]; rewrite <- E1, <- E2 in *; split; congruence. }
  assert (EN : p_enabled p = true).
  { destruct AW as [(y & Y & AW)|(y & Y & AW)].
    - rewrite Y1 in Y. injection Y as <-. destruct SB as [(S1 & S2)|(S1 & S2)].
      + apply (C27_simulated_when_awake box overlap covers inflate overlap_sym true single w' _ p x1 x2 y1 y2 H' P); [congruence|congruence|exact Y1|exact Y2|left; exact AW].
      + apply (C27_simulated_when_awake box overlap covers inflate overlap_sym true single w' _ p x2 x1 y2 y1 H' P); [congruence|congruence|exact Y2|exact Y1|right; exact AW].
    - rewrite Y2 in Y. injection Y as <-. destruct SB as [(S1 & S2)|(S1 & S2)].
      + apply (C27_simulated_when_awake box overlap covers inflate overlap_sym true single w' _ p x1 x2 y1 y2 H' P); [congruence|congruence|exact Y1|exact Y2|right; exact AW].
      + apply (C27_simulated_when_awake box overlap covers inflate overlap_sym true single w' _ p x2 x1 y2 y1 H' P); [congruence|congruence|exact Y2|exact Y1|left; exact AW]. }
  destruct SB as [(S1 & S2)|(S1 & S2)]; [left|right]; exists (pair_id (c_node x1) (c_node x2)), p; auto.
Qed.
(** What is reported is there: the two colliders belong to different active bodies, their shapes hit and their boxes
    overlap; no pair is reported twice; and it is about the bodies asked for. *)
Theorem C134_sound : forall strict single w w1 w2 w3 a b r l lw, history strict single w ->
  overlap_bodies a b w = Ok (w1, r) -> overlap_body a w = Ok (w2, l) -> overlap_world w = Ok (w3, lw) ->
  (r = true -> exists c1 c2, meets w1 c1 c2 /\ belong w1 a b c1 c2) /\
  (NoDup l /\ forall c1 c2, In (c1, c2) l -> meets w2 c1 c2 /\ (part_of w2 a c1 \/ part_of w2 a c2)) /\
  (NoDup lw /\ forall c1 c2, In (c1, c2) lw -> meets w3 c1 c2 /\ queryable c1 = true /\ queryable c2 = true).
Proof.
  intros strict single w w1 w2 w3 a b r l lw H E1 E2 E3. destruct (broad_history strict single w H) as (w0 & R & H0 & E & I0).
  unfold test_overlap_bodies in E1. unfold test_overlap_body in E2. unfold test_overlap_world in E3. rewrite R in E1, E2, E3. cbn [bind] in E1, E2, E3.
  destruct (between_ok w0 E a b I0) as (ps & Q1 & Q2 & Q3 & Q4). rewrite Q1 in E1. cbn [bind] in E1. injection E1 as <- <-.
  destruct (with_ok w0 E a I0) as (ps' & S1 & S2 & S3 & S4). rewrite S1 in E2. cbn [bind] in E2. injection E2 as <- <-.
  destruct (world_ok w0 E I0) as (wq & ps2 & T1 & T2 & T3 & T4 & T5). rewrite T1 in E3. cbn [bind] in E3. injection E3 as <- <-.
  splits.
  - intros K. apply existsb_exists in K. destruct K as (p & Hp & Hh). exists (p_c1 p), (p_c2 p).
    destruct (proj1 (Q2 (p_c1 p) (p_c2 p))) as (TS & BL); [apply in_map_iff; exists p; auto|]. split; [exact (tested_meets strict single w w0 _ _ H R TS Hh)|exact BL].
  - now apply overlapping_nodup.
  - intros c1 c2 K. apply in_overlapping in K. destruct K as (K & Hh). apply S2 in K. destruct K as (TS & BL). split; [exact (tested_meets strict single w w0 _ _ H R TS Hh)|exact BL].
  - now apply overlapping_nodup.
  - intros c1 c2 K. apply in_overlapping in K. destruct K as (K & Hh). apply T3 in K. destruct K as (TS & BL). split; [|exact BL].
    destruct (clear_pairs w0) as (w' & _ & C2 & _ & C3 & C4 & C5). rewrite C2 in T2. injection T2 as <-.
    pose proof (tested_meets strict single w w0 c1 c2 H R TS Hh) as M. unfold meets, OverlapSpec.meets, OverlapSpec.live, boxes_overlap, the_coll, the_body in *. rewrite C3, C4, C5. exact M.
Qed.
(** Two colliders that collide are reported by every query about them (about the world: if both may be queried), provided
    one of the two bodies is awake and not static. *)
Theorem C134_complete_partial : forall single w w1 w2 w3 a b r l lw c1 c2, history true single w ->
  overlap_bodies a b w = Ok (w1, r) -> overlap_body a w = Ok (w2, l) -> overlap_world w = Ok (w3, lw) ->
  colliding w1 c1 c2 -> part_of w1 a c1 -> part_of w1 b c2 -> awake w1 a \/ awake w1 b ->
  r = true /\ (In (c1, c2) l \/ In (c2, c1) l) /\ (queryable c1 = true -> queryable c2 = true -> In (c1, c2) lw \/ In (c2, c1) lw).
Proof.
  intros single w w1 w2 w3 a b r l lw c1 c2 H E1 E2 E3 C P1 P2 AW. destruct (broad_history true single w H) as (w0 & R & H0 & E & I0).
  unfold test_overlap_bodies in E1. unfold test_overlap_body in E2. unfold test_overlap_world in E3. rewrite R in E1, E2, E3. cbn [bind] in E1, E2, E3.
  destruct (between_ok w0 E a b I0) as (ps & Q1 & Q2 & Q3 & Q4). rewrite Q1 in E1. cbn [bind] in E1. injection E1 as <- <-.
  destruct (with_ok w0 E a I0) as (ps' & S1 & S2 & S3 & S4). rewrite S1 in E2. cbn [bind] in E2. injection E2 as <- <-.
  destruct (world_ok w0 E I0) as (wq & ps2 & T1 & T2 & T3 & T4 & T5). rewrite T1 in E3. cbn [bind] in E3. injection E3 as <- <-.
  assert (Hh : hits c1 c2 = true) by apply C. assert (Hh' : hits c2 c1 = true) by (rewrite hits_sym; exact Hh).
  destruct (colliding_tested single w w0 c1 c2 a b H R C P1 P2 AW) as [TS|TS]; splits.
  - assert (K : In (c1, c2) (map (fun p => (p_c1 p, p_c2 p)) ps)). { apply Q2. split; [exact TS|]. destruct P1 as (x1 & X1 & B1), P2 as (x2 & X2 & B2). exists x1, x2. unfold same_bodies. auto. }
    apply in_map_iff in K. destruct K as (p & Ep & Hp). injection Ep as K1 K2. apply existsb_exists. exists p. rewrite K1, K2. auto.
  - left. apply in_overlapping. split; [apply S2; auto|exact Hh].
  - intros A B. left. apply in_overlapping. split; [apply T3; auto|exact Hh].
  - assert (K : In (c2, c1) (map (fun p => (p_c1 p, p_c2 p)) ps)). { apply Q2. split; [exact TS|]. destruct P1 as (x1 & X1 & B1), P2 as (x2 & X2 & B2). exists x2, x1. unfold same_bodies. auto. }
    apply in_map_iff in K. destruct K as (p & Ep & Hp). injection Ep as K1 K2. apply existsb_exists. exists p. rewrite K1, K2. auto.
  - right. apply in_overlapping. split; [apply S2; auto|exact Hh'].
  - intros A B. right. apply in_overlapping. split; [apply T3; auto|exact Hh'].
Qed.
(** If all colliders may be queried, the three queries agree. *)
Theorem C134_agree_partial : forall strict single w w1 w2 w3 a b r l lw, history strict single w -> (forall c, queryable c = true) ->
  overlap_bodies a b w = Ok (w1, r) -> overlap_body a w = Ok (w2, l) -> overlap_world w = Ok (w3, lw) ->
  (r = true <-> exists c1 c2, In (c1, c2) l /\ belong w2 a b c1 c2) /\
  (forall c1 c2, In (c1, c2) l <-> In (c1, c2) lw /\ (part_of w2 a c1 \/ part_of w2 a c2)).
Proof.
  intros strict single w w1 w2 w3 a b r l lw H QA E1 E2 E3. destruct (broad_history strict single w H) as (w0 & R & H0 & E & I0).
  unfold test_overlap_bodies in E1. unfold test_overlap_body in E2. unfold test_overlap_world in E3. rewrite R in E1, E2, E3. cbn [bind] in E1, E2, E3.
  destruct (between_ok w0 E a b I0) as (ps & Q1 & Q2 & Q3 & Q4). rewrite Q1 in E1. cbn [bind] in E1. injection E1 as <- <-.
  destruct (with_ok w0 E a I0) as (ps' & S1 & S2 & S3 & S4). rewrite S1 in E2. cbn [bind] in E2. injection E2 as <- <-.
  destruct (world_ok w0 E I0) as (wq & ps2 & T1 & T2 & T3 & T4 & T5). rewrite T1 in E3. cbn [bind] in E3. injection E3 as <- <-.
  split; [split|].
  - intros K. apply existsb_exists in K. destruct K as (p & Hp & Hh). exists (p_c1 p), (p_c2 p). destruct (proj1 (Q2 (p_c1 p) (p_c2 p))) as (TS & BL); [apply in_map_iff; exists p; auto|]. split; [|exact BL].
    apply in_overlapping. split; [|exact Hh]. apply S2. split; [exact TS|]. destruct BL as (x1 & x2 & X1 & X2 & [(B1 & B2)|(B1 & B2)]); [left; exists x1; auto|right; exists x2; auto].
  - intros (c1 & c2 & K & BL). apply in_overlapping in K. destruct K as (K & Hh). apply S2 in K. destruct K as (TS & _).
    assert (K : In (c1, c2) (map (fun p => (p_c1 p, p_c2 p)) ps)) by (apply Q2; auto). apply in_map_iff in K. destruct K as (p & Ep & Hp). injection Ep as K1 K2. apply existsb_exists. exists p. rewrite K1, K2. auto.
  - intros c1 c2. rewrite !in_overlapping, S2, T3. rewrite !QA. tauto.
Qed.

(** ** Marking pairs *)
(** The same world, but for the mark of this frame on pairs that are simulated. *)
Definition same_else (w w' : world) : Prop :=
  ww_bodies _ w' = ww_bodies _ w /\ ww_coll _ w' = ww_coll _ w /\ ww_tree _ w' = ww_tree _ w /\ ww_map _ w' = ww_map _ w /\ ww_moved _ w' = ww_moved _ w /\
  ww_joints _ w' = ww_joints _ w /\ ww_nocoll _ w' = ww_nocoll _ w /\ ww_lost _ w' = ww_lost _ w /\ sp_coll (ww_pairs _ w') = sp_coll (ww_pairs _ w).
Definition remarked (o o' : option pair) : Prop :=
  match o, o' with Some p, Some p' => p' = p \/ (p_enabled p = true /\ exists m, p' = with_flags (p_prev p) m p) | None, None => True | _, _ => False end.
Lemma same_else_refl (w : world) : same_else w w. Proof. unfold same_else. tauto. Qed.
Lemma same_else_trans (u v w : world) : same_else u v -> same_else v w -> same_else u w. Proof. unfold same_else. intuition congruence. Qed.
Lemma remarked_unflag p p' : remarked (Some p) (Some p') -> unflag p' = unflag p /\ p_enabled p' = p_enabled p /\ p_test p' = p_test p /\ p_c1 p' = p_c1 p /\ p_c2 p' = p_c2 p.
Proof. intros [->|(EN & m & ->)]; [auto|]. unfold unflag. cbn. rewrite EN. destruct p; auto. Qed.
Lemma mark_ok (w : world) E (I0 : WInv box overlap none none E none none w) : forall ps, (forall p, In p ps -> In p (current_pairs box w)) -> exists w', mark box hits ps w = Ok w' /\ same_else w w' /\ forall id, remarked (the_pair box id w) (the_pair box id w').
Proof.
  intros ps H. unfold mark. assert (H' : forall p, In p (filter (fun p => hits (p_c1 p) (p_c2 p)) ps) -> In p (current_pairs box w)) by (intros p Hp; apply filter_In in Hp; apply H; tauto).
  revert H'. generalize (filter (fun p => hits (p_c1 p) (p_c2 p)) ps). intros l H'.
  assert (G : forall u, same_else w u -> (forall id, remarked (the_pair box id w) (the_pair box id u)) -> exists w', each box (fun p => pairs_step box (PSetColliding (p_id p))) l u = Ok w' /\ same_else w w' /\ forall id, remarked (the_pair box id w) (the_pair box id w')).
  { clear H. induction l as [|p l IH]; intros u SE RM; [exists u; auto|]. cbn [each].
    destruct (proj1 (in_current w p) (H' p (or_introl eq_refl))) as (id & P & EN). destruct (wi_pair I0 _ _ P) as (PI & _).
    pose proof (RM id) as RMi. rewrite P in RMi. destruct (the_pair box id u) as [q|] eqn:Q; [|destruct RMi].
    unfold pairs_step at 1. unfold pspec_step. rewrite PI. unfold the_pair in Q. rewrite Q. cbn [bind]. apply IH; [intros r Hr; apply H'; now right|exact SE|].
    intros id'. unfold the_pair at 2. cbn [ww_pairs set_pairs sp_pairs]. rewrite lookup_set. destruct (Z.eqb_spec id' id) as [->|NE].
    - rewrite P. right. split; [exact EN|]. exists true. destruct RMi as [->|(_ & m & ->)]; [reflexivity|]. destruct p; reflexivity.
    - pose proof (RM id') as K. unfold the_pair at 2 in K. exact K. }
  apply G; [apply same_else_refl|]. intros id. destruct (the_pair box id w); cbn; auto.
Qed.
Lemma broad_idem (w : world) : ww_moved _ w = [] -> (forall id p, the_pair box id w = Some p -> p_enabled p = true -> p_test p = false) -> broad_phase box overlap w = Ok w.
Proof.
  intros M T. unfold broad_phase, overlapping_nodes. rewrite M. cbn [bind each]. assert (EW : set_moved box [] w = w) by (destruct w; cbn in *; subst; reflexivity). rewrite EW.
  assert (G : forall l, (forall id, In id l -> exists p, the_pair box id w = Some p) -> each box (retest_pair box overlap) l w = Ok w).
  { induction l as [|id l IH]; intros H; [reflexivity|]. cbn [each]. unfold retest_pair at 1. destruct (H id (or_introl eq_refl)) as (p & P). unfold find. unfold the_pair in P. rewrite P. cbn [rd bind].
    assert (K : p_enabled p && p_test p = false). { destruct (p_enabled p) eqn:EN; [|reflexivity]. rewrite (T id p P EN). reflexivity. } rewrite K. cbn [bind]. apply IH. intros id' Hi. apply H. now right. }
  apply G. intros id Hi. apply in_all_ids in Hi. exact Hi.
Qed.
Lemma broad_done strict single (w w' : world) : history strict single w -> broad_phase box overlap w = Ok w' -> ww_moved _ w' = [] /\ forall id p, the_pair box id w' = Some p -> p_enabled p = true -> p_test p = false.
Proof.
  intros H R. destruct (history_inv box overlap overlap_sym covers inflate _ _ _ H) as (I & _). destruct (broad_phase_ok box overlap overlap_sym _ w I) as (w2 & R2 & _ & _ & _ & M & T). rewrite R in R2. injection R2 as <-. auto.
Qed.
(** The queries with contacts report the same pairs, without those that involve a trigger. *)
Theorem C134_contacts : forall strict single w a b, history strict single w -> exists w1 w2 w3 w1' w2' w3' r l lw m1 m2 m3,
  overlap_bodies a b w = Ok (w1, r) /\ overlap_body a w = Ok (w2, l) /\ overlap_world w = Ok (w3, lw) /\
  collision_bodies a b w = Ok (w1', m1) /\ collision_body a w = Ok (w2', m2) /\ collision_world w = Ok (w3', m3) /\
  (forall c1 c2, In (c1, c2) m1 <-> In (c1, c2) l /\ belong w2 a b c1 c2 /\ trigger c1 = false /\ trigger c2 = false) /\
  (forall c1 c2, In (c1, c2) m2 <-> In (c1, c2) l /\ trigger c1 = false /\ trigger c2 = false) /\
  (forall c1 c2, In (c1, c2) m3 <-> In (c1, c2) lw /\ trigger c1 = false /\ trigger c2 = false).
Proof.
  intros strict single w a b H. destruct (broad_history strict single w H) as (w0 & R & H0 & E & I0).
  unfold test_overlap_bodies, test_overlap_body, test_overlap_world, test_collision_bodies, test_collision_body, test_collision_world. rewrite R. cbn [bind].
  destruct (between_ok w0 E a b I0) as (ps & Q1 & Q2 & Q3 & Q4). rewrite Q1. cbn [bind].
  destruct (with_ok w0 E a I0) as (ps' & S1 & S2 & S3 & S4). rewrite S1. cbn [bind].
  destruct (world_ok w0 E I0) as (wq & ps2 & T1 & T2 & T3 & T4 & T5). rewrite T1. cbn [bind].
  destruct (narrow_phase_ok box overlap overlap_sym E w0 [] I0) as (wq' & R2 & I2 & _). rewrite T2 in R2. injection R2 as <-.
  destruct (mark_ok w0 E I0 ps Q4) as (u1 & U1 & _). destruct (mark_ok w0 E I0 ps' S4) as (u2 & U2 & _). destruct (mark_ok wq E I2 ps2 T5) as (u3 & U3 & _). rewrite U1, U2, U3. cbn [bind].
  do 12 eexists. splits; try reflexivity.
  all: assert (TR : forall ps c1 c2, In (c1, c2) (touching hits trigger ps) <-> In (c1, c2) (overlapping hits ps) /\ trigger c1 = false /\ trigger c2 = false)
    by (intros qs d1 d2; unfold touching; rewrite filter_In; cbn [fst snd]; rewrite Bool.negb_true_iff, Bool.orb_false_iff; tauto); intros c1 c2; rewrite TR.
  - rewrite !in_overlapping, Q2, S2. split; [|tauto]. intros (((TS & BL) & Hh) & TT). split; [|tauto]. split; [|exact Hh]. split; [exact TS|].
    destruct BL as (x1 & x2 & X1 & X2 & [(B1 & B2)|(B1 & B2)]); [left; exists x1; auto|right; exists x2; auto].
  - tauto.
  - tauto.
Qed.

(** ** C135 *)
(** An overlap query just before an update changes nothing: whatever is done afterwards ends in the same world. *)
Theorem C135_overlap_partial : forall strict single w a b w1 r w2 l w3 lw ids ops, history strict single w ->
  overlap_bodies a b w = Ok (w1, r) -> overlap_body a w = Ok (w2, l) -> overlap_world w = Ok (w3, lw) ->
  let update := WBroadPhase _ :: WNarrowPhase _ ids :: ops in
  wrun box overlap covers inflate w1 update = wrun box overlap covers inflate w update /\
  wrun box overlap covers inflate w2 update = wrun box overlap covers inflate w update /\
  wrun box overlap covers inflate w3 update = wrun box overlap covers inflate w update.
Proof.
  intros strict single w a b w1 r w2 l w3 lw ids ops H E1 E2 E3 update. destruct (broad_history strict single w H) as (w0 & R & H0 & E & I0). destruct (broad_done strict single w w0 H R) as (M & T).
  unfold test_overlap_bodies in E1. unfold test_overlap_body in E2. unfold test_overlap_world in E3. rewrite R in E1, E2, E3. cbn [bind] in E1, E2, E3.
  destruct (between_ok w0 E a b I0) as (ps & Q1 & _). rewrite Q1 in E1. cbn [bind] in E1. injection E1 as <- <-.
  destruct (with_ok w0 E a I0) as (ps' & S1 & _). rewrite S1 in E2. cbn [bind] in E2. injection E2 as <- <-.
  destruct (world_ok w0 E I0) as (wq & ps2 & T1 & T2 & _). rewrite T1 in E3. cbn [bind] in E3. injection E3 as <- <-.
  unfold update. cbn [wrun wstep]. rewrite (broad_idem w0 M T), R. cbn [bind]. split; [reflexivity|]. split; [reflexivity|].
  destruct (clear_pairs w0) as (w' & C1 & C2 & C3 & _). rewrite C2 in T2. injection T2 as <-.
  assert (M' : ww_moved _ w' = []). { unfold pairs_step in C1. cbn [pspec_step bind] in C1. injection C1 as <-. exact M. }
  rewrite (broad_idem w' M').
  2:{ intros id p P EN. rewrite C3 in P. destruct (the_pair box id w0) as [q|] eqn:Q; [|discriminate]. cbn in P. injection P as <-. destruct (unflag_core q) as (U1 & _). rewrite U1 in EN. pose proof (T id q Q EN) as K. unfold unflag. rewrite EN. destruct q; exact K. }
  cbn [bind]. unfold narrow_phase. rewrite C1. cbn [bind].
  assert (EQ : pairs_step box PClearCurrent w' = Ok w'). { unfold pairs_step in *. cbn [pspec_step bind] in *. injection C1 as <-. cbn [ww_pairs set_pairs sp_pairs sp_coll].
    match goal with |- Ok (set_pairs box (mk_pspec ?m _) _) = Ok (set_pairs box (mk_pspec ?m' _) _) => assert (EM : m = m') end.
    { rewrite map_map. apply map_ext. intros [k p]. cbn. destruct (p_enabled p) eqn:EN; cbn; rewrite EN; reflexivity. }
    rewrite EM. reflexivity. }
  rewrite EQ. reflexivity.
Qed.
(** After the collision detection of an update, a query of contacts before it has left nothing: same pairs with the same flags, and all else the same. *)
Theorem C135_collision_partial : forall strict single w a b w1 m1 w2 m2 w3 m3 w' ids v, history strict single w ->
  collision_bodies a b w = Ok (w1, m1) -> collision_body a w = Ok (w2, m2) -> collision_world w = Ok (w3, m3) -> w' = w1 \/ w' = w2 \/ w' = w3 ->
  wrun box overlap covers inflate w [WBroadPhase _; WNarrowPhase _ ids] = Ok v ->
  exists v', wrun box overlap covers inflate w' [WBroadPhase _; WNarrowPhase _ ids] = Ok v' /\ same_else v v' /\ forall id, the_pair box id v' = the_pair box id v.
Proof.
  intros strict single w a b w1 m1 w2 m2 w3 m3 w' ids v H E1 E2 E3 EW. destruct (broad_history strict single w H) as (w0 & R & H0 & E & I0). destruct (broad_done strict single w w0 H R) as (M & T).
  assert (K : same_else w0 w' /\ forall id, remarked (the_pair box id w0) (the_pair box id w')).
  { unfold test_collision_bodies in E1. unfold test_collision_body in E2. unfold test_collision_world in E3. rewrite R in E1, E2, E3. cbn [bind] in E1, E2, E3. destruct EW as [->|[-> | ->]].
    - destruct (between_ok w0 E a b I0) as (ps & Q1 & _ & _ & Q4). rewrite Q1 in E1. cbn [bind] in E1. destruct (mark_ok w0 E I0 ps Q4) as (u & U & K). rewrite U in E1. cbn [bind] in E1. injection E1 as <- <-. exact K.
    - destruct (with_ok w0 E a I0) as (ps & Q1 & _ & _ & Q4). rewrite Q1 in E2. cbn [bind] in E2. destruct (mark_ok w0 E I0 ps Q4) as (u & U & K). rewrite U in E2. cbn [bind] in E2. injection E2 as <- <-. exact K.
    - destruct (world_ok w0 E I0) as (wq & ps & Q1 & Q2 & _ & _ & Q4). rewrite Q1 in E3. cbn [bind] in E3.
      destruct (narrow_phase_ok box overlap overlap_sym E w0 [] I0) as (wq' & R2 & I2 & _). rewrite Q2 in R2. injection R2 as <-.
      destruct (mark_ok wq E I2 ps Q4) as (u & U & K1 & K2). rewrite U in E3. cbn [bind] in E3. injection E3 as <- <-.
      destruct (clear_pairs w0) as (wc & C1 & C2 & C3 & _). rewrite C2 in Q2. injection Q2 as <-. split.
      + eapply same_else_trans; [|exact K1]. unfold pairs_step in C1. cbn [pspec_step bind] in C1. injection C1 as <-. unfold same_else. cbn. tauto.
      + intros id. pose proof (K2 id) as L. rewrite C3 in L. destruct (the_pair box id w0) as [p|]; cbn [option_map] in L; [|exact L]. destruct (the_pair box id u) as [q|]; [|exact L]. unfold unflag in L. cbn in L |- *.
        destruct (p_enabled p) eqn:EN; [|destruct L as [->|(L & _)]; [auto|congruence]]. right. split; [reflexivity|]. destruct L as [->|(_ & m & ->)]; [exists false; reflexivity|]. exists m. destruct p; reflexivity. }
  destruct K as (SE & RM). cbn [wrun wstep]. rewrite R. cbn [bind]. intros RV.
  assert (BI : broad_phase box overlap w' = Ok w').
  { apply broad_idem; [destruct SE as (_ & _ & _ & _ & K & _); congruence|]. intros id p P EN. pose proof (RM id) as L. rewrite P in L. destruct (the_pair box id w0) as [q|] eqn:Q; [|destruct L]. destruct (remarked_unflag q p L) as (_ & L1 & L2 & _). rewrite L2. apply (T id q Q). congruence. }
  rewrite BI. cbn [bind]. unfold narrow_phase in RV |- *.
  destruct (clear_pairs w0) as (wc & C1 & _ & C3 & _). destruct (clear_pairs w') as (wc' & D1 & _ & D3 & _). rewrite C1 in RV. rewrite D1. cbn [bind] in RV |- *.
  assert (SE' : same_else wc wc'). { unfold pairs_step in C1, D1. cbn [pspec_step bind] in C1, D1. injection C1 as <-. injection D1 as <-. exact SE. }
  assert (SP : forall id, the_pair box id wc' = the_pair box id wc). { intros id. rewrite C3, D3. pose proof (RM id) as L. destruct (the_pair box id w0) as [p|], (the_pair box id w') as [q|]; [|destruct L|destruct L|reflexivity]. cbn. f_equal. apply (remarked_unflag p q L). }
  clear - SE' SP RV. revert wc wc' SE' SP RV. induction ids as [|id ids IH]; intros wc wc' SE SP RV; cbn [each] in RV |- *; [injection RV as <-; exists wc'; auto|].
  unfold find at 1 in RV. unfold find at 1. pose proof (SP id) as L. unfold the_pair in L. rewrite L. destruct (lookup Z.eqb id (sp_pairs (ww_pairs box wc))) as [p|] eqn:P; [|cbn [bind] in RV |- *; exact (IH wc wc' SE SP RV)].
  destruct (p_enabled p); [|cbn [bind] in RV |- *; exact (IH wc wc' SE SP RV)].
  unfold pairs_step at 1 in RV. unfold pairs_step at 1. unfold pspec_step at 1 in RV. unfold pspec_step at 1. rewrite L. rewrite P in RV. cbn [bind] in RV |- *. eapply IH; [| |exact RV].
  - exact SE.
  - intros id'. unfold the_pair. cbn [ww_pairs set_pairs sp_pairs]. rewrite !lookup_set. destruct (id' =? id); [reflexivity|]. apply SP.
Qed.
End Properties.

(** ** Concrete worlds *)
Definition all_hit : Z -> Z -> bool := fun _ _ => true.
Definition yes : Z -> bool := fun _ => true.
Definition no : Z -> bool := fun _ => false.
(** Two bodies of which one sleeps collide: all queries say so. *)
Example C134_case : exists w w1 w2 w3, run (init_world _) (two_bodies ++ one_update [id01] ++ [WSleep _ 2]) = Ok w /\ ihistory true true w /\
  test_overlap_bodies _ ioverlap all_hit 1 2 w = Ok (w1, true) /\ test_overlap_body _ ioverlap all_hit 1 w = Ok (w2, [(12, 11)]) /\
  test_overlap_world _ ioverlap all_hit yes w = Ok (w3, [(12, 11)]) /\
  colliding _ ioverlap all_hit w1 11 12 /\ part_of _ w1 1 11 /\ part_of _ w1 2 12 /\ awake _ w1 1.
Proof.
  assert (K : exists w, run (init_world _) (two_bodies ++ one_update [id01] ++ [WSleep _ 2]) = Ok w /\ ihistory true true w) by (destruct history_meets as (w & R & H & _); exists w; auto).
  destruct K as (w & R & H). exists w. vm_compute in R. injection R as <-. do 3 eexists. split; [vm_compute; reflexivity|]. split; [exact H|]. split; [vm_compute; reflexivity|]. split; [vm_compute; reflexivity|]. split; [vm_compute; reflexivity|]. split.
  - split; [do 2 eexists; vm_compute; auto|]. split; [do 2 eexists; vm_compute; auto|]. split; [reflexivity|]. do 2 eexists. split; [vm_compute; reflexivity|]. split; [vm_compute; reflexivity|]. split.
    + split; [discriminate|]. split; [discriminate|]. split; [discriminate|]. split; [left; reflexivity|]. intros (j & x & K & _). vm_compute in K. discriminate.
    + do 2 eexists. vm_compute. auto.
  - split; [eexists; vm_compute; auto|]. split; [eexists; vm_compute; auto|]. eexists. split; [vm_compute; reflexivity|]. split; [discriminate|reflexivity].
Qed.
(** The collisions of two sleeping bodies are found by no query, although nothing has moved since they were reported. *)
Theorem C134_asleep_refuted : exists w w1 w2 w3, run (init_world _) (two_bodies ++ one_update [id01] ++ [WSleep _ 1; WSleep _ 2]) = Ok w /\ ihistory true true w /\
  (exists v, run (init_world _) (two_bodies ++ one_update [id01]) = Ok v /\ exists v1, test_overlap_bodies _ ioverlap all_hit 1 2 v = Ok (v1, true)) /\
  test_overlap_bodies _ ioverlap all_hit 1 2 w = Ok (w1, false) /\ test_overlap_body _ ioverlap all_hit 1 w = Ok (w2, []) /\
  test_overlap_world _ ioverlap all_hit yes w = Ok (w3, []) /\ colliding _ ioverlap all_hit w1 11 12 /\ part_of _ w1 1 11 /\ part_of _ w1 2 12.
Proof.
  assert (K : exists w, run (init_world _) (two_bodies ++ one_update [id01] ++ [WSleep _ 1; WSleep _ 2]) = Ok w /\ ihistory true true w).
  { assert (H : ihistory true true (init_world ibox)) by apply h_init. cbn [two_bodies one_update app]. do 10 go H. eexists. split; [reflexivity|exact H]. }
  destruct K as (w & R & H). exists w. vm_compute in R. injection R as <-. do 3 eexists. split; [vm_compute; reflexivity|]. split; [exact H|]. split; [eexists; split; [vm_compute; reflexivity|]; eexists; vm_compute; reflexivity|]. split; [vm_compute; reflexivity|]. split; [vm_compute; reflexivity|]. split; [vm_compute; reflexivity|]. split.
  - split; [do 2 eexists; vm_compute; auto|]. split; [do 2 eexists; vm_compute; auto|]. split; [reflexivity|]. do 2 eexists. split; [vm_compute; reflexivity|]. split; [vm_compute; reflexivity|]. split.
    + split; [discriminate|]. split; [discriminate|]. split; [discriminate|]. split; [left; reflexivity|]. intros (j & x & K & _). vm_compute in K. discriminate.
    + do 2 eexists. vm_compute. auto.
  - split; eexists; vm_compute; auto.
Qed.
(** A collider excluded from world queries is still reported by the queries about a body. *)
Theorem C134_flag_refuted : exists w w1 w2 w3, run (init_world _) two_bodies = Ok w /\
  test_overlap_bodies _ ioverlap all_hit 1 2 w = Ok (w1, true) /\ test_overlap_body _ ioverlap all_hit 1 w = Ok (w2, [(12, 11)]) /\
  test_overlap_world _ ioverlap all_hit (fun c => negb (c =? 12)) w = Ok (w3, []).
Proof. do 4 eexists. split; [vm_compute; reflexivity|]. split; [vm_compute; reflexivity|]. split; vm_compute; reflexivity. Qed.
(** A query followed by a change of the filters is not forgotten: the update simulates a pair that it would not have without the query. *)
Theorem C135_filter_refuted : exists w w1 r v v1 p, run (init_world _) two_bodies = Ok w /\ ihistory true true w /\
  test_overlap_bodies _ ioverlap all_hit 1 2 w = Ok (w1, r) /\
  run w ([WSetMask _ 11 0] ++ one_update [id01]) = Ok v /\ the_pair _ id01 v = None /\
  run w1 ([WSetMask _ 11 0] ++ one_update [id01]) = Ok v1 /\ the_pair _ id01 v1 = Some p /\ p_enabled p = true /\ p_prev p = true.
Proof.
  assert (K : exists w, run (init_world _) two_bodies = Ok w /\ ihistory true true w).
  { assert (H : ihistory true true (init_world ibox)) by apply h_init. cbn [two_bodies]. do 4 go H. eexists. split; [reflexivity|exact H]. }
  destruct K as (w & R & H). exists w. vm_compute in R. injection R as <-. do 5 eexists. split; [vm_compute; reflexivity|]. split; [exact H|]. split; [vm_compute; reflexivity|]. split; [vm_compute; reflexivity|]. split; [vm_compute; reflexivity|]. split; [vm_compute; reflexivity|]. split; [vm_compute; reflexivity|]. split; reflexivity.
Qed.
(** A query of contacts marks the pair; after the collision detection of the update nothing of it is left. *)
Example C135_case : exists w w1 p1 v v1, run (init_world _) two_bodies = Ok w /\ test_collision_bodies _ ioverlap all_hit no 1 2 w = Ok (w1, [(12, 11)]) /\
  the_pair _ id01 w1 = Some p1 /\ p_cur p1 = true /\
  run w [WBroadPhase _; WNarrowPhase _ []] = Ok v /\ run w1 [WBroadPhase _; WNarrowPhase _ []] = Ok v1 /\ the_pair _ id01 v1 = the_pair _ id01 v /\ option_map p_cur (the_pair _ id01 v) = Some false.
Proof. do 5 eexists. split; [vm_compute; reflexivity|]. split; [vm_compute; reflexivity|]. split; [vm_compute; reflexivity|]. split; [reflexivity|]. split; [vm_compute; reflexivity|]. split; [vm_compute; reflexivity|]. split; vm_compute; reflexivity. Qed.

Print Assumptions C134_runs.
Print Assumptions C134_sound.
Print Assumptions C134_complete_partial.
Print Assumptions C134_agree_partial.
Print Assumptions C134_contacts.
Print Assumptions C134_asleep_refuted.
Print Assumptions C134_flag_refuted.
Print Assumptions C135_overlap_partial.
Print Assumptions C135_collision_partial.
Print Assumptions C135_filter_refuted.
