(** Invariant of worlds. *)
From Verif Require Import Base HashSpec BitsModel BitsProofs ComponentsProofs PairsModel PairsSpec PairsProofs WorldModel WorldSpec.
Open Scope Z_scope.

Section Proofs.
Variable box : Type.
Variable overlap : box -> box -> bool.
Hypothesis overlap_sym : forall a b, overlap a b = overlap b a.
Notation world := (world box).
Notation theb b w := (lookup Z.eqb b (ww_bodies _ w)).
Notation thec c w := (lookup Z.eqb c (ww_coll _ w)).
Notation thep id w := (lookup Z.eqb id (sp_pairs (ww_pairs _ w))).
Notation find := (find box).
Notation forbidden := (forbidden box).
Notation bov := (boxes_overlap box overlap).

Definition core (p : pair) := (p_id p, p_b1 p, p_b2 p, p_c1 p, p_c2 p).
Definition okpair (x1 x2 : collider) (w : world) : Prop :=
  c_body x1 <> c_body x2 /\ filter_pass x1 x2 = true /\ c_convex x1 || c_convex x2 = true /\ forbidden (c_body x1) (c_body x2) w = false.

Record WInv (X Y E F XA : Z -> Prop) (w : world) : Prop := mk_winv {
  wi_coll : forall c x, thec c w = Some x -> exists y, theb (c_body x) w = Some y /\ In c (b_colliders y);
  wi_body : forall b y c, theb b w = Some y -> In c (b_colliders y) -> exists x, thec c w = Some x /\ c_body x = b;
  wi_nodup : forall b y, theb b w = Some y -> NoDup (b_colliders y);
  wi_pcoll : forall c, In c (sp_coll (ww_pairs _ w)) <-> exists x, thec c w = Some x;
  wi_node : forall c x, thec c w = Some x -> c_node x <> -1 ->
    0 <= c_node x < 2 ^ 31 /\ lookup Z.eqb (c_node x) (ww_map _ w) = Some c /\ exists bx, lookup Z.eqb (c_node x) (ww_tree _ w) = Some bx;
  wi_map : forall n c, lookup Z.eqb n (ww_map _ w) = Some c -> n <> -1 /\ exists x, thec c w = Some x /\ c_node x = n;
  wi_tree : forall n bx, lookup Z.eqb n (ww_tree _ w) = Some bx -> exists c, lookup Z.eqb n (ww_map _ w) = Some c;
  wi_treeu : forall n bx, In (n, bx) (ww_tree _ w) -> lookup Z.eqb n (ww_tree _ w) = Some bx;
  wi_moved : forall n, In n (ww_moved _ w) -> exists bx, lookup Z.eqb n (ww_tree _ w) = Some bx;
  wi_active : forall c x y, thec c w = Some x -> theb (c_body x) w = Some y -> (b_active y = true <-> c_node x <> -1) \/ XA c;
  wi_pair : forall id p, thep id w = Some p -> p_id p = id /\ id = pair_id (p_b1 p) (p_b2 p) /\ p_b1 p <> -1 /\ p_b2 p <> -1 /\
    exists x1 x2, thec (p_c1 p) w = Some x1 /\ thec (p_c2 p) w = Some x2 /\ c_node x1 = p_b1 p /\ c_node x2 = p_b2 p /\ c_body x1 <> c_body x2 /\
      (forbidden (c_body x1) (c_body x2) w = true -> F id);
  wi_dis : forall id p x1 x2 y1 y2, thep id w = Some p -> p_enabled p = false -> thec (p_c1 p) w = Some x1 -> thec (p_c2 p) w = Some x2 ->
    theb (c_body x1) w = Some y1 -> theb (c_body x2) w = Some y2 -> b_disabled y1 && b_disabled y2 = true \/ Y id;
  wi_test : forall id p, thep id w = Some p -> p_enabled p = true -> p_test p = false -> bov w (p_b1 p) (p_b2 p) \/ X id;
  wi_comp : forall c1 c2 x1 x2, thec c1 w = Some x1 -> thec c2 w = Some x2 -> c_node x1 <> -1 -> c_node x2 <> -1 -> okpair x1 x2 w ->
    bov w (c_node x1) (c_node x2) ->
    (exists p, thep (pair_id (c_node x1) (c_node x2)) w = Some p) \/ In (c_node x1) (ww_moved _ w) \/ In (c_node x2) (ww_moved _ w) \/ E (pair_id (c_node x1) (c_node x2));
  wi_flags : forall b y, theb b w = Some y -> b_type y <> Static -> b_sleeping y = false -> b_disabled y = false;
  wi_joint : forall j x, lookup Z.eqb j (ww_joints _ w) = Some x -> (exists y, theb (j_b1 x) w = Some y) /\ (exists y, theb (j_b2 x) w = Some y) /\ j_b1 x <> j_b2 x;
  wi_lost : forall e, In e (ww_lost _ w) -> (exists x, thec (fst e) w = Some x) /\ exists x, thec (snd e) w = Some x
}.
Arguments wi_coll {X Y E F XA w}. Arguments wi_body {X Y E F XA w}. Arguments wi_nodup {X Y E F XA w}. Arguments wi_pcoll {X Y E F XA w}.
Arguments wi_node {X Y E F XA w}. Arguments wi_map {X Y E F XA w}. Arguments wi_tree {X Y E F XA w}. Arguments wi_treeu {X Y E F XA w}.
Arguments wi_moved {X Y E F XA w}. Arguments wi_active {X Y E F XA w}. Arguments wi_pair {X Y E F XA w}. Arguments wi_dis {X Y E F XA w}.
Arguments wi_test {X Y E F XA w}. Arguments wi_comp {X Y E F XA w}. Arguments wi_flags {X Y E F XA w}. Arguments wi_joint {X Y E F XA w}.
Arguments wi_lost {X Y E F XA w}.
Definition none : Z -> Prop := fun _ => False.

Lemma winv_weaken : forall (X Y E F XA X' Y' E' F' XA' : Z -> Prop) w, WInv X Y E F XA w ->
  (forall id p, thep id w = Some p -> X id -> X' id) -> (forall id p, thep id w = Some p -> Y id -> Y' id) -> (forall id, E id -> E' id) -> (forall id p, thep id w = Some p -> F id -> F' id) -> (forall c, XA c -> XA' c) -> WInv X' Y' E' F' XA' w.
Proof.
  intros X Y E F XA X' Y' E' F' XA' w I HX HY HE HF HA. destruct I. constructor; auto.
  - intros c x y C B. destruct (wi_active0 _ _ _ C B); auto.
  - intros id p P. destruct (wi_pair0 _ _ P) as (A & B & C & D & x1 & x2 & K). splits; auto. exists x1, x2. intuition eauto.
  - intros id p x1 x2 y1 y2 P EN C1 C2 B1 B2. destruct (wi_dis0 _ _ _ _ _ _ P EN C1 C2 B1 B2); eauto.
  - intros id p P A B. destruct (wi_test0 _ _ P A B); eauto.
  - intros c1 c2 x1 x2 A B C D G H. destruct (wi_comp0 _ _ _ _ A B C D G H) as [|[|[|]]]; auto.
Qed.

Lemma each_ok : forall A (P : world -> Prop) (f : A -> world -> res world) l w,
  (forall x w, In x l -> P w -> exists w', f x w = Ok w' /\ P w') -> P w -> exists w', each box f l w = Ok w' /\ P w'.
Proof.
  intros A P f. induction l as [|a l IH]; intros w H I; cbn [each]; [eauto|].
  destruct (H a w (or_introl eq_refl) I) as (w1 & E & I1). rewrite E. cbn [bind]. apply IH; [|exact I1]. intros x w2 X. apply H. right. exact X.
Qed.
Lemma each_ind : forall A (P : list A -> world -> Prop) (f : A -> world -> res world) l w,
  (forall x l' w, incl (x :: l') l -> P (x :: l') w -> exists w', f x w = Ok w' /\ P l' w') -> P l w -> exists w', each box f l w = Ok w' /\ P [] w'.
Proof.
  intros A P f l. assert (G : forall l1 w, incl l1 l -> (forall x l' w, incl (x :: l') l -> P (x :: l') w -> exists w', f x w = Ok w' /\ P l' w') -> P l1 w -> exists w', each box f l1 w = Ok w' /\ P [] w').
  { induction l1 as [|a l1 IH]; intros w S H I; cbn [each]; [eauto|]. destruct (H a l1 w S I) as (w1 & E & I1). rewrite E. cbn [bind]. apply IH; [|exact H|exact I1]. intros x X. apply S. right. exact X. }
  intros w H. apply G; [intros x X; exact X|exact H].
Qed.

Lemma in_pairs_of : forall c id (w : world), In id (pairs_of box c w) <-> exists p, thep id w = Some p /\ involves c p = true.
Proof.
  intros c id w. unfold pairs_of. rewrite filter_In, nodup_In. unfold WorldModel.find. split.
  - intros (_ & H). destruct (thep id w) as [p|]; [eauto|discriminate].
  - intros (p & P & V). split; [|rewrite P; exact V]. revert P. induction (sp_pairs (ww_pairs box w)) as [|[a v] m IH]; [discriminate|]. cbn [lookup map fst].
    destruct (Z.eqb_spec a id); [left; assumption|right; auto].
Qed.
Lemma in_all_ids : forall id (w : world), In id (all_ids box w) <-> exists p, thep id w = Some p.
Proof.
  intros id w. unfold all_ids. rewrite nodup_In. induction (sp_pairs (ww_pairs box w)) as [|[a v] m IH]; cbn [lookup map fst]; [split; [intros []|intros (p & X); discriminate]|].
  destruct (Z.eqb_spec a id) as [->|N]; [split; [eauto|left; reflexivity]|]. rewrite <- IH. cbn. tauto.
Qed.

(** Changes of the pairs only. *)
Lemma pairs_change : forall (X Y E F XA X' Y' E' F' : Z -> Prop) w s', WInv X Y E F XA w -> sp_coll s' = sp_coll (ww_pairs _ w) ->
  (forall id p', lookup Z.eqb id (sp_pairs s') = Some p' -> exists p, thep id w = Some p /\ core p' = core p) ->
  (forall id, E id -> E' id) ->
  (forall id p', lookup Z.eqb id (sp_pairs s') = Some p' -> F id -> F' id) ->
  (forall id p' x1 x2 y1 y2, lookup Z.eqb id (sp_pairs s') = Some p' -> p_enabled p' = false -> thec (p_c1 p') w = Some x1 -> thec (p_c2 p') w = Some x2 ->
    theb (c_body x1) w = Some y1 -> theb (c_body x2) w = Some y2 -> b_disabled y1 && b_disabled y2 = true \/ Y' id) ->
  (forall id p', lookup Z.eqb id (sp_pairs s') = Some p' -> p_enabled p' = true -> p_test p' = false -> bov w (p_b1 p') (p_b2 p') \/ X' id) ->
  (forall id p, thep id w = Some p -> lookup Z.eqb id (sp_pairs s') = None -> E' id \/ ~ bov w (p_b1 p) (p_b2 p) \/ (forall x1 x2, thec (p_c1 p) w = Some x1 -> thec (p_c2 p) w = Some x2 -> forbidden (c_body x1) (c_body x2) w = true)) ->
  WInv X' Y' E' F' XA (set_pairs box s' w).
Proof.
  intros X Y E F XA X' Y' E' F' w s' I SC HP HE HF HD HT HG. destruct I. constructor; cbn [set_pairs ww_bodies ww_coll ww_joints ww_pairs ww_tree ww_map ww_moved ww_nocoll ww_lost]; auto.
  - intros c. rewrite SC. auto.
  - intros id p' P'. destruct (HP _ _ P') as (p & P & CE). unfold core in CE. injection CE as C1 C2 C3 C4 C5. rewrite C1, C2, C3, C4, C5.
    destruct (wi_pair0 _ _ P) as (A & B & C & D & x1 & x2 & K1 & K2 & K3 & K4 & K5 & K6). splits; auto. exists x1, x2. splits; auto. intros W. eauto.
  - intros c1 c2 x1 x2 A B C D G H. destruct (wi_comp0 _ _ _ _ A B C D G H) as [(p & P)|[|[|]]]; auto.
    destruct (lookup Z.eqb (pair_id (c_node x1) (c_node x2)) (sp_pairs s')) as [q|] eqn:Q; [left; eauto|].
    destruct (HG _ _ P Q) as [Z1|Z1]; [auto|]. exfalso. destruct (wi_pair0 _ _ P) as (P1 & P2 & P3 & P4 & z1 & z2 & K1 & K2 & K3 & K4 & K5 & K6).
    destruct (wi_node0 _ _ A C) as (R1 & M1 & _). destruct (wi_node0 _ _ B D) as (R2 & M2 & _).
    assert (R3 : 0 <= p_b1 p < 2 ^ 31 /\ lookup Z.eqb (p_b1 p) (ww_map box w) = Some (p_c1 p)) by (rewrite <- K3; destruct (wi_node0 _ _ K1) as (V1 & V2 & _); [congruence|auto]).
    assert (R4 : 0 <= p_b2 p < 2 ^ 31 /\ lookup Z.eqb (p_b2 p) (ww_map box w) = Some (p_c2 p)) by (rewrite <- K4; destruct (wi_node0 _ _ K2) as (V1 & V2 & _); [congruence|auto]).
    destruct G as (G1 & _ & _ & G4). change (forbidden (c_body x1) (c_body x2) w = false) in G4. change (bov w (c_node x1) (c_node x2)) in H.
    destruct (pair_id_inj (c_node x1) (c_node x2) (p_b1 p) (p_b2 p)) as [(U1 & U2)|(U1 & U2)]; [lia|lia|lia|lia|exact P2| |].
    + rewrite <- U1, <- U2 in *. destruct Z1 as [Z1|Z1]; [contradiction|].
      assert (p_c1 p = c1) by (destruct R3; congruence). assert (p_c2 p = c2) by (destruct R4; congruence). subst c1 c2.
      specialize (Z1 _ _ A B). rewrite G4 in Z1. discriminate.
    + rewrite <- U1, <- U2 in *. destruct Z1 as [Z1|Z1].
      * apply Z1. destruct H as (a & b & L1 & L2 & O). exists b, a. splits; auto. rewrite overlap_sym. exact O.
      * assert (p_c1 p = c2) by (destruct R3; congruence). assert (p_c2 p = c1) by (destruct R4; congruence). subst c1 c2.
        specialize (Z1 _ _ B A). unfold WorldModel.forbidden, body_pair in *. destruct (Z.ltb_spec (c_body x1) (c_body x2)), (Z.ltb_spec (c_body x2) (c_body x1)); try lia; congruence.
Qed.

Lemma core_fields : forall p q, core p = core q -> p_id p = p_id q /\ p_b1 p = p_b1 q /\ p_b2 p = p_b2 q /\ p_c1 p = p_c1 q /\ p_c2 p = p_c2 q.
Proof. intros p q H. unfold core in H. injection H as A B C D G. auto. Qed.
Lemma involves_core : forall c p q, core p = core q -> involves c p = involves c q.
Proof. intros c p q H. apply core_fields in H. unfold involves. destruct H as (_ & _ & _ & A & B). rewrite A, B. reflexivity. Qed.

(** What the steps around sleeping leave alone. *)
Definition same_body (y y' : body) : Prop := b_type y' = b_type y /\ b_active y' = b_active y /\ b_colliders y' = b_colliders y.
Record Frame (w w' : world) : Prop := mk_frame {
  f_coll : ww_coll _ w' = ww_coll _ w;
  f_tree : ww_tree _ w' = ww_tree _ w;
  f_map : ww_map _ w' = ww_map _ w;
  f_nocoll : ww_nocoll _ w' = ww_nocoll _ w;
  f_joints : ww_joints _ w' = ww_joints _ w;
  f_lost : ww_lost _ w' = ww_lost _ w;
  f_body : forall b y, theb b w = Some y -> exists y', theb b w' = Some y' /\ same_body y y';
  f_body' : forall b y', theb b w' = Some y' -> exists y, theb b w = Some y /\ same_body y y';
  f_pair : forall id p, thep id w = Some p -> exists p', thep id w' = Some p' /\ core p' = core p /\ p_prev p' = p_prev p;
  f_pair' : forall id p', thep id w' = Some p' -> exists p, thep id w = Some p /\ core p' = core p /\ p_prev p' = p_prev p
}.
Arguments f_coll {w w'}. Arguments f_tree {w w'}. Arguments f_map {w w'}. Arguments f_nocoll {w w'}. Arguments f_joints {w w'}. Arguments f_lost {w w'}.
Arguments f_body {w w'}. Arguments f_body' {w w'}. Arguments f_pair {w w'}. Arguments f_pair' {w w'}.
Lemma same_body_refl : forall y, same_body y y.
Proof. intros. unfold same_body. auto. Qed.
Lemma frame_refl : forall w, Frame w w.
Proof. intros w. constructor; auto; intros; eexists; (split; [eassumption|]); auto using same_body_refl. Qed.
Lemma frame_trans : forall a b c, Frame a b -> Frame b c -> Frame a c.
Proof.
  intros a b c [] []. constructor; try congruence.
  - intros k y H. destruct (f_body0 _ _ H) as (y1 & A & B). destruct (f_body1 _ _ A) as (y2 & C & D). exists y2. split; [exact C|]. unfold same_body in *. intuition congruence.
  - intros k y H. destruct (f_body'1 _ _ H) as (y1 & A & B). destruct (f_body'0 _ _ A) as (y2 & C & D). exists y2. split; [exact C|]. unfold same_body in *. intuition congruence.
  - intros k y H. destruct (f_pair0 _ _ H) as (y1 & A & B & B'). destruct (f_pair1 _ _ A) as (y2 & C & D & D'). exists y2. split; [exact C|]. split; congruence.
  - intros k y H. destruct (f_pair'1 _ _ H) as (y1 & A & B & B'). destruct (f_pair'0 _ _ A) as (y2 & C & D & D'). exists y2. split; [exact C|]. split; congruence.
Qed.
Lemma frame_pairs_of : forall w w' c id, Frame w w' -> In id (pairs_of box c w) <-> In id (pairs_of box c w').
Proof.
  intros w w' c id F. rewrite !in_pairs_of. split; intros (p & P & V).
  - destruct (f_pair F _ _ P) as (q & Q & C & _). exists q. rewrite (involves_core c q p C). auto.
  - destruct (f_pair' F _ _ P) as (q & Q & C & _). exists q. rewrite <- (involves_core c p q C). auto.
Qed.

(** Rewriting one pair in place. *)
Lemma replace_pair : forall X Y E F XA w id p q, WInv X Y E F XA w -> thep id w = Some p -> core q = core p ->
  (p_enabled q = false -> forall x1 x2 y1 y2, thec (p_c1 p) w = Some x1 -> thec (p_c2 p) w = Some x2 -> theb (c_body x1) w = Some y1 -> theb (c_body x2) w = Some y2 ->
     b_disabled y1 && b_disabled y2 = true \/ Y id) ->
  (p_enabled q = true -> p_test q = false -> bov w (p_b1 p) (p_b2 p) \/ X id) ->
  WInv X Y E F XA (set_pairs box (mk_pspec (m_set Z.eqb id q (sp_pairs (ww_pairs _ w))) (sp_coll (ww_pairs _ w))) w).
Proof.
  intros X Y E F XA w id p q I P C HD HT. destruct (core_fields _ _ C) as (C1 & C2 & C3 & C4 & C5).
  apply (pairs_change X Y E F); auto; cbn [sp_pairs sp_coll].
  - intros id' p'. rewrite lookup_set. destruct (Z.eqb_spec id' id) as [->|N]; intros Q; [injection Q as <-; eauto|eauto].
  - intros id' p' x1 x2 y1 y2. rewrite lookup_set. destruct (Z.eqb_spec id' id) as [->|N]; intros Q EN A1 A2 B1 B2.
    + injection Q as <-. rewrite C4 in A1. rewrite C5 in A2. eauto.
    + exact (wi_dis I _ _ _ _ _ _ Q EN A1 A2 B1 B2).
  - intros id' p'. rewrite lookup_set. destruct (Z.eqb_spec id' id) as [->|N]; intros Q EN T.
    + injection Q as <-. rewrite C2, C3. auto.
    + exact (wi_test I _ _ Q EN T).
  - intros id' p'. rewrite lookup_set. destruct (Z.eqb_spec id' id) as [->|N]; intros Q; [discriminate|congruence].
Qed.
Lemma replace_frame : forall w id p q, thep id w = Some p -> core q = core p -> p_prev q = p_prev p ->
  Frame w (set_pairs box (mk_pspec (m_set Z.eqb id q (sp_pairs (ww_pairs _ w))) (sp_coll (ww_pairs _ w))) w).
Proof.
  intros w id p q P C V. constructor; cbn [set_pairs ww_bodies ww_coll ww_joints ww_pairs ww_tree ww_map ww_moved ww_nocoll ww_lost sp_pairs]; auto.
  - intros b y H. eauto using same_body_refl.
  - intros b y H. eauto using same_body_refl.
  - intros id' p'. rewrite lookup_set. destruct (Z.eqb_spec id' id) as [->|N]; intros Q; [|eauto]. exists q. rewrite P in Q. injection Q as <-. auto.
  - intros id' p'. rewrite lookup_set. destruct (Z.eqb_spec id' id) as [->|N]; intros Q; [|eauto]. injection Q as <-. eauto.
Qed.

(** ** Retest requests *)
Lemma notify_ok : forall X Y E F XA w c, WInv X Y E F XA w -> (forall id p, thep id w = Some p -> involves c p = true -> p_enabled p = true) ->
  exists w', notify box c w = Ok w' /\ WInv X Y E F XA w' /\ Frame w w' /\ ww_bodies _ w' = ww_bodies _ w /\ ww_moved _ w' = ww_moved _ w /\
    (forall id p, thep id w' = Some p -> involves c p = true -> p_test p = true) /\
    (forall id p, thep id w = Some p -> exists p', thep id w' = Some p' /\ p_enabled p' = p_enabled p /\ (p_test p = true -> p_test p' = true)).
Proof.
  intros X Y E F XA w c I H. unfold notify.
  destruct (each_ind Z (fun l w1 => WInv X Y E F XA w1 /\ Frame w w1 /\ ww_bodies _ w1 = ww_bodies _ w /\ ww_moved _ w1 = ww_moved _ w /\
    (forall id p, thep id w1 = Some p -> involves c p = true -> p_test p = true \/ In id l) /\
    (forall id p, thep id w = Some p -> exists p', thep id w1 = Some p' /\ p_enabled p' = p_enabled p /\ (p_test p = true -> p_test p' = true)))
    (fun id => pairs_step box (PNeedTest id true)) (pairs_of box c w) w) as (w' & R & I1 & F1 & B1 & M1 & T1 & K1).
  - intros id l' w1 IN (I1 & F1 & B1 & M1 & T1 & K1). assert (J : In id (pairs_of box c w)) by (apply IN; left; reflexivity). apply in_pairs_of in J. destruct J as (p0 & P0 & V0).
    destruct (K1 _ _ P0) as (p & P & EN & _). rewrite (H _ _ P0 V0) in EN.
    unfold pairs_step, pspec_step. rewrite P, EN. cbn [bind]. eexists. split; [reflexivity|]. splits.
    + apply (replace_pair X Y E F XA w1 id p); auto; cbn; [congruence|discriminate].
    + eapply frame_trans; [exact F1|]. apply (replace_frame w1 id p); auto.
    + exact B1.
    + exact M1.
    + cbn [set_pairs ww_pairs sp_pairs]. intros id' p'. rewrite lookup_set. destruct (Z.eqb_spec id' id) as [->|N]; intros Q V; [injection Q as <-; left; reflexivity|].
      destruct (T1 _ _ Q V) as [|[|]]; auto; congruence.
    + cbn [set_pairs ww_pairs sp_pairs]. intros id' p'. rewrite lookup_set. destruct (Z.eqb_spec id' id) as [->|N]; intros Q; [|apply K1; exact Q].
      exists (with_test true p). splits; auto. cbn. destruct (K1 _ _ Q) as (p2 & P2 & EN2 & _). congruence.
  - splits; auto using frame_refl.
    + intros id p P V. right. apply in_pairs_of. eauto.
    + intros id p P. eauto.
  - exists w'. splits; auto. intros id p P V. destruct (T1 _ _ P V) as [|[]]. assumption.
Qed.

Lemma pair_range : forall X Y E F XA w id p, WInv X Y E F XA w -> thep id w = Some p -> exists x1 x2,
  thec (p_c1 p) w = Some x1 /\ thec (p_c2 p) w = Some x2 /\ c_node x1 = p_b1 p /\ c_node x2 = p_b2 p /\
  0 <= p_b1 p < 2 ^ 31 /\ 0 <= p_b2 p < 2 ^ 31 /\
  lookup Z.eqb (p_b1 p) (ww_map _ w) = Some (p_c1 p) /\ lookup Z.eqb (p_b2 p) (ww_map _ w) = Some (p_c2 p) /\
  (exists bx, lookup Z.eqb (p_b1 p) (ww_tree _ w) = Some bx) /\ (exists bx, lookup Z.eqb (p_b2 p) (ww_tree _ w) = Some bx) /\ c_body x1 <> c_body x2 /\
  exists y1 y2, theb (c_body x1) w = Some y1 /\ theb (c_body x2) w = Some y2.
Proof.
  intros X Y E F XA w id p I P. destruct (wi_pair I _ _ P) as (A & B & C & D & x1 & x2 & K1 & K2 & K3 & K4 & K5 & K6). exists x1, x2.
  destruct (wi_node I _ _ K1) as (V1 & V2 & V3); [congruence|]. destruct (wi_node I _ _ K2) as (W1 & W2 & W3); [congruence|]. rewrite K3 in V1, V2, V3. rewrite K4 in W1, W2, W3.
  destruct (wi_coll I _ _ K1) as (y1 & Y1 & _). destruct (wi_coll I _ _ K2) as (y2 & Y2 & _).
  splits; auto; try lia. exists y1, y2. auto.
Qed.
Lemma pair_nodes : forall X Y E F XA w id p c x, WInv X Y E F XA w -> thep id w = Some p -> thec c w = Some x -> involves c p = true -> c_node x = p_b1 p \/ c_node x = p_b2 p.
Proof.
  intros X Y E F XA w id p c x I P C V. destruct (wi_pair I _ _ P) as (A & B & _ & _ & x1 & x2 & K1 & K2 & K3 & K4 & _).
  unfold involves in V. destruct (Z.eqb_spec (p_c1 p) c) as [<-|]; [left; congruence|]. destruct (Z.eqb_spec (p_c2 p) c) as [<-|]; [right; congruence|discriminate].
Qed.

(** Putting a shape in the set of moved shapes. *)
Lemma moved_add : forall X Y E F XA w n bx, WInv X Y E F XA w -> lookup Z.eqb n (ww_tree _ w) = Some bx ->
  WInv X Y E F XA (set_moved box (n :: filter (fun x => negb (x =? n)) (ww_moved _ w)) w).
Proof.
  intros X Y E F XA w n bx I T.
  assert (IN : forall m, In m (n :: filter (fun x => negb (x =? n)) (ww_moved _ w)) <-> m = n \/ In m (ww_moved _ w)).
  { intros m. cbn [In]. rewrite filter_In. destruct (Z.eqb_spec m n) as [->|]; [|cbn]; intuition congruence. }
  destruct I. constructor; cbn [set_moved ww_bodies ww_coll ww_joints ww_pairs ww_tree ww_map ww_moved ww_nocoll ww_lost]; auto.
  - intros m. rewrite IN. intros [->|H]; eauto.
  - intros c1 c2 x1 x2 A B C D G H. rewrite !IN. destruct (wi_comp0 _ _ _ _ A B C D G H) as [|[|[|]]]; auto.
Qed.

Lemma add_moved_ok : forall X Y E F XA w n c bx, WInv X Y E F XA w -> lookup Z.eqb n (ww_tree _ w) = Some bx ->
  (forall id p, thep id w = Some p -> involves c p = true -> p_enabled p = true) ->
  exists w', add_moved box n c w = Ok w' /\ WInv X Y E F XA w' /\ Frame w w' /\ ww_bodies _ w' = ww_bodies _ w /\
    (forall m, In m (ww_moved _ w') <-> m = n \/ In m (ww_moved _ w)) /\
    (forall id p, thep id w' = Some p -> involves c p = true -> p_test p = true) /\
    (forall id p, thep id w = Some p -> exists p', thep id w' = Some p' /\ p_enabled p' = p_enabled p /\ (p_test p = true -> p_test p' = true)).
Proof.
  intros X Y E F XA w n c bx I T H. unfold add_moved. set (w0 := set_moved box _ w).
  destruct (notify_ok X Y E F XA w0 c) as (w' & R & I1 & F1 & B1 & M1 & T1 & K1); [eapply moved_add; eassumption|exact H|].
  exists w'. splits; auto.
  - destruct F1. constructor; auto.
  - intros m. rewrite M1. unfold w0. cbn [set_moved ww_moved In]. rewrite filter_In. destruct (Z.eqb_spec m n) as [->|]; [|cbn]; intuition congruence.
Qed.
End Proofs.
Arguments wi_coll {box overlap X Y E F XA w}. Arguments wi_body {box overlap X Y E F XA w}. Arguments wi_nodup {box overlap X Y E F XA w}. Arguments wi_pcoll {box overlap X Y E F XA w}. Arguments wi_node {box overlap X Y E F XA w}. Arguments wi_map {box overlap X Y E F XA w}. Arguments wi_tree {box overlap X Y E F XA w}. Arguments wi_treeu {box overlap X Y E F XA w}. Arguments wi_moved {box overlap X Y E F XA w}. Arguments wi_active {box overlap X Y E F XA w}. Arguments wi_pair {box overlap X Y E F XA w}. Arguments wi_dis {box overlap X Y E F XA w}. Arguments wi_test {box overlap X Y E F XA w}. Arguments wi_comp {box overlap X Y E F XA w}. Arguments wi_flags {box overlap X Y E F XA w}. Arguments wi_joint {box overlap X Y E F XA w}. Arguments wi_lost {box overlap X Y E F XA w}.
Arguments f_coll {box w w'}. Arguments f_tree {box w w'}. Arguments f_map {box w w'}. Arguments f_nocoll {box w w'}. Arguments f_joints {box w w'}. Arguments f_lost {box w w'}. Arguments f_body {box w w'}. Arguments f_body' {box w w'}. Arguments f_pair {box w w'}. Arguments f_pair' {box w w'}.
