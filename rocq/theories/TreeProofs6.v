(** Ray casts through the dynamic tree. *)
From Verif Require Import Base Decimal HashSpec TreeModel TreeSpec RayModel RaySpec TreeProofs TreeProofs3 TreeProofs4 TreeProofs5.
Open Scope Z_scope.

Section Proofs.
Context {T : Type} (o : decimal_ops T) (L : decimal_laws o).
Notation shape := (shape T).
Notation node := (node T).
Notation box := (box T).
Notation dtree := (dtree T).
Implicit Types (t : dtree) (ss : list shape).

Lemma leaf_within : forall (s : shape), tight o s -> forall i b d, In (i, (b, d)) (leaves s) -> within o b (root_box s).
Proof.
  induction s as [j b d|j b l IHl r IHr]; intros TT i b' d' H; cbn [leaves tight root_box] in *.
  - destruct H as [H|[]]. inversion H; subst. apply (within_refl o L).
  - destruct TT as ((J1 & J2 & _) & T1 & T2). apply in_app_iff in H. destruct H as [H|H]; [eapply (within_trans o L); [apply (IHl T1 _ _ _ H)|exact J1]|eapply (within_trans o L); [apply (IHr T2 _ _ _ H)|exact J2]].
Qed.

Definition lleaves ss : list (Z * (box * option Z)) := concat (map (fun s : shape => leaves s) ss).
Definition lcnt (x : Z) ss : nat := fold_right (fun s n => (cnt x s + n)%nat) 0%nat ss.
Lemma lleaves_cnt : forall ss i v, In (i, v) (lleaves ss) -> (1 <= lcnt i ss)%nat.
Proof.
  induction ss as [|s ss IH]; intros i v H; [destruct H|]. unfold lleaves in H. cbn [map concat] in H. apply in_app_iff in H. cbn [lcnt fold_right].
  destruct H as [H|H]; [pose proof (leaf_cnt _ _ _ H)|pose proof (IH _ _ H); unfold lcnt in *]; lia.
Qed.

Context {St : Type}.
Variable hit : box -> T -> bool.
Variable callback : St -> Z -> T -> St * T.
Variable good : box -> Prop.
Hypothesis HM : forall b a m, good b -> within o b a -> hit b m = true -> hit a m = true.
Hypothesis HF : forall b m m', good b -> hit b m = true -> d_le o m m' = true -> hit b m' = true.

Lemma shorten_le : forall m f, d_le o (shorten o m f) m = true.
Proof.
  intros. unfold shorten. destruct (d_lt o (d_zero o) f && d_lt o f m) eqn:E; [|apply (le_refl o L)].
  apply andb_true_iff in E. apply (le_of_lt o L). apply E.
Qed.

Lemma raycast_loop_ok : forall t fuel ss m s log,
  (forall s', In s' ss -> (exists p, stored (t_nodes t) p s') /\ tight o s' /\ forall x, (1 <= cnt x s')%nat -> 0 <= x < t_alloc t) ->
  (forall x, (lcnt x ss <= 1)%nat) ->
  ssize ss <= Z.of_nat fuel ->
  exists s' tr m', raycast_loop o hit (recording callback) fuel (map (fun s0 => root_id s0) ss) m (s, log) t = Ok ((s', log ++ tr), m') /\
    dialogue o callback s m tr s' m' /\ NoDup (offered tr) /\ d_le o m' m = true /\
    (forall id m1 f, In (id, m1, f) tr -> exists b d, In (id, (b, d)) (lleaves ss) /\ hit b m1 = true) /\
    ((forall id m1 f, In (id, m1, f) tr -> d_eq0 o f = false) ->
      forall id b d, In (id, (b, d)) (lleaves ss) -> good b -> hit b m' = true -> In id (offered tr)).
Proof.
  intros t. induction fuel as [|fuel IH]; intros ss m s log H C F.
  - destruct ss as [|s0 ss].
    + exists s, [], m. cbn. rewrite app_nil_r. splits; auto; [constructor|apply (le_refl o L)|intros ? ? ? []].
    + cbn [ssize fold_right] in F. pose proof (size_pos s0). fold (ssize ss) in F.
      assert (0 <= ssize ss) by (clear; induction ss as [|a ss IH]; cbn [ssize fold_right]; [lia|]; pose proof (size_pos a); fold (ssize ss); lia). lia.
  - destruct ss as [|s0 ss].
    + exists s, [], m. cbn. rewrite app_nil_r. splits; auto; [constructor|apply (le_refl o L)|intros ? ? ? []].
    + cbn [ssize fold_right] in F. fold (ssize ss) in F. pose proof (size_pos s0) as SP. cbn [map raycast_loop].
      destruct (H s0 (or_introl eq_refl)) as ((p & S) & TI & RG). destruct (stored_root _ _ _ S) as (n & A & _ & HN & BN).
      pose proof (RG _ (cnt_root s0)) as RR. assert (NN : (root_id s0 =? NULL) = false) by (apply Z.eqb_neq; unfold NULL; lia).
      rewrite NN, (get_ok _ _ _ RR A). cbn [bind]. rewrite BN.
      assert (HS : forall s', In s' ss -> (exists p, stored (t_nodes t) p s') /\ tight o s' /\ forall x, (1 <= cnt x s')%nat -> 0 <= x < t_alloc t) by (intros s' Hs; apply H; right; exact Hs).
      assert (CS : forall x, (lcnt x ss <= 1)%nat) by (intros x; specialize (C x); cbn [lcnt fold_right] in C; unfold lcnt; lia).
      destruct (hit (root_box s0) m) eqn:HIT; cbn [negb].
      2:{ (* the subtree is skipped *)
        destruct (IH ss m s log HS CS ltac:(lia)) as (s' & tr & m' & R & D & ND & LE & P & Q). exists s', tr, m'. split; [exact R|]. splits; auto.
        - intros id m1 f I. destruct (P _ _ _ I) as (b & d & I2 & HB). exists b, d. split; [|exact HB]. unfold lleaves. cbn [map concat]. apply in_app_iff. right. exact I2.
        - intros NZ id b d I GB HB. unfold lleaves in I. cbn [map concat] in I. apply in_app_iff in I. destruct I as [I|I].
          + exfalso. pose proof (leaf_within s0 TI _ _ _ I) as W. pose proof (HF _ _ _ GB HB LE) as H1. pose proof (HM _ _ _ GB W H1) as H2. congruence.
          + eapply Q; eauto. }
      destruct s0 as [i b d|i b l r]; cbn [root_id root_box] in *.
      * (* a leaf *)
        unfold is_leaf. rewrite HN. cbn [height Z.eqb]. unfold recording at 1. cbn [fst snd].
        destruct (callback s i m) as [s1 f] eqn:CB. destruct (d_eq0 o f) eqn:Z0.
        -- exists s1, [(i, m, f)], m. split; [reflexivity|]. splits.
           ++ cbn [dialogue]. split; [reflexivity|]. exists s1. rewrite Z0. auto.
           ++ cbn. repeat constructor; intros [].
           ++ apply (le_refl o L).
           ++ intros id m1 f1 [E|[]]. inversion E; subst id m1 f1. exists b, d. split; [left; reflexivity|exact HIT].
           ++ intros NZ. specialize (NZ i m f (or_introl eq_refl)). congruence.
        -- match goal with |- context [raycast_loop _ _ _ _ _ ?mm _ _] => change mm with (if d_lt o (d_zero o) f then if d_lt o f m then f else m else m) end.
           replace (if d_lt o (d_zero o) f then if d_lt o f m then f else m else m) with (shorten o m f) by (unfold shorten; destruct (d_lt o (d_zero o) f); reflexivity).
           destruct (IH ss (shorten o m f) s1 (log ++ [(i, m, f)]) HS CS ltac:(cbn [size] in F; lia)) as (s' & tr & m' & R & D & ND & LE & P & Q).
           exists s', ((i, m, f) :: tr), m'. split; [rewrite R, <- app_assoc; reflexivity|]. splits.
           ++ cbn [dialogue]. split; [reflexivity|]. exists s1. rewrite Z0. auto.
           ++ cbn. constructor; [|exact ND]. intros I. unfold offered in I. apply in_map_iff in I. destruct I as (((id & m1) & f1) & E & I). cbn in E. subst id.
              destruct (P _ _ _ I) as (b' & d' & I2 & _). pose proof (lleaves_cnt _ _ _ I2) as X. specialize (C i). cbn [lcnt fold_right] in C. rewrite cnt_leaf, one_same in C. unfold lcnt in X. lia.
           ++ eapply (le_trans o L); [exact LE|apply shorten_le].
           ++ intros id m1 f1 [E|I]; [inversion E; subst id m1 f1; exists b, d; split; [left; reflexivity|exact HIT]|].
              destruct (P _ _ _ I) as (b' & d' & I2 & HB). exists b', d'. split; [|exact HB]. unfold lleaves. cbn [map concat]. apply in_app_iff. right. exact I2.
           ++ intros NZ id b' d' I GB HB. unfold lleaves in I. cbn [map concat leaves app] in I. destruct I as [I|I]; [inversion I; subst; left; reflexivity|].
              right. eapply Q; eauto. intros id2 m2 f2 I2. apply (NZ id2 m2 f2). right. exact I2.
      * (* an inner node *)
        assert (IL : is_leaf n = false).
        { unfold is_leaf. rewrite HN. cbn [height]. pose proof (height_bound l). pose proof (height_bound r). apply Z.eqb_neq. lia. }
        rewrite IL. cbn [stored] in S. destruct S as (n' & A' & _ & _ & _ & C0 & C1 & SL & SR). rewrite A' in A. inversion A; subst n'.
        rewrite C0, C1. cbn [rd bind]. destruct TI as (_ & TL & TR).
        assert (LV : forall y, In y (lleaves (r :: l :: ss)) <-> In y (lleaves (Node i b l r :: ss))).
        { intros y. unfold lleaves. cbn [map concat leaves]. rewrite !in_app_iff. tauto. }
        destruct (IH (r :: l :: ss) m s log) as (s' & tr & m' & R & D & ND & LE & P & Q).
        -- intros s' [<-|[<-|Hs]]; [splits; eauto|splits; eauto|auto]; intros x Hx; apply RG; rewrite cnt_node; lia.
        -- intros x. specialize (C x). cbn [lcnt fold_right] in *. rewrite cnt_node in C. lia.
        -- cbn [ssize fold_right]. fold (ssize ss). cbn [size] in F. lia.
        -- exists s', tr, m'. split; [exact R|]. splits; auto.
           ++ intros id m1 f I. destruct (P _ _ _ I) as (b' & d' & I2 & HB). exists b', d'. split; [apply LV; exact I2|exact HB].
           ++ intros NZ id b' d' I GB HB. apply (Q NZ id b' d'); [apply LV; exact I|exact GB|exact HB].
Qed.
End Proofs.

Section Closest.
Context {T : Type} (o : decimal_ops T) (L : decimal_laws o).
(** A dialogue with the closest-hit callback. *)
Lemma lt_spec : forall a b, d_lt o a b = true <-> d_le o b a = false.
Proof. intros. rewrite (lt_le o L). apply negb_true_iff. Qed.

Variables (h : Z -> option T) (tie : Z -> bool) (ign : T) (m0 : T).
Hypothesis IGN : d_lt o ign (d_zero o) = true.
Hypothesis POS : forall id f, h id = Some f -> d_le o (d_zero o) f = true.
Definition val (s : option (Z * T)) : T := match s with None => m0 | Some (_, f) => f end.

Lemma ign_shorten : forall m, shorten o m ign = m.
Proof. intros. unfold shorten. assert (E : d_lt o (d_zero o) ign = false); [|rewrite E; reflexivity]. rewrite (lt_le o L). apply negb_false_iff. apply (le_of_lt o L). exact IGN. Qed.
Lemma ign_eq0 : d_eq0 o ign = false.
Proof. unfold d_eq0. apply lt_spec in IGN. rewrite IGN. apply andb_false_r. Qed.

(** Equal up to the order. *)
Definition same (a b : T) : Prop := d_le o a b = true /\ d_le o b a = true.

Lemma closest_dialogue : forall tr s m s' m', dialogue o (closest o h tie ign) s m tr s' m' -> same m (val s) ->
  d_le o (val s') (val s) = true /\
  (s' = s \/ exists id f, s' = Some (id, f) /\ h id = Some f /\ In id (offered tr) /\ d_le o f (val s) = true) /\
  (forall id f, In id (offered tr) -> h id = Some f -> d_le o (val s') f = true) /\
  (same m' (val s') \/ exists f, d_eq0 o f = true /\ val s' = f).
Proof.
  induction tr as [|[[id m1] f] tr IH]; intros s m s' m' D SM; cbn [dialogue] in D.
  - destruct D as (-> & ->). splits; auto. apply (le_refl o L).
  - destruct D as (-> & s1 & CB & D). unfold closest in CB. destruct (h id) as [fh|] eqn:HH.
    + destruct (d_lt o fh m || (tie id && d_le o fh m)) eqn:ACC.
      * inversion CB; subst s1 f. assert (FM : d_le o fh m = true).
        { apply orb_true_iff in ACC. destruct ACC as [ACC|ACC]; [apply (le_of_lt o L); exact ACC|]. apply andb_true_iff in ACC. apply ACC. }
        assert (FV : d_le o fh (val s) = true) by (eapply (le_trans o L); [exact FM|apply SM]).
        destruct (d_eq0 o fh) eqn:Z0.
        -- destruct D as (-> & -> & ->). cbn [val]. splits; auto.
           ++ right. exists id, fh. cbn. auto.
           ++ intros id2 f2 [<-|[]] H2. cbn in H2. rewrite HH in H2. inversion H2; subst. apply (le_refl o L).
           ++ right. eauto.
        -- assert (SM1 : same (shorten o m fh) (val (Some (id, fh)))).
           { cbn [val]. unfold shorten. destruct (d_lt o (d_zero o) fh) eqn:PF.
             - destruct (d_lt o fh m) eqn:FL; cbn [andb]; [split; apply (le_refl o L)|]. split; [|exact FM]. apply (le_of_not_lt o L). exact FL.
             - exfalso. apply (le_of_not_lt o L) in PF. unfold d_eq0 in Z0. rewrite PF, (POS _ _ HH) in Z0. discriminate. }
           destruct (IH _ _ _ _ D SM1) as (A & B & C & E). cbn [val] in *. splits; auto.
           ++ eapply (le_trans o L); eauto.
           ++ destruct B as [B|(id2 & f2 & B1 & B2 & B3 & B4)].
              ** right. exists id, fh. cbn. auto.
              ** right. exists id2, f2. splits; auto; [right; exact B3|]. eapply (le_trans o L); eauto.
           ++ intros id2 f2 [<-|I] H2; [|eauto]. cbn in H2. rewrite HH in H2. inversion H2; subst. exact A.
      * inversion CB; subst s1 f. rewrite ign_eq0, ign_shorten in D. destruct (IH _ _ _ _ D SM) as (A & B & C & E). splits; auto.
        -- destruct B as [B|(id2 & f2 & B1 & B2 & B3 & B4)]; [left; exact B|]. right. exists id2, f2. splits; auto. right. exact B3.
        -- intros id2 f2 [<-|I] H2; [|eauto]. cbn in H2. rewrite HH in H2. inversion H2; subst. apply orb_false_iff in ACC. destruct ACC as (ACC & _).
           apply (le_of_not_lt o L) in ACC. eapply (le_trans o L); [exact A|]. eapply (le_trans o L); [apply SM|exact ACC].
    + inversion CB; subst s1 f. rewrite ign_eq0, ign_shorten in D. destruct (IH _ _ _ _ D SM) as (A & B & C & E). splits; auto.
      * destruct B as [B|(id2 & f2 & B1 & B2 & B3 & B4)]; [left; exact B|]. right. exists id2, f2. splits; auto. right. exact B3.
      * intros id2 f2 [<-|I] H2; [|eauto]. cbn in H2. congruence.
Qed.
End Closest.
