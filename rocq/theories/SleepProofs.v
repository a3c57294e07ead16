(** Proofs about falling asleep. *)
From Verif Require Import Base IslandModel IslandSpec IslandProofs IslandProperties SleepModel SleepSpec.
Open Scope Z_scope.

Section Proofs.
Variable T : Type.
Variable tadd : T -> T -> T.
Variable tle : T -> T -> bool.
Variables (tzero tlargest : T).
Hypothesis tle_trans : forall a b c, tle a b = true -> tle b c = true -> tle a c = true.
Hypothesis tle_total : forall a b, tle a b = true \/ tle b a = true.
Notation sstate := (sstate T).
Notation uinput := (uinput T).
Notation update := (update T tadd tle tzero tlargest).
Notation scan := (scan_bodies T tadd tle tzero).
Notation tlt := (tlt T tle).
Notation resting := (resting T tle).
Notation fall_asleep := (fall_asleep T tzero).
Notation sleep_island := (sleep_island T tadd tle tzero tlargest).
Notation usb := (update_sleeping_bodies T tadd tle tzero tlargest).

Lemma resting_rests : forall u b, resting u b = rests_b T tle u b.
Proof.
  intros. unfold SleepModel.resting, rests_b, SleepModel.tlt. destruct (tle _ _), (tle _ _), (u_allowed T u b); reflexivity.
Qed.
Lemma rests_b_true : forall u b, rests_b T tle u b = true <-> rests T tle u b.
Proof. intros. unfold rests_b, rests. rewrite !andb_true_iff. tauto. Qed.

Section U.
Variable u : uinput.
Notation static := (g_static (u_graph T u)).
Notation active := (g_active (u_graph T u)).
Definition newt (time : Z -> T) (y : Z) : T := if rests_b T tle u y then tadd (time y) (u_dt T u) else tzero.
Definition fires (time : Z -> T) (i : island) : bool := tle (u_before T u) (snd (scan u (is_bodies i) time tlargest)).

Lemma scan_time : forall l time m y, NoDup l -> fst (scan u l time m) y = if memb y l && negb (static y) then newt time y else time y.
Proof.
  induction l as [|b l IH]; intros time m y N; [reflexivity|]. inversion N; subst. cbn [SleepModel.scan_bodies].
  assert (Nb : memb b l = false) by (apply memb_nin; auto).
  assert (Q : forall t m', t = newt time b -> static b = false -> fst (scan u l (upd time b t) m') y = (if memb y (b :: l) && negb (static y) then newt time y else time y)).
  { intros t m' -> Sb. rewrite IH by auto. simpl memb. destruct (Z.eqb_spec y b) as [->|D].
    - rewrite Nb, Sb. simpl. apply upd_same.
    - simpl. unfold newt. rewrite !upd_other by auto. reflexivity. }
  destruct (static b) eqn:Sb.
  - rewrite IH by auto. simpl memb. destruct (Z.eqb_spec y b) as [->|D]; [|reflexivity]. rewrite Nb, Sb. reflexivity.
  - rewrite resting_rests. destruct (rests_b T tle u b) eqn:R; simpl negb; cbv iota.
    + apply Q; auto. unfold newt. now rewrite R.
    + apply Q; auto. unfold newt. now rewrite R.
Qed.
Lemma scan_ext : forall l time time' m, (forall y, In y l -> static y = false -> time y = time' y) -> snd (scan u l time m) = snd (scan u l time' m).
Proof.
  induction l as [|b l IH]; intros time time' m E; [reflexivity|]. cbn [SleepModel.scan_bodies].
  destruct (static b) eqn:Sb; [apply IH; intros; apply E; simpl; auto|].
  assert (X : forall t y, In y l -> static y = false -> upd time b t y = upd time' b t y).
  { intros t y Hy Sy. unfold upd. destruct (y =? b); auto. apply E; simpl; auto. }
  rewrite (E b) by (simpl; auto).
  destruct (negb _); apply IH; auto.
Qed.
Lemma tle_min : forall t a b, tle t (if tlt a b then a else b) = tle t a && tle t b.
Proof.
  intros. unfold SleepModel.tlt. destruct (tle b a) eqn:E; simpl.
  - destruct (tle t b) eqn:F; [|now rewrite andb_false_r]. now rewrite (tle_trans t b a F E).
  - destruct (tle_total a b) as [G|G]; [|congruence]. destruct (tle t a) eqn:F; [|reflexivity]. now rewrite (tle_trans t a b F G).
Qed.
Definition ripe (time : Z -> T) (y : Z) : bool := static y || (rests_b T tle u y && tle (u_before T u) (newt time y)).
Lemma scan_min : forall l time m, NoDup l -> tle (u_before T u) tzero = false ->
  tle (u_before T u) (snd (scan u l time m)) = tle (u_before T u) m && forallb (ripe time) l.
Proof.
  induction l as [|b l IH]; intros time m N Z; [simpl; now rewrite andb_true_r|]. inversion N; subst. cbn [SleepModel.scan_bodies].
  assert (X : forall t, forallb (ripe (upd time b t)) l = forallb (ripe time) l).
  { intros t. assert (K : forall y, In y l -> ripe (upd time b t) y = ripe time y).
    { intros y Hy. unfold ripe, newt. rewrite upd_other by (intros ->; auto). reflexivity. }
    clear - K. induction l; simpl; auto. rewrite K by (simpl; auto). rewrite IHl; auto. intros; apply K; simpl; auto. }
  cbn [forallb]. unfold ripe at 1. destruct (static b) eqn:Sb; [apply IH; auto|].
  rewrite resting_rests. unfold newt at 1. destruct (rests_b T tle u b) eqn:R; simpl negb; cbv iota.
  - rewrite IH, X, tle_min by auto. simpl. destruct (tle _ (tadd _ _)), (tle _ m); reflexivity.
  - rewrite IH, Z by auto. simpl. now rewrite andb_false_r.
Qed.

(** * Falling asleep *)
Section Arr.
Variable arr : list Z.
Record SC (s : sstate) : Prop := {
  sc_nd : NoDup (ss_en T s ++ ss_dis T s);
  sc_arr : forall x, In x arr <-> In x (ss_en T s) \/ In x (ss_dis T s);
  sc_en : forall x, In x (ss_en T s) <-> In x arr /\ active x = true /\ ~ In x (ss_sleep T s)
}.

Lemma disable_comp_spec : forall x en dis en' dis', NoDup (en ++ dis) -> disable_comp x en dis = (en', dis') -> In x en ->
  NoDup (en' ++ dis') /\ (forall y, In y en' <-> In y en /\ y <> x) /\ (forall y, In y dis' <-> In y dis \/ y = x).
Proof.
  intros x en dis en' dis' N E I. unfold disable_comp in E. rewrite (proj2 (memb_in x en) I) in E. injection E as <- <-.
  assert (en <> []) as Ne by (intros ->; contradiction).
  destruct (exists_last Ne) as (r & z & ->). rewrite removelast_last, last_last.
  assert (Nr : NoDup (z :: r ++ dis)).
  { rewrite <- app_assoc in N. simpl in N. pose proof (NoDup_remove _ _ _ N) as (A & B). constructor; auto. }
  inversion Nr as [|? ? Nz Nr']; subst. rewrite in_app_iff in Nz. 
  assert (Nrr : NoDup (z :: r)). { constructor; [tauto | eapply nodup_app_l; eauto]. }
  assert (Dj : forall y, In y r -> ~ In y dis).
  { clear - Nr'. induction r; simpl; [tauto|]. simpl in Nr'. inversion Nr'; subst. intros y [<-|Hy]; [rewrite in_app_iff in *; tauto | auto]. }
  assert (Ndis : NoDup dis). { clear - Nr'. induction r; simpl in *; auto. inversion Nr'; auto. }
  set (m := map (fun y => if y =? x then z else y) r).
  assert (M : forall y, In y m <-> In y (r ++ [z]) /\ y <> x).
  { intros y. unfold m. rewrite in_map_iff, in_app_iff. simpl. split.
    - intros (w & E & Iw). destruct (Z.eqb_spec w x) as [Ew|D].
      + rewrite Ew in Iw. subst y. split; [auto|]. intros Ez. rewrite Ez in Nz. tauto.
      + subst y. auto.
    - intros ([H|[<-|[]]] & D).
      + exists y. destruct (Z.eqb_spec y x); [contradiction|auto].
      + apply in_app_iff in I. destruct I as [I|[I|[]]]; [|congruence]. exists x. rewrite Z.eqb_refl. auto. }
  assert (Nm : NoDup m).
  { destruct (memb_spec x r) as [(_ & Ix)|(_ & Ix)]; [apply nodup_swap; auto|].
    unfold m. rewrite (map_ext_in _ (fun y => y)), map_id; [inversion Nrr; auto|].
    intros a Ha. destruct (Z.eqb_spec a x); [subst; contradiction | auto]. }
  splits; auto.
  - apply NoDup_Add with (a := x) (l := m ++ dis); [apply Add_app|]. split.
    + assert (Dm : forall y, In y m -> ~ In y dis).
      { intros y Hy. apply M in Hy. destruct Hy as (Hy & _). apply in_app_iff in Hy. destruct Hy as [?|[<-|[]]]; [auto | tauto]. }
      clear - Nm Ndis Dm. induction m as [|a m IH]; simpl; auto. inversion Nm; subst. constructor.
      * rewrite in_app_iff. intros [?|C]; [contradiction | apply (Dm a); simpl; auto].
      * apply IH; auto. intros; apply Dm; simpl; auto.
    + rewrite in_app_iff, M. intros [C|C]; [tauto|]. apply in_app_iff in I. destruct I as [I|[I|[]]]; [apply (Dj x I C) | subst; tauto].
  - intros y. simpl. intuition.
Qed.

Definition tosleep (x : Z) (l : list Z) : Prop := In x l /\ static x = false /\ active x = true.
Lemma fall_asleep_spec : forall x s, let s' := fall_asleep u x s in
  (forall y, In y (ss_sleep T s') <-> In y (ss_sleep T s) \/ tosleep y [x]) /\
  (forall y, ss_time T s' y = if negb (memb y (ss_sleep T s)) && memb y (ss_sleep T s') then tzero else ss_time T s y) /\
  (SC s -> In x arr -> SC s').
Proof.
  intros x s. cbv zeta. unfold SleepModel.fall_asleep.
  assert (Same : ~ (~ In x (ss_sleep T s) /\ static x = false /\ active x = true) ->
    (forall y, In y (ss_sleep T s) <-> In y (ss_sleep T s) \/ tosleep y [x]) /\
    (forall y, ss_time T s y = if negb (memb y (ss_sleep T s)) && memb y (ss_sleep T s) then tzero else ss_time T s y) /\ (SC s -> In x arr -> SC s)).
  { intros D. splits; auto.
    - intros y. split; auto. intros [?|([<-|[]] & A & B)]; auto. destruct (memb_spec x (ss_sleep T s)) as [(_ & C)|(_ & C)]; tauto.
    - intros y. destruct (memb y (ss_sleep T s)); reflexivity. }
  destruct (memb_spec x (ss_sleep T s)) as [(M & Ix)|(M & Ix)]; rewrite M; [apply Same; tauto|].
  destruct (static x) eqn:Sx; [apply Same; intuition congruence|].
  destruct (active x) eqn:Ax; simpl negb; cbv iota; [|apply Same; intuition congruence].
  destruct (disable_comp x (ss_en T s) (ss_dis T s)) as (en' & dis') eqn:E. clear Same. splits; simpl.
  - intros y. unfold tosleep. simpl. split; [intros [<-|?]; auto | intros [?|([<-|[]] & _)]; auto].
  - intros y. unfold upd. destruct (Z.eqb_spec y x) as [->|D].
    + rewrite M. simpl. try rewrite Z.eqb_refl. reflexivity.
    + simpl. destruct (memb y (ss_sleep T s)); reflexivity.
  - intros C Xa. assert (In x (ss_en T s)) as Xe by (apply (sc_en _ C); auto).
    destruct (disable_comp_spec x _ _ en' dis' (sc_nd _ C) E Xe) as (A1 & A2 & A3).
    constructor; simpl; auto.
    + intros y. rewrite A2, A3, (sc_arr _ C). destruct (Z.eq_dec y x) as [->|]; tauto.
    + intros y. rewrite A2, (sc_en _ C). intuition.
Qed.

Lemma fall_all : forall l s, let s' := fold_left (fun s b => fall_asleep u b s) l s in
  (forall y, In y (ss_sleep T s') <-> In y (ss_sleep T s) \/ tosleep y l) /\
  (forall y, ss_time T s' y = if negb (memb y (ss_sleep T s)) && memb y (ss_sleep T s') then tzero else ss_time T s y) /\
  (SC s -> (forall x, In x l -> In x arr) -> SC s').
Proof.
  induction l as [|x l IH]; intros s; cbv zeta; simpl fold_left.
  - splits; auto.
    + unfold tosleep. simpl. tauto.
    + intros y. destruct (memb y (ss_sleep T s)); reflexivity.
  - destruct (fall_asleep_spec x s) as (A1 & A2 & A3). destruct (IH (fall_asleep u x s)) as (B1 & B2 & B3). splits.
    + intros y. rewrite B1, A1. unfold tosleep. simpl. tauto.
    + intros y. rewrite B2, A2.
      destruct (memb_spec y (ss_sleep T s)) as [(M1 & I1)|(M1 & I1)];
      destruct (memb_spec y (ss_sleep T (fall_asleep u x s))) as [(M2 & I2)|(M2 & I2)];
      destruct (memb_spec y (ss_sleep T (fold_left (fun s b => fall_asleep u b s) l (fall_asleep u x s)))) as [(M3 & I3)|(M3 & I3)];
      rewrite M1, M2, M3; simpl; auto; exfalso; first [apply I3, B1; now auto | apply I2, A1; now auto].
    + intros C L. apply B3; [apply A3; simpl in L; auto | intros; apply L; simpl; auto].
Qed.
Lemma sleep_island_spec : forall i s, NoDup (is_bodies i) -> let s' := sleep_island u i s in
  (forall y, In y (ss_sleep T s') <-> In y (ss_sleep T s) \/ (fires (ss_time T s) i = true /\ tosleep y (is_bodies i))) /\
  (forall y, ss_time T s' y = if negb (memb y (ss_sleep T s)) && memb y (ss_sleep T s') then tzero
             else if memb y (is_bodies i) && negb (static y) then newt (ss_time T s) y else ss_time T s y) /\
  (SC s -> (forall x, In x (is_bodies i) -> In x arr) -> SC s').
Proof.
  intros i s N. cbv zeta. unfold SleepModel.sleep_island, fires.
  pose proof (fun y => scan_time (is_bodies i) (ss_time T s) tlargest y N) as ST.
  destruct (scan u (is_bodies i) (ss_time T s) tlargest) as (time & m). simpl fst in ST. simpl snd.
  set (s1 := mk_sstate T (ss_en T s) (ss_dis T s) (ss_sleep T s) time).
  assert (C1 : SC s -> SC s1) by (intros C; destruct C; constructor; auto).
  destruct (tle (u_before T u) m).
  - destruct (fall_all (is_bodies i) s1) as (A1 & A2 & A3). splits; auto.
    + intros y. rewrite A1. simpl. tauto.
    + intros y. rewrite A2. simpl ss_sleep. simpl ss_time. rewrite ST. reflexivity.
  - splits; auto.
    + intros y. simpl. intuition discriminate.
    + intros y. simpl. rewrite ST. destruct (memb y (ss_sleep T s)); reflexivity.
Qed.

Lemma fires_ext : forall i t t', (forall y, In y (is_bodies i) -> static y = false -> t y = t' y) -> fires t i = fires t' i.
Proof. intros i t t' E. unfold fires. f_equal. apply scan_ext; auto. Qed.

Notation apart := (apart (u_graph T u)).
Lemma usb_spec : forall l s, ForallOrdPairs apart l -> Forall (fun i => NoDup (is_bodies i)) l ->
  let s' := usb u l s in
  (forall y, In y (ss_sleep T s') <-> In y (ss_sleep T s) \/ exists i, In i l /\ fires (ss_time T s) i = true /\ tosleep y (is_bodies i)) /\
  ((forall i y, In i l -> tosleep y (is_bodies i) -> ~ In y (ss_sleep T s)) ->
   forall y, ss_time T s' y = if negb (memb y (ss_sleep T s)) && memb y (ss_sleep T s') then tzero
             else if existsb (fun i => memb y (is_bodies i)) l && negb (static y) then newt (ss_time T s) y else ss_time T s y) /\
  (SC s -> (forall i x, In i l -> In x (is_bodies i) -> In x arr) -> SC s').
Proof.
  induction l as [|i l IH]; intros s P N; cbv zeta; simpl SleepModel.update_sleeping_bodies.
  - unfold SleepModel.update_sleeping_bodies. simpl. splits; auto.
    + intros y. split; auto. intros [?|(i & [] & _)]; auto.
    + intros _ y. destruct (memb y (ss_sleep T s)); reflexivity.
  - change (usb u (i :: l) s) with (usb u l (sleep_island u i s)).
    inversion P; subst. inversion N; subst.
    destruct (sleep_island_spec i s H3) as (A1 & A2 & A3).
    destruct (IH (sleep_island u i s) H2 H4) as (B1 & B2 & B3). clear IH.
    rewrite Forall_forall in H1.
    assert (Dis : forall j y, In j l -> In y (is_bodies j) -> static y = false -> ~ In y (is_bodies i)).
    { intros j y Hj Y Sy X. specialize (H1 j Hj y X Y). congruence. }
    assert (TE : forall j y, In j l -> In y (is_bodies j) -> static y = false -> ss_time T (sleep_island u i s) y = ss_time T s y).
    { intros j y Hj Y Sy. rewrite A2. rewrite (proj2 (memb_nin y (is_bodies i)) (Dis j y Hj Y Sy)). simpl.
      assert (memb y (ss_sleep T s) = memb y (ss_sleep T (sleep_island u i s))) as ->.
      { pose proof (A1 y) as Q. assert (~ tosleep y (is_bodies i)) by (intros (Q1 & _); eapply Dis; eauto).
        destruct (memb_spec y (ss_sleep T s)) as [(-> & C)|(-> & C)]; symmetry; [apply memb_in | apply memb_nin]; tauto. }
      destruct (memb y _); reflexivity. }
    assert (FE : forall j, In j l -> fires (ss_time T (sleep_island u i s)) j = fires (ss_time T s) j).
    { intros j Hj. apply fires_ext. intros; eapply TE; eauto. }
    splits.
    + intros y. rewrite B1, A1. split.
      * intros [[?|(F & Q)]|(j & Hj & F & Q)]; auto; right; [exists i | exists j]; simpl; auto. rewrite <- FE by auto. auto.
      * intros [?|(j & [<-|Hj] & F & Q)]; auto. right. exists j. rewrite FE by auto. auto.
    + intros NS y.
      assert (NS' : forall j y, In j l -> tosleep y (is_bodies j) -> ~ In y (ss_sleep T (sleep_island u i s))).
      { intros j z Hj Q C. apply A1 in C. destruct C as [C|(_ & C)]; [eapply (NS j z); simpl; eauto|].
        destruct Q as (Q1 & Q2 & _), C as (C1 & _). eapply Dis; eauto. }
      rewrite (B2 NS' y). clear B2. cbn [existsb].
      destruct (existsb (fun i => memb y (is_bodies i)) l && negb (static y)) eqn:EX.
      * apply andb_true_iff in EX. destruct EX as (EX & Sy). apply existsb_exists in EX. destruct EX as (j & Hj & Yj). apply memb_in in Yj.
        rewrite negb_true_iff in Sy. rewrite (proj2 (memb_nin y (is_bodies i)) (Dis j y Hj Yj Sy)). simpl orb.
        assert (existsb (fun i => memb y (is_bodies i)) l = true) as -> by (apply existsb_exists; exists j; split; auto; now apply memb_in).
        rewrite Sy. simpl andb. unfold newt. rewrite (TE j y Hj Yj Sy).
        assert (memb y (ss_sleep T s) = memb y (ss_sleep T (sleep_island u i s))) as ->; [|reflexivity].
        pose proof (A1 y) as Q. assert (~ tosleep y (is_bodies i)) by (intros (Q1 & _); eapply Dis; eauto).
        destruct (memb_spec y (ss_sleep T s)) as [(-> & C)|(-> & C)]; symmetry; [apply memb_in | apply memb_nin]; tauto.
      * rewrite A2.
        assert (EX' : (memb y (is_bodies i) || existsb (fun i => memb y (is_bodies i)) l) && negb (static y) = memb y (is_bodies i) && negb (static y)).
        { destruct (negb (static y)); rewrite ?andb_true_r, ?andb_false_r in *; auto. rewrite EX. apply orb_false_r. }
        rewrite EX'.
        destruct (memb_spec y (ss_sleep T s)) as [(M1 & I1)|(M1 & I1)];
        destruct (memb_spec y (ss_sleep T (sleep_island u i s))) as [(M2 & I2)|(M2 & I2)];
        destruct (memb_spec y (ss_sleep T (usb u l (sleep_island u i s)))) as [(M3 & I3)|(M3 & I3)];
        rewrite M1, M2, M3; simpl; auto; exfalso; first [apply I3, B1; now auto | apply I2, A1; now auto].
    + intros C L. apply B3; [apply A3; auto; intros; eapply L; simpl; eauto | intros; eapply L; simpl; eauto].
Qed.
End Arr.
End U.
End Proofs.
