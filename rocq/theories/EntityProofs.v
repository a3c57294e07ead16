(** Invariants of the entity manager. *)
From Coq Require Import Permutation.
From Verif Require Import Base EntityModel EntitySpec HashProofs ArrayProofs.
Open Scope Z_scope.

Lemma pack_sum : forall i g, 0 <= i < 2 ^ 24 -> 0 <= g < 256 -> entity_id i g = i + g * 2 ^ 24.
Proof.
  intros i g Hi Hg. unfold entity_id.
  replace INDEX_MASK with (Z.ones 24) by reflexivity. replace GENERATION_MASK with (Z.ones 8) by reflexivity.
  rewrite !Z.land_ones by lia. rewrite !Z.mod_small by (change (2 ^ 8) with 256; lia).
  change INDEX_BITS with 24.
  assert (L : Z.land i (Z.shiftl g 24) = 0).
  { apply Z.bits_inj'. intros n Hn. rewrite Z.land_spec, Z.bits_0.
    destruct (Z.ltb_spec n 24) as [C|C].
    - rewrite Z.shiftl_spec_low by exact C. apply andb_false_r.
    - rewrite <- (Z.mod_small i (2 ^ 24)) by exact Hi. rewrite Z.mod_pow2_bits_high by lia. reflexivity. }
  rewrite <- (Z.shiftl_mul_pow2 g 24) by lia. rewrite Z.add_nocarry_lxor by exact L. symmetry. apply Z.lxor_lor. exact L.
Qed.

Lemma pack_index : forall i g, 0 <= i < 2 ^ 24 -> 0 <= g < 256 -> get_index (entity_id i g) = i.
Proof.
  intros i g Hi Hg. rewrite pack_sum by assumption. unfold get_index.
  replace INDEX_MASK with (Z.ones 24) by reflexivity. rewrite Z.land_ones by lia.
  rewrite Z.mod_add by (compute; discriminate). apply Z.mod_small. exact Hi.
Qed.
Lemma pack_generation : forall i g, 0 <= i < 2 ^ 24 -> 0 <= g < 256 -> get_generation (entity_id i g) = g.
Proof.
  intros i g Hi Hg. rewrite pack_sum by assumption. unfold get_generation.
  replace GENERATION_MASK with (Z.ones 8) by reflexivity. change INDEX_BITS with 24. rewrite Z.land_ones by lia.
  rewrite Z.shiftr_div_pow2 by lia. rewrite Z.div_add by (compute; discriminate).
  rewrite Z.div_small by exact Hi. apply Z.mod_small. change (2 ^ 8) with 256. lia.
Qed.

Lemma znth_set : forall l i v j, 0 <= i < zlen l -> znth (set_nth l i v) j = if j =? i then Some v else znth l j.
Proof.
  intros l i v j Hi. unfold set_nth.
  assert (L : zlen (firstn (Z.to_nat i) l) = i).
  { unfold zlen in *. rewrite firstn_length. lia. }
  destruct (Z.eqb_spec j i) as [->|N].
  - rewrite znth_app2 by lia. rewrite L, Z.sub_diag. reflexivity.
  - destruct (Z.ltb_spec j i) as [C|C].
    + destruct (Z.ltb_spec j 0); [unfold znth; destruct (Z.ltb_spec j 0); [reflexivity|lia]|].
      rewrite znth_app1 by lia. unfold znth. destruct (Z.ltb_spec j 0); [lia|].
      rewrite <- (firstn_skipn (Z.to_nat i) l) at 2. rewrite nth_error_app1; [reflexivity|].
      unfold zlen in *. rewrite firstn_length. lia.
    + rewrite znth_app2 by lia. rewrite L. rewrite znth_consS by lia.
      unfold znth. destruct (Z.ltb_spec (j - i - 1) 0); [lia|]. destruct (Z.ltb_spec j 0); [lia|].
      rewrite <- (firstn_skipn (S (Z.to_nat i)) l) at 2.
      assert (L2 : length (firstn (S (Z.to_nat i)) l) = S (Z.to_nat i)) by (unfold zlen in *; rewrite firstn_length; lia).
      rewrite nth_error_app2 by lia. rewrite L2. f_equal. lia.
Qed.
Lemma zlen_set : forall l i v, 0 <= i < zlen l -> zlen (set_nth l i v) = zlen l.
Proof.
  intros l i v Hi. unfold set_nth, zlen in *. rewrite app_length. cbn [length]. rewrite firstn_length, skipn_length. lia.
Qed.

Record EInv (tr : list event) (m : manager) : Prop := {
  ei_gens : forall i g, znth (m_gens m) i = Some g -> 0 <= g < 256;
  ei_len : zlen (m_gens m) <= 2 ^ 24;
  ei_perm : Permutation (map get_index (alive tr) ++ m_free m) (zrange 0 (zlen (m_gens m)));
  ei_live : forall id, In id (alive tr) -> exists g, znth (m_gens m) (get_index id) = Some g /\ id = entity_id (get_index id) g
}.

Lemma einv_nodup : forall tr m, EInv tr m -> NoDup (map get_index (alive tr) ++ m_free m).
Proof. intros tr m I. eapply Permutation_NoDup; [symmetry; apply (ei_perm _ _ I)|apply NoDup_zrange]. Qed.
Lemma einv_live_nodup : forall tr m, EInv tr m -> NoDup (alive tr).
Proof.
  intros tr m I. pose proof (einv_nodup _ _ I) as N. apply NoDup_app_remove_r in N. eapply NoDup_map_inv; eauto.
Qed.
Lemma einv_live_free : forall tr m id, EInv tr m -> In id (alive tr) -> ~ In (get_index id) (m_free m).
Proof.
  intros tr m id I L F. pose proof (einv_nodup _ _ I) as N.
  apply in_split in F. destruct F as (f1 & f2 & E). rewrite E in N. rewrite app_assoc in N.
  apply NoDup_remove_2 in N. apply N. rewrite !in_app_iff. left; left. apply in_map. exact L.
Qed.
Lemma einv_index : forall tr m i, EInv tr m -> (In i (map get_index (alive tr)) \/ In i (m_free m)) <-> 0 <= i < zlen (m_gens m).
Proof.
  intros tr m i I. rewrite <- in_app_iff.
  replace (0 <= i < zlen (m_gens m)) with (0 <= i < 0 + zlen (m_gens m)) by reflexivity. rewrite <- In_zrange.
  split; apply Permutation_in; [|symmetry]; apply (ei_perm _ _ I).
Qed.

Lemma create_inv : forall tr m, EInv tr m -> zlen (alive tr) + 1025 <= 16777216 ->
  exists m' id, create_entity m = Ok (m', id) /\ EInv (Created id :: tr) m' /\ ~ In id (alive tr) /\
    0 <= get_index id < 2 ^ 24 /\
    ((exists rest, m_free m = get_index id :: rest /\ m_free m' = rest /\ 1024 <= zlen rest /\ m_gens m' = m_gens m)
     \/ (m_free m' = m_free m /\ get_index id = zlen (m_gens m) /\ m_gens m' = m_gens m ++ [0])).
Proof.
  intros tr m I Cap. unfold create_entity. change MIN_FREE with 1024.
  assert (LEN : zlen (m_gens m) = zlen (alive tr) + zlen (m_free m)).
  { pose proof (Permutation_length (ei_perm _ _ I)) as P. rewrite app_length, map_length in P.
    assert (E : zlen (zrange 0 (zlen (m_gens m))) = zlen (m_gens m)).
    { apply zlen_zrange. apply zlen_nonneg. }
    unfold zlen in *. lia. }
  destruct (Z.ltb_spec 1024 (zlen (m_free m))) as [C|C].
  - destruct (m_free m) as [|i rest] eqn:F; [rewrite zlen_nil in C; lia|].
    assert (R : 0 <= i < zlen (m_gens m)). { apply (einv_index _ _ _ I). right. rewrite F. left; reflexivity. }
    destruct (znth_some _ _ _ R) as (g & G). rewrite G. cbn [rd bind].
    pose proof (ei_gens _ _ I _ _ G) as Gb. pose proof (ei_len _ _ I) as Lb.
    assert (PI : get_index (entity_id i g) = i) by (apply pack_index; lia).
    do 2 eexists. split; [reflexivity|]. split; [|split; [|split; [lia|]]].
    + constructor; cbn [m_gens m_free alive].
      * apply (ei_gens _ _ I).
      * exact Lb.
      * cbn [map]. rewrite PI. cbn [app]. eapply Permutation_trans; [|apply (ei_perm _ _ I)]. rewrite F. apply Permutation_middle.
      * intros id [<-|H]; [|apply (ei_live _ _ I); exact H]. rewrite PI. eauto.
    + intro L. apply (einv_live_free _ _ _ I L). rewrite PI, F. left; reflexivity.
    + left. exists rest. cbn [m_free m_gens]. rewrite PI. rewrite zlen_cons in C. splits; auto; lia.
  - pose proof (zlen_nonneg _ (m_gens m)). pose proof (zlen_nonneg _ (m_free m)).
    assert (W : wrap32 (zlen (m_gens m ++ [0])) - 1 = zlen (m_gens m)).
    { unfold wrap32. rewrite zlen_app. change (zlen [0]) with 1. rewrite Z.mod_small; [lia|].
      change (2 ^ 32) with 4294967296. lia. }
    rewrite W. rewrite znth_app2 by lia. rewrite Z.sub_diag. change (znth [0] 0) with (Some 0). cbn [rd bind].
    assert (PI : get_index (entity_id (zlen (m_gens m)) 0) = zlen (m_gens m)).
    { apply pack_index; [change (2 ^ 24) with 16777216; lia|lia]. }
    do 2 eexists. split; [reflexivity|]. split; [|split; [|split; [change (2 ^ 24) with 16777216 in *; lia|]]].
    + constructor; cbn [m_gens m_free alive].
      * intros i g H1. destruct (Z.ltb_spec i (zlen (m_gens m))) as [B|B].
        -- rewrite znth_app1 in H1; [eapply (ei_gens _ _ I); eauto|]. pose proof (znth_bounds _ _ _ _ H1). lia.
        -- pose proof (znth_bounds _ _ _ _ H1) as B2. rewrite zlen_app in B2. change (zlen [0]) with 1 in B2.
           replace i with (zlen (m_gens m)) in H1 by lia. rewrite znth_app2 in H1 by lia. rewrite Z.sub_diag in H1.
           inversion H1. lia.
      * rewrite zlen_app. change (zlen [0]) with 1. change (2 ^ 24) with 16777216. lia.
      * cbn [map app]. rewrite PI. rewrite zlen_app. change (zlen [0]) with 1.
        rewrite (zrange_split 0 (zlen (m_gens m)) 1) by lia.
        change (zrange (0 + zlen (m_gens m)) 1) with [0 + zlen (m_gens m) + 0]. rewrite Z.add_0_r, Z.add_0_l.
        eapply Permutation_trans; [|apply Permutation_cons_append]. apply perm_skip. apply (ei_perm _ _ I).
      * intros id [<-|H1].
        -- rewrite PI. exists 0. rewrite znth_app2 by lia. rewrite Z.sub_diag. auto.
        -- destruct (ei_live _ _ I _ H1) as (g & G & E). exists g. split; [|exact E].
           rewrite znth_app1; [exact G|]. eapply znth_bounds; eauto.
    + intro L. destruct (ei_live _ _ I _ L) as (g & G & _). rewrite PI in G. apply znth_bounds in G. lia.
    + right. cbn [m_free m_gens]. auto.
Qed.

Lemma perm_remove : forall id l, NoDup l -> In id l -> Permutation l (id :: remove Z.eq_dec id l).
Proof.
  intros id l N H. apply in_split in H. destruct H as (l1 & l2 & ->).
  pose proof (NoDup_remove_2 _ _ _ N) as NI. rewrite in_app_iff in NI.
  rewrite remove_app. cbn [remove]. destruct (Z.eq_dec id id) as [_|C]; [|congruence].
  rewrite !notin_remove by tauto. symmetry. apply Permutation_middle.
Qed.

Lemma destroy_inv : forall tr m id, EInv tr m -> In id (alive tr) ->
  exists m' g, destroy_entity id m = Ok m' /\ EInv (Destroyed id :: tr) m' /\
    m_free m' = m_free m ++ [get_index id] /\ znth (m_gens m) (get_index id) = Some g /\
    m_gens m' = set_nth (m_gens m) (get_index id) ((g + 1) mod 256).
Proof.
  intros tr m id I L. destruct (ei_live _ _ I _ L) as (g & G & E).
  pose proof (znth_bounds _ _ _ _ G) as B.
  unfold destroy_entity. rewrite G. cbn [rd bind].
  do 2 eexists. split; [reflexivity|]. split; [|splits; try reflexivity].
  constructor; cbn [m_gens m_free alive].
  - intros i g' H. rewrite znth_set in H by exact B. destruct (i =? get_index id).
    + inversion H. apply Z.mod_pos_bound. lia.
    + eapply (ei_gens _ _ I); eauto.
  - rewrite zlen_set by exact B. apply (ei_len _ _ I).
  - rewrite zlen_set by exact B. eapply Permutation_trans; [|apply (ei_perm _ _ I)].
    pose proof (perm_remove id _ (einv_live_nodup _ _ I) L) as P.
    apply (Permutation_map get_index) in P. cbn [map] in P.
    symmetry. eapply Permutation_trans; [apply Permutation_app_tail; exact P|]. cbn [app].
    rewrite app_assoc. apply Permutation_cons_append.
  - intros id' H. apply in_remove in H. destruct H as (H & NE).
    destruct (ei_live _ _ I _ H) as (g' & G' & E'). exists g'. split; [|exact E'].
    rewrite znth_set by exact B. destruct (Z.eqb_spec (get_index id') (get_index id)) as [C|C]; [|exact G'].
    exfalso. apply NE. rewrite C in *. rewrite G in G'. inversion G'; subst. congruence.
Qed.

Lemma history_inv : forall tr m, entity_history tr m -> EInv tr m.
Proof.
  intros tr m H. induction H as [|tr m m' id H IH Cap R|tr m m' id H IH L R].
  - constructor; cbn.
    + intros i g G. rewrite znth_nil in G. discriminate.
    + lia.
    + constructor.
    + tauto.
  - destruct (create_inv _ _ IH Cap) as (m1 & id1 & R1 & I1 & _). rewrite R in R1. inversion R1; subst. exact I1.
  - destruct (destroy_inv _ _ _ IH L) as (m1 & g & R1 & I1 & _). rewrite R in R1. inversion R1; subst. exact I1.
Qed.

(** Destructions of identifiers with a given index. *)
Definition of_index (i : Z) (e : event) : bool :=
  match e with Destroyed id => get_index id =? i | _ => false end.
Definition destr_of (i : Z) (tr : list event) : Z := zlen (filter (of_index i) tr).

Lemma destr_nonneg : forall i tr, 0 <= destr_of i tr. Proof. intros; apply zlen_nonneg. Qed.
Lemma destructions_nonneg : forall tr, 0 <= destructions tr. Proof. intros; apply zlen_nonneg. Qed.
Lemma destr_cons : forall i e tr, destr_of i (e :: tr) = destr_of i tr + (if of_index i e then 1 else 0).
Proof. intros. unfold destr_of. cbn [filter]. destruct (of_index i e); [rewrite zlen_cons|]; lia. Qed.
Lemma destructions_cons : forall e tr, destructions (e :: tr) = destructions tr + (if is_destroyed e then 1 else 0).
Proof. intros. unfold destructions. cbn [filter]. destruct (is_destroyed e); [rewrite zlen_cons|]; lia. Qed.

Definition lap (i : Z) (m1 : manager) (tr2 : list event) (m : manager) : Prop :=
  let K := destr_of i tr2 in let N := destructions tr2 in
  (1 <= K ->
     (forall l1 l2, m_free m = l1 ++ i :: l2 -> K + 1024 * (K - 1) + zlen l2 <= N) /\
     (~ In i (m_free m) -> 1025 * K <= N)) /\
  (forall g, znth (m_gens m1) i = Some g -> znth (m_gens m) i = Some ((g + K) mod 256)) /\
  (K = 0 -> ~ In i (m_free m1) -> 0 <= i < zlen (m_gens m1) -> ~ In i (m_free m)) /\
  zlen (m_gens m1) <= zlen (m_gens m).

Lemma lap_step : forall tr2 tr1 m m1 i, entity_history tr1 m1 -> entity_history (tr2 ++ tr1) m -> 
  lap i m1 tr2 m.
Proof.
  induction tr2 as [|e tr2 IH]; intros tr1 m m1 i H1 H.
  - cbn [app] in H. assert (m = m1).
    { clear i. revert m1 H1. induction H as [|tr m m' id H IH Cap R|tr m m' id H IH L R]; intros m1 H1; inversion H1; subst.
      - reflexivity.
      - match goal with K : entity_history tr ?x |- _ => assert (m = x) by (apply IH; assumption); subst end. congruence.
      - match goal with K : entity_history tr ?x |- _ => assert (m = x) by (apply IH; assumption); subst end. congruence. }
    subst m1. unfold lap, destr_of, destructions. cbn [filter]. rewrite zlen_nil. splits.
    + lia.
    + intros g G. rewrite Z.add_0_r. rewrite Z.mod_small; [exact G|]. eapply (ei_gens _ _ (history_inv _ _ H1)); eauto.
    + auto.
    + lia.
  - cbn [app] in H. inversion H as [|tr m0 m' id H0 Cap R|tr m0 m' id H0 L R]; subst.
    + specialize (IH _ _ _ i H1 H0). pose proof (history_inv _ _ H0) as I0.
      destruct (create_inv _ _ I0 Cap) as (m2 & id2 & R2 & I2 & ND & BI & Cs). rewrite R in R2. inversion R2; subst m2 id2.
      pose proof (einv_nodup _ _ I0) as N0. apply NoDup_app_remove_l in N0.
      pose proof (einv_nodup _ _ I2) as N2. apply NoDup_app_remove_l in N2.
      unfold lap in *. rewrite destr_cons, destructions_cons. cbn [of_index is_destroyed]. rewrite !Z.add_0_r.
      destruct IH as (IHa & IHb & IHc & IHd).
      destruct Cs as [(rest & F0 & F1 & LR & GE)|(F1 & IE & GE)].
      * rewrite F1, GE. rewrite F0 in *. splits; [|exact IHb| |exact IHd].
        -- intros HK. specialize (IHa HK). destruct IHa as (A1 & A2). split.
           ++ intros l1 l2 E. apply (A1 (get_index id :: l1) l2). rewrite E. reflexivity.
           ++ intros NI. destruct (Z.eq_dec i (get_index id)) as [E|E].
              ** specialize (A1 [] rest). rewrite <- E in A1. specialize (A1 eq_refl). lia.
              ** apply A2. intros [C|C]; [congruence|contradiction].
        -- intros HK NF B C. apply (IHc HK NF B). right; exact C.
      * rewrite F1, GE. splits; [exact IHa| |exact IHc|].
        -- intros g G. specialize (IHb _ G). rewrite znth_app1; [exact IHb|]. eapply znth_bounds; eauto.
        -- rewrite zlen_app. change (zlen [0]) with 1. lia.
    + specialize (IH _ _ _ i H1 H0). pose proof (history_inv _ _ H0) as I0.
      destruct (destroy_inv _ _ _ I0 L) as (m2 & g0 & R2 & I2 & F1 & G0 & GE). rewrite R in R2. inversion R2; subst m2.
      pose proof (einv_live_free _ _ _ I0 L) as NF0.
      pose proof (znth_bounds _ _ _ _ G0) as B0.
      unfold lap in *. rewrite destr_cons, destructions_cons. cbn [of_index is_destroyed].
      destruct IH as (IHa & IHb & IHc & IHd).
      pose proof (destr_nonneg i tr2). pose proof (destructions_nonneg tr2).
      rewrite F1, GE. destruct (Z.eqb_spec (get_index id) i) as [E|E].
      * rewrite E in *. splits.
        -- intros _. split.
           ++ intros l1 l2 EQ. assert (l2 = []).
              { destruct l2 as [|x l2 _] using rev_ind; [reflexivity|]. exfalso.
                change (i :: l2 ++ [x]) with ((i :: l2) ++ [x]) in EQ. rewrite app_assoc in EQ.
                apply app_inj_tail in EQ. destruct EQ as (EQ & _). apply NF0. rewrite EQ. rewrite in_app_iff. right; left; reflexivity. }
              subst l2. rewrite zlen_nil. destruct (Z.eq_dec (destr_of i tr2) 0) as [Z0|Z0]; [lia|].
              destruct IHa as (_ & A2); [lia|]. specialize (A2 NF0). lia.
           ++ intro C. exfalso. apply C. rewrite in_app_iff. right; left; reflexivity.
        -- intros g G. rewrite znth_set by exact B0. rewrite Z.eqb_refl. specialize (IHb _ G). rewrite G0 in IHb. inversion IHb as [E2].
           rewrite Z.add_mod_idemp_l by lia. f_equal. f_equal. lia.
        -- lia.
        -- rewrite zlen_set by exact B0. exact IHd.
      * rewrite Z.add_0_r. splits.
        -- intros HK. specialize (IHa HK). destruct IHa as (A1 & A2). split.
           ++ intros l1 l2 EQ. destruct l2 as [|x l2 _] using rev_ind.
              ** apply app_inj_tail in EQ. destruct EQ as (_ & EQ). congruence.
              ** change (i :: l2 ++ [x]) with ((i :: l2) ++ [x]) in EQ. rewrite app_assoc in EQ.
                 apply app_inj_tail in EQ. destruct EQ as (EQ & _). specialize (A1 _ _ EQ). rewrite zlen_app.
                 change (zlen [x]) with 1. lia.
           ++ intro NI. rewrite in_app_iff in NI. assert (NI' : ~ In i (m_free m0)) by tauto. specialize (A2 NI'). lia.
        -- intros g G. rewrite znth_set by exact B0. destruct (Z.eqb_spec i (get_index id)); [congruence|]. auto.
        -- intros HK NF B. rewrite in_app_iff. intros [C|[C|[]]]; [exact (IHc HK NF B C)|congruence].
        -- rewrite zlen_set by exact B0. exact IHd.
Qed.

Lemma history_suffix : forall tr2 tr1 m, entity_history (tr2 ++ tr1) m -> exists m1, entity_history tr1 m1.
Proof.
  induction tr2 as [|e tr2 IH]; intros tr1 m H; [eauto|]. cbn [app] in H. inversion H; subst; eauto.
Qed.

Lemma reuse : forall tr1 tr2 id m, entity_history (Created id :: tr2 ++ Created id :: tr1) m ->
  256 * 1025 <= destructions tr2.
Proof.
  intros tr1 tr2 id m H. inversion H as [|tr m0 m' id' H0 Cap R|]; subst.
  destruct (history_suffix _ _ _ H0) as (m1 & H1).
  pose proof (lap_step _ _ _ _ (get_index id) H1 H0) as (A & B & C & D).
  pose proof (history_inv _ _ H1) as I1. pose proof (history_inv _ _ H0) as I0.
  assert (L1 : In id (alive (Created id :: tr1))) by (left; reflexivity).
  destruct (ei_live _ _ I1 _ L1) as (g & G & E). pose proof (znth_bounds _ _ _ _ G) as BG.
  pose proof (B _ G) as B'. pose proof (ei_gens _ _ I1 _ _ G) as Gb.
  destruct (create_inv _ _ I0 Cap) as (m2 & id2 & R2 & I2 & ND & BI & Cs). rewrite R in R2. inversion R2; subst m2 id2.
  destruct Cs as [(rest & F0 & F1 & LR & GE)|(F1 & IE & GE)]; [|lia].
  destruct (ei_live _ _ I2 id (or_introl eq_refl)) as (g2 & G2 & E2). rewrite GE in G2. rewrite G2 in B'. inversion B' as [GG].
  pose proof (ei_len _ _ I1) as LL.
  assert (GQ : g2 = g).
  { rewrite <- (pack_generation (get_index id) g2), <- (pack_generation (get_index id) g); try lia; [congruence|].
    rewrite GG. apply Z.mod_pos_bound. lia. }
  set (K := destr_of (get_index id) tr2) in *.
  assert (KP : K <> 0).
  { intro K0. apply (C K0); [apply (einv_live_free _ _ _ I1 L1)|lia|]. rewrite F0. left; reflexivity. }
  pose proof (destr_nonneg (get_index id) tr2) as K0. fold K in K0.
  assert (KM : (g + K) mod 256 = g) by congruence.
  assert (K256 : 256 <= K).
  { destruct (Z.ltb_spec K 256) as [Q|Q]; [|exact Q]. exfalso.
    pose proof (Z.div_mod (g + K) 256 ltac:(lia)) as DM. rewrite KM in DM. lia. }
  destruct A as (A1 & _); [lia|]. specialize (A1 [] rest F0). lia.
Qed.

Lemma stale : forall tr1 tr2 id m, entity_history (tr2 ++ Destroyed id :: tr1) m ->
  destructions tr2 < 255 * 1025 -> is_valid id m = Ok false.
Proof.
  intros tr1 tr2 id m H HN.
  destruct (history_suffix _ _ _ H) as (m1 & H1). inversion H1 as [| |tr m0 m' id' H0 L R]; subst.
  change (Destroyed id :: tr1) with ([Destroyed id] ++ tr1) in H. rewrite app_assoc in H.
  pose proof (lap_step _ _ _ _ (get_index id) H0 H) as (A & B & C & D).
  pose proof (history_inv _ _ H0) as I0. pose proof (history_inv _ _ H) as I.
  destruct (ei_live _ _ I0 _ L) as (g & G & E). pose proof (ei_gens _ _ I0 _ _ G) as Gb.
  pose proof (ei_len _ _ I0) as LL. pose proof (znth_bounds _ _ _ _ G) as BG.
  set (K := destr_of (get_index id) (tr2 ++ [Destroyed id])) in *.
  assert (NE : destructions (tr2 ++ [Destroyed id]) = destructions tr2 + 1).
  { unfold destructions. rewrite filter_app, zlen_app. reflexivity. }
  assert (KE : K = destr_of (get_index id) tr2 + 1).
  { unfold K, destr_of. rewrite filter_app, zlen_app. cbn [filter of_index]. rewrite Z.eqb_refl. reflexivity. }
  pose proof (destr_nonneg (get_index id) tr2).
  unfold is_valid. rewrite (B _ G). cbn [rd bind]. f_equal. apply Z.eqb_neq.
  rewrite E. rewrite pack_generation by lia. intro KM.
  assert (K256 : 256 <= K).
  { destruct (Z.ltb_spec K 256) as [Q|Q]; [|exact Q]. exfalso.
    pose proof (Z.div_mod (g + K) 256 ltac:(lia)) as DM. rewrite KM in DM. lia. }
  destruct A as (A1 & A2); [lia|]. rewrite NE in *.
  destruct (in_dec Z.eq_dec (get_index id) (m_free m)) as [F|F].
  - apply in_split in F. destruct F as (l1 & l2 & F). specialize (A1 _ _ F). pose proof (zlen_nonneg _ l2). lia.
  - specialize (A2 F). lia.
Qed.
