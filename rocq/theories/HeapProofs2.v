(** The heap allocator: invariant of every history of allocations and releases. *)
From Coq Require Import Permutation.
From Verif Require Import Base HeapModel HeapProofs.
Open Scope Z_scope.

(** ** Alignment *)
Lemma land15 : forall p, Z.land p 15 = p mod 16.
Proof. intros. change 15 with (Z.ones 4). rewrite Z.land_ones by lia. reflexivity. Qed.

Lemma align_offset_spec : forall p, align_offset p ALIGN = 16 - p mod 16.
Proof. intros. unfold align_offset, ALIGN. change (16 - 1) with 15. rewrite land15. reflexivity. Qed.

Lemma align_offset_bounds : forall p, 1 <= align_offset p ALIGN <= 16.
Proof. intros. rewrite align_offset_spec. pose proof (Z.mod_pos_bound p 16). lia. Qed.

Lemma align_address_bounds : forall p, p + 1 <= align_address p ALIGN <= p + 16.
Proof. intros. unfold align_address. pose proof (align_offset_bounds p). lia. Qed.

Lemma align_address_mod : forall p, align_address p ALIGN mod 16 = 0.
Proof.
  intros. unfold align_address. rewrite align_offset_spec.
  replace (p + (16 - p mod 16)) with ((p / 16 + 1) * 16).
  - apply Z.mod_mul; lia.
  - pose proof (Z.div_mod p 16). lia.
Qed.

(** ** Adjacent units *)
Definition Rok (u v : unit_) : Prop := uc u && negb (ual u) && negb (ual v) = false.

Fixpoint adj (l : list unit_) : Prop :=
  match l with
  | [] => True
  | u :: l' => match l' with v :: _ => Rok u v | [] => True end /\ adj l'
  end.

Lemma adj_mid : forall l1 u l2, adj (l1 ++ u :: l2) <-> adj (l1 ++ [u]) /\ adj (u :: l2).
Proof.
  induction l1 as [|v l1 IH]; intros u l2.
  - cbn [app adj]. tauto.
  - cbn [app]. cbn [adj]. rewrite IH. destruct l1; cbn [app adj]; tauto.
Qed.

Lemma adj_last : forall l1 u u', adj (l1 ++ [u]) -> (ual u' = ual u \/ ual u' = true) -> adj (l1 ++ [u']).
Proof.
  induction l1 as [|v l1 IH]; intros u u' A H.
  - cbn. tauto.
  - cbn [app adj] in *. destruct A as [A1 A2]. split; [|eapply IH; eauto].
    destruct l1 as [|w l1']; cbn [app] in *; [|exact A1].
    unfold Rok in *. destruct H as [-> | ->]; [exact A1|].
    cbn. apply andb_false_r.
Qed.

Lemma adj_head_alloc : forall u l2, ual u = true -> adj l2 -> adj (u :: l2).
Proof.
  intros u l2 H A. cbn [adj]. split; [|exact A]. destruct l2; [exact I|].
  unfold Rok. rewrite H. cbn. rewrite andb_false_r. reflexivity.
Qed.

Lemma adj_tail : forall u l2, adj (u :: l2) -> adj l2.
Proof. intros u l2 [_ A]; exact A. Qed.

(** ** The invariant *)
Definition own (h : heap) (b : Z * Z) (u : unit_) : Prop :=
  fst b = align_address (ua u + HDR) ALIGN /\
  h_off h (fst b - 1) = Some (align_offset (ua u + HDR) ALIGN) /\
  0 < snd b /\ snd b + ALIGN <= us u.

Record Shape (h : heap) (l : list unit_) (fs : list Z) : Prop := mk_shape {
  s_core : Core h l fs;
  s_fr : forall u, In u l -> (In (ua u) fs <-> ual u = false);
  s_adj : adj l;
  s_tot : 0 <= h_total h
}.

Record Inv (h : heap) (l : list unit_) (fs : list Z) (live : list (Z * Z)) : Prop := mk_inv {
  i_shape : Shape h l fs;
  i_own : exists os, Forall2 (own h) live os /\ Permutation os (filter ual l)
}.

Lemma own_off : forall h h' live os, h_off h' = h_off h -> Forall2 (own h) live os -> Forall2 (own h') live os.
Proof.
  intros h h' live os E F. induction F as [|b u live os O F IH]; constructor; [|exact IH].
  unfold own in *. rewrite E. exact O.
Qed.

Lemma units_disj : forall h l fs l1 u l2 w, Core h l fs -> l = l1 ++ u :: l2 -> In w l ->
  w = u \/ disj (ext u) (ext w).
Proof.
  intros h l fs l1 u l2 w C -> Hw.
  pose proof (tiled_disj _ _ (c_tiled _ _ _ C) (proj1 (c_chunks _ _ _ C))) as DJ.
  clear C. revert DJ Hw. induction l1 as [|v l1 IH]; cbn; intros DJ Hw.
  - inversion DJ as [|? ? D1 D2]; subst. destruct Hw as [->|Hw]; [left; reflexivity|].
    right. rewrite Forall_forall in D1. apply D1, in_map; exact Hw.
  - inversion DJ as [|? ? D1 D2]; subst. destruct Hw as [->|Hw]; [|auto].
    right. rewrite Forall_forall in D1.
    assert (D3 : disj (ext w) (ext u)) by (apply D1, in_map, in_or_app; right; left; reflexivity).
    unfold disj in *. tauto.
Qed.

Lemma In_addrs_unit : forall a l, In a (addrs l) -> exists l1 u l2, l = l1 ++ u :: l2 /\ ua u = a.
Proof.
  intros a l H. apply in_map_iff in H. destruct H as (u & E & Hu).
  apply in_split in Hu. destruct Hu as (l1 & l2 & ->). eauto.
Qed.

Lemma filter_mid_false : forall l1 u l2, ual u = false -> filter ual (l1 ++ u :: l2) = filter ual (l1 ++ l2).
Proof. intros. rewrite !filter_app. cbn. rewrite H. reflexivity. Qed.
Lemma filter_mid_true : forall l1 u l2, ual u = true -> Permutation (filter ual (l1 ++ u :: l2)) (u :: filter ual (l1 ++ l2)).
Proof. intros. rewrite !filter_app. cbn. rewrite H. symmetry. apply Permutation_middle. Qed.

(** Taking a free unit that is large enough. *)
Lemma take_unit : forall h l fs live a size,
  Inv h l fs live -> 0 < size -> In a fs -> size + ALIGN <= h_sz h a ->
  exists h2 h4 p l' fs',
    split_unit a (size + ALIGN) h = Ok h2 /\ live_hdr h2 a = Ok tt /\
    remove_free a (with_al (upd (h_al h2) a true) h2) = Ok h4 /\
    p = align_address (a + HDR) ALIGN /\
    Inv (with_off (upd (h_off h4) (p - 1) (Some (align_offset (a + HDR) ALIGN))) h4) l' fs' ((p, size) :: live) /\
    h_log h4 = h_log h.
Proof.
  intros h l fs live a size [[C FR AD TT] (os & FO & PO)] Hs Ha Hsz.
  assert (Ha' : In a (addrs l)) by (apply (c_inc _ _ _ C); exact Ha).
  destruct (In_addrs_unit _ _ Ha') as (l1 & u & l2 & El & Ea).
  assert (Hu : In u l) by (rewrite El; apply in_or_app; cbn; auto).
  assert (Fu : ual u = false) by (apply (FR u Hu); rewrite Ea; exact Ha).
  destruct (core_fields _ _ _ _ C Hu) as (Fs & _ & _). rewrite Ea in Fs. rewrite Fs in Hsz.
  destruct (in_split _ _ Ha) as (f1 & f2 & Ef).
  pose proof (core_nodup _ _ _ C) as ND.
  (* the split *)
  assert (SP : exists h2 u' l2' f2', split_unit a (size + ALIGN) h = Ok h2 /\
     Core h2 (l1 ++ u' :: l2') (f1 ++ a :: f2') /\ frame h h2 /\ ua u' = a /\ size + ALIGN <= us u' /\
     filter ual l2' = filter ual l2 /\ adj l2' /\
     (forall w, In w (l1 ++ l2') -> (In (ua w) (f1 ++ f2') <-> ual w = false))).
  { destruct (Z_lt_ge_dec (size + ALIGN + HDR) (us u)) as [Hlt|Hge].
    - subst l fs a.
      destruct (split_core h l1 u l2 f1 f2 (size + ALIGN) C ltac:(unfold ALIGN; lia) Hlt) as (h2 & R & C2 & F2).
      exists h2. do 3 eexists. splits; [exact R|exact C2|exact F2|reflexivity|cbn; lia|reflexivity| |].
      + rewrite adj_mid in AD. destruct AD as [_ [A1 A2]].
        cbn [adj]. split; [|exact A2]. destruct l2 as [|v l2']; [exact I|].
        unfold Rok in *. cbn [uc ual]. rewrite Fu in A1. exact A1.
      + pose proof (core_nodup _ _ _ C2) as ND2. pose proof (c_ndF _ _ _ C2) as NF2.
        rewrite addrs_app, !addrs_cons in ND2. cbn [ua] in ND2.
        intros w Hw. rewrite in_app_iff in Hw. cbn [In] in Hw.
        destruct Hw as [Hw|[<-|Hw]].
        * pose proof (FR w ltac:(rewrite in_app_iff; auto)) as Fw. rewrite <- Fw.
          assert (ua w <> ua u /\ ua w <> ua u + HDR + (size + ALIGN)).
          { destruct (NoDup_app_inv _ _ _ ND2) as (_ & _ & DJ). split; intro E.
            - apply (DJ (ua w)); [apply addrs_In; exact Hw|rewrite E; left; reflexivity].
            - apply (DJ (ua w)); [apply addrs_In; exact Hw|rewrite E; right; left; reflexivity]. }
          rewrite !in_app_iff. cbn [In]. intuition congruence.
        * cbn [ua ual]. split; [reflexivity|]. intros _. apply in_or_app; right; left; reflexivity.
        * pose proof (FR w ltac:(rewrite in_app_iff; cbn; auto)) as Fw. rewrite <- Fw.
          assert (ua w <> ua u /\ ua w <> ua u + HDR + (size + ALIGN)).
          { destruct (NoDup_app_inv _ _ _ ND2) as (_ & ND3 & _). inversion ND3 as [|? ? Q1 Q2]; subst. inversion Q2 as [|? ? Q3 Q4]; subst.
            split; intro E.
            - apply Q1. right. rewrite <- E. apply addrs_In; exact Hw.
            - apply Q3. rewrite <- E. apply addrs_In; exact Hw. }
          rewrite !in_app_iff. cbn [In]. intuition congruence.
    - exists h, u, l2, f2. subst l fs a. splits.
      + unfold split_unit. rewrite (core_live _ _ _ _ C Ha'). cbn [bind]. rewrite Fs.
        destruct (Z.ltb_spec (size + ALIGN + HDR) (us u)); [lia|reflexivity].
      + exact C.
      + unfold frame; splits; reflexivity.
      + reflexivity.
      + exact Hsz.
      + reflexivity.
      + rewrite adj_mid in AD. destruct AD as [_ [_ A2]]. exact A2.
      + intros w Hw. pose proof (FR w) as Fw. rewrite <- Fw by (rewrite in_app_iff in *; cbn; tauto).
        assert (ua w <> ua u).
        { rewrite addrs_app, addrs_cons in ND. apply NoDup_remove_2 in ND. intro E. apply ND. rewrite <- E.
          rewrite <- addrs_app. apply addrs_In; exact Hw. }
        rewrite !in_app_iff. cbn [In]. intuition congruence. }
  destruct SP as (h2 & u' & l2' & f2' & R2 & C2 & (G1 & G2 & G3) & Eu' & Hsz' & FL & AD2 & FR2).
  assert (Lv : live_hdr h2 a = Ok tt).
  { eapply core_live; [exact C2|]. rewrite addrs_app, addrs_cons, Eu'. apply in_or_app; cbn; auto. }
  pose proof (set_al_core h2 l1 u' l2' (f1 ++ a :: f2') true C2) as C3. rewrite Eu' in C3.
  destruct (remove_free_core _ _ _ _ _ C3) as (h4 & R4 & C4 & (K1 & K2 & K3) & _).
  cbn [with_al h_off h_log h_total] in K1, K2, K3.
  set (p := align_address (a + HDR) ALIGN).
  exists h2, h4, p. do 2 eexists. splits; [exact R2|exact Lv|exact R4|reflexivity| |congruence].
  set (h5 := with_off _ h4).
  assert (C5 : Core h5 (l1 ++ U a (us u') (uc u') true :: l2') (f1 ++ f2')).
  { destruct C4; constructor; assumption. }
  pose proof (align_address_bounds (a + HDR)) as AB. fold p in AB.
  constructor.
  - constructor.
    + exact C5.
    + intros w Hw. rewrite in_app_iff in Hw. cbn [In] in Hw. destruct Hw as [Hw|[<-|Hw]].
      * apply FR2, in_or_app; auto.
      * cbn [ua ual]. split; [|discriminate]. intro H. exfalso.
        pose proof (c_ndF _ _ _ C2) as NF. apply NoDup_remove_2 in NF. contradiction.
      * apply FR2, in_or_app; auto.
    + rewrite adj_mid. split; [|apply adj_head_alloc; [reflexivity|exact AD2]].
      rewrite El, adj_mid in AD. destruct AD as [A1 _]. eapply adj_last; [exact A1|right; reflexivity].
    + unfold h5; cbn. lia.
  - exists (U a (us u') (uc u') true :: os). split.
    + constructor.
      * unfold own, h5. cbn [fst snd ua us with_off h_off]. splits.
        -- reflexivity.
        -- apply upd_same.
        -- exact Hs.
        -- exact Hsz'.
      * assert (FO' : forall b w, In w os -> own h b w -> own h5 b w).
        { intros b w Hw (O1 & O2 & O3 & O4). unfold own, h5. cbn [with_off h_off]. splits; auto.
          rewrite upd_other; [rewrite K1, G1; exact O2|].
          pose proof (Permutation_in _ PO Hw) as Hw'. apply filter_In in Hw'. destruct Hw' as [Hw1 Hw2].
          assert (w <> u) by (intro; subst w; congruence).
          destruct (units_disj _ _ _ l1 u l2 w C El Hw1) as [|Dj]; [congruence|].
          unfold disj, ext in Dj. cbn [fst snd] in Dj. rewrite Ea in Dj.
          pose proof (align_address_bounds (ua w + HDR)) as AB2. rewrite <- O1 in AB2.
          unfold ALIGN in *. pose proof HDR48. lia. }
        clear - FO FO'. induction FO as [|b w live os O FO IH]; constructor.
        -- apply FO'; [left; reflexivity|exact O].
        -- apply IH. intros b' w' Hw'. apply FO'. right; exact Hw'.
    + etransitivity; [|symmetry; apply filter_mid_true; reflexivity].
      constructor. rewrite filter_app, FL, <- filter_app.
      rewrite El in PO. rewrite filter_mid_false in PO by exact Fu. exact PO.
Qed.

Lemma alloc_inv : forall h l fs live size base,
  Inv h l fs live -> 0 < size -> fresh_chunk (h_log h) base (grow_request h size + HDR) ->
  exists h' p l' fs', heap_alloc size base h = Ok (h', p) /\ Inv h' l' fs' ((p, size) :: live) /\
    (h_log h' = h_log h \/
     (h_log h' = (base, grow_request h size + HDR) :: h_log h /\
      forall u, In u l -> ual u = false -> us u < size + ALIGN)).
Proof.
  intros h l fs live size base I Hs FRC.
  pose proof I as [[C FR AD TT] (os & FO & PO)].
  unfold heap_alloc. destruct (Z.eqb_spec size 0); [lia|].
  assert (LF : (length fs <= length l)%nat).
  { rewrite <- (map_length ua l). apply NoDup_incl_length; [apply (c_ndF _ _ _ C)|apply (c_inc _ _ _ C)]. }
  rewrite (c_free _ _ _ C).
  destruct (find_unit_core h l fs (size + ALIGN) C fs [] (S (h_cnt h)) eq_refl) as [(a & f3 & f4 & R & Ef & Ha)|[R FA]].
  { pose proof (c_cnt _ _ _ C). lia. }
  - rewrite R. cbn [bind].
    assert (Hin : In a fs) by (rewrite Ef; apply in_or_app; cbn; auto).
    pose proof (core_pos _ _ _ a C (c_inc _ _ _ C _ Hin)).
    destruct (Z.eqb_spec a 0); [lia|]. cbn [bind].
    destruct (take_unit _ _ _ _ _ _ I Hs Hin Ha) as (h2 & h4 & p & l' & fs' & R2 & Lv & R4 & Ep & I' & EL).
    rewrite R2. cbn [bind]. rewrite Lv. cbn [bind]. rewrite R4. cbn [bind].
    rewrite <- Ep. do 4 eexists. splits; [reflexivity|exact I'|left; exact EL].
  - rewrite R. cbn [bind]. change (0 =? 0) with true. cbn iota.
    destruct (reserve_core h l fs (grow_request h size) base C) as (h1 & R1 & C1 & EL1 & EO1 & ET1).
    { unfold grow_request, ALIGN. lia. }
    { exact FRC. }
    rewrite R1. cbn [bind].
    assert (NIb : ~ In base (addrs l)).
    { pose proof (core_nodup _ _ _ C1) as ND. rewrite addrs_cons in ND. inversion ND; assumption. }
    assert (I1 : Inv h1 (U base (grow_request h size) false false :: l) (base :: fs) live).
    { constructor.
      - constructor.
        + exact C1.
        + intros w [<-|Hw].
          * cbn. split; [reflexivity|auto].
          * rewrite <- (FR w Hw). cbn [In]. split; [|auto]. intros [E|]; [|assumption].
            exfalso; apply NIb. rewrite E. apply addrs_In; exact Hw.
        + cbn [adj]. split; [|exact AD]. destruct l; [exact Logic.I|reflexivity].
        + rewrite ET1. unfold grow_request, ALIGN. lia.
      - exists os. split; [eapply own_off; eauto|]. cbn. exact PO. }
    rewrite (c_free _ _ _ C1). cbn [hd].
    destruct (core_fields _ _ _ _ C1 (or_introl eq_refl)) as (Fs & _ & _). cbn [ua us] in Fs.
    destruct (take_unit _ _ _ _ base size I1 Hs (or_introl eq_refl)) as (h2 & h4 & p & l' & fs' & R2 & Lv & R4 & Ep & I' & EL).
    { rewrite Fs. unfold grow_request, ALIGN. lia. }
    rewrite R2. cbn [bind]. rewrite Lv. cbn [bind]. rewrite R4. cbn [bind].
    rewrite <- Ep. do 4 eexists. splits; [reflexivity|exact I'|right]. split; [cbn; congruence|].
    intros u Hu Fu. rewrite Forall_forall in FA. specialize (FA (ua u) (proj2 (FR u Hu) Fu)).
    destruct (core_fields _ _ _ _ C Hu) as (E & _). lia.
Qed.

(** Second half of [release]. *)
Lemma release_phase2 : forall h m1 c m2 F x,
  Core h (m1 ++ c :: m2) F -> ual c = false -> ~ In (ua c) F ->
  (forall w, In w (m1 ++ m2) -> (In (ua w) F <-> ual w = false)) ->
  adj (m1 ++ [c]) -> adj m2 -> h_nU h x = hd 0 (addrs m2) -> 0 <= h_total h ->
  exists h' l' fs',
    (let* _ := live_hdr h (ua c) in
     let nx := h_nU h (ua c) in
     let* fwd := (if nx =? 0 then Ok false
                  else let* _ := live_hdr h nx in Ok (negb (h_al h nx) && h_ct h (ua c))) in
     let* h3 := (if fwd
                 then let* h' := remove_free (h_nU h x) h in merge_units (ua c) (h_nU h' (ua c)) h'
                 else Ok h) in
     add_free (ua c) h3) = Ok h' /\
    Shape h' l' fs' /\ frame h h' /\ filter ual l' = filter ual (m1 ++ m2).
Proof.
  intros h m1 c m2 F x C Fc NIc FR A1 A2 Ex TT.
  assert (Hc : In c (m1 ++ c :: m2)) by (apply in_or_app; cbn; auto).
  rewrite (core_live _ _ _ _ C (addrs_In _ _ Hc)). cbn [bind].
  assert (En : h_nU h (ua c) = hd 0 (addrs m2)).
  { pose proof (c_dlU _ _ _ C) as D. rewrite addrs_app, addrs_cons in D. exact (dl_nx_at _ _ _ _ _ _ _ D). }
  rewrite En, Ex.
  destruct (core_fields _ _ _ _ C Hc) as (Fcs & Fcc & Fca).
  (* no forward merge *)
  assert (NoMerge : match m2 with [] => True | v :: _ => negb (ual v) && uc c = false end ->
     exists h' l' fs', add_free (ua c) h = Ok h' /\ Shape h' l' fs' /\ frame h h' /\ filter ual l' = filter ual (m1 ++ m2)).
  { intro Q. destruct (add_free_core h _ F (ua c) C (addrs_In _ _ Hc) NIc) as (h' & R & C' & G).
    exists h', (m1 ++ c :: m2), (ua c :: F). splits; [exact R| |exact G|apply filter_mid_false; exact Fc].
    constructor.
    - exact C'.
    - intros w Hw. rewrite in_app_iff in Hw. cbn [In] in *.
      assert (Hw' : w = c \/ In w (m1 ++ m2)) by (rewrite in_app_iff; intuition congruence).
      destruct Hw' as [->|Hw'].
      + rewrite Fc. tauto.
      + rewrite <- (FR w Hw'). split; [|auto]. intros [E|]; [|assumption].
        exfalso. pose proof (core_nodup _ _ _ C) as ND. rewrite addrs_app, addrs_cons in ND. apply NoDup_remove_2 in ND.
        apply ND. rewrite E, <- addrs_app. apply addrs_In; exact Hw'.
    - rewrite adj_mid. split; [exact A1|]. cbn [adj]. split; [|exact A2].
      destruct m2 as [|v m2']; [exact I|]. unfold Rok. rewrite Fc. cbn [negb]. rewrite andb_true_r, andb_comm. exact Q.
    - destruct G as (_ & _ & ->). exact TT. }
  destruct m2 as [|v m2]; cbn [hd addrs map].
  - change (0 =? 0) with true. cbn [bind]. exact (NoMerge I).
  - assert (Hv : In v (m1 ++ c :: v :: m2)) by (apply in_or_app; cbn; auto).
    pose proof (core_pos _ _ _ _ C (addrs_In _ _ Hv)). destruct (Z.eqb_spec (ua v) 0); [lia|].
    rewrite (core_live _ _ _ _ C (addrs_In _ _ Hv)). cbn [bind].
    destruct (core_fields _ _ _ _ C Hv) as (Fvs & Fvc & Fva).
    rewrite Fva, Fcc.
    destruct (negb (ual v) && uc c) eqn:Q; [|cbn [bind]; exact (NoMerge eq_refl)].
    apply andb_prop in Q. destruct Q as [Q1 Q2]. apply negb_true_iff in Q1.
    assert (Hvf : In (ua v) F) by (apply FR; [apply in_or_app; cbn; auto|exact Q1]).
    destruct (in_split _ _ Hvf) as (f1 & f2 & Ef). subst F.
    destruct (remove_free_core _ _ _ _ _ C) as (h1 & R1 & C1 & G1 & _ & EnU & _).
    rewrite R1. cbn [bind].
    rewrite EnU, En. cbn [hd addrs map].
    pose proof (c_ndF _ _ _ C) as NF. pose proof (NoDup_remove_2 _ _ _ NF) as NIv.
    destruct (merge_core h1 m1 c v m2 (f1 ++ f2) C1 Q2 NIv) as (h2 & R2 & C2 & G2 & _).
    rewrite R2. cbn [bind].
    set (c' := U (ua c) (us c + (us v + HDR)) (uc v) (ual c)) in *.
    assert (Hc' : In (ua c) (addrs (m1 ++ c' :: m2))) by (apply (addrs_In c'), in_or_app; cbn; auto).
    assert (NIc' : ~ In (ua c) (f1 ++ f2)).
    { intro H'. apply NIc. rewrite in_app_iff in *. cbn; tauto. }
    destruct (add_free_core h2 _ _ (ua c) C2 Hc' NIc') as (h3 & R3 & C3 & G3).
    exists h3. do 2 eexists. splits; [exact R3| | |].
    + constructor.
      * exact C3.
      * intros w Hw. rewrite in_app_iff in Hw. cbn [In] in *.
        assert (Hw' : w = c' \/ In w (m1 ++ m2)) by (rewrite in_app_iff; intuition congruence).
        destruct Hw' as [->|Hw'].
        -- unfold c'; cbn. rewrite Fc. tauto.
        -- assert (ua w <> ua c).
           { intro E. pose proof (core_nodup _ _ _ C2) as ND. rewrite addrs_app, addrs_cons in ND. apply NoDup_remove_2 in ND.
             apply ND. unfold c'. cbn [ua]. rewrite <- E, <- addrs_app. apply addrs_In; exact Hw'. }
           assert (ua w <> ua v).
           { intro E. pose proof (core_nodup _ _ _ C) as ND. rewrite addrs_app, !addrs_cons in ND.
             replace (addrs m1 ++ ua c :: ua v :: addrs m2) with ((addrs m1 ++ [ua c]) ++ ua v :: addrs m2) in ND by (rewrite <- app_assoc; reflexivity).
             apply NoDup_remove_2 in ND. apply ND. rewrite <- app_assoc, in_app_iff. cbn [app In].
             rewrite <- E. rewrite in_app_iff in Hw'. destruct Hw' as [Hw'|Hw']; apply addrs_In in Hw'; tauto. }
           rewrite <- (FR w) by (rewrite in_app_iff in *; cbn; tauto).
           rewrite !in_app_iff. cbn [In]. intuition congruence.
      * rewrite adj_mid. split; [eapply adj_last; [exact A1|left; reflexivity]|].
        cbn [adj] in A2 |- *. destruct A2 as [B1 B2]. split; [|exact B2].
        destruct m2 as [|z m2']; [exact I|]. unfold Rok, c' in *. cbn [uc ual]. rewrite Fc. rewrite Q1 in B1. exact B1.
      * destruct G1 as (_ & _ & T1), G2 as (_ & _ & T2), G3 as (_ & _ & T3). rewrite T3, T2, T1. exact TT.
    + destruct G1 as (X1 & X2 & X3), G2 as (Y1 & Y2 & Y3), G3 as (Z1 & Z2 & Z3). unfold frame. splits; congruence.
    + rewrite (filter_mid_false m1 c') by exact Fc. rewrite (filter_mid_false m1 v) by exact Q1. reflexivity.
Qed.

Lemma release_inv : forall h l fs live1 p s live2,
  Inv h l fs (live1 ++ (p, s) :: live2) ->
  exists h' l' fs', heap_release p s h = Ok h' /\ Inv h' l' fs' (live1 ++ live2) /\ h_log h' = h_log h.
Proof.
  intros h l fs live1 p s live2 [[C FR AD TT] (os & FO & PO)].
  apply Forall2_app_inv_l in FO. destruct FO as (os1 & osr & FO1 & FO2 & ->).
  inversion FO2 as [|? u ? os2 (O1 & O2 & O3 & O4) FO3]; subst. cbn [fst snd] in *.
  assert (Huf : In u (filter ual l)) by (eapply Permutation_in; [exact PO|]; apply in_or_app; cbn; auto).
  apply filter_In in Huf. destruct Huf as [Hu Fu].
  unfold heap_release. destruct (Z.eqb_spec s 0); [lia|].
  rewrite O2. cbn [rd bind].
  assert (Eu : p - align_offset (ua u + HDR) ALIGN - HDR = ua u) by (rewrite O1; unfold align_address; lia).
  rewrite Eu. rewrite (core_live _ _ _ _ C (addrs_In _ _ Hu)). cbn [bind].
  destruct (in_split _ _ Hu) as (l1 & l2 & El).
  assert (NIu : ~ In (ua u) fs) by (rewrite (FR u Hu); congruence).
  rewrite El in C. pose proof (set_al_core h l1 u l2 fs false C) as C1.
  set (h1 := with_al (upd (h_al h) (ua u) false) h) in *.
  set (u0 := U (ua u) (us u) (uc u) false) in *.
  assert (PR : Permutation (os1 ++ os2) (filter ual (l1 ++ l2))).
  { apply Permutation_cons_inv with (a := u). etransitivity; [apply Permutation_middle|].
    etransitivity; [exact PO|]. rewrite El. apply filter_mid_true; exact Fu. }
  assert (Done : forall h' l' fs', Shape h' l' fs' -> h_off h' = h_off h -> filter ual l' = filter ual (l1 ++ l2) ->
             Inv h' l' fs' (live1 ++ live2)).
  { intros h' l' fs' S EO EF. constructor; [exact S|]. exists (os1 ++ os2). split.
    - apply Forall2_app; eapply own_off; eauto.
    - rewrite EF. exact PR. }
  rewrite El, adj_mid in AD. destruct AD as [AD1 AD2].
  pose proof (core_nodup _ _ _ C) as ND. rewrite addrs_app, addrs_cons in ND. pose proof (NoDup_remove_2 _ _ _ ND) as NDu.
  assert (FR' : forall w, In w (l1 ++ l2) -> (In (ua w) fs <-> ual w = false)).
  { intros w Hw. apply FR. rewrite El. rewrite in_app_iff in *. cbn; tauto. }
  assert (EU : addrs (l1 ++ u0 :: l2) = addrs l1 ++ ua u :: addrs l2) by (rewrite addrs_app; reflexivity).
  pose proof (c_dlU _ _ _ C1) as DU. rewrite EU in DU.
  pose proof (dl_pv_at _ _ _ _ _ _ _ DU) as Ep. pose proof (dl_nx_at _ _ _ _ _ _ _ DU) as En.
  rewrite Ep.
  (* no backward merge *)
  assert (NoBack : adj (l1 ++ [u0]) -> exists h' l' fs',
    (let* h2 := Ok h1 in
     let* _ := live_hdr h2 (ua u) in
     let nx := h_nU h2 (ua u) in
     let* fwd := (if nx =? 0 then Ok false
                  else let* _ := live_hdr h2 nx in Ok (negb (h_al h2 nx) && h_ct h2 (ua u))) in
     let* h3 := (if fwd
                 then let* h' := remove_free (h_nU h2 (ua u)) h2 in merge_units (ua u) (h_nU h' (ua u)) h'
                 else Ok h2) in
     add_free (ua u) h3) = Ok h' /\ Inv h' l' fs' (live1 ++ live2) /\ h_log h' = h_log h).
  { intro A. cbn [bind].
    destruct (release_phase2 h1 l1 u0 l2 fs (ua u) C1 eq_refl NIu FR' A (adj_tail _ _ AD2) En TT)
      as (h' & l' & fs' & R & S & (G1 & G2 & G3) & EF).
    exists h', l', fs'. splits; [exact R|apply Done; assumption|exact G2]. }
  destruct (list_eq_dec Z.eq_dec (addrs l1) []) as [E1|E1].
  - assert (l1 = []) by (destruct l1; [reflexivity|discriminate]). subst l1.
    cbn [addrs map last] in *. change (0 =? 0) with true. cbn [bind].
    apply NoBack. cbn. tauto.
  - destruct (exists_last (l := l1)) as (l1' & w & Ew); [intro; subst; cbn in E1; congruence|].
    subst l1.
    replace (last (addrs (l1' ++ [w])) 0) with (ua w) in * by (rewrite addrs_app; cbn [addrs map]; rewrite last_app1; reflexivity).
    assert (Hw : In w ((l1' ++ [w]) ++ u0 :: l2)) by (rewrite !in_app_iff; cbn; auto).
    pose proof (core_pos _ _ _ _ C1 (addrs_In _ _ Hw)). destruct (Z.eqb_spec (ua w) 0); [lia|].
    rewrite (core_live _ _ _ _ C1 (addrs_In _ _ Hw)). cbn [bind].
    destruct (core_fields _ _ _ _ C1 Hw) as (Fws & Fwc & Fwa). rewrite Fwa, Fwc.
    destruct (negb (ual w) && uc w) eqn:Q.
    2:{ apply NoBack. rewrite <- app_assoc. cbn [app]. rewrite adj_mid. split.
        - rewrite <- app_assoc in AD1. cbn [app] in AD1. rewrite adj_mid in AD1. exact (proj1 AD1).
        - cbn. splits; auto. unfold Rok. cbn. rewrite andb_true_r, andb_comm. exact Q. }
    apply andb_prop in Q. destruct Q as [Q1 Q2]. apply negb_true_iff in Q1.
    assert (Hwf : In (ua w) fs) by (apply FR'; [rewrite !in_app_iff; cbn; auto|exact Q1]).
    destruct (in_split _ _ Hwf) as (f1 & f2 & Ef). subst fs.
    destruct (remove_free_core _ _ _ _ _ C1) as (h2 & R2 & C2 & (G1 & G2 & G3) & _).
    rewrite R2. cbn [bind].
    pose proof (NoDup_remove_2 _ _ _ (c_ndF _ _ _ C)) as NIw.
    assert (NIu' : ~ In (ua u0) (f1 ++ f2)).
    { intro H'. apply NIu. rewrite in_app_iff in *. cbn; tauto. }
    rewrite <- app_assoc in C2. cbn [app] in C2.
    destruct (merge_core h2 l1' w u0 l2 (f1 ++ f2) C2 Q2 NIu') as (h3 & R3 & C3 & (K1 & K2 & K3) & Ex).
    change (ua u0) with (ua u) in *.
    rewrite R3. cbn [bind].
    set (w' := U (ua w) (us w + (us u0 + HDR)) (uc u0) (ual w)) in *.
    assert (Neq : forall z, In z (l1' ++ l2) -> ua z <> ua w).
    { intros z Hz E. pose proof (core_nodup _ _ _ C3) as N3. rewrite addrs_app, addrs_cons in N3. apply NoDup_remove_2 in N3.
      apply N3. unfold w'. cbn [ua]. rewrite <- E, <- addrs_app. apply addrs_In; exact Hz. }
    destruct (release_phase2 h3 l1' w' l2 (f1 ++ f2) (ua u) C3 Q1) as (h' & l' & fs' & R & S & (X1 & X2 & X3) & EF).
    + exact NIw.
    + intros z Hz. pose proof (Neq z Hz). rewrite <- (FR' z) by (rewrite !in_app_iff in *; cbn; tauto).
      rewrite !in_app_iff. cbn [In]. intuition congruence.
    + eapply adj_last with (u := w); [|left; reflexivity].
      rewrite <- app_assoc in AD1. cbn [app] in AD1. rewrite adj_mid in AD1. exact (proj1 AD1).
    + exact (adj_tail _ _ AD2).
    + exact Ex.
    + rewrite K3, G3. exact TT.
    + exists h', l', fs'. splits; [exact R| |].
      * apply Done; [exact S|rewrite X1, K1, G1; reflexivity|]. rewrite EF. rewrite <- app_assoc. cbn [app]. rewrite (filter_mid_false l1' w) by exact Q1. reflexivity.
      * rewrite X2, K2, G2. reflexivity.
Qed.

Lemma core_empty : Core heap_empty [] [].
Proof.
  constructor; cbn; try reflexivity; try (intros; tauto); try (constructor; constructor); try constructor.
  - intros a H; contradiction.
  - discriminate.
  - contradiction.
Qed.

Lemma init_inv : forall size base, 0 <= size -> 0 < base ->
  exists h, heap_init size base = Ok h /\
    Inv h [U base (if size =? 0 then 5 * 1048576 else size) false false] [base] [] /\
    h_log h = [(base, (if size =? 0 then 5 * 1048576 else size) + HDR)].
Proof.
  intros size base H0 Hb. unfold heap_init.
  set (s := if size =? 0 then 5 * 1048576 else size).
  assert (Hs : 0 < s) by (unfold s; destruct (Z.eqb_spec size 0); lia).
  destruct (reserve_core heap_empty [] [] s base core_empty Hs) as (h & R & C & EL & EO & ET).
  { split; [exact Hb|constructor]. }
  exists h. splits; [exact R| |exact EL].
  constructor.
  - constructor; [exact C| |cbn; tauto|rewrite ET; cbn; lia].
    intros u [<-|[]]. cbn. tauto.
  - exists []. split; [constructor|]. cbn. constructor.
Qed.
