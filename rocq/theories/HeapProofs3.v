(** Consequences of the heap invariant, in the terms of HeapSpec. *)
From Coq Require Import Permutation.
From Verif Require Import Base HeapModel HeapSpec HeapProofs HeapProofs2.
Open Scope Z_scope.

Lemma answer_fresh : forall cs b n, base_answer cs b (n + 48) -> fresh_chunk cs b (n + HDR).
Proof.
  intros cs b n [H1 H2]. split; [exact H1|]. rewrite Forall_forall. intros c Hc.
  specialize (H2 c Hc). unfold apart in H2. unfold disj. cbn [fst snd]. pose proof HDR48. lia.
Qed.

Lemma history_inv : forall h live, heap_history h live -> exists l fs, Inv h l fs live.
Proof.
  induction 1 as [size b h H0 Hb R|h live size b h' p HH IH Hs BA R|h live1 p size live2 h' HH IH R].
  - destruct (init_inv size b H0 Hb) as (h0 & R0 & I & _). rewrite R in R0. inversion R0; subst. eauto.
  - destruct IH as (l & fs & I).
    destruct (alloc_inv _ _ _ _ _ _ I Hs (answer_fresh _ _ _ BA)) as (h1 & p1 & l' & fs' & R1 & I1 & _).
    rewrite R in R1. inversion R1; subst. eauto.
  - destruct IH as (l & fs & I).
    destruct (release_inv _ _ _ _ _ _ _ I) as (h1 & l' & fs' & R1 & I1 & _).
    rewrite R in R1. inversion R1; subst. eauto.
Qed.

Lemma dom_unit : forall h l fs a, Core h l fs -> h_dom h a = true ->
  exists u, In u l /\ ua u = a /\ h_sz h a = us u /\ h_al h a = ual u /\ h_ct h a = uc u.
Proof.
  intros h l fs a C D. apply (c_dom _ _ _ C) in D. apply in_map_iff in D. destruct D as (u & E & Hu).
  destruct (core_fields _ _ _ _ C Hu) as (F1 & F2 & F3). exists u. subst a. splits; assumption || reflexivity.
Qed.

Lemma unit_dom : forall h l fs u, Core h l fs -> In u l ->
  h_dom h (ua u) = true /\ h_sz h (ua u) = us u /\ h_al h (ua u) = ual u.
Proof.
  intros h l fs u C Hu. destruct (core_fields _ _ _ _ C Hu) as (F1 & F2 & F3).
  splits; auto. apply (c_dom _ _ _ C), addrs_In; exact Hu.
Qed.

Lemma units_pair : forall h l fs u w, Core h l fs -> In u l -> In w l -> u = w \/ disj (ext u) (ext w).
Proof.
  intros h l fs u w C Hu Hw. destruct (in_split _ _ Hu) as (l1 & l2 & E).
  destruct (units_disj _ _ _ _ _ _ _ C E Hw); auto.
Qed.

(** The range really occupied by a block: its alignment byte and its payload. *)
Lemma live_block : forall h l fs live p s, Inv h l fs live -> In (p, s) live ->
  exists u, In u l /\ ual u = true /\ own h (p, s) u /\ ua u + HDR <= p - 1 /\ p + s <= ua u + HDR + us u.
Proof.
  intros h l fs live p s [S (os & FO & PO)] Hb.
  assert (E : exists u, In u os /\ own h (p, s) u).
  { clear - FO Hb. induction FO as [|b u live os O FO IH]; [contradiction|].
    destruct Hb as [->|Hb]; [exists u; split; [left; reflexivity|exact O]|].
    destruct (IH Hb) as (v & Hv & Ov). exists v; split; [right; exact Hv|exact Ov]. }
  destruct E as (u & Hu & O). pose proof (Permutation_in _ PO Hu) as Hf. apply filter_In in Hf.
  exists u. splits; try tauto.
  - destruct O as (O1 & _). cbn in O1. pose proof (align_address_bounds (ua u + HDR)). lia.
  - destruct O as (O1 & _ & _ & O4). cbn in *. pose proof (align_address_bounds (ua u + HDR)). unfold ALIGN in *. lia.
Qed.

Lemma live_disj : forall h l fs live, Inv h l fs live ->
  ForallOrdPairs (fun b c => apart (fst b - 1) (snd b + 1) (fst c - 1) (snd c + 1)) live.
Proof.
  intros h l fs live [S (os & FO & PO)].
  pose proof (s_core _ _ _ S) as C.
  assert (NDl : NoDup l) by (eapply NoDup_map_inv; exact (core_nodup _ _ _ C)).
  assert (NDo : NoDup os) by (eapply Permutation_NoDup; [symmetry; exact PO|apply NoDup_filter; exact NDl]).
  assert (Inc : forall u, In u os -> In u l).
  { intros u Hu. pose proof (Permutation_in _ PO Hu) as Hf. apply filter_In in Hf. tauto. }
  clear PO S. revert NDo Inc. induction FO as [|b u live os O FO IH]; intros NDo Inc; [constructor|].
  inversion NDo as [|? ? N1 N2]; subst.
  constructor; [|apply IH; [exact N2|intros; apply Inc; right; assumption]].
  rewrite Forall_forall. intros c Hc.
  assert (E : exists v, In v os /\ own h c v).
  { clear - FO Hc. induction FO as [|b u live os O FO IH]; [contradiction|].
    destruct Hc as [->|Hc]; [exists u; split; [left; reflexivity|exact O]|].
    destruct (IH Hc) as (v & Hv & Ov). exists v; split; [right; exact Hv|exact Ov]. }
  destruct E as (v & Hv & Ov).
  destruct (units_pair _ _ _ u v C (Inc _ (or_introl eq_refl)) (Inc _ (or_intror Hv))) as [->|D]; [contradiction|].
  destruct O as (O1 & _ & _ & O4), Ov as (P1 & _ & _ & P4).
  pose proof (align_address_bounds (ua u + HDR)). pose proof (align_address_bounds (ua v + HDR)).
  pose proof HDR48. unfold disj, ext in D. cbn [fst snd] in D. unfold apart, ALIGN in *. lia.
Qed.

Lemma blocks_ok : forall h live, heap_history h live ->
  (forall p s, In (p, s) live ->
     p mod 16 = 0 /\ inside (p - 1) (s + 1) (h_log h) /\
     (forall a, h_dom h a = true -> apart a 48 (p - 1) (s + 1))) /\
  ForallOrdPairs (fun b c => apart (fst b - 1) (snd b + 1) (fst c - 1) (snd c + 1)) live /\
  (forall a b, h_dom h a = true -> h_dom h b = true -> a = b \/ apart a 48 b 48) /\
  (forall a, h_dom h a = true -> inside a 48 (h_log h)).
Proof.
  intros h live HH. destruct (history_inv _ _ HH) as (l & fs & I).
  pose proof (s_core _ _ _ (i_shape _ _ _ _ I)) as C. pose proof HDR48 as H48.
  splits.
  - intros p s Hb. destruct (live_block _ _ _ _ _ _ I Hb) as (u & Hu & Fu & O & B1 & B2).
    destruct O as (O1 & _ & O3 & O4). cbn [fst snd] in *.
    splits.
    + rewrite O1. apply align_address_mod.
    + destruct (tiled_in _ _ _ (c_tiled _ _ _ C) Hu) as (c & Hc & D1 & D2 & _).
      exists c. splits; [exact Hc|lia|lia].
    + intros a Ha. destruct (dom_unit _ _ _ _ C Ha) as (w & Hw & Ew & _).
      destruct (tiled_in _ _ _ (c_tiled _ _ _ C) Hw) as (_ & _ & _ & _ & Pw).
      destruct (units_pair _ _ _ u w C Hu Hw) as [->|D].
      * unfold apart. lia.
      * unfold disj, ext in D. cbn [fst snd] in D. unfold apart. lia.
  - eapply live_disj; eauto.
  - intros a b Ha Hb. destruct (dom_unit _ _ _ _ C Ha) as (u & Hu & Eu & _).
    destruct (dom_unit _ _ _ _ C Hb) as (w & Hw & Ew & _).
    destruct (tiled_in _ _ _ (c_tiled _ _ _ C) Hw) as (_ & _ & _ & _ & Pw).
    destruct (tiled_in _ _ _ (c_tiled _ _ _ C) Hu) as (_ & _ & _ & _ & Pu).
    destruct (units_pair _ _ _ u w C Hu Hw) as [->|D]; [left; congruence|].
    right. unfold disj, ext in D. cbn [fst snd] in D. unfold apart. lia.
  - intros a Ha. destruct (dom_unit _ _ _ _ C Ha) as (u & Hu & Eu & _).
    destruct (tiled_in _ _ _ (c_tiled _ _ _ C) Hu) as (c & Hc & D1 & D2 & Pu).
    exists c. splits; [exact Hc|lia|lia].
Qed.

Lemma progress : forall h live, heap_history h live ->
  (forall size b, 0 < size -> base_answer (h_log h) b (grow_request h size + 48) ->
     exists h' p, heap_alloc size b h = Ok (h', p) /\
       (h_log h' = h_log h \/
        h_log h' = (b, grow_request h size + 48) :: h_log h /\
        forall a, h_dom h a = true -> h_al h a = false -> h_sz h a < size + 16)) /\
  (forall p size, In (p, size) live -> exists h', heap_release p size h = Ok h' /\ h_log h' = h_log h).
Proof.
  intros h live HH. destruct (history_inv _ _ HH) as (l & fs & I).
  pose proof (s_core _ _ _ (i_shape _ _ _ _ I)) as C.
  split.
  - intros size b Hs BA. destruct (alloc_inv _ _ _ _ _ _ I Hs (answer_fresh _ _ _ BA)) as (h1 & p1 & l' & fs' & R1 & I1 & [E|[E NF]]).
    + exists h1, p1. split; [exact R1|left; exact E].
    + exists h1, p1. split; [exact R1|right]. split; [exact E|].
      intros a Ha Hf. destruct (dom_unit _ _ _ _ C Ha) as (w & Hw & Ew & Es & Eal & _).
      rewrite Es. apply NF; [exact Hw|congruence].
  - intros p size Hb. apply in_split in Hb. destruct Hb as (l1 & l2 & ->).
    destruct (release_inv _ _ _ _ _ _ _ I) as (h1 & l' & fs' & R1 & I1 & E). eauto.
Qed.

(** ** Tiling *)
Lemma tiled_cover : forall l cs c x, tiled l cs -> In c cs -> fst c <= x < fst c + snd c ->
  exists u, In u l /\ ua u <= x < ua u + HDR + us u.
Proof.
  induction l as [|v l IH]; intros cs c x T Hc Hx.
  - cbn in T. subst. contradiction.
  - destruct T as (P & cs' & T). destruct (uc v).
    + destruct T as (n & Hn & -> & T). destruct Hc as [<-|Hc].
      * cbn [fst snd] in Hx. destruct (Z_lt_ge_dec x (ua v + HDR + us v)).
        -- exists v. split; [left; reflexivity|lia].
        -- destruct (IH _ (ua v + HDR + us v, n) x T (or_introl eq_refl)) as (u & Hu & B); [cbn [fst snd]; lia|].
           exists u; split; [right; exact Hu|exact B].
      * destruct (IH _ c x T (or_intror Hc) Hx) as (u & Hu & B). exists u; split; [right; exact Hu|exact B].
    + destruct T as (-> & T). destruct Hc as [<-|Hc].
      * exists v. split; [left; reflexivity|]. cbn [fst snd] in Hx. lia.
      * destruct (IH _ c x T Hc Hx) as (u & Hu & B). exists u; split; [right; exact Hu|exact B].
Qed.

Lemma tiled_end : forall l1 u l2 cs, tiled (l1 ++ u :: l2) cs -> uc u = false ->
  exists c, In c cs /\ fst c <= ua u /\ ua u + HDR + us u = fst c + snd c.
Proof.
  induction l1 as [|v l1 IH]; intros u l2 cs T Hu.
  - cbn [app tiled] in T. rewrite Hu in T. destruct T as (P & cs' & -> & T).
    eexists; split; [left; reflexivity|]. cbn [fst snd]. lia.
  - cbn [app tiled] in T. destruct T as (P & cs' & T). destruct (uc v).
    + destruct T as (n & Hn & -> & T). destruct (IH _ _ _ T Hu) as (c & [<-|Hc] & B1 & B2).
      * eexists; split; [left; reflexivity|]. cbn [fst snd] in *. pose proof HDR48. lia.
      * exists c. splits; [right; exact Hc|lia|lia].
    + destruct T as (-> & T). destruct (IH _ _ _ T Hu) as (c & Hc & B1 & B2).
      exists c. splits; [right; exact Hc|lia|lia].
Qed.

Lemma tiling : forall h live, heap_history h live ->
  (forall x, inside x 1 (h_log h) <->
     exists a, h_dom h a = true /\ a <= x < a + 48 + h_sz h a) /\
  (forall a b, h_dom h a = true -> h_dom h b = true ->
     a = b \/ apart a (48 + h_sz h a) b (48 + h_sz h b)) /\
  (forall a, h_dom h a = true ->
     (h_al h a = true <-> exists p s, In (p, s) live /\ a + 48 < p /\ p + s <= a + 48 + h_sz h a)) /\
  (forall a b, h_dom h a = true -> h_dom h b = true -> h_al h a = false -> h_al h b = false ->
     b = a + 48 + h_sz h a ->
     ~ exists c, In c (h_log h) /\ fst c <= a /\ b < fst c + snd c).
Proof.
  intros h live HH. destruct (history_inv _ _ HH) as (l & fs & I).
  pose proof (s_core _ _ _ (i_shape _ _ _ _ I)) as C. pose proof HDR48 as H48.
  splits.
  - intro x. split.
    + intros (c & Hc & B1 & B2). destruct (tiled_cover _ _ c x (c_tiled _ _ _ C) Hc) as (u & Hu & B); [lia|].
      destruct (unit_dom _ _ _ _ C Hu) as (D1 & D2 & D3).
      exists (ua u). split; [exact D1|]. rewrite D2. lia.
    + intros (a & Ha & B). destruct (dom_unit _ _ _ _ C Ha) as (u & Hu & Eu & Es & _).
      destruct (tiled_in _ _ _ (c_tiled _ _ _ C) Hu) as (c & Hc & D1 & D2 & Pu).
      exists c. splits; [exact Hc|lia|lia].
  - intros a b Ha Hb. destruct (dom_unit _ _ _ _ C Ha) as (u & Hu & Eu & Es & _).
    destruct (dom_unit _ _ _ _ C Hb) as (w & Hw & Ew & Fs & _).
    destruct (units_pair _ _ _ u w C Hu Hw) as [->|D]; [left; congruence|].
    right. unfold disj, ext in D. cbn [fst snd] in D. unfold apart. lia.
  - intros a Ha. destruct (dom_unit _ _ _ _ C Ha) as (u & Hu & Eu & Es & Eal & _).
    split.
    + intro Hal. destruct I as [S (os & FO & PO)].
      assert (Hf : In u os).
      { eapply Permutation_in; [symmetry; exact PO|]. apply filter_In. split; [exact Hu|congruence]. }
      assert (E : exists b, In b live /\ own h b u).
      { clear - FO Hf. induction FO as [|b v live os O FO IH]; [contradiction|].
        destruct Hf as [->|Hf]; [exists b; split; [left; reflexivity|exact O]|].
        destruct (IH Hf) as (b' & Hb & Ob). exists b'; split; [right; exact Hb|exact Ob]. }
      destruct E as ([p s] & Hb & (O1 & _ & O3 & O4)). cbn [fst snd] in *.
      exists p, s. pose proof (align_address_bounds (ua u + HDR)). unfold ALIGN in *. splits; [exact Hb|lia|lia].
    + intros (p & s & Hb & B1 & B2).
      destruct (live_block _ _ _ _ _ _ I Hb) as (w & Hw & Fw & (O1 & _ & O3 & O4) & C1 & C2). cbn [fst snd] in *.
      destruct (units_pair _ _ _ u w C Hu Hw) as [->|D]; [congruence|].
      exfalso. unfold disj, ext in D. cbn [fst snd] in D. lia.
  - intros a b Ha Hb Fa Fb E (c & Hc & B1 & B2).
    destruct (dom_unit _ _ _ _ C Ha) as (u & Hu & Eu & Es & Eal & _).
    destruct (dom_unit _ _ _ _ C Hb) as (w & Hw & Ew & Fs & Fal & _).
    destruct (in_split _ _ Hu) as (l1 & l2 & El).
    pose proof (c_tiled _ _ _ C) as T. rewrite El in T.
    destruct (uc u) eqn:Q.
    + destruct l2 as [|v l2]; [rewrite (tiled_last _ _ _ T) in Q; discriminate|].
      pose proof (tiled_next _ _ _ _ _ T Q) as Ev.
      assert (Hv : In v l) by (rewrite El; apply in_or_app; cbn; auto).
      destruct (units_pair _ _ _ v w C Hv Hw) as [->|D].
      * pose proof (s_adj _ _ _ (i_shape _ _ _ _ I)) as A. rewrite El, adj_mid in A.
        destruct A as [_ [A _]]. unfold Rok in A. rewrite Q in A.
        rewrite <- Eal, <- Fal, Fa, Fb in A. discriminate.
      * destruct (tiled_in _ _ _ (c_tiled _ _ _ C) Hv) as (_ & _ & _ & _ & Pv).
        destruct (tiled_in _ _ _ (c_tiled _ _ _ C) Hw) as (_ & _ & _ & _ & Pw).
        unfold disj, ext in D. cbn [fst snd] in D. lia.
    + destruct (tiled_end _ _ _ _ T Q) as (c' & Hc' & E1 & E2).
      assert (Pu : 0 < us u) by (destruct (tiled_in _ _ _ (c_tiled _ _ _ C) Hu) as (_ & _ & _ & _ & P); exact P).
      assert (c = c' \/ disj c c').
      { destruct (c_chunks _ _ _ C) as [D _]. clear - D Hc Hc'.
        induction D as [|x cs D1 D2 IH]; [contradiction|]. rewrite Forall_forall in D1.
        destruct Hc as [->|Hc], Hc' as [->|Hc']; auto.
        right. specialize (D1 _ Hc). unfold disj in *. tauto. }
      destruct H as [->|D]; [lia|]. unfold disj in D. lia.
Qed.

(** ** Everything released *)
Lemma all_free_chunks : forall l cs, tiled l cs -> adj l -> filter ual l = [] -> cs = map ext l.
Proof.
  induction l as [|u l IH]; intros cs T A F; [exact T|].
  cbn [filter] in F. destruct (ual u) eqn:Fu; [discriminate|].
  destruct A as [A1 A2]. cbn [tiled] in T. destruct T as (P & cs' & T).
  destruct (uc u) eqn:Q.
  - destruct T as (n & Hn & -> & T). exfalso.
    destruct l as [|v l]; [discriminate|].
    cbn [filter] in F. destruct (ual v) eqn:Fv; [discriminate|].
    unfold Rok in A1. rewrite Q, Fu, Fv in A1. discriminate.
  - destruct T as (-> & T). cbn [map]. f_equal; auto.
Qed.

Lemma destroy_core : forall f2 f1 h l fuel (dm : Z -> bool),
  Core h l (f1 ++ f2) -> (length f2 < fuel)%nat -> (forall a, In a f2 -> dm a = true) ->
  destroy_loop fuel (with_dom dm h) (hd 0 f2) = Ok (map (fun a => (a, h_sz h a + HDR)) f2).
Proof.
  induction f2 as [|a f2 IH]; intros f1 h l fuel dm C Hf Hd; (destruct fuel; [cbn in Hf; lia|]).
  - reflexivity.
  - cbn [destroy_loop hd].
    assert (Ha : In a (addrs l)) by (apply (c_inc _ _ _ C), in_or_app; cbn; auto).
    pose proof (core_pos _ _ _ _ C Ha). destruct (Z.eqb_spec a 0); [lia|].
    unfold live_hdr. cbn [with_dom h_dom]. rewrite (Hd a (or_introl eq_refl)). cbn [bind].
    cbn [with_dom h_nF h_sz].
    rewrite (dl_nx_at _ _ _ _ _ _ _ (c_dlF _ _ _ C)).
    match goal with |- context [destroy_loop fuel ?X _] => change X with (with_dom (upd dm a false) h) end.
    rewrite (IH (f1 ++ [a]) h l fuel).
    + reflexivity.
    + rewrite <- app_assoc. exact C.
    + cbn in Hf; lia.
    + intros b Hb. rewrite upd_other; [apply Hd; right; exact Hb|].
      pose proof (c_ndF _ _ _ C) as ND. apply NoDup_remove_2 in ND. intro; subst. apply ND, in_or_app; auto.
Qed.

Lemma all_released : forall h, heap_history h [] ->
  (forall c, In c (h_log h) -> h_dom h (fst c) = true /\ h_al h (fst c) = false /\ h_sz h (fst c) = snd c - 48) /\
  (forall a, h_dom h a = true -> exists n, In (a, n) (h_log h)) /\
  (exists given, heap_destroy h = Ok given /\ Permutation given (h_log h)).
Proof.
  intros h HH. destruct (history_inv _ _ HH) as (l & fs & [S (os & FO & PO)]).
  inversion FO; subst. apply Permutation_nil in PO.
  pose proof (s_core _ _ _ S) as C. pose proof HDR48 as H48.
  pose proof (all_free_chunks _ _ (c_tiled _ _ _ C) (s_adj _ _ _ S) PO) as EL.
  assert (Fr : forall u, In u l -> ual u = false).
  { intros u Hu. destruct (ual u) eqn:Q; [|reflexivity].
    assert (X : In u (filter ual l)) by (apply filter_In; auto). rewrite PO in X. contradiction. }
  splits.
  - intros c Hc. rewrite EL in Hc. apply in_map_iff in Hc. destruct Hc as (u & <- & Hu).
    destruct (unit_dom _ _ _ _ C Hu) as (D1 & D2 & D3). unfold ext. cbn [fst snd].
    splits; [exact D1|rewrite D3; auto|lia].
  - intros a Ha. destruct (dom_unit _ _ _ _ C Ha) as (u & Hu & Eu & _).
    exists (HDR + us u). rewrite EL. subst a. apply (in_map ext _ _ Hu).
  - exists (map (fun a => (a, h_sz h a + HDR)) fs). split.
    + unfold heap_destroy. rewrite (c_free _ _ _ C).
      replace h with (with_dom (h_dom h) h) at 2 by (destruct h; reflexivity).
      apply (destroy_core fs [] h l); [exact C| |].
      * pose proof (c_cnt _ _ _ C).
        assert (length fs <= length l)%nat; [|lia].
        rewrite <- (map_length ua l). apply NoDup_incl_length; [apply (c_ndF _ _ _ C)|apply (c_inc _ _ _ C)].
      * intros a Ha. apply (c_dom _ _ _ C), (c_inc _ _ _ C); exact Ha.
    + rewrite EL.
      assert (P : Permutation fs (addrs l)).
      { apply NoDup_Permutation; [apply (c_ndF _ _ _ C)|eapply core_nodup; eauto|].
        intro a. split; [apply (c_inc _ _ _ C)|].
        intro Ha. apply in_map_iff in Ha. destruct Ha as (u & <- & Hu). apply (s_fr _ _ _ S u Hu). auto. }
      rewrite P. unfold addrs. rewrite map_map.
      replace (map ext l) with (map (fun u => (ua u, h_sz h (ua u) + HDR)) l); [reflexivity|].
      apply map_ext_in. intros u Hu. destruct (unit_dom _ _ _ _ C Hu) as (_ & D2 & _).
      unfold ext. rewrite D2. f_equal. lia.
Qed.

(** ** Alignment of headers when all sizes are multiples of 8 *)
Definition al8 (h : heap) : Prop :=
  h_total h mod 8 = 0 /\ forall a, h_dom h a = true -> a mod 8 = 0 /\ h_sz h a mod 8 = 0.

Definition same_ds (h h' : heap) : Prop :=
  h_dom h' = h_dom h /\ h_sz h' = h_sz h /\ h_total h' = h_total h.

Lemma al8_same : forall h h', same_ds h h' -> al8 h -> al8 h'.
Proof. intros h h' (E1 & E2 & E3) [A B]. unfold al8. rewrite E1, E2, E3. split; assumption. Qed.

Lemma live_ok : forall h a t, live_hdr h a = Ok t -> h_dom h a = true.
Proof. unfold live_hdr. intros h a t. destruct (h_dom h a); [reflexivity|discriminate]. Qed.

Lemma set_pU_ds : forall p v h h', set_pU p v h = Ok h' -> same_ds h h'.
Proof.
  unfold set_pU, same_ds. intros p v h h' R. destruct (p =? 0); [inversion R; subst; auto|].
  destruct (live_hdr h p); cbn in R; inversion R; subst; cbn; auto.
Qed.
Lemma set_pF_ds : forall p v h h', set_pF p v h = Ok h' -> same_ds h h'.
Proof.
  unfold set_pF, same_ds. intros p v h h' R. destruct (p =? 0); [inversion R; subst; auto|].
  destruct (live_hdr h p); cbn in R; inversion R; subst; cbn; auto.
Qed.
Lemma set_nF_ds : forall p v h h', set_nF p v h = Ok h' -> same_ds h h'.
Proof.
  unfold set_nF, same_ds. intros p v h h' R. destruct (p =? 0); [inversion R; subst; auto|].
  destruct (live_hdr h p); cbn in R; inversion R; subst; cbn; auto.
Qed.
Lemma same_ds_trans : forall a b c, same_ds a b -> same_ds b c -> same_ds a c.
Proof. intros a b c (A1 & A2 & A3) (B1 & B2 & B3). unfold same_ds. splits; congruence. Qed.

Lemma remove_free_ds : forall u h h', remove_free u h = Ok h' -> same_ds h h'.
Proof.
  intros u h h' R. unfold remove_free in R.
  apply bind_ok in R. destruct R as (t & _ & R).
  apply bind_ok in R. destruct R as (h1 & R1 & R).
  apply bind_ok in R. destruct R as (h2 & R2 & R).
  apply set_nF_ds in R1. apply set_pF_ds in R2.
  eapply same_ds_trans; [exact R1|]. eapply same_ds_trans; [exact R2|].
  inversion R; subst. destruct (u =? h_free h2); unfold same_ds; cbn; auto.
Qed.
Lemma add_free_ds : forall u h h', add_free u h = Ok h' -> same_ds h h'.
Proof.
  intros u h h' R. unfold add_free in R.
  apply bind_ok in R. destruct R as (h1 & R1 & R).
  apply bind_ok in R. destruct R as (t & _ & R).
  apply set_pF_ds in R1. eapply same_ds_trans; [exact R1|].
  inversion R; subst. unfold same_ds; cbn; auto.
Qed.

Lemma mod8_add : forall a b, a mod 8 = 0 -> b mod 8 = 0 -> (a + b) mod 8 = 0.
Proof. intros. rewrite Z.add_mod by lia. rewrite H, H0. reflexivity. Qed.
Lemma mod8_sub : forall a b, a mod 8 = 0 -> b mod 8 = 0 -> (a - b) mod 8 = 0.
Proof. intros. rewrite Zminus_mod. rewrite H, H0. reflexivity. Qed.
Lemma HDR8 : HDR mod 8 = 0.
Proof. rewrite HDR48. reflexivity. Qed.

Lemma split_al8 : forall u s h h', s mod 8 = 0 -> split_unit u s h = Ok h' -> al8 h -> al8 h'.
Proof.
  intros u s h h' Hs R A. unfold split_unit in R.
  apply bind_ok in R. destruct R as (t & L & R). apply live_ok in L.
  destruct (s + HDR <? h_sz h u); [|inversion R; subst; exact A].
  set (h3 := with_nF _ _) in R.
  apply bind_ok in R. destruct R as (h4 & R4 & R).
  apply bind_ok in R. destruct R as (h5 & R5 & R).
  apply set_pU_ds in R4. apply set_pF_ds in R5.
  pose proof (same_ds_trans _ _ _ R4 R5) as (D1 & D2 & D3).
  inversion R; subst. destruct A as [A1 A2]. destruct (A2 u L) as [Au As].
  pose proof HDR8. unfold al8. cbn. rewrite D3, D1, D2. unfold h3. cbn.
  split; [exact A1|]. intros a Ha.
  destruct (Z.eq_dec a u) as [->|Nu].
  - rewrite upd_same. auto.
  - rewrite upd_other by exact Nu.
    destruct (Z.eq_dec a (u + HDR + s)) as [->|Nn].
    + rewrite upd_same. split; [auto using mod8_add|auto using mod8_sub].
    + rewrite upd_other by exact Nn. rewrite upd_other in Ha by exact Nn. auto.
Qed.

Lemma merge_al8 : forall u v h h', merge_units u v h = Ok h' -> al8 h -> al8 h'.
Proof.
  intros u v h h' R A. unfold merge_units in R.
  apply bind_ok in R. destruct R as (t & L & R). apply live_ok in L.
  apply bind_ok in R. destruct R as (t' & L' & R). apply live_ok in L'.
  set (h2 := with_nU _ _) in R.
  apply bind_ok in R. destruct R as (h3 & R3 & R). apply set_pU_ds in R3. destruct R3 as (D1 & D2 & D3).
  inversion R; subst. destruct A as [A1 A2]. destruct (A2 u L) as [Au As]. destruct (A2 v L') as [Av Avs].
  pose proof HDR8. unfold al8. cbn. rewrite D3, D1, D2. unfold h2. cbn.
  split; [exact A1|]. intros a Ha.
  assert (h_dom h a = true).
  { unfold upd in Ha. destruct (a =? v); [discriminate|exact Ha]. }
  destruct (Z.eq_dec a u) as [->|Nu].
  - rewrite upd_same. auto using mod8_add.
  - rewrite upd_other by exact Nu. auto.
Qed.

Lemma reserve_al8 : forall s b h h', s mod 8 = 0 -> b mod 8 = 0 -> heap_reserve s b h = Ok h' -> al8 h -> al8 h'.
Proof.
  intros s b h h' Hs Hb R [A1 A2]. unfold heap_reserve in R.
  apply bind_ok in R. destruct R as (h2 & R2 & R). apply bind_ok in R. destruct R as (h3 & R3 & R).
  apply set_pF_ds in R2. apply set_pU_ds in R3. pose proof (same_ds_trans _ _ _ R2 R3) as (D1 & D2 & D3).
  inversion R; subst. unfold al8. cbn. rewrite D1, D2. cbn.
  split; [auto using mod8_add|]. intros a Ha.
  destruct (Z.eq_dec a b) as [->|Nb]; [rewrite upd_same; auto|].
  rewrite upd_other in * by exact Nb. auto.
Qed.

Lemma alloc_al8 : forall size b h h' p, size mod 8 = 0 -> b mod 8 = 0 ->
  heap_alloc size b h = Ok (h', p) -> al8 h -> al8 h'.
Proof.
  intros size b h h' p Hs Hb R A. unfold heap_alloc in R.
  destruct (size =? 0); [inversion R; subst; exact A|].
  assert (Hs16 : (size + ALIGN) mod 8 = 0) by (apply mod8_add; [exact Hs|reflexivity]).
  apply bind_ok in R. destruct R as (c & _ & R).
  apply bind_ok in R. destruct R as (h1 & R1 & R).
  assert (A1 : al8 h1).
  { destruct (c =? 0); [|inversion R1; subst; exact A].
    assert (G : grow_request h size mod 8 = 0).
    { unfold grow_request. replace ((h_total h + (size + ALIGN)) * 2) with ((h_total h + (size + ALIGN)) + (h_total h + (size + ALIGN))) by lia.
      apply mod8_add; apply mod8_add; try exact Hs16; exact (proj1 A). }
    exact (reserve_al8 _ _ _ _ G Hb R1 A). }
  apply bind_ok in R. destruct R as (h2 & R2 & R).
  pose proof (split_al8 _ _ _ _ Hs16 R2 A1) as A2.
  apply bind_ok in R. destruct R as (t & _ & R).
  apply bind_ok in R. destruct R as (h4 & R4 & R). apply remove_free_ds in R4.
  inversion R; subst. apply (al8_same h4); [unfold same_ds; auto|].
  eapply al8_same; [exact R4|]. exact A2.
Qed.

Lemma release_al8 : forall p size h h', heap_release p size h = Ok h' -> al8 h -> al8 h'.
Proof.
  intros p size h h' R A. unfold heap_release in R.
  destruct (size =? 0); [inversion R; subst; exact A|].
  apply bind_ok in R. destruct R as (off & _ & R).
  apply bind_ok in R. destruct R as (t & _ & R).
  set (h1 := with_al _ h) in R.
  assert (A1 : al8 h1) by exact A. clearbody h1.
  apply bind_ok in R. destruct R as (back & _ & R).
  apply bind_ok in R. destruct R as (h2 & R2 & R).
  assert (A2 : al8 h2).
  { destruct back; [|inversion R2; subst; exact A1].
    apply bind_ok in R2. destruct R2 as (h1' & R1' & R2). apply remove_free_ds in R1'.
    eapply merge_al8; [exact R2|]. eapply al8_same; eauto. }
  apply bind_ok in R. destruct R as (t' & _ & R).
  apply bind_ok in R. destruct R as (fwd & _ & R).
  apply bind_ok in R. destruct R as (h3 & R3 & R).
  assert (A3 : al8 h3).
  { destruct fwd; [|inversion R3; subst; exact A2].
    apply bind_ok in R3. destruct R3 as (h1' & R1' & R3). apply remove_free_ds in R1'.
    eapply merge_al8; [exact R3|]. eapply al8_same; eauto. }
  apply add_free_ds in R. eapply al8_same; eauto.
Qed.
