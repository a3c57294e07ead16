(** Proofs about the pool allocator. *)
From Coq Require Import Permutation.
From Verif Require Import Base HeapModel HeapSpec PoolModel PoolSpec HashProofs.
Open Scope Z_scope.

(** ** Lists of pairwise related elements *)
Lemma FOP_in : forall A (R : A -> A -> Prop) l x y, (forall a b, R a b -> R b a) ->
  ForallOrdPairs R l -> In x l -> In y l -> x = y \/ R x y.
Proof.
  intros A R l x y S F Hx Hy. induction F as [|z l F1 F2 IH]; [contradiction|].
  rewrite Forall_forall in F1. destruct Hx as [->|Hx], Hy as [->|Hy]; auto.
Qed.

Lemma FOP_app : forall A (R : A -> A -> Prop) l1 l2,
  ForallOrdPairs R (l1 ++ l2) <->
  ForallOrdPairs R l1 /\ ForallOrdPairs R l2 /\ (forall x y, In x l1 -> In y l2 -> R x y).
Proof.
  induction l1 as [|a l1 IH]; intros l2.
  - cbn. split; [intros H; splits; [constructor|exact H|intros ? ? []]|tauto].
  - cbn [app]. split.
    + intros H. inversion H as [|? ? F1 F2]; subst. apply IH in F2. destruct F2 as (A1 & A2 & A3).
      rewrite Forall_app in F1. destruct F1 as [F1 F1'].
      splits; [constructor; assumption|assumption|].
      intros x y [<-|Hx] Hy; [rewrite Forall_forall in F1'; auto|auto].
    + intros (A1 & A2 & A3). inversion A1 as [|? ? F1 F2]; subst.
      constructor.
      * rewrite Forall_app. split; [exact F1|]. rewrite Forall_forall. intros y Hy. apply A3; [left; reflexivity|exact Hy].
      * apply IH. splits; [assumption|assumption|]. intros x y Hx Hy. apply A3; [right; exact Hx|exact Hy].
Qed.

Lemma FOP_perm : forall A (R : A -> A -> Prop), (forall a b, R a b -> R b a) ->
  forall l l', Permutation l l' -> ForallOrdPairs R l -> ForallOrdPairs R l'.
Proof.
  intros A R S l l' P. induction P as [|x l l' P IH|x y l|l l' l'' P1 IH1 P2 IH2]; intro F.
  - constructor.
  - inversion F as [|? ? F1 F2]; subst. constructor; [|auto].
    rewrite Forall_forall in *. intros z Hz. apply F1. eapply Permutation_in; [symmetry; exact P|exact Hz].
  - inversion F as [|? ? F1 F2]; subst. inversion F2 as [|? ? F3 F4]; subst. inversion F1; subst.
    constructor; [constructor; auto|constructor; assumption].
  - auto.
Qed.

Lemma FOP_split : forall A (R : A -> A -> Prop) l,
  (forall l1 x l2 y l3, l = l1 ++ x :: l2 ++ y :: l3 -> R x y) -> ForallOrdPairs R l.
Proof.
  induction l as [|a l IH]; intro H; [constructor|].
  constructor.
  - rewrite Forall_forall. intros y Hy. apply in_split in Hy. destruct Hy as (l2 & l3 & ->).
    apply (H [] a l2 y l3). reflexivity.
  - apply IH. intros l1 x l2 y l3 ->. apply (H (a :: l1) x l2 y l3). reflexivity.
Qed.

Lemma FOP_split_inv : forall A (R : A -> A -> Prop) l1 x l2 y l3,
  ForallOrdPairs R (l1 ++ x :: l2 ++ y :: l3) -> R x y.
Proof.
  intros A R l1 x l2 y l3 F. apply FOP_app in F. destruct F as (_ & F & _).
  inversion F as [|? ? F1 F2]; subst. rewrite Forall_forall in F1. apply F1, in_or_app; right; left; reflexivity.
Qed.

Definition papart (x y : Z * Z) : Prop := apart (fst x) (snd x) (fst y) (snd y).
Lemma papart_sym : forall x y, papart x y -> papart y x.
Proof. unfold papart, apart; intros; tauto. Qed.

(** ** Base allocator *)
Lemma base_release_ok : forall p n own, In (p, n) own ->
  exists own', base_release p n own = Ok own' /\ Permutation own ((p, n) :: own').
Proof.
  intros p n. induction own as [|[q m] own IH]; intros H; [contradiction|].
  cbn [base_release]. destruct ((q =? p) && (m =? n)) eqn:E.
  - apply andb_prop in E. destruct E as [E1 E2]. apply Z.eqb_eq in E1, E2. subst.
    exists own. split; [reflexivity|apply Permutation_refl].
  - destruct H as [H|H].
    + inversion H; subst. rewrite !Z.eqb_refl in E. discriminate.
    + destruct (IH H) as (own' & R & P). rewrite R. cbn [bind]. eexists; split; [reflexivity|].
      rewrite P. apply perm_swap.
Qed.

(** ** Size classes *)
Lemma MAXU : MAX_UNIT_SIZE = 2048. Proof. reflexivity. Qed.
Lemma BLK : BLOCK_SIZE = 32768. Proof. reflexivity. Qed.
Lemma NBH : NB_HEAPS = 128. Proof. reflexivity. Qed.
Lemma MBK : MEMORY_BLOCK = 8. Proof. reflexivity. Qed.

Definition cls (s : Z) : Z := (s + 15) / 16 - 1.

Lemma cls_bounds : forall s, 0 < s <= 2048 -> 0 <= cls s < 128.
Proof.
  intros s H. unfold cls. pose proof (Z.div_le_mono 16 (s + 15) 16).
  pose proof (Z.div_le_mono (s + 15) 2063 16). change (16 / 16) with 1 in *. change (2063 / 16) with 128 in *. lia.
Qed.

Lemma cls_size : forall s, 0 < s -> s <= (cls s + 1) * 16.
Proof.
  intros s H. unfold cls. pose proof (Z.div_mod (s + 15) 16). pose proof (Z.mod_pos_bound (s + 15) 16). lia.
Qed.

Lemma rounded_cls : forall s, rounded s = 16 * (cls s + 1).
Proof. intros. unfold rounded, cls. lia. Qed.

Lemma unit_size_ok : forall i, 0 <= i < 128 -> unit_size i = Ok ((i + 1) * 16).
Proof.
  intros i H. unfold unit_size. rewrite NBH.
  destruct (Z.leb_spec 0 i); [|lia]. destruct (Z.ltb_spec i 128); [|lia]. reflexivity.
Qed.

Lemma map_loop_ok : forall n i j m,
  1 <= i -> i + Z.of_nat n <= 2049 -> 0 <= j -> 16 * j < i <= 16 * (j + 1) + 1 ->
  (forall s, 1 <= s < i -> m s = Some (cls s)) -> 
  exists m', map_loop n i j m = Ok m' /\ forall s, 1 <= s < i + Z.of_nat n -> m' s = Some (cls s).
Proof.
  induction n as [|n IH]; intros i j m Hi Hn Hj Hij Hm.
  - exists m. split; [reflexivity|]. intros s Hs. apply Hm. lia.
  - cbn [map_loop]. rewrite unit_size_ok by lia. cbn [bind].
    assert (Step : forall j', cls i = j' -> forall s, 1 <= s < i + 1 -> upd m i (Some j') s = Some (cls s)).
    { intros j' E s Hs. destruct (Z.eq_dec s i) as [->|Ne]; [rewrite upd_same; congruence|].
      rewrite upd_other by exact Ne. apply Hm; lia. }
    destruct (Z.leb_spec i ((j + 1) * 16)).
    + destruct (IH (i + 1) j (upd m i (Some j))) as (m' & R & E); try lia.
      * apply Step. unfold cls. replace (i + 15) with ((i - 16 * j - 1) + (j + 1) * 16) by lia.
        rewrite Z.div_add by lia. rewrite Z.div_small by lia. lia.
      * exists m'. split; [exact R|]. intros s Hs. apply E. lia.
    + destruct (IH (i + 1) (j + 1) (upd m i (Some (j + 1)))) as (m' & R & E); try lia.
      * apply Step. unfold cls. replace (i + 15) with (0 + (j + 2) * 16) by lia.
        rewrite Z.div_add by lia. change (0 / 16) with 0. lia.
      * exists m'. split; [exact R|]. intros s Hs. apply E. lia.
Qed.

Lemma size_map_ok : exists m, size_map = Ok m /\ forall s, 1 <= s <= 2048 -> m s = Some (cls s).
Proof.
  unfold size_map. rewrite MAXU.
  destruct (map_loop_ok (Z.to_nat 2048) 1 0 (upd (fun _ => None) 0 (Some (-1)))) as (m & R & E); try lia.
  exists m. split; [exact R|]. intros s Hs. apply E. lia.
Qed.

(** ** Units of the blocks *)
Definition ub (c : Z) : Z := 16 * (c + 1).
Definition units_of (b c : Z) : list Z := map (fun k => b + ub c * k) (zrange 0 (32768 / ub c)).

Fixpoint units (i : Z) (bcl : list (Z * Z)) : list Z :=
  match bcl with
  | [] => []
  | (b, c) :: r => (if c =? i then units_of b c else []) ++ units i r
  end.

Lemma units_of_in : forall b c u, 0 <= c < 128 -> In u (units_of b c) ->
  exists k, 0 <= k /\ u = b + ub c * k /\ ub c * (k + 1) <= 32768.
Proof.
  intros b c u Hc H. unfold units_of in H. apply in_map_iff in H. destruct H as (k & <- & Hk).
  apply In_zrange in Hk. exists k. splits; [lia|reflexivity|].
  assert (P : 0 < ub c) by (unfold ub; lia).
  pose proof (Z.mul_div_le 32768 (ub c) P). nia.
Qed.

Lemma units_of_inside : forall b c u, 0 <= c < 128 -> In u (units_of b c) -> b <= u /\ u + ub c <= b + 32768.
Proof.
  intros b c u Hc H. destruct (units_of_in _ _ _ Hc H) as (k & K1 & -> & K2). unfold ub in *. nia.
Qed.

Definition wf_blocks (bcl : list (Z * Z)) : Prop :=
  Forall (fun x => 0 <= snd x < 128 /\ 0 < fst x /\ fst x mod 16 = 0) bcl /\
  ForallOrdPairs (fun x y => apart (fst x) 32768 (fst y) 32768) bcl.

Lemma units_block : forall bcl i u, wf_blocks bcl -> In u (units i bcl) ->
  exists b, In (b, i) bcl /\ In u (units_of b i).
Proof.
  induction bcl as [|[b c] r IH]; intros i u [W1 W2] H; [contradiction|].
  cbn [units] in H. apply in_app_or in H. destruct H as [H|H].
  - destruct (Z.eqb_spec c i); [|contradiction]. subst c. exists b. split; [left; reflexivity|exact H].
  - destruct (IH i u) as (b' & H1 & H2); [split; [inversion W1; assumption|inversion W2; assumption]|exact H|].
    exists b'. split; [right; exact H1|exact H2].
Qed.

Lemma block_units : forall bcl b i u, In (b, i) bcl -> In u (units_of b i) -> In u (units i bcl).
Proof.
  induction bcl as [|[b' c] r IH]; intros b i u H Hu; [contradiction|].
  cbn [units]. apply in_or_app. destruct H as [H|H].
  - inversion H; subst. rewrite Z.eqb_refl. left; exact Hu.
  - right. eapply IH; eauto.
Qed.

Lemma units_apart : forall bcl i j u v, wf_blocks bcl -> In u (units i bcl) -> In v (units j bcl) ->
  (u = v /\ i = j) \/ apart u (ub i) v (ub j).
Proof.
  intros bcl i j u v W Hu Hv.
  destruct (units_block _ _ _ W Hu) as (b & Hb & Hub).
  destruct (units_block _ _ _ W Hv) as (b' & Hb' & Hvb).
  destruct W as [W1 W2].
  assert (Ci : 0 <= i < 128) by (rewrite Forall_forall in W1; apply (W1 _ Hb)).
  assert (Cj : 0 <= j < 128) by (rewrite Forall_forall in W1; apply (W1 _ Hb')).
  destruct (FOP_in _ _ _ (b, i) (b', j) (fun x y H => match H with or_introl a => or_intror a | or_intror a => or_introl a end) W2 Hb Hb') as [E|A].
  - inversion E; subst b' j.
    destruct (units_of_in _ _ _ Ci Hub) as (k & K1 & -> & _).
    destruct (units_of_in _ _ _ Ci Hvb) as (k' & K1' & -> & _).
    destruct (Z.eq_dec k k') as [->|N]; [left; split; reflexivity|].
    right. unfold apart. assert (0 < ub i) by (unfold ub; lia). assert (k + 1 <= k' \/ k' + 1 <= k) by lia. nia.
  - right. destruct (units_of_inside _ _ _ Ci Hub), (units_of_inside _ _ _ Cj Hvb).
    unfold apart in *. cbn [fst snd] in *. lia.
Qed.

Lemma units_of_nodup : forall b c, 0 <= c -> NoDup (units_of b c).
Proof.
  intros b c Hc. unfold units_of. apply FinFun.Injective_map_NoDup; [|apply NoDup_zrange].
  intros x y E. assert (ub c <> 0) by (unfold ub; lia). nia.
Qed.

Lemma units_nodup : forall bcl i, wf_blocks bcl -> NoDup (units i bcl).
Proof.
  induction bcl as [|[b c] r IH]; intros i W; [constructor|].
  assert (W' : wf_blocks r) by (destruct W as [W1 W2]; split; [inversion W1; assumption|inversion W2; assumption]).
  cbn [units]. destruct (Z.eqb_spec c i) as [->|N]; [|cbn; auto].
  assert (Ci : 0 <= i < 128) by (destruct W as [W1 _]; inversion W1 as [|? ? Q _]; subst; apply Q).
  assert (DJ : forall x, In x (units_of b i) -> In x (units i r) -> False).
  { intros x H1 H2. destruct (units_block _ _ _ W' H2) as (b' & Hb' & Hx).
    destruct W as [_ W2]. inversion W2 as [|? ? F1 F2]; subst. rewrite Forall_forall in F1. specialize (F1 _ Hb').
    destruct (units_of_inside _ _ _ Ci H1), (units_of_inside _ _ _ Ci Hx). unfold apart, ub in *. cbn [fst snd] in *. lia. }
  pose proof (units_of_nodup b i (proj1 Ci)) as N1. pose proof (IH i W') as N2.
  revert N1 DJ. generalize (units_of b i). induction l as [|x l IHl]; intros N1 DJ; cbn; [exact N2|].
  inversion N1; subst. constructor.
  - intro H. apply in_app_or in H. destruct H as [H|H]; [contradiction|]. apply (DJ x); [left; reflexivity|exact H].
  - apply IHl; [assumption|]. intros y Hy. apply DJ. right; exact Hy.
Qed.

Lemma units_app : forall l1 l2 i, units i (l1 ++ l2) = units i l1 ++ units i l2.
Proof. induction l1 as [|[b c] r IH]; intros l2 i; cbn [units app]; [reflexivity|]. rewrite IH, app_assoc. reflexivity. Qed.

(** ** Free lists *)
Fixpoint chain (nx : Z -> option Z) (a : Z) (l : list Z) : Prop :=
  match l with
  | [] => a = 0
  | x :: l' => a = x /\ x <> 0 /\ exists n, nx x = Some n /\ chain nx n l'
  end.

Lemma chain_ext : forall l nx nx' a, (forall x, In x l -> nx' x = nx x) -> chain nx a l -> chain nx' a l.
Proof.
  induction l as [|x l IH]; intros nx nx' a H C; [exact C|].
  destruct C as (E & N & n & Hn & C). cbn [chain]. splits; [exact E|exact N|].
  exists n. split; [rewrite H; [exact Hn|left; reflexivity]|].
  apply (IH nx); [|exact C]. intros y Hy. apply H. right; exact Hy.
Qed.

Lemma chain_units_other : forall n start us i nx a,
  (forall k, i <= k < i + Z.of_nat n -> a <> start + us * k) -> chain_units n start us i nx a = nx a.
Proof.
  induction n as [|n IH]; intros start us i nx a H; [reflexivity|].
  cbn [chain_units]. destruct n as [|n].
  - apply upd_other. apply H. lia.
  - rewrite IH.
    + apply upd_other. apply H. lia.
    + intros k Hk. apply H. lia.
Qed.

Lemma chain_units_chain : forall n start us i nx,
  0 < us -> 0 < start -> 0 <= i -> (0 < n)%nat ->
  chain (chain_units n start us i nx) (start + us * i) (map (fun k => start + us * k) (zrange i (Z.of_nat n))).
Proof.
  induction n as [|n IH]; intros start us i nx Hu Hs Hi Hn; [lia|].
  rewrite zrange_cons by lia. cbn [map chain]. splits; [reflexivity|nia|].
  cbn [chain_units]. destruct n as [|n].
  - exists 0. rewrite upd_same. split; [reflexivity|]. rewrite zrange_nil by lia. reflexivity.
  - exists (start + us * (i + 1)). split.
    + rewrite chain_units_other; [apply upd_same|]. intros k Hk. nia.
    + replace (Z.of_nat (S (S n)) - 1) with (Z.of_nat (S n)) by lia.
      apply IH; lia.
Qed.

(** ** Invariant *)
Definition is_small (b : Z * Z) : bool := snd b <=? 2048.
Definition of_class (i : Z) (b : Z * Z) : bool := is_small b && (cls (snd b) =? i).
Definition large (b : Z * Z) : bool := negb (is_small b).

Record PInv (p : pool) (live ever : list (Z * Z)) (bcl : list (Z * Z)) (F : Z -> list Z) : Prop := mk_pinv {
  pi_map : forall s, 1 <= s <= 2048 -> p_map p s = Some (cls s);
  pi_blocks : map fst bcl = p_blocks p;
  pi_class : Forall (fun x => 0 <= snd x < 128) bcl;
  pi_chain : forall i, 0 <= i < 128 -> chain (p_next p) (p_free p i) (F i);
  pi_perm : forall i, 0 <= i < 128 -> Permutation (units i bcl) (F i ++ map fst (filter (of_class i) live));
  pi_own : Permutation (p_own p)
             ((p_table p, p_nalloc p * 8) :: map (fun b => (b, 32768)) (p_blocks p) ++ filter large live);
  pi_disj : ForallOrdPairs papart (p_own p);
  pi_pos : Forall (fun c => 0 < fst c /\ fst c mod 16 = 0) (p_own p);
  pi_len : zlen (p_blocks p) <= p_nalloc p;
  pi_size : Forall (fun b => 0 < snd b) live;
  pi_ever : forall a s, In (a, s) ever -> s <= 2048 -> 0 < s /\ In a (units (cls s) bcl)
}.

Lemma pinv_wf : forall p live ever bcl F, PInv p live ever bcl F -> wf_blocks bcl.
Proof.
  intros p live ever bcl F I.
  pose proof (FOP_perm _ _ papart_sym _ _ (pi_own _ _ _ _ _ I) (pi_disj _ _ _ _ _ I)) as D.
  inversion D as [|? ? _ D1]; subst. apply FOP_app in D1. destruct D1 as (D1 & _ & _).
  rewrite <- (pi_blocks _ _ _ _ _ I) in D1. rewrite map_map in D1.
  split.
  - rewrite Forall_forall. intros x Hx. pose proof (pi_class _ _ _ _ _ I) as C. rewrite Forall_forall in C.
    pose proof (pi_pos _ _ _ _ _ I) as P. rewrite Forall_forall in P.
    split; [exact (C x Hx)|].
    apply (P (fst x, 32768)). eapply Permutation_in; [symmetry; apply (pi_own _ _ _ _ _ I)|].
    right. apply in_or_app. left. rewrite <- (pi_blocks _ _ _ _ _ I), map_map. apply in_map_iff. exists x. auto.
  - clear - D1. induction bcl as [|x r IH]; [constructor|].
    cbn in D1. inversion D1 as [|? ? F1 F2]; subst. constructor; [|auto].
    rewrite Forall_forall in *. intros y Hy. specialize (F1 (fst y, 32768)).
    unfold papart in F1. cbn [fst snd] in F1. apply F1. apply in_map_iff. exists y; auto.
Qed.

Lemma live_small_unit : forall p live ever bcl F a s, PInv p live ever bcl F -> In (a, s) live -> s <= 2048 ->
  0 <= cls s < 128 /\ In a (units (cls s) bcl).
Proof.
  intros p live ever bcl F a s I H Hs.
  pose proof (pi_size _ _ _ _ _ I) as P. rewrite Forall_forall in P. specialize (P _ H). cbn in P.
  pose proof (cls_bounds s ltac:(lia)) as B. split; [exact B|].
  eapply Permutation_in; [symmetry; apply (pi_perm _ _ _ _ _ I _ B)|].
  apply in_or_app. right. apply in_map_iff. exists (a, s). split; [reflexivity|].
  apply filter_In. split; [exact H|]. unfold of_class, is_small. cbn [snd].
  rewrite Z.eqb_refl, andb_true_r. apply Z.leb_le. exact Hs.
Qed.

Lemma free_unit : forall p live ever bcl F i a, PInv p live ever bcl F -> 0 <= i < 128 -> In a (F i) -> In a (units i bcl).
Proof.
  intros p live ever bcl F i a I Hi H. eapply Permutation_in; [symmetry; apply (pi_perm _ _ _ _ _ I _ Hi)|].
  apply in_or_app; left; exact H.
Qed.

Lemma filter_split : forall A (f : A -> bool) l1 x l2, f x = true ->
  filter f (l1 ++ x :: l2) = filter f l1 ++ x :: filter f l2.
Proof. intros. rewrite filter_app. cbn. rewrite H. reflexivity. Qed.

Lemma small_inside : forall p live ever bcl F i u, PInv p live ever bcl F -> 0 <= i < 128 -> In u (units i bcl) ->
  exists b, In b (p_blocks p) /\ b <= u /\ u + ub i <= b + 32768 /\ u mod 16 = 0 /\ 0 < u.
Proof.
  intros p live ever bcl F i u I Hi Hu. pose proof (pinv_wf _ _ _ _ _ I) as W.
  destruct (units_block _ _ _ W Hu) as (b & Hb & Hub).
  exists b. destruct (units_of_inside _ _ _ Hi Hub) as [B1 B2].
  destruct W as [W1 _]. rewrite Forall_forall in W1. specialize (W1 _ Hb). cbn in W1.
  splits; [|exact B1|exact B2| |lia].
  - rewrite <- (pi_blocks _ _ _ _ _ I). apply in_map_iff. exists (b, i). auto.
  - destruct (units_of_in _ _ _ Hi Hub) as (k & _ & -> & _). unfold ub.
    replace (b + 16 * (i + 1) * k) with (b + (i + 1) * k * 16) by lia.
    rewrite Z.mod_add by lia. tauto.
Qed.

Definition range (b : Z * Z) : Z := if snd b <=? 2048 then rounded (snd b) else snd b.

Lemma pool_blocks_ok : forall p live ever bcl F, PInv p live ever bcl F ->
  (forall a s, In (a, s) live ->
     a mod 16 = 0 /\ s <= range (a, s) /\ inside a (range (a, s)) (p_own p) /\
     apart a (range (a, s)) (p_table p) (p_nalloc p * 8)) /\
  ForallOrdPairs (fun x y => apart (fst x) (range x) (fst y) (range y)) live /\
  (forall a s a' s', In (a, s) ever -> In (a', s') ever -> s <= 2048 -> s' <= 2048 ->
     (a = a' /\ rounded s = rounded s') \/ apart a (rounded s) a' (rounded s')).
Proof.
  intros p live ever bcl F I. pose proof (pinv_wf _ _ _ _ _ I) as W.
  pose proof (FOP_perm _ _ papart_sym _ _ (pi_own _ _ _ _ _ I) (pi_disj _ _ _ _ _ I)) as D.
  inversion D as [|? ? DT D1]; subst. pose proof D1 as D2. apply FOP_app in D2. destruct D2 as (DB & DL & DBL).
  rewrite Forall_forall in DT.
  assert (OwnI : forall x, In x ((p_table p, p_nalloc p * 8) :: map (fun b => (b, 32768)) (p_blocks p) ++ filter large live) -> In x (p_own p)).
  { intros x Hx. eapply Permutation_in; [symmetry; apply (pi_own _ _ _ _ _ I)|exact Hx]. }
  assert (LargeIn : forall x, In x live -> 2048 < snd x -> In x (filter large live)).
  { intros x Hx Hs. apply filter_In. split; [exact Hx|]. unfold large, is_small. apply negb_true_iff, Z.leb_gt. exact Hs. }
  splits.
  - intros a s H. unfold range. cbn [snd fst].
    pose proof (pi_size _ _ _ _ _ I) as P. rewrite Forall_forall in P. specialize (P _ H). cbn in P.
    destruct (Z.leb_spec s 2048) as [L|L].
    + destruct (live_small_unit _ _ _ _ _ _ _ I H L) as [B U].
      destruct (small_inside _ _ _ _ _ _ _ I B U) as (b & Hb & B1 & B2 & B3 & B4).
      rewrite rounded_cls. fold (ub (cls s)). splits.
      * exact B3.
      * pose proof (cls_size s P). unfold ub. lia.
      * exists (b, 32768). splits; [|exact B1|exact B2]. apply OwnI. right. apply in_or_app. left.
        apply in_map_iff. exists b; auto.
      * specialize (DT (b, 32768)). unfold papart, apart in *. cbn [fst snd] in *.
        specialize (DT ltac:(apply in_or_app; left; apply in_map_iff; exists b; auto)). lia.
    + specialize (LargeIn (a, s) H L). assert (O : In (a, s) (p_own p)) by (apply OwnI; right; apply in_or_app; right; exact LargeIn).
      splits.
      * pose proof (pi_pos _ _ _ _ _ I) as Q. rewrite Forall_forall in Q. apply (Q _ O).
      * lia.
      * exists (a, s). splits; [exact O|cbn; lia|cbn; lia].
      * specialize (DT (a, s) ltac:(apply in_or_app; right; exact LargeIn)). unfold papart, apart in *. cbn [fst snd] in *. lia.
  - apply FOP_split. intros l1 [a s] l2 [a' s'] l3 E. unfold range. cbn [fst snd].
    assert (H : In (a, s) live) by (rewrite E; apply in_or_app; right; left; reflexivity).
    assert (H' : In (a', s') live) by (rewrite E; apply in_or_app; right; right; apply in_or_app; right; left; reflexivity).
    assert (SL : forall x y z w, In (x, y) live -> y <= 2048 -> In (z, w) live -> 2048 < w -> apart x (rounded y) z w).
    { intros x y z w Hx Ly Hz Lw. destruct (live_small_unit _ _ _ _ _ _ _ I Hx Ly) as [B U].
      destruct (small_inside _ _ _ _ _ _ _ I B U) as (b & Hb & B1 & B2 & _).
      specialize (DBL (b, 32768) (z, w)). unfold papart, apart in *. cbn [fst snd] in DBL.
      specialize (DBL ltac:(apply in_map_iff; exists b; auto) (LargeIn _ Hz Lw)).
      rewrite rounded_cls. fold (ub (cls y)). lia. }
    destruct (Z.leb_spec s 2048) as [L|L], (Z.leb_spec s' 2048) as [L'|L'].
    + destruct (live_small_unit _ _ _ _ _ _ _ I H L) as [B U].
      destruct (live_small_unit _ _ _ _ _ _ _ I H' L') as [B' U'].
      destruct (units_apart _ _ _ _ _ W U U') as [[Ea Ec]|A].
      * exfalso. subst a'. pose proof (units_nodup bcl (cls s) W) as ND.
        pose proof (Permutation_NoDup (pi_perm _ _ _ _ _ I _ B) ND) as ND2.
        apply NoDup_app_remove_l in ND2. rewrite E in ND2.
        rewrite filter_split in ND2.
        2:{ unfold of_class, is_small. cbn [snd]. rewrite Z.eqb_refl, andb_true_r. apply Z.leb_le; exact L. }
        rewrite filter_split in ND2.
        2:{ unfold of_class, is_small. cbn [snd]. rewrite <- Ec, Z.eqb_refl, andb_true_r. apply Z.leb_le; exact L'. }
        rewrite map_app in ND2. cbn [map fst] in ND2. rewrite map_app in ND2. cbn [map fst] in ND2.
        apply NoDup_remove_2 in ND2. apply ND2. apply in_or_app. right. apply in_or_app. right. left. reflexivity.
      * rewrite !rounded_cls. exact A.
    + apply SL; assumption.
    + pose proof (SL _ _ _ _ H' L' H L) as A. unfold apart in *. lia.
    + rewrite E in DL. rewrite filter_split in DL by (unfold large, is_small; apply negb_true_iff, Z.leb_gt; exact L).
      rewrite filter_split in DL by (unfold large, is_small; apply negb_true_iff, Z.leb_gt; exact L').
      exact (FOP_split_inv _ _ _ _ _ _ _ DL).
  - intros a s a' s' He He' L L'.
    destruct (pi_ever _ _ _ _ _ I _ _ He L) as [P U]. destruct (pi_ever _ _ _ _ _ I _ _ He' L') as [P' U'].
    destruct (units_apart _ _ _ _ _ W U U') as [[Ea Ec]|A].
    + left. split; [exact Ea|]. rewrite !rounded_cls, Ec. reflexivity.
    + right. rewrite !rounded_cls. exact A.
Qed.

(** ** Preservation *)
Lemma pool_init_inv : forall bt, base_ok [] bt (64 * 8) ->
  exists p, pool_init bt = Ok p /\ PInv p [] [] [] (fun _ => []).
Proof.
  intros bt (B1 & B2 & _). unfold pool_init. destruct size_map_ok as (m & R & E). rewrite R. cbn [bind].
  eexists; split; [reflexivity|].
  constructor; cbn [p_map p_free p_next p_table p_nalloc p_blocks p_own].
  - exact E.
  - reflexivity.
  - constructor.
  - intros; reflexivity.
  - intros; constructor.
  - rewrite MBK. apply Permutation_refl.
  - constructor; constructor.
  - constructor; [cbn; auto|constructor].
  - unfold zlen; cbn; lia.
  - constructor.
  - intros a s [].
Qed.

Lemma own_cons : forall own b n, base_ok own b n -> ForallOrdPairs papart own ->
  Forall (fun c => 0 < fst c /\ fst c mod 16 = 0) own ->
  ForallOrdPairs papart ((b, n) :: own) /\ Forall (fun c => 0 < fst c /\ fst c mod 16 = 0) ((b, n) :: own).
Proof.
  intros own b n (B1 & B2 & B3) D P. split; constructor; auto.
  rewrite Forall_forall. exact B3.
Qed.

Lemma grow_inv : forall p live ever bcl F bt, PInv p live ever bcl F ->
  base_ok (p_own p) bt ((p_nalloc p + 64) * 8) ->
  exists p1, grow_table bt p = Ok p1 /\ PInv p1 live ever bcl F /\ zlen (p_blocks p1) < p_nalloc p1 /\
    p_blocks p1 = p_blocks p /\ p_free p1 = p_free p /\ p_next p1 = p_next p /\ p_map p1 = p_map p.
Proof.
  intros p live ever bcl F bt I BO. unfold grow_table.
  pose proof (pi_len _ _ _ _ _ I) as L.
  destruct (Z.eqb_spec (zlen (p_blocks p)) (p_nalloc p)) as [E|N].
  2:{ exists p. splits; auto; lia. }
  destruct (own_cons _ _ _ BO (pi_disj _ _ _ _ _ I) (pi_pos _ _ _ _ _ I)) as [D P].
  rewrite E, MBK.
  set (own1 := (bt, (p_nalloc p + 64) * 8) :: p_own p) in *.
  assert (Hin : In (p_table p, p_nalloc p * 8) own1).
  { right. eapply Permutation_in; [symmetry; apply (pi_own _ _ _ _ _ I)|left; reflexivity]. }
  destruct (base_release_ok _ _ _ Hin) as (own2 & R & PM). rewrite R. cbn [bind].
  eexists; split; [reflexivity|]. cbn [p_blocks p_nalloc p_free p_next p_map].
  pose proof (FOP_perm _ _ papart_sym _ _ PM D) as D2. inversion D2 as [|? ? _ D3]; subst.
  assert (P2 : Forall (fun c => 0 < fst c /\ fst c mod 16 = 0) own2).
  { rewrite Forall_forall in *. intros c Hc. apply P. eapply Permutation_in; [symmetry; exact PM|right; exact Hc]. }
  splits; auto; [|lia].
  destruct I. constructor; cbn [p_map p_free p_next p_table p_nalloc p_blocks p_own]; auto; [|lia].
  apply Permutation_cons_inv with (a := (p_table p, p_nalloc p * 8)).
  rewrite <- PM. unfold own1. rewrite pi_own0. apply perm_swap.
Qed.

Lemma of_class_self : forall a s, 0 < s -> s <= 2048 -> of_class (cls s) (a, s) = true.
Proof. intros. unfold of_class, is_small. cbn [snd]. rewrite Z.eqb_refl, andb_true_r. apply Z.leb_le; assumption. Qed.
Lemma of_class_other : forall a s i, i <> cls s -> of_class i (a, s) = false.
Proof. intros. unfold of_class. cbn [snd]. destruct (Z.eqb_spec (cls s) i); [congruence|]. apply andb_false_r. Qed.
Lemma large_small : forall a s, s <= 2048 -> large (a, s) = false.
Proof. intros. unfold large, is_small. cbn [snd]. destruct (Z.leb_spec s 2048); [reflexivity|lia]. Qed.
Lemma of_class_large : forall a s i, 2048 < s -> of_class i (a, s) = false.
Proof. intros. unfold of_class, is_small. cbn [snd]. destruct (Z.leb_spec s 2048); [lia|reflexivity]. Qed.
Lemma large_large : forall a s, 2048 < s -> large (a, s) = true.
Proof. intros. unfold large, is_small. cbn [snd]. destruct (Z.leb_spec s 2048); [lia|reflexivity]. Qed.

Lemma nonempty_units : forall c, 0 <= c < 128 -> 16 <= 32768 / ub c.
Proof. intros c Hc. apply Z.div_le_lower_bound; unfold ub; lia. Qed.

Lemma pool_alloc_inv : forall p live ever bcl F size bt b,
  PInv p live ever bcl F -> 0 < size ->
  base_ok (p_own p) bt ((p_nalloc p + 64) * 8) ->
  (forall p1, (p1 = p \/ grow_table bt p = Ok p1) ->
              base_ok (p_own p1) b (if size <=? 2048 then 32768 else size)) ->
  exists p' a bcl' F', pool_alloc size bt b p = Ok (p', a) /\
    PInv p' ((a, size) :: live) ((a, size) :: ever) bcl' F'.
Proof.
  intros p live ever bcl F size bt b I Hs BT BB. unfold pool_alloc.
  destruct (Z.eqb_spec size 0); [lia|]. rewrite MAXU.
  destruct (Z.ltb_spec 2048 size) as [HL|HL].
  - (* large *)
    specialize (BB p (or_introl eq_refl)). destruct (Z.leb_spec size 2048); [lia|].
    destruct (own_cons _ _ _ BB (pi_disj _ _ _ _ _ I) (pi_pos _ _ _ _ _ I)) as [D P].
    exists (mk_pool (p_map p) (p_free p) (p_next p) (p_table p) (p_nalloc p) (p_blocks p) ((b, size) :: p_own p)), b, bcl, F.
    split; [reflexivity|]. destruct I.
    constructor; cbn [p_map p_free p_next p_table p_nalloc p_blocks p_own]; auto.
    + intros i Hi. cbn [filter]. rewrite of_class_large by exact HL. auto.
    + cbn [filter]. rewrite large_large by exact HL. rewrite pi_own0.
      etransitivity; [apply perm_swap|]. constructor. apply Permutation_middle.
    + intros a s [E|E] L; [inversion E; lia|auto].
  - pose proof (cls_bounds size ltac:(lia)) as B. set (i := cls size) in *.
    rewrite (pi_map _ _ _ _ _ I) by lia. fold i. cbn [rd bind]. rewrite unit_size_ok by exact B. cbn [bind].
    pose proof (pinv_wf _ _ _ _ _ I) as W.
    pose proof (pi_chain _ _ _ _ _ I i B) as CH.
    destruct (F i) as [|u Fi] eqn:EF.
    + (* new block *)
      cbn [chain] in CH. rewrite CH. change (0 =? 0) with true. cbn [negb].
      destruct (grow_inv _ _ _ _ _ _ I BT) as (p1 & R1 & I1 & L1 & E1 & E2 & E3 & E4).
      rewrite R1. cbn [bind]. specialize (BB p1 (or_intror R1)).
      destruct (Z.leb_spec size 2048); [|lia].
      rewrite BLK. replace ((i + 1) * 16) with (ub i) by (unfold ub; lia).
      pose proof (nonempty_units i B) as NU.
      pose proof (proj1 BB) as Bpos.
      assert (Upos : 0 < ub i) by (unfold ub; lia).
      set (nx := chain_units _ b (ub i) 0 (p_next p1)).
      assert (CHN : chain nx b (units_of b i)).
      { pose proof (chain_units_chain (Z.to_nat (32768 / ub i)) b (ub i) 0 (p_next p1) Upos Bpos ltac:(lia) ltac:(lia)) as Q.
        rewrite Z2Nat.id in Q by lia. replace (b + ub i * 0) with b in Q by lia. exact Q. }
      assert (EU : units_of b i = b :: map (fun k => b + ub i * k) (zrange 1 (32768 / ub i - 1))).
      { unfold units_of. rewrite zrange_cons by lia. cbn [map]. f_equal. lia. }
      set (tl := map (fun k => b + ub i * k) (zrange 1 (32768 / ub i - 1))) in *.
      rewrite EU in CHN. cbn [chain] in CHN. destruct CHN as (_ & _ & n2 & Hn2 & CHN).
      rewrite Hn2. cbn [rd bind].
      assert (NDU : NoDup (b :: tl)) by (rewrite <- EU; apply units_of_nodup; lia).
      destruct (own_cons _ _ _ BB (pi_disj _ _ _ _ _ I1) (pi_pos _ _ _ _ _ I1)) as [D P].
      do 2 eexists. exists (bcl ++ [(b, i)]), (fun j => if j =? i then tl else F j).
      split; [reflexivity|].
      (* addresses of old units are outside the new block *)
      assert (Out : forall j x, 0 <= j < 128 -> In x (units j bcl) -> ~ In x (b :: tl)).
      { intros j x Hj Hx Hin. rewrite <- EU in Hin. destruct (units_of_inside _ _ _ B Hin) as [Q1 Q2].
        destruct (small_inside _ _ _ _ _ _ _ I1 Hj Hx) as (b' & Hb' & Q3 & Q4 & _).
        destruct BB as (_ & _ & BA). specialize (BA (b', 32768)). unfold apart in BA. cbn [fst snd] in BA.
        assert (In (b', 32768) (p_own p1)).
        { eapply Permutation_in; [symmetry; apply (pi_own _ _ _ _ _ I1)|]. right. apply in_or_app. left. apply in_map_iff; exists b'; auto. }
        specialize (BA H0). unfold ub in *. lia. }
      constructor; cbn [p_map p_free p_next p_table p_nalloc p_blocks p_own].
      * apply (pi_map _ _ _ _ _ I1).
      * rewrite map_app. cbn. rewrite (pi_blocks _ _ _ _ _ I1). reflexivity.
      * apply Forall_app. split; [apply (pi_class _ _ _ _ _ I)|constructor; [exact B|constructor]].
      * intros j Hj. destruct (Z.eqb_spec j i) as [->|Nj].
        -- rewrite upd_same. eapply chain_ext; [|exact CHN]. intros x Hx. apply upd_other.
           inversion NDU; subst. intro; subst; contradiction.
        -- rewrite upd_other by exact Nj. eapply chain_ext; [|apply (pi_chain _ _ _ _ _ I1 j Hj)].
           intros x Hx. pose proof (Out j x Hj (free_unit _ _ _ _ _ _ _ I1 Hj Hx)) as NO.
           rewrite upd_other by (intro; subst; apply NO; left; reflexivity).
           unfold nx. apply chain_units_other. intros k Hk E. apply NO. rewrite <- EU. unfold units_of.
           apply in_map_iff. exists k. split; [congruence|]. apply In_zrange. rewrite Z2Nat.id in Hk by lia. lia.
      * intros j Hj. rewrite units_app. cbn [units filter]. rewrite app_nil_r.
        destruct (Z.eqb_spec j i) as [->|Nj].
        -- rewrite Z.eqb_refl. replace (of_class i (b, size)) with true by (symmetry; apply of_class_self; lia). cbn [map fst].
           rewrite EU. rewrite (pi_perm _ _ _ _ _ I i B), EF. cbn [app].
           rewrite Permutation_app_comm. cbn [app].
           etransitivity; [apply (Permutation_middle tl)|]. apply Permutation_refl.
        -- rewrite (proj2 (Z.eqb_neq i j)) by congruence. rewrite app_nil_r.
           rewrite of_class_other by (unfold i in Nj; exact Nj). apply (pi_perm _ _ _ _ _ I j Hj).
      * cbn [filter]. rewrite large_small by lia. rewrite (pi_own _ _ _ _ _ I1).
        rewrite map_app. cbn [map]. rewrite <- app_assoc. cbn [app].
        etransitivity; [apply perm_swap|]. constructor. apply Permutation_middle.
      * exact D.
      * exact P.
      * rewrite zlen_app. unfold zlen at 2. cbn. lia.
      * constructor; [exact Hs|apply (pi_size _ _ _ _ _ I)].
      * intros a s [E|E] L.
        -- inversion E; subst. split; [exact Hs|]. rewrite units_app. apply in_or_app. right.
           cbn [units]. fold i. rewrite Z.eqb_refl, app_nil_r, EU. left; reflexivity.
        -- destruct (pi_ever _ _ _ _ _ I _ _ E L) as [Q1 Q2]. split; [exact Q1|].
           rewrite units_app. apply in_or_app. left; exact Q2.
    + (* from the free list *)
      cbn [chain] in CH. destruct CH as (Eu & Nu & n2 & Hn2 & CH).
      rewrite Eu. rewrite (proj2 (Z.eqb_neq u 0) Nu). cbn [negb]. rewrite Hn2. cbn [rd bind].
      do 2 eexists. exists bcl, (fun j => if j =? i then Fi else F j). split; [reflexivity|].
      assert (Hu : In u (units i bcl)) by (eapply free_unit; [exact I|exact B|rewrite EF; left; reflexivity]).
      pose proof (Permutation_NoDup (pi_perm _ _ _ _ _ I i B) (units_nodup bcl i W)) as ND. rewrite EF in ND.
      constructor; cbn [p_map p_free p_next p_table p_nalloc p_blocks p_own].
      * apply (pi_map _ _ _ _ _ I).
      * apply (pi_blocks _ _ _ _ _ I).
      * apply (pi_class _ _ _ _ _ I).
      * intros j Hj. destruct (Z.eqb_spec j i) as [->|Nj].
        -- rewrite upd_same. eapply chain_ext; [|exact CH]. intros x Hx. apply upd_other.
           cbn in ND. inversion ND as [|? ? Q _]; subst. intro; subst. apply Q, in_or_app; left; exact Hx.
        -- rewrite upd_other by exact Nj. eapply chain_ext; [|apply (pi_chain _ _ _ _ _ I j Hj)].
           intros x Hx. apply upd_other. intro; subst x.
           destruct (units_apart _ _ _ _ _ W (free_unit _ _ _ _ _ _ _ I Hj Hx) Hu) as [[_ E]|A]; [congruence|].
           unfold apart, ub in A. lia.
      * intros j Hj. cbn [filter]. destruct (Z.eqb_spec j i) as [->|Nj].
        -- replace (of_class i (u, size)) with true by (symmetry; apply of_class_self; lia). cbn [map fst]. rewrite (pi_perm _ _ _ _ _ I i B), EF.
           cbn [app]. apply Permutation_middle.
        -- rewrite of_class_other by (unfold i in Nj; exact Nj). apply (pi_perm _ _ _ _ _ I j Hj).
      * cbn [filter]. rewrite large_small by lia. apply (pi_own _ _ _ _ _ I).
      * apply (pi_disj _ _ _ _ _ I).
      * apply (pi_pos _ _ _ _ _ I).
      * apply (pi_len _ _ _ _ _ I).
      * constructor; [exact Hs|apply (pi_size _ _ _ _ _ I)].
      * intros a s [E|E] L.
        -- inversion E; subst. split; [exact Hs|exact Hu].
        -- apply (pi_ever _ _ _ _ _ I _ _ E L).
Qed.

Lemma pool_release_inv : forall p live1 a size live2 ever bcl F,
  PInv p (live1 ++ (a, size) :: live2) ever bcl F ->
  exists p' F', pool_release a size p = Ok p' /\ PInv p' (live1 ++ live2) ever bcl F'.
Proof.
  intros p live1 a size live2 ever bcl F I. unfold pool_release.
  assert (Hin : In (a, size) (live1 ++ (a, size) :: live2)) by (apply in_or_app; right; left; reflexivity).
  pose proof (pi_size _ _ _ _ _ I) as PS.
  assert (Hs : 0 < size) by (rewrite Forall_forall in PS; apply (PS _ Hin)).
  assert (PS' : Forall (fun b => 0 < snd b) (live1 ++ live2)).
  { apply Forall_app in PS. destruct PS as [P1 P2]. inversion P2; subst. apply Forall_app. auto. }
  destruct (Z.eqb_spec size 0); [lia|]. rewrite MAXU.
  destruct (Z.ltb_spec 2048 size) as [HL|HL].
  - assert (Ho : In (a, size) (p_own p)).
    { eapply Permutation_in; [symmetry; apply (pi_own _ _ _ _ _ I)|]. right. apply in_or_app. right.
      apply filter_In. split; [exact Hin|apply large_large; exact HL]. }
    destruct (base_release_ok _ _ _ Ho) as (own' & R & PM). rewrite R. cbn [bind].
    eexists. exists F. split; [reflexivity|].
    pose proof (FOP_perm _ _ papart_sym _ _ PM (pi_disj _ _ _ _ _ I)) as D2. inversion D2 as [|? ? _ D3]; subst.
    destruct I. constructor; cbn [p_map p_free p_next p_table p_nalloc p_blocks p_own]; auto.
    + intros i Hi. rewrite pi_perm0 by exact Hi. rewrite !filter_app. cbn [filter]. rewrite of_class_large by exact HL. apply Permutation_refl.
    + apply Permutation_cons_inv with (a := (a, size)). rewrite <- PM, pi_own0.
      rewrite filter_split by (apply large_large; exact HL). rewrite filter_app.
      symmetry. etransitivity; [apply perm_swap|]. constructor.
      rewrite !app_assoc. apply Permutation_middle.
    + rewrite Forall_forall in *. intros c Hc. apply pi_pos0. eapply Permutation_in; [symmetry; exact PM|right; exact Hc].
  - pose proof (cls_bounds size ltac:(lia)) as B. set (i := cls size) in *.
    rewrite (pi_map _ _ _ _ _ I) by lia. fold i. cbn [rd bind]. rewrite unit_size_ok by exact B. cbn [bind].
    pose proof (pinv_wf _ _ _ _ _ I) as W.
    destruct (live_small_unit _ _ _ _ _ _ _ I Hin HL) as [_ Ha]. fold i in Ha.
    eexists. exists (fun j => if j =? i then a :: F i else F j). split; [reflexivity|].
    pose proof (Permutation_NoDup (pi_perm _ _ _ _ _ I i B) (units_nodup bcl i W)) as ND.
    assert (Pi : Permutation (F i ++ map fst (filter (of_class i) (live1 ++ (a, size) :: live2)))
                  (a :: F i ++ map fst (filter (of_class i) (live1 ++ live2)))).
    { rewrite filter_split by (apply of_class_self; lia). rewrite filter_app, !map_app. cbn [map fst].
      symmetry. rewrite !app_assoc. apply Permutation_middle. }
    pose proof (Permutation_NoDup Pi ND) as ND2. inversion ND2 as [|? ? NI _]; subst.
    assert (NIF : ~ In a (F i)) by (intro; apply NI, in_or_app; left; assumption).
    destruct (small_inside _ _ _ _ _ _ _ I B Ha) as (_ & _ & _ & _ & _ & Apos).
    constructor; cbn [p_map p_free p_next p_table p_nalloc p_blocks p_own].
    + apply (pi_map _ _ _ _ _ I).
    + apply (pi_blocks _ _ _ _ _ I).
    + apply (pi_class _ _ _ _ _ I).
    + intros j Hj. destruct (Z.eqb_spec j i) as [->|Nj].
      * rewrite upd_same. cbn [chain]. splits; [reflexivity|lia|]. exists (p_free p i). rewrite upd_same. split; [reflexivity|].
        eapply chain_ext; [|apply (pi_chain _ _ _ _ _ I i B)]. intros x Hx. apply upd_other. intro; subst; contradiction.
      * rewrite upd_other by exact Nj. eapply chain_ext; [|apply (pi_chain _ _ _ _ _ I j Hj)].
        intros x Hx. apply upd_other. intro; subst x.
        destruct (units_apart _ _ _ _ _ W (free_unit _ _ _ _ _ _ _ I Hj Hx) Ha) as [[_ E]|A]; [congruence|].
        unfold apart, ub in A. lia.
    + intros j Hj. destruct (Z.eqb_spec j i) as [->|Nj].
      * rewrite (pi_perm _ _ _ _ _ I i B). exact Pi.
      * rewrite (pi_perm _ _ _ _ _ I j Hj). rewrite !filter_app. cbn [filter].
        rewrite of_class_other by (unfold i in Nj; exact Nj). apply Permutation_refl.
    + rewrite (pi_own _ _ _ _ _ I). rewrite !filter_app. cbn [filter]. rewrite large_small by exact HL. apply Permutation_refl.
    + apply (pi_disj _ _ _ _ _ I).
    + apply (pi_pos _ _ _ _ _ I).
    + apply (pi_len _ _ _ _ _ I).
    + exact PS'.
    + apply (pi_ever _ _ _ _ _ I).
Qed.

Lemma pool_history_inv : forall p live ever, pool_history p live ever -> exists bcl F, PInv p live ever bcl F.
Proof.
  induction 1 as [bt p B R|p live ever size bt b p' a HH IH Hs BT BB R|p live1 a size live2 ever p' HH IH R].
  - destruct (pool_init_inv bt B) as (p0 & R0 & I). rewrite R in R0. inversion R0; subst. eauto.
  - destruct IH as (bcl & F & I).
    destruct (pool_alloc_inv _ _ _ _ _ _ _ _ I Hs BT BB) as (p1 & a1 & bcl' & F' & R1 & I1).
    rewrite R in R1. inversion R1; subst. eauto.
  - destruct IH as (bcl & F & I).
    destruct (pool_release_inv _ _ _ _ _ _ _ _ I) as (p1 & F' & R1 & I1). rewrite R in R1. inversion R1; subst. eauto.
Qed.

Lemma release_all_ok : forall bs own rest, Permutation own (map (fun b => (b, 32768)) bs ++ rest) ->
  exists own', release_all bs own = Ok own' /\ Permutation own' rest.
Proof.
  induction bs as [|b bs IH]; intros own rest P.
  - exists own. split; [reflexivity|exact P].
  - cbn [release_all]. rewrite BLK. cbn [map app] in P.
    destruct (base_release_ok b 32768 own) as (o & R & Q).
    { eapply Permutation_in; [symmetry; exact P|left; reflexivity]. }
    rewrite R. cbn [bind]. apply IH. apply Permutation_cons_inv with (a := (b, 32768)). rewrite <- Q. exact P.
Qed.

Lemma pool_destroy_ok : forall p ever, pool_history p [] ever -> pool_destroy p = Ok [].
Proof.
  intros p ever HH. destruct (pool_history_inv _ _ _ HH) as (bcl & F & I).
  pose proof (pi_own _ _ _ _ _ I) as P. cbn [filter] in P.
  destruct (release_all_ok (p_blocks p) (p_own p) [(p_table p, p_nalloc p * 8)]) as (own & R & Q).
  { rewrite P, app_nil_r. apply Permutation_cons_append. }
  unfold pool_destroy. rewrite R. cbn [bind]. rewrite MBK.
  apply Permutation_sym, Permutation_length_1_inv in Q. rewrite Q. cbn. rewrite !Z.eqb_refl. reflexivity.
Qed.
