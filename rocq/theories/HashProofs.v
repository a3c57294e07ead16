(** The hash table refines finite partial functions. *)
From Coq Require Import Permutation.
From Verif Require Import Base Float24 BitsModel BitsProofs HashModel HashSpec.
Open Scope Z_scope.

(** * Lists *)
Definition zrange (a n : Z) : list Z := map (fun i => a + Z.of_nat i) (seq 0 (Z.to_nat n)).

Lemma In_zrange : forall a n i, In i (zrange a n) <-> a <= i < a + n.
Proof.
  intros a n i; unfold zrange; rewrite in_map_iff; split.
  - intros (x & E & H); apply in_seq in H; lia.
  - intros H; exists (Z.to_nat (i - a)); split; [lia|]. apply in_seq; lia.
Qed.

Lemma NoDup_zrange : forall a n, NoDup (zrange a n).
Proof.
  intros a n; unfold zrange. apply FinFun.Injective_map_NoDup; [|apply seq_NoDup].
  intros x y E; lia.
Qed.

Lemma zlen_zrange : forall a n, 0 <= n -> zlen (zrange a n) = n.
Proof. intros a n H; unfold zrange, zlen; rewrite map_length, seq_length; lia. Qed.

Lemma zrange_cons : forall a n, 0 < n -> zrange a n = a :: zrange (a + 1) (n - 1).
Proof.
  intros a n H; unfold zrange.
  replace (Z.to_nat n) with (S (Z.to_nat (n - 1))) by lia.
  cbn [seq map]. f_equal; [lia|].
  rewrite <- seq_shift, map_map. apply map_ext. intros i; lia.
Qed.

Lemma zrange_nil : forall a n, n <= 0 -> zrange a n = [].
Proof. intros a n H; unfold zrange. replace (Z.to_nat n) with 0%nat by lia. reflexivity. Qed.

Lemma zrange_split : forall a n m, 0 <= n -> 0 <= m ->
  zrange a (n + m) = zrange a n ++ zrange (a + n) m.
Proof.
  intros a n m Hn Hm. revert a. pattern n. apply natlike_ind; [| |exact Hn].
  - intros a. rewrite (zrange_nil a 0) by lia. cbn [app]. f_equal; lia.
  - intros x Hx IH a. rewrite (zrange_cons a (Z.succ x + m)) by lia.
    rewrite (zrange_cons a (Z.succ x)) by lia. cbn [app]. f_equal.
    replace (Z.succ x + m - 1) with (x + m) by lia.
    replace (Z.succ x - 1) with x by lia. rewrite IH. do 2 f_equal; lia.
Qed.

Lemma znth_split : forall (B : Type) (l : list B) b c,
  znth l b = Some c -> exists l1 l2, l = l1 ++ c :: l2 /\ zlen l1 = b.
Proof.
  intros B l b c H. pose proof (znth_bounds _ _ _ _ H). unfold znth in H.
  destruct (Z.ltb_spec b 0); [lia|].
  destruct (nth_error_split _ _ H) as (l1 & l2 & E & L).
  exists l1, l2; split; [exact E|]. unfold zlen; lia.
Qed.

Lemma znth_mid : forall (B : Type) (l1 l2 : list B) c, znth (l1 ++ c :: l2) (zlen l1) = Some c.
Proof. intros; rewrite znth_app2 by lia. rewrite Z.sub_diag. reflexivity. Qed.

Lemma znth_replace : forall (B : Type) (l1 l2 : list B) c c' b d,
  znth (l1 ++ c' :: l2) b = Some d ->
  (b = zlen l1 /\ d = c') \/ (b <> zlen l1 /\ znth (l1 ++ c :: l2) b = Some d).
Proof.
  intros B l1 l2 c c' b d H.
  pose proof (znth_bounds _ _ _ _ H) as Hb. rewrite zlen_app, zlen_cons in Hb.
  destruct (Z.compare_spec b (zlen l1)) as [E|L|L].
  - left. subst b. rewrite znth_mid in H. split; congruence.
  - right. split; [lia|]. rewrite znth_app1 in * by lia. exact H.
  - right. split; [lia|]. rewrite znth_app2 in * by lia.
    rewrite znth_consS in * by lia. exact H.
Qed.

Lemma concat_mid : forall (B : Type) (l1 l2 : list (list B)) c,
  concat (l1 ++ c :: l2) = concat l1 ++ c ++ concat l2.
Proof. intros; rewrite concat_app; reflexivity. Qed.

Lemma In_concat_znth : forall (B : Type) (l : list (list B)) (x : B),
  In x (concat l) <-> exists b c, znth l b = Some c /\ In x c.
Proof.
  intros B l x; rewrite in_concat; split.
  - intros (c & Hc & Hx). destruct (In_znth _ _ _ Hc) as [b E]. eauto.
  - intros (b & c & E & Hx). exists c; split; [eapply znth_In; exact E|exact Hx].
Qed.

Lemma length_chain_le : forall (B : Type) (l : list (list B)) b c,
  znth l b = Some c -> (length c <= length (concat l))%nat.
Proof.
  intros B l b c H. destruct (znth_split _ _ _ _ H) as (l1 & l2 & -> & _).
  rewrite concat_mid, !app_length. lia.
Qed.

Lemma NoDup_app_remove_l : forall (B : Type) (l l' : list B), NoDup (l ++ l') -> NoDup l'.
Proof. intros B l; induction l; intros l' H; [exact H|]. inversion H; auto. Qed.

Lemma NoDup_app_remove_r : forall (B : Type) (l l' : list B), NoDup (l ++ l') -> NoDup l.
Proof.
  intros B l; induction l; intros l' H; [constructor|]. inversion H; subst.
  constructor; [|eauto]. intros X; apply H2, in_app_iff; left; exact X.
Qed.

(** * Chains *)
Fixpoint seg (nx : Z -> option Z) (s : Z) (l : list Z) : Prop :=
  match l with
  | [] => s = INV
  | i :: l' => s = i /\ i <> INV /\ exists j, nx i = Some j /\ seg nx j l'
  end.

Lemma seg_ext : forall nx nx' l s,
  (forall i, In i l -> nx i = nx' i) -> seg nx s l -> seg nx' s l.
Proof.
  intros nx nx' l; induction l as [|i l IH]; intros s H S; cbn [seg] in *; [exact S|].
  destruct S as (E & N & j & Ej & S). split; [exact E|]. split; [exact N|].
  exists j; split; [rewrite <- H; [exact Ej|left; reflexivity]|].
  apply IH; [intros x Hx; apply H; right; exact Hx|exact S].
Qed.

Lemma seg_upd_notin : forall nx l s x v,
  ~ In x l -> seg nx s l -> seg (upd nx x v) s l.
Proof.
  intros nx l s x v H S. apply (seg_ext nx); [|exact S].
  intros i Hi. symmetry; apply upd_other. intros ->; contradiction.
Qed.

Lemma seg_suffix : forall nx p s i q,
  seg nx s (p ++ i :: q) -> i <> INV /\ exists j, nx i = Some j /\ seg nx j q.
Proof.
  intros nx p; induction p as [|x p IH]; intros s i q S; cbn [app seg] in S.
  - destruct S as (_ & N & j & Ej & S); eauto.
  - destruct S as (_ & _ & j & _ & S). eapply IH; exact S.
Qed.

(** Unlinking [i] after the non-empty prefix ending in [la]. *)
Lemma seg_unlink : forall nx p s la i q j,
  seg nx s ((p ++ [la]) ++ i :: q) -> nx i = Some j -> NoDup ((p ++ [la]) ++ i :: q) ->
  seg (upd nx la (Some j)) s ((p ++ [la]) ++ q).
Proof.
  intros nx p; induction p as [|x p IH]; intros s la i q j S Ej ND; cbn [app] in *.
  - cbn [seg] in *. destruct S as (E & N & j1 & Ej1 & E2 & N2 & j2 & Ej2 & S).
    split; [exact E|]. split; [exact N|]. exists j. rewrite upd_same. split; [reflexivity|].
    inversion ND; subst. apply seg_upd_notin; [|].
    + intros H. apply H1. right; exact H.
    + congruence.
  - cbn [seg] in *. destruct S as (E & N & j1 & Ej1 & S).
    split; [exact E|]. split; [exact N|]. inversion ND; subst.
    exists j1. split.
    + rewrite upd_other; [exact Ej1|]. intros ->. apply H1.
      rewrite !in_app_iff. left; right; left; reflexivity.
    + eapply IH; eassumption.
Qed.

(** * Capacities *)
Lemma rnd24_3pow2 : forall k, 0 <= k -> rnd24 (3 * 2 ^ k) = 3 * 2 ^ k.
Proof.
  intros k H; unfold rnd24.
  destruct (Z.ltb_spec (3 * 2 ^ k) (2 ^ 24)) as [L|L]; [reflexivity|].
  assert (23 <= k).
  { destruct (Z_lt_le_dec k 23) as [L'|L']; [|exact L'].
    assert (2 ^ k <= 2 ^ 22) by (apply Z.pow_le_mono_r; lia).
    change (2 ^ 22) with 4194304 in *. change (2 ^ 24) with 16777216 in *. lia. }
  assert (P : 0 < 2 ^ k) by (apply Z.pow_pos_nonneg; lia).
  assert (LG : Z.log2 (3 * 2 ^ k) = k + 1).
  { apply Z.log2_unique; [lia|]. unfold Z.succ. rewrite !Z.pow_add_r by lia.
    change (2 ^ 1) with 2. lia. }
  rewrite LG.
  replace (k + 1 - 23) with (k - 22) by lia.
  replace (3 * 2 ^ k) with (3 * 2 ^ 22 * 2 ^ (k - 22))
    by (rewrite <- Z.mul_assoc, <- Z.pow_add_r by lia; do 2 f_equal; lia).
  assert (0 < 2 ^ (k - 22)) by (apply Z.pow_pos_nonneg; lia).
  rewrite Z.mod_mul by lia. rewrite Z.div_mul by lia.
  assert (0 < 2 ^ (k - 22 - 1)) by (apply Z.pow_pos_nonneg; lia).
  destruct (Z.ltb_spec 0 (2 ^ (k - 22 - 1))); [reflexivity|lia].
Qed.

Lemma alloc_for_pow2 : forall k, 4 <= k ->
  alloc_for (2 ^ k) = if k =? 4 then 16 else if k =? 5 then 32 else 3 * 2 ^ (k - 2).
Proof.
  intros k H; unfold alloc_for.
  assert (E : 3 * 2 ^ k / 4 = 3 * 2 ^ (k - 2)).
  { replace (3 * 2 ^ k) with (3 * 2 ^ (k - 2) * 4).
    - rewrite Z.div_mul by lia; reflexivity.
    - change 4 with (2 ^ 2) at 1. rewrite <- Z.mul_assoc, <- Z.pow_add_r by lia. do 2 f_equal; lia. }
  rewrite E.
  destruct (Z.eqb_spec k 4) as [->|N4]; [vm_compute; reflexivity|].
  destruct (Z.eqb_spec k 5) as [->|N5]; [vm_compute; reflexivity|].
  unfold round_cap, GLOBAL_ALIGNMENT. rewrite rnd24_3pow2 by lia.
  replace (3 * 2 ^ (k - 2)) with (3 * 2 ^ (k - 6) * 16)
    by (change 16 with (2 ^ 4) at 1; rewrite <- Z.mul_assoc, <- Z.pow_add_r by lia; do 2 f_equal; lia).
  rewrite Z.div_add_l by lia. change ((16 - 1) / 16) with 0. lia.
Qed.

Lemma pow_vals : forall k, 4 <= k -> 16 <= 2 ^ k /\ (4 < k -> 32 <= 2 ^ k) /\ (5 < k -> 64 <= 2 ^ k).
Proof.
  intros k H. repeat split.
  - change 16 with (2 ^ 4); apply Z.pow_le_mono_r; lia.
  - intros; change 32 with (2 ^ 5); apply Z.pow_le_mono_r; lia.
  - intros; change 64 with (2 ^ 6); apply Z.pow_le_mono_r; lia.
Qed.

Lemma alloc_for_pos : forall k, 4 <= k -> 16 <= alloc_for (2 ^ k) /\ 3 * 2 ^ k <= 4 * alloc_for (2 ^ k) /\ alloc_for (2 ^ k) <= 2 ^ k.
Proof.
  intros k H. rewrite alloc_for_pow2 by lia.
  destruct (Z.eqb_spec k 4) as [->|N4]; [vm_compute; repeat split; discriminate|].
  destruct (Z.eqb_spec k 5) as [->|N5]; [vm_compute; repeat split; discriminate|].
  assert (E : 2 ^ k = 4 * 2 ^ (k - 2)).
  { change 4 with (2 ^ 2) at 1; rewrite <- Z.pow_add_r by lia; f_equal; lia. }
  destruct (pow_vals k H) as (_ & _ & P). specialize (P ltac:(lia)). lia.
Qed.

Lemma alloc_for_mono : forall k j, 4 <= k -> k < j -> alloc_for (2 ^ k) < alloc_for (2 ^ j).
Proof.
  intros k j Hk Hj.
  rewrite !alloc_for_pow2 by lia.
  destruct (Z.eqb_spec k 4) as [->|N4].
  - destruct (Z.eqb_spec j 4); [lia|]. destruct (Z.eqb_spec j 5); [lia|].
    assert (2 ^ 4 <= 2 ^ (j - 2)) by (apply Z.pow_le_mono_r; lia).
    change (2 ^ 4) with 16 in *. lia.
  - destruct (Z.eqb_spec j 4); [lia|]. destruct (Z.eqb_spec j 5); [lia|].
    destruct (Z.eqb_spec k 5) as [->|N5].
    + assert (2 ^ 4 <= 2 ^ (j - 2)) by (apply Z.pow_le_mono_r; lia).
      change (2 ^ 4) with 16 in *. lia.
    + assert (2 ^ (k - 2) < 2 ^ (j - 2)) by (apply Z.pow_lt_mono_r; lia). lia.
Qed.

Lemma is_power_of_two_pow : forall k, 0 <= k -> is_power_of_two (2 ^ k) = true.
Proof.
  intros k H; unfold is_power_of_two, wrap64.
  assert (0 < 2 ^ k) by (apply Z.pow_pos_nonneg; lia).
  destruct (Z.eqb_spec (2 ^ k) 0); [lia|]. cbn [negb andb].
  rewrite <- Z.land_ones by lia.
  rewrite Z.land_assoc.
  replace (2 ^ k - 1) with (Z.ones k) by (rewrite Z.ones_equiv; lia).
  rewrite (Z.land_ones (2 ^ k)) by lia. rewrite Z.mod_same by lia. reflexivity.
Qed.

(** The bucket count chosen by reserve. *)
Lemma pow_capacity_spec : forall c, c <= 2 ^ 63 ->
  exists k, 4 <= k /\ pow_capacity c = 2 ^ k /\ c <= 2 ^ k.
Proof.
  intros c H; unfold pow_capacity.
  set (c' := if c <? 16 then 16 else c).
  assert (16 <= c' /\ c <= c' /\ c' <= 2 ^ 63) as (C1 & C2 & C3).
  { unfold c'; destruct (Z.ltb_spec c 16); lia. }
  destruct (is_power_of_two c') eqn:E.
  - apply is_power_of_two_spec in E; [|lia]. destruct E as (k & Hk & E).
    exists k. rewrite E in *. split; [|split; [reflexivity|lia]].
    change 16 with (2 ^ 4) in C1. apply Z.pow_le_mono_r_iff in C1; lia.
  - destruct (next_power_spec c' ltac:(lia)) as (k & Hk & E2 & L & _).
    exists k. rewrite E2. split; [|split; [reflexivity|lia]].
    assert (2 ^ 4 <= 2 ^ k) by (change (2 ^ 4) with 16; lia).
    apply Z.pow_le_mono_r_iff in H0; lia.
Qed.

Lemma pow_capacity_pow : forall k, 4 <= k -> pow_capacity (2 ^ k) = 2 ^ k.
Proof.
  intros k H; unfold pow_capacity. destruct (pow_vals k H) as [P _].
  destruct (Z.ltb_spec (2 ^ k) 16); [lia|].
  rewrite is_power_of_two_pow by lia. reflexivity.
Qed.

Lemma bucket_range : forall h k, 0 <= k -> 0 <= bucket_of h (2 ^ k) < 2 ^ k.
Proof.
  intros h k H; unfold bucket_of.
  replace (2 ^ k - 1) with (Z.ones k) by (rewrite Z.ones_equiv; lia).
  rewrite Z.land_ones by lia. apply Z.mod_pos_bound. apply Z.pow_pos_nonneg; lia.
Qed.

(** * Representation *)
Section Proofs.
Context {K V : Type}.
Variable hash : K -> Z.
Variable keq : K -> K -> bool.
Hypothesis keq_spec : forall a b, keq a b = true <-> a = b.
Notation tbl := (tbl K V).

Record trep (t : tbl) (cs : list (list Z)) (fr : list Z) : Prop := mk_trep {
  r_len : zlen cs = t_hsize t;
  r_size : exists k, 4 <= k /\ t_hsize t = 2 ^ k /\ t_alloc t = alloc_for (2 ^ k);
  r_seg : forall b c, znth cs b = Some c -> seg (t_next t) (t_buckets t b) c;
  r_free : seg (t_next t) (t_free t) fr;
  r_perm : Permutation (concat cs ++ fr) (zrange 0 (t_alloc t));
  r_ent : forall b c i, znth cs b = Some c -> In i c ->
            exists k v, t_entries t i = Some (k, v) /\ bucket_of (hash k) (t_hsize t) = b;
  r_n : t_n t = zlen (concat cs)
}.

Definition ents (t : tbl) (l : list Z) : list (K * V) :=
  flat_map (fun i => match t_entries t i with Some p => [p] | None => [] end) l.

(** Tables with memory. *)
Definition Rused (t : tbl) (m : list (K * V)) : Prop :=
  exists cs fr, trep t cs fr /\ Permutation (ents t (concat cs)) m /\ NoDup (map fst m).

(** Tables without memory; [stale] = the free index was left behind by clear(true). *)
Definition Rnone (stale : bool) (t : tbl) (m : list (K * V)) : Prop :=
  t_hsize t = 0 /\ t_alloc t = 0 /\ t_n t = 0 /\ (stale = false -> t_free t = INV) /\
  (stale = true -> t_free t <> INV) /\ m = [].

Definition R (ph : phase) (t : tbl) (m : list (K * V)) : Prop :=
  match ph with
  | Fresh => Rnone false t m
  | Used => Rused t m
  | Released => Rnone true t m
  end.

Lemma trep_nodup : forall t cs fr, trep t cs fr -> NoDup (concat cs ++ fr).
Proof.
  intros t cs fr H. eapply Permutation_NoDup; [symmetry; apply (r_perm _ _ _ H)|apply NoDup_zrange].
Qed.

Lemma trep_in : forall t cs fr i,
  trep t cs fr -> In i (concat cs) \/ In i fr -> in_alloc t i = true /\ 0 <= i < t_alloc t.
Proof.
  intros t cs fr i H HI.
  assert (X : In i (zrange 0 (t_alloc t))).
  { eapply Permutation_in; [apply (r_perm _ _ _ H)|]. apply in_app_iff; exact HI. }
  apply In_zrange in X. unfold in_alloc. rewrite andb_true_iff, Z.leb_le, Z.ltb_lt. lia.
Qed.

Lemma trep_fuel : forall t cs fr b c,
  trep t cs fr -> znth cs b = Some c -> (length c < fuel_of t)%nat.
Proof.
  intros t cs fr b c H E. unfold fuel_of.
  pose proof (length_chain_le _ _ _ _ E) as L.
  pose proof (Permutation_length (r_perm _ _ _ H)) as P.
  rewrite app_length in P. unfold zrange in P. rewrite map_length, seq_length in P. lia.
Qed.

Lemma trep_total : forall t cs fr, trep t cs fr -> (length (concat cs) < fuel_of t)%nat.
Proof.
  intros t cs fr H. unfold fuel_of.
  pose proof (Permutation_length (r_perm _ _ _ H)) as P.
  rewrite app_length in P. unfold zrange in P. rewrite map_length, seq_length in P. lia.
Qed.

Lemma trep_chain : forall t cs fr key,
  trep t cs fr -> exists c, znth cs (bucket_of (hash key) (t_hsize t)) = Some c.
Proof.
  intros t cs fr key H. apply znth_some. rewrite (r_len _ _ _ H).
  destruct (r_size _ _ _ H) as (k & Hk & E & _). rewrite E. apply bucket_range; lia.
Qed.

Lemma trep_hpos : forall t cs fr, trep t cs fr -> 16 <= t_hsize t /\ (0 <? t_hsize t) = true.
Proof.
  intros t cs fr H. destruct (r_size _ _ _ H) as (k & Hk & E & _).
  destruct (pow_vals k Hk) as [P _]. rewrite E. split; [lia|]. apply Z.ltb_lt; lia.
Qed.

Lemma matches_spec : forall a b, matches hash keq a b = true <-> a = b.
Proof.
  intros a b; unfold matches. rewrite andb_true_iff, Z.eqb_eq, keq_spec. split; [tauto|].
  intros ->; auto.
Qed.

Lemma In_ents : forall t l p, In p (ents t l) <-> exists i, In i l /\ t_entries t i = Some p.
Proof.
  intros t l p; unfold ents; rewrite in_flat_map; split.
  - intros (i & Hi & Hp). exists i; split; [exact Hi|].
    destruct (t_entries t i); [|contradiction]. destruct Hp as [->|[]]; reflexivity.
  - intros (i & Hi & E). exists i; split; [exact Hi|]. rewrite E; left; reflexivity.
Qed.

Lemma ents_app : forall t l1 l2, ents t (l1 ++ l2) = ents t l1 ++ ents t l2.
Proof. intros; unfold ents; apply flat_map_app. Qed.

Lemma ents_ext : forall t t' l,
  (forall i, In i l -> t_entries t' i = t_entries t i) -> ents t' l = ents t l.
Proof.
  intros t t' l; induction l as [|i l IH]; intros H; [reflexivity|].
  unfold ents in *; cbn [flat_map]. rewrite H by (left; reflexivity).
  f_equal. apply IH. intros x Hx; apply H; right; exact Hx.
Qed.

Lemma ents_perm : forall t l l', Permutation l l' -> Permutation (ents t l) (ents t l').
Proof. intros t l l' H; unfold ents. apply Permutation_flat_map; exact H. Qed.

Lemma ents_length : forall t l,
  (forall i, In i l -> exists p, t_entries t i = Some p) -> length (ents t l) = length l.
Proof.
  intros t l; induction l as [|i l IH]; intros H; [reflexivity|].
  destruct (H i (or_introl eq_refl)) as [p E].
  unfold ents in *; cbn [flat_map]. rewrite E. cbn [app length]. f_equal.
  apply IH. intros x Hx; apply H; right; exact Hx.
Qed.

Lemma trep_ents_length : forall t cs fr, trep t cs fr ->
  length (ents t (concat cs)) = length (concat cs).
Proof.
  intros t cs fr H. apply ents_length. intros i Hi.
  apply In_concat_znth in Hi. destruct Hi as (b & c & E & Hi).
  destruct (r_ent _ _ _ H b c i E Hi) as (k & v & Ek & _). eauto.
Qed.

(** ** Association lists *)
Lemma lookup_In : forall k v (m : list (K * V)), NoDup (map fst m) ->
  (lookup keq k m = Some v <-> In (k, v) m).
Proof.
  intros k v m; induction m as [|[k' v'] m IH]; intros ND; cbn [lookup map fst] in *.
  - split; [discriminate|intros []].
  - inversion ND; subst. destruct (keq k' k) eqn:E.
    + apply keq_spec in E; subst k'. split.
      * intros X; left; congruence.
      * intros [X|X]; [congruence|]. exfalso; apply H1.
        apply (in_map fst) in X; exact X.
    + rewrite IH by assumption. split; [intros X; right; exact X|].
      intros [X|X]; [|exact X]. exfalso.
      assert (keq k' k = true) by (apply keq_spec; congruence). congruence.
Qed.

Lemma lookup_None : forall k (m : list (K * V)),
  lookup keq k m = None <-> ~ In k (map fst m).
Proof.
  intros k m; induction m as [|[k' v'] m IH]; cbn [lookup map fst].
  - split; [intros _ []|reflexivity].
  - destruct (keq k' k) eqn:E.
    + apply keq_spec in E; subst k'. split; [discriminate|]. intros H; exfalso; apply H; left; reflexivity.
    + rewrite IH. split.
      * intros H [X|X]; [|contradiction]. assert (keq k' k = true) by (apply keq_spec; auto). congruence.
      * intros H X; apply H; right; exact X.
Qed.

Lemma lookup_perm : forall k (m m' : list (K * V)),
  Permutation m m' -> NoDup (map fst m) -> lookup keq k m = lookup keq k m'.
Proof.
  intros k m m' P ND.
  assert (ND' : NoDup (map fst m')) by (eapply Permutation_NoDup; [apply Permutation_map; exact P|exact ND]).
  destruct (lookup keq k m) as [v|] eqn:E.
  - symmetry. apply lookup_In; [exact ND'|]. apply lookup_In in E; [|exact ND].
    eapply Permutation_in; eassumption.
  - symmetry. apply lookup_None. apply lookup_None in E. intros X; apply E.
    eapply Permutation_in; [|exact X]. apply Permutation_map; symmetry; exact P.
Qed.

Lemma NoDup_m_remove : forall k (m : list (K * V)), NoDup (map fst m) -> NoDup (map fst (m_remove keq k m)).
Proof.
  intros k m; induction m as [|[k' v'] m IH]; intros ND; cbn [m_remove filter map fst] in *; [constructor|].
  inversion ND; subst. destruct (keq k' k) eqn:E; cbn [negb].
  - apply IH; assumption.
  - cbn [map fst]. constructor; [|apply IH; assumption].
    intros X; apply H1. apply in_map_iff in X. destruct X as ([a b] & E2 & X).
    apply filter_In in X. destruct X as [X _]. apply in_map_iff. exists (a, b); auto.
Qed.

Lemma not_In_m_remove : forall k (m : list (K * V)), ~ In k (map fst (m_remove keq k m)).
Proof.
  intros k m X. apply in_map_iff in X. destruct X as ([a b] & E & X).
  apply filter_In in X. destruct X as [_ X]. cbn in *. subst a.
  assert (keq k k = true) by (apply keq_spec; reflexivity). rewrite H in X; discriminate.
Qed.

Lemma NoDup_m_set : forall k v (m : list (K * V)), NoDup (map fst m) -> NoDup (map fst (m_set keq k v m)).
Proof.
  intros k v m ND; unfold m_set; cbn [map fst]. constructor; [apply not_In_m_remove|].
  apply NoDup_m_remove; exact ND.
Qed.

Lemma filter_perm : forall (B : Type) (f : B -> bool) l l',
  Permutation l l' -> Permutation (filter f l) (filter f l').
Proof.
  intros B f l l' P; induction P; cbn [filter].
  - constructor.
  - destruct (f x); [constructor|]; assumption.
  - destruct (f x), (f y); try constructor; apply Permutation_refl.
  - eapply Permutation_trans; eassumption.
Qed.

Lemma m_remove_absent : forall k (m : list (K * V)), ~ In k (map fst m) -> m_remove keq k m = m.
Proof.
  intros k m; induction m as [|[k' v'] m IH]; intros H; [reflexivity|].
  cbn [m_remove filter fst]. destruct (keq k' k) eqn:E.
  - exfalso; apply H; left. apply keq_spec in E; exact E.
  - cbn [negb]. f_equal. apply IH. intros X; apply H; right; exact X.
Qed.

(** Removing the key [k] from a list where it occurs exactly at one place. *)
Lemma m_remove_mid : forall k v (l1 l2 : list (K * V)),
  NoDup (map fst (l1 ++ (k, v) :: l2)) -> m_remove keq k (l1 ++ (k, v) :: l2) = l1 ++ l2.
Proof.
  intros k v l1 l2 ND.
  rewrite map_app in ND. cbn [map fst] in ND.
  apply NoDup_remove in ND. destruct ND as [ND NI].
  unfold m_remove. rewrite filter_app. cbn [filter fst].
  assert (keq k k = true) by (apply keq_spec; reflexivity). rewrite H; cbn [negb].
  fold (m_remove keq k l1). fold (m_remove keq k l2).
  rewrite !m_remove_absent; [reflexivity| |];
    intros X; apply NI; apply in_app_iff; auto.
Qed.

(** ** Searching *)
Definition walkable (t : tbl) (c : list Z) : Prop :=
  forall i, In i c -> in_alloc t i = true /\ exists k v, t_entries t i = Some (k, v).

Lemma trep_walkable : forall t cs fr b c,
  trep t cs fr -> znth cs b = Some c -> walkable t c.
Proof.
  intros t cs fr b c H E i Hi. split.
  - eapply trep_in; [exact H|]. left. apply In_concat_znth; eauto.
  - destruct (r_ent _ _ _ H b c i E Hi) as (k & v & Ek & _). eauto.
Qed.

Lemma rd_entry_ok : forall (t : tbl) i p, in_alloc t i = true -> t_entries t i = Some p -> rd_entry t i = Ok p.
Proof. intros t i p H E; unfold rd_entry; rewrite H, E; reflexivity. Qed.

Lemma rd_next_ok : forall (t : tbl) i j, in_alloc t i = true -> t_next t i = Some j -> rd_next t i = Ok j.
Proof. intros t i j H E; unfold rd_next; rewrite H, E; reflexivity. Qed.

Lemma find_loop_spec : forall t key c fuel i,
  seg (t_next t) i c -> walkable t c -> (length c < fuel)%nat ->
  exists r, find_loop hash keq fuel t key i = Ok r /\
    ((r = INV /\ forall j k v, In j c -> t_entries t j = Some (k, v) -> k <> key) \/
     (In r c /\ r <> INV /\ exists v, t_entries t r = Some (key, v))).
Proof.
  intros t key c; induction c as [|x c IH]; intros fuel i S W L;
    (destruct fuel as [|fuel]; [cbn in L; lia|]); cbn [find_loop].
  - cbn [seg] in S. subst i. rewrite Z.eqb_refl. eexists; split; [reflexivity|].
    left; split; [reflexivity|]. intros j k v [].
  - cbn [seg] in S. destruct S as (-> & N & j & Ej & S).
    destruct (Z.eqb_spec x INV) as [E|_]; [contradiction|].
    destruct (W x (or_introl eq_refl)) as (A & k & v & E).
    rewrite (rd_entry_ok t x _ A E); cbn [bind].
    destruct (matches hash keq k key) eqn:M.
    + apply matches_spec in M; subst k. exists x; split; [reflexivity|].
      right; split; [left; reflexivity|]. split; [exact N|eauto].
    + rewrite (rd_next_ok t x _ A Ej); cbn [bind].
      destruct (IH fuel j S) as (r & E2 & H).
      * intros y Hy; apply W; right; exact Hy.
      * cbn in L; lia.
      * exists r; split; [exact E2|]. destruct H as [[-> H]|(H1 & H2 & H3)].
        -- left; split; [reflexivity|]. intros y k' v' [->|Hy] E3.
           ++ intros ->. assert (k = key) by congruence. subst k.
              assert (matches hash keq key key = true) by (apply matches_spec; reflexivity). congruence.
           ++ eapply H; eassumption.
        -- right; split; [right; exact H1|auto].
Qed.

Lemma find_entry_spec : forall t m cs fr key,
  trep t cs fr -> Permutation (ents t (concat cs)) m -> NoDup (map fst m) ->
  exists r, tbl_find_entry hash keq t key = Ok r /\
    ((r = INV /\ lookup keq key m = None) \/
     (r <> INV /\ in_alloc t r = true /\
      exists v c, t_entries t r = Some (key, v) /\ lookup keq key m = Some v /\
        znth cs (bucket_of (hash key) (t_hsize t)) = Some c /\ In r c)).
Proof.
  intros t m cs fr key H P ND; unfold tbl_find_entry.
  destruct (trep_hpos _ _ _ H) as [_ HP]. rewrite HP.
  destruct (trep_chain t cs fr key H) as [c Ec].
  destruct (find_loop_spec t key c (fuel_of t) (t_buckets t (bucket_of (hash key) (t_hsize t))))
    as (r & E & HR).
  - apply (r_seg _ _ _ H); exact Ec.
  - eapply trep_walkable; eassumption.
  - eapply trep_fuel; eassumption.
  - exists r; split; [exact E|]. destruct HR as [[-> HR]|(H1 & H2 & v & H3)].
    + left; split; [reflexivity|]. apply lookup_None. intros X.
      apply in_map_iff in X. destruct X as ([k' v'] & E2 & X). cbn in E2; subst k'.
      assert (Y : In (key, v') (ents t (concat cs))) by (eapply Permutation_in; [symmetry; exact P|exact X]).
      apply In_ents in Y. destruct Y as (i & Hi & Ei).
      apply In_concat_znth in Hi. destruct Hi as (b & c' & Eb & Hi).
      destruct (r_ent _ _ _ H b c' i Eb Hi) as (k2 & v2 & E3 & E4).
      assert (k2 = key) by congruence. subst k2.
      rewrite E4 in Ec. assert (c' = c) by congruence. subst c'.
      eapply HR; [exact Hi|exact Ei|reflexivity].
    + right; split; [exact H2|].
      destruct (trep_walkable t cs fr _ c H Ec r H1) as [A _]. split; [exact A|].
      exists v, c. split; [exact H3|]. split; [|split; [exact Ec|exact H1]].
      apply lookup_In; [exact ND|]. eapply Permutation_in; [exact P|].
      apply In_ents. exists r; split; [|exact H3]. apply In_concat_znth; eauto.
Qed.

(** ** Adding an entry when a free one is available *)
Definition put (t : tbl) (b e nf : Z) (key : K) (v : V) : tbl :=
  mk_tbl (t_alloc t) (t_n t + 1) (t_hsize t) (upd (t_buckets t) b e)
         (upd (t_entries t) e (Some (key, v))) (upd (t_next t) e (Some (t_buckets t b))) nf.

Lemma put_spec : forall t cs fr e nf key v c,
  trep t cs (e :: fr) -> t_next t e = Some nf ->
  znth cs (bucket_of (hash key) (t_hsize t)) = Some c ->
  exists cs', trep (put t (bucket_of (hash key) (t_hsize t)) e nf key v) cs' fr /\
    Permutation (ents (put t (bucket_of (hash key) (t_hsize t)) e nf key v) (concat cs'))
                ((key, v) :: ents t (concat cs)).
Proof.
  intros t cs fr e nf key v c H Enf Ec.
  set (b := bucket_of (hash key) (t_hsize t)) in *.
  destruct (znth_split _ _ _ _ Ec) as (c1 & c2 & Ecs & Eb).
  pose proof (trep_nodup _ _ _ H) as ND.
  assert (NE : ~ In e (concat cs)).
  { intros X. apply NoDup_remove in ND. destruct ND as [_ ND]. apply ND.
    apply in_app_iff; left; exact X. }
  assert (NF : ~ In e fr).
  { apply NoDup_remove in ND. destruct ND as [_ ND]. intros X; apply ND.
    apply in_app_iff; right; exact X. }
  assert (NB : forall b' c', znth cs b' = Some c' -> ~ In e c').
  { intros b' c' E X. apply NE. apply In_concat_znth; eauto. }
  pose proof (r_free _ _ _ H) as SF. cbn [seg] in SF.
  destruct SF as (EF & NI & j & Ej & SF).
  assert (j = nf) by congruence. subst j.
  exists (c1 ++ (e :: c) :: c2).
  assert (EN : ents (put t b e nf key v) (concat cs) = ents t (concat cs)).
  { apply ents_ext. intros i Hi. cbn [put t_entries]. apply upd_other. intros ->; contradiction. }
  split.
  - constructor; cbn [put t_hsize t_alloc t_next t_buckets t_free t_entries t_n].
    + rewrite <- (r_len _ _ _ H), Ecs, !zlen_app, !zlen_cons. lia.
    + apply (r_size _ _ _ H).
    + intros b' d E. apply (znth_replace _ _ _ c) in E. rewrite <- Ecs in E.
      destruct E as [[E1 E2]|[E1 E2]].
      * rewrite Eb in E1. subst b' d. rewrite upd_same. cbn [seg].
        split; [reflexivity|]. split; [exact NI|]. exists (t_buckets t b).
        rewrite upd_same. split; [reflexivity|].
        apply seg_upd_notin; [apply (NB b c Ec)|]. apply (r_seg _ _ _ H); exact Ec.
      * rewrite Eb in E1. rewrite upd_other by exact E1.
        apply seg_upd_notin; [apply (NB b' d E2)|]. apply (r_seg _ _ _ H); exact E2.
    + apply seg_upd_notin; assumption.
    + eapply Permutation_trans; [|apply (r_perm _ _ _ H)].
      rewrite Ecs, !concat_mid.
      rewrite <- !app_assoc. apply Permutation_app_head. cbn [app].
      rewrite app_assoc. rewrite (app_assoc c). apply Permutation_cons_app. apply Permutation_refl.
    + intros b' d i E Hi. apply (znth_replace _ _ _ c) in E. rewrite <- Ecs in E.
      destruct E as [[E1 E2]|[E1 E2]].
      * rewrite Eb in E1. subst b' d. destruct Hi as [<-|Hi].
        -- exists key, v. rewrite upd_same. split; reflexivity.
        -- destruct (r_ent _ _ _ H b c i Ec Hi) as (k' & v' & X & Y). exists k', v'.
           split; [|exact Y]. rewrite upd_other; [exact X|]. intros ->. apply (NB b c Ec); exact Hi.
      * destruct (r_ent _ _ _ H b' d i E2 Hi) as (k' & v' & X & Y). exists k', v'.
        split; [|exact Y]. rewrite upd_other; [exact X|]. intros ->. apply (NB b' d E2); exact Hi.
    + rewrite (r_n _ _ _ H), Ecs, !concat_mid, !zlen_app, zlen_cons. lia.
  - rewrite <- EN. rewrite Ecs, !concat_mid, !ents_app.
    replace (ents (put t b e nf key v) (e :: c))
      with ((key, v) :: ents (put t b e nf key v) c).
    2: { unfold ents at 2. cbn [flat_map put t_entries]. rewrite upd_same. reflexivity. }
    cbn [app]. symmetry. apply Permutation_cons_app.
    apply Permutation_refl.
Qed.

(** ** Overwriting the value of an entry *)
Definition overwrite (t : tbl) (r : Z) (key : K) (v : V) : tbl :=
  mk_tbl (t_alloc t) (t_n t) (t_hsize t) (t_buckets t)
         (upd (t_entries t) r (Some (key, v))) (t_next t) (t_free t).

Lemma overwrite_spec : forall t cs fr m r key v v0 c,
  trep t cs fr -> Permutation (ents t (concat cs)) m -> NoDup (map fst m) ->
  t_entries t r = Some (key, v0) -> znth cs (bucket_of (hash key) (t_hsize t)) = Some c -> In r c ->
  trep (overwrite t r key v) cs fr /\
  Permutation (ents (overwrite t r key v) (concat cs)) (m_set keq key v m).
Proof.
  intros t cs fr m r key v v0 c H P ND Er Ec Hr.
  split.
  - constructor; try apply H.
    intros b' d i E Hi. cbn [overwrite t_entries t_hsize].
    destruct (Z.eq_dec i r) as [->|N].
    + rewrite upd_same. exists key, v. split; [reflexivity|].
      destruct (r_ent _ _ _ H b' d r E Hi) as (k' & v' & X & Y). congruence.
    + rewrite upd_other by exact N. apply (r_ent _ _ _ H b' d i E Hi).
  - assert (HR : In r (concat cs)) by (apply In_concat_znth; eauto).
    pose proof (trep_nodup _ _ _ H) as NDc. apply NoDup_app_remove_r in NDc.
    destruct (in_split _ _ HR) as (l1 & l2 & EL).
    rewrite EL in *. apply NoDup_remove in NDc. destruct NDc as [_ NI].
    assert (X : forall l, ~ In r l -> ents (overwrite t r key v) l = ents t l).
    { intros l Hl. apply ents_ext. intros i Hi. cbn [overwrite t_entries].
      apply upd_other. intros ->; contradiction. }
    rewrite in_app_iff in NI.
    rewrite ents_app. change (r :: l2) with ([r] ++ l2). rewrite ents_app.
    rewrite (X l1), (X l2) by tauto.
    change (r :: l2) with ([r] ++ l2) in P. rewrite ents_app, ents_app in P.
    replace (ents (overwrite t r key v) [r]) with [(key, v)]
      by (unfold ents; cbn [flat_map overwrite t_entries]; rewrite upd_same; reflexivity).
    replace (ents t [r]) with [(key, v0)] in P
      by (unfold ents; cbn [flat_map]; rewrite Er; reflexivity).
    cbn [app] in *. unfold m_set.
    symmetry. apply Permutation_cons_app. symmetry.
    assert (ND2 : NoDup (map fst (ents t l1 ++ (key, v0) :: ents t l2))).
    { eapply Permutation_NoDup; [|exact ND]. apply Permutation_map; symmetry; exact P. }
    rewrite <- (m_remove_mid key v0 _ _ ND2).
    unfold m_remove. apply filter_perm; exact P.
Qed.

(** ** Reserve *)
Definition rinv (t : tbl) (nhs : Z) (nn0 : Z -> option Z)
           (nb : Z -> Z) (nn : Z -> option Z) (ne : Z -> option (K * V)) (cs : list (list Z)) : Prop :=
  zlen cs = nhs /\
  (forall b c, znth cs b = Some c -> seg nn (nb b) c) /\
  (forall b c i, znth cs b = Some c -> In i c ->
     exists k v, t_entries t i = Some (k, v) /\ ne i = Some (k, v) /\ bucket_of (hash k) nhs = b) /\
  (forall i, ~ In i (concat cs) -> nn i = nn0 i).

Lemma rehash_chain_spec : forall t kk nn0 c fuel i nb nn ne cs,
  0 <= kk ->
  seg (t_next t) i c -> walkable t c -> (length c < fuel)%nat -> NoDup (c ++ concat cs) ->
  rinv t (2 ^ kk) nn0 nb nn ne cs ->
  exists nb' nn' ne' cs', rehash_chain hash fuel t (2 ^ kk) i nb nn ne = Ok (nb', nn', ne') /\
    rinv t (2 ^ kk) nn0 nb' nn' ne' cs' /\ Permutation (concat cs') (c ++ concat cs).
Proof.
  intros t kk nn0 c; induction c as [|x c IH]; intros fuel i nb nn ne cs Hkk S W L ND HI;
    (destruct fuel as [|fuel]; [cbn in L; lia|]); cbn [rehash_chain].
  - cbn [seg] in S. subst i. rewrite Z.eqb_refl.
    exists nb, nn, ne, cs. split; [reflexivity|]. split; [exact HI|apply Permutation_refl].
  - cbn [seg] in S. destruct S as (-> & N & j & Ej & S).
    destruct (Z.eqb_spec x INV) as [E|_]; [contradiction|].
    destruct (W x (or_introl eq_refl)) as (A & k & v & E).
    rewrite (rd_entry_ok t x _ A E); cbn [bind].
    rewrite (rd_next_ok t x _ A Ej); cbn [bind].
    set (b := bucket_of (hash k) (2 ^ kk)).
    destruct HI as (I1 & I2 & I3 & I4).
    assert (Hb : 0 <= b < zlen cs) by (rewrite I1; apply bucket_range; lia).
    destruct (znth_some _ _ _ Hb) as [d Ed].
    destruct (znth_split _ _ _ _ Ed) as (c1 & c2 & Ecs & Eb).
    inversion ND as [|? ? NX ND']; subst.
    assert (NC : ~ In x (concat (c1 ++ d :: c2))).
    { intros X; apply NX; apply in_app_iff; right; exact X. }
    assert (NB : forall b' c', znth (c1 ++ d :: c2) b' = Some c' -> ~ In x c').
    { intros b' c' E' X. apply NC. apply In_concat_znth; eauto. }
    destruct (IH fuel j (upd nb b x) (upd nn x (Some (nb b))) (upd ne x (Some (k, v)))
                 (c1 ++ (x :: d) :: c2)) as (nb' & nn' & ne' & cs' & E2 & HI' & P).
    + exact Hkk.
    + exact S.
    + intros y Hy; apply W; right; exact Hy.
    + cbn in L; lia.
    + eapply Permutation_NoDup; [|exact ND].
      rewrite !concat_mid. cbn [app]. rewrite !(app_assoc c).
      apply Permutation_cons_app. apply Permutation_refl.
    + repeat split.
      * rewrite !zlen_app, !zlen_cons in *. exact I1.
      * intros b' d' E'. apply (znth_replace _ _ _ d) in E'.
        destruct E' as [[E1 E3]|[E1 E3]].
        -- rewrite Eb in E1. subst b' d'. rewrite upd_same. cbn [seg].
           split; [reflexivity|]. split; [exact N|]. exists (nb b). rewrite upd_same.
           split; [reflexivity|]. apply seg_upd_notin; [apply (NB b d Ed)|]. apply I2; exact Ed.
        -- rewrite Eb in E1. rewrite upd_other by exact E1.
           apply seg_upd_notin; [apply (NB b' d' E3)|]. apply I2; exact E3.
      * intros b' d' y E' Hy. apply (znth_replace _ _ _ d) in E'.
        destruct E' as [[E1 E3]|[E1 E3]].
        -- rewrite Eb in E1. subst b' d'. destruct Hy as [<-|Hy].
           ++ exists k, v. rewrite upd_same. repeat split; assumption.
           ++ destruct (I3 b d y Ed Hy) as (k' & v' & X & Y & Z0). exists k', v'.
              split; [exact X|]. split; [|exact Z0].
              rewrite upd_other; [exact Y|]. intros ->. apply (NB b d Ed); exact Hy.
        -- destruct (I3 b' d' y E3 Hy) as (k' & v' & X & Y & Z0). exists k', v'.
           split; [exact X|]. split; [|exact Z0].
           rewrite upd_other; [exact Y|]. intros ->. apply (NB b' d' E3); exact Hy.
      * intros y Hy. rewrite concat_mid in Hy. rewrite !in_app_iff in Hy. cbn [In] in Hy.
        rewrite upd_other by (intros ->; tauto). apply I4.
        rewrite concat_mid, !in_app_iff. tauto.
    + exists nb', nn', ne', cs'. split; [exact E2|]. split; [exact HI'|].
      eapply Permutation_trans; [exact P|].
      rewrite !concat_mid. cbn [app]. rewrite !(app_assoc c).
      symmetry. apply Permutation_cons_app. apply Permutation_refl.
Qed.

Lemma rehash_all_spec : forall t kk nn0 rest pre nb nn ne cs,
  0 <= kk ->
  (forall b c, znth (pre ++ rest) b = Some c -> seg (t_next t) (t_buckets t b) c) ->
  (forall c, In c rest -> walkable t c /\ (length c < fuel_of t)%nat) ->
  NoDup (concat rest ++ concat cs) ->
  rinv t (2 ^ kk) nn0 nb nn ne cs ->
  exists nb' nn' ne' cs',
    rehash_all hash (length rest) t (2 ^ kk) (zlen pre) nb nn ne = Ok (nb', nn', ne') /\
    rinv t (2 ^ kk) nn0 nb' nn' ne' cs' /\ Permutation (concat cs') (concat rest ++ concat cs).
Proof.
  intros t kk nn0 rest; induction rest as [|c rest IH]; intros pre nb nn ne cs Hkk HS HW ND HI.
  - exists nb, nn, ne, cs. split; [reflexivity|]. split; [exact HI|apply Permutation_refl].
  - cbn [length rehash_all concat].
    destruct (HW c (or_introl eq_refl)) as [W L].
    cbn [concat] in ND. rewrite <- app_assoc in ND.
    destruct (rehash_chain_spec t kk nn0 c (fuel_of t) (t_buckets t (zlen pre)) nb nn ne cs)
      as (nb1 & nn1 & ne1 & cs1 & E1 & HI1 & P1); auto.
    + apply HS. apply znth_mid.
    + eapply Permutation_NoDup in ND.
      2: { apply Permutation_app_swap_app. }
      apply NoDup_app_remove_l in ND. exact ND.
    + rewrite E1; cbn [bind].
      replace (zlen pre + 1) with (zlen (pre ++ [c])) by (rewrite zlen_app, zlen_cons, zlen_nil; lia).
      destruct (IH (pre ++ [c]) nb1 nn1 ne1 cs1) as (nb' & nn' & ne' & cs' & E2 & HI2 & P2); auto.
      * intros b d E. apply HS. rewrite <- app_assoc in E. exact E.
      * intros d Hd; apply HW; right; exact Hd.
      * eapply Permutation_NoDup; [|exact ND].
        eapply Permutation_trans; [apply Permutation_app_swap_app|].
        apply Permutation_app_head. symmetry; exact P1.
      * exists nb', nn', ne', cs'. split; [exact E2|]. split; [exact HI2|].
        eapply Permutation_trans; [exact P2|].
        eapply Permutation_trans; [apply Permutation_app_head; exact P1|].
        rewrite app_assoc. apply Permutation_app_tail. apply Permutation_app_comm.
Qed.

Lemma seg_range : forall nx n a s fr,
  0 <= a -> (forall i, a <= i < a + Z.of_nat n -> nx i = Some (i + 1)) ->
  nx (a + Z.of_nat n) = Some s -> seg nx s fr ->
  seg nx a (zrange a (Z.of_nat n + 1) ++ fr).
Proof.
  intros nx n; induction n as [|n IH]; intros a s fr Ha H1 H2 H3.
  - rewrite zrange_cons by lia. rewrite zrange_nil by lia. cbn [app seg].
    split; [reflexivity|]. split; [unfold INV; lia|]. exists s.
    replace (a + Z.of_nat 0) with a in H2 by lia. auto.
  - rewrite zrange_cons by lia. cbn [app seg].
    split; [reflexivity|]. split; [unfold INV; lia|]. exists (a + 1). split; [apply H1; lia|].
    replace (Z.of_nat (S n) + 1 - 1) with (Z.of_nat n + 1) by lia.
    apply (IH (a + 1) s fr); [lia| | |exact H3].
    + intros i Hi; apply H1; lia.
    + rewrite <- H2; f_equal; lia.
Qed.

Lemma rinv_init : forall t kk nn0, 0 <= kk ->
  rinv t (2 ^ kk) nn0 (fun _ => INV) nn0 (fun _ => None) (repeat [] (Z.to_nat (2 ^ kk))).
Proof.
  intros t kk nn0 H.
  assert (0 < 2 ^ kk) by (apply Z.pow_pos_nonneg; lia).
  repeat split.
  - unfold zlen; rewrite repeat_length; lia.
  - intros b c E. apply znth_In, repeat_spec in E. subst c. reflexivity.
  - intros b c i E Hi. apply znth_In, repeat_spec in E. subst c. contradiction.
Qed.

Lemma concat_repeat_nil : forall (B : Type) n, concat (repeat (@nil B) n) = [].
Proof. induction n; cbn; auto. Qed.

(** The state after a reserve that grows the table. *)
Lemma reserve_used : forall c t cs fr m,
  trep t cs fr -> Permutation (ents t (concat cs)) m -> t_hsize t < c ->
  (exists k, 4 <= k /\ pow_capacity c = 2 ^ k /\ c <= 2 ^ k) ->
  exists t' cs' fr', tbl_reserve hash c t = Ok t' /\ trep t' cs' fr' /\
    Permutation (ents t' (concat cs')) m /\ fr' <> [] /\ c <= t_hsize t' /\ t_n t' = t_n t.
Proof.
  intros c t cs fr m H P L (k' & Hk' & Ek' & Lk').
  unfold tbl_reserve. destruct (Z.leb_spec c (t_hsize t)) as [X|_]; [lia|].
  rewrite Ek'.
  set (nn0 := fun i : Z => if in_alloc t i then t_next t i else None).
  pose proof (trep_nodup _ _ _ H) as ND.
  destruct (rehash_all_spec t k' nn0 cs [] (fun _ => INV) nn0 (fun _ => None)
              (repeat [] (Z.to_nat (2 ^ k')))) as (nb & nn & ne & cs' & E & HI & PC).
  - lia.
  - intros b d Ed. apply (r_seg _ _ _ H); exact Ed.
  - intros d Hd. destruct (In_znth _ _ _ Hd) as [b Ed]. split.
    + eapply trep_walkable; eassumption.
    + eapply trep_fuel; eassumption.
  - rewrite concat_repeat_nil, app_nil_r. apply NoDup_app_remove_r in ND. exact ND.
  - apply rinv_init; lia.
  - rewrite concat_repeat_nil, app_nil_r in PC.
    pose proof (r_len _ _ _ H) as RL.
    replace (Z.to_nat (t_hsize t)) with (length cs) by (unfold zlen in RL; lia).
    rewrite zlen_nil in E. rewrite E; cbn [bind].
    destruct HI as (I1 & I2 & I3 & I4).
    destruct (r_size _ _ _ H) as (k & Hk & Ehs & Eal).
    assert (LK : k < k').
    { rewrite Ehs in L. assert (2 ^ k < 2 ^ k') by lia. apply Z.pow_lt_mono_r_iff in H0; lia. }
    pose proof (alloc_for_mono k k' Hk LK) as AM. rewrite <- Eal in AM.
    destruct (alloc_for_pos k Hk) as (AP & _ & _). rewrite <- Eal in AP.
    set (na := alloc_for (2 ^ k')) in *.
    set (nn' := fun i : Z => if (t_alloc t <=? i) && (i <? na - 1) then Some (i + 1)
                             else if i =? na - 1 then Some (t_free t) else nn i).
    assert (NN : forall i, i < t_alloc t -> nn' i = nn i).
    { intros i Hi. unfold nn'. destruct (Z.leb_spec (t_alloc t) i); [lia|]. cbn [andb].
      destruct (Z.eqb_spec i (na - 1)); [lia|reflexivity]. }
    assert (IN : forall i, In i (concat cs') -> 0 <= i < t_alloc t).
    { intros i Hi. eapply trep_in; [exact H|]. left. eapply Permutation_in; [exact PC|exact Hi]. }
    set (t' := mk_tbl na (t_n t) (2 ^ k') nb ne nn' (t_alloc t)).
    assert (EE : ents t' (concat cs') = ents t (concat cs')).
    { apply ents_ext. intros i Hi. cbn [t' t_entries].
      apply In_concat_znth in Hi. destruct Hi as (b & d & Ed & Hi).
      destruct (I3 b d i Ed Hi) as (kx & vx & X & Y & _). congruence. }
    exists t', cs', (zrange (t_alloc t) (na - t_alloc t) ++ fr).
    split; [reflexivity|]. split; [|split; [|split; [|split]]].
    + constructor; cbn [t' t_hsize t_alloc t_next t_buckets t_free t_entries t_n].
      * exact I1.
      * exists k'. repeat split; auto.
      * intros b d Ed. apply (seg_ext nn); [|apply I2; exact Ed].
        intros i Hi. symmetry; apply NN. apply IN. apply In_concat_znth; eauto.
      * replace (na - t_alloc t) with (Z.of_nat (Z.to_nat (na - t_alloc t - 1)) + 1) by lia.
        apply (seg_range nn' _ (t_alloc t) (t_free t) fr); [lia| | |].
        -- intros i Hi. unfold nn'.
           destruct (Z.leb_spec (t_alloc t) i); [|lia].
           destruct (Z.ltb_spec i (na - 1)); [|lia]. reflexivity.
        -- replace (t_alloc t + Z.of_nat (Z.to_nat (na - t_alloc t - 1))) with (na - 1) by lia.
           unfold nn'. destruct (Z.ltb_spec (na - 1) (na - 1)); [lia|]. rewrite andb_false_r.
           rewrite Z.eqb_refl. reflexivity.
        -- apply (seg_ext (t_next t)); [|apply (r_free _ _ _ H)].
           intros i Hi. destruct (trep_in _ _ _ i H (or_intror Hi)) as [A B].
           rewrite NN by lia. rewrite I4.
           ++ unfold nn0. rewrite A. reflexivity.
           ++ intros X. apply (Permutation_in _ PC) in X.
              apply in_split in X. destruct X as (l1 & l2 & EX).
              rewrite EX in ND. rewrite <- app_assoc in ND. cbn [app] in ND.
              apply NoDup_remove in ND. destruct ND as [_ ND]. apply ND.
              rewrite !in_app_iff. right; right; exact Hi.
      * replace na with (t_alloc t + (na - t_alloc t)) at 2 by lia.
        rewrite zrange_split by lia. rewrite Z.add_0_l.
        rewrite app_assoc.
        eapply Permutation_trans;
          [apply Permutation_app_tail, Permutation_app_comm|].
        rewrite <- app_assoc.
        eapply Permutation_trans; [apply Permutation_app_comm|].
        apply Permutation_app_tail.
        eapply Permutation_trans; [apply Permutation_app_tail; exact PC|].
        apply (r_perm _ _ _ H).
      * intros b d i Ed Hi. destruct (I3 b d i Ed Hi) as (kx & vx & X & Y & W). eauto.
      * rewrite (r_n _ _ _ H). unfold zlen. rewrite (Permutation_length PC). reflexivity.
    + rewrite EE. eapply Permutation_trans; [|exact P]. apply ents_perm; exact PC.
    + rewrite zrange_cons by lia. discriminate.
    + exact Lk'.
    + reflexivity.
Qed.

Lemma reserve_fresh : forall c t m,
  Rnone false t m -> 0 < c ->
  (exists k, 4 <= k /\ pow_capacity c = 2 ^ k /\ c <= 2 ^ k) ->
  exists t' cs' fr', tbl_reserve hash c t = Ok t' /\ trep t' cs' fr' /\
    ents t' (concat cs') = [] /\ fr' <> [] /\ c <= t_hsize t' /\ t_n t' = 0.
Proof.
  intros c t m (N1 & N2 & N3 & N4 & _ & ->) Hc (k' & Hk' & Ek' & Lk').
  specialize (N4 eq_refl).
  unfold tbl_reserve. rewrite N1. destruct (Z.leb_spec c 0); [lia|].
  rewrite Ek'. cbn [Z.to_nat rehash_all bind].
  destruct (alloc_for_pos k' Hk') as (AP & _ & _).
  set (na := alloc_for (2 ^ k')) in *.
  assert (P2 : 0 < 2 ^ k') by (apply Z.pow_pos_nonneg; lia).
  rewrite N2, N4.
  eexists. exists (repeat [] (Z.to_nat (2 ^ k'))), (zrange 0 na ++ []).
  split; [reflexivity|]. split; [|split; [|split; [|split]]].
  - constructor; cbn [t_hsize t_alloc t_next t_buckets t_free t_entries t_n].
    + unfold zlen; rewrite repeat_length; lia.
    + exists k'; auto.
    + intros b c0 E. apply znth_In, repeat_spec in E. subst c0. reflexivity.
    + assert (EZ : zrange 0 na = zrange 0 (Z.of_nat (Z.to_nat (na - 1)) + 1)) by (f_equal; lia).
      rewrite EZ.
      apply (seg_range _ _ 0 INV []); [lia| | |reflexivity].
      * intros i Hi. destruct (Z.leb_spec 0 i); [|lia].
        destruct (Z.ltb_spec i (na - 1)); [|lia]. reflexivity.
      * replace (0 + Z.of_nat (Z.to_nat (na - 1))) with (na - 1) by lia.
        destruct (Z.ltb_spec (na - 1) (na - 1)); [lia|]. rewrite andb_false_r, Z.eqb_refl. reflexivity.
    + rewrite concat_repeat_nil, app_nil_r. apply Permutation_refl.
    + intros b c0 i E Hi. apply znth_In, repeat_spec in E. subst c0. contradiction.
    + rewrite concat_repeat_nil. exact N3.
  - rewrite concat_repeat_nil. reflexivity.
  - rewrite app_nil_r, zrange_cons by lia. discriminate.
  - exact Lk'.
  - exact N3.
Qed.

(** ** add *)
Lemma add_scan_find : forall mode (t : tbl) key fuel i,
  mode <> Duplicate -> add_scan hash keq fuel mode t key i = find_loop hash keq fuel t key i.
Proof.
  intros mode t key fuel; induction fuel as [|fuel IH]; intros i HM; [reflexivity|].
  cbn [add_scan find_loop]. destruct (i =? INV); [reflexivity|].
  destruct (rd_entry t i) as [[k v]| |]; cbn [bind]; try reflexivity.
  replace (matches hash keq k key && match mode with Duplicate => false | _ => true end)
    with (matches hash keq k key) by (destruct mode; try congruence; rewrite andb_true_r; reflexivity).
  destruct (matches hash keq k key); [reflexivity|].
  destruct (rd_next t i); cbn [bind]; try reflexivity. apply IH; exact HM.
Qed.

Lemma add_scan_dup : forall (t : tbl) key c fuel i,
  seg (t_next t) i c -> walkable t c -> (length c < fuel)%nat ->
  add_scan hash keq fuel Duplicate t key i = Ok INV.
Proof.
  intros t key c; induction c as [|x c IH]; intros fuel i S W L;
    (destruct fuel as [|fuel]; [cbn in L; lia|]); cbn [add_scan].
  - cbn [seg] in S. subst i. rewrite Z.eqb_refl. reflexivity.
  - cbn [seg] in S. destruct S as (-> & N & j & Ej & S).
    destruct (Z.eqb_spec x INV) as [E|_]; [contradiction|].
    destruct (W x (or_introl eq_refl)) as (A & k & v & E).
    rewrite (rd_entry_ok t x _ A E); cbn [bind]. rewrite andb_false_r.
    rewrite (rd_next_ok t x _ A Ej); cbn [bind].
    apply IH; [exact S| |cbn in L; lia]. intros y Hy; apply W; right; exact Hy.
Qed.

(** Insertion of a new key into a table with memory and a free entry. *)
Lemma insert_used : forall t cs fr m key v,
  trep t cs fr -> fr <> [] -> Permutation (ents t (concat cs)) m -> NoDup (map fst m) ->
  lookup keq key m = None ->
  let b := bucket_of (hash key) (t_hsize t) in
  exists nf, rd_next t (t_free t) = Ok nf /\ (0 <=? b) && (b <? t_hsize t) = true /\
    Rused (put t b (t_free t) nf key v) (m_set keq key v m).
Proof.
  intros t cs fr m key v H NF P ND LK b.
  destruct fr as [|e fr]; [congruence|].
  pose proof (r_free _ _ _ H) as SF. cbn [seg] in SF.
  destruct SF as (EF & NI & nf & Enf & SF).
  exists nf. destruct (trep_in _ _ _ e H (or_intror (or_introl eq_refl))) as [A _].
  rewrite EF. split; [apply rd_next_ok; assumption|]. split.
  - destruct (r_size _ _ _ H) as (k & Hk & E & _).
    unfold b; rewrite E. pose proof (bucket_range (hash key) k ltac:(lia)).
    rewrite andb_true_iff, Z.leb_le, Z.ltb_lt. lia.
  - destruct (trep_chain t cs _ key H) as [c Ec].
    destruct (put_spec t cs fr e nf key v c H Enf Ec) as (cs' & H' & P').
    exists cs', fr. split; [exact H'|]. split.
    + eapply Permutation_trans; [exact P'|]. unfold m_set.
      rewrite m_remove_absent by (apply lookup_None; exact LK). constructor; exact P.
    + apply NoDup_m_set; exact ND.
Qed.

Lemma double_cap : forall t cs fr, trep t cs fr ->
  exists k, 4 <= k /\ pow_capacity (t_hsize t * 2) = 2 ^ k /\ t_hsize t * 2 <= 2 ^ k.
Proof.
  intros t cs fr H. destruct (r_size _ _ _ H) as (k & Hk & E & _).
  exists (k + 1). split; [lia|]. rewrite E.
  replace (2 ^ k * 2) with (2 ^ (k + 1)) by (rewrite Z.pow_add_r by lia; reflexivity).
  rewrite pow_capacity_pow by lia. split; [reflexivity|lia].
Qed.

Lemma add_used : forall mode t m key v,
  Rused t m -> (mode = Duplicate -> lookup keq key m = None) ->
  exists t' r, tbl_add hash keq mode key v t = Ok (t', r) /\
    match lookup keq key m, mode with
    | Some _, Refuse => t' = t /\ r = false
    | _, _ => r = true /\ Rused t' (m_set keq key v m)
    end.
Proof.
  intros mode t m key v (cs & fr & H & P & ND) HD.
  unfold tbl_add.
  destruct (trep_hpos _ _ _ H) as [HP0 HP]. rewrite HP.
  destruct (find_entry_spec t m cs fr key H P ND) as (r & Er & HR).
  unfold tbl_find_entry in Er. rewrite HP in Er.
  set (bk := t_buckets t (bucket_of (hash key) (t_hsize t))) in *.
  assert (ES : exists r', add_scan hash keq (fuel_of t) mode t key bk = Ok r' /\
             (r' = r \/ (mode = Duplicate /\ r' = INV))).
  { destruct mode.
    - exists r. rewrite add_scan_find by discriminate. auto.
    - exists INV. split; [|auto].
      destruct (trep_chain t cs fr key H) as [c Ec].
      apply (add_scan_dup t key c); [apply (r_seg _ _ _ H); exact Ec| |].
      + eapply trep_walkable; eassumption.
      + eapply trep_fuel; eassumption.
    - exists r. rewrite add_scan_find by discriminate. auto. }
  destruct ES as (r' & ES & HR'). rewrite ES; cbn [bind].
  destruct (lookup keq key m) as [v0|] eqn:LK.
  - (* present *)
    assert (mode <> Duplicate) by (intros ->; specialize (HD eq_refl); discriminate).
    destruct HR' as [->|[X _]]; [|contradiction].
    destruct HR as [[_ X]|(NI & A & v1 & c & E1 & E2 & Ec & Hr)]; [discriminate|].
    destruct (Z.eqb_spec r INV) as [X|_]; [contradiction|]. cbn [negb].
    assert (v1 = v0) by congruence. subst v1.
    destruct mode; [|congruence|].
    + eexists _, _. split; [reflexivity|]. split; [reflexivity|].
      destruct (overwrite_spec t cs fr m r key v v0 c H P ND E1 Ec Hr) as [H' P'].
      exists cs, fr. split; [exact H'|]. split; [exact P'|]. apply NoDup_m_set; exact ND.
    + eexists _, _. split; [reflexivity|]. auto.
  - (* absent *)
    assert (r' = INV).
    { destruct HR' as [->|[_ ->]]; [|reflexivity].
      destruct HR as [[X _]|(_ & _ & v1 & c & _ & X & _)]; [exact X|discriminate]. }
    subst r'. rewrite Z.eqb_refl. cbn [negb].
    destruct (Z.eqb_spec (t_free t) INV) as [EF|EF].
    + (* full: grow *)
      destruct (Z.eqb_spec (t_hsize t) 0); [lia|].
      destruct (reserve_used (t_hsize t * 2) t cs fr m H P ltac:(lia) (double_cap t cs fr H))
        as (t1 & cs1 & fr1 & E1 & H1 & P1 & F1 & _ & _).
      rewrite E1; cbn [bind].
      destruct (insert_used t1 cs1 fr1 m key v H1 F1 P1 ND LK) as (nf & En & Eb & RU).
      rewrite En; cbn [bind]. rewrite Eb.
      eexists _, _. split; [reflexivity|]. split; [reflexivity|exact RU].
    + cbn [bind].
      assert (F1 : fr <> []).
      { intros ->. apply EF. exact (r_free _ _ _ H). }
      destruct (insert_used t cs fr m key v H F1 P ND LK) as (nf & En & Eb & RU).
      rewrite En; cbn [bind]. rewrite Eb.
      eexists _, _. split; [reflexivity|]. split; [reflexivity|exact RU].
Qed.

Lemma add_fresh : forall mode t m key v,
  Rnone false t m ->
  exists t', tbl_add hash keq mode key v t = Ok (t', true) /\ Rused t' (m_set keq key v m).
Proof.
  intros mode t m key v HN. pose proof HN as (N1 & N2 & N3 & N4 & _ & ->).
  specialize (N4 eq_refl).
  unfold tbl_add. rewrite N1. change (0 <? 0) with false. cbn iota. cbn [bind].
  rewrite Z.eqb_refl. cbn [negb]. rewrite N4, Z.eqb_refl.
  destruct (reserve_fresh 16 t [] HN ltac:(lia)) as (t1 & cs1 & fr1 & E1 & H1 & P1 & F1 & _ & _).
  { exists 4. split; [lia|]. split; [vm_compute; reflexivity|]. change (2 ^ 4) with 16; lia. }
  change (0 =? 0) with true. cbn iota. rewrite E1; cbn [bind].
  assert (P1' : Permutation (ents t1 (concat cs1)) []) by (rewrite P1; constructor).
  destruct (insert_used t1 cs1 fr1 [] key v H1 F1 P1' (NoDup_nil _) eq_refl) as (nf & En & Eb & RU).
  rewrite En; cbn [bind]. rewrite Eb. eexists; split; [reflexivity|exact RU].
Qed.

Lemma add_released : forall mode (t : tbl) m key v,
  Rnone true t m -> tbl_add hash keq mode key v t = Ub.
Proof.
  intros mode t m key v (N1 & N2 & N3 & _ & N5 & _). specialize (N5 eq_refl).
  unfold tbl_add. rewrite N1. change (0 <? 0) with false. cbn iota. cbn [bind].
  rewrite Z.eqb_refl. cbn [negb].
  destruct (Z.eqb_spec (t_free t) INV); [contradiction|]. cbn [bind].
  unfold rd_next, in_alloc. rewrite N2.
  destruct (Z.leb_spec 0 (t_free t)), (Z.ltb_spec (t_free t) 0); try lia; reflexivity.
Qed.

(** ** remove *)
Definition cut (t : tbl) (b last i j : Z) : tbl :=
  mk_tbl (t_alloc t) (t_n t - 1) (t_hsize t)
         (if last =? INV then upd (t_buckets t) b j else t_buckets t)
         (upd (t_entries t) i None)
         (upd (if last =? INV then t_next t else upd (t_next t) last (Some j)) i (Some (t_free t))) i.

Lemma remove_loop_spec : forall (t : tbl) key b rest p fuel i,
  seg (t_next t) i rest -> walkable t rest -> (length rest < fuel)%nat ->
  (exists r1 x q j v, rest = r1 ++ x :: q /\ t_entries t x = Some (key, v) /\ t_next t x = Some j /\
     let t' := cut t b (last (p ++ r1) INV) x j in
     remove_loop hash keq fuel t key b (last p INV) i =
       Ok (t', if j =? INV then from_bucket t' (b + 1) else (b, j))) \/
  ((forall x k v, In x rest -> t_entries t x = Some (k, v) -> k <> key) /\
   remove_loop hash keq fuel t key b (last p INV) i = Ok (t, tbl_end t)).
Proof.
  intros t key b rest; induction rest as [|x rest IH]; intros p fuel i S W L;
    (destruct fuel as [|fuel]; [cbn in L; lia|]); cbn [remove_loop].
  - cbn [seg] in S. subst i. rewrite Z.eqb_refl. right. split; [|reflexivity]. intros x k v [].
  - cbn [seg] in S. destruct S as (-> & N & j & Ej & S).
    destruct (Z.eqb_spec x INV) as [E|_]; [contradiction|].
    destruct (W x (or_introl eq_refl)) as (A & k & v & E).
    rewrite (rd_entry_ok t x _ A E); cbn [bind].
    rewrite (rd_next_ok t x _ A Ej); cbn [bind].
    destruct (matches hash keq k key) eqn:M.
    + apply matches_spec in M; subst k. left. exists [], x, rest, j, v.
      split; [reflexivity|]. split; [exact E|]. split; [exact Ej|]. rewrite app_nil_r. reflexivity.
    + destruct (IH (p ++ [x]) fuel j S) as [HL|HR].
      * intros y Hy; apply W; right; exact Hy.
      * cbn in L; lia.
      * left. destruct HL as (r1 & y & q & j' & v' & E1 & E2 & E3 & E4).
        exists (x :: r1), y, q, j', v'. rewrite E1. split; [reflexivity|]. split; [exact E2|].
        split; [exact E3|]. rewrite last_last in E4. rewrite <- app_assoc in E4. exact E4.
      * right. destruct HR as [H1 H2]. rewrite last_last in H2. split; [|exact H2].
        intros y k' v' [->|Hy] E3.
        -- intros ->. assert (k = key) by congruence. subst k.
           assert (matches hash keq key key = true) by (apply matches_spec; reflexivity). congruence.
        -- eapply H1; eassumption.
Qed.

Lemma cut_spec : forall t c1 c2 fr p i q j key v,
  trep t (c1 ++ (p ++ i :: q) :: c2) fr ->
  t_entries t i = Some (key, v) -> t_next t i = Some j ->
  trep (cut t (zlen c1) (last p INV) i j) (c1 ++ (p ++ q) :: c2) (i :: fr) /\
  (forall l, ~ In i l -> ents (cut t (zlen c1) (last p INV) i j) l = ents t l) /\
  ~ In i (concat (c1 ++ (p ++ q) :: c2)) /\ seg (t_next (cut t (zlen c1) (last p INV) i j)) j q.
Proof.
  intros t c1 c2 fr p i q j key v H Ei Ej.
  set (cs := c1 ++ (p ++ i :: q) :: c2) in *.
  assert (Ec : znth cs (zlen c1) = Some (p ++ i :: q)) by apply znth_mid.
  pose proof (trep_nodup _ _ _ H) as ND0.
  assert (ND : NoDup (concat c1 ++ (p ++ i :: q) ++ concat c2 ++ fr)).
  { unfold cs in ND0. rewrite concat_mid in ND0. rewrite <- !app_assoc in *. exact ND0. }
  assert (NDc : NoDup (p ++ i :: q)).
  { apply NoDup_app_remove_l in ND. apply NoDup_app_remove_r in ND. exact ND. }
  assert (NI : ~ In i (concat c1 ++ p ++ q ++ concat c2 ++ fr)).
  { rewrite <- app_assoc in ND. cbn [app] in ND.
    rewrite app_assoc in ND. apply NoDup_remove in ND. destruct ND as [_ ND].
    rewrite <- app_assoc in ND. exact ND. }
  pose proof (r_seg _ _ _ H _ _ Ec) as S.
  assert (OTHER : forall b' d x, znth cs b' = Some d -> b' <> zlen c1 -> In x d -> ~ In x (p ++ i :: q)).
  { intros b' d x E N Hx Hx'.
    destruct (r_ent _ _ _ H b' d x E Hx) as (k1 & v1 & X1 & X2).
    destruct (r_ent _ _ _ H _ _ x Ec Hx') as (k2 & v2 & Y1 & Y2). congruence. }
  assert (FREE : forall x, In x fr -> ~ In x (p ++ i :: q)).
  { intros x Hx Hx'. apply NoDup_app_remove_l in ND.
    apply in_split in Hx'. destruct Hx' as (a1 & a2 & EX). rewrite EX in ND.
    rewrite <- app_assoc in ND. cbn [app] in ND. apply NoDup_remove in ND. destruct ND as [_ ND].
    apply ND. rewrite !in_app_iff. right; right; right; exact Hx. }
  (* the last element of p is in p *)
  assert (LP : last p INV <> INV -> In (last p INV) p).
  { intros N. destruct (exists_last (l := p)) as (p' & x & E).
    - intros ->. apply N; reflexivity.
    - rewrite E, last_last. apply in_app_iff; right; left; reflexivity. }
  set (nx := t_next (cut t (zlen c1) (last p INV) i j)).
  assert (NX : forall x, x <> i -> x <> last p INV \/ last p INV = INV -> nx x = t_next t x).
  { intros x N1 N2. unfold nx, cut; cbn [t_next]. rewrite upd_other by exact N1.
    destruct (Z.eqb_spec (last p INV) INV) as [E|E]; [reflexivity|].
    apply upd_other. destruct N2; [assumption|contradiction]. }
  assert (NXD : forall l, (forall x, In x l -> ~ In x (p ++ i :: q)) -> forall s, seg (t_next t) s l -> seg nx s l).
  { intros l Hl s Hs. apply (seg_ext (t_next t)); [|exact Hs].
    intros x Hx. symmetry. apply NX.
    - intros ->. apply (Hl i Hx). apply in_app_iff; right; left; reflexivity.
    - destruct (Z.eq_dec (last p INV) INV) as [E|E]; [right; exact E|left].
      intros ->. apply (Hl _ Hx). apply in_app_iff; left. apply LP; exact E. }
  destruct (seg_suffix _ _ _ _ _ S) as (NIV & j' & Ej' & Sq).
  assert (j' = j) by congruence. subst j'.
  assert (SQ : seg nx j q).
  { apply (seg_ext (t_next t)); [|exact Sq]. intros x Hx. symmetry. apply NX.
    - intros ->. apply NI. rewrite !in_app_iff. tauto.
    - destruct (Z.eq_dec (last p INV) INV) as [E|E]; [right; exact E|left].
      intros ->. specialize (LP E). apply in_split in Hx. destruct Hx as (a1 & a2 & EX).
      rewrite EX in NDc. apply in_split in LP. destruct LP as (e1 & e2 & EP).
      set (la := last p INV) in *. rewrite EP in NDc. rewrite <- app_assoc in NDc. cbn [app] in NDc.
      apply NoDup_remove in NDc. destruct NDc as [_ NDc]. apply NDc.
      rewrite !in_app_iff. right. right. right. apply in_app_iff. right; left; reflexivity. }
  split; [|split; [|split]].
  - constructor.
    + cbn [cut t_hsize]. rewrite <- (r_len _ _ _ H). unfold cs.
      rewrite !zlen_app, !zlen_cons. lia.
    + apply (r_size _ _ _ H).
    + intros b' d E. fold nx. apply (znth_replace _ _ _ (p ++ i :: q)) in E. fold cs in E.
      destruct E as [[E1 E2]|[E1 E2]].
      * subst b' d.
        assert (CP : p = [] \/ exists p' la, p = p' ++ [la]).
        { destruct p as [|x0 p0]; [left; reflexivity|right].
          destruct (exists_last (l := x0 :: p0)) as (p' & la & EP); [discriminate|eauto]. }
        destruct CP as [->|(p' & la & ->)].
        -- cbn [cut t_buckets last]. rewrite Z.eqb_refl, upd_same. cbn [app] in *.
           exact SQ.
        -- assert (LN : la <> INV).
           { rewrite <- app_assoc in S. cbn [app] in S. apply seg_suffix in S. tauto. }
           cbn [cut t_buckets]. unfold nx, cut; cbn [t_next]. rewrite last_last.
           destruct (Z.eqb_spec la INV) as [X|_]; [contradiction|].
           apply seg_upd_notin.
           ++ rewrite in_app_iff. rewrite !in_app_iff in NI. rewrite in_app_iff. tauto.
           ++ eapply seg_unlink; eassumption.
      * apply NXD; [intros x Hx; eapply OTHER; eassumption|].
        replace (t_buckets (cut t (zlen c1) (last p INV) i j) b') with (t_buckets t b').
        -- apply (r_seg _ _ _ H); exact E2.
        -- cbn [cut t_buckets]. destruct (last p INV =? INV); [|reflexivity].
           rewrite upd_other by exact E1. reflexivity.
    + fold nx. cbn [seg]. split; [reflexivity|]. split; [exact NIV|]. exists (t_free t). split.
      * unfold nx, cut; cbn [t_next]. apply upd_same.
      * apply NXD; [exact FREE|apply (r_free _ _ _ H)].
    + cbn [cut t_alloc]. eapply Permutation_trans; [|apply (r_perm _ _ _ H)].
      unfold cs. rewrite !concat_mid, <- !app_assoc. cbn [app].
      apply Permutation_app_head. apply Permutation_app_head.
      rewrite !app_assoc. symmetry. apply Permutation_cons_app. apply Permutation_refl.
    + intros b' d x E Hx. apply (znth_replace _ _ _ (p ++ i :: q)) in E. fold cs in E.
      assert (X : x <> i /\ exists d', znth cs b' = Some d' /\ In x d').
      { destruct E as [[E1 E2]|[E1 E2]].
        - subst b' d. split.
          + intros ->. apply NI. rewrite !in_app_iff in *. tauto.
          + exists (p ++ i :: q). split; [exact Ec|]. rewrite in_app_iff in *. cbn [In]. tauto.
        - split; [|eauto]. intros ->. apply (OTHER b' d i E2 E1 Hx).
          apply in_app_iff; right; left; reflexivity. }
      destruct X as (N & d' & E' & Hx').
      cbn [cut t_entries t_hsize]. rewrite upd_other by exact N.
      apply (r_ent _ _ _ H b' d' x E' Hx').
    + cbn [cut t_n]. rewrite (r_n _ _ _ H). unfold cs.
      rewrite !concat_mid, !zlen_app, !zlen_cons. lia.
  - intros l Hl. apply ents_ext. intros x Hx. cbn [cut t_entries]. apply upd_other.
    intros ->; contradiction.
  - rewrite concat_mid. rewrite !in_app_iff in *. tauto.
  - exact SQ.
Qed.

End Proofs.
