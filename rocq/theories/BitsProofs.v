From Verif Require Import Base BitsModel.
Open Scope Z_scope.

Lemma wrap64_small : forall x, 0 <= x < 2 ^ 64 -> wrap64 x = x.
Proof. intros x H; unfold wrap64; apply Z.mod_small; exact H. Qed.

(** [smeared w m n]: bit [i] of [n] is the disjunction of bits [i .. i+w-1] of [m]. *)
Definition smeared (w m n : Z) : Prop :=
  0 <= n /\
  forall i, 0 <= i -> (Z.testbit n i = true <-> exists j, i <= j < i + w /\ Z.testbit m j = true).

Lemma smeared_1 : forall m, 0 <= m -> smeared 1 m m.
Proof.
  intros m H; split; [exact H|]. intros i Hi; split.
  - intros E; exists i; split; [lia|exact E].
  - intros (j & Hj & E). assert (j = i) by lia; subst j; exact E.
Qed.

Lemma smeared_step : forall w m n, 0 < w -> smeared w m n -> smeared (2 * w) m (or_shift n w).
Proof.
  intros w m n Hw (Hn & H); unfold or_shift; split.
  - apply Z.lor_nonneg; split; [exact Hn|apply Z.shiftr_nonneg; exact Hn].
  - intros i Hi. rewrite Z.lor_spec, orb_true_iff, Z.shiftr_spec by lia.
    rewrite (H i Hi), (H (i + w) ltac:(lia)). split.
    + intros [(j & Hj & E)|(j & Hj & E)]; exists j; split; auto; lia.
    + intros (j & Hj & E).
      destruct (Z_lt_le_dec j (i + w)); [left|right]; exists j; split; auto; lia.
Qed.

Lemma smeared_ones : forall m n, 0 < m < 2 ^ 64 -> smeared 64 m n -> n = Z.ones (Z.log2 m + 1).
Proof.
  intros m n Hm (Hn & H).
  apply Z.bits_inj'; intros i Hi.
  pose proof (Z.log2_nonneg m).
  assert (Z.log2 m < 64) by (apply Z.log2_lt_pow2; lia).
  rewrite Z.testbit_ones_nonneg by lia.
  destruct (Z.ltb_spec i (Z.log2 m + 1)) as [L|L].
  - apply H; [lia|]. exists (Z.log2 m); split; [lia|].
    apply Z.bit_log2; lia.
  - destruct (Z.testbit n i) eqn:E; [|reflexivity].
    apply H in E; [|lia]. destruct E as (j & Hj & E).
    rewrite Z.bits_above_log2 in E by lia. discriminate.
Qed.

Lemma smear_all : forall m, 0 <= m ->
  smeared 64 m (or_shift (or_shift (or_shift (or_shift (or_shift (or_shift m 1) 2) 4) 8) 16) 32).
Proof.
  intros m H.
  pose proof (smeared_step 1 m m ltac:(lia) (smeared_1 m H)) as S1.
  pose proof (smeared_step 2 _ _ ltac:(lia) S1) as S2.
  pose proof (smeared_step 4 _ _ ltac:(lia) S2) as S3.
  pose proof (smeared_step 8 _ _ ltac:(lia) S3) as S4.
  pose proof (smeared_step 16 _ _ ltac:(lia) S4) as S5.
  exact (smeared_step 32 _ _ ltac:(lia) S5).
Qed.

Lemma next_power_value : forall n, 2 <= n <= 2 ^ 63 ->
  next_power_of_two n = 2 ^ (Z.log2 (n - 1) + 1).
Proof.
  intros n H; unfold next_power_of_two.
  rewrite (wrap64_small (n - 1)) by lia.
  rewrite (smeared_ones (n - 1) _ ltac:(lia) (smear_all (n - 1) ltac:(lia))).
  rewrite Z.ones_equiv.
  pose proof (Z.log2_nonneg (n - 1)).
  assert (Z.log2 (n - 1) < 63) by (apply Z.log2_lt_pow2; lia).
  replace (Z.pred (2 ^ (Z.log2 (n - 1) + 1)) + 1) with (2 ^ (Z.log2 (n - 1) + 1)) by lia.
  assert (0 < 2 ^ (Z.log2 (n - 1) + 1)) by (apply Z.pow_pos_nonneg; lia).
  assert (2 ^ (Z.log2 (n - 1) + 1) < 2 ^ 64) by (apply Z.pow_lt_mono_r; lia).
  rewrite (wrap64_small (2 ^ (Z.log2 (n - 1) + 1))) by lia.
  destruct (Z.eqb_spec (2 ^ (Z.log2 (n - 1) + 1)) 0); [lia|].
  rewrite Z.add_0_r. apply wrap64_small; lia.
Qed.

Lemma next_power_spec : forall n, 1 <= n <= 2 ^ 63 ->
  exists k, 0 <= k /\ next_power_of_two n = 2 ^ k /\ n <= 2 ^ k /\
            forall j, 0 <= j -> n <= 2 ^ j -> 2 ^ k <= 2 ^ j.
Proof.
  intros n H.
  destruct (Z.eq_dec n 1) as [->|N].
  - exists 0. split; [lia|]. split; [vm_compute; reflexivity|]. split; [lia|].
    intros j Hj _. apply Z.pow_le_mono_r; lia.
  - pose proof (Z.log2_nonneg (n - 1)).
    exists (Z.log2 (n - 1) + 1). split; [lia|]. split; [apply next_power_value; lia|].
    pose proof (Z.log2_spec (n - 1) ltac:(lia)) as [L1 L2].
    replace (Z.succ (Z.log2 (n - 1))) with (Z.log2 (n - 1) + 1) in L2 by lia.
    split; [lia|].
    intros j Hj L. apply Z.pow_le_mono_r; [lia|].
    assert (2 ^ Z.log2 (n - 1) < 2 ^ j) by lia.
    apply Z.pow_lt_mono_r_iff in H1; lia.
Qed.

Lemma next_power_large : forall n, 2 ^ 63 < n < 2 ^ 64 -> next_power_of_two n = 1.
Proof.
  intros n H; unfold next_power_of_two.
  rewrite (wrap64_small (n - 1)) by lia.
  rewrite (smeared_ones (n - 1) _ ltac:(lia) (smear_all (n - 1) ltac:(lia))).
  assert (Z.log2 (n - 1) = 63) by (apply Z.log2_unique; lia).
  rewrite H0. reflexivity.
Qed.

Lemma is_power_of_two_spec : forall n, 0 <= n < 2 ^ 64 ->
  (is_power_of_two n = true <-> exists k, 0 <= k /\ n = 2 ^ k).
Proof.
  intros n H; unfold is_power_of_two.
  rewrite andb_true_iff, negb_true_iff, Z.eqb_neq, Z.eqb_eq. split.
  - intros [N E].
    rewrite wrap64_small in E by lia.
    exists (Z.log2 n). pose proof (Z.log2_nonneg n). split; [lia|].
    pose proof (Z.log2_spec n ltac:(lia)) as [L1 L2].
    destruct (Z_lt_le_dec (2 ^ Z.log2 n) n) as [L|L]; [|lia].
    exfalso.
    assert (B : Z.testbit (Z.land n (n - 1)) (Z.log2 n) = true).
    { rewrite Z.land_spec, Z.bit_log2 by lia.
      assert (Z.log2 (n - 1) = Z.log2 n) as <- by (apply Z.log2_unique; lia).
      rewrite Z.bit_log2; [reflexivity|]. assert (0 < 2 ^ Z.log2 n) by (apply Z.pow_pos_nonneg; lia).
      lia. }
    rewrite E, Z.bits_0 in B. discriminate.
  - intros (k & Hk & ->).
    assert (0 < 2 ^ k) by (apply Z.pow_pos_nonneg; lia).
    split; [lia|].
    rewrite wrap64_small by lia.
    replace (2 ^ k - 1) with (Z.ones k) by (rewrite Z.ones_equiv; lia).
    rewrite Z.land_ones by lia. apply Z.mod_same; lia.
Qed.

Lemma pair_numbers_exact : forall a b, 0 <= b <= a -> a < 2 ^ 32 ->
  pair_numbers a b = a * a + a + b /\ a * a + a + b < 2 ^ 64.
Proof.
  intros a b H1 H2.
  assert (a * a <= (2 ^ 32 - 1) * (2 ^ 32 - 1)) by nia.
  assert (a * a + a + b < 2 ^ 64) by nia.
  split; [|assumption]. unfold pair_numbers.
  rewrite (wrap64_small (a * a)) by nia.
  rewrite (wrap64_small (a * a + a)) by nia.
  apply wrap64_small; nia.
Qed.

Lemma szudzik_inj : forall a b c d, 0 <= b <= a -> 0 <= d <= c ->
  a * a + a + b = c * c + c + d -> a = c /\ b = d.
Proof. intros a b c d H1 H2 E. assert (a = c) by nia. subst; split; lia. Qed.

Lemma pair_id_spec : forall a b, 0 <= a < 2 ^ 32 -> 0 <= b < 2 ^ 32 ->
  pair_id a b = Z.max a b * Z.max a b + Z.max a b + Z.min a b /\
  0 <= Z.max a b * Z.max a b + Z.max a b + Z.min a b < 2 ^ 64.
Proof.
  intros a b Ha Hb; unfold pair_id.
  destruct (pair_numbers_exact (Z.max a b) (Z.min a b) ltac:(lia) ltac:(lia)) as [E L].
  split; [exact E|]. split; [nia|exact L].
Qed.

Lemma pair_id_sym : forall a b, pair_id a b = pair_id b a.
Proof. intros; unfold pair_id; rewrite (Z.max_comm b), (Z.min_comm b); reflexivity. Qed.

Lemma pair_id_inj : forall a b c d,
  0 <= a < 2 ^ 32 -> 0 <= b < 2 ^ 32 -> 0 <= c < 2 ^ 32 -> 0 <= d < 2 ^ 32 ->
  pair_id a b = pair_id c d -> (a = c /\ b = d) \/ (a = d /\ b = c).
Proof.
  intros a b c d Ha Hb Hc Hd E.
  destruct (pair_id_spec a b Ha Hb) as [E1 _].
  destruct (pair_id_spec c d Hc Hd) as [E2 _].
  rewrite E1, E2 in E.
  apply szudzik_inj in E; lia.
Qed.
