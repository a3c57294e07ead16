(** Rounding of an unsigned 64-bit integer to a 32-bit float and the capacity
    computation used by all containers. *)
From Verif Require Import Base.
Open Scope Z_scope.

(** Conversion uint64 -> float, round to nearest, ties to even, 24 significant bits
    (IEEE-754 binary32; used implicitly in Array.h:255, Deque.h:89, Map.h:268, Set.h:267 by
    [capacity / float(GLOBAL_ALIGNMENT)]).  All values below 2^64 are in the normal
    range, so only the significand is rounded. *)
Definition rnd24 (c : Z) : Z :=
  if c <? 2 ^ 24 then c
  else
    let e := Z.log2 c - 23 in
    let q := c / 2 ^ e in
    let r := c mod 2 ^ e in
    if r <? 2 ^ (e - 1) then q * 2 ^ e
    else if 2 ^ (e - 1) <? r then (q + 1) * 2 ^ e
    else if Z.even q then q * 2 ^ e else (q + 1) * 2 ^ e.

(** configuration.h: GLOBAL_ALIGNMENT. *)
Definition GLOBAL_ALIGNMENT : Z := 16.

(** [std::ceil(capacity / float(GLOBAL_ALIGNMENT)) * GLOBAL_ALIGNMENT]
    (Array.h:255, Deque.h:89, Map.h:268 and 280, Set.h:267 and 279).  Dividing by 16,
    ceiling and multiplying by 16 are exact on floats of this range, so the only
    rounding is that of the conversion. *)
Definition round_cap (c : Z) : Z :=
  GLOBAL_ALIGNMENT * ((rnd24 c + (GLOBAL_ALIGNMENT - 1)) / GLOBAL_ALIGNMENT).

Lemma rnd24_small : forall c, 0 <= c <= 2 ^ 24 -> rnd24 c = c.
Proof.
  intros c H; unfold rnd24.
  destruct (Z.ltb_spec c (2 ^ 24)) as [L|L]; [reflexivity|].
  assert (c = 2 ^ 24) by lia; subst c; vm_compute; reflexivity.
Qed.

(** The relative error of the conversion is at most 2^-24. *)
Lemma rnd24_error : forall c, 0 <= c -> 2 ^ 24 * Z.abs (rnd24 c - c) <= c.
Proof.
  intros c H; unfold rnd24.
  destruct (Z.ltb_spec c (2 ^ 24)) as [L|L].
  - rewrite Z.sub_diag; simpl Z.abs; lia.
  - set (e := Z.log2 c - 23).
    assert (HL : 24 <= Z.log2 c).
    { change 24 with (Z.log2 (2 ^ 24)); apply Z.log2_le_mono; exact L. }
    assert (He : 1 <= e) by (unfold e; lia).
    assert (Hc : 2 ^ (e + 23) <= c).
    { replace (e + 23) with (Z.log2 c) by (unfold e; lia).
      apply Z.log2_spec; lia. }
    rewrite Z.pow_add_r in Hc by lia.
    assert (H2 : 2 ^ e = 2 * 2 ^ (e - 1)).
    { replace e with (1 + (e - 1)) at 1 by lia.
      rewrite Z.pow_add_r by lia; reflexivity. }
    assert (Hp : 0 < 2 ^ (e - 1)) by (apply Z.pow_pos_nonneg; lia).
    pose proof (Z.div_mod c (2 ^ e) ltac:(lia)) as DM.
    pose proof (Z.mod_pos_bound c (2 ^ e) ltac:(lia)) as MB.
    set (q := c / 2 ^ e) in *.
    set (r := c mod 2 ^ e) in *.
    set (h := 2 ^ (e - 1)) in *.
    rewrite H2 in *.
    change (2 ^ 23) with 8388608 in Hc.
    change (2 ^ 24) with 16777216.
    assert (EB : 16777216 * h <= c) by lia.
    destruct (Z.ltb_spec r h) as [L1|L1].
    + replace (q * (2 * h) - c) with (- r) by lia.
      rewrite Z.abs_opp, Z.abs_eq by lia. nia.
    + destruct (Z.ltb_spec h r) as [L2|L2].
      * replace ((q + 1) * (2 * h) - c) with (2 * h - r) by lia.
        rewrite Z.abs_eq by lia. nia.
      * assert (r = h) by lia.
        destruct (Z.even q).
        -- replace (q * (2 * h) - c) with (- r) by lia.
           rewrite Z.abs_opp, Z.abs_eq by lia. nia.
        -- replace ((q + 1) * (2 * h) - c) with (2 * h - r) by lia.
           rewrite Z.abs_eq by lia. nia.
Qed.

Lemma round_cap_lower : forall c, rnd24 c <= round_cap c.
Proof.
  intros c; unfold round_cap, GLOBAL_ALIGNMENT.
  pose proof (Z.div_mod (rnd24 c + (16 - 1)) 16 ltac:(lia)).
  pose proof (Z.mod_pos_bound (rnd24 c + (16 - 1)) 16 ltac:(lia)).
  lia.
Qed.

Lemma round_cap_upper : forall c, round_cap c < rnd24 c + 16.
Proof.
  intros c; unfold round_cap, GLOBAL_ALIGNMENT.
  pose proof (Z.div_mod (rnd24 c + (16 - 1)) 16 ltac:(lia)).
  pose proof (Z.mod_pos_bound (rnd24 c + (16 - 1)) 16 ltac:(lia)).
  lia.
Qed.

(** Up to 2^24 the rounded capacity is at least the requested one. *)
Lemma round_cap_ge_small : forall c, 0 <= c <= 2 ^ 24 -> c <= round_cap c.
Proof.
  intros c H; pose proof (round_cap_lower c) as L.
  rewrite rnd24_small in L by exact H; exact L.
Qed.

(** In general it is at least the requested one minus a 2^-24 fraction. *)
Lemma round_cap_ge_rel : forall c, 0 <= c -> 2 ^ 24 * (c - round_cap c) <= c.
Proof.
  intros c H.
  pose proof (rnd24_error c H) as E.
  pose proof (round_cap_lower c) as L.
  change (2 ^ 24) with 16777216 in *.
  lia.
Qed.

Lemma round_cap_mult16 : forall c, (16 | round_cap c).
Proof. intros c; exists ((rnd24 c + 15) / 16); unfold round_cap, GLOBAL_ALIGNMENT; change (16 - 1) with 15; apply Z.mul_comm. Qed.

Lemma rnd24_mono_le : forall c, 0 <= c -> 0 <= rnd24 c.
Proof.
  intros c H; pose proof (rnd24_error c H).
  change (2 ^ 24) with 16777216 in *; lia.
Qed.

(** Doubling a positive capacity gives strictly more room. *)
Lemma round_cap_double : forall c, 0 < c -> c < round_cap (2 * c).
Proof.
  intros c H.
  pose proof (round_cap_ge_rel (2 * c) ltac:(lia)) as E.
  change (2 ^ 24) with 16777216 in E; lia.
Qed.

Lemma round_cap_16 : round_cap 16 = 16.
Proof. vm_compute; reflexivity. Qed.

(** Powers of two are not changed. *)
Lemma rnd24_pow2 : forall k, 0 <= k -> rnd24 (2 ^ k) = 2 ^ k.
Proof.
  intros k H; unfold rnd24.
  destruct (Z.ltb_spec (2 ^ k) (2 ^ 24)) as [L|L]; [reflexivity|].
  apply Z.pow_le_mono_r_iff in L; [|lia|lia].
  rewrite Z.log2_pow2 by lia.
  replace (2 ^ k) with (2 ^ 23 * 2 ^ (k - 23))
    by (rewrite <- Z.pow_add_r by lia; f_equal; lia).
  assert (0 < 2 ^ (k - 23)) by (apply Z.pow_pos_nonneg; lia).
  rewrite Z.mod_mul by lia.
  rewrite Z.div_mul by lia.
  assert (0 < 2 ^ (k - 23 - 1)) by (apply Z.pow_pos_nonneg; lia).
  destruct (Z.ltb_spec 0 (2 ^ (k - 23 - 1))); [reflexivity|lia].
Qed.

Lemma round_cap_pow2 : forall k, 4 <= k -> round_cap (2 ^ k) = 2 ^ k.
Proof.
  intros k H; unfold round_cap, GLOBAL_ALIGNMENT.
  rewrite rnd24_pow2 by lia.
  replace (2 ^ k) with (2 ^ (k - 4) * 16)
    by (change 16 with (2 ^ 4); rewrite <- Z.pow_add_r by lia; f_equal; lia).
  rewrite Z.div_add_l by lia. change ((16 - 1) / 16) with 0. lia.
Qed.
