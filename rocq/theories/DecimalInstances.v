(** Instances of the decimal arithmetic: exact rationals and rounded numbers. *)
From Coq Require Import QArith Reals Psatz.
From Flocq Require Import Core.
From Verif Require Import Base Decimal.

(** Exact rationals; every finite float is one. *)
Definition Qlt_bool (a b : Q) : bool := negb (Qle_bool b a).
Definition Q_ops : decimal_ops Q :=
  mk_decimal Q 0%Q 2%Q (1 # 2)%Q Qplus Qminus Qmult Qlt_bool Qle_bool.
Lemma Q_laws : decimal_laws Q_ops.
Proof.
  constructor; cbn; unfold Qlt_bool; intros.
  - apply Qle_bool_iff. lra.
  - rewrite Qle_bool_iff in *. lra.
  - reflexivity.
  - rewrite !Qle_bool_iff. destruct (Qlt_le_dec a b); [left; lra|right; lra].
  - reflexivity.
  - rewrite Qle_bool_iff in *. lra.
  - rewrite Qle_bool_iff in *. nra.
  - rewrite Qle_bool_iff in *. lra.
  - rewrite Qle_bool_iff in *. lra.
Qed.

(** Binary numbers with 24 significant bits and the exponent range of a float (no overflow),
    rounded to nearest, ties to even. *)
Definition f32_exp : Z -> Z := FLT_exp (-149) 24.
Definition f32 : Type := { x : R | generic_format radix2 f32_exp x }.
Definition rnd (x : R) : R := round radix2 f32_exp ZnearestE x.
Global Instance f32_valid : Valid_exp f32_exp.
Proof. apply FLT_exp_valid. reflexivity. Qed.
Definition f32_of (x : R) : f32 := exist _ (rnd x) (generic_format_round radix2 f32_exp ZnearestE x).
Definition f32_ops : decimal_ops f32 :=
  mk_decimal f32 (f32_of 0) (f32_of 2) (f32_of (/ 2))
    (fun a b => f32_of (proj1_sig a + proj1_sig b)) (fun a b => f32_of (proj1_sig a - proj1_sig b))
    (fun a b => f32_of (proj1_sig a * proj1_sig b))
    (fun a b => Rlt_bool (proj1_sig a) (proj1_sig b)) (fun a b => Rle_bool (proj1_sig a) (proj1_sig b)).
Lemma rnd_mono : forall x y, (x <= y)%R -> (rnd x <= rnd y)%R.
Proof. intros. apply round_le; [apply f32_valid|apply valid_rnd_N|assumption]. Qed.
Lemma rnd_0 : rnd 0 = 0%R.
Proof. apply round_0. apply valid_rnd_N. Qed.
Lemma rnd_id : forall a : f32, rnd (proj1_sig a) = proj1_sig a.
Proof. intros (x & H). cbn. apply round_generic; [apply valid_rnd_N|exact H]. Qed.
Lemma Rle_bool_iff : forall x y, Rle_bool x y = true <-> (x <= y)%R.
Proof. intros. destruct (Rle_bool_spec x y); split; intros; try reflexivity; try discriminate; lra. Qed.
Lemma f32_laws : decimal_laws f32_ops.
Proof.
  constructor; cbn; intros; rewrite ?Rle_bool_iff in *; rewrite ?rnd_0 in *.
  - lra.
  - lra.
  - destruct (Rlt_bool_spec (proj1_sig a) (proj1_sig b)); destruct (Rle_bool_spec (proj1_sig b) (proj1_sig a)); cbn; try reflexivity; lra.
  - destruct (Rle_dec (proj1_sig a) (proj1_sig b)); [left|right]; lra.
  - rewrite <- rnd_0. apply rnd_mono. lra.
  - rewrite <- rnd_0. apply rnd_mono. lra.
  - rewrite <- rnd_0. apply rnd_mono. nra.
  - rewrite <- (rnd_id a) at 2. apply rnd_mono. lra.
  - rewrite <- (rnd_id a) at 1. apply rnd_mono. lra.
Qed.
