(** The arithmetic behind the C++ type [decimal] as far as the order-based code uses it.

    The models of the broad phase are parametric in the operations of [decimal].  The theorems
    about them hold for every instance that satisfies [decimal_laws].  Instances: exact rational
    numbers and IEEE-like rounded numbers (DecimalInstances.v).  Values that
    are not numbers and infinities do not satisfy the laws; they are out of scope unless a model
    says otherwise. *)
From Verif Require Import Base.

Record decimal_ops (T : Type) : Type := mk_decimal {
  d_zero : T;
  d_two : T;
  d_half : T;
  d_add : T -> T -> T;
  d_sub : T -> T -> T;
  d_mul : T -> T -> T;
  d_lt : T -> T -> bool;
  d_le : T -> T -> bool
}.
Arguments d_zero {T}. Arguments d_two {T}. Arguments d_half {T}. Arguments d_add {T}.
Arguments d_sub {T}. Arguments d_mul {T}. Arguments d_lt {T}. Arguments d_le {T}.

(** What the proofs use: a total order, and monotone rounding of the operations around zero. *)
Record decimal_laws {T : Type} (o : decimal_ops T) : Prop := {
  le_refl : forall a, d_le o a a = true;
  le_trans : forall a b c, d_le o a b = true -> d_le o b c = true -> d_le o a c = true;
  lt_le : forall a b, d_lt o a b = negb (d_le o b a);
  le_total : forall a b, d_le o a b = true \/ d_le o b a = true;
  half_nonneg : d_le o (d_zero o) (d_half o) = true;
  sub_nonneg : forall a b, d_le o a b = true -> d_le o (d_zero o) (d_sub o b a) = true;
  mul_nonneg : forall a b, d_le o (d_zero o) a = true -> d_le o (d_zero o) b = true ->
                 d_le o (d_zero o) (d_mul o a b) = true;
  sub_le : forall a g, d_le o (d_zero o) g = true -> d_le o (d_sub o a g) a = true;
  le_add : forall a g, d_le o (d_zero o) g = true -> d_le o a (d_add o a g) = true
}.
