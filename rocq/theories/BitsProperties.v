(** C09, C10: integer helpers. *)
From Verif Require Import Base BitsModel BitsProofs.
Open Scope Z_scope.

Theorem C09_is_power_of_two_correct :
  forall n, 0 <= n < 2 ^ 64 -> (is_power_of_two n = true <-> exists k, 0 <= k /\ n = 2 ^ k).
Proof. exact is_power_of_two_spec. Qed.
Print Assumptions C09_is_power_of_two_correct.

(** The least power of two that is not below [n]. *)
Theorem C09_next_power_of_two_least :
  forall n, 1 <= n <= 2 ^ 63 ->
    exists k, 0 <= k /\ next_power_of_two n = 2 ^ k /\ n <= 2 ^ k /\
              forall j, 0 <= j -> n <= 2 ^ j -> 2 ^ k <= 2 ^ j.
Proof. exact next_power_spec. Qed.
Print Assumptions C09_next_power_of_two_least.

(** Outside that range there is no answer in 64 bits; the function returns 1. *)
Theorem C09_next_power_of_two_overflow :
  forall n, 2 ^ 63 < n < 2 ^ 64 -> next_power_of_two n = 1.
Proof. exact next_power_large. Qed.
Print Assumptions C09_next_power_of_two_overflow.

Example C09_examples :
  is_power_of_two (2 ^ 40) = true /\ is_power_of_two 48 = false /\ is_power_of_two 0 = false /\
  next_power_of_two 17 = 32 /\ next_power_of_two 32 = 32 /\ next_power_of_two (2 ^ 62 + 1) = 2 ^ 63.
Proof. vm_compute; repeat split; reflexivity. Qed.

(** The pair identifier does not depend on the order of the pair. *)
Theorem C10_pair_id_symmetric : forall a b, pair_id a b = pair_id b a.
Proof. exact pair_id_sym. Qed.
Print Assumptions C10_pair_id_symmetric.

(** Different unordered pairs have different identifiers. *)
Theorem C10_pair_id_injective :
  forall a b c d, 0 <= a < 2 ^ 32 -> 0 <= b < 2 ^ 32 -> 0 <= c < 2 ^ 32 -> 0 <= d < 2 ^ 32 ->
    pair_id a b = pair_id c d -> (a = c /\ b = d) \/ (a = d /\ b = c).
Proof. exact pair_id_inj. Qed.
Print Assumptions C10_pair_id_injective.

(** No intermediate result overflows: the 64-bit value is the exact integer. *)
Theorem C10_pair_id_no_overflow :
  forall a b, 0 <= a < 2 ^ 32 -> 0 <= b < 2 ^ 32 ->
    pair_id a b = Z.max a b * Z.max a b + Z.max a b + Z.min a b /\
    0 <= Z.max a b * Z.max a b + Z.max a b + Z.min a b < 2 ^ 64.
Proof. exact pair_id_spec. Qed.
Print Assumptions C10_pair_id_no_overflow.

Example C10_extreme : pair_id (2 ^ 32 - 1) (2 ^ 32 - 1) = 2 ^ 64 - 1 /\ pair_id 3 5 = 33.
Proof. vm_compute; split; reflexivity. Qed.
