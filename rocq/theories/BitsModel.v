(** Model of the integer helpers of include/reactphysics3d/mathematics/mathematics_functions.h:
    64-bit unsigned arithmetic with wrap-around. *)
From Verif Require Import Base.
Open Scope Z_scope.

(** mathematics_functions.h:406-408 isPowerOfTwo. *)
Definition is_power_of_two (n : Z) : bool :=
  negb (n =? 0) && (Z.land n (wrap64 (n - 1)) =? 0).

(** One line [number |= number >> s]. *)
Definition or_shift (n s : Z) : Z := Z.lor n (Z.shiftr n s).

(** mathematics_functions.h:411-422 nextPowerOfTwo64Bits. *)
Definition next_power_of_two (n : Z) : Z :=
  let n := wrap64 (n - 1) in
  let n := or_shift n 1 in
  let n := or_shift n 2 in
  let n := or_shift n 4 in
  let n := or_shift n 8 in
  let n := or_shift n 16 in
  let n := or_shift n 32 in
  let n := wrap64 (n + 1) in
  wrap64 (n + (if n =? 0 then 1 else 0)).

(** mathematics_functions.h:428-433 pairNumbers: 32-bit arguments, 64-bit arithmetic. *)
Definition pair_numbers (n1 n2 : Z) : Z :=
  wrap64 (wrap64 (wrap64 (n1 * n1) + n1) + n2).

(** The identifier of a pair of colliders (src/engine/OverlappingPairs.cpp:413 and
    src/systems/CollisionDetectionSystem.cpp:305: pairNumbers(max(b1,b2), min(b1,b2))). *)
Definition pair_id (b1 b2 : Z) : Z := pair_numbers (Z.max b1 b2) (Z.min b1 b2).
