(** What a user expects from the heap allocator. *)
From Verif Require Import Base HeapModel.
Open Scope Z_scope.

(** Two byte ranges [a, a+n) and [b, b+m) do not overlap. *)
Definition apart (a n b m : Z) : Prop := a + n <= b \/ b + m <= a.

(** [a, a+n) lies inside one of the ranges of [cs]. *)
Definition inside (a n : Z) (cs : list (Z * Z)) : Prop :=
  exists c, In c cs /\ fst c <= a /\ a + n <= fst c + snd c.

(** A legal answer of the base allocator to a request of [n] bytes: not null, and disjoint from
    everything obtained before. *)
Definition base_answer (cs : list (Z * Z)) (b n : Z) : Prop :=
  0 < b /\ forall c, In c cs -> apart b n (fst c) (snd c).

(** [heap_history h live]: [h] is reached from the constructor by a sequence of allocations and
    releases, [live] are the blocks (address, requested size) allocated and not yet released.  A
    block may only be released once, with the size it was requested with. *)
Inductive heap_history : heap -> list (Z * Z) -> Prop :=
| hh_init : forall size b h,
    0 <= size -> 0 < b -> heap_init size b = Ok h -> heap_history h []
| hh_alloc : forall h live size b h' p,
    heap_history h live -> 0 < size ->
    base_answer (h_log h) b (grow_request h size + 48) ->
    heap_alloc size b h = Ok (h', p) -> heap_history h' ((p, size) :: live)
| hh_release : forall h live1 p size live2 h',
    heap_history h (live1 ++ (p, size) :: live2) ->
    heap_release p size h = Ok h' -> heap_history h' (live1 ++ live2).
