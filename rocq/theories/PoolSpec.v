(** What a user expects from the pool allocator and the single-frame allocator. *)
From Verif Require Import Base HeapSpec PoolModel.
Open Scope Z_scope.

(** A legal answer of the base allocator: not null, 16-byte aligned, disjoint from everything
    currently obtained from it. *)
Definition base_ok (own : list (Z * Z)) (b n : Z) : Prop :=
  0 < b /\ b mod 16 = 0 /\ forall c, In c own -> apart b n (fst c) (snd c).

(** Sizes up to 2048 bytes are rounded up to a multiple of 16. *)
Definition small (s : Z) : Prop := s <= 2048.
Definition rounded (s : Z) : Z := 16 * ((s + 15) / 16).

(** [pool_history p live ever]: [p] is reached by a sequence of allocations and releases, [live]
    are the blocks allocated and not yet released, [ever] all the blocks allocated so far. *)
Inductive pool_history : pool -> list (Z * Z) -> list (Z * Z) -> Prop :=
| ph_init : forall bt p,
    base_ok [] bt (64 * 8) -> pool_init bt = Ok p -> pool_history p [] []
| ph_alloc : forall p live ever size bt b p' a,
    pool_history p live ever -> 0 < size ->
    base_ok (p_own p) bt ((p_nalloc p + 64) * 8) ->
    (forall p1, (p1 = p \/ grow_table bt p = Ok p1) ->
                base_ok (p_own p1) b (if size <=? 2048 then 32768 else size)) ->
    pool_alloc size bt b p = Ok (p', a) ->
    pool_history p' ((a, size) :: live) ((a, size) :: ever)
| ph_release : forall p live1 a size live2 ever p',
    pool_history p (live1 ++ (a, size) :: live2) ever ->
    pool_release a size p = Ok p' -> pool_history p' (live1 ++ live2) ever.

(** Single-frame allocator: a reset ends the life of the blocks of the frame buffer; the other
    blocks stay alive until they are released. *)
Definition in_buffer (f : frame) (b : Z * Z) : bool :=
  (f_start f <=? fst b) && (fst b <? f_start f + f_total f).

(** The additional condition [gap] on the answers of the base allocator: it never returns the
    address of the first byte behind the frame buffer. *)
Definition gap (f : frame) (b : Z) : Prop := b <> f_start f + f_total f.

Inductive frame_history : frame -> list (Z * Z) -> Prop :=
| fh_init : forall b, base_ok [] b 1048576 -> frame_history (frame_init b) []
| fh_alloc : forall f live size b,
    frame_history f live -> 0 < size -> base_ok (f_own f) b size -> gap f b ->
    frame_history (fst (frame_alloc size b f)) ((snd (frame_alloc size b f), size) :: live)
| fh_release : forall f live1 p size live2 f',
    frame_history f (live1 ++ (p, size) :: live2) ->
    frame_release p size f = Ok f' -> frame_history f' (live1 ++ live2)
| fh_reset : forall f live b f',
    frame_history f live ->
    (forall own, base_release (f_start f) (f_total f) (f_own f) = Ok own -> base_ok own b (f_total f * 2)) ->
    (forall c, In c (filter (fun c => negb (in_buffer f c)) live) -> fst c <> b + f_total f * 2) ->
    frame_reset b f = Ok f' -> frame_history f' (filter (fun c => negb (in_buffer f c)) live).
