(** Models of [PoolAllocator] (include/reactphysics3d/memory/PoolAllocator.h,
    src/memory/PoolAllocator.cpp) and [SingleFrameAllocator]
    (include/reactphysics3d/memory/SingleFrameAllocator.h, src/memory/SingleFrameAllocator.cpp).

    The base allocator is represented by the list [own] of the blocks (address, size) currently
    obtained from it; its answers are arguments; giving back a block that was not obtained, or with
    another size, is undefined behaviour. *)
From Verif Require Import Base HeapModel.
Open Scope Z_scope.

(** MemoryAllocator::release of the base allocator (interface MemoryAllocator.h:62-68). *)
Fixpoint base_release (p n : Z) (own : list (Z * Z)) : res (list (Z * Z)) :=
  match own with
  | [] => Ub
  | (q, m) :: own' =>
      if (q =? p) && (m =? n) then Ok own'
      else let* r := base_release p n own' in Ok ((q, m) :: r)
  end.

(** PoolAllocator.h:76-90. *)
Definition NB_HEAPS : Z := 128.
Definition MIN_UNIT_SIZE : Z := ALIGN.
Definition MAX_UNIT_SIZE : Z := NB_HEAPS * MIN_UNIT_SIZE.
Definition BLOCK_SIZE : Z := 16 * MAX_UNIT_SIZE.
(** sizeof(MemoryBlock): one pointer (PoolAllocator.h:66-72). *)
Definition MEMORY_BLOCK : Z := 8.

(** PoolAllocator.cpp:58-60: mUnitSizes. *)
Definition unit_size (i : Z) : res Z :=
  let* _ := check ((0 <=? i) && (i <? NB_HEAPS)) in Ok ((i + 1) * MIN_UNIT_SIZE).

(** PoolAllocator.cpp:64-74: the loop that fills mMapSizeToHeapIndex ([n] iterations from [i]). *)
Fixpoint map_loop (n : nat) (i j : Z) (m : Z -> option Z) : res (Z -> option Z) :=
  match n with
  | O => Ok m
  | S n' =>
      let* us := unit_size j in
      if i <=? us then map_loop n' (i + 1) j (upd m i (Some j))
      else map_loop n' (i + 1) (j + 1) (upd m i (Some (j + 1)))
  end.
Definition size_map : res (Z -> option Z) :=
  map_loop (Z.to_nat MAX_UNIT_SIZE) 1 0 (upd (fun _ => None) 0 (Some (-1))).

(** PoolAllocator.h:92-130.  [p_next] is the link word of the free units (no value while the unit
    belongs to the client), [p_blocks] the contents of the block table, latest last. *)
Record pool : Type := mk_pool {
  p_map : Z -> option Z;
  p_free : Z -> Z;
  p_next : Z -> option Z;
  p_table : Z;
  p_nalloc : Z;
  p_blocks : list Z;
  p_own : list (Z * Z)
}.

(** PoolAllocator.cpp:40-79 constructor; [bt] is the address of the block table. *)
Definition pool_init (bt : Z) : res pool :=
  let* m := size_map in
  Ok (mk_pool m (fun _ => 0) (fun _ => None) bt 64 [] [(bt, 64 * MEMORY_BLOCK)]).

(** PoolAllocator.cpp:160-172: chain the units of a new block ([n] remaining units, current index
    [i]). *)
Fixpoint chain_units (n : nat) (start usize i : Z) (nx : Z -> option Z) : Z -> option Z :=
  match n with
  | O => nx
  | S O => upd nx (start + usize * i) (Some 0)
  | S n' => chain_units n' start usize (i + 1)
              (upd nx (start + usize * i) (Some (start + usize * (i + 1))))
  end.

(** PoolAllocator.cpp:140-150: growth of the block table; [bt] is the new table. *)
Definition grow_table (bt : Z) (p : pool) : res pool :=
  if zlen (p_blocks p) =? p_nalloc p then
    let n := p_nalloc p + 64 in
    let* own := base_release (p_table p) (zlen (p_blocks p) * MEMORY_BLOCK)
                             ((bt, n * MEMORY_BLOCK) :: p_own p) in
    Ok (mk_pool (p_map p) (p_free p) (p_next p) bt n (p_blocks p) own)
  else Ok p.

(** PoolAllocator.cpp:101-192 allocate.  [b] is the base allocator's answer for the block or the
    large request, [bt] its answer for a new block table. *)
Definition pool_alloc (size bt b : Z) (p : pool) : res (pool * Z) :=
  if size =? 0 then Ok (p, 0)
  else if MAX_UNIT_SIZE <? size then
    Ok (mk_pool (p_map p) (p_free p) (p_next p) (p_table p) (p_nalloc p) (p_blocks p)
                ((b, size) :: p_own p), b)
  else
    let* i := rd (p_map p size) in
    let* usize := unit_size i in
    if negb (p_free p i =? 0) then
      let u := p_free p i in
      let* nx := rd (p_next p u) in
      Ok (mk_pool (p_map p) (upd (p_free p) i nx) (upd (p_next p) u None) (p_table p) (p_nalloc p)
                  (p_blocks p) (p_own p), u)
    else
      let* p1 := grow_table bt p in
      let n := BLOCK_SIZE / usize in
      let nx := chain_units (Z.to_nat n) b usize 0 (p_next p1) in
      let* second := rd (nx b) in
      Ok (mk_pool (p_map p1) (upd (p_free p1) i second) (upd nx b None) (p_table p1) (p_nalloc p1)
                  (p_blocks p1 ++ [b]) ((b, BLOCK_SIZE) :: p_own p1), b).

(** PoolAllocator.cpp:195-226 release. *)
Definition pool_release (a size : Z) (p : pool) : res pool :=
  if size =? 0 then Ok p
  else if MAX_UNIT_SIZE <? size then
    let* own := base_release a size (p_own p) in
    Ok (mk_pool (p_map p) (p_free p) (p_next p) (p_table p) (p_nalloc p) (p_blocks p) own)
  else
    let* i := rd (p_map p size) in
    let* _ := unit_size i in
    Ok (mk_pool (p_map p) (upd (p_free p) i a) (upd (p_next p) a (Some (p_free p i))) (p_table p)
                (p_nalloc p) (p_blocks p) (p_own p)).

(** PoolAllocator.cpp:82-97 destructor: what is still owned afterwards. *)
Fixpoint release_all (bs : list Z) (own : list (Z * Z)) : res (list (Z * Z)) :=
  match bs with
  | [] => Ok own
  | b :: bs' => let* own' := base_release b BLOCK_SIZE own in release_all bs' own'
  end.
Definition pool_destroy (p : pool) : res (list (Z * Z)) :=
  let* own := release_all (p_blocks p) (p_own p) in
  base_release (p_table p) (p_nalloc p * MEMORY_BLOCK) own.

(** SingleFrameAllocator.h:45-66. *)
Record frame : Type := mk_frame {
  f_total : Z;
  f_start : Z;
  f_offset : Z;
  f_more : bool;
  f_own : list (Z * Z)
}.

(** SingleFrameAllocator.cpp:35-48 constructor (INIT_SINGLE_FRAME_ALLOCATOR_NB_BYTES, header
    line 48). *)
Definition frame_init (b : Z) : frame := mk_frame 1048576 b 0 false [(b, 1048576)].

(** SingleFrameAllocator.cpp:59-91 allocate. *)
Definition frame_alloc (size b : Z) (f : frame) : frame * Z :=
  let total := size + ALIGN in
  if f_total f <? f_offset f + total then
    (mk_frame (f_total f) (f_start f) (f_offset f) true ((b, size) :: f_own f), b)
  else
    (mk_frame (f_total f) (f_start f) (f_offset f + total) (f_more f) (f_own f),
     align_address (f_start f + f_offset f) ALIGN).

(** SingleFrameAllocator.cpp:94-106 release. *)
Definition frame_release (p size : Z) (f : frame) : res frame :=
  if (p <? f_start f) || (f_start f + f_total f <? p) then
    let* own := base_release p size (f_own f) in
    Ok (mk_frame (f_total f) (f_start f) (f_offset f) (f_more f) own)
  else Ok f.

(** SingleFrameAllocator.cpp:109-132 reset; [b] is the base allocator's answer. *)
Definition frame_reset (b : Z) (f : frame) : res frame :=
  if f_more f then
    let* own := base_release (f_start f) (f_total f) (f_own f) in
    let t := f_total f * 2 in
    Ok (mk_frame t b 0 false ((b, t) :: own))
  else Ok (mk_frame (f_total f) (f_start f) 0 (f_more f) (f_own f)).

(** SingleFrameAllocator.cpp:51-55 destructor: what is still owned afterwards. *)
Definition frame_destroy (f : frame) : res (list (Z * Z)) :=
  base_release (f_start f) (f_total f) (f_own f).
