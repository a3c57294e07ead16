(** Model of [MemoryAllocator::alignAddress] (src/memory/MemoryAllocator.cpp) and
    [HeapAllocator] (include/reactphysics3d/memory/HeapAllocator.h, src/memory/HeapAllocator.cpp).

    Addresses are integers, the null pointer is 0, sizes do not wrap.  The headers of the
    memory units live in a field-separated memory indexed by the address of the header;
    [h_dom] tells where a header object is alive, accessing another address is undefined
    behaviour.  The bytes in front of the returned blocks that hold the alignment offset are the
    separate memory [h_off] (the theorems show that neither headers nor client blocks overlap these
    bytes).  The address returned by the base allocator is an argument.  [h_log] (chunks
    obtained from the base allocator, latest first) and [h_cnt] (headers ever constructed,
    used as fuel) are ghost fields. *)
From Verif Require Import Base.
Open Scope Z_scope.

(** configuration.h GLOBAL_ALIGNMENT. *)
Definition ALIGN : Z := 16.
(** sizeof(MemoryUnitHeader) = 4 pointers, size_t, 2 bool (HeapAllocator.h:54-91). *)
Definition HDR : Z := 48.

(** MemoryAllocator.cpp:49-72 alignAddress: the offset added to the address. *)
Definition align_offset (p alignment : Z) : Z := alignment - Z.land p (alignment - 1).
Definition align_address (p alignment : Z) : Z := p + align_offset p alignment.

(** HeapAllocator.h:54-91 (MemoryUnitHeader) and 93-120 (attributes). *)
Record heap : Type := mk_heap {
  h_dom : Z -> bool;
  h_pU : Z -> Z;       (* previousUnit *)
  h_nU : Z -> Z;       (* nextUnit *)
  h_pF : Z -> Z;       (* previousFreeUnit *)
  h_nF : Z -> Z;       (* nextFreeUnit *)
  h_sz : Z -> Z;       (* size *)
  h_ct : Z -> bool;    (* isNextContiguousMemory *)
  h_al : Z -> bool;    (* isAllocated *)
  h_off : Z -> option Z;
  h_units : Z;
  h_free : Z;
  h_total : Z;
  h_log : list (Z * Z);
  h_cnt : nat
}.

Definition with_dom f h := mk_heap f (h_pU h) (h_nU h) (h_pF h) (h_nF h) (h_sz h) (h_ct h) (h_al h) (h_off h) (h_units h) (h_free h) (h_total h) (h_log h) (h_cnt h).
Definition with_pU f h := mk_heap (h_dom h) f (h_nU h) (h_pF h) (h_nF h) (h_sz h) (h_ct h) (h_al h) (h_off h) (h_units h) (h_free h) (h_total h) (h_log h) (h_cnt h).
Definition with_nU f h := mk_heap (h_dom h) (h_pU h) f (h_pF h) (h_nF h) (h_sz h) (h_ct h) (h_al h) (h_off h) (h_units h) (h_free h) (h_total h) (h_log h) (h_cnt h).
Definition with_pF f h := mk_heap (h_dom h) (h_pU h) (h_nU h) f (h_nF h) (h_sz h) (h_ct h) (h_al h) (h_off h) (h_units h) (h_free h) (h_total h) (h_log h) (h_cnt h).
Definition with_nF f h := mk_heap (h_dom h) (h_pU h) (h_nU h) (h_pF h) f (h_sz h) (h_ct h) (h_al h) (h_off h) (h_units h) (h_free h) (h_total h) (h_log h) (h_cnt h).
Definition with_sz f h := mk_heap (h_dom h) (h_pU h) (h_nU h) (h_pF h) (h_nF h) f (h_ct h) (h_al h) (h_off h) (h_units h) (h_free h) (h_total h) (h_log h) (h_cnt h).
Definition with_ct f h := mk_heap (h_dom h) (h_pU h) (h_nU h) (h_pF h) (h_nF h) (h_sz h) f (h_al h) (h_off h) (h_units h) (h_free h) (h_total h) (h_log h) (h_cnt h).
Definition with_al f h := mk_heap (h_dom h) (h_pU h) (h_nU h) (h_pF h) (h_nF h) (h_sz h) (h_ct h) f (h_off h) (h_units h) (h_free h) (h_total h) (h_log h) (h_cnt h).
Definition with_off f h := mk_heap (h_dom h) (h_pU h) (h_nU h) (h_pF h) (h_nF h) (h_sz h) (h_ct h) (h_al h) f (h_units h) (h_free h) (h_total h) (h_log h) (h_cnt h).
Definition with_free v h := mk_heap (h_dom h) (h_pU h) (h_nU h) (h_pF h) (h_nF h) (h_sz h) (h_ct h) (h_al h) (h_off h) (h_units h) v (h_total h) (h_log h) (h_cnt h).

(** Every access through a header pointer requires a live header. *)
Definition live_hdr (h : heap) (a : Z) : res unit := if h_dom h a then Ok tt else Ub.

(** Placement new of a header (HeapAllocator.h:79-88). *)
Definition new_hdr (a size pu nu pf nf : Z) (contig : bool) (h : heap) : heap :=
  mk_heap (upd (h_dom h) a true) (upd (h_pU h) a pu) (upd (h_nU h) a nu) (upd (h_pF h) a pf)
          (upd (h_nF h) a nf) (upd (h_sz h) a size) (upd (h_ct h) a contig) (upd (h_al h) a false)
          (h_off h) (h_units h) (h_free h) (h_total h) (h_log h) (S (h_cnt h)).

(** [if (p != nullptr) p->field = v]. *)
Definition set_pU (p v : Z) (h : heap) : res heap :=
  if p =? 0 then Ok h else let* _ := live_hdr h p in Ok (with_pU (upd (h_pU h) p v) h).
Definition set_pF (p v : Z) (h : heap) : res heap :=
  if p =? 0 then Ok h else let* _ := live_hdr h p in Ok (with_pF (upd (h_pF h) p v) h).
Definition set_nF (p v : Z) (h : heap) : res heap :=
  if p =? 0 then Ok h else let* _ := live_hdr h p in Ok (with_nF (upd (h_nF h) p v) h).

(** HeapAllocator.cpp:78-119 splitMemoryUnit. *)
Definition split_unit (u size : Z) (h : heap) : res heap :=
  let* _ := live_hdr h u in
  if size + HDR <? h_sz h u then
    let nu := u + HDR + size in
    let h1 := new_hdr nu (h_sz h u - HDR - size) u (h_nU h u) u (h_nF h u) (h_ct h u) h in
    let h2 := with_nU (upd (h_nU h1) u nu) h1 in
    let h3 := with_nF (upd (h_nF h2) u nu) h2 in
    let* h4 := set_pU (h_nU h3 nu) nu h3 in
    let* h5 := set_pF (h_nF h4 nu) nu h4 in
    let h6 := with_ct (upd (h_ct h5) u true) h5 in
    Ok (with_sz (upd (h_sz h6) u size) h6)
  else Ok h.

(** HeapAllocator.cpp:270-278 addToFreeUnits. *)
Definition add_free (u : Z) (h : heap) : res heap :=
  let* h1 := set_pF (h_free h) u h in
  let* _ := live_hdr h1 u in
  Ok (with_free u (with_nF (upd (h_nF h1) u (h_free h1)) h1)).

(** HeapAllocator.cpp:281-294 removeFromFreeUnits. *)
Definition remove_free (u : Z) (h : heap) : res heap :=
  let* _ := live_hdr h u in
  let* h1 := set_nF (h_pF h u) (h_nF h u) h in
  let* h2 := set_pF (h_nF h1 u) (h_pF h1 u) h1 in
  let h3 := if u =? h_free h2 then with_free (h_nF h2 u) h2 else h2 in
  Ok (with_pF (upd (h_pF h3) u 0) (with_nF (upd (h_nF h3) u 0) h3)).

(** HeapAllocator.cpp:298-319 mergeUnits; the header of unit 2 is destroyed. *)
Definition merge_units (u1 u2 : Z) (h : heap) : res heap :=
  let* _ := live_hdr h u1 in
  let* _ := live_hdr h u2 in
  let h1 := with_sz (upd (h_sz h) u1 (h_sz h u1 + (h_sz h u2 + HDR))) h in
  let h2 := with_nU (upd (h_nU h1) u1 (h_nU h1 u2)) h1 in
  let* h3 := set_pU (h_nU h2 u2) u1 h2 in
  let h4 := with_ct (upd (h_ct h3) u1 (h_ct h3 u2)) h3 in
  Ok (with_dom (upd (h_dom h4) u2 false) h4).

(** HeapAllocator.cpp:322-353 reserve; [base] is the address returned by the base allocator for
    a request of [size + HDR] bytes. *)
Definition heap_reserve (size base : Z) (h : heap) : res heap :=
  let h1 := new_hdr base size 0 (h_units h) 0 (h_free h) false h in
  let* h2 := set_pF (h_free h) base h1 in
  let* h3 := set_pU (h_units h) base h2 in
  Ok (mk_heap (h_dom h3) (h_pU h3) (h_nU h3) (h_pF h3) (h_nF h3) (h_sz h3) (h_ct h3) (h_al h3)
              (h_off h3) base base (h_total h + size) ((base, size + HDR) :: h_log h) (h_cnt h3)).

(** HeapAllocator.cpp:38-46 constructor. *)
Definition heap_empty : heap :=
  mk_heap (fun _ => false) (fun _ => 0) (fun _ => 0) (fun _ => 0) (fun _ => 0) (fun _ => 0)
          (fun _ => false) (fun _ => false) (fun _ => None) 0 0 0 [] 0%nat.
Definition heap_init (size base : Z) : res heap :=
  heap_reserve (if size =? 0 then 5 * 1048576 else size) base heap_empty.

(** HeapAllocator.cpp:140-157: first free unit that is large enough, 0 if none. *)
Fixpoint find_unit (fuel : nat) (h : heap) (size u : Z) : res Z :=
  match fuel with
  | O => Fuel
  | S f =>
      if u =? 0 then Ok 0
      else
        let* _ := live_hdr h u in
        if size <=? h_sz h u then Ok u else find_unit f h size (h_nF h u)
  end.

(** The number of bytes requested from the base allocator when nothing fits
    (HeapAllocator.cpp:163 and 327). *)
Definition grow_request (h : heap) (size : Z) : Z := (h_total h + (size + ALIGN)) * 2.

(** HeapAllocator.cpp:122-190 allocate, 193-212 computeAlignedAddress. *)
Definition heap_alloc (size base : Z) (h : heap) : res (heap * Z) :=
  if size =? 0 then Ok (h, 0)
  else
    let total := size + ALIGN in
    let* c := find_unit (S (h_cnt h)) h total (h_free h) in
    let* h1 := (if c =? 0 then heap_reserve (grow_request h size) base h else Ok h) in
    let u := if c =? 0 then h_free h1 else c in
    let* h2 := split_unit u total h1 in
    let* _ := live_hdr h2 u in
    let h3 := with_al (upd (h_al h2) u true) h2 in
    let* h4 := remove_free u h3 in
    let raw := u + HDR in
    let p := align_address raw ALIGN in
    Ok (with_off (upd (h_off h4) (p - 1) (Some (align_offset raw ALIGN))) h4, p).

(** HeapAllocator.cpp:215-267 release.  In the second merge the code reads unit->nextUnit;
    when the first merge took place that header has been destroyed, but its storage has not been
    reused, so the model reads the field without the check. *)
Definition heap_release (p size : Z) (h : heap) : res heap :=
  if size =? 0 then Ok h
  else
    let* off := rd (h_off h (p - 1)) in
    let u := p - off - HDR in
    let* _ := live_hdr h u in
    let h1 := with_al (upd (h_al h) u false) h in
    let pr := h_pU h1 u in
    let* back := (if pr =? 0 then Ok false
                  else let* _ := live_hdr h1 pr in Ok (negb (h_al h1 pr) && h_ct h1 pr)) in
    let* h2 := (if back
                then let* h' := remove_free pr h1 in merge_units pr u h'
                else Ok h1) in
    let c := if back then pr else u in
    let* _ := live_hdr h2 c in
    let nx := h_nU h2 c in
    let* fwd := (if nx =? 0 then Ok false
                 else let* _ := live_hdr h2 nx in Ok (negb (h_al h2 nx) && h_ct h2 c)) in
    let* h3 := (if fwd
                then let* h' := remove_free (h_nU h2 u) h2 in merge_units c (h_nU h' c) h'
                else Ok h2) in
    add_free c h3.

(** HeapAllocator.cpp:49-74 destructor: the calls release(address, size) made to the base
    allocator, in order. *)
Fixpoint destroy_loop (fuel : nat) (h : heap) (u : Z) : res (list (Z * Z)) :=
  match fuel with
  | O => Fuel
  | S f =>
      if u =? 0 then Ok []
      else
        let* _ := live_hdr h u in
        let nx := h_nF h u in
        let* r := destroy_loop f (with_dom (upd (h_dom h) u false) h) nx in
        Ok ((u, h_sz h u + HDR) :: r)
  end.
Definition heap_destroy (h : heap) : res (list (Z * Z)) := destroy_loop (S (h_cnt h)) h (h_free h).
