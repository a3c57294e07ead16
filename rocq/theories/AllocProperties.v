(** Theorems about the allocators: C11-C15, C60. *)
From Coq Require Import Permutation.
From Verif Require Import Base HeapModel HeapSpec PoolModel PoolSpec.
From Verif Require HeapProofs HeapProofs2 HeapProofs3 PoolProofs FrameProofs.
Open Scope Z_scope.

(** C15.  Aligning an address yields the smallest 16-byte boundary strictly above it, at most 16
    bytes away, and the offset is a non-zero byte that leads back to the address. *)
Theorem C15_align_address : forall p, 
  align_address p 16 mod 16 = 0 /\ p < align_address p 16 <= p + 16 /\
  (forall q, p < q -> q mod 16 = 0 -> align_address p 16 <= q) /\
  align_address p 16 - align_offset p 16 = p /\ 0 < align_offset p 16 < 256.
Proof.
  intros p. pose proof (HeapProofs2.align_address_mod p) as M. pose proof (HeapProofs2.align_address_bounds p) as B.
  pose proof (HeapProofs2.align_offset_bounds p) as O. pose proof (HeapProofs2.align_offset_spec p) as S.
  change ALIGN with 16 in *.
  splits; try lia; try exact M.
  - intros q H1 H2. unfold align_address. rewrite S.
    pose proof (Z.div_mod p 16 ltac:(lia)). pose proof (Z.div_mod q 16 ltac:(lia)).
    pose proof (Z.mod_pos_bound p 16 ltac:(lia)). 
    assert (p / 16 < q / 16) by nia. nia.
  - unfold align_address. lia.
Qed.
Print Assumptions C15_align_address.
Example C15_ex : align_address 4096 16 = 4112 /\ align_address 4111 16 = 4112.
Proof. vm_compute. auto. Qed.

(** C11.  Live blocks of the heap allocator, together with the byte in front of them that stores
    the alignment offset, are aligned, inside memory of the base allocator, pairwise disjoint and
    disjoint from every live header; live headers do not overlap each other either. *)
Theorem C11_heap_blocks : forall h live, heap_history h live ->
  (forall p s, In (p, s) live ->
     p mod 16 = 0 /\ inside (p - 1) (s + 1) (h_log h) /\
     (forall a, h_dom h a = true -> apart a 48 (p - 1) (s + 1))) /\
  ForallOrdPairs (fun b c => apart (fst b - 1) (snd b + 1) (fst c - 1) (snd c + 1)) live /\
  (forall a b, h_dom h a = true -> h_dom h b = true -> a = b \/ apart a 48 b 48) /\
  (forall a, h_dom h a = true -> inside a 48 (h_log h)).
Proof. exact HeapProofs3.blocks_ok. Qed.
Print Assumptions C11_heap_blocks.

(** C11.  No history leads to undefined behaviour: every allocation succeeds and every live block
    can be released; the base allocator is only asked when no free unit is large enough. *)
Theorem C11_heap_progress : forall h live, heap_history h live ->
  (forall size b, 0 < size -> base_answer (h_log h) b (grow_request h size + 48) ->
     exists h' p, heap_alloc size b h = Ok (h', p) /\
       (h_log h' = h_log h \/
        h_log h' = (b, grow_request h size + 48) :: h_log h /\
        forall a, h_dom h a = true -> h_al h a = false -> h_sz h a < size + 16)) /\
  (forall p size, In (p, size) live -> exists h', heap_release p size h = Ok h' /\ h_log h' = h_log h).
Proof. exact HeapProofs3.progress. Qed.
Print Assumptions C11_heap_progress.

(** A history with splitting, growth of the heap and release. *)
Definition get {A} (d : A) (r : res A) : A := match r with Ok a => a | _ => d end.
Definition dh0 := get heap_empty (heap_init 200 4096).
Definition dh1 := get (heap_empty, 0) (heap_alloc 30 8192 dh0).
Definition dh2 := get (heap_empty, 0) (heap_alloc 40 8192 (fst dh1)).
Definition dh3 := get (heap_empty, 0) (heap_alloc 1000 8192 (fst dh2)).
Definition dh4 := get heap_empty (heap_release (snd dh1) 30 (fst dh3)).
Example C11_ex : heap_history dh4 [(snd dh3, 1000); (snd dh2, 40)] /\
  zlen (h_log dh4) = 2 /\ snd dh1 = 4160 /\ snd dh3 = 8256.
Proof.
  assert (H0 : heap_history dh0 []) by (apply (hh_init 200 4096); [lia|lia|vm_compute; reflexivity]).
  assert (H1 : heap_history (fst dh1) [(snd dh1, 30)]).
  { apply (hh_alloc dh0 [] 30 8192); [exact H0|lia| |vm_compute; reflexivity].
    vm_compute. split; [reflexivity|]. intros c [<-|[]]. right. cbn. discriminate. }
  assert (H2 : heap_history (fst dh2) [(snd dh2, 40); (snd dh1, 30)]).
  { apply (hh_alloc (fst dh1) _ 40 8192); [exact H1|lia| |vm_compute; reflexivity].
    vm_compute. split; [reflexivity|]. intros c [<-|[]]. right. cbn. discriminate. }
  assert (H3 : heap_history (fst dh3) [(snd dh3, 1000); (snd dh2, 40); (snd dh1, 30)]).
  { apply (hh_alloc (fst dh2) _ 1000 8192); [exact H2|lia| |vm_compute; reflexivity].
    vm_compute. split; [reflexivity|]. intros c [<-|[]]. right. cbn. discriminate. }
  splits; [|vm_compute; reflexivity..].
  apply (hh_release (fst dh3) [(snd dh3, 1000); (snd dh2, 40)] (snd dh1) 30 [] dh4 H3). vm_compute. reflexivity.
Qed.

(** C12.  The memory obtained from the base allocator is exactly tiled by units (header and
    payload); a unit is marked allocated exactly when it contains a live block; two free units of the
    same chunk are never neighbours. *)
Theorem C12_heap_tiling : forall h live, heap_history h live ->
  (forall x, inside x 1 (h_log h) <->
     exists a, h_dom h a = true /\ a <= x < a + 48 + h_sz h a) /\
  (forall a b, h_dom h a = true -> h_dom h b = true ->
     a = b \/ apart a (48 + h_sz h a) b (48 + h_sz h b)) /\
  (forall a, h_dom h a = true ->
     (h_al h a = true <-> exists p s, In (p, s) live /\ a + 48 < p /\ p + s <= a + 48 + h_sz h a)) /\
  (forall a b, h_dom h a = true -> h_dom h b = true -> h_al h a = false -> h_al h b = false ->
     b = a + 48 + h_sz h a ->
     ~ exists c, In c (h_log h) /\ fst c <= a /\ b < fst c + snd c).
Proof. exact HeapProofs3.tiling. Qed.
Print Assumptions C12_heap_tiling.

(** C12.  Once everything has been released every chunk is one free unit again, there are no other
    units, and the destructor gives back exactly the chunks obtained from the base allocator. *)
Theorem C12_heap_all_released : forall h, heap_history h [] ->
  (forall c, In c (h_log h) -> h_dom h (fst c) = true /\ h_al h (fst c) = false /\ h_sz h (fst c) = snd c - 48) /\
  (forall a, h_dom h a = true -> exists n, In (a, n) (h_log h)) /\
  (exists given, heap_destroy h = Ok given /\ Permutation given (h_log h)).
Proof. exact HeapProofs3.all_released. Qed.
Print Assumptions C12_heap_all_released.
Example C12_ex : heap_history dh0 [] /\ zlen (h_log dh0) = 1.
Proof. split; [apply (hh_init 200 4096); [lia|lia|vm_compute; reflexivity]|vm_compute; reflexivity]. Qed.

(** C60.  When sizes and base addresses are multiples of 8, headers are only constructed at
    addresses that are multiples of 8 (the alignment of a header). *)
Definition aligned_headers (h : heap) : Prop := forall a, h_dom h a = true -> a mod 8 = 0.
Inductive heap_history8 : heap -> Prop :=
| h8_init : forall size b h, size mod 8 = 0 -> b mod 8 = 0 -> heap_init size b = Ok h -> heap_history8 h
| h8_alloc : forall h size b h' p, heap_history8 h -> size mod 8 = 0 -> b mod 8 = 0 ->
    heap_alloc size b h = Ok (h', p) -> heap_history8 h'
| h8_release : forall h p size h', heap_history8 h -> heap_release p size h = Ok h' -> heap_history8 h'.
Theorem C60_headers_aligned_partial : forall h, heap_history8 h -> aligned_headers h.
Proof.
  intros h H. assert (A : HeapProofs3.al8 h).
  { induction H as [size b h Hs Hb R|h size b h' p H IH Hs Hb R|h p size h' H IH R].
    - eapply HeapProofs3.reserve_al8; [| |exact R|]; [destruct (size =? 0); [reflexivity|exact Hs]|exact Hb|].
      split; [reflexivity|]. intros a Ha. discriminate.
    - exact (HeapProofs3.alloc_al8 _ _ _ _ _ Hs Hb R IH).
    - exact (HeapProofs3.release_al8 _ _ _ _ R IH). }
  intros a Ha. apply A; exact Ha.
Qed.
Print Assumptions C60_headers_aligned_partial.
(** With other sizes a header is constructed at a misaligned address: after allocating 1 byte the
    header of the remaining free unit lies at base + 48 + 17. *)
Theorem C60_headers_aligned_refuted :
  ~ (forall h live, heap_history h live -> aligned_headers h).
Proof.
  intro H. set (d1 := get (heap_empty, 0) (heap_alloc 1 8192 dh0)).
  assert (H1 : heap_history (fst d1) [(snd d1, 1)]).
  { apply (hh_alloc dh0 [] 1 8192); [apply (hh_init 200 4096); [lia|lia|vm_compute; reflexivity]|lia| |vm_compute; reflexivity].
    vm_compute. split; [reflexivity|]. intros c [<-|[]]. right. cbn. discriminate. }
  specialize (H _ _ H1 (4096 + 48 + 17) ltac:(vm_compute; reflexivity)). vm_compute in H. discriminate.
Qed.
Print Assumptions C60_headers_aligned_refuted.

(** C13.  Live blocks of the pool allocator are aligned, large enough, inside memory of the base
    allocator, pairwise disjoint over their whole rounded size and disjoint from the block table; two
    small blocks handed out at any two moments are either disjoint or the same unit with the same
    rounded size. *)
Definition extent (b : Z * Z) : Z := if snd b <=? 2048 then rounded (snd b) else snd b.
Theorem C13_pool_blocks : forall p live ever, pool_history p live ever ->
  (forall a s, In (a, s) live ->
     a mod 16 = 0 /\ s <= extent (a, s) /\ inside a (extent (a, s)) (p_own p) /\
     apart a (extent (a, s)) (p_table p) (p_nalloc p * 8)) /\
  ForallOrdPairs (fun x y => apart (fst x) (extent x) (fst y) (extent y)) live /\
  (forall a s a' s', In (a, s) ever -> In (a', s') ever -> s <= 2048 -> s' <= 2048 ->
     (a = a' /\ rounded s = rounded s') \/ apart a (rounded s) a' (rounded s')).
Proof.
  intros p live ever H. destruct (PoolProofs.pool_history_inv _ _ _ H) as (bcl & F & I).
  exact (PoolProofs.pool_blocks_ok _ _ _ _ _ I).
Qed.
Print Assumptions C13_pool_blocks.

(** C13.  Every allocation and every release of a live block is defined, and after everything has
    been released the destructor gives everything back to the base allocator. *)
Theorem C13_pool_progress : forall p live ever, pool_history p live ever ->
  (forall size bt b, 0 < size ->
     base_ok (p_own p) bt ((p_nalloc p + 64) * 8) ->
     (forall p1, (p1 = p \/ grow_table bt p = Ok p1) ->
                 base_ok (p_own p1) b (if size <=? 2048 then 32768 else size)) ->
     exists p' a, pool_alloc size bt b p = Ok (p', a)) /\
  (forall a size, In (a, size) live -> exists p', pool_release a size p = Ok p') /\
  (live = [] -> pool_destroy p = Ok []).
Proof.
  intros p live ever H. destruct (PoolProofs.pool_history_inv _ _ _ H) as (bcl & F & I). splits.
  - intros size bt b Hs BT BB.
    destruct (PoolProofs.pool_alloc_inv _ _ _ _ _ _ _ _ I Hs BT BB) as (p1 & a1 & bcl' & F' & R & _). eauto.
  - intros a size Hin. apply in_split in Hin. destruct Hin as (l1 & l2 & ->).
    destruct (PoolProofs.pool_release_inv _ _ _ _ _ _ _ _ I) as (p1 & F' & R & _). eauto.
  - intros ->. eapply PoolProofs.pool_destroy_ok; eauto.
Qed.
Print Assumptions C13_pool_progress.

(** Two small blocks of the same class and a large one; one small block is then released. *)
Definition okb {A} (r : res A) : bool := match r with Ok _ => true | _ => false end.
Lemma get_ok : forall A (d : A) r, okb r = true -> r = Ok (get d r).
Proof. intros A d [a| |] H; cbn in *; congruence. Qed.
Definition pe := mk_pool (fun _ => None) (fun _ => 0) (fun _ => None) 0 0 [] [].
Definition dp0 := get pe (pool_init 4096).
Definition dp1 := get (pe, 0) (pool_alloc 10 8192 65536 dp0).
Definition dp2 := get (pe, 0) (pool_alloc 7 8192 131072 (fst dp1)).
Definition dp3 := get (pe, 0) (pool_alloc 5000 8192 131072 (fst dp2)).
Definition dp4 := get pe (pool_release (snd dp1) 10 (fst dp3)).
Example C13_ex : pool_history dp4 [(snd dp3, 5000); (snd dp2, 7)] [(snd dp3, 5000); (snd dp2, 7); (snd dp1, 10)] /\
  snd dp1 = 65536 /\ snd dp2 = 65552 /\ snd dp3 = 131072.
Proof.
  assert (O0 : p_own dp0 = [(4096, 512)]) by (vm_compute; reflexivity).
  assert (O1 : p_own (fst dp1) = [(65536, 32768); (4096, 512)]) by (vm_compute; reflexivity).
  assert (O2 : p_own (fst dp2) = [(65536, 32768); (4096, 512)]) by (vm_compute; reflexivity).
  assert (G : forall p, zlen (p_blocks p) <? p_nalloc p = true -> forall p1, grow_table 8192 p = Ok p1 -> p1 = p).
  { intros p H p1 R. unfold grow_table in R. destruct (Z.eqb_spec (zlen (p_blocks p)) (p_nalloc p)) as [E|E]; [lia|congruence]. }
  assert (N0 : p_nalloc dp0 = 64) by (vm_compute; reflexivity).
  assert (N1 : p_nalloc (fst dp1) = 64) by (vm_compute; reflexivity).
  assert (N2 : p_nalloc (fst dp2) = 64) by (vm_compute; reflexivity).
  assert (B : forall own b n, own = [(4096, 512)] \/ own = [(65536, 32768); (4096, 512)] ->
     b mod 16 = 0 -> 8192 <= b -> 0 < n -> b + n <= 65536 \/ 98304 <= b \/ own = [(4096, 512)] -> base_ok own b n).
  { intros own b n O M L P D. unfold base_ok; splits; [lia|exact M|]. intros c Hc. unfold apart.
    destruct O as [E|E]; subst own; cbn in Hc; destruct Hc as [<-|Hc]; cbn; try lia; try contradiction.
    - destruct D as [D|[D|D]]; [lia|lia|discriminate].
    - destruct Hc as [<-|[]]. cbn. lia. }
  assert (H0 : pool_history dp0 [] []).
  { apply (ph_init 4096); [unfold base_ok; splits; [lia|reflexivity|intros c []]|apply get_ok; vm_compute; reflexivity]. }
  assert (H1 : pool_history (fst dp1) [(snd dp1, 10)] [(snd dp1, 10)]).
  { apply (ph_alloc dp0 [] [] 10 8192 65536); [exact H0|lia| | |].
    - rewrite O0, N0. apply B; try lia; auto.
    - intros p1 [->|R]; [|apply G in R; [subst|vm_compute; reflexivity]]; rewrite O0; apply B; try reflexivity; auto; lia.
    - rewrite <- surjective_pairing. apply get_ok. vm_compute. reflexivity. }
  assert (H2 : pool_history (fst dp2) [(snd dp2, 7); (snd dp1, 10)] [(snd dp2, 7); (snd dp1, 10)]).
  { apply (ph_alloc (fst dp1) _ _ 7 8192 131072); [exact H1|lia| | |].
    - rewrite O1, N1. apply B; try lia; auto.
    - intros p1 [->|R]; [|apply G in R; [subst|vm_compute; reflexivity]]; rewrite O1; apply B; try reflexivity; auto; lia.
    - rewrite <- surjective_pairing. apply get_ok. vm_compute. reflexivity. }
  assert (H3 : pool_history (fst dp3) [(snd dp3, 5000); (snd dp2, 7); (snd dp1, 10)] [(snd dp3, 5000); (snd dp2, 7); (snd dp1, 10)]).
  { apply (ph_alloc (fst dp2) _ _ 5000 8192 131072); [exact H2|lia| | |].
    - rewrite O2, N2. apply B; try lia; auto.
    - intros p1 [->|R]; [|apply G in R; [subst|vm_compute; reflexivity]]; rewrite O2; apply B; try reflexivity; auto; lia.
    - rewrite <- surjective_pairing. apply get_ok. vm_compute. reflexivity. }
  split; [|splits; vm_compute; reflexivity].
  apply (ph_release (fst dp3) [(snd dp3, 5000); (snd dp2, 7)] (snd dp1) 10 [] _ dp4 H3).
  apply get_ok. vm_compute. reflexivity.
Qed.

(** C14.  Live blocks of the single-frame allocator are aligned and pairwise disjoint, lie inside
    the frame buffer or are blocks of their own of the base allocator; what is owned of the base
    allocator is exactly the buffer and these blocks.  The history assumes that the base
    allocator never returns the address just behind the buffer ([gap]). *)
Theorem C14_frame_blocks : forall f live, frame_history f live ->
  (forall p s, In (p, s) live ->
     p mod 16 = 0 /\
     (f_start f <= p /\ p + s <= f_start f + f_total f \/ In (p, s) (f_own f))) /\
  ForallOrdPairs (fun x y => apart (fst x) (snd x) (fst y) (snd y)) live /\
  Permutation (f_own f) ((f_start f, f_total f) :: filter (fun c => negb (in_buffer f c)) live).
Proof.
  intros f live H. pose proof (FrameProofs.frame_history_inv _ _ H) as I. splits.
  - intros p s Hin. destruct (in_buffer f (p, s)) eqn:E.
    + destruct (FrameProofs.fi_in _ _ I _ Hin E) as (A & B & C). pose proof (FrameProofs.fi_off _ _ I). cbn [fst snd] in *.
      split; [exact C|left; lia].
    + pose proof (FrameProofs.out_own _ _ _ I Hin E) as O.
      pose proof (FrameProofs.fi_pos _ _ I) as P. rewrite Forall_forall in P. specialize (P _ O).
      split; [apply P|right; exact O].
  - exact (FrameProofs.fi_live _ _ I).
  - exact (FrameProofs.fi_own _ _ I).
Qed.
Print Assumptions C14_frame_blocks.

(** C14.  Every live block can be released, a reset is always possible, makes the whole buffer
    available (doubled when it overflowed), and the destructor gives everything back. *)
Theorem C14_frame_progress : forall f live, frame_history f live ->
  (forall p s, In (p, s) live -> exists f', frame_release p s f = Ok f') /\
  (forall b,
     (forall own, base_release (f_start f) (f_total f) (f_own f) = Ok own -> base_ok own b (f_total f * 2)) ->
     (forall c, In c (filter (fun c => negb (in_buffer f c)) live) -> fst c <> b + f_total f * 2) ->
     exists f', frame_reset b f = Ok f' /\
       f_total f' = (if f_more f then f_total f * 2 else f_total f) /\
       forall size b', size + 16 <= f_total f' ->
         f_own (fst (frame_alloc size b' f')) = f_own f' /\
         f_start f' <= snd (frame_alloc size b' f') /\
         snd (frame_alloc size b' f') + size <= f_start f' + f_total f') /\
  (live = [] -> frame_destroy f = Ok []).
Proof.
  intros f live H. pose proof (FrameProofs.frame_history_inv _ _ H) as I. splits.
  - intros p s Hin. apply in_split in Hin. destruct Hin as (l1 & l2 & ->).
    destruct (FrameProofs.frame_release_inv _ _ _ _ _ I) as (f' & R & _). eauto.
  - intros b BO G. destruct (FrameProofs.frame_reset_inv _ _ _ I BO G) as (f' & R & I' & E1 & E2 & E3).
    exists f'. splits; [exact R|exact E3|]. intros size b' Hs. unfold frame_alloc. change ALIGN with 16. rewrite E1.
    destruct (Z.ltb_spec (f_total f') (0 + (size + 16))); [lia|]. cbn [fst snd f_own].
    pose proof (HeapProofs2.align_address_bounds (f_start f' + 0)) as B. change ALIGN with 16 in B. splits; [reflexivity|lia|lia].
  - intros ->. pose proof (FrameProofs.fi_own _ _ I) as P. cbn [filter] in P.
    apply Permutation_sym, Permutation_length_1_inv in P. unfold frame_destroy. rewrite P. cbn. rewrite !Z.eqb_refl. reflexivity.
Qed.
Print Assumptions C14_frame_progress.

(** C14.  Without [gap] a block obtained from the base allocator right behind the buffer is never
    given back: [release] compares with [>] instead of [>=]. *)
Theorem C14_release_boundary_refuted :
  exists f b size f', frame_history f [] /\ 0 < size /\ base_ok (f_own f) b size /\
    In (b, size) (f_own (fst (frame_alloc size b f))) /\
    frame_release (snd (frame_alloc size b f)) size (fst (frame_alloc size b f)) = Ok f' /\
    In (b, size) (f_own f').
Proof.
  exists (frame_init 16), (16 + 1048576), 1048576. eexists. splits.
  - apply fh_init. unfold base_ok; splits; [lia|reflexivity|intros c []].
  - lia.
  - unfold base_ok; splits; [lia|reflexivity|]. intros c [<-|[]]. cbn. right. lia.
  - left. reflexivity.
  - vm_compute. reflexivity.
  - left. reflexivity.
Qed.
Print Assumptions C14_release_boundary_refuted.

(** C14.  The heap allocator, which the library uses as the base, never hands out such an
    address. *)
Theorem C14_heap_base_has_gap : forall h live p s q t, heap_history h live ->
  In (p, s) live -> In (q, t) live -> q <> p + s.
Proof.
  intros h live p s q t H Hp Hq. destruct (C11_heap_blocks _ _ H) as (_ & D & _).
  assert (Pos : forall x, In x live -> 0 < snd x).
  { clear - H. induction H as [| |h live1 p size live2 h' H IH R]; intros x Hx; [contradiction| |].
    - destruct Hx as [<-|Hx]; [assumption|auto].
    - apply IH. rewrite in_app_iff in *. cbn; tauto. }
  pose proof (Pos _ Hp). pose proof (Pos _ Hq). cbn in *.
  destruct (PoolProofs.FOP_in _ _ _ (p, s) (q, t) (fun x y H => match H with or_introl a => or_intror a | or_intror a => or_introl a end) D Hp Hq) as [E|A].
  - inversion E; subst. lia.
  - unfold apart in A. cbn [fst snd] in A. lia.
Qed.
Print Assumptions C14_heap_base_has_gap.

Example C14_ex : exists f live, frame_history f live /\ zlen live = 2 /\ zlen (f_own f) = 2.
Proof.
  assert (H0 : frame_history (frame_init 16) []) by (apply fh_init; unfold base_ok; splits; [lia|reflexivity|intros c []]).
  assert (H1 := fh_alloc _ _ 100 2097152 H0 ltac:(lia) ltac:(unfold base_ok; splits; [lia|reflexivity|intros c [<-|[]]; cbn; right; lia]) ltac:(unfold gap; cbn; lia)).
  assert (H2 := fh_alloc _ _ 1048576 2097152 H1 ltac:(lia) ltac:(unfold base_ok; splits; [lia|reflexivity|intros c [<-|[]]; cbn; right; lia]) ltac:(unfold gap; cbn; lia)).
  do 2 eexists. splits; [exact H2|reflexivity|reflexivity].
Qed.
