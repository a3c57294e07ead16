(** Model of [reactphysics3d::Map<K,V>] and [reactphysics3d::Set<V>]
    (include/reactphysics3d/containers/Map.h, Set.h).  Both classes are the same hash table with
    separate chaining; Set stores the key only.  One model covers both: a Set is a table with
    values of type [unit].  Line numbers are given for Map.h, then Set.h.

    Memory: the three arrays are memories indexed by [Z]; [None] is uninitialised memory (or a
    destroyed entry).  [INVALID_INDEX] (2^64-1) is written [-1]; sizes are unbounded integers, i.e.
    tables with 2^64-1 entries do not occur.  Null pointers are size-0 arrays, reading them is out
    of range, hence undefined.  The hash function and the key equality are arbitrary. *)
From Verif Require Import Base Float24 BitsModel.
Open Scope Z_scope.

(** Map.h:54, Set.h:53. *)
Definition INV : Z := -1.

(** Map.h:59-83, Set.h:58-82. *)
Record tbl (K V : Type) : Type := mk_tbl {
  t_alloc : Z;
  t_n : Z;
  t_hsize : Z;
  t_buckets : Z -> Z;
  t_entries : Z -> option (K * V);
  t_next : Z -> option Z;
  t_free : Z
}.
Arguments mk_tbl {K V}.
Arguments t_alloc {K V}. Arguments t_n {K V}. Arguments t_hsize {K V}.
Arguments t_buckets {K V}. Arguments t_entries {K V}. Arguments t_next {K V}.
Arguments t_free {K V}.

(** Iterators (Map.h:112-203, Set.h:111-202): bucket index and entry index. *)
Definition iter : Type := (Z * Z)%type.

(** What [add] does with a key that is already present: Map::add with
    insertIfAlreadyPresent = true / false (Map.h:378-390), Set::add (Set.h:375-378). *)
Inductive dup_mode : Type := Overwrite | Duplicate | Refuse.

Section Model.
Context {K V : Type}.
Variable hash : K -> Z.
Variable keq : K -> K -> bool.
Notation tbl := (tbl K V).

(** Map.h:208-217, Set.h:207-216 constructor with capacity 0. *)
Definition tbl_empty : tbl := mk_tbl 0 0 0 (fun _ => INV) (fun _ => None) (fun _ => None) INV.

(** [hashCode & (mHashSize - 1)]. *)
Definition bucket_of (h hs : Z) : Z := Z.land h (hs - 1).

Definition in_alloc (t : tbl) (i : Z) : bool := (0 <=? i) && (i <? t_alloc t).

Definition rd_next (t : tbl) (i : Z) : res Z := if in_alloc t i then rd (t_next t i) else Ub.
Definition rd_entry (t : tbl) (i : Z) : res (K * V) :=
  if in_alloc t i then rd (t_entries t i) else Ub.

(** Fuel for walking one chain: longer than any acyclic chain. *)
Definition fuel_of (t : tbl) : nat := S (Z.to_nat (t_alloc t)).

(** [Hash()(mEntries[i].first) == hashCode && keyEqual(mEntries[i].first, key)]. *)
Definition matches (e : K) (key : K) : bool := (hash e =? hash key) && keq e key.

(** The loop of findEntry / find (Map.h:95-99 and 550-556, Set.h:94-98 and 549-555). *)
Fixpoint find_loop (fuel : nat) (t : tbl) (key : K) (i : Z) : res Z :=
  match fuel with
  | O => Fuel
  | S f =>
      if i =? INV then Ok INV
      else
        let* (k, _) := rd_entry t i in
        if matches k key then Ok i
        else let* j := rd_next t i in find_loop f t key j
  end.

(** Map.h:87-104, Set.h:86-103 findEntry. *)
Definition tbl_find_entry (t : tbl) (key : K) : res Z :=
  if 0 <? t_hsize t
  then find_loop (fuel_of t) t key (t_buckets t (bucket_of (hash key) (t_hsize t)))
  else Ok INV.

(** Map.h:351-353 containsKey, Set.h:350-352 contains. *)
Definition tbl_contains (t : tbl) (key : K) : res bool :=
  let* i := tbl_find_entry t key in Ok (negb (i =? INV)).

(** Map.h:569-587 operator[]: reading mEntries[INVALID_INDEX] when the key is missing. *)
Definition tbl_at (t : tbl) (key : K) : res V :=
  let* i := tbl_find_entry t key in
  let* (_, v) := rd_entry t i in Ok v.

(** Assignment through operator[] (Map.h:569). *)
Definition tbl_set_at (t : tbl) (key : K) (v : V) : res tbl :=
  let* i := tbl_find_entry t key in
  let* (k, _) := rd_entry t i in
  Ok (mk_tbl (t_alloc t) (t_n t) (t_hsize t) (t_buckets t)
             (upd (t_entries t) i (Some (k, v))) (t_next t) (t_free t)).

(** Map.h:541-566, Set.h:540-565 find: an iterator; end() = (mHashSize, 0). *)
Definition tbl_end (t : tbl) : iter := (t_hsize t, 0).

Definition tbl_find (t : tbl) (key : K) : res iter :=
  let* i := tbl_find_entry t key in
  if i =? INV then Ok (tbl_end t) else Ok (bucket_of (hash key) (t_hsize t), i).

(** Number of entries allocated for a given number of buckets (Map.h:277-281, Set.h:276-280):
    [capacity * 0.75] is exact for powers of two >= 4, then rounded up to the alignment. *)
Definition alloc_for (c : Z) : Z := round_cap (3 * c / 4).

(** Map.h:304-323, Set.h:303-322: move one chain of the old table to the new arrays. *)
Fixpoint rehash_chain (fuel : nat) (t : tbl) (nhs : Z) (i : Z)
         (nb : Z -> Z) (nn : Z -> option Z) (ne : Z -> option (K * V))
  : res ((Z -> Z) * (Z -> option Z) * (Z -> option (K * V))) :=
  match fuel with
  | O => Fuel
  | S f =>
      if i =? INV then Ok (nb, nn, ne)
      else
        let* (k, v) := rd_entry t i in
        let b := bucket_of (hash k) nhs in
        let* j := rd_next t i in
        rehash_chain f t nhs j (upd nb b i) (upd nn i (Some (nb b))) (upd ne i (Some (k, v)))
  end.

(** Map.h:301-324, Set.h:300-323: the loop over the old buckets ([n] buckets from [b]). *)
Fixpoint rehash_all (n : nat) (t : tbl) (nhs b : Z)
         (nb : Z -> Z) (nn : Z -> option Z) (ne : Z -> option (K * V))
  : res ((Z -> Z) * (Z -> option Z) * (Z -> option (K * V))) :=
  match n with
  | O => Ok (nb, nn, ne)
  | S n' =>
      let* (nb1, nn1, ne1) := rehash_chain (fuel_of t) t nhs (t_buckets t b) nb nn ne in
      rehash_all n' t nhs (b + 1) nb1 nn1 ne1
  end.

(** The bucket count chosen by reserve (Map.h:264-269, Set.h:263-268). *)
Definition pow_capacity (c : Z) : Z :=
  let c := if c <? 16 then 16 else c in
  if is_power_of_two c then c else next_power_of_two c.

(** Map.h:260-348, Set.h:259-347 reserve. *)
Definition tbl_reserve (c : Z) (t : tbl) : res tbl :=
  if c <=? t_hsize t then Ok t
  else
    let c := pow_capacity c in
    let na := alloc_for c in
    (* memcpy of the old next entries *)
    let nn0 := fun i => if in_alloc t i then t_next t i else None in
    let* (nb, nn, ne) :=
      rehash_all (Z.to_nat (t_hsize t)) t c 0 (fun _ => INV) nn0 (fun _ => None) in
    (* the new entries are linked in front of the free list *)
    let nn' := fun i => if (t_alloc t <=? i) && (i <? na - 1) then Some (i + 1)
                        else if i =? na - 1 then Some (t_free t) else nn i in
    Ok (mk_tbl na (t_n t) c nb ne nn' (t_alloc t)).

(** The duplicate check of add (Map.h:372-392, Set.h:371-379): index of the entry at which
    add returns, INV when the loop runs to the end. *)
Fixpoint add_scan (fuel : nat) (mode : dup_mode) (t : tbl) (key : K) (i : Z) : res Z :=
  match fuel with
  | O => Fuel
  | S f =>
      if i =? INV then Ok INV
      else
        let* (k, _) := rd_entry t i in
        if matches k key && match mode with Duplicate => false | _ => true end then Ok i
        else let* j := rd_next t i in add_scan f mode t key j
  end.

(** Map.h:357-423, Set.h:356-411 add. *)
Definition tbl_add (mode : dup_mode) (key : K) (v : V) (t : tbl) : res (tbl * bool) :=
  let* hit := (if 0 <? t_hsize t
               then add_scan (fuel_of t) mode t key (t_buckets t (bucket_of (hash key) (t_hsize t)))
               else Ok INV) in
  if negb (hit =? INV) then
    match mode with
    | Refuse => Ok (t, false)
    | _ => Ok (mk_tbl (t_alloc t) (t_n t) (t_hsize t) (t_buckets t)
                      (upd (t_entries t) hit (Some (key, v))) (t_next t) (t_free t), true)
    end
  else
    let* t1 := (if t_free t =? INV
                then tbl_reserve (if t_hsize t =? 0 then 16 else t_hsize t * 2) t
                else Ok t) in
    let b := if t_free t =? INV then bucket_of (hash key) (t_hsize t1)
             else if 0 <? t_hsize t then bucket_of (hash key) (t_hsize t) else INV in
    let e := t_free t1 in
    let* nf := rd_next t1 e in
    if (0 <=? b) && (b <? t_hsize t1)
    then Ok (mk_tbl (t_alloc t1) (t_n t1 + 1) (t_hsize t1) (upd (t_buckets t1) b e)
                    (upd (t_entries t1) e (Some (key, v)))
                    (upd (t_next t1) e (Some (t_buckets t1 b))) nf, true)
    else Ub.

(** First non-empty bucket among the [n] buckets from [b] on
    (Map.h:140-142, 466-468; Set.h:139-141, 453-455). *)
Fixpoint scan_bucket (n : nat) (t : tbl) (b : Z) : Z :=
  match n with
  | O => b
  | S n' => if t_buckets t b =? INV then scan_bucket n' t (b + 1) else b
  end.

(** Position of the first entry in a bucket >= [b], end() if there is none. *)
Definition from_bucket (t : tbl) (b : Z) : iter :=
  let b' := scan_bucket (Z.to_nat (t_hsize t - b)) t b in
  if b' <? t_hsize t then (b', t_buckets t b') else (b', 0).

(** The loop of remove (Map.h:446-481, Set.h:433-468). *)
Fixpoint remove_loop (fuel : nat) (t : tbl) (key : K) (b last i : Z) : res (tbl * iter) :=
  match fuel with
  | O => Fuel
  | S f =>
      if i =? INV then Ok (t, tbl_end t)
      else
        let* (k, _) := rd_entry t i in
        let* j := rd_next t i in
        if matches k key then
          let bk := if last =? INV then upd (t_buckets t) b j else t_buckets t in
          let nx := if last =? INV then t_next t else upd (t_next t) last (Some j) in
          let t' := mk_tbl (t_alloc t) (t_n t - 1) (t_hsize t) bk
                           (upd (t_entries t) i None) (upd nx i (Some (t_free t))) i in
          Ok (t', if j =? INV then from_bucket t' (b + 1) else (b, j))
        else remove_loop f t key b i j
  end.

(** Map.h:437-485, Set.h:424-472 remove(key). *)
Definition tbl_remove (key : K) (t : tbl) : res (tbl * iter) :=
  if 0 <? t_hsize t then
    let b := bucket_of (hash key) (t_hsize t) in
    remove_loop (fuel_of t) t key b INV (t_buckets t b)
  else Ok (t, tbl_end t).

(** Map.h:493-506, Set.h:492-505: empty one chain. *)
Fixpoint clear_chain (fuel : nat) (t : tbl) (i : Z) : res tbl :=
  match fuel with
  | O => Fuel
  | S f =>
      if i =? INV then Ok t
      else
        let* _ := rd_entry t i in          (* the destructor needs an object *)
        let* j := rd_next t i in
        clear_chain f (mk_tbl (t_alloc t) (t_n t) (t_hsize t) (t_buckets t)
                              (upd (t_entries t) i None) (upd (t_next t) i (Some (t_free t))) i) j
  end.

Fixpoint clear_all (n : nat) (t : tbl) (b : Z) : res tbl :=
  match n with
  | O => Ok t
  | S n' =>
      let* t1 := clear_chain (fuel_of t) t (t_buckets t b) in
      clear_all n' (mk_tbl (t_alloc t1) (t_n t1) (t_hsize t1) (upd (t_buckets t1) b INV)
                           (t_entries t1) (t_next t1) (t_free t1)) (b + 1)
  end.

(** Map.h:488-526, Set.h:487-525 clear.  mFreeIndex keeps its value when the memory is
    released. *)
Definition tbl_clear (release : bool) (t : tbl) : res tbl :=
  let* t1 := clear_all (Z.to_nat (t_hsize t)) t 0 in
  if release && (0 <? t_alloc t1)
  then Ok (mk_tbl 0 0 0 (fun _ => INV) (fun _ => None) (fun _ => None) (t_free t1))
  else Ok (mk_tbl (t_alloc t1) 0 (t_hsize t1) (t_buckets t1) (t_entries t1) (t_next t1) (t_free t1)).

(** Map.h:239-250 and 645-656, Set.h:238-249 and 616-627: copy the entries of a chain. *)
Fixpoint copy_chain (fuel : nat) (t : tbl) (i : Z) (ne : Z -> option (K * V))
  : res (Z -> option (K * V)) :=
  match fuel with
  | O => Fuel
  | S f =>
      if i =? INV then Ok ne
      else
        let* e := rd_entry t i in
        let* j := rd_next t i in
        copy_chain f t j (upd ne i (Some e))
  end.

Fixpoint copy_all (n : nat) (t : tbl) (b : Z) (ne : Z -> option (K * V))
  : res (Z -> option (K * V)) :=
  match n with
  | O => Ok ne
  | S n' => let* ne1 := copy_chain (fuel_of t) t (t_buckets t b) ne in copy_all n' t (b + 1) ne1
  end.

(** Map.h:219-252, Set.h:218-251 copy constructor. *)
Definition tbl_copy (t : tbl) : res tbl :=
  let* ne := copy_all (Z.to_nat (t_hsize t)) t 0 (fun _ => None) in
  Ok (mk_tbl (t_alloc t) (t_n t) (t_hsize t) (t_buckets t) ne (t_next t) (t_free t)).

(** Map.h:617-660, Set.h:588-631 operator=: clear(true), then as the copy constructor. *)
Definition tbl_assign (src t : tbl) : res tbl :=
  let* _ := tbl_clear true t in tbl_copy src.

(** Map.h:663-685, Set.h:634-656 begin(): the scan for the first bucket is not bounded. *)
Definition tbl_begin (t : tbl) : res iter :=
  if t_n t =? 0 then Ok (tbl_end t)
  else
    let b := scan_bucket (Z.to_nat (t_hsize t)) t 0 in
    if b <? t_hsize t then Ok (b, t_buckets t b) else Ub.

(** Map.h:126-147, Set.h:125-146 advance. *)
Definition tbl_advance (t : tbl) (p : iter) : res iter :=
  let (b, e) := p in
  let* j := rd_next t e in
  if negb (j =? INV) then Ok (b, j) else Ok (from_bucket t (b + 1)).

(** Iteration from a position to end() (operators *, ++ and !=). *)
Fixpoint iter_from (fuel : nat) (t : tbl) (p : iter) : res (list (K * V)) :=
  match fuel with
  | O => Fuel
  | S f =>
      if (fst p =? t_hsize t) && (snd p =? 0) then Ok []
      else
        let* e := rd_entry t (snd p) in
        let* p' := tbl_advance t p in
        let* l := iter_from f t p' in
        Ok (e :: l)
  end.

Definition tbl_iter (t : tbl) : res (list (K * V)) :=
  let* p := tbl_begin t in iter_from (fuel_of t) t p.

(** One direction of operator== (Map.h:593-598 and 600-605, Set.h:572-576): every element of the
    list is found in [t] with an equal value. *)
Fixpoint all_found (veq : V -> V -> bool) (t : tbl) (l : list (K * V)) : res bool :=
  match l with
  | [] => Ok true
  | (k, v) :: l' =>
      let* i := tbl_find_entry t k in
      if i =? INV then Ok false
      else
        let* (_, w) := rd_entry t i in
        if veq w v then all_found veq t l' else Ok false
  end.

(** Map.h:589-609 operator==.  The iteration does not modify the tables, so the visited
    elements are collected first. *)
Definition tbl_eq (veq : V -> V -> bool) (t u : tbl) : res bool :=
  if t_n t =? t_n u then
    let* l := tbl_iter t in
    let* b := all_found veq u l in
    if b then
      let* l' := tbl_iter u in all_found veq t l'
    else Ok false
  else Ok false.

(** Set.h:568-579 operator==: one direction only. *)
Definition tbl_eq_set (t u : tbl) : res bool :=
  if t_n t =? t_n u then
    let* l := tbl_iter t in all_found (fun _ _ => true) u l
  else Ok false.

End Model.

(** Public operations on the tables of a store. *)
Inductive top (K V : Type) : Type :=
| TAdd (x : nat) (mode : dup_mode) (k : K) (v : V)
| TRemove (x : nat) (k : K)
| TClear (x : nat) (release : bool)
| TReserve (x : nat) (c : Z)
| TCopy (x y : nat)              (* destroy t_x, then construct it as a copy of t_y *)
| TAssign (x y : nat)            (* t_x = t_y *)
| TSetAt (x : nat) (k : K) (v : V)
| TContains (x : nat) (k : K)
| TAt (x : nat) (k : K)
| TFindIs (x : nat) (k : K)      (* find(k) != end(), and the value it points to *)
| TSize (x : nat)
| TEq (x y : nat)                (* Map::operator== *)
| TEqSet (x y : nat).            (* Set::operator== *)
Arguments TAdd {K V}. Arguments TRemove {K V}. Arguments TClear {K V}. Arguments TReserve {K V}.
Arguments TCopy {K V}. Arguments TAssign {K V}. Arguments TSetAt {K V}. Arguments TContains {K V}.
Arguments TAt {K V}. Arguments TFindIs {K V}. Arguments TSize {K V}. Arguments TEq {K V}.
Arguments TEqSet {K V}.

Inductive tout (V : Type) : Type :=
| OUnit
| OBool (b : bool)
| OInt (z : Z)
| OVal (v : V)
| OOpt (v : option V).
Arguments OUnit {V}. Arguments OBool {V}. Arguments OInt {V}. Arguments OVal {V}. Arguments OOpt {V}.

Definition tstore (K V : Type) := nat -> tbl K V.

(** One call of the API. *)
Definition tbl_step {K V} (hash : K -> Z) (keq : K -> K -> bool) (veq : V -> V -> bool)
           (s : tstore K V) (o : top K V) : res (tstore K V * tout V) :=
  match o with
  | TAdd x m k v => let* (t, b) := tbl_add hash keq m k v (s x) in Ok (nupd s x t, OBool b)
  | TRemove x k => let* (t, _) := tbl_remove hash keq k (s x) in Ok (nupd s x t, OUnit)
  | TClear x r => let* t := tbl_clear r (s x) in Ok (nupd s x t, OUnit)
  | TReserve x c => let* t := tbl_reserve hash c (s x) in Ok (nupd s x t, OUnit)
  | TCopy x y =>
      if Nat.eqb x y then Ub
      else
        let* _ := tbl_clear true (s x) in
        let* t := tbl_copy (s y) in Ok (nupd s x t, OUnit)
  | TAssign x y =>
      if Nat.eqb x y then Ok (s, OUnit)
      else let* t := tbl_assign (s y) (s x) in Ok (nupd s x t, OUnit)
  | TSetAt x k v => let* t := tbl_set_at hash keq (s x) k v in Ok (nupd s x t, OUnit)
  | TContains x k => let* b := tbl_contains hash keq (s x) k in Ok (s, OBool b)
  | TAt x k => let* v := tbl_at hash keq (s x) k in Ok (s, OVal v)
  | TFindIs x k =>
      let* p := tbl_find hash keq (s x) k in
      if (fst p =? t_hsize (s x)) && (snd p =? 0) then Ok (s, OOpt None)
      else let* (_, v) := rd_entry (s x) (snd p) in Ok (s, OOpt (Some v))
  | TSize x => Ok (s, OInt (t_n (s x)))
  | TEq x y => let* b := tbl_eq hash keq veq (s x) (s y) in Ok (s, OBool b)
  | TEqSet x y => let* b := tbl_eq_set hash keq (s x) (s y) in Ok (s, OBool b)
  end.

Fixpoint tbl_run {K V} (hash : K -> Z) (keq : K -> K -> bool) (veq : V -> V -> bool)
         (s : tstore K V) (os : list (top K V)) : res (tstore K V * list (tout V)) :=
  match os with
  | [] => Ok (s, [])
  | o :: os' =>
      let* (s1, r) := tbl_step hash keq veq s o in
      let* (s2, rs) := tbl_run hash keq veq s1 os' in
      Ok (s2, r :: rs)
  end.

Definition tstore_init {K V} : tstore K V := fun _ => tbl_empty.
