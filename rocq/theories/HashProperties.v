(** C04-C08: Map and Set. *)
From Coq Require Import Permutation.
From Verif Require Import Base Float24 BitsModel HashModel HashSpec HashProofs HashProofs2.
Open Scope Z_scope.

(** C04: for every hash function, every history of Map calls accepted by the specification of
    finite partial functions runs without undefined behaviour and gives the same answers. *)
Theorem C04_map_is_a_partial_function :
  forall (K V : Type) (hash : K -> Z) (keq : K -> K -> bool) (veq : V -> V -> bool),
    (forall a b, keq a b = true <-> a = b) ->
    forall (ops : list (top K V)) (ms : fstore) outs,
      f_run keq veq fstore_init ops = Ok (ms, outs) ->
      exists s, tbl_run hash keq veq tstore_init ops = Ok (s, outs) /\
        forall x, t_n (s x) = zlen (snd (ms x)).
Proof.
  exact (fun K V hash keq veq HK ops ms outs H =>
    match run_refines hash keq veq HK ops _ _ ms outs (Rstore_init hash) H with
    | ex_intro _ s (conj E HR) => ex_intro _ s (conj E (fun x => R_size hash _ _ _ (HR x)))
    end).
Qed.
Print Assumptions C04_map_is_a_partial_function.

(** The specification's equality test is equality of partial functions. *)
Theorem C04_equality_is_extensional :
  forall (K V : Type) (keq : K -> K -> bool) (veq : V -> V -> bool),
    (forall a b, keq a b = true <-> a = b) -> (forall v w, veq v w = true <-> v = w) ->
    forall (ops : list (top K V)) (ms : fstore) outs x y,
      f_run keq veq fstore_init ops = Ok (ms, outs) ->
      (m_eq keq veq (snd (ms x)) (snd (ms y)) = true <->
       forall k, lookup keq k (snd (ms x)) = lookup keq k (snd (ms y))).
Proof.
  exact (fun K V keq veq HK HV ops ms outs x y H =>
    match run_refines (fun _ => 0) keq veq HK ops _ _ ms outs (Rstore_init (fun _ => 0)) H with
    | ex_intro _ s (conj _ HR) =>
        m_eq_spec keq veq HK _ _ HV (R_nodup _ _ _ _ (HR x)) (R_nodup _ _ _ _ (HR y))
    end).
Qed.
Print Assumptions C04_equality_is_extensional.

(** C05: a Set is the table with [unit] values; contains is membership in a finite set, and
    operator== (which checks one inclusion only) is equality of the sets. *)
Theorem C05_set_is_a_finite_set :
  forall (K : Type) (hash : K -> Z) (keq : K -> K -> bool),
    (forall a b, keq a b = true <-> a = b) ->
    forall (ops : list (top K unit)) (ms : fstore) outs,
      f_run keq (fun _ _ => true) fstore_init ops = Ok (ms, outs) ->
      exists s, tbl_run hash keq (fun _ _ => true) tstore_init ops = Ok (s, outs) /\
        (forall x k, tbl_contains hash keq (s x) k = Ok true <-> In k (map fst (snd (ms x)))) /\
        (forall x, NoDup (map fst (snd (ms x))) /\ t_n (s x) = zlen (snd (ms x))) /\
        (forall x y, tbl_eq_set hash keq (s x) (s y) = Ok true <->
           forall k, In k (map fst (snd (ms x))) <-> In k (map fst (snd (ms y)))).
Proof.
  intros K hash keq HK ops ms outs H.
  destruct (run_refines hash keq _ HK ops _ _ ms outs (Rstore_init hash) H) as (s & E & HR).
  exists s. split; [exact E|]. split; [|split].
  - intros x k. rewrite <- (has_In keq HK).
    destruct (find_R hash keq HK _ _ _ k (HR x)) as (i & Ei & Hi).
    unfold tbl_contains, has. rewrite Ei; cbn [bind].
    destruct (lookup keq k (snd (ms x))).
    + destruct Hi as (N & _). destruct (Z.eqb_spec i INV); [contradiction|]. tauto.
    + subst i. rewrite Z.eqb_refl. cbn. split; [discriminate|congruence].
  - intros x. split; [apply (R_nodup hash _ _ _ (HR x))|apply (R_size hash _ _ _ (HR x))].
  - intros x y. destruct (eq_R hash keq (fun _ _ => true) HK _ _ _ _ _ _ (HR x) (HR y)) as [_ E2].
    rewrite E2.
    pose proof (m_eq_set_spec keq HK _ _ (R_nodup hash _ _ _ (HR x)) (R_nodup hash _ _ _ (HR y))) as M.
    split.
    + intros X k. injection X as X. rewrite M in X. rewrite <- !(has_In keq HK), X. tauto.
    + intros X. f_equal. apply M. intros k. apply Bool.eq_true_iff_eq.
      rewrite !(has_In keq HK). apply X.
Qed.
Print Assumptions C05_set_is_a_finite_set.

(** C06: iteration visits every entry exactly once and ends. *)
Theorem C06_iteration_visits_each_once :
  forall (K V : Type) (hash : K -> Z) (keq : K -> K -> bool) (veq : V -> V -> bool),
    (forall a b, keq a b = true <-> a = b) ->
    forall (ops : list (top K V)) (ms : fstore) outs,
      f_run keq veq fstore_init ops = Ok (ms, outs) ->
      exists s, tbl_run hash keq veq tstore_init ops = Ok (s, outs) /\
        forall x, exists l, tbl_iter (s x) = Ok l /\ Permutation l (snd (ms x)) /\ NoDup (map fst l).
Proof.
  intros K V hash keq veq HK ops ms outs H.
  destruct (run_refines hash keq veq HK ops _ _ ms outs (Rstore_init hash) H) as (s & E & HR).
  exists s. split; [exact E|]. intros x. destruct (iter_R hash veq _ _ _ (HR x)) as (l & El & P).
  exists l. split; [exact El|]. split; [exact P|].
  eapply Permutation_NoDup; [apply Permutation_map; symmetry; exact P|].
  apply (R_nodup hash _ _ _ (HR x)).
Qed.
Print Assumptions C06_iteration_visits_each_once.

(** C06: removing an entry keeps the order of the others, and the returned iterator continues
    exactly behind the removed entry. *)
Theorem C06_remove_during_iteration :
  forall (K V : Type) (hash : K -> Z) (keq : K -> K -> bool) (veq : V -> V -> bool),
    (forall a b, keq a b = true <-> a = b) ->
    forall (ops : list (top K V)) (ms : fstore) outs,
      f_run keq veq fstore_init ops = Ok (ms, outs) ->
      exists s, tbl_run hash keq veq tstore_init ops = Ok (s, outs) /\
        forall x key v, lookup keq key (snd (ms x)) = Some v ->
          exists t' p l1 l2, tbl_remove hash keq key (s x) = Ok (t', p) /\
            tbl_iter (s x) = Ok (l1 ++ (key, v) :: l2) /\
            tbl_iter t' = Ok (l1 ++ l2) /\ iter_from (fuel_of t') t' p = Ok l2.
Proof.
  intros K V hash keq veq HK ops ms outs H.
  destruct (run_refines hash keq veq HK ops _ _ ms outs (Rstore_init hash) H) as (s & E & HR).
  exists s. split; [exact E|]. intros x key v LK.
  destruct (iter_R hash veq _ _ _ (HR x)) as (l & El & _).
  destruct (remove_iter hash keq veq HK _ _ _ key v l (HR x) LK El) as (t' & p & l1 & l2 & A & -> & B & C).
  exists t', p, l1, l2. auto.
Qed.
Print Assumptions C06_remove_during_iteration.

(** C07 refuted: whatever the history, after clear(true) on a map that held memory every add
    is undefined behaviour (it reads the released next-entry array). *)
Theorem C07_add_after_release_refuted :
  forall (K V : Type) (hash : K -> Z) (keq : K -> K -> bool) (veq : V -> V -> bool),
    (forall a b, keq a b = true <-> a = b) ->
    forall (ops : list (top K V)) (ms : fstore) outs,
      f_run keq veq fstore_init ops = Ok (ms, outs) ->
      exists s, tbl_run hash keq veq tstore_init ops = Ok (s, outs) /\
        forall x mode k v, fst (ms x) = Released -> tbl_add hash keq mode k v (s x) = Ub.
Proof.
  intros K V hash keq veq HK ops ms outs H.
  destruct (run_refines hash keq veq HK ops _ _ ms outs (Rstore_init hash) H) as (s & E & HR).
  exists s. split; [exact E|]. intros x mode k v HX. specialize (HR x). rewrite HX in HR.
  eapply add_released; exact HR.
Qed.
Print Assumptions C07_add_after_release_refuted.

(** C07 refuted, concretely. *)
Theorem C07_clear_release_refuted :
  tbl_run (fun k => k) Z.eqb Z.eqb tstore_init
    [TAdd 0%nat Overwrite 1 10; TClear 0%nat true; TAdd 0%nat Overwrite 2 20] = Ub.
Proof. vm_compute. reflexivity. Qed.
Print Assumptions C07_clear_release_refuted.

(** C07 refuted: with a reserve in between nothing crashes at once, but the stale free index is
    used a second time: an element that was added and never removed is lost. *)
Theorem C07_reserve_after_release_loses_entry_refuted :
  match tbl_run (fun k => k) Z.eqb Z.eqb tstore_init
    ([TAdd 0%nat Overwrite 1 10; TClear 0%nat true; TReserve 0%nat 16] ++
     map (fun k => TAdd 0%nat Overwrite (Z.of_nat k) 0) (seq 0 16) ++
     [TAdd 0%nat Overwrite 17 0; TSize 0%nat; TContains 0%nat 0])
  with
  | Ok (_, outs) => skipn 20 outs = [OInt 17; OBool false]
  | _ => False
  end.
Proof. vm_compute. reflexivity. Qed.
Print Assumptions C07_reserve_after_release_loses_entry_refuted.

(** C07 refuted: in the same situation a chain becomes cyclic and a lookup never ends: no amount
    of fuel suffices. *)
Theorem C07_reserve_after_release_loops_refuted :
  exists s outs,
    tbl_run (fun k => k) Z.eqb Z.eqb tstore_init
      ([TAdd 0%nat Overwrite 1 10; TClear 0%nat true; TReserve 0%nat 16] ++
       map (fun k => TAdd 0%nat Overwrite (Z.of_nat k) 0) (seq 0 17)) = Ok (s, outs) /\
    forall fuel, find_loop (fun k => k) Z.eqb fuel (s 0%nat) 0 (t_buckets (s 0%nat) 0) = Fuel.
Proof.
  match goal with |- exists _ _, ?r = _ /\ _ =>
    assert (H : match r with
                | Ok (s, _) => t_buckets (s 0%nat) 0 = 0 /\ rd_entry (s 0%nat) 0 = Ok (16, 0) /\
                               rd_next (s 0%nat) 0 = Ok 0
                | _ => False
                end) by (vm_compute; repeat split);
    destruct r as [[s outs]| |]; try contradiction
  end.
  destruct H as (E0 & E1 & E2). exists s, outs. split; [reflexivity|]. rewrite E0.
  induction fuel as [|fuel IH]; [reflexivity|].
  cbn [find_loop]. rewrite E1; cbn [bind]. rewrite E2; cbn [bind]. exact IH.
Qed.
Print Assumptions C07_reserve_after_release_loops_refuted.

(** C08, what holds: after reserve(c) the capacity (bucket count) is at least c, and it does
    not change while at most 3/4 of c entries are stored. *)
Theorem C08_reserve_partial :
  forall (K V : Type) (hash : K -> Z) (keq : K -> K -> bool) (veq : V -> V -> bool),
    (forall a b, keq a b = true <-> a = b) ->
    forall (ops adds : list (top K V)) x c (ms ms' : fstore) outs outs',
      f_run keq veq fstore_init (ops ++ [TReserve x c]) = Ok (ms, outs) ->
      Forall (fun o => exists m k v, o = TAdd x m k v) adds ->
      f_run keq veq ms adds = Ok (ms', outs') ->
      0 < c -> 4 * zlen (snd (ms' x)) <= 3 * c ->
      exists s s', tbl_run hash keq veq tstore_init (ops ++ [TReserve x c]) = Ok (s, outs) /\
        tbl_run hash keq veq s adds = Ok (s', outs') /\
        c <= t_hsize (s x) /\ t_hsize (s' x) = t_hsize (s x).
Proof. exact (@reserve_then_adds). Qed.
Print Assumptions C08_reserve_partial.

(** C08 refuted: after reserve(64) the 49th new entry reallocates the table. *)
Theorem C08_reserve_refuted :
  match tbl_run (fun k => k) Z.eqb Z.eqb tstore_init
          (TReserve 0%nat 64 :: map (fun k => TAdd 0%nat Overwrite (Z.of_nat k) 0) (seq 0 48)),
        tbl_run (fun k => k) Z.eqb Z.eqb tstore_init
          (TReserve 0%nat 64 :: map (fun k => TAdd 0%nat Overwrite (Z.of_nat k) 0) (seq 0 49))
  with
  | Ok (s, _), Ok (s', _) => t_hsize (s 0%nat) = 64 /\ t_hsize (s' 0%nat) = 128
  | _, _ => False
  end.
Proof. vm_compute. split; reflexivity. Qed.
Print Assumptions C08_reserve_refuted.

(** Non-vacuity: a history with collisions, growth, removal, copies; the specification accepts
    it and gives these answers. *)
Definition map_demo : list (top Z Z) :=
  map (fun k => TAdd 0%nat Overwrite (3 * Z.of_nat k) 7) (seq 0 40) ++
  [TSize 0%nat; TRemove 0%nat 6; TContains 0%nat 6; TContains 0%nat 9; TAdd 0%nat Refuse 9 1;
   TAt 0%nat 9; TAdd 0%nat Overwrite 9 2; TAt 0%nat 9; TSetAt 0%nat 12 5; TFindIs 0%nat 12;
   TCopy 1%nat 0%nat; TEq 0%nat 1%nat; TClear 0%nat false; TSize 0%nat; TEq 0%nat 1%nat;
   TReserve 0%nat 100; TAdd 0%nat Overwrite 1 1; TSize 0%nat; TClear 0%nat true; TAssign 0%nat 1%nat;
   TSize 0%nat; TAdd 0%nat Overwrite 6 6; TAt 0%nat 6].

Example map_demo_accepted :
  match f_run Z.eqb Z.eqb fstore_init map_demo with
  | Ok (_, outs) => skipn 40 outs =
      [OInt 40; OUnit; OBool false; OBool true; OBool false; OVal 7; OBool true; OVal 2; OUnit;
       OOpt (Some 5); OUnit; OBool true; OUnit; OInt 0; OBool false; OUnit; OBool true; OInt 1; OUnit;
       OUnit; OInt 39; OBool true; OVal 6]
  | _ => False
  end.
Proof. vm_compute. reflexivity. Qed.

Example map_demo_released :
  match f_run Z.eqb Z.eqb fstore_init [TAdd 0%nat Overwrite 1 1; TClear 0%nat true] with
  | Ok (ms, _) => fst (ms 0%nat) = Released
  | _ => False
  end.
Proof. vm_compute. reflexivity. Qed.

Example set_demo_accepted :
  match f_run Z.eqb (fun _ _ => true) fstore_init
     [TAdd 0%nat Refuse 1 tt; TAdd 0%nat Refuse 17 tt; TAdd 0%nat Refuse 1 tt; TAdd 1%nat Refuse 17 tt;
      TEqSet 0%nat 1%nat; TRemove 0%nat 1; TEqSet 0%nat 1%nat] with
  | Ok (_, outs) => outs = [OBool true; OBool true; OBool false; OBool true; OBool false; OUnit; OBool true]
  | _ => False
  end.
Proof. vm_compute. reflexivity. Qed.

Example reserve_demo :
  match f_run Z.eqb Z.eqb fstore_init ([TAdd 0%nat Overwrite 1 1] ++ [TReserve 0%nat 100]) with
  | Ok (ms, _) =>
      match f_run Z.eqb Z.eqb ms (map (fun k => TAdd 0%nat Overwrite (Z.of_nat k) 0) (seq 0 60)) with
      | Ok (ms', _) => 4 * zlen (snd (ms' 0%nat)) <= 3 * 100
      | _ => False
      end
  | _ => False
  end.
Proof. vm_compute. discriminate. Qed.
