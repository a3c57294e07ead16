(** Stacks refine lists. *)
From Verif Require Import Base Float24 ArrayModel ArraySpec ArrayProofs StackModel StackSpec.
Open Scope Z_scope.

Section Stacks.
Context {A : Type}.
Implicit Types a : arr A.
Implicit Types l : list A.

(** The elements from the bottom to the top. *)
Definition srepr a l : Prop := repr a (map Some (rev l)).

Lemma zlen_rep : forall l, zlen (map Some (rev l)) = zlen l.
Proof. intros l. unfold zlen. rewrite map_length, rev_length. reflexivity. Qed.
Lemma rep_cons : forall x l, map Some (rev (x :: l)) = map Some (rev l) ++ [Some x].
Proof. intros. simpl rev. rewrite map_app. reflexivity. Qed.
Lemma rep_top : forall x l, znth (map Some (rev (x :: l))) (zlen l) = Some (Some x).
Proof. intros. rewrite rep_cons. rewrite znth_app2 by (rewrite zlen_rep; lia). rewrite zlen_rep, Z.sub_diag. apply znth_cons0. Qed.

Lemma srepr_empty : srepr arr_empty [].
Proof. apply repr_empty. Qed.

Lemma srepr_size : forall a l, srepr a l -> a_size a = zlen l.
Proof. intros a l (S & _). rewrite S. apply zlen_rep. Qed.

Lemma allocate_ok : forall c a l, srepr a l -> a_size a <= round_cap c -> 0 <= round_cap c ->
  exists a', stack_allocate c a = Ok a' /\ srepr a' l /\ a_cap a' = round_cap c.
Proof.
  intros c a l R L P. pose proof R as (S & (C & M) & B). unfold stack_allocate.
  pose proof (zlen_nonneg _ l) as NN. rewrite zlen_rep in S.
  destruct ((0 <? a_cap a) && (0 <? a_size a)) eqn:E.
  - destruct (copy_slots_spec (Z.to_nat (a_size a)) (a_buf a) (a_mem a) 0 (fun _ => None) (round_cap c) 0) as (nb & E1 & IN & _); try lia.
    rewrite E1. cbn [bind]. eexists. split; [reflexivity|]. split; [|reflexivity].
    unfold srepr, repr. cbn [a_size a_cap a_mem a_buf]. rewrite zlen_rep. splits; try lia.
    intros i I. rewrite (B i) by (rewrite zlen_rep; lia). f_equal. specialize (IN i ltac:(lia)). simpl in IN. symmetry. exact IN.
  - cbn [bind]. eexists. split; [reflexivity|]. split; [|reflexivity].
    assert (Z0 : zlen l = 0).
    { destruct (Z.ltb_spec 0 (a_cap a)), (Z.ltb_spec 0 (a_size a)); try discriminate; lia. }
    unfold srepr, repr. cbn [a_size a_cap a_mem a_buf]. rewrite zlen_rep. splits; try lia.
Qed.

Lemma new_ok : forall c, exists a, stack_new c = Ok a /\ srepr a [].
Proof.
  intros c. unfold stack_new. destruct (Z.ltb_spec 0 c).
  - pose proof (round_cap_lower c). pose proof (rnd24_mono_le c ltac:(lia)).
    destruct (allocate_ok c arr_empty [] srepr_empty) as (a & E & R & _); [simpl; lia|lia|]. exists a. auto.
  - exists arr_empty. split; [reflexivity|apply srepr_empty].
Qed.

Lemma copy_ok : forall a l, srepr a l -> exists a', stack_copy a = Ok a' /\ srepr a' l.
Proof.
  intros a l R. pose proof R as (S & (C & M) & B). unfold stack_copy.
  pose proof (zlen_nonneg _ l) as NN. rewrite zlen_rep in S.
  destruct (Z.ltb_spec 0 (a_cap a)).
  - destruct (Z.ltb_spec 0 (a_size a)).
    + destruct (copy_slots_spec (Z.to_nat (a_size a)) (a_buf a) (a_mem a) 0 (fun _ => None) (a_cap a) 0) as (nb & E1 & IN & _); try lia.
      rewrite E1. cbn [bind]. eexists. split; [reflexivity|].
      unfold srepr, repr. cbn [a_size a_cap a_mem a_buf]. rewrite zlen_rep. splits; try lia.
      intros i I. rewrite (B i) by (rewrite zlen_rep; lia). f_equal. specialize (IN i ltac:(lia)). simpl in IN. symmetry. exact IN.
    + cbn [bind]. eexists. split; [reflexivity|].
      unfold srepr, repr. cbn [a_size a_cap a_mem a_buf]. rewrite zlen_rep. splits; try lia.
  - eexists. split; [reflexivity|].
    unfold srepr, repr. cbn [a_size a_cap a_mem a_buf]. rewrite zlen_rep. splits; try lia.
Qed.

Lemma grow_ok : forall a l, srepr a l -> exists a', stack_grow a = Ok a' /\ srepr a' l /\ a_size a' < a_cap a'.
Proof.
  intros a l R. pose proof R as (S & (C & M) & B). unfold stack_grow.
  pose proof (zlen_nonneg _ l) as NN. rewrite zlen_rep in S.
  destruct (Z.eqb_spec (a_size a) (a_cap a)) as [E|E]; [|exists a; splits; auto; lia].
  destruct (Z.ltb_spec 0 (a_cap a)) as [P|P].
  - pose proof (round_cap_double (a_cap a) P) as D. replace (2 * a_cap a) with (a_cap a * 2) in D by lia.
    destruct (allocate_ok (a_cap a * 2) a l R) as (a' & E1 & R1 & C1); [lia|lia|].
    exists a'. splits; auto. rewrite (srepr_size a' l R1). lia.
  - assert (R1 : round_cap 1 = 16) by (vm_compute; reflexivity).
    destruct (allocate_ok 1 a l R) as (a' & E1 & R' & C1); [lia|lia|].
    exists a'. splits; auto. rewrite (srepr_size a' l R'). lia.
Qed.

Lemma stack_push_ok : forall x a l, srepr a l -> exists a', stack_push x a = Ok a' /\ srepr a' (x :: l).
Proof.
  intros x a l R. unfold stack_push. destruct (grow_ok a l R) as (a1 & E1 & R1 & L1). rewrite E1. cbn [bind].
  destruct (push_spec (Some x) a1 _ R1 L1) as (a2 & E2 & R2 & _). exists a2. split; [exact E2|].
  unfold srepr. rewrite rep_cons. exact R2.
Qed.

Lemma stack_top_ok : forall a x l, srepr a (x :: l) -> stack_top a = Ok x.
Proof.
  intros a x l R. unfold stack_top. apply (get_spec _ _ _ _ R). unfold s_get.
  rewrite (srepr_size a _ R), zlen_cons. replace (zlen l + 1 - 1) with (zlen l) by lia. rewrite rep_top. reflexivity.
Qed.

Lemma stack_top_empty : forall a, srepr a [] -> stack_top a = Ub /\ stack_pop a = Ub /\ forall x, stack_set_top x a = Ub.
Proof.
  intros a R. pose proof (srepr_size a [] R) as S. rewrite zlen_nil in S.
  unfold stack_top, stack_pop, stack_set_top, arr_get, arr_set. rewrite S. auto.
Qed.

Lemma set_top_ok : forall a x y l, srepr a (x :: l) -> exists a', stack_set_top y a = Ok a' /\ srepr a' (y :: l).
Proof.
  intros a x y l R. pose proof R as (S & (C & M) & B). rewrite zlen_rep, zlen_cons in S.
  pose proof (zlen_nonneg _ l) as NN. unfold stack_set_top, arr_set, in_buf.
  replace ((0 <=? a_size a - 1) && (a_size a - 1 <? a_size a) && ((0 <=? a_size a - 1) && (a_size a - 1 <? a_mem a))) with true
    by (symmetry; rewrite !andb_true_iff, !Z.leb_le, !Z.ltb_lt; lia).
  eexists. split; [reflexivity|]. unfold srepr, repr. cbn [a_size a_cap a_mem a_buf]. rewrite zlen_rep, zlen_cons. splits; try lia.
  intros i I. replace (a_size a - 1) with (zlen l) by lia. destruct (Z.eq_dec i (zlen l)) as [->|N].
  - rewrite upd_same. apply rep_top.
  - rewrite upd_other by exact N. rewrite <- (B i) by (rewrite zlen_rep, zlen_cons; lia).
    rewrite !rep_cons. rewrite !znth_app1 by (rewrite zlen_rep; lia). reflexivity.
Qed.

Lemma pop_ok : forall a x l, srepr a (x :: l) -> exists a', stack_pop a = Ok (a', x) /\ srepr a' l.
Proof.
  intros a x l R. pose proof R as (S & (C & M) & B). rewrite zlen_rep, zlen_cons in S.
  pose proof (zlen_nonneg _ l) as NN. unfold stack_pop, in_buf.
  replace (0 <? a_size a) with true by (symmetry; apply Z.ltb_lt; lia).
  replace ((0 <=? a_size a - 1) && (a_size a - 1 <? a_mem a)) with true
    by (symmetry; rewrite !andb_true_iff, !Z.leb_le, !Z.ltb_lt; lia).
  replace (a_size a - 1) with (zlen l) by lia.
  pose proof (B (zlen l) ltac:(rewrite zlen_rep, zlen_cons; lia)) as T. rewrite rep_top in T. injection T as T. rewrite <- T.
  cbn [rd bind]. eexists. split; [reflexivity|].
  unfold srepr, repr. cbn [a_size a_cap a_mem a_buf]. rewrite zlen_rep. splits; try lia.
  intros i I. rewrite upd_other by lia. rewrite <- (B i) by (rewrite zlen_rep, zlen_cons; lia).
  rewrite rep_cons, znth_app1 by (rewrite zlen_rep; lia). reflexivity.
Qed.

Lemma destroy_slots_ok : forall n a, Z.of_nat n <= a_mem a -> (forall i, 0 <= i < Z.of_nat n -> a_buf a i <> None) ->
  exists a', destroy_slots n a = Ok a' /\ a_cap a' = a_cap a /\ a_mem a' = a_mem a.
Proof.
  induction n as [|n IH]; intros a L H; [exists a; auto|]. cbn [destroy_slots]. unfold in_buf.
  replace ((0 <=? Z.of_nat n) && (Z.of_nat n <? a_mem a)) with true
    by (symmetry; rewrite !andb_true_iff, !Z.leb_le, !Z.ltb_lt; lia).
  destruct (a_buf a (Z.of_nat n)) eqn:E; [|exfalso; apply (H (Z.of_nat n)); [lia|exact E]]. cbn [rd bind].
  match goal with |- context [destroy_slots n ?b] => destruct (IH b) as (a' & E' & C & M) end.
  - simpl. lia.
  - intros i I. simpl. rewrite upd_other by lia. apply H. lia.
  - exists a'. auto.
Qed.

Lemma clear_ok : forall a l, srepr a l -> exists a', stack_clear a = Ok a' /\ srepr a' [].
Proof.
  intros a l R. pose proof R as (S & (C & M) & B). rewrite zlen_rep in S. pose proof (zlen_nonneg _ l) as NN. unfold stack_clear.
  destruct (destroy_slots_ok (Z.to_nat (a_size a)) a) as (a' & E & C' & M'); [lia| |].
  - intros i I J. pose proof (B i ltac:(rewrite zlen_rep; lia)) as T. rewrite J in T.
    unfold znth in T. destruct (i <? 0); [discriminate|]. apply nth_error_In in T. apply in_map_iff in T as (z & Z0 & _). discriminate.
  - rewrite E. cbn [bind]. eexists. split; [reflexivity|].
    unfold srepr, repr. cbn [a_size a_cap a_mem a_buf]. rewrite zlen_rep, zlen_nil. splits; try lia.
Qed.

Definition stores (s : nat -> arr A) (t : nat -> list A) : Prop := forall k, srepr (s k) (t k).
Lemma stores_put : forall s t k a l, stores s t -> srepr a l -> stores (put s k a) (put t k l).
Proof. intros s t k a l H R i. unfold put. destruct (Nat.eqb i k); auto. Qed.

Definition agree_res (r : res ((nat -> arr A) * stout A)) (q : res ((nat -> list A) * stout A)) : Prop :=
  match q with
  | Ok (t, o) => exists s, r = Ok (s, o) /\ stores s t
  | Ub => r = Ub
  | Fuel => False
  end.

Lemma stack_step_ok : forall (o : stop A) s t, room o s -> stores s t -> agree_res (stack_step o s) (spec_step o t).
Proof.
  intros o s t F H. destruct o; simpl in *.
  - destruct (new_ok c) as (a & E & R). rewrite E. cbn [bind]. eexists. split; [reflexivity|]. apply stores_put; auto.
  - destruct (copy_ok (s k') (t k') (H k')) as (a & E & R). rewrite E. cbn [bind]. eexists. split; [reflexivity|]. apply stores_put; auto.
  - destruct (stack_push_ok x (s k) (t k) (H k)) as (a & E & R). rewrite E. cbn [bind]. eexists. split; [reflexivity|]. apply stores_put; auto.
  - pose proof (H k) as R. unfold stack_push_top. destruct (t k) as [|x l] eqn:T; simpl.
    + destruct (stack_top_empty _ R) as (E & _ & _). rewrite E. reflexivity.
    + rewrite (stack_top_ok _ _ _ R). cbn [bind]. destruct (Z.eqb_spec (a_size (s k)) (a_cap (s k))); [lia|].
      destruct (stack_push_ok x (s k) _ R) as (a & E & R'). rewrite E. cbn [bind]. eexists. split; [reflexivity|]. apply stores_put; auto.
  - pose proof (H k) as R. destruct (t k) as [|x l]; simpl.
    + destruct (stack_top_empty _ R) as (_ & E & _). rewrite E. reflexivity.
    + destruct (pop_ok _ _ _ R) as (a & E & R'). rewrite E. cbn [bind fst snd]. eexists. split; [reflexivity|]. apply stores_put; auto.
  - pose proof (H k) as R. destruct (t k) as [|x l] eqn:T; simpl.
    + destruct (stack_top_empty _ R) as (E & _ & _). rewrite E. reflexivity.
    + rewrite (stack_top_ok _ _ _ R). cbn [bind]. exists s. auto.
  - pose proof (H k) as R. destruct (t k) as [|y l]; simpl.
    + destruct (stack_top_empty _ R) as (_ & _ & E). rewrite E. reflexivity.
    + destruct (set_top_ok _ _ x _ R) as (a & E & R'). rewrite E. cbn [bind]. eexists. split; [reflexivity|]. apply stores_put; auto.
  - destruct (clear_ok (s k) (t k) (H k)) as (a & E & R). rewrite E. cbn [bind]. eexists. split; [reflexivity|]. apply stores_put; auto.
  - exists s. rewrite (srepr_size _ _ (H k)). auto.
Qed.

Lemma stack_run_ok : forall (os : list (stop A)) s t, roomy os s -> stores s t ->
  match spec_run os t with
  | Ok (t', outs) => exists s', stack_run os s = Ok (s', outs)
  | Ub => stack_run os s = Ub
  | Fuel => False
  end.
Proof.
  induction os as [|o os IH]; intros s t F H; [exists s; reflexivity|].
  destruct F as [F1 F2]. cbn [spec_run stack_run]. pose proof (stack_step_ok o s t F1 H) as G.
  destruct (spec_step o t) as [[t1 o1]| |]; simpl in G; [|rewrite G; reflexivity|contradiction].
  destruct G as (s1 & E & H1). rewrite E. cbn [bind fst snd]. specialize (IH s1 t1 (F2 _ E) H1).
  destruct (spec_run os t1) as [[t2 outs]| |]; cbn [bind fst snd]; [|rewrite IH; reflexivity|contradiction].
  destruct IH as (s2 & E2). rewrite E2. cbn [bind fst snd]. exists s2. reflexivity.
Qed.

(** A check of histories, for the examples. *)
Fixpoint roomyb (os : list (stop A)) (s : nat -> arr A) : bool :=
  match os with
  | [] => true
  | o :: os' =>
      (match o with StPushTop k => a_size (s k) <? a_cap (s k) | _ => true end) &&
      (match stack_step o s with Ok r => roomyb os' (fst r) | _ => true end)
  end.
Lemma roomyb_sound : forall os s, roomyb os s = true -> roomy os s.
Proof.
  induction os as [|o os IH]; intros s H; [exact I|]. cbn [roomyb roomy] in *. apply andb_true_iff in H as [H1 H2].
  split; [destruct o; simpl in *; auto; apply Z.ltb_lt; exact H1|]. intros r E. rewrite E in H2. apply IH. exact H2.
Qed.

Lemma stores_empty : stores stacks_empty (fun _ => []).
Proof. intros k. apply srepr_empty. Qed.
End Stacks.
