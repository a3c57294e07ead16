(** Array refines the sequence specification. *)
From Verif Require Import Base Float24 ArrayModel ArraySpec.
Open Scope Z_scope.

Definition repr {A} (a : arr A) (l : sseq A) : Prop :=
  a_size a = zlen l /\ (a_size a <= a_cap a /\ a_mem a = a_cap a) /\
  forall i, 0 <= i < zlen l -> znth l i = Some (a_buf a i).

Definition Repr {A} (s : astore A) (t : sstore A) : Prop := forall k, repr (s k) (t k).

Section Proofs.
Context {A : Type}.
Variable eqb : A -> A -> bool.
Implicit Types a b : arr A.
Implicit Types l : sseq A.

Lemma repr_empty : repr (@arr_empty A) [].
Proof. repeat split; simpl; try lia. intros i H; rewrite zlen_nil in H; lia. Qed.

Lemma copy_slots_spec : forall n (src : Z -> option A) scap s dst dcap d,
  0 <= s -> 0 <= d -> s + Z.of_nat n <= scap -> d + Z.of_nat n <= dcap ->
  exists nb, copy_slots n src scap s dst dcap d = Ok nb /\
    (forall i, 0 <= i < Z.of_nat n -> nb (d + i) = src (s + i)) /\
    (forall j, j < d \/ d + Z.of_nat n <= j -> nb j = dst j).
Proof.
  induction n as [|n IH]; intros src scap s dst dcap d Hs Hd H1 H2.
  - exists dst; cbn [copy_slots]; repeat split; intros; try reflexivity; lia.
  - cbn [copy_slots].
    replace ((0 <=? s) && (s <? scap) && (0 <=? d) && (d <? dcap)) with true
      by (symmetry; rewrite !andb_true_iff, !Z.leb_le, !Z.ltb_lt; lia).
    destruct (IH src scap (s + 1) (upd dst d (src s)) dcap (d + 1)) as (nb & E & Hin & Hout);
      try lia.
    exists nb; split; [exact E|]; split.
    + intros i Hi.
      destruct (Z.eq_dec i 0) as [->|Hn].
      * rewrite Hout by lia. replace (d + 0) with d by lia. rewrite upd_same.
        f_equal; lia.
      * replace (d + i) with (d + 1 + (i - 1)) by lia.
        rewrite Hin by lia. f_equal; lia.
    + intros j Hj. rewrite Hout by lia. apply upd_other; lia.
Qed.

Lemma reserve_spec : forall c a l,
  repr a l -> (a_cap a < c -> a_size a <= round_cap c) ->
  exists a', arr_reserve c a = Ok a' /\ repr a' l /\
             a_cap a' = (if c <=? a_cap a then a_cap a else round_cap c).
Proof.
  intros c a l (Hs & Hc & Hb) HR; unfold arr_reserve.
  destruct (Z.leb_spec c (a_cap a)) as [L|L].
  - exists a; repeat split; auto; try lia.
  - pose proof (zlen_nonneg _ l).
    destruct (copy_slots_spec (Z.to_nat (a_size a)) (a_buf a) (a_mem a) 0
                (fun _ => None) (round_cap c) 0) as (nb & E & Hin & _); try lia.
    rewrite E; cbn [bind].
    eexists; split; [reflexivity|]; split; [|reflexivity].
    repeat split; cbn [a_size a_cap a_mem a_buf]; auto.
    intros i Hi; rewrite (Hb i Hi); f_equal.
    specialize (Hin i ltac:(lia)). simpl in Hin. symmetry; exact Hin.
Qed.

Lemma push_spec : forall v a l,
  repr a l -> a_size a < a_cap a ->
  exists a', arr_push v a = Ok a' /\ repr a' (l ++ [v]) /\ a_cap a' = a_cap a.
Proof.
  intros v a l (Hs & Hc & Hb) L; unfold arr_push, arr_construct, in_buf.
  pose proof (zlen_nonneg _ l).
  replace ((0 <=? a_size a) && (a_size a <? a_mem a)) with true
    by (symmetry; rewrite andb_true_iff, Z.leb_le, Z.ltb_lt; lia).
  cbn [bind a_buf a_size a_cap a_mem].
  eexists; split; [reflexivity|]; split; [|reflexivity].
  unfold repr; splits; cbn [a_buf a_size a_cap a_mem]; [| |lia|].

  - rewrite zlen_app, zlen_cons, zlen_nil; lia.
  - lia.
  - intros i Hi; rewrite zlen_app, zlen_cons, zlen_nil in Hi.
    destruct (Z.eq_dec i (zlen l)) as [->|Hn].
    + rewrite znth_app2 by lia. rewrite Z.sub_diag, znth_cons0.
      rewrite <- Hs, upd_same; reflexivity.
    + rewrite znth_app1 by lia. rewrite upd_other by lia. apply Hb; lia.
Qed.

Lemma grow_spec : forall a l,
  repr a l -> exists a', arr_grow a = Ok a' /\ repr a' l /\ a_size a' < a_cap a'.
Proof.
  intros a l R; pose proof R as (Hs & Hc & Hb); unfold arr_grow.
  pose proof (zlen_nonneg _ l).
  destruct (Z.eqb_spec (a_size a) (a_cap a)) as [E|E].
  - destruct (Z.eqb_spec (a_cap a) 0) as [Z0|Z0].
    + destruct (reserve_spec GLOBAL_ALIGNMENT a l R) as (a' & E1 & R1 & C1).
      { intros _; unfold GLOBAL_ALIGNMENT; rewrite round_cap_16; lia. }
      exists a'; split; [exact E1|]; split; [exact R1|].
      rewrite C1, Z0; unfold GLOBAL_ALIGNMENT.
      change (16 <=? 0) with false; cbn iota. rewrite round_cap_16.
      destruct R1 as (Hs1 & _ & _); lia.
    + pose proof (round_cap_double (a_cap a) ltac:(lia)) as D.
      replace (2 * a_cap a) with (a_cap a * 2) in D by lia.
      destruct (reserve_spec (a_cap a * 2) a l R) as (a' & E1 & R1 & C1).
      { intros _; lia. }
      exists a'; split; [exact E1|]; split; [exact R1|].
      rewrite C1.
      destruct (Z.leb_spec (a_cap a * 2) (a_cap a)) as [L|L]; [lia|].
      destruct R1 as (Hs1 & _ & _); lia.
  - exists a; repeat split; auto; try lia.
Qed.

Lemma add_spec : forall x a l,
  repr a l -> exists a', arr_add x a = Ok a' /\ repr a' (l ++ [Some x]).
Proof.
  intros x a l R; unfold arr_add.
  destruct (grow_spec a l R) as (a1 & E1 & R1 & L1).
  rewrite E1; cbn [bind].
  destruct (push_spec (Some x) a1 l R1 L1) as (a2 & E2 & R2 & _).
  exists a2; split; assumption.
Qed.

Lemma znth_repeat : forall (B : Type) (v : B) n i,
  0 <= i < Z.of_nat n -> znth (repeat v n) i = Some v.
Proof.
  intros B v n i H; unfold znth.
  destruct (Z.ltb_spec i 0); [lia|].
  rewrite nth_error_repeat; [reflexivity|lia].
Qed.

Lemma zlen_repeat : forall (B : Type) (v : B) n, zlen (repeat v n) = Z.of_nat n.
Proof. intros; unfold zlen; rewrite repeat_length; reflexivity. Qed.

Lemma add_without_init_spec : forall n a l,
  repr a l -> 0 <= n <= MAX_BULK ->
  exists a', arr_add_without_init n a = Ok a' /\ repr a' (l ++ repeat None (Z.to_nat n)).
Proof.
  intros n a l R Hn; pose proof R as (Hs & Hc & Hb); unfold arr_add_without_init.
  pose proof (zlen_nonneg _ l).
  assert (exists a1,
    (if a_cap a <? a_size a + n
     then arr_reserve (if a_cap a =? 0 then n else (a_cap a + n) * 2) a
     else Ok a) = Ok a1 /\ repr a1 l /\ a_size a1 + n <= a_cap a1) as (a1 & E1 & R1 & L1).
  { destruct (Z.ltb_spec (a_cap a) (a_size a + n)) as [L|L].
    - destruct (Z.eqb_spec (a_cap a) 0) as [Z0|Z0].
      + pose proof (round_cap_ge_small n Hn) as RC.
        destruct (reserve_spec n a l R) as (a1 & E1 & R1 & C1); [lia|].
        exists a1; split; [exact E1|]; split; [exact R1|].
        rewrite C1. destruct (Z.leb_spec n (a_cap a)); [lia|].
        destruct R1 as (Hs1 & _ & _); lia.
      + pose proof (round_cap_ge_rel ((a_cap a + n) * 2) ltac:(lia)) as RC.
        change (2 ^ 24) with 16777216 in RC.
        destruct (reserve_spec ((a_cap a + n) * 2) a l R) as (a1 & E1 & R1 & C1); [lia|].
        exists a1; split; [exact E1|]; split; [exact R1|].
        rewrite C1. destruct (Z.leb_spec ((a_cap a + n) * 2) (a_cap a)); [lia|].
        destruct R1 as (Hs1 & _ & _); lia.
    - exists a; repeat split; auto; try lia. }
  rewrite E1; cbn [bind].
  destruct (Z.leb_spec (a_size a1 + n) (a_mem a1)) as [L2|L2]; [|destruct R1 as (? & ? & ?); lia].
  eexists; split; [reflexivity|].
  destruct R1 as (Hs1 & Hc1 & Hb1).
  unfold repr; splits; cbn [a_buf a_size a_cap a_mem]; [| |lia|].
  - rewrite zlen_app, zlen_repeat; lia.
  - lia.
  - intros i Hi; rewrite zlen_app, zlen_repeat in Hi.
    destruct (Z.leb_spec (a_size a1) i) as [L3|L3]; cbn [andb].
    + destruct (Z.ltb_spec i (a_size a1 + n)) as [L4|L4]; [|lia].
      rewrite znth_app2 by lia. apply znth_repeat; lia.
    + rewrite znth_app1 by lia. apply Hb1; lia.
Qed.

Lemma get_spec : forall i a l x,
  repr a l -> s_get i l = Ok x -> arr_get i a = Ok x.
Proof.
  intros i a l x (Hs & Hc & Hb) H; unfold s_get in H; unfold arr_get, in_buf.
  destruct (znth l i) as [[y|]|] eqn:E; try discriminate.
  pose proof (znth_bounds _ _ _ _ E) as B.
  replace ((0 <=? i) && (i <? a_size a) && ((0 <=? i) && (i <? a_mem a))) with true
    by (symmetry; rewrite !andb_true_iff, !Z.leb_le, !Z.ltb_lt; lia).
  rewrite (Hb i B) in E. inversion E as [E1]; rewrite E1. simpl; exact H.
Qed.

Lemma find_loop_spec : forall l2 x a l1 r,
  repr a (l1 ++ l2) -> s_find eqb x l2 = Ok r ->
  arr_find_loop eqb (length l2) (zlen l1) x a = Ok (zlen l1 + r) /\ 0 <= r <= zlen l2.
Proof.
  induction l2 as [|[y|] l2 IH]; intros x a l1 r R H; cbn [s_find] in H.
  - inversion H; subst r; cbn [length arr_find_loop]; split; [f_equal; lia|rewrite zlen_nil; lia].
  - cbn [length arr_find_loop].
    pose proof R as (Hs & Hc & Hb).
    rewrite zlen_app, zlen_cons in *.
    pose proof (zlen_nonneg _ l1). pose proof (zlen_nonneg _ l2).
    unfold in_buf.
    replace ((0 <=? zlen l1) && (zlen l1 <? a_mem a)) with true
      by (symmetry; rewrite andb_true_iff, Z.leb_le, Z.ltb_lt; lia).
    assert (E : Some y = a_buf a (zlen l1)).
    { specialize (Hb (zlen l1) ltac:(lia)).
      rewrite znth_app2 in Hb by lia. rewrite Z.sub_diag, znth_cons0 in Hb.
      congruence. }
    rewrite <- E; cbn [rd bind].
    destruct (eqb x y).
    + inversion H; subst r; split; [f_equal; lia|lia].
    + destruct (s_find eqb x l2) as [r2| |] eqn:F; simpl in H; try discriminate.
      inversion H; subst r.
      replace (l1 ++ Some y :: l2) with ((l1 ++ [Some y]) ++ l2) in R
        by (rewrite <- app_assoc; reflexivity).
      destruct (IH x a (l1 ++ [Some y]) r2 R F) as [E2 B2].
      rewrite zlen_app, zlen_cons, zlen_nil in E2.
      split; [|lia].
      replace (zlen l1 + (0 + 1)) with (zlen l1 + 1) in E2 by lia.
      rewrite E2; f_equal; lia.
  - discriminate.
Qed.

Lemma find_spec : forall x a l r,
  repr a l -> s_find eqb x l = Ok r -> arr_find eqb x a = Ok r /\ 0 <= r <= zlen l.
Proof.
  intros x a l r R H; unfold arr_find.
  pose proof R as (Hs & _ & _).
  destruct (find_loop_spec l x a [] r R H) as [E B].
  rewrite Hs; unfold zlen at 1; rewrite Nat2Z.id.
  rewrite zlen_nil in E; split; [exact E|exact B].
Qed.

Lemma zlen_firstn : forall (B : Type) (m : list B) i,
  0 <= i <= zlen m -> zlen (firstn (Z.to_nat i) m) = i.
Proof. intros B m i H; unfold zlen in *; rewrite firstn_length; lia. Qed.

Lemma zlen_skipn : forall (B : Type) (m : list B) i,
  0 <= i <= zlen m -> zlen (skipn (Z.to_nat i) m) = zlen m - i.
Proof. intros B m i H; unfold zlen in *; rewrite skipn_length; lia. Qed.

Lemma nth_error_firstn_lt : forall (B : Type) (m : list B) n i,
  (i < n)%nat -> nth_error (firstn n m) i = nth_error m i.
Proof.
  induction m as [|x m IH]; intros [|n] [|i] H; simpl; try reflexivity; try lia.
  apply IH; lia.
Qed.

Lemma nth_error_skipn_add : forall (B : Type) n (m : list B) i,
  nth_error (skipn n m) i = nth_error m (n + i).
Proof.
  induction n as [|n IH]; intros [|x m] i; simpl; try reflexivity.
  - destruct i; reflexivity.
  - apply IH.
Qed.

Lemma znth_firstn : forall (B : Type) (m : list B) n i,
  0 <= i < n -> znth (firstn (Z.to_nat n) m) i = znth m i.
Proof.
  intros B m n i H; unfold znth; destruct (Z.ltb_spec i 0); [lia|].
  apply nth_error_firstn_lt; lia.
Qed.

Lemma znth_skipn : forall (B : Type) (m : list B) n i,
  0 <= n -> 0 <= i -> znth (skipn (Z.to_nat n) m) i = znth m (n + i).
Proof.
  intros B m n i H H0; unfold znth; destruct (Z.ltb_spec i 0); [lia|].
  destruct (Z.ltb_spec (n + i) 0); [lia|].
  rewrite nth_error_skipn_add; f_equal; lia.
Qed.

Lemma remove_at_spec : forall i a l,
  repr a l -> 0 <= i < zlen l ->
  exists a', arr_remove_at i a = Ok (a', i) /\ repr a' (s_delete i l).
Proof.
  intros i a l (Hs & Hc & Hb) Hi; unfold arr_remove_at.
  replace ((0 <=? i) && (i <? a_size a) && (a_size a <=? a_mem a)) with true
    by (symmetry; rewrite !andb_true_iff, !Z.leb_le, !Z.ltb_lt; lia).
  eexists; split; [reflexivity|].
  assert (HL : zlen (s_delete i l) = zlen l - 1).
  { unfold s_delete; rewrite zlen_app, zlen_firstn by lia.
    replace (S (Z.to_nat i)) with (Z.to_nat (i + 1)) by lia.
    rewrite zlen_skipn by lia; lia. }
  unfold repr; splits; cbn [a_buf a_size a_cap a_mem]; [| |lia|].
  - lia.
  - lia.
  - intros j Hj; rewrite HL in Hj; unfold s_delete.
    replace (S (Z.to_nat i)) with (Z.to_nat (i + 1)) by lia.
    destruct (Z.leb_spec i j) as [L|L]; cbn [andb].
    + destruct (Z.ltb_spec j (a_size a - 1)) as [L2|L2]; [|lia].
      rewrite znth_app2 by (rewrite zlen_firstn by lia; lia).
      rewrite zlen_firstn by lia.
      rewrite znth_skipn by lia.
      replace (i + 1 + (j - i)) with (j + 1) by lia. apply Hb; lia.
    + rewrite znth_app1 by (rewrite zlen_firstn by lia; lia).
      rewrite znth_firstn by lia.
      destruct (Z.eqb_spec j (a_size a - 1)) as [E|E]; [lia|].
      apply Hb; lia.
Qed.

Lemma last_znth : forall (B : Type) (d : B) (m : list B),
  0 < zlen m -> znth m (zlen m - 1) = Some (last m d).
Proof.
  intros B d m H.
  destruct (exists_last (l:=m)) as (m' & x & E).
  { intros ->; rewrite zlen_nil in H; lia. }
  subst m. rewrite last_last, zlen_app, zlen_cons, zlen_nil.
  rewrite znth_app2 by lia.
  replace (zlen m' + (0 + 1) - 1 - zlen m') with 0 by lia. reflexivity.
Qed.

Lemma zlen_removelast : forall (B : Type) (m : list B), 0 < zlen m -> zlen (removelast m) = zlen m - 1.
Proof.
  intros B m H.
  destruct (exists_last (l:=m)) as (m' & x & E).
  { intros ->; rewrite zlen_nil in H; lia. }
  subst m. rewrite removelast_last, zlen_app, zlen_cons, zlen_nil; lia.
Qed.

Lemma znth_removelast : forall (B : Type) (m : list B) i,
  0 <= i < zlen m - 1 -> znth (removelast m) i = znth m i.
Proof.
  intros B m i H.
  destruct (exists_last (l:=m)) as (m' & x & E).
  { intros ->; rewrite zlen_nil in H; lia. }
  subst m. rewrite removelast_last.
  rewrite zlen_app, zlen_cons, zlen_nil in H.
  rewrite znth_app1 by lia; reflexivity.
Qed.

Lemma remove_last_spec : forall i a l,
  repr a l -> 0 <= i < zlen l ->
  exists a', arr_remove_last i a = Ok a' /\ repr a' (s_swap_delete i l).
Proof.
  intros i a l (Hs & Hc & Hb) Hi; unfold arr_remove_last.
  replace ((0 <=? i) && (i <? a_size a) && (a_size a <=? a_mem a)) with true
    by (symmetry; rewrite !andb_true_iff, !Z.leb_le, !Z.ltb_lt; lia).
  eexists; split; [reflexivity|].
  set (m := firstn (Z.to_nat i) l ++ last l None :: skipn (S (Z.to_nat i)) l).
  assert (Hm : zlen m = zlen l).
  { unfold m; rewrite zlen_app, zlen_cons, zlen_firstn by lia.
    replace (S (Z.to_nat i)) with (Z.to_nat (i + 1)) by lia.
    rewrite zlen_skipn by lia; lia. }
  assert (HL : zlen (s_swap_delete i l) = zlen l - 1).
  { unfold s_swap_delete; fold m; rewrite zlen_removelast by lia; lia. }
  unfold repr; splits; cbn [a_buf a_size a_cap a_mem]; [| |lia|].
  - lia.
  - lia.
  - intros j Hj; rewrite HL in Hj. unfold s_swap_delete; fold m.
    rewrite znth_removelast by lia.
    rewrite upd_other by lia.
    unfold m.
    destruct (Z.compare_spec j i) as [E|L|L].
    + subst j. rewrite znth_app2 by (rewrite zlen_firstn by lia; lia).
      rewrite zlen_firstn by lia. rewrite Z.sub_diag, znth_cons0, upd_same.
      rewrite <- (last_znth _ None l) by lia.
      rewrite Hs; apply Hb; lia.
    + rewrite znth_app1 by (rewrite zlen_firstn by lia; lia).
      rewrite znth_firstn by lia. rewrite upd_other by lia. apply Hb; lia.
    + rewrite znth_app2 by (rewrite zlen_firstn by lia; lia).
      rewrite zlen_firstn by lia. rewrite znth_consS by lia.
      replace (S (Z.to_nat i)) with (Z.to_nat (i + 1)) by lia.
      rewrite znth_skipn by lia. rewrite upd_other by lia.
      replace (i + 1 + (j - i - 1)) with j by lia. apply Hb; lia.
Qed.

Lemma set_spec : forall i x a l,
  repr a l -> 0 <= i < zlen l ->
  exists a', arr_set i x a = Ok a' /\ repr a' (s_set i x l).
Proof.
  intros i x a l (Hs & Hc & Hb) Hi; unfold arr_set, in_buf.
  replace ((0 <=? i) && (i <? a_size a) && ((0 <=? i) && (i <? a_mem a))) with true
    by (symmetry; rewrite !andb_true_iff, !Z.leb_le, !Z.ltb_lt; lia).
  eexists; split; [reflexivity|].
  assert (Hm : zlen (s_set i x l) = zlen l).
  { unfold s_set; rewrite zlen_app, zlen_cons, zlen_firstn by lia.
    replace (S (Z.to_nat i)) with (Z.to_nat (i + 1)) by lia.
    rewrite zlen_skipn by lia; lia. }
  repeat split; cbn [a_buf a_size a_cap a_mem]; try lia.
  intros j Hj; rewrite Hm in Hj. unfold s_set.
  destruct (Z.compare_spec j i) as [E|L|L].
  + subst j. rewrite znth_app2 by (rewrite zlen_firstn by lia; lia).
    rewrite zlen_firstn by lia. rewrite Z.sub_diag, znth_cons0, upd_same. reflexivity.
  + rewrite znth_app1 by (rewrite zlen_firstn by lia; lia).
    rewrite znth_firstn by lia. rewrite upd_other by lia. apply Hb; lia.
  + rewrite znth_app2 by (rewrite zlen_firstn by lia; lia).
    rewrite zlen_firstn by lia. rewrite znth_consS by lia.
    replace (S (Z.to_nat i)) with (Z.to_nat (i + 1)) by lia.
    rewrite znth_skipn by lia. rewrite upd_other by lia.
    replace (i + 1 + (j - i - 1)) with j by lia. apply Hb; lia.
Qed.

Lemma skipn_cons_nth : forall (B : Type) n (m : list B) x,
  nth_error m n = Some x -> skipn n m = x :: skipn (S n) m.
Proof.
  induction n as [|n IH]; intros [|y m] x H; simpl in H; try discriminate.
  - inversion H; reflexivity.
  - cbn [skipn]. rewrite (IH m x H). reflexivity.
Qed.

Lemma append_loop_spec : forall n i b a l lb,
  repr b lb -> repr a l -> 0 <= i -> i + Z.of_nat n = zlen lb ->
  a_size a + Z.of_nat n <= a_cap a ->
  exists a', arr_append_loop n i b a = Ok a' /\ repr a' (l ++ skipn (Z.to_nat i) lb).
Proof.
  induction n as [|n IH]; intros i b a l lb Rb Ra Hi Hn Hc.
  - exists a; split; [reflexivity|].
    rewrite skipn_all2, app_nil_r by (unfold zlen in Hn; lia). exact Ra.
  - cbn [arr_append_loop].
    pose proof Rb as (Hsb & Hcb & Hbb).
    unfold in_buf.
    replace ((0 <=? i) && (i <? a_mem b)) with true
      by (symmetry; rewrite andb_true_iff, Z.leb_le, Z.ltb_lt; lia).
    destruct (push_spec (a_buf b i) a l Ra ltac:(lia)) as (a1 & E1 & R1 & C1).
    rewrite E1; cbn [bind].
    destruct (IH (i + 1) b a1 (l ++ [a_buf b i]) lb Rb R1) as (a2 & E2 & R2); try lia.
    { destruct R1 as (S1 & _ & _). destruct Ra as (S0 & _ & _).
      rewrite zlen_app, zlen_cons, zlen_nil in S1. lia. }
    exists a2; split; [exact E2|].
    rewrite <- app_assoc in R2.
    assert (X : skipn (Z.to_nat i) lb = [a_buf b i] ++ skipn (Z.to_nat (i + 1)) lb).
    { specialize (Hbb i ltac:(lia)).
      unfold znth in Hbb. destruct (Z.ltb_spec i 0); [lia|].
      replace (Z.to_nat (i + 1)) with (S (Z.to_nat i)) by lia.
      apply skipn_cons_nth; exact Hbb. }
    rewrite X; exact R2.
Qed.

Lemma add_range_spec : forall st b a l lb,
  repr b lb -> repr a l -> 0 <= st <= zlen lb ->
  zlen l + (zlen lb - st) <= MAX_BULK ->
  exists a', arr_add_range st b a = Ok a' /\ repr a' (l ++ skipn (Z.to_nat st) lb).
Proof.
  intros st b a l lb Rb Ra Hst HM; unfold arr_add_range.
  pose proof Rb as (Hsb & Hcb & Hbb). pose proof Ra as (Hs & Hc & Hb).
  pose proof (zlen_nonneg _ l). pose proof (zlen_nonneg _ lb).
  replace ((0 <=? st) && (st <=? a_size b)) with true
    by (symmetry; rewrite andb_true_iff, !Z.leb_le; lia).
  assert (exists a1,
    (if a_cap a <? a_size a + (a_size b - st)
     then arr_reserve (a_size a + a_size b - st) a else Ok a) = Ok a1 /\ repr a1 l /\
    a_size a1 + (a_size b - st) <= a_cap a1) as (a1 & E1 & R1 & L1).
  { destruct (Z.ltb_spec (a_cap a) (a_size a + (a_size b - st))) as [L|L].
    - pose proof (round_cap_ge_small (a_size a + a_size b - st)) as RC.
      unfold MAX_BULK in HM.
      specialize (RC ltac:(lia)).
      destruct (reserve_spec (a_size a + a_size b - st) a l Ra) as (a1 & E1 & R1 & C1); [lia|].
      exists a1; split; [exact E1|]; split; [exact R1|].
      rewrite C1. destruct (Z.leb_spec (a_size a + a_size b - st) (a_cap a)); [lia|].
      destruct R1 as (Hs1 & _ & _); lia.
    - exists a; repeat split; auto; try lia. }
  rewrite E1; cbn [bind].
  apply (append_loop_spec _ st b a1 l lb Rb R1); lia.
Qed.

Lemma clear_spec : forall r a l, repr a l -> repr (arr_clear r a) [].
Proof.
  intros r a l (Hs & Hc & Hb); unfold arr_clear.
  pose proof (zlen_nonneg _ l).
  destruct (r && (0 <? a_cap a)); repeat split; simpl; try lia;
    intros i Hi; rewrite zlen_nil in Hi; lia.
Qed.

Lemma assign_spec : forall b a l lb,
  repr b lb -> repr a l -> zlen lb <= MAX_BULK ->
  exists a', arr_assign b a = Ok a' /\ repr a' lb.
Proof.
  intros b a l lb Rb Ra H; unfold arr_assign.
  pose proof (clear_spec false a l Ra) as R0.
  pose proof (zlen_nonneg _ lb).
  destruct (add_range_spec 0 b _ [] lb Rb R0) as (a' & E & R'); [lia|rewrite zlen_nil; lia|].
  exists a'; split; [exact E|]. simpl in R'. exact R'.
Qed.

Lemma copy_spec : forall b lb,
  repr b lb -> zlen lb <= MAX_BULK ->
  exists a', arr_copy b = Ok a' /\ repr a' lb.
Proof.
  intros b lb Rb H; unfold arr_copy.
  assert (exists a1, (if 0 <? a_cap b then arr_reserve (a_cap b) arr_empty else Ok arr_empty)
                     = Ok a1 /\ repr a1 []) as (a1 & E1 & R1).
  { destruct (0 <? a_cap b) eqn:EB.
    - destruct (reserve_spec (a_cap b) (@arr_empty A) [] repr_empty) as (a1 & E1 & R1 & _).
      { simpl. intros Hc.
        pose proof (round_cap_lower (a_cap b)). pose proof (rnd24_mono_le (a_cap b)). lia. }
      exists a1; auto.
    - exists arr_empty; split; [reflexivity|apply repr_empty]. }
  rewrite E1; cbn [bind].
  pose proof (zlen_nonneg _ lb).
  destruct (add_range_spec 0 b a1 [] lb Rb R1) as (a' & E & R'); [lia|rewrite zlen_nil; lia|].
  exists a'; split; [exact E|]. simpl in R'. exact R'.
Qed.

Lemma eq_loop_spec : forall m1 m2 p1 p2 a b r,
  repr a (p1 ++ m1) -> repr b (p2 ++ m2) -> zlen p1 = zlen p2 ->
  s_eq eqb m1 m2 = Ok r ->
  arr_eq_loop eqb (length m1) (zlen p1) a b = Ok r.
Proof.
  induction m1 as [|x m1 IH]; intros [|y m2] p1 p2 a b r Ra Rb HP H; cbn [s_eq] in H;
    try discriminate.
  - cbn [length arr_eq_loop]; exact H.
  - destruct x; discriminate.
  - destruct x as [x|]; [|discriminate]. destruct y as [y|]; [|discriminate].
    cbn [length arr_eq_loop]. unfold in_buf.
    pose proof Ra as (Hs & Hc & Hb). pose proof Rb as (Hsb & Hcb & Hbb).
    rewrite zlen_app, zlen_cons in *.
    pose proof (zlen_nonneg _ p1). pose proof (zlen_nonneg _ m1). pose proof (zlen_nonneg _ m2).
    replace ((0 <=? zlen p1) && (zlen p1 <? a_mem a) && ((0 <=? zlen p1) && (zlen p1 <? a_mem b)))
      with true by (symmetry; rewrite !andb_true_iff, !Z.leb_le, !Z.ltb_lt; lia).
    assert (E1 : a_buf a (zlen p1) = Some x).
    { specialize (Hb (zlen p1) ltac:(lia)). rewrite znth_app2 in Hb by lia.
      rewrite Z.sub_diag, znth_cons0 in Hb. congruence. }
    assert (E2 : a_buf b (zlen p1) = Some y).
    { specialize (Hbb (zlen p1) ltac:(lia)). rewrite znth_app2 in Hbb by lia.
      replace (zlen p1 - zlen p2) with 0 in Hbb by lia. rewrite znth_cons0 in Hbb. congruence. }
    rewrite E1, E2; cbn [rd bind].
    destruct (eqb x y); [|exact H].
    replace (p1 ++ Some x :: m1) with ((p1 ++ [Some x]) ++ m1) in Ra
      by (rewrite <- app_assoc; reflexivity).
    replace (p2 ++ Some y :: m2) with ((p2 ++ [Some y]) ++ m2) in Rb
      by (rewrite <- app_assoc; reflexivity).
    replace (zlen p1 + 1) with (zlen (p1 ++ [Some x]))
      by (rewrite zlen_app, zlen_cons, zlen_nil; lia).
    apply (IH m2 _ (p2 ++ [Some y]) a b r Ra Rb); [|exact H].
    rewrite !zlen_app, !zlen_cons, !zlen_nil; lia.
Qed.

Lemma iter_loop_spec : forall m p a r,
  repr a (p ++ m) -> s_values m = Ok r ->
  arr_iter_loop (length m) (zlen p) a = Ok r.
Proof.
  induction m as [|[x|] m IH]; intros p a r Ra H; cbn [s_values] in H.
  - cbn [length arr_iter_loop]; exact H.
  - cbn [length arr_iter_loop]. unfold in_buf.
    pose proof Ra as (Hs & Hc & Hb).
    rewrite zlen_app, zlen_cons in *.
    pose proof (zlen_nonneg _ p). pose proof (zlen_nonneg _ m).
    replace ((0 <=? zlen p) && (zlen p <? a_mem a)) with true
      by (symmetry; rewrite !andb_true_iff, !Z.leb_le, !Z.ltb_lt; lia).
    assert (E1 : a_buf a (zlen p) = Some x).
    { specialize (Hb (zlen p) ltac:(lia)). rewrite znth_app2 in Hb by lia.
      rewrite Z.sub_diag, znth_cons0 in Hb. congruence. }
    rewrite E1; cbn [rd bind].
    destruct (s_values m) as [v| |] eqn:V; simpl in H; try discriminate.
    replace (p ++ Some x :: m) with ((p ++ [Some x]) ++ m) in Ra
      by (rewrite <- app_assoc; reflexivity).
    pose proof (IH _ a v Ra eq_refl) as E.
    rewrite zlen_app, zlen_cons, zlen_nil in E.
    replace (zlen p + (0 + 1)) with (zlen p + 1) in E by lia.
    rewrite E; cbn [bind]; exact H.
  - discriminate.
Qed.

Lemma Repr_nupd : forall (s : astore A) t k a l,
  Repr s t -> repr a l -> Repr (nupd s k a) (nupd t k l).
Proof.
  intros s t k a l H R j; unfold nupd; destruct (Nat.eqb j k); [exact R|apply H].
Qed.

Lemma step_refines : forall s t o t' r,
  Repr s t -> s_step eqb t o = Ok (t', r) ->
  exists s', arr_step eqb s o = Ok (s', r) /\ Repr s' t'.
Proof.
  intros s t o t' r HR H.
  destruct o as [k x|k k' i|k n|k k' st|k i|k x|k i|k rel|k c|k k'|k k'|k|k i|k i x|k x|k k'|k];
    cbn [s_step] in H; cbn [arr_step].
  - (* add *)
    inversion H; subst; clear H.
    destruct (add_spec x (s k) (t k) (HR k)) as (a & E & R).
    rewrite E; cbn [bind]. eexists; split; [reflexivity|]. apply Repr_nupd; auto.
  - (* add elem *)
    destruct (Nat.eqb k k') eqn:EK; [discriminate|].
    destruct (s_get i (t k')) as [x| |] eqn:G; simpl in H; try discriminate.
    inversion H; subst; clear H.
    rewrite (get_spec i (s k') (t k') x (HR k') G); cbn [bind andb].
    destruct (add_spec x (s k) (t k) (HR k)) as (a & E & R).
    rewrite E; cbn [bind]. eexists; split; [reflexivity|]. apply Repr_nupd; auto.
  - (* add without init *)
    destruct ((0 <=? n) && (n <=? MAX_BULK)) eqn:B; [|discriminate].
    apply andb_true_iff in B; rewrite !Z.leb_le in B.
    inversion H; subst; clear H.
    destruct (Z.leb_spec 0 n); [|lia].
    destruct (add_without_init_spec n (s k) (t k) (HR k) B) as (a & E & R).
    rewrite E; cbn [bind]. eexists; split; [reflexivity|]. apply Repr_nupd; auto.
  - (* add range *)
    destruct (negb (Nat.eqb k k') && (0 <=? st) && (st <=? zlen (t k'))
              && (zlen (t k) + (zlen (t k') - st) <=? MAX_BULK)) eqn:B; [|discriminate].
    rewrite !andb_true_iff, negb_true_iff, !Z.leb_le in B.
    destruct B as [[[B1 B2] B3] B4].
    inversion H; subst; clear H. rewrite B1.
    destruct (add_range_spec st (s k') (s k) (t k) (t k') (HR k') (HR k)) as (a & E & R);
      [lia|lia|].
    rewrite E; cbn [bind]. eexists; split; [reflexivity|]. apply Repr_nupd; auto.
  - (* removeAt *)
    unfold s_in in H. destruct ((0 <=? i) && (i <? zlen (t k))) eqn:B; [|discriminate].
    rewrite andb_true_iff, Z.leb_le, Z.ltb_lt in B.
    inversion H; subst; clear H.
    destruct (remove_at_spec i (s k) (t k) (HR k) B) as (a & E & R).
    rewrite E; cbn [bind]. eexists; split; [reflexivity|]. apply Repr_nupd; auto.
  - (* remove value *)
    destruct (s_find eqb x (t k)) as [i| |] eqn:F; simpl in H; try discriminate.
    destruct (Z.ltb_spec i (zlen (t k))) as [L|L]; [|discriminate].
    inversion H; subst; clear H.
    destruct (find_spec x (s k) (t k) i (HR k) F) as [E1 B1].
    unfold arr_remove; rewrite E1; cbn [bind].
    destruct (remove_at_spec i (s k) (t k) (HR k) ltac:(lia)) as (a & E & R).
    rewrite E; cbn [bind]. eexists; split; [reflexivity|]. apply Repr_nupd; auto.
  - (* removeAtAndReplaceByLast *)
    unfold s_in in H. destruct ((0 <=? i) && (i <? zlen (t k))) eqn:B; [|discriminate].
    rewrite andb_true_iff, Z.leb_le, Z.ltb_lt in B.
    inversion H; subst; clear H.
    destruct (remove_last_spec i (s k) (t k) (HR k) B) as (a & E & R).
    rewrite E; cbn [bind]. eexists; split; [reflexivity|]. apply Repr_nupd; auto.
  - (* clear *)
    inversion H; subst; clear H.
    eexists; split; [reflexivity|]. apply Repr_nupd; [auto|].
    apply clear_spec with (l := t k); apply HR.
  - (* reserve *)
    destruct (Z.leb_spec c MAX_BULK) as [L|L]; [|discriminate].
    inversion H; subst; clear H.
    destruct (reserve_spec c (s k) (t' k) (HR k)) as (a & E & R & _).
    { intros Hc. destruct (HR k) as (HS & HC & _).
      pose proof (zlen_nonneg _ (t' k)).
      pose proof (round_cap_ge_small c ltac:(unfold MAX_BULK in L; lia)). lia. }
    rewrite E; cbn [bind]. eexists; split; [reflexivity|].
    intros j; unfold nupd; destruct (Nat.eqb_spec j k) as [->|NE]; [exact R|apply HR].
  - (* assign *)
    destruct (Nat.eqb k k') eqn:EK; cbn [orb] in H.
    + inversion H; subst; clear H.
      apply Nat.eqb_eq in EK; subst k'.
      eexists; split; [reflexivity|].
      intros j; unfold nupd; destruct (Nat.eqb_spec j k) as [->|NE]; apply HR.
    + destruct (Z.leb_spec (zlen (t k')) MAX_BULK) as [L|L]; [|discriminate].
      inversion H; subst; clear H.
      destruct (assign_spec (s k') (s k) (t k) (t k') (HR k') (HR k) L) as (a & E & R).
      rewrite E; cbn [bind]. eexists; split; [reflexivity|]. apply Repr_nupd; auto.
  - (* copy *)
    destruct (Nat.eqb k k') eqn:EK; cbn [negb andb] in H; [discriminate|].
    destruct (Z.leb_spec (zlen (t k')) MAX_BULK) as [L|L]; [|discriminate].
    inversion H; subst; clear H.
    destruct (copy_spec (s k') (t k') (HR k') L) as (a & E & R).
    rewrite E; cbn [bind]. eexists; split; [reflexivity|]. apply Repr_nupd; auto.
  - (* size *)
    inversion H; subst; clear H.
    destruct (HR k) as (HS & _ & _). rewrite HS.
    eexists; split; [reflexivity|]; assumption.
  - (* get *)
    destruct (s_get i (t k)) as [x| |] eqn:G; simpl in H; try discriminate.
    inversion H; subst; clear H.
    rewrite (get_spec i (s k) (t' k) x (HR k) G); cbn [bind].
    eexists; split; [reflexivity|]; assumption.
  - (* set *)
    unfold s_in in H. destruct ((0 <=? i) && (i <? zlen (t k))) eqn:B; [|discriminate].
    rewrite andb_true_iff, Z.leb_le, Z.ltb_lt in B.
    inversion H; subst; clear H.
    destruct (set_spec i x (s k) (t k) (HR k) B) as (a & E & R).
    rewrite E; cbn [bind]. eexists; split; [reflexivity|]. apply Repr_nupd; auto.
  - (* find *)
    destruct (s_find eqb x (t k)) as [i| |] eqn:F; simpl in H; try discriminate.
    inversion H; subst; clear H.
    destruct (find_spec x (s k) (t' k) i (HR k) F) as [E1 B1].
    rewrite E1; cbn [bind]. eexists; split; [reflexivity|]; assumption.
  - (* eq *)
    unfold arr_eq.
    destruct (HR k) as (HS & HC & HB) eqn:DR. destruct (HR k') as (HS' & HC' & HB').
    rewrite HS, HS'.
    destruct (Z.eqb_spec (zlen (t k)) (zlen (t k'))) as [EL|EL].
    + destruct (s_eq eqb (t k) (t k')) as [b| |] eqn:F; simpl in H; try discriminate.
      inversion H; subst; clear H.
      unfold zlen at 1; rewrite Nat2Z.id.
      pose proof (eq_loop_spec (t' k) (t' k') [] [] (s k) (s k') b (HR k) (HR k') eq_refl F) as E.
      rewrite zlen_nil in E. rewrite E; cbn [bind].
      eexists; split; [reflexivity|]; assumption.
    + inversion H; subst; clear H. cbn [bind]. eexists; split; [reflexivity|]; assumption.
  - (* iterate *)
    destruct (s_values (t k)) as [v| |] eqn:F; simpl in H; try discriminate.
    inversion H; subst; clear H.
    pose proof (iter_loop_spec (t' k) [] (s k) v (HR k) F) as E.
    rewrite zlen_nil in E. unfold arr_iter.
    destruct (HR k) as (HS & _ & _). rewrite HS. unfold zlen; rewrite Nat2Z.id.
    rewrite E; cbn [bind]. eexists; split; [reflexivity|]; assumption.
Qed.

Lemma run_refines : forall os s t t' rs,
  Repr s t -> s_run eqb t os = Ok (t', rs) ->
  exists s', arr_run eqb s os = Ok (s', rs) /\ Repr s' t'.
Proof.
  induction os as [|o os IH]; intros s t t' rs HR H; cbn [s_run] in H; cbn [arr_run].
  - inversion H; subst; exists s; split; [reflexivity|exact HR].
  - destruct (s_step eqb t o) as [[t1 r]| |] eqn:E; simpl in H; try discriminate.
    destruct (s_run eqb t1 os) as [[t2 rs2]| |] eqn:E2; simpl in H; try discriminate.
    inversion H; subst; clear H.
    destruct (step_refines s t o t1 r HR E) as (s1 & F1 & R1).
    destruct (IH s1 t1 t' rs2 R1 E2) as (s2 & F2 & R2).
    rewrite F1; cbn [bind]. rewrite F2; cbn [bind].
    exists s2; split; [reflexivity|exact R2].
Qed.

Lemma Repr_init : Repr (@astore_init A) (@sstore_init A).
Proof. intros k; apply repr_empty. Qed.

(** Bulk growth just above 2^24 elements overruns the buffer. *)
Lemma reserve_no_room : forall (b : arr A) lb,
  repr b lb -> zlen lb = 2 ^ 24 + 1 -> arr_add_range 0 b arr_empty = Ub.
Proof.
  intros b lb Rb HL; unfold arr_add_range.
  pose proof Rb as (Hs & Hc & Hb). rewrite HL in Hs.
  rewrite Hs. cbn [a_size a_cap a_mem arr_empty].
  change ((0 <=? 0) && (0 <=? 2 ^ 24 + 1)) with true. cbn iota.
  change (0 <? 0 + (2 ^ 24 + 1 - 0)) with true. cbn iota.
  unfold arr_reserve. cbn [a_size a_cap a_mem arr_empty].
  change (0 + (2 ^ 24 + 1) - 0 <=? 0) with false. cbn iota.
  change (Z.to_nat 0) with 0%nat. cbn [copy_slots bind].
  change (round_cap (0 + (2 ^ 24 + 1) - 0)) with (2 ^ 24).
  (* the loop fails at element 2^24 *)
  assert (G : forall n i (a : arr A), 0 <= i <= 2 ^ 24 -> i + Z.of_nat n = 2 ^ 24 + 1 ->
      a_size a = i -> a_mem a = 2 ^ 24 -> arr_append_loop n i b a = Ub).
  { induction n as [|n IH]; intros i a Hi Hn Hsz Hcp; [lia|].
    cbn [arr_append_loop]. unfold in_buf.
    replace ((0 <=? i) && (i <? a_mem b)) with true
      by (symmetry; rewrite andb_true_iff, Z.leb_le, Z.ltb_lt; lia).
    unfold arr_push, arr_construct, in_buf. rewrite Hsz, Hcp.
    destruct (Z.leb_spec 0 i) as [L|L]; [|lia].
    destruct (Z.ltb_spec i (2 ^ 24)) as [L2|L2]; cbn [andb bind]; [|reflexivity].
    apply IH; cbn [a_size a_cap a_mem]; try lia. }
  apply G; cbn [a_size a_cap a_mem]; try lia.
Qed.

End Proofs.

(** Without [addWithoutInit] every position holds a value. *)
Definition no_uninit {A} (o : aop A) : Prop :=
  match o with AAddWithoutInit _ _ => False | _ => True end.

Definition all_init {A} (t : sstore A) : Prop := forall k, Forall (fun x => x <> None) (t k).

Lemma Forall_firstn' : forall (B : Type) (P : B -> Prop) n (l : list B),
  Forall P l -> Forall P (firstn n l).
Proof.
  intros B P n l H; revert n; induction H; intros [|n]; simpl; constructor; auto.
Qed.

Lemma Forall_skipn' : forall (B : Type) (P : B -> Prop) n (l : list B),
  Forall P l -> Forall P (skipn n l).
Proof.
  intros B P n l H; revert n; induction H; intros [|n]; simpl; try constructor; auto.
Qed.

Lemma Forall_removelast' : forall (B : Type) (P : B -> Prop) (l : list B),
  Forall P l -> Forall P (removelast l).
Proof.
  intros B P l H; induction H; simpl; [constructor|].
  destruct l; [constructor|constructor; auto].
Qed.

Lemma Forall_last' : forall (B : Type) (P : B -> Prop) (l : list B) d,
  l <> [] -> Forall P l -> P (last l d).
Proof.
  intros B P l d H F; induction F as [|x l Hx F IH]; [congruence|].
  destruct l; [exact Hx|]. apply IH; congruence.
Qed.

Lemma step_all_init : forall A (eqb : A -> A -> bool) t o t' r,
  no_uninit o -> all_init t -> s_step eqb t o = Ok (t', r) -> all_init t'.
Proof.
  intros A eqb t o t' r HN HI H.
  assert (U : forall k l, Forall (fun x => x <> None) l -> all_init (nupd t k l)).
  { intros k l F j; unfold nupd; destruct (Nat.eqb j k); [exact F|apply HI]. }
  assert (S1 : forall x : A, Forall (fun x => x <> None) [Some x]).
  { intros x; constructor; [discriminate|constructor]. }
  destruct o; cbn [s_step no_uninit] in *; try contradiction;
    repeat match type of H with
           | bind ?m _ = _ => let E := fresh "E" in destruct m eqn:E; simpl in H; try discriminate
           | (if ?b then _ else _) = _ => let E := fresh "E" in destruct b eqn:E; try discriminate
           end; inversion H; subst; clear H; try assumption; try apply U;
    try (apply Forall_app; split; [apply HI|]; auto using Forall_skipn').
  - (* removeAt *) apply Forall_app; split; [apply Forall_firstn', HI|apply Forall_skipn', HI].
  - apply Forall_app; split; [apply Forall_firstn', HI|apply Forall_skipn', HI].
  - (* swap delete *)
    apply Forall_removelast', Forall_app; split; [apply Forall_firstn', HI|].
    constructor; [|apply Forall_skipn', HI].
    apply Forall_last'; [|apply HI].
    intros EN; rewrite EN in E; unfold s_in in E; rewrite zlen_nil in E.
    rewrite andb_true_iff, Z.leb_le, Z.ltb_lt in E; lia.
  - constructor.
  - apply HI.
  - apply HI.
  - apply Forall_app; split; [apply Forall_firstn', HI|].
    constructor; [discriminate|apply Forall_skipn', HI].
Qed.

Lemma run_all_init : forall A (eqb : A -> A -> bool) os t t' rs,
  Forall no_uninit os -> all_init t -> s_run eqb t os = Ok (t', rs) -> all_init t'.
Proof.
  induction os as [|o os IH]; intros t t' rs HN HI H; cbn [s_run] in H.
  - inversion H; subst; exact HI.
  - inversion HN; subst.
    destruct (s_step eqb t o) as [[t1 r]| |] eqn:E; simpl in H; try discriminate.
    destruct (s_run eqb t1 os) as [[t2 rs2]| |] eqn:E2; simpl in H; try discriminate.
    inversion H; subst; clear H.
    eapply IH; [eassumption| |exact E2].
    eapply step_all_init; [| |exact E]; assumption.
Qed.

Lemma run_elements_initialised : forall A (eqb : A -> A -> bool) os t' rs k i,
  Forall no_uninit os -> s_run eqb sstore_init os = Ok (t', rs) ->
  (0 <= i < zlen (t' k))%Z -> exists x, s_get i (t' k) = Ok x.
Proof.
  intros A eqb os t' rs k i HN H Hi.
  assert (HI : all_init t').
  { eapply run_all_init; [exact HN| |exact H]. intros j; constructor. }
  destruct (znth_some _ _ _ Hi) as [y E]. unfold s_get; rewrite E.
  destruct y as [y|]; [eauto|].
  exfalso. specialize (HI k). rewrite Forall_forall in HI.
  apply (HI None); [|reflexivity]. eapply znth_In; exact E.
Qed.

(** Adding a reference to an element of the same, full array. *)
Lemma add_own_element_full : forall A (eqb : A -> A -> bool) (s : astore A) k i,
  a_size (s k) = a_cap (s k) -> arr_step eqb s (AAddElem k k i) = Ub \/
  (~ exists x, arr_get i (s k) = Ok x).
Proof.
  intros A eqb s k i E; cbn [arr_step].
  destruct (arr_get i (s k)) as [x| |] eqn:G.
  - left; cbn [bind]. rewrite Nat.eqb_refl, E, Z.eqb_refl; reflexivity.
  - left; reflexivity.
  - right; intros [x H]; discriminate.
Qed.
