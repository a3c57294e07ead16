From Coq Require Import Permutation FinFun.
From Verif Require Import Base LifeModel LifeSpec.

(* ---------- slots ---------- *)
Section Packed.
Context {A : Type}.
Implicit Types l : list A.

Lemma set_nth_length : forall i (x : A) l, length (set_nth i x l) = length l.
Proof. intros i x l. revert i. induction l as [|y l IH]; intros [|i]; cbn; auto. Qed.

Lemma set_nth_eq : forall i (x : A) l, i < length l -> nth_error (set_nth i x l) i = Some x.
Proof. intros i x l. revert i. induction l as [|y l IH]; intros [|i] H; cbn in *; try lia; auto. apply IH. lia. Qed.

Lemma set_nth_neq : forall i k (x : A) l, k <> i -> nth_error (set_nth i x l) k = nth_error l k.
Proof.
  intros i k x l. revert i k. induction l as [|y l IH]; intros [|i] [|k] H; cbn; auto; try congruence.
Qed.

Lemma set_nth_same : forall i (x : A) l, nth_error l i = Some x -> set_nth i x l = l.
Proof. intros i x l. revert i. induction l as [|y l IH]; intros [|i] H; cbn in *; try congruence. f_equal. auto. Qed.

Lemma set_nth_perm : forall i (x z : A) l, nth_error l i = Some x -> Permutation (z :: l) (x :: set_nth i z l).
Proof.
  intros i x z l. revert i. induction l as [|y l IH]; intros [|i] H; cbn in *; try discriminate.
  - injection H as ->. apply perm_swap.
  - transitivity (y :: z :: l); [apply perm_swap|]. transitivity (y :: x :: set_nth i z l); [|apply perm_swap].
    apply perm_skip. auto.
Qed.

Lemma set_nth_in : forall i (x y : A) l, In y (set_nth i x l) -> y = x \/ exists k, k <> i /\ nth_error l k = Some y.
Proof.
  intros i x y l H. apply In_nth_error in H. destruct H as (k & H).
  destruct (Nat.eq_dec k i) as [->|N].
  - left. assert (i < length l). { rewrite <- (set_nth_length i x l). apply nth_error_Some. congruence. }
    rewrite set_nth_eq in H by auto. congruence.
  - right. exists k. rewrite set_nth_neq in H by auto. auto.
Qed.

Lemma set_nth_map : forall B (f : A -> B) i x l, map f (set_nth i x l) = set_nth i (f x) (map f l).
Proof. intros B f i x l. revert i. induction l as [|y l IH]; intros [|i]; cbn; auto. f_equal. auto. Qed.

Lemma last_nth : forall l (z : A), nth_error l (length l - 1) = Some z -> exists l0, l = l0 ++ [z].
Proof.
  intros l z H. destruct (exists_last (l := l)) as (l0 & z' & ->).
  - intros ->. discriminate.
  - rewrite app_length in H. cbn in H. replace (length l0 + 1 - 1) with (length l0) in H by lia.
    rewrite nth_error_app2, Nat.sub_diag in H by lia. cbn in H. injection H as <-. eauto.
Qed.

Lemma set_nth_app : forall i (z : A) l m, i < length l -> set_nth i z (l ++ m) = set_nth i z l ++ m.
Proof. intros i z l m. revert i. induction l as [|y l IH]; intros [|i] H; cbn in *; try lia; auto. f_equal. apply IH. lia. Qed.

Lemma removelast_snoc : forall l (z : A), removelast (l ++ [z]) = l.
Proof. intros. apply removelast_last. Qed.

Lemma move_last_perm : forall i l (x z : A), nth_error l i = Some x -> nth_error l (length l - 1) = Some z ->
  Permutation l (x :: removelast (set_nth i z l)) /\ length (removelast (set_nth i z l)) = length l - 1.
Proof.
  intros i l x z Hx Hz. destruct (last_nth l z Hz) as (l0 & ->).
  assert (Hi : i < length (l0 ++ [z])) by (apply nth_error_Some; congruence).
  rewrite app_length in Hi |- *. cbn [length] in *.
  destruct (Nat.eq_dec i (length l0)) as [->|N].
  - rewrite nth_error_app2, Nat.sub_diag in Hx by lia. cbn in Hx. injection Hx as <-.
    rewrite set_nth_same. 2:{ rewrite nth_error_app2, Nat.sub_diag by lia. reflexivity. }
    rewrite removelast_snoc. split; [|lia]. apply Permutation_sym, Permutation_cons_append.
  - rewrite set_nth_app by lia. rewrite removelast_snoc, set_nth_length. split; [|lia].
    rewrite nth_error_app1 in Hx by lia.
    transitivity (z :: l0); [apply Permutation_sym, Permutation_cons_append|]. apply set_nth_perm; auto.
Qed.

Lemma packed_add_perm : forall d (x : A) p, Permutation (slots (packed_add d x p)) (x :: slots p).
Proof.
  intros d x p. unfold packed_add. destruct d; cbn [slots].
  - apply Permutation_sym, Permutation_cons_append.
  - destruct (nth_error (slots p) (enabled p)) as [y|] eqn:E; cbn [slots].
    + transitivity (y :: set_nth (enabled p) x (slots p)); [apply Permutation_sym, Permutation_cons_append|].
      apply Permutation_sym, set_nth_perm; auto.
    + apply Permutation_sym, Permutation_cons_append.
Qed.

Lemma packed_add_enabled : forall d (x : A) p, enabled p <= length (slots p) ->
  enabled (packed_add d x p) <= length (slots (packed_add d x p)).
Proof.
  intros d x p H. rewrite (Permutation_length (packed_add_perm d x p)). cbn [length].
  unfold packed_add. destruct d; cbn [enabled]; [lia|]. destruct (nth_error _ _); cbn [enabled]; lia.
Qed.

Lemma packed_remove_ok : forall i (x : A) p, nth_error (slots p) i = Some x -> enabled p <= length (slots p) ->
  exists p', packed_remove i p = Ok p' /\ Permutation (slots p) (x :: slots p') /\ enabled p' <= length (slots p').
Proof.
  intros i x p Hx HE. assert (Hi : i < length (slots p)) by (apply nth_error_Some; congruence).
  unfold packed_remove, move_slot.
  destruct (nth_error (slots p) (length (slots p) - 1)) as [z|] eqn:Ez.
  2:{ apply nth_error_None in Ez. lia. }
  destruct (Nat.leb_spec (enabled p) i) as [L|L].
  - cbn [rd bind]. destruct (move_last_perm i _ x z Hx Ez) as (P & Q).
    eexists. split; [reflexivity|]. cbn [slots enabled]. split; [auto|]. rewrite Q. lia.
  - destruct (nth_error (slots p) (enabled p - 1)) as [y|] eqn:Ey.
    2:{ apply nth_error_None in Ey. lia. }
    cbn [rd bind]. set (l1 := set_nth i y (slots p)).
    assert (Y1 : nth_error l1 (enabled p - 1) = Some y).
    { unfold l1. destruct (Nat.eq_dec (enabled p - 1) i) as [E|N].
      - rewrite E. apply set_nth_eq. auto.
      - rewrite set_nth_neq by auto. auto. }
    assert (LL : length l1 = length (slots p)) by apply set_nth_length.
    destruct (nth_error l1 (length (slots p) - 1)) as [z1|] eqn:Ez1.
    2:{ apply nth_error_None in Ez1. lia. }
    cbn [rd bind]. rewrite <- LL in Ez1. destruct (move_last_perm _ l1 y z1 Y1 Ez1) as (P & Q).
    eexists. split; [reflexivity|]. cbn [slots enabled]. split; [|rewrite Q; lia].
    apply Permutation_cons_inv with (a := y).
    transitivity (x :: l1); [apply set_nth_perm; auto|].
    transitivity (x :: y :: removelast (set_nth (enabled p - 1) z1 l1)); [apply perm_skip; auto|apply perm_swap].
Qed.

Definition tr (i j k : nat) : nat := if Nat.eqb k i then j else if Nat.eqb k j then i else k.

Lemma swap_slots_ok : forall i j l, i < length l -> j < length l ->
  exists l', swap_slots i j l = Ok l' /\ Permutation l l' /\
    (forall k, k <> i -> k <> j -> nth_error l' k = nth_error l k) /\
    (nth_error l' j = nth_error l i).
Proof.
  intros i j l Hi Hj. unfold swap_slots.
  destruct (nth_error l i) as [x|] eqn:Ex. 2:{ apply nth_error_None in Ex. lia. }
  destruct (nth_error l j) as [y|] eqn:Ey. 2:{ apply nth_error_None in Ey. lia. }
  cbn [rd bind]. eexists. split; [reflexivity|]. split; [|split].
  - apply Permutation_nth_error. split; [now rewrite !set_nth_length|].
    exists (tr i j). split.
    + intros a b. unfold tr. destruct (Nat.eqb_spec a i), (Nat.eqb_spec b i), (Nat.eqb_spec a j), (Nat.eqb_spec b j); lia.
    + intros k. unfold tr. destruct (Nat.eqb_spec k i) as [->|N1].
      * destruct (Nat.eq_dec i j) as [->|N].
        -- rewrite set_nth_eq by (rewrite set_nth_length; lia). congruence.
        -- rewrite set_nth_neq, set_nth_eq by auto. congruence.
      * destruct (Nat.eqb_spec k j) as [->|N2].
        -- rewrite set_nth_eq by (rewrite set_nth_length; lia). congruence.
        -- rewrite !set_nth_neq by auto. reflexivity.
  - intros k N1 N2. rewrite !set_nth_neq by auto. reflexivity.
  - rewrite set_nth_eq by (rewrite set_nth_length; lia). congruence.
Qed.

Lemma packed_disable_ok : forall i d (p : packed A), i < length (slots p) -> enabled p <= length (slots p) ->
  exists p', packed_disable i d p = Ok p' /\ Permutation (slots p) (slots p') /\ enabled p' <= length (slots p') /\
    (d = false -> enabled p <= enabled p' /\ forall k, k < enabled p -> nth_error (slots p') k = nth_error (slots p) k).
Proof.
  intros i d p Hi HE. unfold packed_disable. destruct d; cbn [negb andb].
  - destruct (Nat.ltb_spec i (enabled p)) as [L|L].
    + destruct (swap_slots_ok i (enabled p - 1) (slots p)) as (l & E & P & F & G); try lia.
      rewrite E. cbn [bind]. eexists. split; [reflexivity|]. cbn [slots enabled]. split; [auto|].
      rewrite <- (Permutation_length P). split; [lia|discriminate].
    + eexists. split; [reflexivity|]. split; [auto|]. split; [auto|discriminate].
  - destruct (Nat.leb_spec (enabled p) i) as [L|L].
    + destruct (swap_slots_ok i (enabled p) (slots p)) as (l & E & P & F & G); try lia.
      rewrite E. cbn [bind]. eexists. split; [reflexivity|]. cbn [slots enabled]. split; [auto|].
      rewrite <- (Permutation_length P). split; [lia|]. intros _. split; [lia|]. intros k Hk. apply F; lia.
    + eexists. split; [reflexivity|]. split; [auto|]. split; [auto|]. intros _. split; [lia|auto].
Qed.
End Packed.

Lemma slot_of_in : forall A (f : A -> bool) l x, In x l -> f x = true ->
  exists i y, slot_of f l = Some i /\ nth_error l i = Some y /\ f y = true.
Proof.
  intros A f l. induction l as [|z l IH]; intros x H F; cbn in *; [contradiction|].
  destruct (f z) eqn:Fz.
  - exists 0, z. auto.
  - destruct H as [->|H]; [congruence|]. destruct (IH x H F) as (i & y & E & N & Y). exists (S i), y.
    rewrite E. auto.
Qed.

Lemma array_remove_ok : forall x l, In x l -> exists l', array_remove x l = Ok l' /\ Permutation l (x :: l').
Proof.
  intros x l. induction l as [|y l IH]; intros H; cbn in *; [contradiction|].
  destruct (Nat.eqb_spec x y) as [->|N].
  - eexists. split; [reflexivity|]. auto.
  - destruct H as [->|H]; [congruence|]. destruct (IH H) as (l' & E & P). rewrite E. cbn [bind].
    eexists. split; [reflexivity|]. transitivity (y :: x :: l'); [apply perm_skip; auto|apply perm_swap].
Qed.

(* ---------- bodies ---------- *)
Definition lk (x : body) : nat * list nat := (b_id x, b_joints x).
Definition links (w : world) : list (nat * list nat) := map lk (slots (w_bodies w)).

Lemma links_bodies : forall w, map fst (links w) = bodies w.
Proof. intros. unfold links, bodies. rewrite map_map. reflexivity. Qed.

Definition bounded (w : world) : Prop := enabled (w_bodies w) <= length (slots (w_bodies w)).

(** the slots below the enabled ones keep their bodies *)
Definition keeps (w w' : world) : Prop :=
  enabled (w_bodies w) <= enabled (w_bodies w') /\
  forall k, k < enabled (w_bodies w) -> nth_error (bodies w') k = nth_error (bodies w) k.

Lemma keeps_refl : forall w, keeps w w.
Proof. split; auto. Qed.
Lemma keeps_trans : forall a b c, keeps a b -> keeps b c -> keeps a c.
Proof. intros a b c (A & B) (C & D). split; [lia|]. intros k Hk. rewrite D, B by lia. auto. Qed.

(** nothing but the order and the states of the bodies changes *)
Record same (w w' : world) : Prop := {
  sm_links : Permutation (links w) (links w');
  sm_joints : w_joints w' = w_joints w;
  sm_array : w_array w' = w_array w;
  sm_next : w_next w' = w_next w;
  sm_gone : w_gone w' = w_gone w;
  sm_bounded : bounded w'
}.

Lemma same_refl : forall w, bounded w -> same w w.
Proof. intros. constructor; auto. Qed.
Lemma same_trans : forall a b c, same a b -> same b c -> same a c.
Proof.
  intros a b c [A1 A2 A3 A4 A5 A6] [B1 B2 B3 B4 B5 B6]. constructor; try congruence; auto. now transitivity (links b).
Qed.
Lemma same_bodies : forall w w', same w w' -> Permutation (bodies w) (bodies w').
Proof. intros w w' S. rewrite <- !links_bodies. apply Permutation_map, S. Qed.

Lemma body_at : forall b w, In b (bodies w) -> exists i x,
  body_slot b w = Ok i /\ nth_error (slots (w_bodies w)) i = Some x /\ b_id x = b /\ get_body b w = Ok x.
Proof.
  intros b w H. unfold bodies in H. apply in_map_iff in H. destruct H as (x0 & E0 & H0).
  destruct (slot_of_in _ (is_body b) _ x0 H0) as (i & x & E & N & F).
  { unfold is_body. rewrite E0. apply Nat.eqb_refl. }
  exists i, x. unfold get_body, body_slot. rewrite E. cbn [rd bind]. rewrite N. cbn [rd].
  unfold is_body in F. apply Nat.eqb_eq in F. auto.
Qed.

Lemma put_body_ok : forall b i x x' w, body_slot b w = Ok i -> nth_error (slots (w_bodies w)) i = Some x ->
  b_id x = b -> b_id x' = b -> put_body x' w = Ok (set_bodies (mk_packed (set_nth i x' (slots (w_bodies w))) (enabled (w_bodies w))) w).
Proof. intros. unfold put_body. rewrite H2, H. reflexivity. Qed.

Lemma put_ids : forall i x x' w, nth_error (slots (w_bodies w)) i = Some x -> b_id x' = b_id x ->
  bodies (set_bodies (mk_packed (set_nth i x' (slots (w_bodies w))) (enabled (w_bodies w))) w) = bodies w.
Proof.
  intros. unfold bodies. cbn [set_bodies w_bodies slots]. rewrite set_nth_map. apply set_nth_same.
  rewrite H0. now apply map_nth_error.
Qed.

Lemma put_same : forall i x x' w, bounded w -> nth_error (slots (w_bodies w)) i = Some x -> lk x' = lk x ->
  same w (set_bodies (mk_packed (set_nth i x' (slots (w_bodies w))) (enabled (w_bodies w))) w).
Proof.
  intros i x x' w B H E. constructor; auto.
  - unfold links. cbn [set_bodies w_bodies slots]. rewrite set_nth_map, E.
    rewrite set_nth_same; [reflexivity|]. now apply map_nth_error.
  - unfold bounded. cbn [set_bodies w_bodies slots enabled]. rewrite set_nth_length. exact B.
Qed.

Lemma disable_body_ok : forall b d w, In b (bodies w) -> bounded w ->
  exists w', disable_body b d w = Ok w' /\ same w w' /\ (d = false -> keeps w w').
Proof.
  intros b d w H B. destruct (body_at b w H) as (i & x & E & N & I & _).
  unfold disable_body. rewrite E. cbn [bind].
  destruct (packed_disable_ok i d (w_bodies w)) as (p & Ep & P & Q & K); auto.
  { apply nth_error_Some. congruence. }
  rewrite Ep. cbn [bind]. eexists. split; [reflexivity|]. split.
  - constructor; auto. unfold links. apply Permutation_map. exact P.
  - intros Hd. destruct (K Hd) as (K1 & K2). split; [exact K1|]. intros k Hk. unfold bodies.
    cbn [set_bodies w_bodies]. rewrite !nth_error_map. now rewrite K2.
Qed.

Lemma set_sleeping_ok : forall b v w, In b (bodies w) -> bounded w ->
  exists w', set_sleeping b v w = Ok w' /\ same w w' /\ (v = false -> keeps w w') /\
    (v = false -> all_awake w -> w' = w).
Proof.
  intros b v w H B. destruct (body_at b w H) as (i & x & E & N & I & G).
  unfold set_sleeping. rewrite G. cbn [bind].
  assert (R : exists w', Ok w = Ok w' /\ same w w' /\ (v = false -> keeps w w') /\ (v = false -> all_awake w -> w' = w)).
  { exists w. split; [auto|]. split; [now apply same_refl|]. split; [intros; apply keeps_refl|auto]. }
  destruct (Bool.eqb (b_asleep x) v) eqn:Ev; auto.
  destruct (b_static x); auto. destruct (negb (b_active x)); auto.
  rewrite (put_body_ok b i x (with_asleep v x) w E N I I). cbn [bind].
  set (w1 := set_bodies _ w).
  assert (S1 : same w w1) by (apply (put_same i x); auto).
  assert (I1 : bodies w1 = bodies w) by (apply (put_ids i x); auto).
  destruct (disable_body_ok b v w1) as (w2 & E2 & S2 & K2).
  { rewrite I1. auto. } { apply S1. }
  exists w2. split; [exact E2|]. split; [eapply same_trans; eauto|]. split.
  - intros Hv. apply keeps_trans with w1; [|auto]. split; [cbn; auto|]. intros. now rewrite I1.
  - intros -> AW. rewrite (AW x) in Ev by (eapply nth_error_In; eauto). discriminate.
Qed.

Lemma set_static_ok : forall b v w, In b (bodies w) -> bounded w ->
  exists w', set_static b v w = Ok w' /\ same w w'.
Proof.
  intros b v w H B. destruct (body_at b w H) as (i & x & E & N & I & G).
  unfold set_static. rewrite G. cbn [bind].
  destruct (Bool.eqb (b_static x) v). { exists w. split; [auto|now apply same_refl]. }
  rewrite (put_body_ok b i x (with_static v x) w E N I I). cbn [bind].
  set (w1 := set_bodies _ w).
  assert (S1 : same w w1) by (apply (put_same i x); auto).
  destruct (disable_body_ok b v w1) as (w2 & E2 & S2 & K2).
  { apply (Permutation_in _ (same_bodies _ _ S1)). auto. } { apply S1. }
  rewrite E2. cbn [bind].
  destruct (set_sleeping_ok b false w2) as (w3 & E3 & S3 & _).
  { apply (Permutation_in _ (same_bodies _ _ (same_trans _ _ _ S1 S2))). auto. } { apply S2. }
  exists w3. split; [auto|]. eapply same_trans; [exact S1|]. eapply same_trans; eauto.
Qed.

Lemma set_active_ok : forall b v w, In b (bodies w) -> bounded w ->
  exists w', set_active b v w = Ok w' /\ same w w'.
Proof.
  intros b v w H B. destruct (body_at b w H) as (i & x & E & N & I & G).
  unfold set_active. rewrite G. cbn [bind].
  destruct (Bool.eqb (b_active x) v). { exists w. split; [auto|now apply same_refl]. }
  destruct (set_sleeping_ok b (negb v) w H B) as (w1 & E1 & S1 & _). rewrite E1. cbn [bind].
  assert (H1 : In b (bodies w1)) by (apply (Permutation_in _ (same_bodies _ _ S1)); auto).
  destruct (body_at b w1 H1) as (i1 & x1 & F1 & N1 & I1 & G1). rewrite G1. cbn [bind].
  rewrite (put_body_ok b i1 x1 (with_active v x1) w1 F1 N1 I1 I1).
  eexists. split; [reflexivity|]. eapply same_trans; [exact S1|]. apply (put_same i1 x1); auto. apply S1.
Qed.

(* ---------- enabled bodies ---------- *)
Definition body_enabled (b : nat) (w : world) : Prop :=
  exists i, nth_error (bodies w) i = Some b /\ i < enabled (w_bodies w).
Definition steady (b : nat) (w : world) : Prop := body_enabled b w \/ all_awake w.
