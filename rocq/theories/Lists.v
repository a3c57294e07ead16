(** List operations used by the models of the engine layer (the specification of Array, C01), and
    facts about them. *)
From Verif Require Import Base HashSpec.
Open Scope Z_scope.

(** Write at an index. *)
Definition lset {A} (l : list A) (i : Z) (v : A) : list A := firstn (Z.to_nat i) l ++ v :: skipn (S (Z.to_nat i)) l.
(** Array.h:373-383 removeAtAndReplaceByLast. *)
Definition swap_delete {A} (l : list A) (i : Z) : res (list A) :=
  let* q := rd (znth l (zlen l - 1)) in
  let* _ := check ((0 <=? i) && (i <? zlen l)) in
  Ok (removelast (lset l i q)).
(** Array.h:339-370 remove of a value: the first occurrence; undefined when there is none. *)
Fixpoint remove_value (x : Z) (l : list Z) : res (list Z) :=
  match l with
  | [] => Ub
  | y :: l' => if y =? x then Ok l' else let* r := remove_value x l' in Ok (y :: r)
  end.

Lemma zlen_lset : forall A (l : list A) i v, 0 <= i < zlen l -> zlen (lset l i v) = zlen l.
Proof. intros A l i v H. unfold lset, zlen in *. rewrite app_length. cbn [length]. rewrite firstn_length, skipn_length. lia. Qed.
Lemma znth_lset : forall A (l : list A) i v j, 0 <= i < zlen l -> znth (lset l i v) j = if j =? i then Some v else znth l j.
Proof.
  intros A l i v j Hi. unfold lset.
  assert (L : zlen (firstn (Z.to_nat i) l) = i).
  { unfold zlen in *. rewrite firstn_length. lia. }
  destruct (Z.eqb_spec j i) as [->|N].
  - rewrite znth_app2 by lia. rewrite L, Z.sub_diag. reflexivity.
  - destruct (Z.ltb_spec j i) as [C|C].
    + destruct (Z.ltb_spec j 0); [unfold znth; destruct (Z.ltb_spec j 0); [reflexivity|lia]|].
      rewrite znth_app1 by lia. unfold znth. destruct (Z.ltb_spec j 0); [lia|].
      rewrite <- (firstn_skipn (Z.to_nat i) l) at 2. rewrite nth_error_app1; [reflexivity|].
      unfold zlen in *. rewrite firstn_length. lia.
    + rewrite znth_app2 by lia. rewrite L. rewrite znth_consS by lia.
      unfold znth. destruct (Z.ltb_spec (j - i - 1) 0); [lia|]. destruct (Z.ltb_spec j 0); [lia|].
      rewrite <- (firstn_skipn (S (Z.to_nat i)) l) at 2.
      assert (L2 : length (firstn (S (Z.to_nat i)) l) = S (Z.to_nat i)) by (unfold zlen in *; rewrite firstn_length; lia).
      rewrite nth_error_app2 by lia. rewrite L2. f_equal. lia.
Qed.

Lemma removelast_znth : forall A (l : list A) j, znth (removelast l) j = if j <? zlen l - 1 then znth l j else None.
Proof.
  intros A l j. destruct l as [|x l]; [cbn [removelast]; rewrite znth_nil; destruct (j <? _); reflexivity|].
  assert (N : x :: l <> []) by discriminate. destruct (exists_last N) as (l' & a & E). rewrite E.
  rewrite removelast_last, zlen_app, zlen_cons, zlen_nil. destruct (Z.ltb_spec j (zlen l' + (0 + 1) - 1)) as [C|C].
  - destruct (Z.ltb_spec j 0); [unfold znth; destruct (Z.ltb_spec j 0); [reflexivity|lia]|]. rewrite znth_app1 by lia. reflexivity.
  - destruct (znth l' j) eqn:Z; [|reflexivity]. apply znth_bounds in Z. lia.
Qed.
Lemma swap_delete_ok : forall A (l : list A) i, 0 <= i < zlen l -> exists l' q, swap_delete l i = Ok l' /\
  znth l (zlen l - 1) = Some q /\ zlen l' = zlen l - 1 /\
  forall j, znth l' j = if j <? zlen l - 1 then (if j =? i then Some q else znth l j) else None.
Proof.
  intros A l i H. destruct (znth_some _ l (zlen l - 1)) as (q & Q); [lia|]. exists (removelast (lset l i q)), q. unfold swap_delete. rewrite Q. cbn [rd bind].
  assert (E : (0 <=? i) && (i <? zlen l) = true) by lia. rewrite E. cbn [check bind]. split; [reflexivity|]. split; [exact eq_refl|].
  assert (ZL : zlen (lset l i q) = zlen l) by (apply zlen_lset; exact H). split.
  - assert (NE : lset l i q <> []) by (intros X; rewrite X, zlen_nil in ZL; lia). destruct (exists_last NE) as (l' & a & E2). rewrite E2 in *.
    rewrite removelast_last. rewrite zlen_app, zlen_cons, zlen_nil in ZL. lia.
  - intros j. rewrite removelast_znth, ZL. destruct (j <? zlen l - 1); [|reflexivity]. apply znth_lset. exact H.
Qed.

Lemma remove_value_ok : forall x l, In x l -> NoDup l -> exists l', remove_value x l = Ok l' /\ NoDup l' /\ forall y, In y l' <-> In y l /\ y <> x.
Proof.
  intros x. induction l as [|a l IH]; intros I N; [destruct I|]. inversion N as [|? ? NI N']; subst. cbn [remove_value].
  destruct (Z.eqb_spec a x) as [E|E].
  - subst. exists l. split; [reflexivity|]. split; [exact N'|]. intros y. cbn. split; [intros H; split; [auto|intros ->; auto]|intros ([H|H] & D); [congruence|exact H]].
  - destruct I as [I|I]; [congruence|]. destruct (IH I N') as (l' & R & N2 & S). rewrite R. cbn [bind]. exists (a :: l'). split; [reflexivity|]. split.
    + constructor; [|exact N2]. rewrite S. tauto.
    + intros y. cbn. rewrite S. split; [intros [<-|(A & B)]; auto|intros ([A|A] & B); auto].
Qed.

Lemma NoDup_znth : forall A (l : list A), (forall i j x, znth l i = Some x -> znth l j = Some x -> i = j) -> NoDup l.
Proof.
  induction l as [|a l IH]; intros H; [constructor|]. constructor.
  - intros I. apply In_znth in I. destruct I as (i & Z). pose proof (znth_bounds _ _ _ _ Z). specialize (H 0 (i + 1) a).
    rewrite znth_cons0, znth_consS in H by lia. replace (i + 1 - 1) with i in H by lia. specialize (H eq_refl Z). lia.
  - apply IH. intros i j x HA HB. pose proof (znth_bounds _ _ _ _ HA). pose proof (znth_bounds _ _ _ _ HB). specialize (H (i + 1) (j + 1) x).
    rewrite !znth_consS in H by lia. replace (i + 1 - 1) with i in H by lia. replace (j + 1 - 1) with j in H by lia. specialize (H HA HB). lia.
Qed.
Lemma znth_map : forall A B (f : A -> B) l i, znth (map f l) i = option_map f (znth l i).
Proof. intros. unfold znth. destruct (i <? 0); [reflexivity|]. apply nth_error_map. Qed.
