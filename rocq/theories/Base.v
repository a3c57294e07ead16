(** Common definitions of the whole development: outcomes of C++ code, integer
    wrap-around and updatable memories.  Nothing here models a particular file. *)
From Coq Require Export List ZArith Lia Bool Arith.
Export ListNotations.

(** Outcome of a modelled C++ fragment.
    [Ok a]  : normal termination with result [a];
    [Ub]    : undefined behaviour (out-of-range access, read of a slot holding no
              object, null dereference, ...);
    [Fuel]  : the recursion fuel of the model was exhausted; every theorem excludes it. *)
Inductive res (A : Type) : Type :=
| Ok (a : A)
| Ub
| Fuel.
Arguments Ok {A} a.
Arguments Ub {A}.
Arguments Fuel {A}.

Definition bind {A B : Type} (m : res A) (k : A -> res B) : res B :=
  match m with
  | Ok a => k a
  | Ub => Ub
  | Fuel => Fuel
  end.

Notation "'let*' x := m 'in' k" := (bind m (fun x => k))
  (at level 200, x pattern, m at level 100, k at level 200, right associativity).

Definition is_ok {A} (m : res A) : Prop := exists a, m = Ok a.

(** A guard that is undefined behaviour when it fails. *)
Definition check (b : bool) : res unit := if b then Ok tt else Ub.

(** Reading an optional slot: reading a slot that holds no object is undefined. *)
Definition rd {A} (o : option A) : res A :=
  match o with Some a => Ok a | None => Ub end.

(** Memories indexed by integers. *)
Definition upd {A} (m : Z -> A) (i : Z) (v : A) : Z -> A :=
  fun j => if Z.eqb j i then v else m j.

Lemma upd_same : forall A (m : Z -> A) i v, upd m i v i = v.
Proof. intros; unfold upd; rewrite Z.eqb_refl; reflexivity. Qed.

Lemma upd_other : forall A (m : Z -> A) i j v, j <> i -> upd m i v j = m j.
Proof.
  intros A m i j v H; unfold upd.
  destruct (Z.eqb_spec j i) as [E|E]; [contradiction|reflexivity].
Qed.

(** Memories indexed by naturals (named objects). *)
Definition nupd {A} (m : nat -> A) (i : nat) (v : A) : nat -> A :=
  fun j => if Nat.eqb j i then v else m j.

Lemma nupd_same : forall A (m : nat -> A) i v, nupd m i v i = v.
Proof. intros; unfold nupd; rewrite Nat.eqb_refl; reflexivity. Qed.

Lemma nupd_other : forall A (m : nat -> A) i j v, j <> i -> nupd m i v j = m j.
Proof.
  intros A m i j v H; unfold nupd.
  destruct (Nat.eqb_spec j i) as [E|E]; [contradiction|reflexivity].
Qed.

(** Wrap-around of unsigned machine integers. *)
Definition wrap64 (x : Z) : Z := x mod 2 ^ 64.
Definition wrap32 (x : Z) : Z := x mod 2 ^ 32.

Lemma bind_ok : forall A B (m : res A) (k : A -> res B) b,
  bind m k = Ok b -> exists a, m = Ok a /\ k a = Ok b.
Proof. intros A B [a| |] k b H; simpl in H; try discriminate; eauto. Qed.

(** List helpers over [Z] indices. *)
Definition znth {A} (l : list A) (i : Z) : option A :=
  if (i <? 0)%Z then None else nth_error l (Z.to_nat i).

Definition zlen {A} (l : list A) : Z := Z.of_nat (length l).

Lemma zlen_nonneg : forall A (l : list A), (0 <= zlen l)%Z.
Proof. intros; unfold zlen; lia. Qed.

Lemma zlen_app : forall A (l1 l2 : list A), zlen (l1 ++ l2) = (zlen l1 + zlen l2)%Z.
Proof. intros; unfold zlen; rewrite app_length; lia. Qed.

Lemma zlen_nil : forall A, zlen (@nil A) = 0%Z.
Proof. reflexivity. Qed.

Lemma zlen_cons : forall A (x : A) l, zlen (x :: l) = (zlen l + 1)%Z.
Proof. intros; unfold zlen; cbn [length]; lia. Qed.

Lemma znth_app1 : forall A (l1 l2 : list A) i,
  (0 <= i < zlen l1)%Z -> znth (l1 ++ l2) i = znth l1 i.
Proof.
  intros A l1 l2 i H; unfold znth, zlen in *.
  destruct (Z.ltb_spec i 0); [lia|].
  apply nth_error_app1; lia.
Qed.

Lemma znth_app2 : forall A (l1 l2 : list A) i,
  (zlen l1 <= i)%Z -> znth (l1 ++ l2) i = znth l2 (i - zlen l1).
Proof.
  intros A l1 l2 i H; unfold znth, zlen in *.
  destruct (Z.ltb_spec i 0); [lia|].
  destruct (Z.ltb_spec (i - Z.of_nat (length l1)) 0); [lia|].
  rewrite nth_error_app2 by lia.
  f_equal; lia.
Qed.

Lemma znth_some : forall A (l : list A) i,
  (0 <= i < zlen l)%Z -> exists x, znth l i = Some x.
Proof.
  intros A l i H; unfold znth, zlen in *.
  destruct (Z.ltb_spec i 0); [lia|].
  destruct (nth_error l (Z.to_nat i)) eqn:E; [eauto|].
  apply nth_error_None in E; lia.
Qed.

Lemma znth_bounds : forall A (l : list A) i x,
  znth l i = Some x -> (0 <= i < zlen l)%Z.
Proof.
  intros A l i x H; unfold znth, zlen in *.
  destruct (Z.ltb_spec i 0); [discriminate|].
  assert (Z.to_nat i < length l)%nat by (apply nth_error_Some; congruence).
  lia.
Qed.

Lemma znth_In : forall A (l : list A) i x, znth l i = Some x -> In x l.
Proof.
  intros A l i x H; unfold znth in H.
  destruct (Z.ltb_spec i 0); [discriminate|].
  eapply nth_error_In; eauto.
Qed.

Lemma In_znth : forall A (l : list A) x, In x l -> exists i, znth l i = Some x.
Proof.
  intros A l x H; apply In_nth_error in H; destruct H as [n H].
  exists (Z.of_nat n); unfold znth.
  destruct (Z.ltb_spec (Z.of_nat n) 0); [lia|].
  rewrite Nat2Z.id; exact H.
Qed.

Lemma znth_ext : forall A (l1 l2 : list A),
  zlen l1 = zlen l2 ->
  (forall i, (0 <= i < zlen l1)%Z -> znth l1 i = znth l2 i) -> l1 = l2.
Proof.
  induction l1 as [|x l1 IH]; intros [|y l2] HL H.
  - reflexivity.
  - rewrite zlen_cons, zlen_nil in HL; pose proof (zlen_nonneg A l2); lia.
  - rewrite zlen_cons, zlen_nil in HL; pose proof (zlen_nonneg A l1); lia.
  - rewrite !zlen_cons in HL.
    pose proof (zlen_nonneg A l1).
    assert (E : Some x = Some y).
    { specialize (H 0%Z); rewrite zlen_cons in H. apply H; lia. }
    inversion E; subst y; f_equal.
    apply IH; [lia|].
    intros i Hi.
    specialize (H (i + 1)%Z); rewrite zlen_cons in H.
    specialize (H ltac:(lia)).
    unfold znth in H |- *.
    destruct (Z.ltb_spec (i + 1) 0); [lia|].
    destruct (Z.ltb_spec i 0); [lia|].
    replace (Z.to_nat (i + 1)) with (S (Z.to_nat i)) in H by lia.
    exact H.
Qed.

Lemma znth_nil : forall A i, znth (@nil A) i = None.
Proof. intros; unfold znth; destruct (i <? 0)%Z; [|destruct (Z.to_nat i)]; reflexivity. Qed.

Lemma znth_cons0 : forall A (x : A) l, znth (x :: l) 0 = Some x.
Proof. reflexivity. Qed.

Lemma znth_consS : forall A (x : A) l i, (0 < i)%Z -> znth (x :: l) i = znth l (i - 1).
Proof.
  intros A x l i H; unfold znth.
  destruct (Z.ltb_spec i 0); [lia|].
  destruct (Z.ltb_spec (i - 1) 0); [lia|].
  replace (Z.to_nat i) with (S (Z.to_nat (i - 1))) by lia.
  reflexivity.
Qed.

(** Split conjunctions only (no other single-constructor goal). *)
Ltac splits := repeat match goal with |- _ /\ _ => split end.
