(** Proofs about colliders, shapes and roles. *)
From Coq Require Import Lia.
From Verif Require Import Base LifeModel RolesModel RolesSpec.

Lemma upd_same : forall A n v (m : nat -> option A), upd n v m n = v.
Proof. intros. unfold upd. rewrite Nat.eqb_refl. reflexivity. Qed.
Lemma upd_other : forall A n v (m : nat -> option A) i, i <> n -> upd n v m i = m i.
Proof. intros. unfold upd. destruct (Nat.eqb_spec i n); congruence. Qed.

Ltac ku := unfold upd in *; repeat match goal with
  | |- context [Nat.eqb ?a ?b] => destruct (Nat.eqb_spec a b); subst
  | H : context [Nat.eqb ?a ?b] |- _ => destruct (Nat.eqb_spec a b); subst
  end.

Lemma array_remove_ok : forall c l, NoDup l -> In c l ->
  exists l', array_remove c l = Ok l' /\ NoDup l' /\ (forall n, In n l' <-> In n l /\ n <> c) /\ length l = S (length l').
Proof.
  intros c. induction l as [|d l IH]; simpl; intros N I; [contradiction|].
  inversion N; subst. destruct (Nat.eqb_spec c d).
  - subst. exists l. split; [reflexivity|]. split; [assumption|]. split; [|reflexivity].
    intros n. split; [intros In1; split; [auto|intro; subst; contradiction]|intros [[E|E] D]; [congruence|exact E]].
  - destruct I as [E|I]; [congruence|]. destruct (IH H2 I) as (l' & E & N' & S' & L).
    rewrite E. simpl. exists (d :: l'). split; [reflexivity|]. split; [|split].
    + constructor; [|exact N']. intro J. apply S' in J. tauto.
    + intros m. simpl. rewrite S'. split; [intros [J|[J K]]; [subst; split; [auto|congruence]|auto]|intros [[J|J] K]; auto].
    + simpl. lia.
Qed.

(** The parts of a scene that its structure depends on. *)
Definition cbody (k : scene) (c : nat) : option nat := option_map kc_body (k_cols k c).
Definition cshape (k : scene) (c : nat) : option nat := option_map kc_shape (k_cols k c).
Definition bworld (k : scene) (b : nat) : option nat := option_map kb_world (k_bodies k b).
Definition bcols (k : scene) (b : nat) : option (list nat) := option_map kb_colliders (k_bodies k b).

Record st (k : scene) : Prop := {
  st_body : forall b l, bcols k b = Some l -> lists l (fun c => cbody k c = Some b);
  st_shape : forall s l, k_shapes k s = Some l -> lists l (fun c => cshape k c = Some s);
  st_world : forall w l, k_worlds k w = Some l -> lists l (fun b => bworld k b = Some w);
  st_owner : forall c b, cbody k c = Some b -> bcols k b <> None;
  st_form : forall c s, cshape k c = Some s -> k_shapes k s <> None;
  st_home : forall b w, bworld k b = Some w -> k_worlds k w <> None;
  st_fresh : forall n, k_next k <= n -> k_worlds k n = None /\ bcols k n = None /\ cbody k n = None /\ k_shapes k n = None
}.

Lemma lists_ext : forall l (P Q : nat -> Prop), (forall n, P n <-> Q n) -> lists l P -> lists l Q.
Proof. intros l P Q E [N H]. split; [exact N|]. intros n. rewrite H. apply E. Qed.

Lemma st_ext : forall k k',
  (forall n, k_worlds k' n = k_worlds k n) -> (forall n, k_shapes k' n = k_shapes k n) ->
  (forall n, cbody k' n = cbody k n) -> (forall n, cshape k' n = cshape k n) ->
  (forall n, bworld k' n = bworld k n) -> (forall n, bcols k' n = bcols k n) -> k_next k <= k_next k' ->
  st k -> st k'.
Proof.
  intros k k' EW ES EB EH EO EC EN [A B C D E F G]. constructor.
  - intros b l. rewrite EC. intros X. eapply lists_ext; [|apply A; exact X]. intros n. simpl. rewrite EB. tauto.
  - intros b l. rewrite ES. intros X. eapply lists_ext; [|apply B; exact X]. intros n. simpl. rewrite EH. tauto.
  - intros b l. rewrite EW. intros X. eapply lists_ext; [|apply C; exact X]. intros n. simpl. rewrite EO. tauto.
  - intros c b. rewrite EB, EC. apply D.
  - intros c s. rewrite EH, ES. apply E.
  - intros b w. rewrite EO, EW. apply F.
  - intros n L. rewrite EW, EC, EB, ES. apply G. lia.
Qed.

(** Trees and flags. *)
Definition treed (k : scene) : Prop :=
  forall c y x, k_cols k c = Some y -> k_bodies k (kc_body y) = Some x -> kc_tree y = kb_active x.
Definition flagged (k : scene) : Prop :=
  forall c y x, k_cols k c = Some y -> k_bodies k (kc_body y) = Some x -> kc_sim y = true -> kb_sim x = true.
Record good (k : scene) : Prop := { g_st : st k; g_tree : treed k; g_role : one_role k; g_flag : flagged k }.

Lemma good_agree : forall k, good k -> agree k.
Proof.
  intros k [[A B C D E F G] T R FL]. constructor.
  - intros b x X. specialize (A b (kb_colliders x)). unfold bcols in A. rewrite X in A. specialize (A eq_refl).
    eapply lists_ext; [|exact A]. intros n. unfold cbody. simpl.
    destruct (k_cols k n) as [y|]; simpl; split; [intros J; injection J; intros; exists y; auto|intros (z & J & <-); injection J; intros; subst; reflexivity|discriminate|intros (z & J & _); discriminate].
  - intros s l X. specialize (B s l X).
    eapply lists_ext; [|exact B]. intros n. unfold cshape. simpl.
    destruct (k_cols k n) as [y|]; simpl; split; [intros J; injection J; intros; exists y; auto|intros (z & J & <-); injection J; intros; subst; reflexivity|discriminate|intros (z & J & _); discriminate].
  - intros s l X. specialize (C s l X).
    eapply lists_ext; [|exact C]. intros n. unfold bworld. simpl.
    destruct (k_bodies k n) as [y|]; simpl; split; [intros J; injection J; intros; exists y; auto|intros (z & J & <-); injection J; intros; subst; reflexivity|discriminate|intros (z & J & _); discriminate].
  - intros c y X. split.
    + specialize (D c (kc_body y)). unfold cbody, bcols in D. rewrite X in D. specialize (D eq_refl).
      intro J. rewrite J in D. apply D. reflexivity.
    + apply (E c). unfold cshape. rewrite X. reflexivity.
  - intros b x X. apply (F b). unfold bworld. rewrite X. reflexivity.
  - exact T.
Qed.

(** Writes that keep the structure. *)
Lemma put_col_st : forall k c y y', k_cols k c = Some y -> kc_body y' = kc_body y -> kc_shape y' = kc_shape y ->
  st k -> st (set_kcol c (Some y') k).
Proof.
  intros k c y y' E B S. apply st_ext; intros; try reflexivity; unfold cbody, cshape; simpl; ku; try reflexivity;
    rewrite E; simpl; congruence.
Qed.
Lemma put_body_st : forall k b x x', k_bodies k b = Some x -> kb_world x' = kb_world x -> kb_colliders x' = kb_colliders x ->
  st k -> st (set_kbody b (Some x') k).
Proof.
  intros k b x x' E B S. apply st_ext; intros; try reflexivity; unfold bworld, bcols; simpl; ku; try reflexivity;
    rewrite E; simpl; congruence.
Qed.

(** A collider has a body, and its body lists it. *)
Lemma col_body : forall k c y, st k -> k_cols k c = Some y ->
  exists x, k_bodies k (kc_body y) = Some x /\ In c (kb_colliders x).
Proof.
  intros k c y G E. destruct (k_bodies k (kc_body y)) as [x|] eqn:X.
  - exists x. split; [reflexivity|]. apply (st_body k G (kc_body y)); [unfold bcols; rewrite X; reflexivity|].
    unfold cbody. rewrite E. reflexivity.
  - exfalso. apply (st_owner k G c (kc_body y)); [unfold cbody; rewrite E; reflexivity|unfold bcols; rewrite X; reflexivity].
Qed.
Lemma body_col : forall k b x c, st k -> k_bodies k b = Some x -> In c (kb_colliders x) ->
  exists y, k_cols k c = Some y /\ kc_body y = b.
Proof.
  intros k b x c G E I. apply (st_body k G b) in I; [|unfold bcols; rewrite E; reflexivity].
  unfold cbody in I. destruct (k_cols k c) as [y|]; [|discriminate]. injection I as <-. exists y. auto.
Qed.
Lemma col_shape : forall k c y, st k -> k_cols k c = Some y ->
  exists l, k_shapes k (kc_shape y) = Some l /\ In c l.
Proof.
  intros k c y G E. destruct (k_shapes k (kc_shape y)) as [x|] eqn:X.
  - exists x. split; [reflexivity|]. apply (st_shape k G (kc_shape y)); [exact X|].
    unfold cshape. rewrite E. reflexivity.
  - exfalso. apply (st_form k G c (kc_shape y)); [unfold cshape; rewrite E; reflexivity|exact X].
Qed.

(** Creation. *)
Lemma create_world_good : forall k, good k -> exists k', create_world k = Ok k' /\ good k'.
Proof.
  intros k [[A B C D E F G] T R FL]. eexists. split; [reflexivity|].
  destruct (G (k_next k) (le_n _)) as (G1 & G2 & G3 & G4).
  constructor; [constructor|exact T|exact R|exact FL]; simpl; try assumption.
  - intros w l. ku; [|apply C]. intros X. injection X as <-. split; [constructor|]. intros b. simpl. split; [tauto|].
    intros X. apply (F b) in X. contradiction.
  - intros b w X. ku; [discriminate|]. apply (F b). exact X.
  - intros n L. destruct (G n ltac:(lia)) as (H1 & H2 & H3 & H4). split; [|auto]. ku; [lia|exact H1].
Qed.

Lemma create_shape_good : forall k, good k -> exists k', create_shape k = Ok k' /\ good k'.
Proof.
  intros k [[A B C D E F G] T R FL]. eexists. split; [reflexivity|].
  destruct (G (k_next k) (le_n _)) as (G1 & G2 & G3 & G4).
  constructor; [constructor|exact T|exact R|exact FL]; simpl; try assumption.
  - intros w l. ku; [|apply B]. intros X. injection X as <-. split; [constructor|]. intros b. simpl. split; [tauto|].
    intros X. apply (E b) in X. contradiction.
  - intros b w X. ku; [discriminate|]. apply (E b). exact X.
  - intros n L. destruct (G n ltac:(lia)) as (H1 & H2 & H3 & H4). repeat split; auto. ku; [lia|exact H4].
Qed.

Lemma nodup_snoc : forall (l : list nat) a, NoDup l -> ~ In a l -> NoDup (l ++ [a]).
Proof.
  intros l a N H. induction l as [|b l IH]; simpl; [constructor; [simpl; tauto|constructor]|].
  inversion N; subst. constructor; [|apply IH; [assumption|intro; apply H; right; assumption]].
  rewrite in_app_iff. simpl. intros [J|[J|J]]; [contradiction| |contradiction]. subst. apply H. left. reflexivity.
Qed.

Lemma create_body_good : forall w k, good k -> k_worlds k w <> None -> exists k', create_kbody w k = Ok k' /\ good k'.
Proof.
  intros w k [[A B C D E F G] T R FL] NW. unfold create_kbody.
  destruct (k_worlds k w) as [l0|] eqn:W; [|contradiction]. simpl. eexists. split; [reflexivity|].
  destruct (G (k_next k) (le_n _)) as (G1 & G2 & G3 & G4).
  assert (G5 : bworld k (k_next k) = None).
  { unfold bworld, bcols in *. destruct (k_bodies k (k_next k)); [discriminate|reflexivity]. }
  assert (NB : forall c, cbody k c <> Some (k_next k)).
  { intros c J. apply D in J. contradiction. }
  constructor; [constructor| | |].
  - intros b l. unfold bcols. simpl. ku.
    + simpl. intros X. injection X as <-. split; [constructor|]. intros c. simpl. split; [tauto|].
      intros X. apply (NB c). exact X.
    + intros X. apply A. exact X.
  - exact B.
  - intros v l. simpl. unfold bworld. simpl. intros X. unfold upd in X. destruct (Nat.eqb_spec v w).
    + subst. injection X as <-. destruct (C w l0 W) as [N0 S0]. split.
      * apply nodup_snoc; [exact N0|]. intro J. apply S0 in J. unfold bworld in G5, J. congruence.
      * intros b. rewrite in_app_iff. simpl. ku; simpl; [split; auto|]. rewrite S0. unfold bworld.
        split; [intros [J|[J|J]]; [exact J|congruence|contradiction]|auto].
    + destruct (C v l X) as [N0 S0]. split; [exact N0|]. intros b. ku; simpl.
      * rewrite S0. rewrite G5. split; [discriminate|congruence].
      * apply S0.
  - intros c b J. unfold bcols. simpl. ku; [discriminate|]. apply (D c b J).
  - exact E.
  - intros b v. unfold bworld. simpl. ku; simpl; try congruence.
    intros J. apply (F b v). exact J.
  - intros m L. simpl in *. destruct (G m ltac:(lia)) as (H1 & H2 & H3 & H4). unfold bcols. simpl. ku; try lia; auto.
    + congruence.
  - intros c y x Y X. simpl in *. ku.
    + exfalso. apply (NB c). unfold cbody. rewrite Y. simpl. congruence.
    + apply (T c y x Y X).
  - exact R.
  - intros c y x Y X S. simpl in *. ku.
    + exfalso. apply (NB c). unfold cbody. rewrite Y. simpl. congruence.
    + apply (FL c y x Y X S).
Qed.

Lemma add_good : forall b s k, good k -> k_bodies k b <> None -> k_shapes k s <> None ->
  exists k', add_collider b s k = Ok k' /\ good k'.
Proof.
  intros b s k [[A B C D E F G] T R FL] NB NS. unfold add_collider.
  destruct (k_bodies k b) as [x0|] eqn:X0; [|contradiction]. simpl.
  destruct (k_shapes k s) as [l0|] eqn:L0; [|contradiction]. simpl.
  destruct (G (k_next k) (le_n _)) as (G1 & G2 & G3 & G4).
  assert (G3' : cshape k (k_next k) = None).
  { unfold cshape, cbody in *. destruct (k_cols k (k_next k)); [discriminate|reflexivity]. }
  assert (HB : b <> k_next k).
  { intro; subst. unfold bcols in G2. rewrite X0 in G2. discriminate. }
  assert (HS : s <> k_next k) by (intro; subst; congruence).
  set (c := k_next k) in *.
  assert (Q : forall k', (forall n, k_worlds k' n = k_worlds k n) ->
    (forall n, k_shapes k' n = if Nat.eqb n s then Some (l0 ++ [c]) else k_shapes k n) ->
    (forall n, k_cols k' n = if Nat.eqb n c then Some (mk_kcol b s (kb_active x0) false false true) else k_cols k n) ->
    (forall n, k_bodies k' n = if Nat.eqb n b then Some (mk_kbody (kb_world x0) (kb_colliders x0 ++ [c]) (kb_active x0) true) else k_bodies k n) ->
    k_next k' = c + 1 -> good k').
  { intros k' HW HH HC HO HN.
    assert (W' : forall n, bworld k' n = bworld k n).
    { intros n. unfold bworld. rewrite HO. destruct (Nat.eqb_spec n b); [subst; rewrite X0; reflexivity|reflexivity]. }
    assert (CB : forall n, cbody k' n = if Nat.eqb n c then Some b else cbody k n).
    { intros n. unfold cbody. rewrite HC. destruct (Nat.eqb n c); reflexivity. }
    assert (CS : forall n, cshape k' n = if Nat.eqb n c then Some s else cshape k n).
    { intros n. unfold cshape. rewrite HC. destruct (Nat.eqb n c); reflexivity. }
    constructor; [constructor| | |].
    - intros d l. unfold bcols. rewrite HO. destruct (Nat.eqb_spec d b); simpl.
      + subst. intros J. injection J as <-. destruct (A b (kb_colliders x0)) as [N0 S0]; [unfold bcols; rewrite X0; reflexivity|].
        split; [apply nodup_snoc; [exact N0|]; intro J; apply S0 in J; congruence|].
        intros m. rewrite CB, in_app_iff. simpl. destruct (Nat.eqb_spec m c); [subst; split; auto|].
        rewrite S0. split; [intros [J|[J|J]]; [exact J|congruence|contradiction]|auto].
      + intros J. destruct (A d l) as [N0 S0]; [exact J|]. split; [exact N0|]. intros m. rewrite CB, S0.
        destruct (Nat.eqb_spec m c); [subst; split; congruence|tauto].
    - intros d l. rewrite HH. destruct (Nat.eqb_spec d s); simpl.
      + subst. intros J. injection J as <-. destruct (B s l0 L0) as [N0 S0].
        split; [apply nodup_snoc; [exact N0|]; intro J; apply S0 in J; congruence|].
        intros m. rewrite CS, in_app_iff. simpl. destruct (Nat.eqb_spec m c); [subst; split; auto|].
        rewrite S0. split; [intros [J|[J|J]]; [exact J|congruence|contradiction]|auto].
      + intros J. destruct (B d l) as [N0 S0]; [exact J|]. split; [exact N0|]. intros m. rewrite CS, S0.
        destruct (Nat.eqb_spec m c); [subst; split; congruence|tauto].
    - intros w l. rewrite HW. intros J. eapply lists_ext; [|exact (C w l J)]. intros n. simpl. rewrite W'. tauto.
    - intros d e. rewrite CB. unfold bcols. rewrite HO. destruct (Nat.eqb_spec e b); [discriminate|].
      destruct (Nat.eqb_spec d c); [congruence|]. intros J. apply (D d e J).
    - intros d e. rewrite CS, HH. destruct (Nat.eqb_spec e s); [discriminate|].
      destruct (Nat.eqb_spec d c); [congruence|]. intros J. apply (E d e J).
    - intros d w. rewrite W', HW. apply F.
    - intros n L. rewrite HN in L. destruct (G n ltac:(lia)) as (H1 & H2 & H3 & H4).
      rewrite HW, CB, HH. unfold bcols. rewrite HO.
      destruct (Nat.eqb_spec n b); [subst; unfold bcols in H2; rewrite X0 in H2; discriminate|].
      destruct (Nat.eqb_spec n c); [lia|]. destruct (Nat.eqb_spec n s); [subst; congruence|]. auto.
    - intros d y x. rewrite HC, HO. destruct (Nat.eqb_spec d c).
      + intros J. injection J as <-. simpl. rewrite Nat.eqb_refl. intros J. injection J as <-. reflexivity.
      + intros Y. destruct (Nat.eqb_spec (kc_body y) b) as [EB|]; [|apply (T d y x Y)].
        intros J. injection J as <-. simpl. apply (T d y x0 Y). rewrite EB. exact X0.
    - intros d y. rewrite HC. destruct (Nat.eqb_spec d c); [intros J; injection J as <-; reflexivity|apply R].
    - intros d y x. rewrite HC, HO. destruct (Nat.eqb_spec d c).
      + intros J. injection J as <-. simpl. rewrite Nat.eqb_refl. intros J. injection J as <-. reflexivity.
      + intros Y. destruct (Nat.eqb_spec (kc_body y) b) as [EB|]; [|apply (FL d y x Y)].
        intros J. injection J as <-. reflexivity. }
  assert (CS : (c =? s) = false) by (apply Nat.eqb_neq; congruence).
  destruct (kb_active x0) eqn:AC.
  - unfold enter_tree. simpl. rewrite upd_same. simpl. rewrite upd_same. simpl.
    eexists. split; [reflexivity|]. apply Q; intros; simpl; ku; simpl; try reflexivity; try congruence.
    all: unfold with_kbsim, with_cols; simpl; rewrite ?AC; reflexivity.
  - simpl. rewrite upd_same. simpl.
    eexists. split; [reflexivity|]. apply Q; intros; simpl; ku; simpl; try reflexivity; try congruence.
    all: unfold with_kbsim, with_cols; simpl; rewrite ?AC; reflexivity.
Qed.

(** The loop that looks for a simulation collider. *)
Lemma any_sim_ok : forall l k, (forall c, In c l -> k_cols k c <> None) ->
  exists a, any_sim l k = Ok a /\ (a = true <-> exists c y, In c l /\ k_cols k c = Some y /\ kc_sim y = true).
Proof.
  induction l as [|c l IH]; simpl; intros k H.
  - exists false. split; [reflexivity|]. split; [discriminate|]. intros (c & y & I & _). contradiction.
  - destruct (k_cols k c) as [y|] eqn:E; [|exfalso; apply (H c); auto]. simpl. destruct (kc_sim y) eqn:S.
    + exists true. split; [reflexivity|]. split; [|reflexivity]. intros _. exists c, y. auto.
    + destruct (IH k) as (a & A & B); [intros; apply H; auto|]. exists a. split; [exact A|]. rewrite B. split.
      * intros (d & z & I & Z). exists d, z. auto.
      * intros (d & z & [I|I] & Z & Q); [subst; rewrite E in Z; injection Z as <-; congruence|exists d, z; auto].
Qed.

(** The bodies of a scene may only differ in the flag. *)
Definition same_scene (k k' : scene) : Prop :=
  (forall n, k_worlds k' n = k_worlds k n) /\ (forall n, k_cols k' n = k_cols k n) /\
  (forall n, k_shapes k' n = k_shapes k n) /\ k_next k' = k_next k /\
  (forall n, option_map (with_kbsim true) (k_bodies k' n) = option_map (with_kbsim true) (k_bodies k n)) /\
  (forall n x, k_bodies k n = Some x -> exists x', k_bodies k' n = Some x' /\ (kb_sim x = true -> kb_sim x' = true)).

Lemma same_refl : forall k, same_scene k k.
Proof. intros k. repeat split; auto. intros n x E. exists x. auto. Qed.

Lemma same_body : forall k k' n x', same_scene k k' -> k_bodies k' n = Some x' ->
  exists x, k_bodies k n = Some x /\ kb_world x' = kb_world x /\ kb_colliders x' = kb_colliders x /\
    kb_active x' = kb_active x /\ (kb_sim x = true -> kb_sim x' = true).
Proof.
  intros k k' n x' (_ & _ & _ & _ & E & H) X'. specialize (E n). rewrite X' in E. simpl in E.
  destruct (k_bodies k n) as [x|] eqn:X; [|discriminate]. exists x. split; [reflexivity|].
  unfold with_kbsim in E. simpl in E. injection E as E1 E2 E3. repeat split; auto.
  destruct (H n x X) as (x2 & X2 & Q). rewrite X' in X2. injection X2 as ->. exact Q.
Qed.

Lemma same_good : forall k k', same_scene k k' -> good k -> good k'.
Proof.
  intros k k' SM [S T R FL]. pose proof SM as (EW & EC & ES & EN & EB & _).
  constructor.
  - revert S. apply st_ext; try assumption; try (rewrite EN; lia).
    + intros n. unfold cbody. rewrite EC. reflexivity.
    + intros n. unfold cshape. rewrite EC. reflexivity.
    + intros n. unfold bworld. specialize (EB n). destruct (k_bodies k' n), (k_bodies k n); try discriminate; try reflexivity.
      simpl in *. unfold with_kbsim in EB. simpl in EB. congruence.
    + intros n. unfold bcols. specialize (EB n). destruct (k_bodies k' n), (k_bodies k n); try discriminate; try reflexivity.
      simpl in *. unfold with_kbsim in EB. simpl in EB. congruence.
  - intros c y x' Y X'. rewrite EC in Y. destruct (same_body k k' _ x' SM X') as (x & X & _ & _ & A & _).
    rewrite A. apply (T c y x Y X).
  - intros c y Y. rewrite EC in Y. apply (R c y Y).
  - intros c y x' Y X' Q. rewrite EC in Y. destruct (same_body k k' _ x' SM X') as (x & X & _ & _ & _ & A).
    apply A. apply (FL c y x Y X Q).
Qed.

Lemma flag_same : forall b x k, k_bodies k b = Some x -> same_scene k (set_kbody b (Some (with_kbsim true x)) k).
Proof.
  intros b x k E. repeat split; simpl; auto.
  - intros n. ku; [rewrite E; reflexivity|reflexivity].
  - intros n z Z. ku; [exists (with_kbsim true x); split; [reflexivity|]; simpl; auto|exists z; auto].
Qed.

Lemma update_has_sim_ok : forall b k, st k -> k_bodies k b <> None ->
  exists k', update_has_sim b k = Ok k' /\ same_scene k k'.
Proof.
  intros b k G NB. unfold update_has_sim. destruct (k_bodies k b) as [x|] eqn:X; [|contradiction]. simpl.
  destruct (any_sim_ok (kb_colliders x) k) as (a & A & _).
  - intros c I. destruct (body_col k b x c G X I) as (y & Y & _). congruence.
  - rewrite A. simpl. destruct a; [|exists k; split; [reflexivity|apply same_refl]].
    eexists. split; [reflexivity|]. apply flag_same. exact X.
Qed.

(** A collider is taken away. *)
Record taken (c : nat) (k k' : scene) : Prop := {
  tk_worlds : forall n, k_worlds k' n = k_worlds k n;
  tk_cols : forall n, k_cols k' n = if Nat.eqb n c then None else k_cols k n;
  tk_bworld : forall n, bworld k' n = bworld k n;
  tk_shapes : forall n, k_shapes k' n = None <-> k_shapes k n = None;
  tk_next : k_next k' = k_next k
}.

Lemma remove_good : forall b c y k, good k -> k_cols k c = Some y -> kc_body y = b ->
  exists k', remove_collider b c k = Ok k' /\ good k' /\ taken c k k'.
Proof.
  intros b c y k GD Y EB. pose proof GD as [S T R FL]. subst b. unfold remove_collider, leave_tree. rewrite Y. simpl.
  destruct (col_body k c y S Y) as (x & X & IX). destruct (col_shape k c y S Y) as (l & L & IL).
  assert (K1 : exists k1, (if kc_tree y then Ok (set_kcol c (Some (with_tree false y)) k) else Ok k) = Ok k1 /\
     k_worlds k1 = k_worlds k /\ k_bodies k1 = k_bodies k /\ k_shapes k1 = k_shapes k /\ k_next k1 = k_next k /\
     (forall n, n <> c -> k_cols k1 n = k_cols k n) /\ exists y1, k_cols k1 c = Some y1 /\ kc_body y1 = kc_body y /\ kc_shape y1 = kc_shape y).
  { destruct (kc_tree y).
    - exists (set_kcol c (Some (with_tree false y)) k). simpl. repeat split; auto.
      + intros n N. apply upd_other. exact N.
      + exists (with_tree false y). rewrite upd_same. auto.
    - exists k. repeat split; auto. exists y. auto. }
  destruct K1 as (k1 & -> & W1 & B1 & S1 & N1 & C1 & y1 & Y1 & Y1b & Y1s). simpl.
  rewrite B1, X. simpl.
  destruct (st_body k S (kc_body y) (kb_colliders x)) as [NX SX]; [unfold bcols; rewrite X; reflexivity|].
  destruct (array_remove_ok c _ NX IX) as (l1 & -> & NL1 & SL1 & _). simpl. rewrite Y1. simpl. rewrite Y1s, S1, L. simpl.
  destruct (st_shape k S (kc_shape y) l L) as [NL SL].
  destruct (array_remove_ok c _ NL IL) as (m1 & -> & NM1 & SM1 & _). simpl. rewrite upd_same. simpl.
  set (k3 := set_kcol c None _).
  assert (TK : taken c k k3).
  { constructor; simpl; auto.
    - intros n. rewrite W1. reflexivity.
    - intros n. unfold upd. destruct (Nat.eqb_spec n c); [reflexivity|apply C1; assumption].
    - intros n. unfold bworld. simpl. rewrite B1. ku; [rewrite X; reflexivity|reflexivity].
    - intros n. rewrite S1. ku; [rewrite L; split; discriminate|tauto]. }
  assert (G3 : good k3).
  { destruct S as [A B C D E F G].
    assert (CB : forall n, cbody k3 n = if Nat.eqb n c then None else cbody k n).
    { intros n. unfold cbody. rewrite (tk_cols c k k3 TK). destruct (Nat.eqb n c); reflexivity. }
    assert (CS : forall n, cshape k3 n = if Nat.eqb n c then None else cshape k n).
    { intros n. unfold cshape. rewrite (tk_cols c k k3 TK). destruct (Nat.eqb n c); reflexivity. }
    assert (HO : forall n, k_bodies k3 n = if Nat.eqb n (kc_body y) then Some (with_cols l1 x) else k_bodies k n).
    { intros n. unfold k3. simpl. rewrite B1. reflexivity. }
    assert (HH : forall n, k_shapes k3 n = if Nat.eqb n (kc_shape y) then Some m1 else k_shapes k n).
    { intros n. unfold k3. simpl. rewrite S1. reflexivity. }
    assert (YB : cbody k c = Some (kc_body y)) by (unfold cbody; rewrite Y; reflexivity).
    assert (YS : cshape k c = Some (kc_shape y)) by (unfold cshape; rewrite Y; reflexivity).
    constructor; [constructor| | |].
    - intros d l'. unfold bcols. rewrite HO. destruct (Nat.eqb_spec d (kc_body y)); simpl.
      + subst. intros J. injection J as <-. split; [exact NL1|]. intros m. rewrite SL1, SX, CB.
        destruct (Nat.eqb_spec m c); split; try tauto; try discriminate.
      + intros J. destruct (A d l' J) as [N0 S0]. split; [exact N0|]. intros m. rewrite S0, CB.
        destruct (Nat.eqb_spec m c); [subst; split; congruence|tauto].
    - intros d l'. rewrite HH. destruct (Nat.eqb_spec d (kc_shape y)); simpl.
      + subst. intros J. injection J as <-. split; [exact NM1|]. intros m. rewrite SM1, SL, CS.
        destruct (Nat.eqb_spec m c); split; try tauto; try discriminate.
      + intros J. destruct (B d l' J) as [N0 S0]. split; [exact N0|]. intros m. rewrite S0, CS.
        destruct (Nat.eqb_spec m c); [subst; split; congruence|tauto].
    - intros w l'. rewrite (tk_worlds c k k3 TK). intros J. eapply lists_ext; [|exact (C w l' J)].
      intros n. simpl. rewrite (tk_bworld c k k3 TK). tauto.
    - intros d e. rewrite CB. unfold bcols. rewrite HO. destruct (Nat.eqb d c); [discriminate|].
      intros J. destruct (Nat.eqb e (kc_body y)); [discriminate|]. apply (D d e J).
    - intros d e. rewrite CS, HH. destruct (Nat.eqb d c); [discriminate|].
      intros J. destruct (Nat.eqb e (kc_shape y)); [discriminate|]. apply (E d e J).
    - intros d w. rewrite (tk_bworld c k k3 TK), (tk_worlds c k k3 TK). apply F.
    - intros n LE. rewrite (tk_next c k k3 TK) in LE. destruct (G n LE) as (H1 & H2 & H3 & H4).
      rewrite (tk_worlds c k k3 TK), CB. split; [exact H1|]. split; [|split].
      + unfold bcols. rewrite HO. destruct (Nat.eqb_spec n (kc_body y)); [subst; unfold bcols in H2; rewrite X in H2; discriminate|exact H2].
      + destruct (Nat.eqb n c); [reflexivity|exact H3].
      + apply (tk_shapes c k k3 TK). exact H4.
    - intros d z x'. rewrite (tk_cols c k k3 TK), HO. destruct (Nat.eqb d c); [discriminate|]. intros Z.
      destruct (Nat.eqb_spec (kc_body z) (kc_body y)) as [EZ|]; [|apply (T d z x' Z)].
      intros J. injection J as <-. simpl. apply (T d z x Z). congruence.
    - intros d z. rewrite (tk_cols c k k3 TK). destruct (Nat.eqb d c); [discriminate|]. apply R.
    - intros d z x'. rewrite (tk_cols c k k3 TK), HO. destruct (Nat.eqb d c); [discriminate|]. intros Z.
      destruct (Nat.eqb_spec (kc_body z) (kc_body y)) as [EZ|]; [|apply (FL d z x' Z)].
      intros J. injection J as <-. simpl. apply (FL d z x Z). congruence. }
  destruct (kb_sim x); [|exists k3; auto].
  destruct (update_has_sim_ok (kc_body y) k3) as (k4 & U & SM).
  - apply (g_st k3 G3).
  - unfold k3. simpl. rewrite upd_same. discriminate.
  - exists k4. split; [exact U|]. split; [apply (same_good k3); assumption|].
    pose proof SM as (EW & EC & ES & EN & EBB & _). constructor.
    + intros n. rewrite EW. apply (tk_worlds c k k3 TK).
    + intros n. rewrite EC. apply (tk_cols c k k3 TK).
    + intros n. rewrite <- (tk_bworld c k k3 TK n). unfold bworld. specialize (EBB n).
      destruct (k_bodies k4 n), (k_bodies k3 n); try discriminate; try reflexivity.
      simpl in *. unfold with_kbsim in EBB. simpl in EBB. congruence.
    + intros n. rewrite ES. apply (tk_shapes c k k3 TK).
    + rewrite EN. apply (tk_next c k k3 TK).
Qed.

(** All the colliders of a list are taken away. *)
Lemma remove_all_good : forall b l k, good k -> NoDup l -> (forall c, In c l -> cbody k c = Some b) ->
  exists k', remove_colliders b l k = Ok k' /\ good k' /\
    (forall n, k_worlds k' n = k_worlds k n) /\ (forall n, bworld k' n = bworld k n) /\
    (forall n, k_shapes k' n = None <-> k_shapes k n = None) /\ k_next k' = k_next k /\
    (forall n, In n l -> k_cols k' n = None) /\ (forall n, ~ In n l -> k_cols k' n = k_cols k n).
Proof.
  intros b. induction l as [|c l IH]; simpl; intros k G N H.
  - exists k. split; [reflexivity|]. split; [exact G|]. repeat split; auto. intros n F. contradiction.
  - inversion N; subst. pose proof (H c (or_introl eq_refl)) as HC. unfold cbody in HC.
    destruct (k_cols k c) as [y|] eqn:Y; [|discriminate]. injection HC as HC. simpl.
    destruct (remove_good b c y k G Y HC) as (k1 & E1 & G1 & T1). rewrite E1. simpl.
    destruct (IH k1 G1 H3) as (k2 & E2 & G2 & W & BW & SH & NX & GONE & KEPT).
    { intros d I. unfold cbody. rewrite (tk_cols c k k1 T1). destruct (Nat.eqb_spec d c); [subst; contradiction|]. apply (H d). auto. }
    exists k2. split; [exact E2|]. split; [exact G2|]. split; [|split; [|split; [|split; [|split]]]].
    + intros n. rewrite W. apply (tk_worlds c k k1 T1).
    + intros n. rewrite BW. apply (tk_bworld c k k1 T1).
    + intros n. rewrite SH. apply (tk_shapes c k k1 T1).
    + rewrite NX. apply (tk_next c k k1 T1).
    + intros n [I|I]; [|apply GONE; exact I]. subst n. rewrite (KEPT c H2), (tk_cols c k k1 T1), Nat.eqb_refl. reflexivity.
    + intros n I. rewrite (KEPT n) by tauto. rewrite (tk_cols c k k1 T1).
      destruct (Nat.eqb_spec n c); [subst; tauto|reflexivity].
Qed.

(** A body is destroyed with its colliders. *)
Lemma destroy_body_good : forall b x k, good k -> k_bodies k b = Some x ->
  exists k' l l', destroy_kbody b k = Ok k' /\ good k' /\
    k_worlds k (kb_world x) = Some l /\ k_worlds k' (kb_world x) = Some l' /\ length l = S (length l') /\
    (forall n, n <> kb_world x -> k_worlds k' n = k_worlds k n) /\
    (forall n, bworld k' n = if Nat.eqb n b then None else bworld k n) /\
    (forall n, k_shapes k' n = None <-> k_shapes k n = None) /\
    (forall n, cbody k n = Some b -> k_cols k' n = None) /\ (forall n, cbody k n <> Some b -> k_cols k' n = k_cols k n).
Proof.
  intros b x k G X. unfold destroy_kbody. rewrite X. simpl.
  destruct (st_body k (g_st k G) b (kb_colliders x)) as [NX SX]; [unfold bcols; rewrite X; reflexivity|].
  destruct (remove_all_good b (kb_colliders x) k G NX) as (k1 & E1 & G1 & W & BW & SH & NXT & GONE & KEPT).
  { intros c I. apply SX. exact I. }
  rewrite E1. simpl. rewrite W.
  destruct (k_worlds k (kb_world x)) as [l|] eqn:L.
  2:{ exfalso. apply (st_home k (g_st k G) b (kb_world x)); [unfold bworld; rewrite X; reflexivity|exact L]. }
  simpl. destruct (st_world k (g_st k G) (kb_world x) l L) as [NL SL].
  assert (IB : In b l) by (apply SL; unfold bworld; rewrite X; reflexivity).
  destruct (array_remove_ok b l NL IB) as (l' & -> & NL' & SL' & LEN). simpl.
  eexists. exists l, l'. split; [reflexivity|].
  assert (NC : forall n, cbody k1 n <> Some b).
  { intros n J. destruct (in_dec Nat.eq_dec n (kb_colliders x)) as [I|I].
    - unfold cbody in J. rewrite (GONE n I) in J. discriminate.
    - unfold cbody in J. rewrite (KEPT n I) in J. apply I. apply SX. exact J. }
  split; [|simpl].
  - destruct G1 as [[A B C D E F G1] T R FL]. constructor; [constructor| | |].
    + intros d m. unfold bcols. simpl. ku; [discriminate|]. intros J. apply (A d m J).
    + exact B.
    + intros w m. simpl. unfold upd at 1. destruct (Nat.eqb_spec w (kb_world x)).
      * subst. intros J. injection J as <-. split; [exact NL'|]. intros n. rewrite SL', SL. unfold bworld. simpl.
        ku; [simpl; split; [tauto|discriminate]|]. fold (bworld k1 n). fold (bworld k n). rewrite BW. tauto.
      * intros J. destruct (C w m J) as [N0 S0]. split; [exact N0|]. intros d. rewrite S0. unfold bworld. simpl.
        ku; [|tauto]. fold (bworld k1 b). rewrite BW. unfold bworld. rewrite X. simpl. split; [congruence|discriminate].
    + intros d e J. unfold bcols. simpl. ku; [exfalso; apply (NC d J)|]. apply (D d e J).
    + exact E.
    + intros d w. unfold bworld. simpl. ku; simpl; try discriminate. intros J. apply (F d w J).
    + intros n LE. simpl in *. destruct (G1 n LE) as (H1 & H2 & H3 & H4). unfold bcols. simpl.
      split; [|split; [|auto]].
      * ku; [rewrite W in H1; congruence|exact H1].
      * ku; [reflexivity|exact H2].
    + intros d y x' Y X'. simpl in *. ku; [discriminate|]. apply (T d y x' Y X').
    + exact R.
    + intros d y x' Y X'. simpl in *. ku; [discriminate|]. apply (FL d y x' Y X').
  - split; [reflexivity|]. split; [apply upd_same|]. split; [exact LEN|]. split; [|split; [|split; [|split]]].
    + intros n N. rewrite upd_other by exact N. apply W.
    + intros n. unfold bworld. simpl. ku; [reflexivity|]. apply BW.
    + exact SH.
    + intros n J. apply GONE. apply SX. exact J.
    + intros n J. apply KEPT. intro I. apply J. apply SX. exact I.
Qed.

(** All the bodies of a world are destroyed. *)
Lemma destroy_bodies_good : forall w i k l, good k -> k_worlds k w = Some l -> length l = i ->
  exists k', destroy_bodies i w k = Ok k' /\ good k' /\ k_worlds k' w = Some [] /\
    (forall n, n <> w -> k_worlds k' n = k_worlds k n) /\
    (forall n, bworld k' n = if match bworld k n with Some v => Nat.eqb v w | None => false end then None else bworld k n) /\
    (forall n, k_shapes k' n = None <-> k_shapes k n = None) /\
    (forall n b, cbody k n = Some b -> bworld k b <> Some w -> k_cols k' n = k_cols k n) /\
    (forall n, k_cols k' n = None \/ k_cols k' n = k_cols k n).
Proof.
  intros w. induction i as [|i IH]; simpl; intros k l G L LEN.
  - destruct l; [|discriminate]. exists k. split; [reflexivity|]. split; [exact G|]. split; [exact L|].
    split; [auto|]. split; [|split; [tauto|split; auto]].
    intros n. destruct (bworld k n) as [v|] eqn:E; [|reflexivity]. destruct (Nat.eqb_spec v w); [|reflexivity].
    subst. apply (st_world k (g_st k G) w [] L) in E. contradiction.
  - rewrite L. simpl. destruct (nth_error l i) as [b|] eqn:N.
    2:{ apply nth_error_None in N. lia. }
    simpl. apply nth_error_In in N. apply (st_world k (g_st k G) w l L) in N. rename N into BW.
    unfold bworld in BW. destruct (k_bodies k b) as [x|] eqn:X; [|discriminate]. injection BW as BW.
    destruct (destroy_body_good b x k G X) as (k1 & l0 & l1 & E1 & G1 & L0 & L1 & LN & WO & BO & SH & GONE & KEPT).
    rewrite E1. simpl. rewrite BW in L0, L1, WO. rewrite L in L0. injection L0 as <-.
    destruct (IH k1 l1 G1 L1 ltac:(lia)) as (k2 & E2 & G2 & W2 & WO2 & BO2 & SH2 & KEPT2 & ANY2).
    exists k2. split; [exact E2|]. split; [exact G2|]. split; [exact W2|]. split; [|split; [|split; [|split]]].
    + intros n NE. rewrite WO2 by exact NE. apply WO. exact NE.
    + intros n. rewrite BO2, BO. destruct (Nat.eqb_spec n b); [|reflexivity]. subst n.
      unfold bworld. rewrite X. simpl. rewrite BW, Nat.eqb_refl. reflexivity.
    + intros n. rewrite SH2. apply SH.
    + intros n d CB ND. assert (DB : d <> b).
      { intro; subst d. apply ND. unfold bworld. rewrite X. simpl. congruence. }
      assert (K : k_cols k1 n = k_cols k n) by (apply KEPT; congruence).
      rewrite <- K. apply (KEPT2 n d).
      * unfold cbody. rewrite K. exact CB.
      * rewrite BO. destruct (Nat.eqb_spec d b); [contradiction|exact ND].
    + intros n. destruct (ANY2 n) as [Z|Z]; [left; exact Z|]. rewrite Z.
      destruct (cbody k n) as [d|] eqn:CB; [|right; apply KEPT; congruence].
      destruct (Nat.eq_dec d b); [left; apply GONE; congruence|right; apply KEPT; congruence].
Qed.

Lemma destroy_world_good : forall w k, good k -> k_worlds k w <> None ->
  exists k', destroy_kworld w k = Ok k' /\ good k' /\
    (forall n, k_worlds k' n = if Nat.eqb n w then None else k_worlds k n) /\
    (forall n, bworld k' n = if match bworld k n with Some v => Nat.eqb v w | None => false end then None else bworld k n) /\
    (forall n, k_shapes k' n = None <-> k_shapes k n = None) /\
    (forall n b, cbody k n = Some b -> bworld k b <> Some w -> k_cols k' n = k_cols k n) /\
    (forall n, k_cols k' n = None \/ k_cols k' n = k_cols k n).
Proof.
  intros w k G NW. unfold destroy_kworld. destruct (k_worlds k w) as [l|] eqn:L; [|contradiction]. simpl.
  destruct (destroy_bodies_good w (length l) k l G L eq_refl) as (k1 & E1 & G1 & W1 & WO & BO & SH & KEPT & ANY).
  rewrite E1. simpl. rewrite W1. simpl. eexists. split; [reflexivity|]. split; [|split; [|split; [|split; [|split]]]].
  - destruct G1 as [[A B C D E F G1] T R FL]. constructor; [constructor| | |]; simpl; try assumption.
    + intros v m. ku; [discriminate|]. apply C.
    + intros b v J. ku; [|apply (F b v J)]. apply (C w [] W1) in J. contradiction.
    + intros n LE. destruct (G1 n LE) as (H1 & H2). split; [|exact H2]. ku; [reflexivity|exact H1].
  - intros n. simpl. ku; [reflexivity|]. apply WO. assumption.
  - exact BO.
  - exact SH.
  - exact KEPT.
  - exact ANY.
Qed.

Lemma destroy_shape_good : forall s k, good k -> k_shapes k s <> None -> ~ used_shape s k ->
  exists k', destroy_shape s k = Ok k' /\ good k'.
Proof.
  intros s k [[A B C D E F G] T R FL] NS NU. unfold destroy_shape.
  destruct (k_shapes k s) as [l|] eqn:L; [|contradiction]. simpl. eexists. split; [reflexivity|].
  constructor; [constructor| | |]; simpl; try assumption.
  - intros v m. ku; [discriminate|]. apply B.
  - intros c v J. ku; [|apply (E c v J)]. exfalso. apply NU. unfold cshape in J. simpl in J.
    destruct (k_cols k c) as [y|] eqn:Y; [|discriminate]. injection J as J. exists c, y. auto.
  - intros n LE. destruct (G n LE) as (H1 & H2 & H3 & H4). repeat split; auto. ku; [reflexivity|exact H4].
Qed.

(** Writes that touch the colliders only in their flags. *)
Lemma changed_good : forall k c y, good k -> k_cols k c = Some y -> good (set_kcol c (Some (with_changed true y)) k).
Proof.
  intros k c y [S T R FL] Y. constructor.
  - apply (put_col_st k c y); auto.
  - intros d z x Z X. simpl in *. ku; [injection Z as <-; exact (T c y x Y X)|exact (T d z x Z X)].
  - intros d z Z. simpl in *. ku; [injection Z as <-; exact (R c y Y)|exact (R d z Z)].
  - intros d z x Z X. simpl in *. ku; [injection Z as <-; exact (FL c y x Y X)|exact (FL d z x Z X)].
Qed.

Lemma notify_good : forall l k, good k -> (forall c, In c l -> k_cols k c <> None) ->
  exists k', notify_colliders l k = Ok k' /\ good k' /\
    (forall n, In n l -> k_cols k' n = option_map (with_changed true) (k_cols k n)) /\
    (forall n, ~ In n l -> k_cols k' n = k_cols k n).
Proof.
  induction l as [|c l IH]; simpl; intros k G H.
  - exists k. split; [reflexivity|]. split; [exact G|]. split; [intros; contradiction|auto].
  - destruct (k_cols k c) as [y|] eqn:Y; [|exfalso; apply (H c); auto]. simpl.
    destruct (IH _ (changed_good k c y G Y)) as (k' & E & G' & IN & OUT).
    { intros d I. simpl. ku; [discriminate|]. apply H. auto. }
    exists k'. split; [exact E|]. split; [exact G'|]. split.
    + intros n I. destruct (in_dec Nat.eq_dec n l) as [J|J].
      * rewrite (IN n J). simpl. ku; [rewrite Y; reflexivity|reflexivity].
      * destruct I as [I|I]; [|contradiction]. subst n. rewrite (OUT c J). simpl. rewrite upd_same, Y. reflexivity.
    + intros n I. rewrite (OUT n) by tauto. simpl. apply upd_other. intro; subst; tauto.
Qed.

Lemma resize_good : forall s k, good k -> k_shapes k s <> None ->
  exists k', resize_shape s k = Ok k' /\ good k' /\
    (forall n, k_cols k' n = option_map (fun y => if Nat.eqb (kc_shape y) s then with_changed true y else y) (k_cols k n)).
Proof.
  intros s k G NS. unfold resize_shape. destruct (k_shapes k s) as [l|] eqn:L; [|contradiction]. simpl.
  destruct (st_shape k (g_st k G) s l L) as [NL SL].
  destruct (notify_good l k G) as (k' & E & G' & IN & OUT).
  { intros c I. apply SL in I. unfold cshape in I. intro J. rewrite J in I. discriminate. }
  exists k'. split; [exact E|]. split; [exact G'|]. intros n.
  destruct (in_dec Nat.eq_dec n l) as [I|I].
  - rewrite (IN n I). apply SL in I. unfold cshape in I. destruct (k_cols k n) as [y|]; [|reflexivity]. simpl in *.
    injection I as ->. rewrite Nat.eqb_refl. reflexivity.
  - rewrite (OUT n I). destruct (k_cols k n) as [y|] eqn:Y; [|reflexivity]. simpl. destruct (Nat.eqb_spec (kc_shape y) s); [|reflexivity].
    exfalso. apply I. apply SL. unfold cshape. rewrite Y. simpl. congruence.
Qed.

(** The roles of a collider. *)
Lemma put_role_good : forall k c y y', good k -> k_cols k c = Some y ->
  kc_body y' = kc_body y -> kc_shape y' = kc_shape y -> kc_tree y' = kc_tree y ->
  kc_trigger y' && kc_sim y' = false -> (kc_sim y' = true -> kc_sim y = true) -> good (set_kcol c (Some y') k).
Proof.
  intros k c y y' [S T R FL] Y EB ES ET ER EF. constructor.
  - apply (put_col_st k c y); auto.
  - intros d z x Z X. simpl in *. ku; [injection Z as <-; rewrite ET; rewrite EB in X; exact (T c y x Y X)|exact (T d z x Z X)].
  - intros d z Z. simpl in *. ku; [injection Z as <-; exact ER|exact (R d z Z)].
  - intros d z x Z X. simpl in *. ku; [injection Z as <-; rewrite EB in X; intro Q; exact (FL c y x Y X (EF Q))|exact (FL d z x Z X)].
Qed.

Lemma trigger_good : forall c v y k, good k -> k_cols k c = Some y ->
  exists k', set_trigger 2 c v k = Ok k' /\ good k' /\
    k_cols k' c = Some (mk_kcol (kc_body y) (kc_shape y) (kc_tree y) (kc_changed y) v (kc_sim y && negb v)) /\
    same_but c k k'.
Proof.
  intros c v y k G Y. simpl. rewrite Y. simpl. rewrite upd_same. simpl.
  destruct (v && kc_sim y) eqn:VS.
  - apply andb_true_iff in VS as [-> VS].
    set (k2 := set_kcol c (Some (with_sim false (with_trigger true y))) (set_kcol c (Some (with_trigger true y)) k)).
    assert (P2 : forall n, k_cols k2 n = upd c (Some (with_sim false (with_trigger true y))) (k_cols k) n).
    { intros n. unfold k2. simpl. ku; reflexivity. }
    assert (G2 : good k2).
    { apply (same_good (set_kcol c (Some (with_sim false (with_trigger true y))) k)).
      - repeat split; auto. intros n x E. exists x. auto.
      - apply (put_role_good k c y); auto. }
    destruct (col_body k c y (g_st k G) Y) as (x & X & _).
    destruct (update_has_sim_ok (kc_body y) k2) as (k3 & U & SM).
    + apply (g_st k2 G2).
    + unfold k2. simpl. rewrite X. discriminate.
    + rewrite U. simpl. pose proof SM as (_ & EC & _). rewrite EC, P2, upd_same. simpl.
      exists k3. split; [reflexivity|]. split; [apply (same_good k2); assumption|]. split.
      * rewrite EC, P2, upd_same, VS. reflexivity.
      * intros d D. rewrite EC, P2, upd_other by exact D. reflexivity.
  - eexists. split; [reflexivity|]. split; [|split].
    + apply (put_role_good k c y); auto.
    + simpl. rewrite upd_same. unfold with_trigger. do 2 f_equal. destruct v, (kc_sim y); auto; discriminate.
    + intros d D. simpl. apply upd_other. exact D.
Qed.

Lemma simulation_good : forall c v y k, good k -> k_cols k c = Some y ->
  exists k', set_simulation 2 c v k = Ok k' /\ good k' /\
    k_cols k' c = Some (mk_kcol (kc_body y) (kc_shape y) (kc_tree y) (kc_changed y) (kc_trigger y && negb v) v) /\
    same_but c k k'.
Proof.
  intros c v y k G Y. destruct (col_body k c y (g_st k G) Y) as (x & X & _). simpl. rewrite Y. simpl.
  destruct v.
  - rewrite X. simpl. rewrite upd_same. simpl.
    set (k0 := set_kbody (kc_body y) (Some (with_kbsim true x)) k).
    assert (G0 : good k0) by (apply (same_good k); [apply flag_same; exact X|exact G]).
    assert (Q : forall y' k', kc_body y' = kc_body y -> kc_shape y' = kc_shape y -> kc_tree y' = kc_tree y ->
      kc_trigger y' && kc_sim y' = false ->
      (forall n, k_worlds k' n = k_worlds k0 n) -> (forall n, k_bodies k' n = k_bodies k0 n) ->
      (forall n, k_shapes k' n = k_shapes k0 n) -> k_next k' = k_next k0 ->
      (forall n, k_cols k' n = upd c (Some y') (k_cols k0) n) -> good k').
    { intros y' k' E1 E2 E3 E4 W B H N C. apply (same_good (set_kcol c (Some y') k0)).
      - repeat split; simpl; auto.
        + intros n. rewrite B. reflexivity.
        + intros n z Z. exists z. rewrite B. auto.
      - destruct G0 as [S T R FL]. constructor.
        + apply (put_col_st k0 c y); auto.
        + intros d z u Z U. change (upd c (Some y') (k_cols k0) d = Some z) in Z.
          change (k_bodies k0 (kc_body z) = Some u) in U. unfold upd in Z. destruct (Nat.eqb_spec d c).
          * injection Z as <-. rewrite E3. rewrite E1 in U. apply (T c y u Y U).
          * apply (T d z u Z U).
        + intros d z Z. simpl in *. ku; [injection Z as <-; exact E4|exact (R d z Z)].
        + intros d z u Z U QQ. change (upd c (Some y') (k_cols k0) d = Some z) in Z.
          change (k_bodies k0 (kc_body z) = Some u) in U. unfold upd in Z. destruct (Nat.eqb_spec d c).
          * injection Z as <-. rewrite E1 in U. unfold k0 in U. simpl in U. rewrite upd_same in U. injection U as <-. reflexivity.
          * apply (FL d z u Z U QQ). }
    destruct (kc_trigger y) eqn:TR.
    + rewrite upd_same. simpl. eexists. split; [reflexivity|]. split; [|split].
      * apply (Q (with_trigger false (with_sim true y))); auto. intros n. simpl. ku; reflexivity.
      * simpl. rewrite upd_same. reflexivity.
      * intros d D. simpl. ku; [contradiction|reflexivity].
    + eexists. split; [reflexivity|]. split; [|split].
      * apply (Q (with_sim true y)); auto. simpl. rewrite TR. reflexivity.
      * simpl. rewrite upd_same. unfold with_sim. rewrite TR. reflexivity.
      * intros d D. simpl. ku; [contradiction|reflexivity].
  - set (k2 := set_kcol c (Some (with_sim false y)) k).
    assert (G2 : good k2).
    { apply (put_role_good k c y); auto; simpl; [apply andb_false_r|discriminate]. }
    destruct (update_has_sim_ok (kc_body y) k2) as (k3 & U & SM).
    + apply (g_st k2 G2).
    + unfold k2. simpl. rewrite X. discriminate.
    + rewrite U. simpl. pose proof SM as (_ & EC & _). rewrite EC. unfold k2 at 1. simpl. rewrite upd_same. simpl.
      exists k3. split; [reflexivity|]. split; [apply (same_good k2); assumption|]. split.
      * rewrite EC. unfold k2. simpl. rewrite upd_same. unfold with_sim. rewrite andb_true_r. reflexivity.
      * intros d D. rewrite EC. unfold k2. simpl. apply upd_other. exact D.
Qed.

(** Activation. *)
Lemma move_ok : forall v l k, NoDup l -> (forall c, In c l -> exists y, k_cols k c = Some y /\ kc_tree y = negb v) ->
  exists k', move_colliders v l k = Ok k' /\
    k_worlds k' = k_worlds k /\ k_bodies k' = k_bodies k /\ k_shapes k' = k_shapes k /\ k_next k' = k_next k /\
    (forall n, In n l -> k_cols k' n = option_map (with_tree v) (k_cols k n)) /\
    (forall n, ~ In n l -> k_cols k' n = k_cols k n).
Proof.
  intros v. induction l as [|c l IH]; simpl; intros k N H.
  - exists k. repeat split; auto. intros; contradiction.
  - inversion N; subst. destruct (H c (or_introl eq_refl)) as (y & Y & T).
    assert (E1 : (if v then enter_tree c k else leave_tree c k) = Ok (set_kcol c (Some (with_tree v y)) k)).
    { unfold enter_tree, leave_tree. rewrite Y. simpl. rewrite T. destruct v; reflexivity. }
    rewrite E1. simpl. destruct (IH (set_kcol c (Some (with_tree v y)) k) H3) as (k' & E & W & B & S & NX & IN & OUT).
    { intros d I. simpl. rewrite upd_other by (intro; subst; contradiction). apply H. auto. }
    exists k'. repeat split; auto.
    + intros n [I|I].
      * subst n. rewrite (OUT c H2). simpl. rewrite upd_same, Y. reflexivity.
      * rewrite (IN n I). simpl. rewrite upd_other by (intro; subst; contradiction). reflexivity.
    + intros n I. rewrite (OUT n) by tauto. simpl. apply upd_other. intro; subst; tauto.
Qed.

Lemma active_good : forall b v k, good k -> k_bodies k b <> None ->
  exists k', set_kactive b v k = Ok k' /\ good k'.
Proof.
  intros b v k G NB. unfold set_kactive. destruct (k_bodies k b) as [x|] eqn:X; [|contradiction]. simpl.
  destruct (Bool.eqb (kb_active x) v) eqn:EA; [exists k; auto|].
  pose proof G as [S T R FL].
  destruct (st_body k S b (kb_colliders x)) as [NX SX]; [unfold bcols; rewrite X; reflexivity|].
  destruct (move_ok v (kb_colliders x) (set_kbody b (Some (with_kactive v x)) k) NX) as (k' & E & W & B & SH & N & IN & OUT).
  { intros c I. destruct (body_col k b x c S X I) as (y & Y & YB). exists y. simpl. split; [exact Y|].
    subst b. rewrite (T c y x Y X). destruct (kb_active x), v; try reflexivity; discriminate. }
  exists k'. split; [exact E|]. simpl in *.
  assert (C : forall n, k_cols k' n = option_map (fun y => if Nat.eqb (kc_body y) b then with_tree v y else y) (k_cols k n)).
  { intros n. destruct (in_dec Nat.eq_dec n (kb_colliders x)) as [I|I].
    - rewrite (IN n I). destruct (body_col k b x n S X I) as (y & Y & YB). rewrite Y. simpl. rewrite YB, Nat.eqb_refl. reflexivity.
    - rewrite (OUT n I). destruct (k_cols k n) as [y|] eqn:Y; [|reflexivity]. simpl.
      destruct (Nat.eqb_spec (kc_body y) b); [|reflexivity]. exfalso. apply I. apply SX. unfold cbody. rewrite Y. simpl. congruence. }
  constructor.
  - revert S. apply st_ext; [| | | | | |rewrite N; apply le_n]; intros n; rewrite ?W, ?SH; auto.
    + unfold cbody. rewrite C. destruct (k_cols k n) as [y|]; [|reflexivity]. simpl. destruct (Nat.eqb (kc_body y) b); reflexivity.
    + unfold cshape. rewrite C. destruct (k_cols k n) as [y|]; [|reflexivity]. simpl. destruct (Nat.eqb (kc_body y) b); reflexivity.
    + unfold bworld. rewrite B. ku; [rewrite X; reflexivity|reflexivity].
    + unfold bcols. rewrite B. ku; [rewrite X; reflexivity|reflexivity].
  - intros d z u Z U. rewrite C in Z. destruct (k_cols k d) as [y|] eqn:Y; [|discriminate]. simpl in Z. rewrite B in U.
    destruct (Nat.eqb_spec (kc_body y) b); injection Z as <-; simpl in U.
    + rewrite e, upd_same in U. injection U as <-. reflexivity.
    + rewrite upd_other in U by assumption. apply (T d y u Y U).
  - intros d z Z. rewrite C in Z. destruct (k_cols k d) as [y|] eqn:Y; [|discriminate]. simpl in Z.
    destruct (Nat.eqb_spec (kc_body y) b); injection Z as <-; apply (R d y Y).
  - intros d z u Z U. rewrite C in Z. destruct (k_cols k d) as [y|] eqn:Y; [|discriminate]. simpl in Z. rewrite B in U.
    destruct (Nat.eqb_spec (kc_body y) b); injection Z as <-; simpl in U.
    + rewrite e, upd_same in U. injection U as <-. simpl. intros Q. apply (FL d y x Y); [congruence|exact Q].
    + rewrite upd_other in U by assumption. apply (FL d y u Y U).
Qed.

(** Every call. *)
Lemma kstep_good : forall o k, good k -> proper o k -> exists k', kstep o k = Ok k' /\ good k'.
Proof.
  intros o k G P. destruct o; simpl in P; cbv beta iota delta [kstep].
  - apply create_world_good. exact G.
  - apply create_shape_good. exact G.
  - apply create_body_good; assumption.
  - apply add_good; tauto.
  - destruct P as (y & Y & E). destruct (remove_good b c y k G Y E) as (k' & A & B & _). exists k'. auto.
  - destruct (k_bodies k b) as [x|] eqn:X; [|contradiction].
    destruct (destroy_body_good b x k G X) as (k' & l & l' & A & B & _). exists k'. auto.
  - destruct (destroy_world_good w k G P) as (k' & A & B & _). exists k'. auto.
  - destruct P. apply destroy_shape_good; assumption.
  - destruct (resize_good s k G P) as (k' & A & B & _). exists k'. auto.
  - destruct (k_cols k c) as [y|] eqn:Y; [|contradiction]. destruct (trigger_good c v y k G Y) as (k' & A & B & _). exists k'. auto.
  - destruct (k_cols k c) as [y|] eqn:Y; [|contradiction]. destruct (simulation_good c v y k G Y) as (k' & A & B & _). exists k'. auto.
  - apply active_good; assumption.
Qed.

Lemma kruns_good : forall os k, good k -> proper_all os k -> exists k', kruns os k = Ok k' /\ good k'.
Proof.
  induction os as [|o os IH]; simpl; intros k G P; [exists k; auto|].
  destruct P as [P Q]. destruct (kstep_good o k G P) as (k1 & E & G1). rewrite E. simpl. apply IH; [exact G1|apply Q; exact E].
Qed.

Lemma empty_good : good empty_scene.
Proof.
  constructor; [constructor| | |]; try (intros ? ? ; discriminate); try (intros ? ? ? ; discriminate).
  intros n _. repeat split.
Qed.

Lemma reached_good : forall os k, proper_all os empty_scene -> kruns os empty_scene = Ok k -> good k.
Proof.
  intros os k P E. destruct (kruns_good os empty_scene empty_good P) as (k' & E' & G). congruence.
Qed.

(** A check of histories without destroyed shapes, for the examples. *)
Definition some {A} (o : option A) : bool := match o with Some _ => true | None => false end.
Definition properb (o : kop) (k : scene) : bool :=
  match o with
  | KWorld | KShape => true
  | KBody w | KDestroyWorld w => some (k_worlds k w)
  | KAdd b s => some (k_bodies k b) && some (k_shapes k s)
  | KRemove b c => match k_cols k c with Some y => Nat.eqb (kc_body y) b | None => false end
  | KDestroyBody b | KActive b _ => some (k_bodies k b)
  | KDestroyShape _ => false
  | KResize s => some (k_shapes k s)
  | KTrigger c _ | KSimulation c _ => some (k_cols k c)
  end.
Fixpoint proper_allb (os : list kop) (k : scene) : bool :=
  match os with
  | [] => true
  | o :: os' => properb o k && match kstep o k with Ok k1 => proper_allb os' k1 | _ => false end
  end.
Lemma properb_sound : forall o k, properb o k = true -> proper o k.
Proof.
  assert (S : forall A (o : option A), some o = true -> o <> None) by (intros A [a|] H; [discriminate|discriminate H]).
  intros o k H. destruct o; simpl in *; auto; try discriminate H.
  - apply andb_true_iff in H as [H1 H2]. auto.
  - destruct (k_cols k c) as [y|]; [|discriminate]. apply Nat.eqb_eq in H. exists y. auto.
Qed.
Lemma proper_allb_sound : forall os k, proper_allb os k = true -> proper_all os k.
Proof.
  induction os as [|o os IH]; intros k H; [exact I|].
  cbn [proper_allb] in H. apply andb_true_iff in H as [H1 H2]. split; [apply properb_sound; exact H1|].
  intros k1 E. rewrite E in H2. apply IH. exact H2.
Qed.
