(** Proofs about the lists of faces and vertices. *)
From Verif Require Import Base QhModel QhSpec QhProofs QlModel QlSpec.
From Coq Require Import Lia.
Open Scope Z_scope.

Record dinv (d : dl) (l : list nat) : Prop := {
  j_nd : NoDup l;
  j_live : forall x, d_live d x = true <-> In x l;
  j_new : forall x, In x l -> (x < d_new d)%nat;
  j_seg : seg (d_prev d) (d_next d) None l None;
  j_head : d_head d = first l None;
  j_nb : d_nb d = Z.of_nat (length l) }.

Lemma dinv_empty : dinv d_empty [].
Proof. constructor; simpl; try constructor; try discriminate; try tauto; intros; contradiction. Qed.

Lemma dinv_grow : forall d l pv nx, dinv d l -> seg pv nx None (d_new d :: l) None ->
  dinv (mk_dl (setn (d_live d) (d_new d) true) pv nx (Some (d_new d)) (S (d_new d)) (d_nb d + 1)) (d_new d :: l).
Proof.
  intros d l pv nx I S.
  assert (F : ~ In (d_new d) l) by (intros H; apply (j_new _ _ I) in H; lia).
  constructor; cbn [d_live d_prev d_next d_head d_new d_nb].
  - constructor; [exact F|apply (j_nd _ _ I)].
  - intros x. unfold setn. simpl. destruct (Nat.eqb_spec x (d_new d)) as [->|ne]; [tauto|].
    rewrite (j_live _ _ I). split; [auto|intros [H|H]; [congruence|exact H]].
  - intros x [<-|H]; [lia|]. apply (j_new _ _ I) in H. lia.
  - exact S.
  - reflexivity.
  - simpl length. rewrite (j_nb _ _ I). lia.
Qed.

Lemma dinv_shrink : forall d l1 x l2 pv nx hd, dinv d (l1 ++ x :: l2) ->
  seg pv nx None (l1 ++ l2) None -> hd = first (l1 ++ l2) None ->
  dinv (mk_dl (setn (d_live d) x false) pv nx hd (d_new d) (d_nb d - 1)) (l1 ++ l2).
Proof.
  intros d l1 x l2 pv nx hd I S H. pose proof (j_nd _ _ I) as N. apply NoDup_remove in N. destruct N as [N Nx].
  constructor; cbn [d_live d_prev d_next d_head d_new d_nb].
  - exact N.
  - intros y. unfold setn. destruct (Nat.eqb_spec y x) as [->|ne]; [split; [discriminate|contradiction]|].
    rewrite (j_live _ _ I), !in_app_iff. simpl. split; [intros [G|[G|G]]; auto; congruence|intros [G|G]; auto].
  - intros y Hy. apply (j_new _ _ I). apply in_app_or in Hy. apply in_or_app. simpl. tauto.
  - exact S.
  - exact H.
  - rewrite (j_nb _ _ I). rewrite !app_length. simpl. lia.
Qed.

Lemma dfilter_id : forall x (l : list nat), ~ In x l -> filter (fun y => negb (Nat.eqb y x)) l = l.
Proof.
  intros x l. induction l as [|y r IH]; intros N; simpl; [reflexivity|].
  assert (y <> x) by (intros ->; apply N; left; reflexivity).
  apply Nat.eqb_neq in H. rewrite H. simpl. f_equal. apply IH. intros G. apply N. right. exact G.
Qed.
Lemma dfilter_split : forall x l1 l2, NoDup (l1 ++ x :: l2) ->
  filter (fun y => negb (Nat.eqb y x)) (l1 ++ x :: l2) = l1 ++ l2.
Proof.
  intros x l1 l2 N. apply NoDup_remove in N. destruct N as [_ N].
  rewrite filter_app. simpl. rewrite Nat.eqb_refl. simpl.
  rewrite !dfilter_id; [reflexivity| |]; intros H; apply N; apply in_or_app; auto.
Qed.

Definition good (d : dl) (l' : list nat) (n' : nat) (r : res dl) : Prop :=
  exists d', r = Ok d' /\ dinv d' l' /\ d_new d' = n'.

Lemma dadd_ok : forall k d l, dinv d l -> good d (d_new d :: l) (S (d_new d)) (d_step k DAdd d).
Proof.
  intros k d l I.
  assert (F : ~ In (d_new d) l) by (intros H; apply (j_new _ _ I) in H; lia).
  pose proof (seg_front _ _ _ _ (j_seg _ _ I) (j_nd _ _ I) F) as S'.
  pose proof (j_head _ _ I) as H. pose proof (dinv_grow d l) as G.
  destruct d as [lv pv nx hd nw nb]. cbn [d_live d_prev d_next d_head d_new d_nb] in *. subst hd.
  assert (LH : forall h r, l = h :: r -> lv h = true /\ h <> nw).
  { intros h r ->. split; [apply (j_live _ _ I); left; reflexivity|intros ->; apply F; left; reflexivity]. }
  unfold good. destruct k; unfold d_step, add_face, add_vertex, dl_alloc, dl_prev, dl_next;
  cbn [d_live d_prev d_next d_head d_new d_nb]; destruct l as [|h r]; cbn [first] in *.
  - cbn [bind d_live d_prev d_next d_head d_new d_nb]. rewrite setn_eq. cbn [bind].
    eexists. split; [reflexivity|split; [|reflexivity]]. apply G; [exact I|].
    eapply seg_frame; [|exact S']. intros x _. cbn [dl_head d_prev d_next]. unfold setn. destruct (Nat.eqb x nw); auto.
  - destruct (LH h r eq_refl) as [L1 L2]. rewrite (setn_ne _ _ nw _ h) by exact L2. rewrite L1.
    cbn [bind d_live d_prev d_next d_head d_new d_nb]. rewrite setn_eq. cbn [bind].
    eexists. split; [reflexivity|split; [|reflexivity]]. apply G; [exact I|].
    eapply seg_frame; [|exact S']. intros x _. cbn [dl_head d_prev d_next]. unfold setn. destruct (Nat.eqb x nw); auto.
  - cbn [bind]. eexists. split; [reflexivity|split; [|reflexivity]]. apply G; [exact I|exact S'].
  - destruct (LH h r eq_refl) as [L1 L2]. rewrite (setn_ne _ _ nw _ h) by exact L2. rewrite L1. cbn [bind].
    eexists. split; [reflexivity|split; [|reflexivity]]. apply G; [exact I|exact S'].
Qed.

Lemma ddel_ok : forall k d l x, dinv d l ->
  match ls_step (DDel x) (l, d_new d) with
  | Ok (l', n') => good d l' n' (d_step k (DDel x) d)
  | Ub => d_step k (DDel x) d = Ub
  | Fuel => False
  end.
Proof.
  intros k d l x I. unfold ls_step. destruct (existsb (Nat.eqb x) l) eqn:E.
  2:{ assert (L : d_live d x = false).
      { destruct (d_live d x) eqn:L; [|reflexivity]. apply (j_live _ _ I) in L.
        assert (existsb (Nat.eqb x) l = true); [|congruence]. apply existsb_exists. exists x. split; [exact L|apply Nat.eqb_refl]. }
      destruct k; unfold d_step, del_face, del_vertex; rewrite L; reflexivity. }
  apply existsb_exists in E. destruct E as (y & Hx & E). apply Nat.eqb_eq in E. subst y.
  assert (LX : d_live d x = true) by (apply (j_live _ _ I); exact Hx).
  apply in_split in Hx. destruct Hx as (l1 & l2 & ->).
  rewrite (dfilter_split x l1 l2 (j_nd _ _ I)).
  pose proof (j_nd _ _ I) as N. pose proof (j_head _ _ I) as H.
  destruct (seg_remove _ _ _ _ _ (j_seg _ _ I) N) as (R1 & R2 & R3 & R4).
  assert (LP : forall p, d_prev d x = Some p -> d_live d p = true /\ p <> x /\ is_ptr (d_head d) x = false).
  { intros p Hp. rewrite R3 in Hp. destruct (snoc_cases l1) as [->|(m & z & ->)]; [discriminate|].
    rewrite lastp_snoc in Hp. inversion Hp; subst. clear - I N H.
    assert (A : In p ((m ++ [p]) ++ x :: l2)) by (apply in_or_app; left; apply in_or_app; right; left; reflexivity).
    apply NoDup_remove in N. destruct N as [_ N].
    split; [apply (j_live _ _ I); exact A|split].
    - intros ->. apply N. apply in_or_app. left. apply in_or_app. right. left. reflexivity.
    - rewrite H. destruct m as [|w m]; simpl; apply Nat.eqb_neq; intros ->; apply N; simpl; left; reflexivity. }
  assert (LN : forall n, d_next d x = Some n -> d_live d n = true /\ n <> x).
  { intros n Hn. rewrite R2 in Hn. destruct l2 as [|w r]; [discriminate|]. inversion Hn; subst. split.
    - apply (j_live _ _ I). apply in_or_app. right. right. left. reflexivity.
    - intros ->. apply NoDup_remove in N. destruct N as [_ N]. apply N. apply in_or_app. right. left. reflexivity. }
  assert (L0 : d_prev d x = None -> l1 = [] /\ is_ptr (d_head d) x = true).
  { intros Hp. rewrite R3 in Hp. destruct (snoc_cases l1) as [->|(m & z & ->)]; [|rewrite lastp_snoc in Hp; discriminate].
    split; [reflexivity|]. rewrite H. simpl. apply Nat.eqb_refl. }
  set (hd := match d_prev d x with Some _ => d_head d | None => d_next d x end).
  assert (HD : hd = first (l1 ++ l2) None).
  { unfold hd. destruct (d_prev d x) as [p|] eqn:P.
    - rewrite H. destruct l1; [discriminate R3|reflexivity].
    - destruct (L0 eq_refl) as [-> _]. exact R2. }
  pose proof (dinv_shrink d l1 x l2 _ _ hd I R4 HD) as W.
  unfold good. eexists. split; [|split; [exact W|reflexivity]].
  clear W R4. unfold hd in *.
  destruct k; unfold d_step, del_face, del_vertex, dl_prev, dl_next; rewrite LX.
  - destruct (d_next d x) as [n|] eqn:NX.
    + destruct (LN n eq_refl) as [LN1 LN2]. rewrite LN1. cbn [bind d_live d_prev d_next d_head].
      rewrite (setn_ne _ _ n _ x) by congruence. destruct (d_prev d x) as [p|] eqn:PX.
      * destruct (LP p eq_refl) as (-> & _ & _). rewrite NX. reflexivity.
      * destruct (L0 eq_refl) as [_ ->]. rewrite NX. reflexivity.
    + cbn [bind]. destruct (d_prev d x) as [p|] eqn:PX.
      * destruct (LP p eq_refl) as (-> & _ & _). rewrite NX. reflexivity.
      * destruct (L0 eq_refl) as [_ ->]. rewrite NX. reflexivity.
  - destruct (d_prev d x) as [p|] eqn:PX.
    + destruct (LP p eq_refl) as (LP1 & LP2 & LP3). rewrite LP1. cbn [bind d_live d_prev d_next d_head].
      rewrite (setn_ne _ _ p _ x) by congruence. destruct (d_next d x) as [n|] eqn:NX.
      * destruct (LN n eq_refl) as [-> _]. cbn [bind d_head]. rewrite LP3, PX. reflexivity.
      * cbn [bind d_head]. rewrite LP3. reflexivity.
    + cbn [bind]. destruct (L0 eq_refl) as [_ Z0]. destruct (d_next d x) as [n|] eqn:NX.
      * destruct (LN n eq_refl) as [-> _]. cbn [bind d_head d_next]. rewrite Z0, NX, PX. reflexivity.
      * cbn [bind]. rewrite Z0, NX. reflexivity.
Qed.

Lemma drun_ok : forall k os d l, dinv d l ->
  match ls_run os (l, d_new d) with
  | Ok (l', n') => exists d', d_run k os d = Ok d' /\ dinv d' l'
  | Ub => d_run k os d = Ub
  | Fuel => False
  end.
Proof.
  intros k. induction os as [|o os IH]; intros d l I; [simpl; exists d; auto|].
  assert (St : match ls_step o (l, d_new d) with
    | Ok (l', n') => good d l' n' (d_step k o d)
    | Ub => d_step k o d = Ub
    | Fuel => False end).
  { destruct o as [|x]; [apply dadd_ok; exact I|apply ddel_ok; exact I]. }
  cbn [ls_run d_run]. destruct (ls_step o (l, d_new d)) as [[l' n']| |].
  - destruct St as (d' & -> & I' & <-). cbn [bind]. apply IH. exact I'.
  - rewrite St. reflexivity.
  - destruct St.
Qed.

Lemma dwalk_ok : forall d l f p, seg (d_prev d) (d_next d) p l None -> (forall x, In x l -> d_live d x = true) ->
  (length l <= f)%nat -> dl_walk f (first l None) d = Ok l.
Proof.
  intros d l. induction l as [|x r IH]; intros f p S L F; [destruct f; reflexivity|].
  destruct f as [|f]; [simpl in F; lia|]. simpl in S. destruct S as (_ & N & S).
  simpl. rewrite (L x (or_introl eq_refl)), N. rewrite (IH f (Some x)); [reflexivity|exact S| |simpl in F; lia].
  intros y Hy. apply L. right. exact Hy.
Qed.
Lemma dfree_ok : forall l f p d, seg (d_prev d) (d_next d) p l None -> NoDup l ->
  (forall x, d_live d x = true <-> In x l) -> (length l <= f)%nat ->
  exists d', dl_free f (first l None) d = Ok d' /\ forall x, d_live d' x = false.
Proof.
  intros l. induction l as [|x r IH]; intros f p d S N L F.
  - exists d. split; [destruct f; reflexivity|]. intros x. destruct (d_live d x) eqn:E; [|reflexivity]. apply L in E. destruct E.
  - destruct f as [|f]; [simpl in F; lia|]. simpl in S. destruct S as (_ & Nx & S). inversion N; subst.
    simpl. assert (Lx : d_live d x = true) by (apply L; left; reflexivity). rewrite Lx, Nx.
    apply (IH f (Some x)); [exact S|assumption| |simpl in F; lia].
    intros y. simpl. unfold setn. destruct (Nat.eqb_spec y x) as [->|ne].
    + split; [discriminate|contradiction].
    + rewrite L. simpl. split; [intros [G|G]; [congruence|exact G]|auto].
Qed.
Lemma dinv_length : forall d l, dinv d l -> (length l <= d_new d)%nat.
Proof.
  intros d l I. rewrite <- (seq_length (d_new d) 0). apply NoDup_incl_length; [apply (j_nd _ _ I)|].
  intros x Hx. apply in_seq. apply (j_new _ _ I) in Hx. lia.
Qed.
