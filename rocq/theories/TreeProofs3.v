(** Allocation, insertion and removal in the dynamic tree. *)
From Verif Require Import Base Decimal HashSpec HashProofs TreeModel TreeSpec TreeProofs TreeProofs2.
Open Scope Z_scope.

Section Proofs.
Context {T : Type} (o : decimal_ops T) (L : decimal_laws o).
Notation shape := (shape T).
Notation node := (node T).
Notation box := (box T).
Notation dtree := (dtree T).
Notation frame := (@frame T).
Implicit Types (t : dtree) (s l r : shape) (so : option shape) (ns : Z -> option node) (c : list frame).
Local Opaque wrap16.

(** * The representation of the whole tree: [F] the free nodes, [D] nodes taken but not linked *)
Definition occ (x : Z) (F : list Z) : nat := count_occ Z.eq_dec F x.
Definition cnto (x : Z) so : nat := match so with None => 0%nat | Some s => cnt x s end.
Definition sizeo so : Z := match so with None => 0 | Some s => size s end.
Definition nleaveso so : Z := match so with None => 0 | Some s => nleaves s end.
Definition leaveso so : list (Z * (box * option Z)) := match so with None => [] | Some s => leaves s end.
Definition rooted t so : Prop :=
  match so with
  | None => t_root t = NULL
  | Some s => stored (t_nodes t) NULL s /\ tight o s /\ t_root t = root_id s
  end.
Definition inr (x a : Z) : nat := if (0 <=? x) && (x <? a) then 1%nat else 0%nat.
Record Rep t so (F D : list Z) : Prop := {
  r_tree : rooted t so;
  r_free : free_list (t_nodes t) (t_free t) F;
  r_cnt : forall x, (cnto x so + occ x F + occ x D = inr x (t_alloc t))%nat;
  r_n : t_n t = sizeo so + zlen D;
  r_alloc : t_n t + zlen F = t_alloc t;
  r_pos : 1 <= t_alloc t;
  r_def : forall x, 0 <= x < t_alloc t -> exists n, t_nodes t x = Some n
}.

Lemma inr_in : forall x a, 0 <= x < a -> inr x a = 1%nat.
Proof. intros x a H. unfold inr. destruct (Z.leb_spec 0 x); [|lia]. destruct (Z.ltb_spec x a); [reflexivity|lia]. Qed.
Lemma inr_pos : forall x a, (1 <= inr x a)%nat -> 0 <= x < a.
Proof. intros x a. unfold inr. destruct (Z.leb_spec 0 x); destruct (Z.ltb_spec x a); cbn; lia. Qed.
Lemma inr_le : forall x a, (inr x a <= 1)%nat.
Proof. intros x a. unfold inr. destruct ((0 <=? x) && (x <? a)); lia. Qed.
Lemma occ_cons : forall x i F, occ x (i :: F) = (one i x + occ x F)%nat.
Proof. intros. unfold occ, one. cbn. destruct (Z.eq_dec i x); reflexivity. Qed.
Lemma occ_nil : forall x, occ x [] = 0%nat.
Proof. reflexivity. Qed.
Lemma occ_pos : forall x F, (1 <= occ x F)%nat <-> In x F.
Proof. intros. unfold occ. rewrite (count_occ_In Z.eq_dec). lia. Qed.
Lemma occ_zrange : forall x a n, occ x (zrange a n) = if (a <=? x) && (x <? a + n) then 1%nat else 0%nat.
Proof.
  intros x a n. unfold occ. pose proof (NoDup_zrange a n) as N. rewrite (NoDup_count_occ Z.eq_dec) in N. specialize (N x).
  pose proof (count_occ_In Z.eq_dec (zrange a n) x) as C. rewrite In_zrange in C.
  destruct (Z.leb_spec a x); destruct (Z.ltb_spec x (a + n)); cbn [andb]; try lia.
Qed.

Lemma free_frame : forall F ns ns' h, free_list ns h F -> (forall x, In x F -> ns' x = ns x) -> free_list ns' h F.
Proof.
  induction F as [|i F IH]; intros ns ns' h H E; [exact H|]. cbn [free_list] in *. destruct H as (-> & n & A & B & C).
  split; [reflexivity|]. exists n. rewrite E by (left; reflexivity). splits; auto. eapply IH; [exact C|]. intros x Hx. apply E. right. exact Hx.
Qed.
Lemma free_zrange : forall ns n k, (forall i, k <= i < k + n -> exists m, ns i = Some m /\ n_height m = -1 /\ n_link m = if i =? k + n - 1 then NULL else i + 1) ->
  0 < n -> free_list ns k (zrange k n).
Proof.
  intros ns n k H P. assert (P0 : 0 <= n) by lia. revert P k H. pattern n. apply Zlt_0_ind; [|exact P0]. clear n P0. intros n IH _ P k H.
  rewrite zrange_cons by lia. cbn [free_list]. split; [reflexivity|].
  destruct (H k) as (m & A & B & C); [lia|]. exists m. splits; auto. rewrite C. destruct (Z.eqb_spec k (k + n - 1)).
  - assert (n = 1) by lia. subst n. rewrite zrange_nil by lia. reflexivity.
  - apply IH; [lia|lia|]. intros i Hi. replace (k + 1 + (n - 1) - 1) with (k + n - 1) by lia. apply H. lia.
Qed.

Lemma rooted_frame : forall t t' so, rooted t so -> t_root t' = t_root t ->
  (forall x, (1 <= cnto x so)%nat -> t_nodes t' x = t_nodes t x) -> rooted t' so.
Proof.
  intros t t' [s|] H R E; cbn [rooted] in *; [|congruence]. destruct H as (A & B & C). splits; auto; [|congruence].
  eapply stored_frame; [exact A|]. intros x Hx. apply E. cbn. lia.
Qed.

Lemma init_rep : Rep (init_tree o) None (zrange 0 16) [].
Proof.
  constructor.
  - reflexivity.
  - apply (free_zrange _ 16 0); [|lia]. intros i Hi. cbn [init_tree t_nodes].
    destruct (Z.leb_spec 0 i); [|lia]. destruct (Z.ltb_spec i 16); [|lia]. cbn [andb]. eexists. split; [reflexivity|]. split; reflexivity.
  - intros x. cbn [cnto]. rewrite occ_zrange, occ_nil. unfold inr. cbn [init_tree t_alloc]. destruct ((0 <=? x) && (x <? 0 + 16)) eqn:E; cbn in E |- *; rewrite E; reflexivity.
  - reflexivity.
  - reflexivity.
  - cbn. lia.
  - intros x Hx. cbn [init_tree t_alloc t_nodes] in *. destruct (Z.leb_spec 0 x); [|lia]. destruct (Z.ltb_spec x 16); [|lia]. cbn [andb]. eauto.
Qed.

Lemma rep_range : forall t so F D x, Rep t so F D -> (1 <= cnto x so + occ x F + occ x D)%nat -> 0 <= x < t_alloc t.
Proof. intros t so F D x R H. apply inr_pos. rewrite <- (r_cnt _ _ _ _ R). exact H. Qed.
Lemma rep_one : forall t so F D x, Rep t so F D -> (cnto x so + occ x F + occ x D <= 1)%nat.
Proof. intros t so F D x R. rewrite (r_cnt _ _ _ _ R). apply inr_le. Qed.

(** Taking the first free node. *)
Lemma take_ok : forall t so i F D, Rep t so (i :: F) D -> exists t',
  (let f := t_free t in
   let* n := get f t in
   let* t2 := modify f (fun n => w_height 0 (w_link NULL n)) t in
   Ok (mk_dtree (t_nodes t2) (t_root t2) (n_link n) (t_alloc t2) (t_n t2 + 1), f)) = Ok (t', i) /\
  Rep t' so F (i :: D) /\ (exists n, get i t' = Ok n /\ n_height n = 0) /\
  (forall x, x <> i -> t_nodes t' x = t_nodes t x) /\ t_root t' = t_root t.
Proof.
  intros t so i F D R. destruct R as [RT RF RC RN RA RP RD]. cbn [free_list] in RF. destruct RF as (EF & n & A & B & RF).
  assert (RI : 0 <= i < t_alloc t) by (apply inr_pos; rewrite <- RC, occ_cons, one_same; lia).
  cbn zeta. rewrite EF. rewrite (get_ok _ _ _ RI A). cbn [bind]. rewrite (modify_ok _ _ _ _ (get_ok _ _ _ RI A)). cbn [bind].
  eexists. split; [reflexivity|]. cbn [put t_nodes t_root t_free t_alloc t_n].
  assert (E : forall x, x <> i -> upd (t_nodes t) i (Some (w_height 0 (w_link NULL n))) x = t_nodes t x) by (intros x Hx; apply upd_other; exact Hx).
  assert (Q : forall x, (1 <= cnto x so + occ x F + occ x D)%nat -> x <> i).
  { intros x Hx Ei. subst x. specialize (RC i). rewrite occ_cons, one_same in RC. pose proof (inr_le i (t_alloc t)). lia. }
  splits; auto.
  - constructor; cbn [t_nodes t_root t_free t_alloc t_n].
    + eapply rooted_frame; [exact RT|reflexivity|]. intros x Hx. cbn [t_nodes]. apply E, Q. lia.
    + eapply free_frame; [exact RF|]. intros x Hx. apply E, Q. apply occ_pos in Hx. lia.
    + intros x. rewrite <- RC, !occ_cons. lia.
    + rewrite zlen_cons. lia.
    + rewrite zlen_cons in RA. lia.
    + exact RP.
    + intros x Hx. destruct (Z.eq_dec x i) as [->|NX]; [rewrite upd_same; eauto|rewrite E by exact NX; auto].
  - eexists. split; [apply get_ok; cbn; [exact RI|apply upd_same]|]. cbn. apply wrap16_id. lia.
Qed.

Lemma allocate_ok : forall t so F D, Rep t so F D -> sizeo so + zlen D < 2 ^ 30 -> exists t' i F',
  allocate_node o t = Ok (t', i) /\ Rep t' so F' (i :: D) /\ (exists n, get i t' = Ok n /\ n_height n = 0) /\
  (forall x, (1 <= cnto x so + occ x D)%nat -> t_nodes t' x = t_nodes t x) /\ t_root t' = t_root t /\
  cnto i so = 0%nat /\ occ i D = 0%nat.
Proof.
  intros t so F D R SZ.
  assert (FRESH : forall t' i F', Rep t' so F' (i :: D) -> cnto i so = 0%nat /\ occ i D = 0%nat).
  { intros t' i F' R'. pose proof (rep_one _ _ _ _ i R') as H. rewrite occ_cons, one_same in H. lia. }
  destruct F as [|i F].
  - destruct R as [RT RF RC RN RA RP RD]. cbn [free_list] in RF. rewrite zlen_nil in RA.
    unfold allocate_node. rewrite RF. cbn [Z.eqb NULL Pos.eqb].
    assert (CK : (t_alloc t * 2 <? 2 ^ 31) = true) by (apply Z.ltb_lt; lia). rewrite CK. cbn [check bind].
    set (t1 := mk_dtree _ _ _ _ _).
    assert (AL : t_alloc t1 = t_alloc t * 2) by reflexivity.
    assert (N1 : forall x, 0 <= x < t_alloc t -> t_nodes t1 x = t_nodes t x).
    { intros x Hx. unfold t1. cbn [t_nodes]. destruct (Z.leb_spec 0 x); [|lia]. destruct (Z.ltb_spec x (t_n t)); [reflexivity|lia]. }
    assert (N2 : forall x, t_alloc t <= x < t_alloc t * 2 -> t_nodes t1 x = Some (free_node o (if x =? t_alloc t * 2 - 1 then NULL else x + 1))).
    { intros x Hx. unfold t1. cbn [t_nodes]. destruct (Z.leb_spec 0 x); [|lia]. destruct (Z.ltb_spec x (t_n t)); [lia|]. cbn [andb].
      destruct (Z.ltb_spec x (t_alloc t * 2)); [reflexivity|lia]. }
    assert (R1 : Rep t1 so (zrange (t_alloc t) (t_alloc t)) D).
    { constructor.
      - eapply rooted_frame; [exact RT|reflexivity|]. intros x Hx. apply N1. apply inr_pos. rewrite <- RC. lia.
      - replace (t_free t1) with (t_alloc t) by (unfold t1; cbn; lia). apply free_zrange; [|lia]. intros i Hi. rewrite N2 by lia.
        eexists. split; [reflexivity|]. cbn. split; [reflexivity|]. replace (t_alloc t + t_alloc t - 1) with (t_alloc t * 2 - 1) by lia. reflexivity.
      - intros x. rewrite occ_zrange, AL. specialize (RC x). rewrite occ_nil in RC. unfold inr in *.
        destruct (Z.leb_spec 0 x); destruct (Z.ltb_spec x (t_alloc t)); destruct (Z.leb_spec (t_alloc t) x); destruct (Z.ltb_spec x (t_alloc t + t_alloc t)); destruct (Z.ltb_spec x (t_alloc t * 2)); cbn [andb] in *; lia.
      - exact RN.
      - unfold t1. cbn [t_n t_alloc]. rewrite zlen_zrange by lia. lia.
      - lia.
      - intros x Hx. rewrite AL in Hx. destruct (Z_lt_ge_dec x (t_alloc t)).
        + rewrite N1 by lia. apply RD. lia.
        + rewrite N2 by lia. eauto. }
    clearbody t1. rewrite zrange_cons in R1 by lia.
    destruct (take_ok _ _ _ _ _ R1) as (t' & E & R' & G & FR & RT'). cbn zeta in E. cbn zeta.
    assert (RT1 : t_root t1 = t_root t).
    { destruct R1 as [RT1 _ _ _ _ _ _]. destruct so; cbn in RT, RT1; [destruct RT as (_ & _ & RT), RT1 as (_ & _ & RT1)|]; congruence. }
    exists t', (t_alloc t), (zrange (t_alloc t + 1) (t_alloc t - 1)). splits; auto.
    + intros x Hx. assert (0 <= x < t_alloc t) by (apply inr_pos; rewrite <- RC; lia). rewrite FR by lia. apply N1. lia.
    + congruence.
    + apply (FRESH _ _ _ R').
    + apply (FRESH _ _ _ R').
  - unfold allocate_node.
    assert (NF : (t_free t =? NULL) = false).
    { pose proof (r_free _ _ _ _ R) as RF. cbn [free_list] in RF. destruct RF as (EF & _).
      assert (0 <= i < t_alloc t) by (apply (rep_range _ _ _ _ i R); rewrite occ_cons, one_same; lia). apply Z.eqb_neq. unfold NULL. lia. }
    rewrite NF. cbn [bind]. destruct (take_ok _ _ _ _ _ R) as (t' & E & R' & G & FR & RT').
    exists t', i, F. splits; auto.
    + intros x Hx. apply FR. intros ->. pose proof (FRESH _ _ _ R'). lia.
    + apply (FRESH _ _ _ R').
    + apply (FRESH _ _ _ R').
Qed.

Lemma release_ok : forall t so F D i, Rep t so F (i :: D) -> exists t',
  release_node i t = Ok t' /\ Rep t' so (i :: F) D /\ (forall x, x <> i -> t_nodes t' x = t_nodes t x) /\ t_root t' = t_root t.
Proof.
  intros t so F D i R. destruct R as [RT RF RC RN RA RP RD].
  assert (RI : 0 <= i < t_alloc t) by (apply inr_pos; rewrite <- RC, occ_cons, one_same; lia).
  destruct (RD i RI) as (n & A).
  unfold release_node. rewrite (modify_ok _ _ _ _ (get_ok _ _ _ RI A)). cbn [bind].
  eexists. split; [reflexivity|]. cbn [put t_nodes t_root t_free t_alloc t_n].
  assert (E : forall x, x <> i -> upd (t_nodes t) i (Some (w_height (-1) (w_link (t_free t) n))) x = t_nodes t x) by (intros x Hx; apply upd_other; exact Hx).
  assert (Q : forall x, (1 <= cnto x so + occ x F + occ x D)%nat -> x <> i).
  { intros x Hx Ei. subst x. specialize (RC i). rewrite occ_cons, one_same in RC. pose proof (inr_le i (t_alloc t)). lia. }
  splits; auto. constructor; cbn [t_nodes t_root t_free t_alloc t_n].
  - eapply rooted_frame; [exact RT|reflexivity|]. intros x Hx. cbn [t_nodes]. apply E, Q. lia.
  - cbn [free_list]. split; [reflexivity|]. eexists. split; [apply upd_same|]. cbn [w_height w_link n_height n_link]. split; [apply wrap16_id; lia|].
    eapply free_frame; [exact RF|]. intros x Hx. apply E, Q. apply occ_pos in Hx. lia.
  - intros x. rewrite <- RC, !occ_cons. lia.
  - rewrite zlen_cons in RN. lia.
  - rewrite zlen_cons. lia.
  - exact RP.
  - intros x Hx. destruct (Z.eq_dec x i) as [->|NX]; [rewrite upd_same; eauto|rewrite E by exact NX; auto].
Qed.

(** * Positions in a stored tree *)
Record At ns s (u : shape) c : Prop := {
  at_sub : stored ns (parent_of c) u;
  at_ctx : storedc ns (root_id u) c;
  at_cnt : forall x, (cnt x u + cntc x c = cnt x s)%nat;
  at_leaves : forall y, In y (leaves s) <-> In y (leaves u) \/ In y (leavesc c);
  at_n : nleaves u + nleavesc c = nleaves s;
  at_tight : tight o u /\ tightc o c;
  at_top : top (root_id u) c = root_id s
}.
Lemma at_root : forall ns s, stored ns NULL s -> tight o s -> At ns s s [].
Proof.
  intros. constructor; cbn [parent_of storedc cntc leavesc nleavesc top]; auto; try lia.
  - intros y. cbn. tauto.
  - split; [assumption|constructor].
Qed.
Lemma at_left : forall ns s i b l r c, At ns s (Node i b l r) c -> At ns s l (mk_frame i true r :: c).
Proof.
  intros ns s i b l r c [A B C D E (F1 & F2) G]. cbn [stored] in A. destruct A as (n & A & A1 & A2 & A3 & A4 & A5 & A6 & A7).
  destruct F1 as (F0 & F1 & F3). cbn [root_id] in B, G.
  constructor; cbn [parent_of storedc f_id f_left f_sib cntc leavesc nleavesc top root_id]; auto.
  - splits; auto. exists n. splits; auto. cbn [height] in A2. pose proof (height_bound l). pose proof (height_bound r). lia.
  - intros x. rewrite <- C, cnt_node. lia.
  - intros y. rewrite D. cbn [leaves]. rewrite !in_app_iff. tauto.
  - cbn [nleaves] in E. lia.
  - split; [exact F1|]. constructor; auto.
Qed.
Lemma at_right : forall ns s i b l r c, At ns s (Node i b l r) c -> At ns s r (mk_frame i false l :: c).
Proof.
  intros ns s i b l r c [A B C D E (F1 & F2) G]. cbn [stored] in A. destruct A as (n & A & A1 & A2 & A3 & A4 & A5 & A6 & A7).
  destruct F1 as (F0 & F1 & F3). cbn [root_id] in B, G.
  constructor; cbn [parent_of storedc f_id f_left f_sib cntc leavesc nleavesc top root_id]; auto.
  - splits; auto. exists n. splits; auto. cbn [height] in A2. pose proof (height_bound l). pose proof (height_bound r). lia.
  - intros x. rewrite <- C, cnt_node. lia.
  - intros y. rewrite D. cbn [leaves]. rewrite !in_app_iff. tauto.
  - cbn [nleaves] in E. lia.
  - split; [exact F3|]. constructor; auto.
Qed.
Lemma at_locate : forall ns s u c id b d, At ns s u c -> In (id, (b, d)) (leaves u) -> exists c', At ns s (Leaf id b d) c'.
Proof.
  intros ns s u. induction u as [i b0 d0|i b0 l IHl r IHr]; intros c id b d A H; cbn [leaves] in H.
  - destruct H as [H|[]]. inversion H; subst. eauto.
  - apply in_app_iff in H. destruct H as [H|H]; [eapply IHl; [apply (at_left _ _ _ _ _ _ _ A)|exact H]|eapply IHr; [apply (at_right _ _ _ _ _ _ _ A)|exact H]].
Qed.
Lemma at_frame : forall ns ns' s u c, At ns s u c -> (forall x, (1 <= cnt x s)%nat -> ns' x = ns x) -> At ns' s u c.
Proof.
  intros ns ns' s u c [A B C D E F G] H. constructor; auto.
  - eapply stored_frame; [exact A|]. intros x Hx. apply H. rewrite <- C. lia.
  - eapply storedc_frame; [exact B|]. intros x Hx. apply H. rewrite <- C. lia.
Qed.

Lemma find_sibling_ok : forall t s b u c fuel, At (t_nodes t) s u c -> (forall x, (1 <= cnt x s)%nat -> 0 <= x < t_alloc t) ->
  (Z.to_nat (height u) < fuel)%nat -> exists u' c', find_sibling o fuel b (root_id u) t = Ok (root_id u') /\ At (t_nodes t) s u' c'.
Proof.
  intros t s b u. induction u as [i ub ud|i ub l IHl r IHr]; intros c fuel A R F; (destruct fuel as [|fuel]; [lia|]); cbn [find_sibling root_id].
  - pose proof (at_sub _ _ _ _ A) as S. cbn [stored] in S. destruct S as (n & A1 & A2 & A3 & A4).
    rewrite (get_ok i t n); [|apply R; rewrite <- (at_cnt _ _ _ _ A), cnt_leaf, one_same; lia|exact A1]. cbn [bind].
    unfold is_leaf. rewrite A3. cbn. exists (Leaf i ub ud), c. auto.
  - pose proof (at_sub _ _ _ _ A) as S. cbn [stored] in S. destruct S as (n & A1 & A2 & A3 & A4 & A5 & A6 & A7 & A8).
    pose proof (at_left _ _ _ _ _ _ _ A) as AL. pose proof (at_right _ _ _ _ _ _ _ A) as AR.
    destruct (stored_root _ _ _ A7) as (nl & B1 & _). destruct (stored_root _ _ _ A8) as (nr & B2 & _).
    rewrite (get_ok i t n); [|apply R; rewrite <- (at_cnt _ _ _ _ A), cnt_node, one_same; lia|exact A1]. cbn [bind].
    cbn [height] in A3, F. pose proof (height_bound l). pose proof (height_bound r).
    assert (HL : is_leaf n = false) by (unfold is_leaf; apply Z.eqb_neq; lia). rewrite HL, A5, A6. cbn [rd bind].
    rewrite (get_ok (root_id l) t nl); [|apply R; rewrite <- (at_cnt _ _ _ _ AL); pose proof (cnt_root l); lia|exact B1]. cbn [bind].
    rewrite (get_ok (root_id r) t nr); [|apply R; rewrite <- (at_cnt _ _ _ _ AR); pose proof (cnt_root r); lia|exact B2]. cbn [bind].
    match goal with |- context [if ?cond then Ok i else _] => destruct cond end.
    + exists (Node i ub l r), c. auto.
    + match goal with |- context [if ?cond then root_id l else _] => destruct cond end.
      * eapply IHl; [exact AL|exact R|lia].
      * eapply IHr; [exact AR|exact R|lia].
Qed.
End Proofs.
