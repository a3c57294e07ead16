(** Balancing and the way back to the root in the dynamic tree. *)
From Verif Require Import Base Decimal HashSpec TreeModel TreeSpec TreeProofs.
Open Scope Z_scope.

Ltac nlia := repeat match goal with H : _ <> _ |- _ => clear H end; lia.

Section Proofs.
Context {T : Type} (o : decimal_ops T) (L : decimal_laws o).
Notation shape := (shape T).
Notation node := (node T).
Notation box := (box T).
Notation dtree := (dtree T).
Notation frame := (@frame T).
Implicit Types (t : dtree) (s l r : shape) (ns : Z -> option node) (c : list frame).
Local Opaque wrap16.

Lemma balance_ok : forall t i l r c, WInv o t i l r c ->
  exists t' i' l' r', balance o i t = Ok (t', i') /\ Step o t i l r t' i' l' r' c.
Proof.
  intros t i l r c W. pose proof W as W0.
  destruct W as [(na & A & LA & K0 & K1 & HA & SL & SR) SC CNT RNG NL _ _].
  assert (RI : 0 <= i < t_alloc t) by (apply RNG; rewrite one_same; lia).
  assert (RL : 0 <= root_id l < t_alloc t) by (apply RNG; pose proof (cnt_root l); lia).
  assert (RR : 0 <= root_id r < t_alloc t) by (apply RNG; pose proof (cnt_root r); lia).
  unfold balance. rewrite (get_ok _ _ _ RI A). cbn [bind].
  destruct (is_leaf na || (n_height na <? 2)). { exists t, i, l, r. split; [reflexivity|apply step_refl; exact W0]. }
  destruct (stored_root _ _ _ SL) as (nl & AL & _ & HL & _). destruct (stored_root _ _ _ SR) as (nr & AR & _ & HR & _).
  rewrite K0, K1. cbn [rd bind]. rewrite (get_ok _ _ _ RL AL). cbn [bind]. rewrite (get_ok _ _ _ RR AR). cbn [bind]. rewrite HL, HR.
  destruct (Z.ltb_spec 1 (height r - height l)).
  - destruct r as [ri rb rd'|ri rb f g]; [pose proof (height_bound l); cbn [height] in *; lia|].
    destruct (rotate_ok o L t i true ri rb f g l c W0) as (t' & l' & r' & R & ST). exists t', ri, l', r'. auto.
  - destruct (Z.ltb_spec (height r - height l) (-1)).
    + destruct l as [ri rb rd'|ri rb f g]; [pose proof (height_bound r); cbn [height] in *; lia|].
      destruct (rotate_ok o L t i false ri rb f g r c W0) as (t' & l' & r' & R & ST). exists t', ri, l', r'. auto.
    + exists t, i, l, r. split; [reflexivity|apply step_refl; exact W0].
Qed.

(** The result of an operation on the whole tree. *)
Record Done t t' (K : Z -> nat) (LV : list (Z * (box * option Z))) (n : Z) s : Prop := {
  dn_stored : stored (t_nodes t') NULL s;
  dn_tight : tight o s;
  dn_root : t_root t' = root_id s;
  dn_cnt : forall x, cnt x s = K x;
  dn_leaves : forall y, In y (leaves s) <-> In y LV;
  dn_n : nleaves s = n;
  dn_rest : same_rest t t' K
}.

(** One turn of the loop: after balancing, the height and the box are recomputed. *)
Lemma refresh_ok : forall t i l r c, WInv o t i l r c ->
  exists t' n, (let* n := get i t in
    let* x0 := rd (n_c0 n) in
    let* x1 := rd (n_c1 n) in
    let* nl := get x0 t in
    let* nr := get x1 t in
    let* t := modify i (w_height (Z.max (n_height nl) (n_height nr) + 1)) t in
    let* nl := get x0 t in
    let* nr := get x1 t in
    let* t := modify i (w_box (merge o (n_box nl) (n_box nr))) t in
    let* n := get i t in Ok (t, n)) = Ok (t', n) /\ n_link n = parent_of c /\
    stored (t_nodes t') (parent_of c) (Node i (merge o (root_box l) (root_box r)) l r) /\
    storedc (t_nodes t') i c /\ same_rest t t' (one i) /\ t_root t' = t_root t.
Proof.
  intros t i l r c [(na & A & LA & K0 & K1 & HA & SL & SR) SC CNT RNG NL _ _].
  assert (RI : 0 <= i < t_alloc t) by (apply RNG; rewrite one_same; lia).
  assert (RL : 0 <= root_id l < t_alloc t) by (apply RNG; pose proof (cnt_root l); lia).
  assert (RR : 0 <= root_id r < t_alloc t) by (apply RNG; pose proof (cnt_root r); lia).
  destruct (stored_root _ _ _ SL) as (nl & AL & _ & HL & BL). destruct (stored_root _ _ _ SR) as (nr & AR & _ & HR & BR).
  assert (D : forall x, (1 <= cnt x l + cnt x r + cntc x c)%nat -> x <> i).
  { intros x Hx E. subst x. specialize (CNT i). rewrite one_same in CNT. lia. }
  assert (NL1 : root_id l <> i) by (apply D; pose proof (cnt_root l); lia).
  assert (NR1 : root_id r <> i) by (apply D; pose proof (cnt_root r); lia).
  pose proof (get_ok _ _ _ RI A) as GI. pose proof (get_ok _ _ _ RL AL) as GL. pose proof (get_ok _ _ _ RR AR) as GR.
  rewrite GI. cbn [bind]. rewrite K0, K1. cbn [rd bind]. rewrite GL. cbn [bind]. rewrite GR. cbn [bind].
  rewrite (modify_ok _ _ _ _ GI). cbn [bind].
  rewrite !get_put_other by assumption. rewrite GL. cbn [bind]. rewrite GR. cbn [bind].
  set (t1 := put i _ t). assert (G1 : get i t1 = Ok (w_height (Z.max (n_height nl) (n_height nr) + 1) na)) by (unfold t1; apply get_put_same'; exact RI).
  rewrite (modify_ok _ _ _ _ G1). cbn [bind].
  set (t2 := put i _ t1). assert (G2 : get i t2 = Ok (w_box (merge o (n_box nl) (n_box nr)) (w_height (Z.max (n_height nl) (n_height nr) + 1) na))).
  { unfold t2. apply get_put_same'. exact RI. }
  rewrite G2. cbn [bind]. eexists t2, _. split; [reflexivity|].
  assert (E : forall x, x <> i -> t_nodes t2 x = t_nodes t x).
  { intros x Hx. unfold t2, t1. cbn. rewrite !upd_other by assumption. reflexivity. }
  apply get_inv in G2. destruct G2 as (_ & A2).
  pose proof (height_bound l) as HBL. pose proof (height_bound r) as HBR. pose proof (nleavesc_nonneg c) as NC. pose proof (nleaves_pos l). pose proof (nleaves_pos r).
  splits.
  - exact LA.
  - cbn [stored height]. eexists. split; [exact A2|]. cbn [w_box w_height n_link n_height n_box n_c0 n_c1]. splits; auto.
    + rewrite HL, HR. apply wrap16_id. lia.
    + rewrite BL, BR. reflexivity.
    + eapply stored_frame; [exact SL|]. intros x Hx. apply E, D. lia.
    + eapply stored_frame; [exact SR|]. intros x Hx. apply E, D. lia.
  - eapply storedc_frame; [exact SC|]. intros x Hx. apply E, D. lia.
  - unfold same_rest. splits; try reflexivity. intros x Hx. apply E. intros ->. rewrite one_same in Hx. lia.
  - reflexivity.
Qed.

Lemma same_rest_trans : forall t1 t2 t3 (K1 K2 K : Z -> nat), same_rest t1 t2 K1 -> same_rest t2 t3 K2 ->
  (forall x, K x = 0%nat -> K1 x = 0%nat /\ K2 x = 0%nat) -> same_rest t1 t3 K.
Proof.
  intros t1 t2 t3 K1 K2 K (A & B & C & D) (A' & B' & C' & D') H. unfold same_rest. splits; try congruence.
  intros x Hx. destruct (H x Hx). rewrite D', D; auto.
Qed.

Lemma fix_up_ok : forall c fuel t i l r, (length c + 2 <= fuel)%nat -> WInv o t i l r c ->
  exists t' s, fix_up o fuel i t = Ok t' /\
    Done t t' (total i l r c) (leaves l ++ leaves r ++ leavesc c) (nleaves l + nleaves r + nleavesc c) s.
Proof.
  induction c as [|f c IH]; intros fuel t i l r FU W.
  - destruct fuel as [|[|fuel]]; [cbn in FU; lia..|]. cbn [fix_up].
    assert (RI : 0 <= i < t_alloc t) by (apply (w_range _ _ _ _ _ _ W); rewrite one_same; lia).
    assert (NN : (i =? NULL) = false) by (apply Z.eqb_neq; unfold NULL; lia). rewrite NN.
    destruct (balance_ok _ _ _ _ _ W) as (t1 & i1 & l1 & r1 & B & (W1 & SR1 & C1 & V1 & N1)). rewrite B. cbn [bind].
    destruct (refresh_ok _ _ _ _ _ W1) as (t2 & n2 & RF & LK & ST & _ & SR2 & RT).
    destruct (get i1 t1) as [n| |]; cbn [bind] in RF |- *; try discriminate.
    destruct (rd (n_c0 n)) as [x0| |]; cbn [bind] in RF |- *; try discriminate. destruct (rd (n_c1 n)) as [x1| |]; cbn [bind] in RF |- *; try discriminate.
    destruct (get x0 t1) as [n0| |]; cbn [bind] in RF |- *; try discriminate. destruct (get x1 t1) as [n1| |]; cbn [bind] in RF |- *; try discriminate.
    destruct (modify i1 _ t1) as [t1'| |]; cbn [bind] in RF |- *; try discriminate.
    destruct (get x0 t1') as [n0'| |]; cbn [bind] in RF |- *; try discriminate. destruct (get x1 t1') as [n1'| |]; cbn [bind] in RF |- *; try discriminate.
    destruct (modify i1 _ t1') as [t1''| |]; cbn [bind] in RF |- *; try discriminate.
    destruct (get i1 t1'') as [n''| |]; cbn [bind] in RF |- *; try discriminate. inversion RF; subst t1'' n''. clear RF.
    rewrite LK. cbn [parent_of]. cbn [Z.eqb NULL Pos.eqb]. exists t2, (Node i1 (merge o (root_box l1) (root_box r1)) l1 r1). split; [reflexivity|].
    destruct W1 as [_ _ CNT1 _ _ (TL & TR & _) ROOT1]. constructor.
    + exact ST.
    + cbn [tight]. splits; auto. apply (merge_join o L).
    + rewrite RT, ROOT1. reflexivity.
    + intros x. rewrite cnt_node. unfold total. cbn [cntc]. specialize (C1 x). lia.
    + intros y. cbn [leaves leavesc]. rewrite app_nil_r. apply V1.
    + cbn [nleaves nleavesc]. lia.
    + eapply same_rest_trans; [exact SR1|exact SR2|]. intros x Hx. split; [exact Hx|]. unfold total in Hx. cbn [cntc] in Hx. specialize (C1 x). lia.
  - destruct fuel as [|fuel]; [cbn in FU; lia|]. cbn [fix_up].
    assert (RI : 0 <= i < t_alloc t) by (apply (w_range _ _ _ _ _ _ W); rewrite one_same; lia).
    assert (NN : (i =? NULL) = false) by (apply Z.eqb_neq; unfold NULL; lia). rewrite NN.
    destruct (balance_ok _ _ _ _ _ W) as (t1 & i1 & l1 & r1 & B & (W1 & SR1 & C1 & V1 & N1)). rewrite B. cbn [bind].
    destruct (refresh_ok _ _ _ _ _ W1) as (t2 & n2 & RF & LK & ST & SCX & SR2 & RT).
    destruct (get i1 t1) as [n| |]; cbn [bind] in RF |- *; try discriminate.
    destruct (rd (n_c0 n)) as [x0| |]; cbn [bind] in RF |- *; try discriminate. destruct (rd (n_c1 n)) as [x1| |]; cbn [bind] in RF |- *; try discriminate.
    destruct (get x0 t1) as [n0| |]; cbn [bind] in RF |- *; try discriminate. destruct (get x1 t1) as [n1| |]; cbn [bind] in RF |- *; try discriminate.
    destruct (modify i1 _ t1) as [t1'| |]; cbn [bind] in RF |- *; try discriminate.
    destruct (get x0 t1') as [n0'| |]; cbn [bind] in RF |- *; try discriminate. destruct (get x1 t1') as [n1'| |]; cbn [bind] in RF |- *; try discriminate.
    destruct (modify i1 _ t1') as [t1''| |]; cbn [bind] in RF |- *; try discriminate.
    destruct (get i1 t1'') as [n''| |]; cbn [bind] in RF |- *; try discriminate. inversion RF; subst t1'' n''. clear RF.
    rewrite LK. cbn [parent_of] in ST |- *.
    set (S1 := Node i1 (merge o (root_box l1) (root_box r1)) l1 r1) in *.
    destruct W1 as [_ _ CNT1 RNG1 NL1 (TL & TR & TC) ROOT1].
    destruct SR2 as (F2 & A2 & M2 & E2).
    cbn [storedc] in SCX. destruct SCX as ((nf & AF & LF & HF & KF) & SS & SC).
    assert (CS : forall x, cnt x S1 = (one i1 x + cnt x l1 + cnt x r1)%nat) by (intros x; unfold S1; apply cnt_node).
    assert (W2 : WInv o t2 (f_id f) (if f_left f then S1 else f_sib f) (if f_left f then f_sib f else S1) c).
    { assert (TS1 : tight o S1) by (unfold S1; cbn [tight]; splits; auto; apply (merge_join o L)).
      inversion TC as [|? ? TC1 TC2]; subst.
      constructor.
      - unfold stale. exists nf. change (root_id S1) with i1 in *. destruct (f_left f); destruct KF; splits; auto.
      - exact SC.
      - intros x. specialize (CNT1 x). cbn [cntc] in CNT1. specialize (CS x). destruct (f_left f); lia.
      - intros x Hx. rewrite A2. apply RNG1. cbn [cntc]. specialize (CS x). destruct (f_left f); lia.
      - cbn [nleavesc] in NL1. destruct (f_left f); cbn [nleaves]; unfold S1; cbn [nleaves]; lia.
      - splits; auto; destruct (f_left f); auto.
      - rewrite RT, ROOT1. reflexivity. }
    destruct (IH fuel _ _ _ _ ltac:(cbn in FU; lia) W2) as (t3 & s & R3 & D3). exists t3, s. split; [exact R3|].
    assert (TT : forall x, total (f_id f) (if f_left f then S1 else f_sib f) (if f_left f then f_sib f else S1) c x = total i l r (f :: c) x).
    { intros x. unfold total. cbn [cntc]. specialize (CS x). specialize (C1 x). destruct (f_left f); lia. }
    destruct D3 as [D1 D2 D3 D4 D5 D6 D7]. constructor; auto.
    + intros x. rewrite D4. apply TT.
    + intros y. rewrite D5. specialize (V1 y). cbn [leavesc]. destruct (f_left f); unfold S1; cbn [leaves]; rewrite !in_app_iff in *; tauto.
    + rewrite D6. cbn [nleavesc]. destruct (f_left f); unfold S1; cbn [nleaves]; lia.
    + eapply same_rest_trans; [exact SR1| |].
      * eapply same_rest_trans; [|exact D7|]; [unfold same_rest; splits; [exact F2|exact A2|exact M2|exact E2]|].
        intros x Hx. instantiate (1 := total i l r (f :: c)) in Hx. rewrite TT. split; [|exact Hx].
        unfold total in Hx. specialize (C1 x). lia.
      * intros x Hx. auto.
Qed.
End Proofs.
