(** Insertion and removal of leaves in the dynamic tree. *)
From Verif Require Import Base Decimal HashSpec HashProofs TreeModel TreeSpec TreeProofs TreeProofs2 TreeProofs3.
Open Scope Z_scope.

Section Proofs.
Context {T : Type} (o : decimal_ops T) (L : decimal_laws o).
Notation shape := (shape T).
Notation node := (node T).
Notation box := (box T).
Notation dtree := (dtree T).
Notation frame := (@frame T).
Implicit Types (t : dtree) (s l r : shape) (so : option shape) (ns : Z -> option node) (c : list frame).
Local Opaque wrap16.

Lemma stored_def : forall s ns p x, stored ns p s -> (1 <= cnt x s)%nat -> exists n, ns x = Some n.
Proof.
  induction s as [i b d|i b l IHl r IHr]; intros ns p x S C; cbn [stored] in S.
  - destruct S as (n & A & _). rewrite cnt_leaf in C. apply one_pos in C. subst x. eauto.
  - destruct S as (n & A & _ & _ & _ & _ & _ & S1 & S2). rewrite cnt_node in C.
    destruct (Z.eq_dec i x) as [->|N]; [eauto|]. rewrite one_other in C by exact N.
    destruct (Nat.eq_dec (cnt x l) 0); [eapply IHr|eapply IHl]; eauto; lia.
Qed.

Lemma done_rep : forall t t' K LV n s F D, Done o t t' K LV n s -> free_list (t_nodes t) (t_free t) F ->
  (forall x, (K x + occ x F + occ x D = inr x (t_alloc t))%nat) -> t_n t = 2 * n - 1 + zlen D -> t_n t + zlen F = t_alloc t ->
  1 <= t_alloc t -> (forall x, In x D -> exists m, t_nodes t x = Some m) -> Rep o t' (Some s) F D.
Proof.
  intros t t' K LV n s F D [D1 D2 D3 D4 D5 D6 (E1 & E2 & E3 & E4)] FR C N A P DD.
  assert (FR' : free_list (t_nodes t') (t_free t') F).
  { rewrite E1. eapply free_frame; [exact FR|]. intros x Hx. apply E4. apply occ_pos in Hx. specialize (C x). pose proof (inr_le x (t_alloc t)). lia. }
  constructor.
  - cbn. auto.
  - exact FR'.
  - intros x. cbn [cnto]. rewrite D4, E2. apply C.
  - rewrite E3, N. cbn [sizeo]. rewrite size_nleaves, D6. reflexivity.
  - rewrite E2, E3. exact A.
  - rewrite E2. exact P.
  - intros x Hx. rewrite E2 in Hx. pose proof (C x) as Cx. rewrite (inr_in _ _ Hx) in Cx.
    destruct (Nat.eq_dec (K x) 0) as [K0|K1].
    + destruct (Nat.eq_dec (occ x D) 0) as [O0|O1].
      * assert (I : In x F) by (apply occ_pos; lia). clear - I FR'. revert FR'. generalize (t_free t'). induction F as [|i F IH]; intros h H; [destruct I|].
        cbn [free_list] in H. destruct H as (_ & m & A & _ & H). destruct I as [->|I]; [eauto|eapply IH; eauto].
      * rewrite E4 by exact K0. apply DD. apply occ_pos. lia.
    + eapply stored_def; [exact D1|]. rewrite D4. lia.
Qed.

(** [new] takes the place of the subtree [u], whose sibling becomes the leaf [id]. *)
Lemma attach_ok : forall t s u c new id (n0 nn nu : node), At o (t_nodes t) s u c ->
  (forall x, (cnt x s + one new x + one id x <= 1)%nat) -> (forall x, (1 <= cnt x s)%nat -> 0 <= x < t_alloc t) ->
  t_root t = root_id s -> get new t = Ok n0 -> get id t = Ok nn -> get (root_id u) t = Ok nu -> n_height nn = 0 -> nleaves s < 32768 ->
  exists t', 
    (let old := parent_of c in
     let* t := modify new (w_link old) t in
     let* nsb := get (root_id u) t in
     let* t := modify new (w_box (merge o (n_box nsb) (n_box nn))) t in
     let* nsb := get (root_id u) t in
     let* t := modify new (w_height (n_height nsb + 1)) t in
     let* t :=
       (if negb (old =? NULL) then
          let* no := get old t in
          let* ch := rd (n_c0 no) in
          let* t := (if ch =? root_id u then modify old (w_c0 new) t else modify old (w_c1 new) t) in
          let* t := modify new (w_c0 (root_id u)) t in
          let* t := modify new (w_c1 id) t in
          let* t := modify (root_id u) (w_link new) t in
          modify id (w_link new) t
        else
          let* t := modify new (w_c0 (root_id u)) t in
          let* t := modify new (w_c1 id) t in
          let* t := modify (root_id u) (w_link new) t in
          let* t := modify id (w_link new) t in
          Ok (with_root new t)) in
     Ok t) = Ok t' /\
    WInv o t' new u (Leaf id (n_box nn) (n_data nn)) c /\ same_rest t t' (fun x => (cnt x s + one new x + one id x)%nat) /\
    get id t' = Ok (w_link new nn).
Proof.
  intros t s u c new id n0 nn nu A C1 R ROOT GN GI GU HN NLS.
  destruct A as [AS AC ACN ALV AN (AT1 & AT2) ATOP].
  pose proof (proj1 (get_inv _ _ _ GN)) as RN. pose proof (proj1 (get_inv _ _ _ GI)) as RI. pose proof (proj1 (get_inv _ _ _ GU)) as RU.
  assert (N1 : new <> id). { intros E. specialize (C1 id). rewrite E, one_same in C1. lia. }
  assert (XU : (1 <= cnt (root_id u) s)%nat) by (rewrite <- ACN; pose proof (cnt_root u); lia).
  assert (N2 : new <> root_id u). { intros E. specialize (C1 new). rewrite one_same in C1. rewrite <- E in XU. lia. }
  assert (N3 : id <> root_id u). { intros E. specialize (C1 id). rewrite (one_same id) in C1. rewrite <- E in XU. lia. }
  assert (NS : forall x, (1 <= cnt x s)%nat -> x <> new /\ x <> id).
  { intros x Hx. specialize (C1 x). split; intros ->; rewrite one_same in C1; lia. }
  destruct (stored_root _ _ _ AS) as (nu' & AU & _ & HU & BU). apply get_inv in GU. destruct GU as (_ & GU). rewrite AU in GU. inversion GU; subst nu'. clear GU.
  assert (GU : get (root_id u) t = Ok nu) by (apply get_ok; assumption).
  cbn zeta.
  rewrite (modify_ok _ _ _ _ GN). cbn [bind]. rewrite get_put_other by (apply not_eq_sym; assumption). rewrite GU. cbn [bind].
  set (t1 := put new _ t). assert (G1 : get new t1 = Ok (w_link (parent_of c) n0)) by (apply get_put_same'; exact RN).
  rewrite (modify_ok _ _ _ _ G1). cbn [bind]. rewrite get_put_other by (apply not_eq_sym; assumption).
  assert (GU1 : get (root_id u) t1 = Ok nu) by (unfold t1; rewrite get_put_other by (apply not_eq_sym; assumption); exact GU). rewrite GU1. cbn [bind].
  set (t2 := put new _ t1). assert (G2 : get new t2 = Ok (w_box (merge o (n_box nu) (n_box nn)) (w_link (parent_of c) n0))) by (apply get_put_same'; exact RN).
  rewrite (modify_ok _ _ _ _ G2). cbn [bind]. rewrite HU, BU. set (t3 := put new _ t2).
  assert (G3 : get new t3 = Ok (w_height (height u + 1) (w_box (merge o (root_box u) (n_box nn)) (w_link (parent_of c) n0)))).
  { unfold t3. apply get_put_same'. exact RN. }
  assert (E3 : forall x, x <> new -> t_nodes t3 x = t_nodes t x).
  { intros x Hx. unfold t3, t2, t1. cbn. rewrite !upd_other by exact Hx. reflexivity. }
  assert (REST3 : t_root t3 = t_root t /\ t_free t3 = t_free t /\ t_alloc t3 = t_alloc t /\ t_n t3 = t_n t) by (splits; reflexivity).
  clear G1 GU1 G2. clearbody t3. clear t2 t1.
  set (n3 := w_height (height u + 1) (w_box (merge o (root_box u) (n_box nn)) (w_link (parent_of c) n0))) in *.
  destruct REST3 as (RT3 & FR3 & AL3 & TN3).
  assert (SC3 : storedc (t_nodes t3) (root_id u) c).
  { eapply storedc_frame; [exact AC|]. intros x Hx. apply E3. apply NS. rewrite <- ACN. lia. }
  destruct (redirect_ok t3 (root_id u) new c SC3) as (t4 & R4 & SC4 & RT4 & FR4 & AL4 & TN4 & E4).
  { intros x Hx. rewrite AL3. apply R. rewrite <- ACN. lia. }
  { intros x. specialize (ACN x). specialize (C1 x). lia. }
  { specialize (ACN (root_id u)). specialize (C1 (root_id u)). pose proof (cnt_root u). lia. }
  assert (PC : forall x, (1 <= one new x + one id x + cnt x u)%nat -> x <> parent_of c).
  { intros x Hx E. destruct c as [|f c0].
    - cbn [parent_of] in E. unfold NULL in E. assert (0 <= x < t_alloc t); [|lia].
      destruct (Nat.eq_dec (cnt x u) 0) as [Z0|Z1]; [|apply R; rewrite <- ACN; lia].
      destruct (Z.eq_dec new x) as [<-|NX]; [exact RN|]. rewrite one_other in Hx by exact NX. assert (IX : id = x) by (apply one_pos; lia). rewrite <- IX. exact RI.
    - pose proof (parent_cnt (f :: c0) ltac:(discriminate)) as Q. rewrite <- E in Q. specialize (C1 x). specialize (ACN x). lia. }
  assert (NP : new <> parent_of c) by (apply PC; rewrite one_same; lia).
  assert (IP : id <> parent_of c) by (apply PC; rewrite (one_same id); lia).
  assert (UP : root_id u <> parent_of c) by (apply PC; pose proof (cnt_root u); lia).
  assert (G4 : get new t4 = Ok n3).
  { apply get_ok; [rewrite AL4, AL3; exact RN|]. rewrite E4 by exact NP. apply get_inv in G3. apply G3. }
  assert (GU4 : get (root_id u) t4 = Ok nu).
  { apply get_ok; [rewrite AL4, AL3; exact RU|]. rewrite E4 by exact UP. rewrite E3 by (apply not_eq_sym; exact N2). exact AU. }
  assert (GI4 : get id t4 = Ok nn).
  { apply get_ok; [rewrite AL4, AL3; exact RI|]. rewrite E4 by exact IP. rewrite E3 by (apply not_eq_sym; exact N1). apply get_inv in GI. apply GI. }
  set (t5 := put id (w_link new nn) (put (root_id u) (w_link new nu) (put new (w_c1 id (w_c0 (root_id u) n3)) (put new (w_c0 (root_id u) n3) t4)))).
  assert (AL5 : t_alloc t5 = t_alloc t) by (unfold t5; cbn; congruence).
  assert (W5 : WInv o t5 new u (Leaf id (n_box nn) (n_data nn)) c /\ same_rest t t5 (fun x => (cnt x s + one new x + one id x)%nat) /\ get id t5 = Ok (w_link new nn)).
  { assert (A5 : t_nodes t5 new = Some (w_c1 id (w_c0 (root_id u) n3))).
    { unfold t5. cbn. rewrite upd_other by exact N1. rewrite upd_other by exact N2. apply upd_same. }
    assert (I5 : t_nodes t5 id = Some (w_link new nn)) by (unfold t5; cbn; apply upd_same).
    assert (U5 : t_nodes t5 (root_id u) = Some (w_link new nu)) by (unfold t5; cbn; rewrite upd_other by (apply not_eq_sym; exact N3); apply upd_same).
    assert (E5 : forall x, x <> new -> x <> id -> x <> root_id u -> t_nodes t5 x = t_nodes t4 x).
    { intros x X1 X2 X3. unfold t5. cbn. rewrite !upd_other by assumption. reflexivity. }
    split; [|split].
    - constructor.
      + unfold stale. eexists. split; [exact A5|]. cbn [w_c1 w_c0 n3 w_height w_box w_link n_link n_c0 n_c1 n_height root_id].
        pose proof (height_bound u). pose proof (nleavesc_nonneg c). rewrite wrap16_id by lia. splits; auto; try lia.
        * eapply (stored_reparent u (t_nodes t)); [exact AS|exact AU|exact U5| |].
          -- pose proof (cnt_root u). specialize (ACN (root_id u)). specialize (C1 (root_id u)). lia.
          -- intros x Hx NX. assert (Q : (1 <= cnt x s)%nat) by (rewrite <- ACN; lia). destruct (NS x Q).
             rewrite E5 by assumption. rewrite E4 by (apply PC; lia). apply E3. assumption.
        * cbn [stored]. exists (w_link new nn). cbn. auto.
      + eapply storedc_frame; [exact SC4|]. intros x Hx. assert (Q : (1 <= cnt x s)%nat) by (rewrite <- ACN; lia). destruct (NS x Q).
        apply E5; try assumption. intros ->. pose proof (cnt_root u). specialize (ACN (root_id u)). specialize (C1 (root_id u)). lia.
      + intros x. rewrite cnt_leaf. specialize (ACN x). specialize (C1 x). lia.
      + intros x Hx. rewrite cnt_leaf in Hx. rewrite AL5. specialize (ACN x).
        destruct (Z.eq_dec new x) as [<-|NX]; [exact RN|]. rewrite one_other in Hx by exact NX.
        destruct (Z.eq_dec id x) as [<-|IX]; [exact RI|]. rewrite one_other in Hx by exact IX. apply R. lia.
      + cbn [nleaves]. lia.
      + splits; auto. exact I.
      + unfold t5. cbn [put t_root]. destruct RT4 as [(C0 & RT4)|(C0 & RT4)].
        * subst c. exact RT4.
        * rewrite RT4, RT3, ROOT, <- ATOP. apply top_nonempty. exact C0.
    - unfold same_rest. splits; try (unfold t5; cbn; congruence).
      intros x Hx. assert (new <> x) by (intros ->; rewrite one_same in Hx; lia). assert (id <> x) by (intros ->; rewrite (one_same x) in Hx; lia).
      assert (x <> root_id u) by (intros ->; lia).
      rewrite E5 by (assumption || (apply not_eq_sym; assumption)).
      destruct c as [|f c0].
      + destruct RT4 as [(_ & RT4)|(C0 & _)]; [|congruence]. cbn in R4. inversion R4; subst t4. cbn [with_root t_nodes]. apply E3. apply not_eq_sym. assumption.
      + rewrite E4; [apply E3; apply not_eq_sym; assumption|]. intros ->. pose proof (parent_cnt (f :: c0) ltac:(discriminate)). specialize (ACN (parent_of (f :: c0))). lia.
    - apply get_ok; [rewrite AL5; exact RI|exact I5]. }
  assert (MODS : (let* t := modify new (w_c0 (root_id u)) t4 in let* t := modify new (w_c1 id) t in
                  let* t := modify (root_id u) (w_link new) t in modify id (w_link new) t) = Ok t5).
  { rewrite (modify_ok _ _ _ _ G4). cbn [bind].
    erewrite (modify_ok new) by (apply get_put_same'; rewrite AL4, AL3; exact RN). cbn [bind].
    erewrite (modify_ok (root_id u)) by (rewrite !get_put_other by (apply not_eq_sym; exact N2); exact GU4). cbn [bind].
    erewrite (modify_ok id) by (rewrite !get_put_other by (assumption || (apply not_eq_sym; exact N1)); exact GI4). reflexivity. }
  exists t5. split; [|exact W5].
  destruct c as [|f c0].
  - cbn [parent_of NULL Z.eqb Pos.eqb negb bind].
    cbn [redirect parent_of NULL Z.eqb Pos.eqb negb] in R4. unfold redirect in R4. cbn in R4. inversion R4. subst t4.
    assert (G4' : get new t3 = Ok n3) by exact G4. assert (GU4' : get (root_id u) t3 = Ok nu) by exact GU4. assert (GI4' : get id t3 = Ok nn) by exact GI4.
    rewrite (modify_ok _ _ _ _ G4'). cbn [bind].
    erewrite (modify_ok new) by (apply get_put_same'; rewrite AL3; exact RN). cbn [bind].
    erewrite (modify_ok (root_id u)) by (rewrite !get_put_other by (apply not_eq_sym; exact N2); exact GU4'). cbn [bind].
    erewrite (modify_ok id) by (rewrite !get_put_other by (assumption || (apply not_eq_sym; exact N1)); exact GI4'). reflexivity.
  - unfold redirect in R4. cbn [parent_of] in R4 |- *.
    assert (NN : (f_id f =? NULL) = false).
    { apply Z.eqb_neq. unfold NULL. assert (0 <= f_id f < t_alloc t); [|lia]. apply R. rewrite <- ACN. cbn [cntc]. rewrite one_same. lia. }
    rewrite NN in R4 |- *. cbn [negb] in R4 |- *.
    destruct (get (f_id f) t3) as [no| |]; cbn [bind] in R4 |- *; try discriminate.
    destruct (rd (n_c0 no)) as [ch| |]; cbn [bind] in R4 |- *; try discriminate. rewrite R4. cbn [bind].
    rewrite MODS. reflexivity.
Qed.

Lemma insert_ok : forall t so F id nn, Rep o t so F [id] -> get id t = Ok nn -> n_height nn = 0 -> nleaveso so < 32768 ->
  exists t' s' F', insert_leaf o id t = Ok t' /\ Rep o t' (Some s') F' [] /\
    (forall y, In y (leaves s') <-> In y (leaveso so) \/ y = (id, (n_box nn, n_data nn))) /\
    nleaves s' = nleaveso so + 1.
Proof.
  intros t so F id nn R G H N. pose proof (proj1 (get_inv _ _ _ G)) as RI. destruct so as [s|].
  - pose proof R as R0. destruct R as [RT RF RC RN RA RP RD]. cbn [rooted cnto sizeo nleaveso] in *. destruct RT as (ST & TI & ROOT).
    assert (RG : forall x, (1 <= cnt x s)%nat -> 0 <= x < t_alloc t) by (intros x Hx; apply inr_pos; rewrite <- RC; lia).
    unfold insert_leaf. assert (NR : (t_root t =? NULL) = false).
    { apply Z.eqb_neq. rewrite ROOT. unfold NULL. pose proof (RG _ (cnt_root s)). lia. }
    rewrite NR, G. cbn [bind]. rewrite ROOT.
    pose proof (height_bound s) as HB. pose proof (size_nleaves s) as SN.
    destruct (find_sibling_ok o t s (n_box nn) s [] (fuel_of t) (at_root _ _ _ ST TI) RG) as (u & c & FS & AT).
    { unfold fuel_of. rewrite zlen_cons, zlen_nil in RN. lia. }
    rewrite FS. cbn [bind].
    destruct (stored_root _ _ _ (at_sub _ _ _ _ _ AT)) as (nu & AU & LU & _).
    assert (XU : (1 <= cnt (root_id u) s)%nat) by (rewrite <- (at_cnt _ _ _ _ _ AT); pose proof (cnt_root u); lia).
    rewrite (get_ok _ _ _ (RG _ XU) AU). cbn [bind]. rewrite LU.
    destruct (allocate_ok o t (Some s) F [id] R0) as (t1 & new & F1 & AL & R1 & (n0 & GN & _) & FR & RT1 & FC & FD).
    { cbn [sizeo]. rewrite zlen_cons, zlen_nil. lia. }
    rewrite AL. cbn [bind]. cbn [cnto] in FC, FR.
    assert (OI : occ id [id] = 1%nat) by (rewrite occ_cons, one_same; reflexivity).
    assert (AT1 : At o (t_nodes t1) s u c) by (eapply at_frame; [exact AT|]; intros x Hx; apply FR; lia).
    assert (RG1 : forall x, (1 <= cnt x s)%nat -> 0 <= x < t_alloc t1) by (intros x Hx; apply (rep_range _ _ _ _ _ x R1); cbn [cnto]; lia).
    assert (AU1 : t_nodes t1 (root_id u) = Some nu) by (rewrite FR by lia; exact AU).
    assert (RI1 : 0 <= id < t_alloc t1) by (apply (rep_range _ _ _ _ _ id R1); rewrite !occ_cons, (one_same id); lia).
    assert (G1 : get id t1 = Ok nn) by (apply get_ok; [exact RI1|]; rewrite FR by lia; apply get_inv in G; apply G).
    destruct (attach_ok t1 s u c new id n0 nn nu AT1) as (t2 & AQ & W2 & (S1 & S2 & S3 & S4) & G2); auto.
    { intros x. pose proof (rep_one _ _ _ _ _ x R1) as Q. rewrite !occ_cons in Q. cbn [cnto] in Q. lia. }
    { congruence. }
    { apply get_ok; [apply RG1; exact XU|exact AU1]. }
    cbn zeta in AQ.
    (* the code and [attach_ok] execute the same steps *)
    destruct (modify new (w_link (parent_of c)) t1) as [a1| |]; cbn [bind] in AQ |- *; try discriminate.
    destruct (get (root_id u) a1) as [b1| |]; cbn [bind] in AQ |- *; try discriminate.
    destruct (modify new (w_box (merge o (n_box b1) (n_box nn))) a1) as [a2| |]; cbn [bind] in AQ |- *; try discriminate.
    destruct (get (root_id u) a2) as [b2| |]; cbn [bind] in AQ |- *; try discriminate.
    destruct (modify new (w_height (n_height b2 + 1)) a2) as [a3| |]; cbn [bind] in AQ |- *; try discriminate.
    match goal with |- context [bind ?m _] => destruct m as [a4| |]; cbn [bind] in AQ |- *; try discriminate end.
    inversion AQ; subst a4. clear AQ. rewrite G2. cbn [bind w_link n_link].
    destruct R1 as [_ RF1 RC1 RN1 RA1 RP1 RD1]. cbn [cnto sizeo] in RC1, RN1.
    assert (NC : nleaves u + nleavesc c = nleaves s) by (apply (at_n _ _ _ _ _ AT)).
    assert (CC : forall x, (cnt x u + cntc x c = cnt x s)%nat) by (apply (at_cnt _ _ _ _ _ AT)).
    rewrite !zlen_cons, zlen_nil in RN1. pose proof (nleaves_pos u) as NPU.
    destruct (fix_up_ok o L c (fuel_of t2) t2 new u (Leaf id (n_box nn) (n_data nn))) as (t3 & s' & R3 & D3).
    { unfold fuel_of. rewrite S3. pose proof (length_sizec c). rewrite (sizec_nleavesc c) in H0. lia. }
    { exact W2. }
    exists t3, s', F1. split; [exact R3|]. splits.
    + eapply done_rep; [exact D3| | | | | |].
      * rewrite S1. eapply free_frame; [exact RF1|]. intros x Hx. apply S4. apply occ_pos in Hx. specialize (RC1 x). rewrite !occ_cons in RC1. pose proof (inr_le x (t_alloc t1)). lia.
      * intros x. rewrite S2, <- RC1, !occ_cons. unfold total. rewrite cnt_leaf, occ_nil. specialize (CC x). lia.
      * rewrite S3, RN1, zlen_nil. cbn [nleaves]. lia.
      * rewrite S2, S3. exact RA1.
      * rewrite S2. exact RP1.
      * intros x [].
    + intros y. rewrite (dn_leaves _ _ _ _ _ _ _ D3). cbn [leaves leaveso]. rewrite !in_app_iff. rewrite (at_leaves _ _ _ _ _ AT y). cbn [In].
      split; [intros [Q|[[Q|[]]|Q]]; auto|intros [[Q|Q]|Q]; auto].
    + rewrite (dn_n _ _ _ _ _ _ _ D3). cbn [nleaves]. lia.
  - destruct R as [RT RF RC RN RA RP RD]. cbn [rooted cnto sizeo nleaveso leaveso] in *.
    unfold insert_leaf. rewrite RT. cbn [Z.eqb NULL Pos.eqb].
    assert (G' : get id (with_root id t) = Ok nn) by exact G. rewrite (modify_ok _ _ _ _ G').
    exists (put id (w_link NULL nn) (with_root id t)), (Leaf id (n_box nn) (n_data nn)), F. split; [reflexivity|]. splits.
    + constructor; cbn [put with_root t_nodes t_root t_free t_alloc t_n rooted cnto sizeo].
      * splits; [|exact I|reflexivity]. cbn [stored]. exists (w_link NULL nn). rewrite upd_same. cbn. auto.
      * eapply free_frame; [exact RF|]. intros x Hx. apply upd_other. intros ->. apply occ_pos in Hx. specialize (RC id). rewrite occ_cons, one_same in RC. pose proof (inr_le id (t_alloc t)). lia.
      * intros x. rewrite <- RC, cnt_leaf, occ_cons, occ_nil. lia.
      * rewrite RN, zlen_cons, zlen_nil. cbn. lia.
      * exact RA.
      * exact RP.
      * intros x Hx. destruct (Z.eq_dec x id) as [->|NX]; [rewrite upd_same; eauto|rewrite upd_other by exact NX; auto].
    + intros y. cbn. split; [intros [Q|[]]; auto|intros [[]|Q]; auto].
    + reflexivity.
Qed.

Lemma top_cnt : forall c i, c <> [] -> (1 <= cntc (top i c) c)%nat.
Proof.
  induction c as [|f c IH]; intros i H; [congruence|]. cbn [top cntc]. destruct c as [|g c].
  - cbn. rewrite one_same. lia.
  - specialize (IH (f_id f) ltac:(discriminate)). lia.
Qed.
Lemma leaf_cnt : forall s i v, In (i, v) (leaves s) -> (1 <= cnt i s)%nat.
Proof.
  induction s as [j b d|j b l IHl r IHr]; intros i v H; cbn [leaves] in H.
  - destruct H as [H|[]]. inversion H; subst. rewrite cnt_leaf, one_same. lia.
  - rewrite cnt_node. apply in_app_iff in H. destruct H as [H|H]; [specialize (IHl _ _ H)|specialize (IHr _ _ H)]; lia.
Qed.
Lemma leafc_cnt : forall c i v, In (i, v) (leavesc c) -> (1 <= cntc i c)%nat.
Proof.
  induction c as [|f c IH]; intros i v H; cbn [leavesc] in H; [destruct H|]. cbn [cntc]. apply in_app_iff in H.
  destruct H as [H|H]; [pose proof (leaf_cnt _ _ _ H)|pose proof (IH _ _ H)]; lia.
Qed.

Lemma remove_ok : forall t s F id b d, Rep o t (Some s) F [] -> In (id, (b, d)) (leaves s) -> nleaves s <= 32768 ->
  exists t' so' F', remove_leaf o id t = Ok t' /\ Rep o t' so' F' [id] /\
    (forall y, In y (leaveso so') <-> In y (leaves s) /\ fst y <> id) /\
    nleaveso so' = nleaves s - 1 /\
    exists n n', t_nodes t id = Some n /\ get id t' = Ok n' /\ n_box n = b /\ n_data n = d /\ n_height n' = 0 /\ n_box n' = b /\ n_data n' = d.
Proof.
  intros t s F id b d R I NLS. pose proof R as R0. destruct R as [RT RF RC RN RA RP RD]. cbn [rooted cnto sizeo] in *. destruct RT as (ST & TI & ROOT).
  rewrite zlen_nil in RN. pose proof (size_nleaves s) as SN.
  assert (RG : forall x, (1 <= cnt x s)%nat -> 0 <= x < t_alloc t) by (intros x Hx; apply inr_pos; rewrite <- RC; lia).
  assert (LE : forall x, (cnt x s + occ x F <= 1)%nat) by (intros x; pose proof (rep_one _ _ _ _ _ x R0) as Q; cbn [cnto] in Q; lia).
  destruct (at_locate o _ _ _ _ _ _ _ (at_root _ _ _ ST TI) I) as (c & AT). destruct AT as [AS AC ACN ALV AN (AT1 & AT2) ATOP].
  cbn [stored] in AS. destruct AS as (n & A1 & A2 & A3 & A4 & A5). cbn [root_id] in *.
  assert (XI : (1 <= cnt id s)%nat) by (rewrite <- ACN, cnt_leaf, one_same; lia).
  assert (LV : forall y, In y (leavesc c) <-> In y (leaves s) /\ fst y <> id).
  { intros y. rewrite ALV. cbn [leaves In]. split.
    - intros Q. split; [auto|]. destruct y as [i v]. cbn. intros ->. pose proof (leafc_cnt _ _ _ Q). specialize (ACN id). rewrite cnt_leaf, one_same in ACN. specialize (LE id). lia.
    - intros ([[Q|[]]|Q] & NQ); [subst y; cbn in NQ; congruence|exact Q]. }
  assert (NI : n_box n = b /\ n_data n = d /\ n_height n = 0) by auto.
  unfold remove_leaf. destruct c as [|f c].
  - cbn [top] in ATOP. rewrite ROOT, <- ATOP, Z.eqb_refl.
    exists (with_root NULL t), None, F. split; [reflexivity|]. splits.
    + constructor; cbn [with_root t_nodes t_root t_free t_alloc t_n rooted cnto sizeo]; auto.
      * intros x. rewrite <- RC, <- ACN, cnt_leaf, occ_cons, occ_nil. cbn [cntc]. lia.
      * rewrite RN, zlen_cons, zlen_nil. cbn [nleaves nleavesc] in AN. lia.
    + exact LV.
    + cbn [nleaveso]. cbn [nleaves nleavesc] in AN. lia.
    + exists n, n. splits; auto; try apply NI. apply get_ok; [apply RG; exact XI|exact A1].
  - assert (NR : (t_root t =? id) = false).
    { apply Z.eqb_neq. rewrite ROOT, <- ATOP. intros E. pose proof (top_cnt (f :: c) id ltac:(discriminate)) as Q. rewrite E in Q.
      specialize (ACN id). rewrite cnt_leaf, one_same in ACN. specialize (LE id). lia. }
    rewrite NR. rewrite (get_ok _ _ _ (RG _ XI) A1). cbn [bind parent_of] in A2 |- *. rewrite A2.
    cbn [storedc] in AC. destruct AC as ((np & B1 & B2 & B3 & B4) & SS & SC).
    assert (XP : (1 <= cnt (f_id f) s)%nat) by (rewrite <- ACN; cbn [cntc]; rewrite one_same; lia).
    assert (XS : forall x, (1 <= cnt x (f_sib f))%nat -> (1 <= cnt x s)%nat) by (intros x Hx; rewrite <- ACN; cbn [cntc]; lia).
    assert (PI : f_id f <> id).
    { intros E. specialize (ACN id). rewrite cnt_leaf, one_same in ACN. cbn [cntc] in ACN. rewrite E, one_same in ACN. specialize (LE id). lia. }
    assert (SI : root_id (f_sib f) <> id).
    { intros E. specialize (ACN id). rewrite cnt_leaf, one_same in ACN. cbn [cntc] in ACN. pose proof (cnt_root (f_sib f)) as Q. rewrite E in Q. specialize (LE id). lia. }
    assert (SP : root_id (f_sib f) <> f_id f).
    { intros E. specialize (ACN (f_id f)). cbn [cntc] in ACN. rewrite one_same in ACN. pose proof (cnt_root (f_sib f)) as Q. rewrite E in Q. specialize (LE (f_id f)). lia. }
    pose proof (get_ok _ _ _ (RG _ XP) B1) as GP. rewrite GP. cbn [bind]. rewrite B2.
    destruct (stored_root _ _ _ SS) as (nsib & D1 & D2 & D3 & D4).
    assert (RSB : 0 <= root_id (f_sib f) < t_alloc t) by (apply RG, XS, cnt_root).
    assert (CH : exists x0, n_c0 np = Some x0 /\ (if x0 =? id then rd (n_c1 np) else rd (n_c0 np)) = Ok (root_id (f_sib f))).
    { destruct (f_left f); destruct B4 as (B4 & B5).
      - exists id. rewrite Z.eqb_refl, B5. auto.
      - exists (root_id (f_sib f)). assert (E : (root_id (f_sib f) =? id) = false) by (apply Z.eqb_neq; exact SI). rewrite E, B4. auto. }
    destruct CH as (x0 & CH0 & CH1). rewrite CH0 in CH1 |- *. cbn [rd bind] in CH1 |- *. rewrite CH1. cbn [bind]. clear CH1.
    destruct c as [|g c].
    + (* the parent is the root *)
      cbn [parent_of NULL Z.eqb Pos.eqb negb] in B2 |- *.
      assert (GS : get (root_id (f_sib f)) (with_root (root_id (f_sib f)) t) = Ok nsib) by (apply get_ok; [exact RSB|exact D1]).
      rewrite (modify_ok _ _ _ _ GS). cbn [bind].
      set (t2 := put (root_id (f_sib f)) (w_link NULL nsib) (with_root (root_id (f_sib f)) t)).
      assert (E2 : forall x, x <> root_id (f_sib f) -> t_nodes t2 x = t_nodes t x) by (intros x Hx; unfold t2; cbn; apply upd_other; exact Hx).
      assert (R2 : Rep o t2 (Some (f_sib f)) F [f_id f; id]).
      { constructor.
        - cbn [rooted]. splits.
          + eapply (stored_reparent (f_sib f) (t_nodes t)); [exact SS|exact D1|unfold t2; cbn; apply upd_same| |].
            * specialize (ACN (root_id (f_sib f))). cbn [cntc] in ACN. pose proof (cnt_root (f_sib f)). specialize (LE (root_id (f_sib f))). lia.
            * intros x _ NX. apply E2. exact NX.
          + inversion AT2; assumption.
          + reflexivity.
        - eapply free_frame; [exact RF|]. intros x Hx. apply E2. intros ->. apply occ_pos in Hx. specialize (LE (root_id (f_sib f))). specialize (XS _ (cnt_root (f_sib f))). lia.
        - intros x. replace (t_alloc t2) with (t_alloc t) by reflexivity. rewrite <- RC, <- ACN, cnt_leaf, !occ_cons, occ_nil. cbn [cnto cntc]. lia.
        - replace (t_n t2) with (t_n t) by reflexivity. rewrite RN, !zlen_cons, zlen_nil. cbn [sizeo]. cbn [nleaves nleavesc] in AN. pose proof (size_nleaves (f_sib f)). lia.
        - exact RA.
        - exact RP.
        - intros x Hx. destruct (Z.eq_dec x (root_id (f_sib f))) as [->|NX]; [unfold t2; cbn; rewrite upd_same; eauto|rewrite E2 by exact NX; auto]. }
      destruct (release_ok o _ _ _ _ _ R2) as (t3 & L3 & R3 & E3 & _).
      exists t3, (Some (f_sib f)), (f_id f :: F). split; [exact L3|]. splits.
      * exact R3.
      * intros y. rewrite <- LV. cbn [leaveso leavesc]. rewrite app_nil_r. tauto.
      * cbn [nleaveso]. cbn [nleaves nleavesc] in AN. lia.
      * exists n, n. splits; auto; try apply NI. apply get_ok; [apply (rep_range _ _ _ _ _ id R3); rewrite !occ_cons, (one_same id); lia|].
        rewrite E3 by (apply not_eq_sym; exact PI). rewrite E2 by (apply not_eq_sym; exact SI). exact A1.
    + (* the grandparent exists *)
      assert (NG : (parent_of (g :: c) =? NULL) = false).
      { apply Z.eqb_neq. cbn [parent_of]. unfold NULL. assert (0 <= f_id g < t_alloc t); [|lia]. apply RG. rewrite <- ACN. cbn [cntc]. rewrite one_same. lia. }
      rewrite NG. cbn [negb].
      destruct (redirect_ok t (f_id f) (root_id (f_sib f)) (g :: c) SC) as (t4 & R4 & SC4 & RT4 & FR4 & AL4 & TN4 & E4).
      { intros x Hx. apply RG. rewrite <- ACN. cbn [cntc] in *. lia. }
      { intros x. specialize (ACN x). specialize (LE x). cbn [cntc] in *. lia. }
      { specialize (ACN (f_id f)). cbn [cntc] in *. rewrite one_same in ACN. specialize (LE (f_id f)). lia. }
      unfold redirect in R4. rewrite NG in R4. cbn [negb] in R4.
      destruct (get (parent_of (g :: c)) t) as [ngr| |]; cbn [bind] in R4 |- *; try discriminate.
      destruct (rd (n_c0 ngr)) as [ch| |]; cbn [bind] in R4 |- *; try discriminate.
      rewrite R4. cbn [bind]. cbn [parent_of] in *.
      assert (PG : forall x, (1 <= one id x + one (f_id f) x + cnt x (f_sib f))%nat -> x <> f_id g).
      { intros x Hx ->. specialize (ACN (f_id g)). rewrite cnt_leaf in ACN. cbn [cntc] in ACN. rewrite (one_same (f_id g)) in ACN. specialize (LE (f_id g)). lia. }
      assert (GS4 : get (root_id (f_sib f)) t4 = Ok nsib).
      { apply get_ok; [rewrite AL4; exact RSB|]. rewrite E4 by (apply PG; pose proof (cnt_root (f_sib f)); lia). exact D1. }
      rewrite (modify_ok _ _ _ _ GS4). cbn [bind].
      unfold release_node. rewrite (modify_ok (f_id f) _ _ np).
      2:{ rewrite get_put_other by (apply not_eq_sym; exact SP). apply get_ok; [rewrite AL4; apply RG; exact XP|]. rewrite E4 by (apply PG; rewrite (one_same (f_id f)); lia). exact B1. }
      cbn [bind put t_nodes t_root t_free t_alloc t_n].
      set (t5 := mk_dtree _ _ _ _ _).
      assert (AL5 : t_alloc t5 = t_alloc t) by exact AL4. assert (TN5 : t_n t5 = t_n t - 1) by (unfold t5; cbn; lia).
      assert (E5 : forall x, x <> f_id f -> x <> root_id (f_sib f) -> t_nodes t5 x = t_nodes t4 x).
      { intros x X1 X2. unfold t5. cbn. rewrite !upd_other by assumption. reflexivity. }
      assert (S5 : t_nodes t5 (root_id (f_sib f)) = Some (w_link (f_id g) nsib)).
      { unfold t5. cbn. rewrite upd_other by exact SP. apply upd_same. }
      assert (SS5 : stored (t_nodes t5) (f_id g) (f_sib f)).
      { eapply (stored_reparent (f_sib f) (t_nodes t)); [exact SS|exact D1|exact S5| |].
        - specialize (ACN (root_id (f_sib f))). cbn [cntc] in ACN. pose proof (cnt_root (f_sib f)). specialize (LE (root_id (f_sib f))). lia.
        - intros x Hx NX. rewrite E5; [apply E4; apply PG; lia| |exact NX]. intros ->. specialize (ACN (f_id f)). cbn [cntc] in ACN. rewrite one_same in ACN. specialize (LE (f_id f)). lia. }
      assert (FX : forall x, (1 <= cntc x (g :: c))%nat -> x <> f_id f /\ x <> root_id (f_sib f)).
      { intros x Hx. split; intros ->.
        - specialize (ACN (f_id f)). cbn [cntc] in *. rewrite one_same in ACN. specialize (LE (f_id f)). lia.
        - specialize (ACN (root_id (f_sib f))). cbn [cntc] in *. pose proof (cnt_root (f_sib f)). specialize (LE (root_id (f_sib f))). lia. }
      assert (SC5 : storedc (t_nodes t5) (root_id (f_sib f)) (g :: c)).
      { eapply storedc_frame; [exact SC4|]. intros x Hx. destruct (FX x Hx). apply E5; assumption. }
      inversion AT2 as [|? ? TS TC]; subst. inversion TC as [|? ? TS2 TC2]; subst.
      cbn [storedc] in SC5. destruct SC5 as ((ngr' & C1 & C2 & C3 & C4) & SG & SCC).
      assert (W5 : WInv o t5 (f_id g) (if f_left g then f_sib f else f_sib g) (if f_left g then f_sib g else f_sib f) c).
      { constructor.
        - unfold stale. exists ngr'. destruct (f_left g); destruct C4; splits; auto.
        - exact SCC.
        - intros x. specialize (ACN x). specialize (LE x). cbn [cntc] in ACN. destruct (f_left g); lia.
        - intros x Hx. rewrite AL5. apply RG. rewrite <- ACN. cbn [cntc]. destruct (f_left g); lia.
        - cbn [nleavesc nleaves] in AN. destruct (f_left g); lia.
        - splits; auto; destruct (f_left g); auto.
        - unfold t5. cbn [t_root]. destruct RT4 as [(X & _)|(_ & RT4)]; [discriminate|]. rewrite RT4, ROOT, <- ATOP. reflexivity. }
      assert (TT : forall x, (total (f_id g) (if f_left g then f_sib f else f_sib g) (if f_left g then f_sib g else f_sib f) c x + one (f_id f) x + one id x = cnt x s)%nat).
      { intros x. rewrite <- ACN, cnt_leaf. unfold total. cbn [cntc]. destruct (f_left g); lia. }
      assert (NN : nleaves (if f_left g then f_sib f else f_sib g) + nleaves (if f_left g then f_sib g else f_sib f) + nleavesc c = nleaves s - 1).
      { cbn [nleaves nleavesc] in AN. destruct (f_left g); lia. }
      assert (FU : (length c + 2 <= fuel_of t5)%nat).
      { unfold fuel_of. rewrite TN5. pose proof (length_sizec c) as Q. rewrite sizec_nleavesc in Q. pose proof (nleaves_pos (f_sib f)). pose proof (nleaves_pos (f_sib g)). destruct (f_left g); lia. }
      destruct (fix_up_ok o L c _ _ _ _ _ FU W5) as (t6 & s' & R6 & DN).
      exists t6, (Some s'), (f_id f :: F). split; [exact R6|]. pose proof DN as DN0. destruct DN as [Z1 Z2 Z3 Z4 Z5 Z6 (Y1 & Y2 & Y3 & Y4)].
      assert (A6 : t_nodes t6 id = Some n).
      { rewrite Y4; [|specialize (TT id); rewrite (one_same id) in TT; specialize (LE id); lia].
        rewrite E5 by (apply not_eq_sym; assumption). rewrite E4 by (apply PG; rewrite (one_same id); lia). exact A1. }
      splits.
      * eapply done_rep; [exact DN0| | | | | |].
        -- unfold t5. cbn [t_nodes t_free free_list]. split; [reflexivity|]. eexists. split; [apply upd_same|]. cbn [w_height w_link n_height n_link]. split; [apply wrap16_id; lia|].
           rewrite FR4. eapply free_frame; [exact RF|]. intros x Hx. apply occ_pos in Hx.
           assert (CX : cnt x s = 0%nat) by (specialize (LE x); lia).
           rewrite upd_other by (intros ->; lia). rewrite upd_other by (intros ->; specialize (XS _ (cnt_root (f_sib f))); lia).
           apply E4. intros ->. specialize (ACN (f_id g)). cbn [cntc] in ACN. rewrite one_same in ACN. lia.
        -- intros x. rewrite AL5, <- RC, !occ_cons, !occ_nil. specialize (TT x). lia.
        -- rewrite TN5, RN, NN, zlen_cons, zlen_nil. lia.
        -- rewrite AL5, TN5, zlen_cons. lia.
        -- rewrite AL5. exact RP.
        -- intros x [<-|[]]. rewrite E5 by (apply not_eq_sym; assumption). rewrite E4 by (apply PG; rewrite (one_same id); lia). eauto.
      * intros y. cbn [leaveso]. rewrite Z5, <- LV. cbn [leavesc]. destruct (f_left g); rewrite !in_app_iff; tauto.
      * cbn [nleaveso]. rewrite Z6. exact NN.
      * exists n, n. splits; auto; try apply NI. apply get_ok; [rewrite Y2, AL5; apply RG; exact XI|exact A6].
Qed.
End Proofs.
