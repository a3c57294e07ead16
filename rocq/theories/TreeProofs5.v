(** Histories, overlap queries and ray casts of the dynamic tree. *)
From Verif Require Import Base Decimal HashSpec HashProofs ComponentsProofs TreeModel TreeSpec TreeProofs TreeProofs2 TreeProofs3 TreeProofs4.
Open Scope Z_scope.

Section Proofs.
Context {T : Type} (o : decimal_ops T) (L : decimal_laws o).
Notation shape := (shape T).
Notation node := (node T).
Notation box := (box T).
Notation dtree := (dtree T).
Implicit Types (t : dtree) (s l r : shape) (so : option shape) (ns : Z -> option node) (a : list (Z * (box * Z))).
Local Opaque wrap16.

(** * Storing the data of a leaf *)
Fixpoint tset (id d : Z) s : shape :=
  match s with
  | Leaf i b d' => Leaf i b (if i =? id then Some d else d')
  | Node i b l r => Node i b (tset id d l) (tset id d r)
  end.
Lemma tset_root : forall id d s, root_id (tset id d s) = root_id s.
Proof. intros id d [i b d'|i b l r]; reflexivity. Qed.
Lemma tset_box : forall id d s, root_box (tset id d s) = root_box s.
Proof. intros id d [i b d'|i b l r]; reflexivity. Qed.
Lemma tset_height : forall id d s, height (tset id d s) = height s.
Proof. induction s; cbn [tset height]; congruence. Qed.
Lemma tset_ids : forall id d s, ids (tset id d s) = ids s.
Proof. induction s; cbn [tset ids]; congruence. Qed.
Lemma tset_size : forall id d s, size (tset id d s) = size s.
Proof. induction s; cbn [tset size]; congruence. Qed.
Lemma tset_nleaves : forall id d s, nleaves (tset id d s) = nleaves s.
Proof. induction s; cbn [tset nleaves]; congruence. Qed.
Lemma tset_tight : forall id d s, tight o s -> tight o (tset id d s).
Proof. induction s; cbn [tset tight]; [auto|]. rewrite !tset_box. tauto. Qed.
Lemma tset_leaves : forall id d s y, In y (leaves (tset id d s)) <->
  (fst y <> id /\ In y (leaves s)) \/ (exists b d', y = (id, (b, Some d)) /\ In (id, (b, d')) (leaves s)).
Proof.
  induction s as [i b d'|i b l IHl r IHr]; intros y; cbn [tset leaves].
  - cbn [In]. destruct (Z.eqb_spec i id) as [->|N].
    + split.
      * intros [E|[]]. subst y. right. eauto.
      * intros [(N & H)|(b' & d'' & E & H)]; (destruct H as [E2|H]; [|destruct H]); [subst y; cbn in N; congruence|]. inversion E2; subst. auto.
    + split.
      * intros [E|[]]. subst y. left. cbn. auto.
      * intros [(_ & H)|(b' & d'' & E & H)]; [exact H|]. destruct H as [E2|H]; [congruence|destruct H].
  - rewrite !in_app_iff, IHl, IHr. split.
    + intros [[(A & B)|(b' & d' & A & B)]|[(A & B)|(b' & d' & A & B)]]; [left|right; exists b', d'|left|right; exists b', d']; rewrite ?in_app_iff; tauto.
    + intros [(A & B)|(b' & d' & A & B)]; [|apply in_app_iff in B]; (destruct B as [B|B]; [left|right]); eauto 6.
Qed.
Lemma tset_stored : forall id d s ns n p, stored ns p s -> ns id = Some n -> (forall x, (cnt x s <= 1)%nat) ->
  (cnt id s = 0%nat \/ exists v, In (id, v) (leaves s)) -> stored (upd ns id (Some (w_data d n))) p (tset id d s).
Proof.
  induction s as [i b d'|i b l IHl r IHr]; intros ns n p S E C H; cbn [tset].
  - cbn [stored] in *. destruct S as (m & A1 & A2 & A3 & A4 & A5). destruct (Z.eqb_spec i id) as [->|N].
    + rewrite E in A1. inversion A1; subst m. exists (w_data d n). rewrite upd_same. cbn. auto.
    + exists m. rewrite upd_other by exact N. auto.
  - cbn [stored] in S. destruct S as (m & A1 & A2 & A3 & A4 & A5 & A6 & A7 & A8).
    assert (Q : i <> id /\ (cnt id l = 0%nat \/ exists v, In (id, v) (leaves l)) /\ (cnt id r = 0%nat \/ exists v, In (id, v) (leaves r))).
    { specialize (C id). rewrite cnt_node in C. destruct H as [H|(v & H)].
      - rewrite cnt_node in H. splits; [|left; lia|left; lia]. intros ->. rewrite one_same in H. lia.
      - cbn [leaves] in H. apply in_app_iff in H. destruct H as [H|H]; pose proof (leaf_cnt _ _ _ H) as Q.
        + splits; [intros ->; rewrite one_same in C; lia|right; eauto|left; lia].
        + splits; [intros ->; rewrite one_same in C; lia|left; lia|right; eauto]. }
    destruct Q as (Q1 & Q2 & Q3). cbn [stored]. exists m. rewrite upd_other by exact Q1. rewrite !tset_root. cbn [height] in *. rewrite !tset_height. splits; auto.
    + apply IHl; auto. intros x. specialize (C x). rewrite cnt_node in C. lia.
    + apply IHr; auto. intros x. specialize (C x). rewrite cnt_node in C. lia.
Qed.
Lemma setdata_ok : forall t s F id b d0 d, Rep o t (Some s) F [] -> In (id, (b, d0)) (leaves s) ->
  exists t', modify id (w_data d) t = Ok t' /\ Rep o t' (Some (tset id d s)) F [].
Proof.
  intros t s F id b d0 d R I. pose proof R as R0. destruct R as [(R1 & R2 & R3) RF RC RN RA RP RD].
  pose proof (leaf_cnt _ _ _ I) as C. cbn [cnto] in RC.
  assert (RI : 0 <= id < t_alloc t) by (apply inr_pos; rewrite <- RC; lia).
  assert (LE : forall x, (cnt x s + occ x F <= 1)%nat) by (intros x; pose proof (rep_one _ _ _ _ _ x R0) as Q; cbn [cnto] in Q; lia).
  destruct (RD id RI) as (n & A). rewrite (modify_ok _ _ _ _ (get_ok _ _ _ RI A)). eexists. split; [reflexivity|].
  constructor; cbn [put t_nodes t_root t_free t_alloc t_n rooted cnto sizeo].
  - splits; [|apply tset_tight; exact R2|rewrite tset_root; exact R3]. eapply tset_stored; eauto. intros x. specialize (LE x). lia.
  - eapply free_frame; [exact RF|]. intros x Hx. apply upd_other. intros ->. apply occ_pos in Hx. specialize (LE id). lia.
  - intros x. unfold cnt. rewrite tset_ids. apply RC.
  - rewrite tset_size. exact RN.
  - exact RA.
  - exact RP.
  - intros x Hx. destruct (Z.eq_dec x id) as [->|NX]; [rewrite upd_same; eauto|rewrite upd_other by exact NX; auto].
Qed.

(** * The invariant of histories *)
Variable pct : T.
Record TInv t a so (F : list Z) : Prop := {
  i_rep : Rep o t so F [];
  i_n : nleaveso so = zlen a;
  i_nodup : NoDup (map fst a);
  i_bound : zlen a <= 32768;
  i_live : forall id b d, lookup Z.eqb id a = Some (b, d) -> exists fb, In (id, (fb, Some d)) (leaveso so) /\ (d_le o (d_zero o) pct = true -> within o b fb);
  i_leaf : forall id v, In (id, v) (leaveso so) -> has Z.eqb id a = true
}.

Lemma leaves_unique : forall s i v w, (forall x, (cnt x s <= 1)%nat) -> In (i, v) (leaves s) -> In (i, w) (leaves s) -> v = w.
Proof.
  induction s as [j b d|j b l IHl r IHr]; intros i v w C A B; cbn [leaves] in A, B.
  - destruct A as [A|[]]. destruct B as [B|[]]. congruence.
  - assert (C1 : forall x, (cnt x l <= 1)%nat) by (intros x; specialize (C x); rewrite cnt_node in C; lia).
    assert (C2 : forall x, (cnt x r <= 1)%nat) by (intros x; specialize (C x); rewrite cnt_node in C; lia).
    specialize (C i). rewrite cnt_node in C. apply in_app_iff in A. apply in_app_iff in B.
    destruct A as [A|A]; destruct B as [B|B]; eauto; pose proof (leaf_cnt _ _ _ A); pose proof (leaf_cnt _ _ _ B); lia.
Qed.
Lemma leaveso_unique : forall t so F D i v w, Rep o t so F D -> In (i, v) (leaveso so) -> In (i, w) (leaveso so) -> v = w.
Proof.
  intros t [s|] F D i v w R A B; [|destruct A]. eapply leaves_unique; [|exact A|exact B]. intros x. pose proof (rep_one _ _ _ _ _ x R) as Q. cbn [cnto] in Q. lia.
Qed.
Lemma leaveso_cnt : forall so i v, In (i, v) (leaveso so) -> (1 <= cnto i so)%nat.
Proof. intros [s|] i v H; [|destruct H]. eapply leaf_cnt. exact H. Qed.

Lemma leaf_node : forall s ns p i b d, stored ns p s -> In (i, (b, d)) (leaves s) -> exists n, ns i = Some n /\ n_box n = b /\ n_data n = d /\ n_height n = 0.
Proof.
  induction s as [j jb jd|j jb l IHl r IHr]; intros ns p i b d S H; cbn [leaves stored] in *.
  - destruct H as [H|[]]. inversion H; subst. destruct S as (n & A1 & A2 & A3 & A4 & A5). eauto 6.
  - destruct S as (n & A1 & A2 & A3 & A4 & A5 & A6 & A7 & A8). apply in_app_iff in H. destruct H; eauto.
Qed.
Lemma leaf_get : forall t so F D i b d, Rep o t so F D -> In (i, (b, d)) (leaveso so) -> exists n, get i t = Ok n /\ n_box n = b /\ n_data n = d /\ n_height n = 0.
Proof.
  intros t so F D i b d R H. pose proof (leaveso_cnt _ _ _ H) as C. destruct so as [s|]; [|destruct H].
  destruct (leaf_node _ _ _ _ _ _ (proj1 (r_tree _ _ _ _ _ R)) H) as (n & A & B). exists n. split; [|exact B].
  apply get_ok; [|exact A]. apply (rep_range _ _ _ _ _ i R). lia.
Qed.

Lemma lookup_none_notin : forall (m : list (Z * (box * Z))) k, lookup Z.eqb k m = None -> ~ In k (map fst m).
Proof.
  induction m as [|[k' v] m IH]; intros k H; [intros []|]. cbn [lookup] in H. destruct (Z.eqb_spec k' k) as [E|E]; [discriminate|].
  cbn. intros [Q|Q]; [congruence|]. exact (IH _ H Q).
Qed.
Lemma notin_lookup_none : forall (m : list (Z * (box * Z))) k, ~ In k (map fst m) -> lookup Z.eqb k m = None.
Proof.
  induction m as [|[k' v] m IH]; intros k H; [reflexivity|]. cbn [lookup]. destruct (Z.eqb_spec k' k) as [->|E]; [exfalso; apply H; left; reflexivity|].
  apply IH. intros Q. apply H. right. exact Q.
Qed.
Lemma NoDup_m_remove : forall (m : list (Z * (box * Z))) k, NoDup (map fst m) -> NoDup (map fst (m_remove Z.eqb k m)) /\ ~ In k (map fst (m_remove Z.eqb k m)).
Proof.
  intros m k. unfold m_remove. induction m as [|[k' v] m IH]; intros H; [split; [constructor|intros []]|]. cbn [map fst] in H. inversion H; subst.
  destruct (IH H3) as (A & B). cbn [filter fst]. destruct (Z.eqb_spec k' k) as [E|E]; cbn [negb]; [auto|]. cbn [map fst]. split.
  - constructor; [|exact A]. intros Q. apply H2. apply in_map_iff in Q. destruct Q as ((x & w) & Q1 & Q2). apply filter_In in Q2. cbn in Q1. subst x. apply in_map_iff. exists (k', w). tauto.
  - intros [Q|Q]; [congruence|auto].
Qed.
Lemma m_remove_notin : forall (m : list (Z * (box * Z))) k, ~ In k (map fst m) -> m_remove Z.eqb k m = m.
Proof.
  unfold m_remove. induction m as [|[k' v] m IH]; intros k H; [reflexivity|]. cbn [filter fst]. destruct (Z.eqb_spec k' k) as [->|E].
  - exfalso. apply H. left. reflexivity.
  - cbn [negb]. rewrite IH; [reflexivity|]. intros Q. apply H. right. exact Q.
Qed.
Lemma zlen_m_remove : forall (m : list (Z * (box * Z))) k, NoDup (map fst m) -> has Z.eqb k m = true -> zlen (m_remove Z.eqb k m) = zlen m - 1.
Proof.
  unfold has. induction m as [|[k' v] m IH]; intros k N H; [discriminate|]. cbn [map fst] in N. inversion N; subst. cbn [lookup] in H.
  destruct (Z.eqb_spec k' k) as [->|E].
  - unfold m_remove. cbn [filter fst]. rewrite Z.eqb_refl. cbn [negb]. fold (m_remove Z.eqb k m). rewrite m_remove_notin by assumption. rewrite zlen_cons. lia.
  - unfold m_remove. cbn [filter fst]. destruct (Z.eqb_spec k' k); [congruence|]. cbn [negb]. rewrite !zlen_cons. fold (m_remove Z.eqb k m). rewrite IH by assumption. lia.
Qed.

Lemma init_inv : TInv (init_tree o) [] None (zrange 0 16).
Proof.
  constructor; cbn.
  - apply init_rep.
  - reflexivity.
  - constructor.
  - cbv. discriminate.
  - discriminate.
  - intros id v [].
Qed.

Lemma zlen_size_bound : forall so a, nleaveso so = zlen a -> zlen a <= 32768 -> sizeo so <= 65535.
Proof. intros [s|] a H B; cbn in *; [rewrite size_nleaves; lia|lia]. Qed.

(** Inserting the detached leaf [id]. *)
Lemma add_ok : forall t a so F b d, TInv t a so F -> valid_box o b -> zlen a < 32768 ->
  exists t' id so' F', add_object o pct b d t = Ok (t', id) /\ TInv t' ((id, (b, d)) :: a) so' F' /\ has Z.eqb id a = false /\
    forall y, In y (leaveso so') <-> In y (leaveso so) \/ y = (id, (fat_box o pct b, Some d)).
Proof.
  intros t a so F b d [R N ND B LV LF] V SZ. pose proof (zlen_size_bound _ _ N B) as SB.
  unfold add_object.
  destruct (allocate_ok o t so F [] R) as (t1 & id & F1 & AL & R1 & (n0 & G & H0) & FR & RT & FC & _). { rewrite zlen_nil. lia. }
  rewrite AL. cbn [bind]. rewrite (modify_ok _ _ _ _ G). cbn [bind].
  set (t2 := put id _ t1). pose proof (proj1 (get_inv _ _ _ G)) as RI.
  assert (G2 : get id t2 = Ok (w_box (fat_box o pct b) n0)) by (apply get_put_same'; exact RI).
  rewrite (modify_ok _ _ _ _ G2). cbn [bind]. set (t3 := put id _ t2).
  assert (G3 : get id t3 = Ok (w_height 0 (w_box (fat_box o pct b) n0))) by (apply get_put_same'; exact RI).
  assert (R3 : Rep o t3 so F1 [id]).
  { destruct R1 as [A1 A2 A3 A4 A5 A6 A7].
    assert (E : forall x, x <> id -> t_nodes t3 x = t_nodes t1 x) by (intros x Hx; unfold t3, t2; cbn; rewrite !upd_other by exact Hx; reflexivity).
    assert (OO : forall x, (cnto x so + occ x F1 + one id x <= 1)%nat).
    { intros x. specialize (A3 x). rewrite occ_cons, occ_nil in A3. pose proof (inr_le x (t_alloc t1)). lia. }
    constructor.
    - eapply rooted_frame; [exact A1|reflexivity|]. intros x Hx. apply E. intros ->. specialize (OO id). rewrite one_same in OO. lia.
    - eapply free_frame; [exact A2|]. intros x Hx. apply E. intros ->. apply occ_pos in Hx. specialize (OO id). rewrite one_same in OO. lia.
    - exact A3.
    - exact A4.
    - exact A5.
    - exact A6.
    - intros x Hx. destruct (Z.eq_dec x id) as [->|NX]; [apply get_inv in G3; destruct G3 as (_ & G3); eauto|]. rewrite E by exact NX. apply A7. exact Hx. }
  destruct (insert_ok o L t3 so F1 id _ R3 G3) as (t4 & s4 & F4 & I4 & R4 & LV4 & N4); [cbn; apply wrap16_id; lia|lia|].
  rewrite I4. cbn [bind]. cbn [w_height w_box n_box n_data] in LV4.
  assert (IL : In (id, (fat_box o pct b, n_data n0)) (leaves s4)) by (apply LV4; auto).
  destruct (setdata_ok t4 s4 F4 id _ _ d R4 IL) as (t5 & M5 & R5). rewrite M5. cbn [bind].
  assert (HF : has Z.eqb id a = false).
  { destruct (has Z.eqb id a) eqn:E; [|reflexivity]. unfold has in E. destruct (lookup Z.eqb id a) as [[b0 d0]|] eqn:E2; [|discriminate].
    destruct (LV _ _ _ E2) as (fb & I & _). pose proof (leaveso_cnt _ _ _ I). lia. }
  exists t5, id, (Some (tset id d s4)), F4. split; [reflexivity|]. split; [|split; [exact HF|]].
  2: { intros y. cbn [leaveso]. rewrite tset_leaves. split.
       - intros [(NE & I)|(b' & d' & -> & I)]; apply LV4 in I; destruct I as [I|I]; [auto|subst y; cbn in NE; congruence| |inversion I; subst; auto].
         apply LF in I. congruence.
       - intros [I| ->]; [left|right; eauto]. split; [|apply LV4; auto]. intros E. destruct y as (i & v). cbn in E. subst i. apply LF in I. congruence. }
  assert (HN : lookup Z.eqb id a = None) by (unfold has in HF; destruct (lookup Z.eqb id a); [discriminate|reflexivity]).
  constructor.
  - exact R5.
  - cbn [nleaveso]. rewrite tset_nleaves, N4, zlen_cons. lia.
  - cbn [map fst]. constructor; [apply lookup_none_notin; exact HN|exact ND].
  - rewrite zlen_cons. lia.
  - intros id2 b2 d2 E. cbn [lookup] in E. cbn [leaveso]. destruct (Z.eqb_spec id id2) as [E2|NE].
    + inversion E; subst. exists (fat_box o pct b2). split.
      * apply tset_leaves. right. eauto.
      * intros P. apply contains_within. apply (fat_contains o L); assumption.
    + destruct (LV _ _ _ E) as (fb & I & W). exists fb. split; [|exact W]. apply tset_leaves. left. cbn. split; [congruence|]. apply LV4. auto.
  - intros id2 v I. cbn [leaveso] in I. unfold has. cbn [lookup]. destruct (Z.eqb_spec id id2) as [E2|NE]; [reflexivity|].
    apply tset_leaves in I. destruct I as [(_ & I)|(b' & d' & E & _)]; [|congruence]. apply LV4 in I. destruct I as [I|I]; [|congruence].
    apply (LF _ _ I).
Qed.

Lemma live_leaf : forall t a so F id b d, TInv t a so F -> lookup Z.eqb id a = Some (b, d) -> exists s fb,
  so = Some s /\ In (id, (fb, Some d)) (leaves s) /\ (d_le o (d_zero o) pct = true -> within o b fb).
Proof.
  intros t a so F id b d I H. destruct (i_live _ _ _ _ I _ _ _ H) as (fb & A & B). destruct so as [s|]; [|destruct A]. eauto.
Qed.

Lemma remove_object_ok : forall t a so F id, TInv t a so F -> has Z.eqb id a = true ->
  exists t' so' F', remove_object o id t = Ok t' /\ TInv t' (m_remove Z.eqb id a) so' F'.
Proof.
  intros t a so F id I H. unfold has in H. destruct (lookup Z.eqb id a) as [[b d]|] eqn:E; [|discriminate].
  destruct (live_leaf _ _ _ _ _ _ _ I E) as (s & fb & -> & A & _). destruct I as [R N ND B LV LF]. cbn [nleaveso leaveso] in *.
  destruct (remove_ok o L t s F id _ _ R A) as (t1 & so1 & F1 & R1 & RP1 & LV1 & N1 & _); [lia|].
  unfold remove_object. rewrite R1. cbn [bind]. destruct (release_ok o _ _ _ _ _ RP1) as (t2 & L2 & R2 & _). rewrite L2.
  exists t2, so1, (id :: F1). split; [reflexivity|]. constructor.
  - exact R2.
  - rewrite N1, zlen_m_remove; [lia|exact ND|]. unfold has. rewrite E. reflexivity.
  - apply NoDup_m_remove. exact ND.
  - rewrite zlen_m_remove; [lia|exact ND|]. unfold has. rewrite E. reflexivity.
  - intros id2 b2 d2 E2. rewrite lookup_remove in E2. destruct (Z.eqb_spec id2 id) as [Q|Q]; [discriminate|].
    destruct (LV _ _ _ E2) as (fb2 & I2 & W2). exists fb2. split; [apply LV1; auto|exact W2].
  - intros id2 v I2. apply LV1 in I2. destruct I2 as (I2 & NE). cbn in NE. unfold has. rewrite lookup_remove. destruct (Z.eqb_spec id2 id); [congruence|]. apply (LF _ _ I2).
Qed.

Lemma update_ok : forall t a so F id b0 d b force, TInv t a so F -> lookup Z.eqb id a = Some (b0, d) -> valid_box o b ->
  exists t' (r0 : bool) so' F', update_object o pct id b force t = Ok (t', r0) /\ TInv t' (m_set Z.eqb id (b, d) a) so' F'.
Proof.
  intros t a so F id b0 d b force I E V. destruct (live_leaf _ _ _ _ _ _ _ I E) as (s & fb & -> & A & W0). destruct I as [R N ND B LV LF]. cbn [nleaveso leaveso] in *.
  destruct (leaf_get _ _ _ _ _ _ _ R A) as (n & G & NB & DN & HN). unfold update_object. rewrite G. cbn [bind].
  assert (HH : has Z.eqb id a = true) by (unfold has; rewrite E; reflexivity).
  assert (ZL : zlen (m_set Z.eqb id (b, d) a) = zlen a) by (unfold m_set; rewrite zlen_cons, zlen_m_remove by assumption; lia).
  assert (ND2 : NoDup (map fst (m_set Z.eqb id (b, d) a))).
  { unfold m_set. cbn [map fst]. destruct (NoDup_m_remove a id ND). constructor; assumption. }
  destruct (negb force && contains o (n_box n) b) eqn:CB.
  - apply andb_true_iff in CB. destruct CB as (_ & CB). rewrite NB in CB. apply contains_within in CB.
    exists t, false, (Some s), F. split; [reflexivity|]. constructor; auto; cbn [nleaveso leaveso]; try lia.
    + intros id2 b2 d2 E2. rewrite lookup_set in E2. destruct (Z.eqb_spec id2 id) as [Q|Q]; [|auto]. inversion E2; subst id2 b2 d2. exists fb. auto.
    + intros id2 v I2. unfold has. rewrite lookup_set. destruct (Z.eqb_spec id2 id); [reflexivity|]. apply (LF _ _ I2).
  - clear CB. destruct (remove_ok o L t s F id _ _ R A) as (t1 & so1 & F1 & R1 & RP1 & LV1 & N1 & (n1 & n2 & A1 & G1 & B1 & D1 & H1 & B2 & D2)); [lia|].
    rewrite R1. cbn [bind]. rewrite (modify_ok _ _ _ _ G1). cbn [bind]. set (t2 := put id _ t1). pose proof (proj1 (get_inv _ _ _ G1)) as RI.
    assert (G2 : get id t2 = Ok (w_box (fat_box o pct b) n2)) by (apply get_put_same'; exact RI).
    assert (R2 : Rep o t2 so1 F1 [id]).
    { destruct RP1 as [Q1 Q2 Q3 Q4 Q5 Q6 Q7].
      assert (EQ : forall x, x <> id -> t_nodes t2 x = t_nodes t1 x) by (intros x Hx; unfold t2; cbn; rewrite !upd_other by exact Hx; reflexivity).
      assert (OO : forall x, (cnto x so1 + occ x F1 + one id x <= 1)%nat).
      { intros x. specialize (Q3 x). rewrite occ_cons, occ_nil in Q3. pose proof (inr_le x (t_alloc t1)). lia. }
      constructor.
      - eapply rooted_frame; [exact Q1|reflexivity|]. intros x Hx. apply EQ. intros ->. specialize (OO id). rewrite one_same in OO. lia.
      - eapply free_frame; [exact Q2|]. intros x Hx. apply EQ. intros ->. apply occ_pos in Hx. specialize (OO id). rewrite one_same in OO. lia.
      - exact Q3.
      - exact Q4.
      - exact Q5.
      - exact Q6.
      - intros x Hx. destruct (Z.eq_dec x id) as [->|NX]; [apply get_inv in G2; destruct G2 as (_ & G2); eauto|]. rewrite EQ by exact NX. apply Q7. exact Hx. }
    destruct (insert_ok o L t2 so1 F1 id _ R2 G2) as (t3 & s3 & F3 & I3 & R3 & LV3 & N3); [cbn; exact H1|lia|].
    rewrite I3. cbn [bind]. cbn [w_box n_box n_data] in LV3. rewrite D2 in LV3.
    exists t3, true, (Some s3), F3. split; [reflexivity|]. constructor; auto; cbn [nleaveso leaveso]; try lia.
    + intros id2 b2 d2 E2. rewrite lookup_set in E2. destruct (Z.eqb_spec id2 id) as [Q|Q].
      * inversion E2; subst. exists (fat_box o pct b2). split; [apply LV3; auto|]. intros P. apply contains_within. apply (fat_contains o L); assumption.
      * destruct (LV _ _ _ E2) as (fb2 & I2 & W2). exists fb2. split; [|exact W2]. apply LV3. left. apply LV1. auto.
    + intros id2 v I2. unfold has. rewrite lookup_set. destruct (Z.eqb_spec id2 id); [reflexivity|]. apply LV3 in I2. destruct I2 as [I2|I2]; [|congruence].
      apply LV1 in I2. apply (LF _ _ (proj1 I2)).
Qed.

Lemma history_inv : forall t a, tree_history o pct t a -> exists so F, TInv t a so F.
Proof.
  intros t a H. induction H as [|t a b d t' id H (so & F & I) V Z A|t a id t' H (so & F & I) HI A|t a id b0 d b force t' r H (so & F & I) LK V A].
  - exists None, (zrange 0 16). apply init_inv.
  - destruct (add_ok _ _ _ _ b d I V Z) as (t2 & id2 & so2 & F2 & A2 & I2 & _ & _). rewrite A2 in A. inversion A; subst. eauto.
  - destruct (remove_object_ok _ _ _ _ id I HI) as (t2 & so2 & F2 & A2 & I2). rewrite A2 in A. inversion A; subst. eauto.
  - destruct (update_ok _ _ _ _ _ _ _ b force I LK V) as (t2 & r2 & so2 & F2 & A2 & I2). rewrite A2 in A. inversion A; subst. eauto.
Qed.

(** * Queries *)
Fixpoint found (q : box) s : list Z :=
  match s with
  | Leaf i b _ => if test_collision o q b then [i] else []
  | Node _ b l r => if test_collision o q b then found q r ++ found q l else []
  end.
Definition ssize (ss : list shape) : Z := fold_right (fun s n => size s + n) 0 ss.

Lemma query_loop_ok : forall t q fuel ss out,
  (forall s, In s ss -> (exists p, stored (t_nodes t) p s) /\ forall x, (1 <= cnt x s)%nat -> 0 <= x < t_alloc t) ->
  ssize ss <= Z.of_nat fuel -> query_loop o fuel q (map (fun s => root_id s) ss) out t = Ok (out ++ concat (map (found q) ss)).
Proof.
  intros t q. induction fuel as [|fuel IH]; intros ss out H F; destruct ss as [|s ss]; cbn [map query_loop concat].
  - rewrite app_nil_r. reflexivity.
  - cbn [ssize fold_right] in F. pose proof (size_pos s). fold (ssize ss) in F.
    assert (0 <= ssize ss) by (clear; induction ss; cbn [ssize fold_right]; [lia|]; pose proof (size_pos a); fold (ssize ss); lia). lia.
  - rewrite app_nil_r. reflexivity.
  - cbn [ssize fold_right] in F. fold (ssize ss) in F. pose proof (size_pos s) as SP.
    destruct (H s (or_introl eq_refl)) as ((p & S) & RG). destruct (stored_root _ _ _ S) as (n & A & _ & HN & BN).
    pose proof (RG _ (cnt_root s)) as RR. assert (NN : (root_id s =? NULL) = false) by (apply Z.eqb_neq; unfold NULL; lia).
    rewrite NN, (get_ok _ _ _ RR A). cbn [bind]. rewrite BN.
    assert (HS : forall s', In s' ss -> (exists p, stored (t_nodes t) p s') /\ forall x, (1 <= cnt x s')%nat -> 0 <= x < t_alloc t) by (intros s' Hs; apply H; right; exact Hs).
    destruct s as [i b d|i b l r]; cbn [root_box found root_id] in *.
    + unfold is_leaf. rewrite HN. cbn [height Z.eqb]. destruct (test_collision o q b); rewrite IH by (auto; cbn [size] in F; lia).
      * rewrite <- app_assoc. reflexivity.
      * reflexivity.
    + assert (IL : is_leaf n = false).
      { unfold is_leaf. rewrite HN. cbn [height]. pose proof (height_bound l). pose proof (height_bound r). apply Z.eqb_neq. lia. }
      rewrite IL. destruct (test_collision o q b); [|rewrite IH by (auto; cbn [size] in F; pose proof (size_pos l); pose proof (size_pos r); lia); reflexivity].
      cbn [stored] in S. destruct S as (n' & A' & _ & _ & _ & C0 & C1 & SL & SR). rewrite A' in A. inversion A; subst n'.
      rewrite C0, C1. cbn [rd bind].
      change (root_id r :: root_id l :: map (fun s => root_id s) ss) with (map (fun s => root_id s) (r :: l :: ss)). rewrite IH.
      * cbn [map concat]. rewrite <- app_assoc. reflexivity.
      * intros s' [<-|[<-|Hs]]; [split; [eauto|]|split; [eauto|]|auto]; intros x Hx; apply RG; rewrite cnt_node; lia.
      * cbn [ssize fold_right]. fold (ssize ss). cbn [size] in F. lia.
Qed.

Lemma found_spec : forall q s i, tight o s -> (In i (found q s) <-> exists b d, In (i, (b, d)) (leaves s) /\ overlap o q b).
Proof.
  intros q s i. induction s as [j b d|j b l IHl r IHr]; intros TI; cbn [found leaves tight] in *.
  - destruct (test_collision o q b) eqn:E.
    + apply (test_collision_overlap o L) in E. split.
      * intros [->|[]]. exists b, d. split; [left; reflexivity|exact E].
      * intros (b' & d' & [H|[]] & _). inversion H; subst. left. reflexivity.
    + split; [intros []|]. intros (b' & d' & [H|[]] & O). inversion H; subst. apply (test_collision_overlap o L) in O. congruence.
  - destruct TI as ((J1 & J2 & _) & T1 & T2). specialize (IHl T1). specialize (IHr T2).
    assert (IN : forall s, tight o s -> forall i b d, In (i, (b, d)) (leaves s) -> within o b (root_box s)).
    { clear - L. induction s as [j b d|j b l IHl r IHr]; intros TT i b' d' H; cbn [leaves tight root_box] in *.
      - destruct H as [H|[]]. inversion H; subst. apply (within_refl o L).
      - destruct TT as ((J1 & J2 & _) & T1 & T2). apply in_app_iff in H. destruct H as [H|H]; [eapply (within_trans o L); [apply (IHl T1 _ _ _ H)|exact J1]|eapply (within_trans o L); [apply (IHr T2 _ _ _ H)|exact J2]]. }
    destruct (test_collision o q b) eqn:E.
    + rewrite in_app_iff, IHl, IHr. split.
      * intros [(b' & d' & A & B)|(b' & d' & A & B)]; exists b', d'; rewrite in_app_iff; tauto.
      * intros (b' & d' & A & B). apply in_app_iff in A. destruct A; [right|left]; eauto.
    + split; [intros []|]. intros (b' & d' & A & B). exfalso. apply in_app_iff in A.
      assert (W : within o b' b).
      { destruct A as [A|A]; [eapply (within_trans o L); [apply (IN l T1 _ _ _ A)|exact J1]|eapply (within_trans o L); [apply (IN r T2 _ _ _ A)|exact J2]]. }
      pose proof (overlap_mono o L _ _ _ W B) as O. apply (test_collision_overlap o L) in O. congruence.
Qed.
Lemma NoDup_app2 : forall (l1 l2 : list Z), NoDup l1 -> NoDup l2 -> (forall x, In x l1 -> In x l2 -> False) -> NoDup (l1 ++ l2).
Proof.
  induction l1 as [|x l1 IH]; intros l2 N1 N2 D; [exact N2|]. inversion N1; subst. cbn. constructor.
  - rewrite in_app_iff. intros [Q|Q]; [auto|]. apply (D x); [left; reflexivity|exact Q].
  - apply IH; auto. intros y Y1 Y2. apply (D y); [right; exact Y1|exact Y2].
Qed.
Lemma found_nodup : forall q s, (forall x, (cnt x s <= 1)%nat) -> NoDup (found q s) /\ forall x, In x (found q s) -> (1 <= cnt x s)%nat.
Proof.
  intros q s. induction s as [j b d|j b l IHl r IHr]; intros C; cbn [found].
  - destruct (test_collision o q b); [|split; [constructor|intros x []]]. split; [repeat constructor; intros []|].
    intros x [<-|[]]. rewrite cnt_leaf, one_same. lia.
  - destruct (test_collision o q b); [|split; [constructor|intros x []]].
    destruct IHl as (A1 & A2). { intros x. specialize (C x). rewrite cnt_node in C. lia. }
    destruct IHr as (B1 & B2). { intros x. specialize (C x). rewrite cnt_node in C. lia. }
    split.
    + apply NoDup_app2; [exact B1|exact A1|]. intros x X1 X2. specialize (C x). rewrite cnt_node in C. specialize (B2 _ X1). specialize (A2 _ X2). lia.
    + intros x Hx. rewrite cnt_node. apply in_app_iff in Hx. destruct Hx as [Hx|Hx]; [specialize (B2 _ Hx)|specialize (A2 _ Hx)]; lia.
Qed.
End Proofs.
