(** Proofs about the calls of a world: the invariant of the broad phase. *)
From Coq Require Import List Arith Lia Bool ZArith.
From Verif Require Import Base Decimal HashSpec TreeModel TreeSpec RayModel RaySpec ComponentsProofs TreeProofs TreeProofs2 TreeProofs3 TreeProofs4 TreeProofs5 TreeProofs6 RayProofs TreeProperties
  VecModel VecProofs GeomSpec ShapeModel ShapeSpec ShapeProofs ShapeProperties TriMeshModel TriMeshSpec TriMeshProofs TriMeshTreeProofs QueryModel QuerySpec.
Import ListNotations.
Local Open Scope R_scope.

(** ** Boxes *)
Lemma unit_mul a b : unit_pose a -> unit_pose b -> unit_pose (tr_mul a b).
Proof. unfold unit_pose. intros A B. change (quat_len2 (quat_mul (t_rot a) (t_rot b)) = 1). rewrite quat_len2_mul, A, B. ring. Qed.
Lemma shape_box_around s t : shape_ok s -> unit_pose t -> forall p, moved t (shape_set s) p -> in_bounds (wshape_box s t) p.
Proof.
  intros S U. destruct s as [r|h|hh r]; cbn [shape_ok shape_set wshape_box] in *.
  - apply C41_sphere; [lra|exact U].
  - apply C41_box; [lra..|exact U].
  - intros p. apply C41_capsule; [lra..|exact U].
Qed.
Lemma shape_set_zero s : shape_ok s -> shape_set s vzero.
Proof.
  destruct s as [r|h|hh r]; cbn [shape_ok shape_set]; intros S.
  - unfold ball. apply dist_le_sq; [lra|]. vunf. cbn. nra.
  - unfold cuboid. cbn [vx vy vz vzero]. lra.
  - apply capsule_iff; [lra..|]. exists 0. cbn. split; [lra|]. nra.
Qed.
Lemma shape_box_ok s t : shape_ok s -> unit_pose t -> box_ok (wshape_box s t).
Proof.
  intros S U. assert (B := shape_box_around s t S U (tr_point t vzero)). unfold in_bounds in B. unfold box_ok.
  assert (M : moved t (shape_set s) (tr_point t vzero)) by (exists vzero; split; [now apply shape_set_zero|reflexivity]). specialize (B M). lra.
Qed.

(** ** The tree *)
Section Inv.
Variable pct : R.
Lemma live_range t a id b d : tree_history real_ops pct t a -> lookup Z.eqb id a = Some (b, d) -> id <> (-1)%Z.
Proof.
  intros H L. destruct (history_inv real_ops real_laws pct t a H) as (so & F & I). destruct (i_live _ _ _ _ _ _ I _ _ _ L) as (fb & A & _).
  destruct (leaf_get real_ops _ _ _ _ _ _ _ (i_rep _ _ _ _ _ _ I) A) as (n & G & _). apply get_inv in G. lia.
Qed.
Lemma live_data t a id b d : tree_history real_ops pct t a -> lookup Z.eqb id a = Some (b, d) -> get_data id t = Ok d.
Proof.
  intros H L. destruct (history_inv real_ops real_laws pct t a H) as (so & F & I). destruct (i_live _ _ _ _ _ _ I _ _ _ L) as (fb & A & _).
  destruct (leaf_get real_ops _ _ _ _ _ _ _ (i_rep _ _ _ _ _ _ I) A) as (n & G & _ & E & _). unfold get_data. rewrite G. cbn [bind]. now rewrite E.
Qed.
Lemma live_keys t a : tree_history real_ops pct t a -> NoDup (map fst a).
Proof. intros H. destruct (history_inv real_ops real_laws pct t a H) as (so & F & I). exact (i_nodup _ _ _ _ _ _ I). Qed.
Lemma in_lookup {A} (a : list (Z * A)) id v : NoDup (map fst a) -> In (id, v) a -> lookup Z.eqb id a = Some v.
Proof.
  induction a as [|[i x] a IH]; intros ND H; [destruct H|]. cbn [map fst] in ND. inversion ND; subst. cbn [lookup]. destruct H as [H|H].
  - injection H as -> ->. now rewrite Z.eqb_refl.
  - destruct (Z.eqb_spec i id) as [->|N]; [|auto]. exfalso. apply H2. apply in_map_iff. exists (id, v). auto.
Qed.

(** ** The invariant *)
(** [D]: the colliders that have still to be moved. *)
Record winv (D : nat -> Prop) (w : qworld) (a : list (Z * (box R * Z))) : Prop :=
  { v_tree : tree_history real_ops pct (qw_tree w) a
  ; v_shape : forall s x, qw_shapes w s = Some x -> shape_ok x /\ (s < qw_next w)%nat
  ; v_body : forall b x, qw_bodies w b = Some x -> unit_pose (wb_pose x) /\ (b < qw_next w)%nat /\ NoDup (wb_colliders x) /\
      forall c, In c (wb_colliders x) -> exists k, qw_colliders w c = Some k /\ wc_body k = b
  ; v_coll : forall c k, qw_colliders w c = Some k -> (c < qw_next w)%nat /\ unit_pose (wc_local k) /\
      exists x s, qw_bodies w (wc_body k) = Some x /\ qw_shapes w (wc_shape k) = Some s /\ In c (wb_colliders x) /\
        (~ D c -> wc_world k = tr_mul (wb_pose x) (wc_local k))
  ; v_node : forall c k, qw_colliders w c = Some k -> wc_node k <> (-1)%Z -> exists b, lookup Z.eqb (wc_node k) a = Some (b, Z.of_nat c) /\
      (~ D c -> wc_resized k = false -> forall x s, qw_bodies w (wc_body k) = Some x -> qw_shapes w (wc_shape k) = Some s ->
        b = tree_box (wshape_box s (tr_mul (wb_pose x) (wc_local k))))
  ; v_owner : forall id b d, lookup Z.eqb id a = Some (b, d) -> exists c k, d = Z.of_nat c /\ qw_colliders w c = Some k /\ wc_node k = id
  ; v_few : at_most 32768 w }.
Definition all_in (w : qworld) : Prop :=
  forall c k x, qw_colliders w c = Some k -> qw_bodies w (wc_body k) = Some x -> (wc_node k = (-1)%Z <-> wb_active x = false).
Definition nothing : nat -> Prop := fun _ => False.
Definition winv' (w : qworld) : Prop := (exists a, winv nothing w a) /\ all_in w.

Lemma at_most_domain n w w' : (forall c, qw_colliders w' c <> None -> qw_colliders w c <> None) -> at_most n w -> at_most n w'.
Proof. intros H A l ND L. apply A; auto. Qed.
Lemma winv_weaken (D D' : nat -> Prop) w a : (forall c, D c -> D' c) -> winv D w a -> winv D' w a.
Proof.
  intros S [T SH BO CO NO OW FE]. constructor; auto.
  - intros c k H. destruct (CO c k H) as (A & B & x & s & C1 & C2 & C3 & C4). split; [exact A|]. split; [exact B|]. exists x, s. repeat (split; [assumption|]). intros ND. apply C4. intros X. apply ND. auto.
  - intros c k H N. destruct (NO c k H N) as (b & A & B). exists b. split; [exact A|]. intros ND. apply B. intros X. apply ND. auto.
Qed.
(** Replacing a collider and the tree. *)
Lemma winv_put (D D' : nat -> Prop) w a c k k' t' a' : winv D w a -> qw_colliders w c = Some k -> wc_body k' = wc_body k -> wc_shape k' = wc_shape k -> unit_pose (wc_local k') ->
  tree_history real_ops pct t' a' ->
  (forall c', c' <> c -> D c' -> D' c') ->
  (~ D' c -> forall x, qw_bodies w (wc_body k) = Some x -> wc_world k' = tr_mul (wb_pose x) (wc_local k')) ->
  (forall id, id <> wc_node k -> id <> wc_node k' -> lookup Z.eqb id a' = lookup Z.eqb id a) ->
  (wc_node k' = wc_node k \/ lookup Z.eqb (wc_node k') a = None) ->
  (wc_node k' = wc_node k \/ lookup Z.eqb (wc_node k) a' = None) ->
  (wc_node k' <> (-1)%Z -> exists b, lookup Z.eqb (wc_node k') a' = Some (b, Z.of_nat c) /\
     (~ D' c -> wc_resized k' = false -> forall x s, qw_bodies w (wc_body k) = Some x -> qw_shapes w (wc_shape k) = Some s ->
        b = tree_box (wshape_box s (tr_mul (wb_pose x) (wc_local k'))))) ->
  winv D' (with_collider c (Some k') (with_tree t' w)) a'.
Proof.
  intros [T SH BO CO NO OW FE] K EB ES UL T' DD PL SAME NEW OLD NODE. constructor; cbn [qw_tree qw_shapes qw_bodies qw_colliders qw_next with_collider with_tree].
  - exact T'.
  - exact SH.
  - intros b x H. destruct (BO b x H) as (B1 & B2 & B3 & B4). repeat (split; [assumption|]). intros d Hd. destruct (B4 d Hd) as (kd & Kd & Ed).
    destruct (Nat.eq_dec d c) as [->|N]; [rewrite nupd_same; exists k'; split; [reflexivity|congruence]|]. rewrite nupd_other by exact N. eauto.
  - intros d kd H. destruct (Nat.eq_dec d c) as [->|N].
    + rewrite nupd_same in H. injection H as <-. destruct (CO c k K) as (A & B & x & s & C1 & C2 & C3 & C4). split; [exact A|]. split; [exact UL|].
      exists x, s. rewrite EB, ES. repeat (split; [assumption|]). intros ND. now apply PL.
    + rewrite nupd_other in H by exact N. destruct (CO d kd H) as (A & B & x & s & C1 & C2 & C3 & C4). split; [exact A|]. split; [exact B|].
      exists x, s. repeat (split; [assumption|]). intros ND. apply C4. auto.
  - intros d kd H NN. destruct (Nat.eq_dec d c) as [->|N].
    + rewrite nupd_same in H. injection H as <-. destruct (NODE NN) as (b & A & B). exists b. rewrite EB, ES. auto.
    + rewrite nupd_other in H by exact N. destruct (NO d kd H NN) as (b & A & B). exists b.
      assert (N1 : wc_node kd <> wc_node k).
      { intros E. assert (X : wc_node k <> (-1)%Z) by congruence. destruct (NO c k K X) as (b' & A' & _). rewrite E, A' in A. injection A as _ E2. apply Nat2Z.inj in E2. congruence. }
      assert (N2 : wc_node kd <> wc_node k'). { intros E. destruct NEW as [NEW|NEW]; [congruence|]. rewrite E, NEW in A. discriminate. }
      split; [rewrite SAME by assumption; exact A|]. intros ND. apply B. auto.
  - intros id b d H. pose proof (live_range t' a' id b d T' H) as RG. destruct (Z.eq_dec id (wc_node k')) as [->|N].
    + destruct (NODE RG) as (b' & A & _). rewrite A in H. injection H as _ <-. exists c, k'. rewrite nupd_same. auto.
    + destruct (Z.eq_dec id (wc_node k)) as [->|N1].
      * destruct OLD as [OLD|OLD]; congruence.
      * rewrite SAME in H by assumption. destruct (OW id b d H) as (c' & kc & E1 & E2 & E3). exists c', kc. split; [exact E1|].
        rewrite nupd_other; [auto|]. intros ->. congruence.
  - eapply at_most_domain; [|exact FE]. cbn [qw_colliders with_collider]. intros d. unfold nupd. destruct (Nat.eqb_spec d c) as [->|N]; [congruence|auto].
Qed.
Lemma collider_place D w a c k : winv D w a -> qw_colliders w c = Some k -> exists x s, qw_bodies w (wc_body k) = Some x /\ qw_shapes w (wc_shape k) = Some s /\ shape_ok s /\
  unit_pose (tr_mul (wb_pose x) (wc_local k)) /\ place_of w k = Ok (tr_mul (wb_pose x) (wc_local k)) /\ box_of w k = Ok (wshape_box s (tr_mul (wb_pose x) (wc_local k))).
Proof.
  intros I K. destruct (v_coll _ _ _ I c k K) as (_ & U & x & s & B & S & _). exists x, s. split; [exact B|]. split; [exact S|]. split; [exact (proj1 (v_shape _ _ _ I _ _ S))|].
  split; [apply unit_mul; [exact (proj1 (v_body _ _ _ I _ _ B))|exact U]|]. unfold box_of, place_of. rewrite B. cbn [rd bind]. rewrite S. auto.
Qed.
(** The tree is smaller than the set of the colliders. *)
Lemma map_data_nodup w : forall (a : list (Z * (box R * Z))), NoDup (map fst a) ->
  (forall id b d, In (id, (b, d)) a -> exists c k, d = Z.of_nat c /\ qw_colliders w c = Some k /\ wc_node k = id) ->
  NoDup (map (fun p => Z.to_nat (snd (snd p))) a).
Proof.
  induction a as [|[id [b d]] a IH]; intros ND H; cbn [map snd]; [constructor|]. cbn [map fst] in ND. inversion ND; subst. constructor.
  - intros X. apply in_map_iff in X. destruct X as ((id' & (b' & d')) & E & I). cbn [snd] in E.
    destruct (H id b d (or_introl eq_refl)) as (c & k & -> & K & NK). destruct (H id' b' d' (or_intror I)) as (c' & k' & -> & K' & NK'). rewrite !Nat2Z.id in E. subst c'.
    rewrite K in K'. injection K' as <-. apply H2. apply in_map_iff. exists (id', (b', Z.of_nat c)). split; [cbn; congruence|exact I].
  - apply IH; [assumption|]. intros. eapply H. right. eassumption.
Qed.
Lemma tree_room D w a c k : winv D w a -> qw_colliders w c = Some k -> wc_node k = (-1)%Z -> (zlen a < 32768)%Z.
Proof.
  intros I K N. pose proof (live_keys _ _ (v_tree _ _ _ I)) as ND.
  assert (O : forall id b d, In (id, (b, d)) a -> exists c k, d = Z.of_nat c /\ qw_colliders w c = Some k /\ wc_node k = id).
  { intros id b d H. apply (v_owner _ _ _ I id b d). now apply in_lookup. }
  assert (F := v_few _ _ _ I (c :: map (fun p => Z.to_nat (snd (snd p))) a)). cbn [length] in F. rewrite map_length in F. unfold zlen.
  assert (Z.of_nat (S (length a)) <= 32768)%Z; [|lia]. apply F.
  - constructor; [|eapply map_data_nodup; eauto]. intros X. apply in_map_iff in X. destruct X as ((id & (b & d)) & E & H). cbn [snd] in E.
    destruct (O id b d H) as (c' & k' & -> & K' & NK). rewrite Nat2Z.id in E. subst c'. rewrite K in K'. injection K' as <-.
    apply (live_range _ _ id b (Z.of_nat c) (v_tree _ _ _ I)); [now apply in_lookup|congruence].
  - intros c' [<-|X]; [congruence|]. apply in_map_iff in X. destruct X as ((id & (b & d)) & E & H). cbn [snd] in E. destruct (O id b d H) as (c'' & k' & -> & K' & NK).
    rewrite Nat2Z.id in E. congruence.
Qed.

(** ** One collider *)
Lemma into_tree_ok D w a c k : winv D w a -> qw_colliders w c = Some k -> wc_node k = (-1)%Z ->
  exists t id a', into_tree pct c w = Ok (with_collider c (Some (with_node id k)) (with_tree t w)) /\ id <> (-1)%Z /\
    winv D (with_collider c (Some (with_node id k)) (with_tree t w)) a'.
Proof.
  intros I K N. destruct (collider_place D w a c k I K) as (x & s & B & S & SO & U & _ & BX). pose proof (shape_box_ok s _ SO U) as BO. apply tree_box_valid in BO.
  pose proof (v_tree _ _ _ I) as TH. destruct (history_inv real_ops real_laws pct _ a TH) as (so & F & TI).
  destruct (add_ok real_ops real_laws pct _ a so F _ (Z.of_nat c) TI BO (tree_room D w a c k I K N)) as (t' & id & so' & F' & E & TI' & HF & _).
  assert (TH' : tree_history real_ops pct t' ((id, (tree_box (wshape_box s (tr_mul (wb_pose x) (wc_local k))), Z.of_nat c)) :: a)) by (eapply th_add; eauto using tree_room).
  assert (LK : lookup Z.eqb id ((id, (tree_box (wshape_box s (tr_mul (wb_pose x) (wc_local k))), Z.of_nat c)) :: a) = Some (tree_box (wshape_box s (tr_mul (wb_pose x) (wc_local k))), Z.of_nat c)).
  { cbn [lookup]. now rewrite Z.eqb_refl. }
  pose proof (live_range _ _ _ _ _ TH' LK) as NID.
  exists t', id, ((id, (tree_box (wshape_box s (tr_mul (wb_pose x) (wc_local k))), Z.of_nat c)) :: a). split; [|split; [exact NID|]].
  - unfold into_tree. rewrite K. cbn [rd bind]. rewrite BX. cbn [bind]. rewrite E. reflexivity.
  - eapply (winv_put D D w a c k (with_node id k)); eauto; cbn [wc_local wc_world wc_node wc_resized with_node].
    + exact (proj1 (proj2 (v_coll _ _ _ I c k K))).
    + intros ND x0 B0. destruct (v_coll _ _ _ I c k K) as (_ & _ & x1 & s1 & C1 & _ & _ & C4). rewrite B0 in C1. injection C1 as <-. auto.
    + intros id' N1 N2. cbn [lookup]. destruct (Z.eqb_spec id id') as [->|]; [contradiction|reflexivity].
    + right. unfold has in HF. destruct (lookup Z.eqb id a); [discriminate|reflexivity].
    + right. cbn [lookup]. rewrite N. destruct (Z.eqb_spec id (-1)%Z) as [->|_]; [contradiction|].
      destruct (lookup Z.eqb (-1)%Z a) as [[b d]|] eqn:L; [|reflexivity]. exfalso. now apply (live_range _ _ _ _ _ TH L).
    + intros _. eexists. split; [exact LK|]. intros _ _ x0 s0 B0 S0. rewrite B in B0. rewrite S in S0. injection B0 as <-. injection S0 as <-. reflexivity.
Qed.
(** Writing the local transform of a collider and its place, then updating the tree. *)
Definition relocated (l p : transform) (k : wcollider) : wcollider :=
  WCollider (wc_body k) (wc_shape k) l p (wc_bits k) (wc_query k) (wc_node k) (if Z.eqb (wc_node k) (-1) then wc_resized k else false).
(** The worlds differ in the tree and in one collider. *)
Record framed (c : nat) (k' : wcollider) (w w' : qworld) : Prop :=
  { f_shapes : forall s, qw_shapes w' s = qw_shapes w s
  ; f_bodies : forall b, qw_bodies w' b = qw_bodies w b
  ; f_next : qw_next w' = qw_next w
  ; f_this : qw_colliders w' c = Some k'
  ; f_other : forall d, d <> c -> qw_colliders w' d = qw_colliders w d }.
Lemma framed_put c k t w : framed c k w (with_collider c (Some k) (with_tree t w)).
Proof. constructor; cbn; auto; [apply nupd_same|intros; now apply nupd_other]. Qed.
Lemma winv_ext D w w' a : (forall s, qw_shapes w' s = qw_shapes w s) -> (forall b, qw_bodies w' b = qw_bodies w b) -> (forall c, qw_colliders w' c = qw_colliders w c) ->
  qw_next w' = qw_next w -> qw_tree w' = qw_tree w -> winv D w a -> winv D w' a.
Proof.
  intros ES EB EC EN ET [T SH BO CO NO OW FE]. constructor.
  - now rewrite ET.
  - intros s x. rewrite ES, EN. apply SH.
  - intros b x. rewrite EB, EN. intros H. destruct (BO b x H) as (B1 & B2 & B3 & B4). repeat (split; [assumption|]). intros c Hc. rewrite EC. auto.
  - intros c k. rewrite EC, EN. intros H. rewrite EB, ES. auto.
  - intros c k. rewrite EC. intros H N. rewrite EB, ES. auto.
  - intros id b d H. destruct (OW id b d H) as (c & k & A & B & C). exists c, k. rewrite EC. auto.
  - eapply at_most_domain; [|exact FE]. intros c. now rewrite EC.
Qed.
Lemma out_of_tree_ok D w a c k : winv D w a -> qw_colliders w c = Some k ->
  exists w' a', out_of_tree c w = Ok w' /\ winv D w' a' /\ framed c (with_node (-1) k) w w'.
Proof.
  intros I K. pose proof (v_tree _ _ _ I) as TH. unfold out_of_tree. rewrite K. cbn [rd bind]. destruct (Z.eqb_spec (wc_node k) (-1)%Z) as [N|N].
  - exists w, a. split; [reflexivity|]. split; [exact I|]. replace (with_node (-1) k) with k by (destruct k; cbn in N; subst; reflexivity). constructor; auto.
  - destruct (v_node _ _ _ I c k K N) as (b & LK & _). destruct (history_inv real_ops real_laws pct _ a TH) as (so & F & TI).
    assert (HH : has Z.eqb (wc_node k) a = true) by (unfold has; rewrite LK; reflexivity).
    destruct (remove_object_ok real_ops real_laws pct _ a so F _ TI HH) as (t' & so' & F' & E & TI').
    assert (TH' : tree_history real_ops pct t' (m_remove Z.eqb (wc_node k) a)) by (eapply th_remove; eauto).
    rewrite E. cbn [bind]. eexists _, (m_remove Z.eqb (wc_node k) a). split; [reflexivity|]. split; [|apply framed_put].
    eapply (winv_put D D w a c k (with_node (-1) k)); eauto; cbn [wc_local wc_world wc_node wc_resized with_node].
    + exact (proj1 (proj2 (v_coll _ _ _ I c k K))).
    + intros ND x0 B0. destruct (v_coll _ _ _ I c k K) as (_ & _ & x1 & s1 & C1 & _ & _ & C4). rewrite B0 in C1. injection C1 as <-. auto.
    + intros id' N1 N2. rewrite lookup_remove. destruct (Z.eqb_spec id' (wc_node k)); [contradiction|reflexivity].
    + right. destruct (lookup Z.eqb (-1)%Z a) as [[b' d']|] eqn:L; [|reflexivity]. exfalso. now apply (live_range _ _ _ _ _ TH L).
    + right. rewrite lookup_remove, Z.eqb_refl. reflexivity.
    + intros X. contradiction.
Qed.
Lemma refresh_moved D w a c k l x : winv D w a -> qw_colliders w c = Some k -> qw_bodies w (wc_body k) = Some x -> unit_pose l ->
  let p := tr_mul (wb_pose x) l in let w1 := with_collider c (Some (with_world p (with_local l k))) w in
  exists w' a', refresh pct c w1 = Ok w' /\ winv (fun d => D d /\ d <> c) w' a' /\ framed c (relocated l p k) w w'.
Proof.
  intros I K B U p w1. pose proof (v_tree _ _ _ I) as TH. destruct (v_coll _ _ _ I c k K) as (_ & _ & x1 & s & C1 & S & _ & _). rewrite B in C1. injection C1 as <-.
  unfold refresh. cbn [qw_colliders with_collider w1]. rewrite nupd_same. cbn [rd bind wc_node with_world with_local].
  destruct (Z.eqb_spec (wc_node k) (-1)%Z) as [N|N].
  - exists w1, a. split; [reflexivity|]. assert (R : relocated l p k = with_world p (with_local l k)) by (unfold relocated, with_world, with_local; cbn; rewrite N; reflexivity).
    split; [|rewrite R; constructor; cbn; auto; [apply nupd_same|intros; now apply nupd_other]].
    apply winv_ext with (w := with_collider c (Some (with_world p (with_local l k))) (with_tree (qw_tree w) w)); [reflexivity..|].
    eapply (winv_put D _ w a c k); eauto; cbn [wc_local wc_world wc_node wc_resized with_world with_local].
    + intros _ x0 B0. rewrite B in B0. injection B0 as <-. reflexivity.
    + intros X. contradiction.
  - assert (PO : place_of w1 (with_world p (with_local l k)) = Ok p) by (unfold place_of; cbn; rewrite B; reflexivity).
    assert (BX : box_of w1 (with_world p (with_local l k)) = Ok (wshape_box s p)) by (unfold box_of; rewrite PO; cbn; rewrite S; reflexivity).
    rewrite BX. cbn [bind]. destruct (v_node _ _ _ I c k K N) as (b & LK & _). destruct (history_inv real_ops real_laws pct _ a TH) as (so & F & TI).
    assert (UP : unit_pose p) by (apply unit_mul; [exact (proj1 (v_body _ _ _ I _ _ B))|exact U]).
    pose proof (shape_box_ok s p (proj1 (v_shape _ _ _ I _ _ S)) UP) as BO. apply tree_box_valid in BO.
    destruct (update_ok real_ops real_laws pct _ a so F _ _ _ _ (wc_resized k) TI LK BO) as (t' & r0 & so' & F' & E & TI').
    change (qw_tree w1) with (qw_tree w). change (wc_resized (with_world p (with_local l k))) with (wc_resized k). rewrite E. cbn [bind].
    assert (TH' : tree_history real_ops pct t' (m_set Z.eqb (wc_node k) (tree_box (wshape_box s p), Z.of_nat c) a)) by (eapply th_update; eauto).
    assert (R : relocated l p k = with_resized false (with_world p (with_local l k))).
    { unfold relocated. destruct (Z.eqb_spec (wc_node k) (-1)%Z); [contradiction|reflexivity]. }
    exists (with_collider c (Some (relocated l p k)) (with_tree t' w1)), (m_set Z.eqb (wc_node k) (tree_box (wshape_box s p), Z.of_nat c) a).
    split; [rewrite R; reflexivity|]. split.
    + apply winv_ext with (w := with_collider c (Some (relocated l p k)) (with_tree t' w)); try reflexivity.
      { intros d. cbn. unfold nupd. destruct (Nat.eqb d c); reflexivity. }
      rewrite R. eapply (winv_put D _ w a c k); eauto; cbn [wc_local wc_world wc_node wc_resized with_world with_local with_resized].
      * intros _ x0 B0. rewrite B in B0. injection B0 as <-. reflexivity.
      * intros id N1 _. rewrite lookup_set. destruct (Z.eqb_spec id (wc_node k)); [contradiction|reflexivity].
      * intros _. exists (tree_box (wshape_box s p)). split; [rewrite lookup_set, Z.eqb_refl; reflexivity|].
        intros _ _ x0 s0 B0 S0. rewrite B in B0. rewrite S in S0. injection B0 as <-. injection S0 as <-. reflexivity.
    + constructor; cbn; auto; [apply nupd_same|]. intros d ND. rewrite !nupd_other by exact ND. reflexivity.
Qed.
Lemma move_collider_ok D w a c k x : winv D w a -> qw_colliders w c = Some k -> qw_bodies w (wc_body k) = Some x ->
  exists w' a', move_collider pct c w = Ok w' /\ winv (fun d => D d /\ d <> c) w' a' /\ framed c (relocated (wc_local k) (tr_mul (wb_pose x) (wc_local k)) k) w w'.
Proof.
  intros I K B. destruct (refresh_moved D w a c k (wc_local k) x I K B (proj1 (proj2 (v_coll _ _ _ I c k K)))) as (w' & a' & E & I' & F).
  exists w', a'. split; [|auto]. unfold move_collider. rewrite K. cbn [rd bind]. unfold place_of. rewrite B. cbn [rd bind].
  replace (with_world (tr_mul (wb_pose x) (wc_local k)) k) with (with_world (tr_mul (wb_pose x) (wc_local k)) (with_local (wc_local k) k)) by (destruct k; reflexivity). exact E.
Qed.
End Inv.
