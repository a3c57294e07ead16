(** Proofs about half-edges: removal, histories, release. *)
From Verif Require Import Base QhModel QhSpec QhProofs.
From Coq Require Import Lia.
Open Scope Z_scope.

Lemma filter_id : forall x (l : list (nat * (Z * Z))), ~ In x (ids l) -> filter (fun y => negb (Nat.eqb (fst y) x)) l = l.
Proof.
  intros x l. induction l as [|[y k] r IH]; intros N; simpl; [reflexivity|].
  assert (y <> x) by (intros ->; apply N; left; reflexivity).
  apply Nat.eqb_neq in H. rewrite H. simpl. f_equal. apply IH. intros G. apply N. right. exact G.
Qed.
Lemma filter_split : forall x k l1 l2, NoDup (ids (l1 ++ (x, k) :: l2)) ->
  filter (fun y => negb (Nat.eqb (fst y) x)) (l1 ++ (x, k) :: l2) = l1 ++ l2.
Proof.
  intros x k l1 l2 N. unfold ids in N. rewrite map_app in N. simpl in N. apply NoDup_remove in N. destruct N as [_ N].
  rewrite filter_app. simpl. rewrite Nat.eqb_refl. simpl.
  rewrite !filter_id; [reflexivity| |]; intros H; apply N; apply in_or_app; auto.
Qed.

Lemma inv_shrink : forall q l1 l2 x k pv nx hd,
  inv q (l1 ++ (x, k) :: l2) ->
  seg pv nx None (ids (l1 ++ l2)) None -> hd = first (ids (l1 ++ l2)) None ->
  inv (mk_qh (setn (q_live q) x false) (q_key q) pv nx
         (match q_twin q x with Some t => setn (q_twin q) t None | None => q_twin q end) hd
         (setk (q_map q) k None) (q_new q) (q_nb q - 1)) (l1 ++ l2).
Proof.
  intros q l1 l2 x k pv nx hd I Sg H.
  pose proof (i_nd _ _ I) as N. unfold ids in N. rewrite map_app in N. simpl in N. apply NoDup_remove in N. destruct N as [N Nx].
  assert (In1 : forall y, In y (l1 ++ l2) -> In y (l1 ++ (x, k) :: l2)).
  { intros y Hy. apply in_app_or in Hy. apply in_or_app. simpl. tauto. }
  assert (In2 : forall y, In y (l1 ++ (x, k) :: l2) -> y = (x, k) \/ In y (l1 ++ l2)).
  { intros y Hy. apply in_app_or in Hy. simpl in Hy. rewrite in_app_iff. destruct Hy as [|[|]]; auto. }
  assert (Nk : forall k', ~ In (x, k') (l1 ++ l2)).
  { intros k' Hy. apply Nx. apply (in_map fst) in Hy. rewrite map_app in Hy. exact Hy. }
  assert (Hx : In (x, k) (l1 ++ (x, k) :: l2)) by (apply in_or_app; right; left; reflexivity).
  assert (Mk : q_map q k = Some x) by (apply (i_map _ _ I); exact Hx).
  constructor; simpl.
  - unfold ids. rewrite map_app. exact N.
  - intros y. unfold setn. destruct (Nat.eqb_spec y x) as [->|ne].
    + split; [discriminate|]. intros G. apply in_ids in G. destruct G as [k' G]. exfalso. exact (Nk _ G).
    + rewrite (i_live _ _ I). split; intros G; apply in_ids in G; destruct G as [k' G].
      * apply In2 in G. destruct G as [G|G]; [inversion G; congruence|eapply ids_in; exact G].
      * eapply ids_in. apply In1. exact G.
  - intros y k' G. apply (i_key _ _ I). apply In1. exact G.
  - intros k' y. unfold setk. destruct (keqb k' k) eqn:K.
    + apply keqb_spec in K. subst. split; [discriminate|]. intros G.
      pose proof (In1 _ G) as G'. apply (i_map _ _ I) in G'. rewrite Mk in G'. inversion G'; subst. exfalso. exact (Nk _ G).
    + rewrite (i_map _ _ I). split; intros G; [|apply In1; exact G].
      apply In2 in G. destruct G as [G|G]; [|exact G]. inversion G; subst. rewrite keqb_refl in K. discriminate.
  - intros y k' G. pose proof (In1 _ G) as G'. rewrite (i_twin _ _ I _ _ Hx).
    unfold setk. destruct (keqb (flip k') k) eqn:K.
    + apply keqb_spec in K. subst k. rewrite flip_flip. apply (i_map _ _ I) in G'. rewrite G'. apply setn_eq.
    + rewrite <- (i_twin _ _ I _ _ G'). destruct (q_map q (flip k)) as [t|] eqn:T; [|reflexivity].
      apply setn_ne. intros ->. apply (i_map _ _ I) in T.
      destruct (i_key _ _ I _ _ G') as [A1 _]. destruct (i_key _ _ I _ _ T) as [A2 _]. rewrite A1 in A2. subst.
      rewrite A2, flip_flip, keqb_refl in K. discriminate.
  - exact Sg.
  - exact H.
  - rewrite (i_nb _ _ I). rewrite !app_length. simpl. lia.
Qed.

Lemma del_ok : forall q l x, inv q l ->
  match sp_step (QDel x) (l, q_new q) with
  | Ok (l', n') => exists q', q_del x q = Ok q' /\ inv q' l' /\ q_new q' = n'
  | Ub => q_del x q = Ub
  | Fuel => False
  end.
Proof.
  intros q l x I. unfold sp_step, q_del. destruct (existsb (fun y => Nat.eqb (fst y) x) l) eqn:E.
  2:{ destruct (q_live q x) eqn:L; [|reflexivity]. exfalso. apply (i_live _ _ I) in L. apply in_ids in L. destruct L as [k L].
      assert (existsb (fun y => Nat.eqb (fst y) x) l = true); [|congruence].
      apply existsb_exists. exists (x, k). split; [exact L|apply Nat.eqb_refl]. }
  apply existsb_exists in E. destruct E as ([y k] & Hx & E). simpl in E. apply Nat.eqb_eq in E. subst y.
  rewrite (live_in _ _ _ _ I Hx). destruct (i_key _ _ I _ _ Hx) as (K & KK & _). rewrite K.
  assert (Mk : q_map q k = Some x) by (apply (i_map _ _ I); exact Hx). rewrite Mk.
  pose proof (i_twin _ _ I _ _ Hx) as TW.
  assert (TL : forall t, q_twin q x = Some t -> q_live q t = true /\ t <> x).
  { intros t T. rewrite TW in T. apply (i_map _ _ I) in T. split; [eapply live_in; eauto|].
    intros ->. destruct (i_key _ _ I _ _ T) as [A1 _]. rewrite K in A1. destruct k as [c d]. unfold flip in A1.
    simpl in *. inversion A1. congruence. }
  apply in_split in Hx. destruct Hx as (l1 & l2 & ->).
  rewrite (filter_split x k l1 l2 (i_nd _ _ I)).
  pose proof (i_seg _ _ I) as Sg. pose proof (i_nd _ _ I) as N. pose proof (i_head _ _ I) as H.
  unfold ids in Sg, N, H. rewrite map_app in Sg, N, H. simpl map in Sg, N, H.
  destruct (seg_remove _ _ _ _ _ Sg N) as (R1 & R2 & R3 & R4).
  assert (LL : forall y, In y (map fst l1 ++ x :: map fst l2) -> q_live q y = true).
  { intros y Hy. apply (i_live _ _ I). unfold ids. rewrite map_app. exact Hy. }
  set (twf := match q_twin q x with Some t => setn (q_twin q) t None | None => q_twin q end).
  set (q1 := mk_qh (q_live q) (q_key q) (q_prev q) (q_next q) twf (q_head q) (setk (q_map q) k None) (q_new q) (q_nb q)).
  assert (B1 : match q_twin (with_map q (setk (q_map q) k None)) x with
               | Some t => set_twin t None (with_map q (setk (q_map q) k None))
               | None => Ok (with_map q (setk (q_map q) k None)) end = Ok q1).
  { cbn [with_map q_twin]. unfold q1, twf. destruct (q_twin q x) as [t|] eqn:T; [|destruct q; simpl in *; reflexivity].
    unfold set_twin. cbn [q_live with_map]. destruct (TL t eq_refl) as [-> _]. reflexivity. }
  rewrite B1. cbn [bind].
  set (pv' := match q_next q x with Some n => setn (q_prev q) n (q_prev q x) | None => q_prev q end) in *.
  set (nx' := match q_prev q x with Some p => setn (q_next q) p (q_next q x) | None => q_next q end) in *.
  set (hd' := match q_prev q x with Some _ => q_head q | None => q_next q x end).
  assert (B2 : unlink x q1 = Ok (mk_qh (q_live q) (q_key q) pv' nx' twf hd' (setk (q_map q) k None) (q_new q) (q_nb q))).
  { unfold unlink.
    assert (C1 : match q_next q1 x with Some n => set_prev n (q_prev q1 x) q1 | None => Ok q1 end =
      Ok (mk_qh (q_live q) (q_key q) pv' (q_next q) twf (q_head q) (setk (q_map q) k None) (q_new q) (q_nb q))).
    { unfold q1, pv'. cbn [q_next q_prev]. destruct (q_next q x) as [n|] eqn:NX; [|reflexivity].
      unfold set_prev. cbn [q_live]. rewrite LL; [reflexivity|].
      destruct (map fst l2) as [|n' r]; [discriminate|]. simpl in R2. inversion R2; subst.
      apply in_or_app. right. right. left. reflexivity. }
    rewrite C1. cbn [bind q_prev]. rewrite R1. unfold nx', hd'. destruct (q_prev q x) as [p|] eqn:PX.
    - unfold set_next. cbn [q_live q_next]. rewrite LL; [reflexivity|].
      destruct (snoc_cases (map fst l1)) as [E0|(m & z & E0)]; rewrite E0 in R3; [discriminate|].
      rewrite lastp_snoc in R3. inversion R3; subst. rewrite E0. apply in_or_app. left. apply in_or_app. right. left. reflexivity.
    - assert (L1 : map fst l1 = []).
      { destruct (snoc_cases (map fst l1)) as [E0|(m & z & E0)]; [exact E0|]. rewrite E0, lastp_snoc in R3. discriminate. }
      cbn [q_head q_next]. rewrite H, L1. simpl. rewrite Nat.eqb_refl. reflexivity. }
  rewrite B2. cbn [bind with_nb with_live q_live q_key q_prev q_next q_twin q_head q_map q_new q_nb].
  eexists. split; [reflexivity|split; [|reflexivity]].
  refine (inv_shrink q l1 l2 x k pv' nx' hd' I _ _).
  - unfold ids. rewrite map_app. exact R4.
  - unfold ids, hd'. rewrite map_app, first_app. rewrite H, R2.
    destruct (snoc_cases (map fst l1)) as [E0|(m & z & E0)]; rewrite E0 in *.
    + rewrite R3. reflexivity.
    + rewrite R3, lastp_snoc. destruct m; reflexivity.
Qed.

(** Walking and releasing. *)
Lemma walk_ok : forall q l f p, seg (q_prev q) (q_next q) p l None -> (forall x, In x l -> q_live q x = true) ->
  (length l <= f)%nat -> q_walk f (first l None) q = Ok l.
Proof.
  intros q l. induction l as [|x r IH]; intros f p S L F; [destruct f; reflexivity|].
  destruct f as [|f]; [simpl in F; lia|]. simpl in S. destruct S as (_ & N & S).
  simpl. rewrite (L x (or_introl eq_refl)), N. rewrite (IH f (Some x)); [reflexivity|exact S| |simpl in F; lia].
  intros y Hy. apply L. right. exact Hy.
Qed.
Lemma free_ok : forall l f p q, seg (q_prev q) (q_next q) p l None -> NoDup l ->
  (forall x, q_live q x = true <-> In x l) -> (length l <= f)%nat ->
  exists q', q_free f (first l None) q = Ok q' /\ forall x, q_live q' x = false.
Proof.
  intros l. induction l as [|x r IH]; intros f p q S N L F.
  - exists q. split; [destruct f; reflexivity|]. intros x. destruct (q_live q x) eqn:E; [|reflexivity]. apply L in E. destruct E.
  - destruct f as [|f]; [simpl in F; lia|]. simpl in S. destruct S as (_ & Nx & S). inversion N; subst.
    simpl. assert (Lx : q_live q x = true) by (apply L; left; reflexivity). rewrite Lx, Nx.
    apply (IH f (Some x)); [exact S|assumption| |simpl in F; lia].
    intros y. simpl. unfold setn. destruct (Nat.eqb_spec y x) as [->|ne].
    + split; [discriminate|contradiction].
    + rewrite L. simpl. split; [intros [G|G]; [congruence|exact G]|auto].
Qed.
Lemma inv_length : forall q l, inv q l -> (length (ids l) <= q_new q)%nat.
Proof.
  intros q l I. rewrite <- (seq_length (q_new q) 0). apply NoDup_incl_length; [apply (i_nd _ _ I)|].
  intros x Hx. apply in_ids in Hx. destruct Hx as [k Hx]. apply in_seq. apply (i_key _ _ I) in Hx. lia.
Qed.

(** Twins stay neighbours. *)
Definition paired (l : list (nat * (Z * Z))) : Prop :=
  forall x y k, In (x, k) l -> In (y, flip k) l -> next_to x y (ids l).

Lemma next_to_sym : forall x y l, next_to x y l -> next_to y x l.
Proof. intros x y l (a & b & [H|H]); exists a, b; auto. Qed.
Lemma cut_two : forall (a b c d : list nat) u x y, a ++ u :: b = c ++ x :: y :: d -> u <> x -> u <> y ->
  exists c' d', a ++ b = c' ++ x :: y :: d'.
Proof.
  induction a as [|v a IH]; intros b c d u x y E ux uy.
  - destruct c as [|w c]; simpl in E; inversion E; subst; [congruence|]. exists c, d. reflexivity.
  - destruct c as [|w c]; simpl in E; inversion E; subst.
    + destruct a as [|v' a]; simpl in *; inversion H1; subst; [congruence|]. exists [], (a ++ b). reflexivity.
    + destruct (IH _ _ _ _ _ _ H1 ux uy) as (c' & d' & E'). exists (w :: c'), d'. simpl. rewrite E'. reflexivity.
Qed.
Lemma next_to_del : forall a u b x y, next_to x y (a ++ u :: b) -> u <> x -> u <> y -> next_to x y (a ++ b).
Proof.
  intros a u b x y (c & d & [E|E]) ux uy.
  - destruct (cut_two _ _ _ _ _ _ _ E ux uy) as (c' & d' & ->). exists c', d'. auto.
  - destruct (cut_two _ _ _ _ _ _ _ E uy ux) as (c' & d' & ->). exists c', d'. auto.
Qed.
Lemma put_two : forall (a b c d : list nat) u t x y, a ++ t :: b = c ++ x :: y :: d -> t <> x -> t <> y ->
  exists c' d', a ++ u :: t :: b = c' ++ x :: y :: d'.
Proof.
  induction a as [|v a IH]; intros b c d u t x y E tx ty.
  - destruct c as [|w c]; simpl in E; inversion E; subst; [congruence|]. exists (u :: w :: c), d. reflexivity.
  - destruct c as [|w c]; simpl in E; inversion E; subst.
    + destruct a as [|v' a]; simpl in *; inversion H1; subst; [congruence|]. exists [], (a ++ u :: t :: b). reflexivity.
    + destruct (IH _ _ _ u _ _ _ H1 tx ty) as (c' & d' & E'). exists (w :: c'), d'. simpl. rewrite E'. reflexivity.
Qed.
Lemma next_to_put : forall a t b u x y, next_to x y (a ++ t :: b) -> t <> x -> t <> y -> next_to x y (a ++ u :: t :: b).
Proof.
  intros a t b u x y (c & d & [E|E]) tx ty.
  - destruct (put_two _ _ _ _ u _ _ _ E tx ty) as (c' & d' & ->). exists c', d'. auto.
  - destruct (put_two _ _ _ _ u _ _ _ E ty tx) as (c' & d' & ->). exists c', d'. auto.
Qed.

Lemma key_inj : forall q l x y k, inv q l -> In (x, k) l -> In (y, k) l -> x = y.
Proof. intros q l x y k I A B. apply (i_map _ _ I) in A. apply (i_map _ _ I) in B. congruence. Qed.
Lemma id_inj : forall q l x k k', inv q l -> In (x, k) l -> In (x, k') l -> k = k'.
Proof. intros q l x k k' I A B. apply (i_key _ _ I) in A. apply (i_key _ _ I) in B. destruct A, B. congruence. Qed.

Lemma paired_step : forall q l o l' n', inv q l -> paired l -> (forall a b, o = QAdd a b -> a <> b) ->
  sp_step o (l, q_new q) = Ok (l', n') -> paired l'.
Proof.
  intros q l o l' n' I Pd T St. destruct o as [a b|x0]; unfold sp_step in St.
  - specialize (T a b eq_refl). rewrite (existsb_key q l (a, b) I) in St.
    destruct (q_map q (a, b)) eqn:M; [discriminate|].
    assert (no : forall z, ~ In (z, (a, b)) l) by (intros z Hz; apply (i_map _ _ I) in Hz; congruence).
    pose proof (before_split (b, a) (q_new q, (a, b)) l) as B.
    destruct (before (b, a) (q_new q, (a, b)) l) as [m|]; inversion St; subst; clear St.
    + destruct B as (l1 & [t kt] & l2 & -> & -> & K). simpl in K. subst kt.
      set (e := q_new q) in *.
      assert (Ht : In (t, (b, a)) (l1 ++ (t, (b, a)) :: l2)) by (apply in_or_app; right; left; reflexivity).
      assert (W : forall y, In y (l1 ++ (e, (a, b)) :: (t, (b, a)) :: l2) -> y = (e, (a, b)) \/ In y (l1 ++ (t, (b, a)) :: l2)).
      { intros y Hy. apply in_app_or in Hy. rewrite in_app_iff. simpl in *. destruct Hy as [|[|[|]]]; auto. }
      assert (tw : next_to e t (ids (l1 ++ (e, (a, b)) :: (t, (b, a)) :: l2))).
      { exists (ids l1), (ids l2). left. unfold ids. rewrite map_app. reflexivity. }
      intros x y k Hx Hy. apply W in Hx. apply W in Hy.
      destruct Hx as [Hx|Hx]; destruct Hy as [Hy|Hy].
      * exfalso. inversion Hx; subst. unfold flip in Hy. simpl in Hy. inversion Hy. congruence.
      * inversion Hx; subst. unfold flip in Hy. simpl in Hy. rewrite (key_inj _ _ _ _ _ I Hy Ht). exact tw.
      * destruct k as [c d]. unfold flip in Hy. simpl in Hy. inversion Hy; subst.
        rewrite (key_inj _ _ _ _ _ I Hx Ht). apply next_to_sym. exact tw.
      * unfold ids. rewrite map_app. simpl. apply next_to_put.
        -- specialize (Pd _ _ _ Hx Hy). unfold ids in Pd. rewrite map_app in Pd. exact Pd.
        -- intros ->. pose proof (id_inj _ _ _ _ _ I Hx Ht). subst. exact (no _ Hy).
        -- intros ->. pose proof (id_inj _ _ _ _ _ I Hy Ht) as E. destruct k as [c d]. unfold flip in E. simpl in E.
           inversion E; subst. exact (no _ Hx).
    + intros x y k Hx Hy. simpl in Hx, Hy. destruct Hx as [Hx|Hx]; destruct Hy as [Hy|Hy].
      * exfalso. inversion Hx; subst. unfold flip in Hy. simpl in Hy. inversion Hy. congruence.
      * exfalso. inversion Hx; subst. apply (B _ Hy). reflexivity.
      * exfalso. destruct k as [c d]. unfold flip in Hy. simpl in Hy. inversion Hy; subst. apply (B _ Hx). reflexivity.
      * destruct (Pd _ _ _ Hx Hy) as (c & d & [E|E]); exists (q_new q :: c), d; simpl; rewrite E; auto.
  - destruct (existsb (fun y => Nat.eqb (fst y) x0) l) eqn:E; [|discriminate]. inversion St; subst; clear St.
    apply existsb_exists in E. destruct E as ([z k0] & Hz & E). simpl in E. apply Nat.eqb_eq in E. subst z.
    apply in_split in Hz. destruct Hz as (l1 & l2 & ->). rewrite (filter_split x0 k0 l1 l2 (i_nd _ _ I)).
    pose proof (i_nd _ _ I) as N. unfold ids in N. rewrite map_app in N. simpl in N. apply NoDup_remove in N. destruct N as [_ N].
    intros x y k Hx Hy.
    assert (In1 : forall y, In y (l1 ++ l2) -> In y (l1 ++ (x0, k0) :: l2)).
    { intros w Hw. apply in_app_or in Hw. apply in_or_app. simpl. tauto. }
    specialize (Pd _ _ _ (In1 _ Hx) (In1 _ Hy)). unfold ids in *. rewrite map_app in *. simpl in Pd.
    eapply next_to_del; [exact Pd| |]; intros ->; apply N; rewrite <- map_app.
    + apply (in_map fst) in Hx. exact Hx.
    + apply (in_map fst) in Hy. exact Hy.
Qed.

Lemma run_ok : forall os q l, inv q l -> paired l -> two_ends os ->
  match sp_run os (l, q_new q) with
  | Ok (l', n') => exists q', q_run os q = Ok q' /\ inv q' l' /\ paired l'
  | Ub => q_run os q = Ub
  | Fuel => False
  end.
Proof.
  induction os as [|o os IH]; intros q l I Pd T; [simpl; exists q; auto|].
  assert (T0 : forall a b, o = QAdd a b -> a <> b) by (intros a b ->; apply T; left; reflexivity).
  assert (St : match sp_step o (l, q_new q) with
    | Ok (l', n') => exists q', q_step o q = Ok q' /\ inv q' l' /\ q_new q' = n'
    | Ub => q_step o q = Ub
    | Fuel => False end).
  { destruct o as [a b|x]; [apply add_ok; [exact I|apply T0; reflexivity]|apply del_ok; exact I]. }
  cbn [sp_run q_run]. destruct (sp_step o (l, q_new q)) as [[l' n']| |] eqn:E.
  - destruct St as (q' & -> & I' & <-). cbn [bind]. apply IH; [exact I'| |].
    + eapply paired_step; [exact I|exact Pd|exact T0|exact E].
    + intros a b H. apply T. right. exact H.
  - rewrite St. reflexivity.
  - destruct St.
Qed.

Lemma run_inv : forall os q, two_ends os -> q_run os q_empty = Ok q -> exists l, inv q l /\ paired l.
Proof.
  intros os q T R. pose proof (run_ok os q_empty [] inv_empty (fun x y k H => match H with end) T) as G.
  destruct (sp_run os ([], q_new q_empty)) as [[l n]| |]; [|congruence|destruct G].
  destruct G as (q' & R' & I & Pd). rewrite R in R'. inversion R'; subst. exists l. auto.
Qed.

Lemma edges_ok : forall q l, inv q l -> q_edges q = Ok (ids l).
Proof.
  intros q l I. unfold q_edges. rewrite (i_head _ _ I).
  apply (walk_ok q (ids l) (q_new q) None (i_seg _ _ I)); [intros x; apply (i_live _ _ I)|apply inv_length; exact I].
Qed.
Lemma find_map : forall q l k, inv q l -> option_map fst (find (fun y => keqb (snd y) k) l) = q_map q k.
Proof.
  intros q l k I. destruct (find (fun y => keqb (snd y) k) l) as [[x k']|] eqn:E; simpl.
  - apply find_some in E. destruct E as [A B]. simpl in B. apply keqb_spec in B. subst. symmetry. apply (i_map _ _ I). exact A.
  - destruct (q_map q k) as [x|] eqn:M; [|reflexivity]. apply (i_map _ _ I) in M.
    pose proof (find_none _ _ E _ M) as B. simpl in B. rewrite keqb_refl in B. discriminate.
Qed.

Lemma twos_ok : forall n tw l, (length l <= n)%nat -> NoDup l ->
  (forall x, In x l -> exists y, tw x = Some y /\ In y l /\ tw y = Some x /\ next_to x y l) -> by_twos tw l.
Proof.
  induction n as [|n IH]; intros tw l L N H; (destruct l as [|x r]; [exact I|]); [simpl in L; lia|].
  destruct (H x (or_introl eq_refl)) as (y & T1 & _ & T2 & (c & d & E)).
  inversion N as [|? ? Nx Nr]; subst.
  assert (F : exists d', r = y :: d').
  { destruct E as [E|E]; destruct c as [|w c]; simpl in E; inversion E; subst.
    - exists d. reflexivity.
    - exfalso. apply Nx. apply in_or_app. right. left. reflexivity.
    - exfalso. apply Nx. left. reflexivity.
    - exfalso. apply Nx. apply in_or_app. right. right. left. reflexivity. }
  destruct F as [d' ->]. simpl. split; [exact T1|split; [exact T2|]].
  inversion Nr as [|? ? Ny Nd]; subst.
  apply (IH tw d'); [simpl in L; lia|exact Nd|].
  intros z Hz. destruct (H z (or_intror (or_intror Hz))) as (w & W1 & W2 & W3 & W4).
  assert (zx : x <> z) by (intros ->; apply Nx; right; exact Hz).
  assert (zy : y <> z) by (intros ->; exact (Ny Hz)).
  assert (wx : x <> w) by (intros ->; congruence).
  assert (wy : y <> w) by (intros ->; congruence).
  exists w. split; [exact W1|split; [|split; [exact W3|]]].
  - destruct W2 as [G|[G|G]]; [congruence|congruence|exact G].
  - apply (next_to_del [] x (y :: d')) in W4; [|exact zx|exact wx].
    apply (next_to_del [] y d') in W4; [exact W4|exact zy|exact wy].
Qed.
