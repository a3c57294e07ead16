(** Proofs about half-edges. *)
From Verif Require Import Base QhModel QhSpec.
From Coq Require Import Lia.
Open Scope Z_scope.

Lemma setn_eq : forall A (f : nat -> A) i v, setn f i v i = v.
Proof. intros. unfold setn. rewrite Nat.eqb_refl. reflexivity. Qed.
Lemma setn_ne : forall A (f : nat -> A) i v j, j <> i -> setn f i v j = f j.
Proof. intros. unfold setn. apply Nat.eqb_neq in H. rewrite H. reflexivity. Qed.
Lemma keqb_spec : forall k k', keqb k k' = true <-> k = k'.
Proof.
  intros [a b] [c d]. unfold keqb. simpl. rewrite Bool.andb_true_iff, !Z.eqb_eq.
  split; [intros [-> ->]; reflexivity|intros E; inversion E; auto].
Qed.
Lemma keqb_refl : forall k, keqb k k = true.
Proof. intros. apply keqb_spec. reflexivity. Qed.
Lemma keqb_ne : forall k k', k <> k' -> keqb k k' = false.
Proof. intros k k' H. destruct (keqb k k') eqn:E; [apply keqb_spec in E; congruence|reflexivity]. Qed.
Lemma setk_eq : forall A (f : Z * Z -> A) i v, setk f i v i = v.
Proof. intros. unfold setk. rewrite keqb_refl. reflexivity. Qed.
Lemma setk_ne : forall A (f : Z * Z -> A) i v j, j <> i -> setk f i v j = f j.
Proof. intros. unfold setk. rewrite keqb_ne by assumption. reflexivity. Qed.
Lemma flip_flip : forall k, flip (flip k) = k.
Proof. intros [a b]. reflexivity. Qed.

(** Segments of a doubly linked list. *)
Definition first (l : list nat) (q : option nat) : option nat := match l with [] => q | y :: _ => Some y end.
Fixpoint lastp (p : option nat) (l : list nat) : option nat := match l with [] => p | x :: r => lastp (Some x) r end.
Fixpoint seg (pv nx : nat -> option nat) (p : option nat) (l : list nat) (q : option nat) : Prop :=
  match l with
  | [] => True
  | x :: r => pv x = p /\ nx x = first r q /\ seg pv nx (Some x) r q
  end.

Lemma first_app : forall l1 l2 q, first (l1 ++ l2) q = first l1 (first l2 q).
Proof. intros [|x l1] l2 q; reflexivity. Qed.
Lemma seg_app : forall pv nx l1 l2 p q,
  seg pv nx p (l1 ++ l2) q <-> seg pv nx p l1 (first l2 q) /\ seg pv nx (lastp p l1) l2 q.
Proof.
  intros pv nx l1. induction l1 as [|x r IH]; intros l2 p q; simpl; [tauto|].
  rewrite first_app, IH. tauto.
Qed.
Lemma seg_frame : forall pv nx pv' nx' l p q,
  (forall x, In x l -> pv' x = pv x /\ nx' x = nx x) -> seg pv nx p l q -> seg pv' nx' p l q.
Proof.
  intros pv nx pv' nx' l. induction l as [|x r IH]; intros p q H S; simpl in *; [exact I|].
  destruct S as (A & B & C). destruct (H x (or_introl eq_refl)) as [E F].
  rewrite E, F. split; [exact A|split; [exact B|]]. apply IH; [|exact C]. intros y Hy. apply H. right. exact Hy.
Qed.
Lemma lastp_snoc : forall l z p, lastp p (l ++ [z]) = Some z.
Proof. induction l as [|x r IH]; intros z p; simpl; [reflexivity|apply IH]. Qed.
Lemma snoc_cases : forall (l : list nat), l = [] \/ exists m z, l = m ++ [z].
Proof. intros l. destruct l using rev_ind; [left; reflexivity|right; exists l, x; reflexivity]. Qed.

(** A new element before [t]. *)
Lemma seg_insert : forall pv nx l1 t l2 e,
  seg pv nx None (l1 ++ t :: l2) None -> NoDup (l1 ++ t :: l2) -> ~ In e (l1 ++ t :: l2) ->
  seg (setn (setn pv e (pv t)) t (Some e))
      (setn (match pv t with Some p => setn nx p (Some e) | None => nx end) e (Some t))
      None (l1 ++ e :: t :: l2) None
  /\ pv t = lastp None l1
  /\ match pv t with Some p => nx p = Some t | None => l1 = [] end.
Proof.
  intros pv nx l1 t l2 e S N F. apply seg_app in S. destruct S as [S1 S2].
  simpl in S2. destruct S2 as (P & Q & S2).
  apply NoDup_remove in N. destruct N as [N Nt].
  assert (et : e <> t) by (intros ->; apply F; apply in_or_app; right; left; reflexivity).
  assert (T2 : ~ In t l2) by (intros H; apply Nt; apply in_or_app; right; exact H).
  assert (T1 : ~ In t l1) by (intros H; apply Nt; apply in_or_app; left; exact H).
  assert (E2 : ~ In e l2) by (intros H; apply F; apply in_or_app; right; right; exact H).
  assert (E1 : ~ In e l1) by (intros H; apply F; apply in_or_app; left; exact H).
  destruct (snoc_cases l1) as [->|(m & z & ->)].
  - simpl in P. rewrite P. split; [|split; reflexivity].
    simpl. rewrite (setn_ne _ _ t _ e) by congruence. rewrite !setn_eq.
    rewrite (setn_ne _ _ e _ t) by congruence.
    split; [reflexivity|split; [reflexivity|split; [reflexivity|split; [exact Q|]]]].
    eapply seg_frame; [|exact S2]. intros x Hx.
    assert (x <> t) by congruence. assert (x <> e) by congruence.
    rewrite !setn_ne by assumption. split; reflexivity.
  - rewrite lastp_snoc in P. rewrite P.
    apply seg_app in S1. destruct S1 as [S0 Sz]. simpl in Sz. destruct Sz as (Pz & Nz & _).
    split; [|split; [rewrite lastp_snoc; reflexivity|exact Nz]].
    assert (Zt : z <> t) by (intros ->; apply T1; apply in_or_app; right; left; reflexivity).
    assert (Ze : z <> e) by (intros ->; apply E1; apply in_or_app; right; left; reflexivity).
    assert (Nd : NoDup ((m ++ [z]) ++ l2)) by exact N.
    rewrite <- app_assoc in Nd. simpl in Nd. apply NoDup_remove in Nd. destruct Nd as [_ Nz'].
    apply seg_app. split; [apply seg_app; split|].
    + eapply seg_frame; [|exact S0]. intros x Hx.
      assert (x <> t) by (intros ->; apply T1; apply in_or_app; left; exact Hx).
      assert (x <> e) by (intros ->; apply E1; apply in_or_app; left; exact Hx).
      assert (x <> z) by (intros ->; apply Nz'; apply in_or_app; left; exact Hx).
      rewrite !setn_ne by assumption. split; reflexivity.
    + simpl. rewrite (setn_ne _ _ t _ z), (setn_ne _ _ e _ z), (setn_ne _ _ e _ z) by assumption. rewrite setn_eq.
      split; [exact Pz|split; [reflexivity|exact I]].
    + rewrite lastp_snoc. simpl. rewrite (setn_ne _ _ t _ e) by congruence. rewrite !setn_eq.
      rewrite (setn_ne _ _ e _ t) by congruence. rewrite (setn_ne _ _ z _ t) by congruence.
      split; [reflexivity|split; [reflexivity|split; [reflexivity|split; [exact Q|]]]].
      eapply seg_frame; [|exact S2]. intros x Hx.
      assert (x <> t) by congruence. assert (x <> e) by congruence.
      assert (x <> z) by (intros ->; apply Nz'; apply in_or_app; right; exact Hx).
      rewrite !setn_ne by assumption. split; reflexivity.
Qed.

(** A new first element. *)
Lemma seg_front : forall pv nx l e,
  seg pv nx None l None -> NoDup l -> ~ In e l ->
  seg (match l with h :: _ => setn (setn pv e None) h (Some e) | [] => setn pv e None end)
      (setn nx e (first l None)) None (e :: l) None.
Proof.
  intros pv nx l e S N F. destruct l as [|h r].
  - simpl. rewrite !setn_eq. auto.
  - simpl in *. destruct S as (P & Q & S). inversion N; subst.
    assert (e <> h) by (intros ->; apply F; left; reflexivity).
    rewrite (setn_ne _ _ h _ e) by assumption. rewrite !setn_eq. rewrite (setn_ne _ _ e _ h) by congruence.
    repeat split; try assumption.
    eapply seg_frame; [|exact S]. intros x Hx.
    assert (x <> h) by congruence. assert (x <> e) by (intros ->; apply F; right; exact Hx).
    rewrite !setn_ne by assumption. split; reflexivity.
Qed.

(** Removal of [x]. *)
Lemma seg_remove : forall pv nx l1 x l2,
  seg pv nx None (l1 ++ x :: l2) None -> NoDup (l1 ++ x :: l2) ->
  let pv' := match nx x with Some n => setn pv n (pv x) | None => pv end in
  pv' x = pv x /\ nx x = first l2 None /\ pv x = lastp None l1 /\
  seg pv' (match pv x with Some p => setn nx p (nx x) | None => nx end) None (l1 ++ l2) None.
Proof.
  intros pv nx l1 x l2 S N pv'. apply seg_app in S. destruct S as [S1 S2].
  simpl in S2. destruct S2 as (P & Q & S2).
  apply NoDup_remove in N. destruct N as [N Nx].
  assert (X2 : ~ In x l2) by (intros H; apply Nx; apply in_or_app; right; exact H).
  assert (X1 : ~ In x l1) by (intros H; apply Nx; apply in_or_app; left; exact H).
  assert (D : forall y, In y l1 -> ~ In y l2).
  { clear - N. intros y H1 H2. apply in_split in H1. destruct H1 as (a & b & ->).
    rewrite <- app_assoc in N. simpl in N. apply NoDup_remove in N. destruct N as [_ N]. apply N.
    apply in_or_app. right. apply in_or_app. right. exact H2. }
  assert (pvx : pv' x = pv x).
  { unfold pv'. rewrite Q. destruct l2 as [|n r]; simpl; [reflexivity|]. apply setn_ne. intros ->. apply X2. left. reflexivity. }
  split; [exact pvx|split; [exact Q|split; [exact P|]]].
  assert (pv1 : forall y, In y l1 -> pv' y = pv y).
  { intros y Hy. unfold pv'. rewrite Q. destruct l2 as [|n r]; simpl; [reflexivity|]. apply setn_ne.
    intros ->. apply (D n Hy). left. reflexivity. }
  apply seg_app. split.
  - destruct (snoc_cases l1) as [->|(m & z & ->)]; [exact I|].
    rewrite P, lastp_snoc. apply seg_app in S1. destruct S1 as [S0 Sz]. simpl in Sz. destruct Sz as (Pz & Nz & _).
    assert (Nz' : ~ In z m).
    { clear - N. rewrite <- app_assoc in N. simpl in N. apply NoDup_remove in N. destruct N as [_ N]. intros H. apply N.
      apply in_or_app. left. exact H. }
    apply seg_app. split.
    + eapply seg_frame; [|exact S0]. intros y Hy. split; [apply pv1; apply in_or_app; left; exact Hy|].
      apply setn_ne. congruence.
    + simpl. rewrite setn_eq. rewrite pv1 by (apply in_or_app; right; left; reflexivity).
      split; [exact Pz|split; [exact Q|exact I]].
  - destruct l2 as [|n r]; [exact I|].
    simpl in S2. destruct S2 as (Pn & Qn & S2).
    assert (NR : ~ In n r).
    { clear - N. apply NoDup_remove in N. destruct N as [_ N]. intros H. apply N. apply in_or_app. right. exact H. }
    assert (K : forall y, In y (n :: r) -> match pv x with Some p => setn nx p (nx x) | None => nx end y = nx y).
    { intros y Hy. rewrite P. destruct (snoc_cases l1) as [->|(m & z & ->)]; [reflexivity|].
      rewrite lastp_snoc. apply setn_ne. intros ->. apply (D z); [apply in_or_app; right; left; reflexivity|exact Hy]. }
    simpl. rewrite (K n (or_introl eq_refl)). unfold pv' at 1. rewrite Q in *. simpl in *. rewrite setn_eq.
    split; [exact P|split; [exact Qn|]].
    eapply seg_frame; [|exact S2]. intros y Hy. split; [|apply K; right; exact Hy].
    unfold pv'. rewrite Q. simpl. apply setn_ne. congruence.
Qed.

(** The invariant. *)
Definition ids (l : list (nat * (Z * Z))) := map fst l.
Record inv (q : qh) (l : list (nat * (Z * Z))) : Prop := {
  i_nd : NoDup (ids l);
  i_live : forall x, q_live q x = true <-> In x (ids l);
  i_key : forall x k, In (x, k) l -> q_key q x = k /\ fst k <> snd k /\ (x < q_new q)%nat;
  i_map : forall k x, q_map q k = Some x <-> In (x, k) l;
  i_twin : forall x k, In (x, k) l -> q_twin q x = q_map q (flip k);
  i_seg : seg (q_prev q) (q_next q) None (ids l) None;
  i_head : q_head q = first (ids l) None;
  i_nb : q_nb q = Z.of_nat (length l) }.

Lemma inv_empty : inv q_empty [].
Proof.
  constructor; simpl; try constructor; try discriminate; try tauto; intros; contradiction.
Qed.

Lemma before_split : forall k e l,
  match before k e l with
  | Some l' => exists l1 y l2, l = l1 ++ y :: l2 /\ l' = l1 ++ e :: y :: l2 /\ snd y = k
  | None => forall y, In y l -> snd y <> k
  end.
Proof.
  intros k e l. induction l as [|y r IH]; simpl; [intros y []|].
  destruct (keqb (snd y) k) eqn:E.
  - apply keqb_spec in E. exists [], y, r. auto.
  - destruct (before k e r) as [l'|]; simpl.
    + destruct IH as (l1 & z & l2 & -> & -> & F). exists (y :: l1), z, l2. auto.
    + intros z [<-|H]; [intros G; rewrite G, keqb_refl in E; discriminate|apply IH; exact H].
Qed.

Lemma ids_in : forall x k l, In (x, k) l -> In x (ids l).
Proof. intros x k l H. apply (in_map fst) in H. exact H. Qed.
Lemma in_ids : forall x l, In x (ids l) -> exists k, In (x, k) l.
Proof. intros x l H. apply in_map_iff in H. destruct H as ([y k] & E & H). simpl in E. subst. exists k. exact H. Qed.
Lemma live_in : forall q l x k, inv q l -> In (x, k) l -> q_live q x = true.
Proof. intros q l x k I H. apply (i_live _ _ I). eapply ids_in; exact H. Qed.
Lemma new_not_in : forall q l, inv q l -> ~ In (q_new q) (ids l).
Proof. intros q l I H. apply in_ids in H. destruct H as [k H]. apply (i_key _ _ I) in H. lia. Qed.

Lemma existsb_key : forall q l k, inv q l ->
  existsb (fun y => keqb (snd y) k) l = match q_map q k with Some _ => true | None => false end.
Proof.
  intros q l k I. destruct (q_map q k) as [x|] eqn:E.
  - apply existsb_exists. exists (x, k). split; [apply (i_map _ _ I); exact E|apply keqb_refl].
  - destruct (existsb _ l) eqn:F; [|reflexivity]. apply existsb_exists in F. destruct F as ([x k'] & H & G).
    simpl in G. apply keqb_spec in G. subst. apply (i_map _ _ I) in H. congruence.
Qed.

Lemma eq_sym_iff : forall (y z : nat * (Z * Z)), y = z <-> z = y.
Proof. intros. split; intros H; symmetry; exact H. Qed.

(** The parts of the invariant that do not depend on the order. *)
Lemma inv_grow : forall q l l' a b pv nx hd tw,
  inv q l -> a <> b -> q_map q (a, b) = None ->
  NoDup (ids l') -> (forall y, In y l' <-> y = (q_new q, (a, b)) \/ In y l) ->
  tw (q_new q) = q_map q (b, a) ->
  (forall x k, In (x, k) l -> tw x = if keqb k (b, a) then Some (q_new q) else q_twin q x) ->
  length l' = S (length l) ->
  seg pv nx None (ids l') None -> hd = first (ids l') None ->
  inv (mk_qh (setn (q_live q) (q_new q) true) (setn (q_key q) (q_new q) (a, b)) pv nx tw hd
         (setk (q_map q) (a, b) (Some (q_new q))) (S (q_new q)) (q_nb q + 1)) l'.
Proof.
  intros q l l' a b pv nx hd tw I ab M N E T1 T2 L S H.
  pose proof (new_not_in _ _ I) as F.
  constructor; simpl.
  - exact N.
  - intros x. unfold setn. destruct (Nat.eqb_spec x (q_new q)) as [->|ne].
    + split; [intros _|reflexivity]. eapply ids_in. apply E. left. reflexivity.
    + rewrite (i_live _ _ I). split; intros G; apply in_ids in G; destruct G as [k G].
      * eapply ids_in. apply E. right. exact G.
      * apply E in G. destruct G as [G|G]; [inversion G; congruence|eapply ids_in; exact G].
  - intros x k G. apply E in G. destruct G as [G|G].
    + inversion G; subst. rewrite setn_eq. simpl. split; [reflexivity|split; [exact ab|lia]].
    + destruct (i_key _ _ I _ _ G) as (A & B & C). rewrite setn_ne by lia. split; [exact A|split; [exact B|lia]].
  - intros k x. unfold setk. destruct (keqb k (a, b)) eqn:K.
    + apply keqb_spec in K. subst. split.
      * intros G. inversion G; subst. apply E. left. reflexivity.
      * intros G. apply E in G. destruct G as [G|G]; [inversion G; reflexivity|].
        apply (i_map _ _ I) in G. congruence.
    + rewrite (i_map _ _ I). split; intros G.
      * apply E. right. exact G.
      * apply E in G. destruct G as [G|G]; [|exact G]. inversion G; subst. rewrite keqb_refl in K. discriminate.
  - intros x k G. apply E in G. destruct G as [G|G].
    + inversion G; subst. unfold flip. simpl. rewrite setk_ne by congruence. exact T1.
    + rewrite (T2 _ _ G). unfold setk.
      assert (Q : keqb (flip k) (a, b) = keqb k (b, a)).
      { destruct k as [c d]. unfold keqb, flip. simpl. apply Bool.andb_comm. }
      rewrite Q. destruct (keqb k (b, a)); [reflexivity|]. apply (i_twin _ _ I). exact G.
  - exact S.
  - exact H.
  - rewrite L, (i_nb _ _ I). lia.
Qed.

Lemma add_ok : forall q l a b, inv q l -> a <> b ->
  match sp_step (QAdd a b) (l, q_new q) with
  | Ok (l', n') => exists q', q_add a b q = Ok q' /\ inv q' l' /\ q_new q' = n'
  | Ub => q_add a b q = Ub
  | Fuel => False
  end.
Proof.
  intros q l a b I ab. unfold sp_step. rewrite (existsb_key q l (a, b) I). unfold q_add.
  destruct (q_map q (a, b)) as [z|] eqn:M; [reflexivity|].
  pose proof (new_not_in _ _ I) as F. set (e := q_new q) in *.
  pose proof (before_split (b, a) (e, (a, b)) l) as B.
  cbn [q_map q_twin].
  destruct (before (b, a) (e, (a, b)) l) as [l'|].
  - destruct B as (l1 & [t kt] & l2 & -> & -> & K). simpl in K. subst kt.
    assert (Ht : In (t, (b, a)) (l1 ++ (t, (b, a)) :: l2)) by (apply in_or_app; right; left; reflexivity).
    assert (MT : q_map q (b, a) = Some t) by (apply (i_map _ _ I); exact Ht).
    rewrite MT.
    assert (te : t <> e) by (intros ->; apply F; eapply ids_in; exact Ht).
    rewrite (setn_ne _ _ e _ t) by exact te.
    rewrite (i_twin _ _ I _ _ Ht). unfold flip at 1. simpl fst. simpl snd. rewrite M.
    assert (LT : q_live q t = true) by (eapply live_in; eauto).
    pose proof (i_seg _ _ I) as SG. pose proof (i_nd _ _ I) as N. pose proof (i_head _ _ I) as H.
    unfold ids in SG, N, H, F. rewrite map_app in SG, N, H, F. simpl map in SG, N, H, F.
    destruct (seg_insert _ _ _ _ _ e SG N F) as (S' & P & Q).
    unfold set_twin. cbn [q_live with_twin q_twin].
    rewrite (setn_ne _ _ e _ t) by exact te. rewrite LT. cbn [bind].
    cbn [q_live with_twin q_twin]. rewrite setn_eq. cbn [bind].
    unfold link_before, set_prev, set_next.
    cbn [q_live q_key q_prev q_next q_twin q_head q_map q_new q_nb with_twin with_prev with_next with_head].
    rewrite (setn_ne _ _ e _ t) by exact te. rewrite LT.
    rewrite (setn_ne _ _ e _ t) by exact te.
    assert (X : forall m, inv m (l1 ++ (e, (a, b)) :: (t, (b, a)) :: l2) -> q_new m = S e ->
      forall r, r = Ok m -> exists q', r = Ok q' /\ inv q' (l1 ++ (e, (a, b)) :: (t, (b, a)) :: l2) /\ q_new q' = S e).
    { intros m A1 A2 r ->. exists m. auto. }
    assert (G : forall pv nx hd,
      seg pv nx None (map fst l1 ++ e :: t :: map fst l2) None -> hd = first (map fst l1 ++ e :: t :: map fst l2) None ->
      inv (mk_qh (setn (q_live q) e true) (setn (q_key q) e (a, b)) pv nx (setn (setn (setn (q_twin q) e None) t (Some e)) e (Some t)) hd
             (setk (q_map q) (a, b) (Some e)) (S e) (q_nb q + 1)) (l1 ++ (e, (a, b)) :: (t, (b, a)) :: l2)).
    { intros pv nx hd Sg Hd. eapply (inv_grow q (l1 ++ (t, (b, a)) :: l2)); fold e; try assumption.
      - unfold ids. rewrite map_app. simpl. apply NoDup_Add with (a := e) (l := map fst l1 ++ t :: map fst l2).
        + apply Add_app.
        + split; assumption.
      - intros y. rewrite !in_app_iff. simpl. rewrite (eq_sym_iff y). tauto.
      - rewrite setn_eq. symmetry. exact MT.
      - intros x k Hx. assert (xe : x <> e).
        { intros ->. apply F. apply ids_in in Hx. unfold ids in Hx. rewrite map_app in Hx. exact Hx. }
        rewrite (setn_ne _ _ e _ x) by exact xe.
        destruct (keqb k (b, a)) eqn:K.
        + apply keqb_spec in K. subst k. assert (x = t).
          { apply (i_map _ _ I) in Hx. rewrite MT in Hx. congruence. }
          subst. apply setn_eq.
        + rewrite setn_ne. { apply setn_ne. exact xe. }
          intros ->. destruct (i_key _ _ I _ _ Hx) as [A1 _]. destruct (i_key _ _ I _ _ Ht) as [A2 _].
          rewrite A1 in A2. rewrite A2, keqb_refl in K. discriminate.
      - rewrite !app_length. simpl. lia.
      - unfold ids. rewrite map_app. exact Sg.
      - unfold ids. rewrite map_app. exact Hd. }
    destruct (q_prev q t) as [p|] eqn:PT.
    + assert (p1 : In p (map fst l1)).
      { destruct (snoc_cases (map fst l1)) as [E0|(m & z & E0)]; rewrite E0 in P; [discriminate|].
        rewrite lastp_snoc in P. inversion P. rewrite E0. apply in_or_app. right. left. reflexivity. }
      assert (pe : p <> e) by (intros ->; apply F; apply in_or_app; left; exact p1).
      assert (LP : q_live q p = true).
      { apply (i_live _ _ I). unfold ids. rewrite map_app. apply in_or_app. left. exact p1. }
      rewrite (setn_ne _ _ e _ p) by exact pe. rewrite Q. unfold is_ptr. rewrite Nat.eqb_refl.
      rewrite (setn_ne _ _ e _ p) by exact pe. rewrite LP. cbn [bind].
      cbn [q_live q_key q_prev q_next q_twin q_head q_map q_new q_nb with_twin with_prev with_next with_head].
      rewrite setn_eq. cbn [bind].
      cbn [q_live q_key q_prev q_next q_twin q_head q_map q_new q_nb with_twin with_prev with_next with_head].
      rewrite (setn_ne _ _ e _ t) by exact te. rewrite LT. cbn [bind].
      cbn [q_live q_key q_prev q_next q_twin q_head q_map q_new q_nb with_twin with_prev with_next with_head].
      rewrite setn_eq. cbn [bind].
      cbn [q_live q_key q_prev q_next q_twin q_head q_map q_new q_nb with_twin with_prev with_next with_head with_map with_nb].
      eapply X; [| |reflexivity]; [|reflexivity]. apply G.
      * eapply seg_frame; [|exact S']. intros x _. cbn [q_live q_key q_prev q_next q_twin q_head q_map q_new q_nb with_twin with_prev with_next with_head with_map with_nb]. rewrite ?(setn_ne _ _ e _ t) by exact te. rewrite ?PT.
        unfold setn. destruct (Nat.eqb x t); destruct (Nat.eqb x e); auto; split; try reflexivity;
        destruct (Nat.eqb x p); reflexivity.
      * rewrite H. destruct (map fst l1); [destruct p1|reflexivity].
    + rewrite Q in H. simpl in H. rewrite H. unfold is_ptr. rewrite Nat.eqb_refl. cbn [bind].
      cbn [q_live q_key q_prev q_next q_twin q_head q_map q_new q_nb with_twin with_prev with_next with_head].
      rewrite setn_eq. cbn [bind].
      cbn [q_live q_key q_prev q_next q_twin q_head q_map q_new q_nb with_twin with_prev with_next with_head].
      rewrite (setn_ne _ _ e _ t) by exact te. rewrite LT. cbn [bind].
      cbn [q_live q_key q_prev q_next q_twin q_head q_map q_new q_nb with_twin with_prev with_next with_head].
      rewrite setn_eq. cbn [bind].
      cbn [q_live q_key q_prev q_next q_twin q_head q_map q_new q_nb with_twin with_prev with_next with_head with_map with_nb].
      eapply X; [| |reflexivity]; [|reflexivity]. apply G.
      * eapply seg_frame; [|exact S']. intros x _. cbn [q_live q_key q_prev q_next q_twin q_head q_map q_new q_nb with_twin with_prev with_next with_head with_map with_nb]. rewrite ?(setn_ne _ _ e _ t) by exact te. rewrite ?PT.
        unfold setn. destruct (Nat.eqb x t); destruct (Nat.eqb x e); auto.
      * rewrite Q. reflexivity.
  - assert (MT : q_map q (b, a) = None).
    { destruct (q_map q (b, a)) as [t|] eqn:E; [|reflexivity]. apply (i_map _ _ I) in E. exfalso. apply (B _ E). reflexivity. }
    rewrite MT. cbn [bind]. unfold set_twin. cbn [q_live]. rewrite setn_eq. cbn [bind].
    unfold link_before, set_prev, set_next.
    cbn [q_live q_key q_prev q_next q_twin q_head q_map q_new q_nb with_twin with_prev with_next with_head].
    rewrite setn_eq. cbn [bind].
    cbn [q_live q_key q_prev q_next q_twin q_head q_map q_new q_nb with_twin with_prev with_next with_head].
    rewrite setn_eq. cbn [bind].
    cbn [q_live q_key q_prev q_next q_twin q_head q_map q_new q_nb with_twin with_prev with_next with_head].
    pose proof (seg_front _ _ _ e (i_seg _ _ I) (i_nd _ _ I) F) as S'.
    pose proof (i_head _ _ I) as H.
    assert (G : forall pv nx,
      seg pv nx None (e :: ids l) None ->
      inv (mk_qh (setn (q_live q) e true) (setn (q_key q) e (a, b)) pv nx (setn (setn (q_twin q) e None) e None) (Some e)
             (setk (q_map q) (a, b) (Some e)) (S e) (q_nb q + 1)) ((e, (a, b)) :: l)).
    { intros pv nx Sg. eapply (inv_grow q l); fold e; try assumption; try reflexivity.
      - simpl. constructor; [exact F|apply (i_nd _ _ I)].
      - intros y. simpl. rewrite (eq_sym_iff y). tauto.
      - rewrite setn_eq. symmetry. exact MT.
      - intros x k Hx. rewrite !setn_ne by (intros ->; apply F; eapply ids_in; exact Hx).
        destruct (keqb k (b, a)) eqn:K; [|reflexivity]. apply keqb_spec in K. subst. exfalso. apply (B _ Hx). reflexivity. }
    rewrite H in *. destruct (ids l) as [|h r] eqn:L; simpl first in *;
    cbn [q_live q_key q_prev q_next q_twin q_head q_map q_new q_nb with_twin with_prev with_next with_head with_map with_nb].
    + cbn [bind].
      cbn [q_live q_key q_prev q_next q_twin q_head q_map q_new q_nb with_twin with_prev with_next with_head with_map with_nb].
      eexists. split; [reflexivity|split; [|reflexivity]]. apply G.
      eapply seg_frame; [|exact S']. intros x _. cbn [q_live q_key q_prev q_next q_twin q_head q_map q_new q_nb with_twin with_prev with_next with_head with_map with_nb]. unfold setn. destruct (Nat.eqb x e); auto.
    + assert (he : h <> e) by (intros ->; apply F; left; reflexivity).
      rewrite (setn_ne _ _ e _ h) by exact he.
      assert (LH : q_live q h = true) by (apply (i_live _ _ I); rewrite L; left; reflexivity).
      rewrite LH. cbn [bind].
      cbn [q_live q_key q_prev q_next q_twin q_head q_map q_new q_nb with_twin with_prev with_next with_head with_map with_nb].
      eexists. split; [reflexivity|split; [|reflexivity]]. apply G.
      eapply seg_frame; [|exact S']. intros x _. cbn [q_live q_key q_prev q_next q_twin q_head q_map q_new q_nb with_twin with_prev with_next with_head with_map with_nb]. unfold setn. destruct (Nat.eqb x e); destruct (Nat.eqb x h); auto.
Qed.
