(** Representation lemmas and rotations of the dynamic tree. *)
From Verif Require Import Base Decimal HashSpec TreeModel TreeSpec.
Open Scope Z_scope.

Section Proofs.
Context {T : Type} (o : decimal_ops T) (L : decimal_laws o).
Notation shape := (shape T).
Notation node := (node T).
Notation box := (box T).
Notation dtree := (dtree T).
Implicit Types (t : dtree) (s l r : shape) (ns : Z -> option node).

(** * Boxes *)
Lemma le_of_not_lt : forall a b, d_lt o a b = false -> d_le o b a = true.
Proof. intros a b H. rewrite (lt_le o L) in H. apply negb_false_iff in H. exact H. Qed.
Lemma le_of_lt : forall a b, d_lt o a b = true -> d_le o a b = true.
Proof.
  intros a b H. rewrite (lt_le o L) in H. apply negb_true_iff in H. destruct (le_total o L a b); [assumption|congruence].
Qed.
Lemma dmin_le1 : forall a b, d_le o (dmin o a b) a = true.
Proof. intros. unfold dmin. destruct (d_lt o b a) eqn:E; [apply le_of_lt; exact E|apply (le_refl o L)]. Qed.
Lemma dmin_le2 : forall a b, d_le o (dmin o a b) b = true.
Proof. intros. unfold dmin. destruct (d_lt o b a) eqn:E; [apply (le_refl o L)|apply le_of_not_lt; exact E]. Qed.
Lemma dmin_glb : forall a b c, d_le o c a = true -> d_le o c b = true -> d_le o c (dmin o a b) = true.
Proof. intros. unfold dmin. destruct (d_lt o b a); assumption. Qed.
Lemma dmax_le1 : forall a b, d_le o a (dmax o a b) = true.
Proof. intros. unfold dmax. destruct (d_lt o a b) eqn:E; [apply le_of_lt; exact E|apply (le_refl o L)]. Qed.
Lemma dmax_le2 : forall a b, d_le o b (dmax o a b) = true.
Proof. intros. unfold dmax. destruct (d_lt o a b) eqn:E; [apply (le_refl o L)|apply le_of_not_lt; exact E]. Qed.
Lemma dmax_lub : forall a b c, d_le o a c = true -> d_le o b c = true -> d_le o (dmax o a b) c = true.
Proof. intros. unfold dmax. destruct (d_lt o a b); assumption. Qed.

Lemma contains_iff : forall a b : box, contains o a b = true <->
  (d_le o (vx (b_min a)) (vx (b_min b)) = true /\ d_le o (vy (b_min a)) (vy (b_min b)) = true /\ d_le o (vz (b_min a)) (vz (b_min b)) = true /\
   d_le o (vx (b_max b)) (vx (b_max a)) = true /\ d_le o (vy (b_max b)) (vy (b_max a)) = true /\ d_le o (vz (b_max b)) (vz (b_max a)) = true).
Proof. intros. unfold contains. rewrite !andb_true_iff. tauto. Qed.
Lemma contains_refl : forall b : box, contains o b b = true.
Proof. intros. apply contains_iff. splits; apply (le_refl o L). Qed.
Lemma contains_trans : forall a b c : box, contains o a b = true -> contains o b c = true -> contains o a c = true.
Proof.
  intros a b c H1 H2. apply contains_iff in H1. apply contains_iff in H2. apply contains_iff.
  destruct H1 as (A1 & A2 & A3 & A4 & A5 & A6). destruct H2 as (B1 & B2 & B3 & B4 & B5 & B6).
  splits; eapply (le_trans o L); eauto.
Qed.
Lemma contains_within : forall a b : box, contains o a b = true <-> within o b a.
Proof. intros. rewrite contains_iff. unfold within. tauto. Qed.
Lemma merge_join : forall a b : box, join o (merge o a b) a b.
Proof.
  intros a b. unfold join, within. cbn. splits; try apply dmin_le1; try apply dmax_le1; try apply dmin_le2; try apply dmax_le2.
  intros c ((A1 & A2) & (A3 & A4) & (A5 & A6)) ((B1 & B2) & (B3 & B4) & (B5 & B6)).
  splits; (apply dmin_glb || apply dmax_lub); assumption.
Qed.
Lemma join_sym : forall b b1 b2 : box, join o b b1 b2 -> join o b b2 b1.
Proof. intros b b1 b2 (A & B & C). unfold join. splits; auto. Qed.

Lemma fat_contains : forall pct b, d_le o (d_zero o) pct = true -> valid_box o b -> contains o (fat_box o pct b) b = true.
Proof.
  intros pct b P (V1 & V2 & V3). apply contains_iff. cbn.
  assert (G : forall x y, d_le o x y = true -> d_le o (d_zero o) (d_mul o (d_mul o (d_sub o y x) pct) (d_half o)) = true).
  { intros x y H. apply (mul_nonneg o L); [apply (mul_nonneg o L)|apply (half_nonneg o L)]; [apply (sub_nonneg o L); exact H|exact P]. }
  splits; (apply (sub_le o L) || apply (le_add o L)); apply G; assumption.
Qed.

Lemma test_collision_overlap : forall q b, test_collision o q b = true <-> overlap o q b.
Proof.
  intros q b. unfold test_collision, overlap. rewrite !(lt_le o L).
  repeat match goal with |- context [d_le o ?x ?y] => destruct (d_le o x y); cbn [negb orb] end;
  (split; [intros H'; try discriminate; splits; reflexivity|intros ((A & B) & (C & D) & (E & F)); congruence || reflexivity]).
Qed.
Lemma within_refl : forall b, within o b b.
Proof. intros. unfold within. splits; apply (le_refl o L). Qed.
Lemma within_trans : forall a b c, within o a b -> within o b c -> within o a c.
Proof.
  intros a b c ((A1 & A2) & (A3 & A4) & (A5 & A6)) ((B1 & B2) & (B3 & B4) & (B5 & B6)). unfold within. splits; eapply (le_trans o L); eauto.
Qed.
Lemma overlap_mono : forall q a b, within o b a -> overlap o q b -> overlap o q a.
Proof.
  intros q a b ((C1 & C2) & (C3 & C4) & (C5 & C6)) ((H1 & H2) & (H3 & H4) & (H5 & H6)). unfold overlap.
  splits; eapply (le_trans o L); eauto.
Qed.

(** * Reading and writing *)
Lemma get_ok : forall i t n, 0 <= i < t_alloc t -> t_nodes t i = Some n -> get i t = Ok n.
Proof.
  intros i t n R H. unfold get. destruct (Z.leb_spec 0 i); [|lia]. destruct (Z.ltb_spec i (t_alloc t)); [|lia].
  cbn [andb check bind]. rewrite H. reflexivity.
Qed.
Lemma get_inv : forall i t n, get i t = Ok n -> 0 <= i < t_alloc t /\ t_nodes t i = Some n.
Proof.
  intros i t n H. unfold get in H. destruct (Z.leb_spec 0 i); destruct (Z.ltb_spec i (t_alloc t)); cbn in H; try discriminate.
  destruct (t_nodes t i); cbn in H; [|discriminate]. inversion H; subst. split; [lia|reflexivity].
Qed.
Lemma get_put_same : forall i n t m, get i t = Ok m -> get i (put i n t) = Ok n.
Proof. intros i n t m H. apply get_inv in H. apply get_ok; [cbn; apply H|cbn; apply upd_same]. Qed.
Lemma get_put_other : forall i j n t, j <> i -> get j (put i n t) = get j t.
Proof. intros. unfold get. cbn. rewrite upd_other by assumption. reflexivity. Qed.
Lemma modify_ok : forall i f t n, get i t = Ok n -> modify i f t = Ok (put i (f n) t).
Proof. intros i f t n H. unfold modify. rewrite H. reflexivity. Qed.
Lemma get_with_root : forall i j t, get i (with_root j t) = get i t.
Proof. reflexivity. Qed.

(** * Counting identifiers *)
Definition one (i x : Z) : nat := if Z.eq_dec i x then 1%nat else 0%nat.
Definition cnt (x : Z) (s : shape) : nat := count_occ Z.eq_dec (ids s) x.
Lemma cnt_leaf : forall x i b d, cnt x (Leaf i b d) = one i x.
Proof. intros. unfold cnt, one. cbn. destruct (Z.eq_dec i x); reflexivity. Qed.
Lemma cnt_node : forall x i b l r, cnt x (Node i b l r) = (one i x + cnt x l + cnt x r)%nat.
Proof. intros. unfold cnt, one. cbn [ids count_occ]. rewrite count_occ_app. destruct (Z.eq_dec i x); lia. Qed.
Lemma one_same : forall i, one i i = 1%nat.
Proof. intros. unfold one. destruct (Z.eq_dec i i); congruence. Qed.
Lemma one_other : forall i x, i <> x -> one i x = 0%nat.
Proof. intros. unfold one. destruct (Z.eq_dec i x); congruence. Qed.
Lemma one_le : forall i x, (one i x <= 1)%nat.
Proof. intros. unfold one. destruct (Z.eq_dec i x); lia. Qed.
Lemma one_pos : forall i x, (0 < one i x)%nat -> i = x.
Proof. intros i x. unfold one. destruct (Z.eq_dec i x); [auto|lia]. Qed.
Lemma cnt_root : forall s, (1 <= cnt (root_id s) s)%nat.
Proof. intros [i b d|i b l r]; cbn [root_id]; [rewrite cnt_leaf|rewrite cnt_node]; rewrite one_same; lia. Qed.

Fixpoint nleaves (s : shape) : Z := match s with Leaf _ _ _ => 1 | Node _ _ l r => nleaves l + nleaves r end.
Fixpoint size (s : shape) : Z := match s with Leaf _ _ _ => 1 | Node _ _ l r => 1 + size l + size r end.
Lemma nleaves_pos : forall s, 1 <= nleaves s.
Proof. induction s; cbn [size nleaves]; lia. Qed.
Lemma size_pos : forall s, 1 <= size s.
Proof. induction s; cbn [size nleaves]; lia. Qed.
Lemma size_nleaves : forall s, size s = 2 * nleaves s - 1.
Proof. induction s; cbn [size nleaves]; lia. Qed.
Lemma height_bound : forall s, 0 <= height s /\ height s + 1 <= nleaves s.
Proof. induction s as [|i b l [A1 A2] r [B1 B2]]; cbn [size nleaves height]; [lia|]. pose proof (nleaves_pos l). pose proof (nleaves_pos r). lia. Qed.
Lemma nleaves_leaves : forall s, nleaves s = zlen (leaves s).
Proof. induction s; cbn [nleaves leaves]; [reflexivity|]. rewrite zlen_app. lia. Qed.
Lemma wrap16_id : forall x, -32768 <= x < 32768 -> wrap16 x = x.
Proof. intros x H. unfold wrap16. rewrite Z.mod_small by lia. lia. Qed.
Local Opaque wrap16.

(** * Stored shapes *)
Lemma stored_root : forall ns p s, stored ns p s -> exists n, ns (root_id s) = Some n /\ n_link n = p /\ n_height n = height s /\ n_box n = root_box s.
Proof.
  intros ns p [i b d|i b l r] H; cbn [stored] in H.
  - destruct H as (n & A & B & C & D & E). exists n. cbn. auto.
  - destruct H as (n & A & B & C & D & E). exists n. cbn [root_id root_box]. auto.
Qed.
Lemma stored_frame : forall s ns ns' p, stored ns p s -> (forall x, (0 < cnt x s)%nat -> ns' x = ns x) -> stored ns' p s.
Proof.
  induction s as [i b d|i b l IHl r IHr]; intros ns ns' p H F; cbn [stored] in *.
  - destruct H as (n & A & B). exists n. rewrite F; [auto|]. rewrite cnt_leaf, one_same. lia.
  - destruct H as (n & A & B & C & D & E1 & E2 & F1 & F2). exists n. rewrite F by (rewrite cnt_node, one_same; lia).
    splits; auto; [eapply IHl|eapply IHr]; eauto; intros x Hx; apply F; rewrite cnt_node; lia.
Qed.
Lemma stored_reparent : forall s ns ns' p p' n, stored ns p s -> ns (root_id s) = Some n ->
  ns' (root_id s) = Some (w_link p' n) -> cnt (root_id s) s = 1%nat ->
  (forall x, (0 < cnt x s)%nat -> x <> root_id s -> ns' x = ns x) -> stored ns' p' s.
Proof.
  intros [i b d|i b l r] ns ns' p p' n H R R' C F; cbn [stored root_id] in *.
  - destruct H as (m & A & B & D & E & G). rewrite A in R. inversion R; subst m. exists (w_link p' n). cbn. auto.
  - destruct H as (m & A & B & D & E & E1 & E2 & F1 & F2). rewrite A in R. inversion R; subst m.
    rewrite cnt_node, one_same in C.
    exists (w_link p' n). cbn [w_link n_link n_height n_box n_c0 n_c1]. splits; auto.
    + eapply stored_frame; [exact F1|]. intros x Hx. apply F; [rewrite cnt_node; lia|]. intros ->. lia.
    + eapply stored_frame; [exact F2|]. intros x Hx. apply F; [rewrite cnt_node; lia|]. intros ->. lia.
Qed.

(** * Contexts: the path from a node to the root *)
Record frame : Type := mk_frame { f_id : Z; f_left : bool; f_sib : shape }.
Implicit Type c : list frame.
Definition parent_of c : Z := match c with [] => NULL | f :: _ => f_id f end.
Fixpoint top (cur : Z) c : Z := match c with [] => cur | f :: c' => top (f_id f) c' end.
Fixpoint storedc ns (cur : Z) c : Prop :=
  match c with
  | [] => True
  | f :: c' => (exists n, ns (f_id f) = Some n /\ n_link n = parent_of c' /\ 1 <= n_height n /\
                  (if f_left f then n_c0 n = Some cur /\ n_c1 n = Some (root_id (f_sib f))
                   else n_c0 n = Some (root_id (f_sib f)) /\ n_c1 n = Some cur)) /\
               stored ns (f_id f) (f_sib f) /\ storedc ns (f_id f) c'
  end.
Fixpoint cntc (x : Z) c : nat := match c with [] => 0%nat | f :: c' => (one (f_id f) x + cnt x (f_sib f) + cntc x c')%nat end.
Fixpoint nleavesc c : Z := match c with [] => 0 | f :: c' => nleaves (f_sib f) + nleavesc c' end.
Fixpoint sizec c : Z := match c with [] => 0 | f :: c' => 1 + size (f_sib f) + sizec c' end.
Fixpoint leavesc c : list (Z * (box * option Z)) := match c with [] => [] | f :: c' => leaves (f_sib f) ++ leavesc c' end.
Definition tightc c : Prop := Forall (fun f => tight o (f_sib f)) c.

Lemma sizec_nonneg : forall c, 0 <= sizec c.
Proof. induction c; cbn [sizec nleavesc]; [lia|]. pose proof (size_pos (f_sib a)). lia. Qed.
Lemma nleavesc_nonneg : forall c, 0 <= nleavesc c.
Proof. induction c; cbn [sizec nleavesc]; [lia|]. pose proof (nleaves_pos (f_sib a)). lia. Qed.
Lemma sizec_nleavesc : forall c, sizec c = 2 * nleavesc c.
Proof. induction c; cbn [sizec nleavesc]; [lia|]. rewrite size_nleaves. lia. Qed.
Lemma length_sizec : forall c, Z.of_nat (length c) <= sizec c.
Proof. induction c; cbn [length sizec]; [lia|]. pose proof (size_pos (f_sib a)). lia. Qed.

Lemma storedc_frame : forall c ns ns' cur, storedc ns cur c -> (forall x, (0 < cntc x c)%nat -> ns' x = ns x) -> storedc ns' cur c.
Proof.
  induction c as [|f c IH]; intros ns ns' cur H F; [exact I|]. cbn [storedc] in *. destruct H as ((n & A & B & C & D) & E & G).
  cbn [cntc] in F. splits.
  - exists n. rewrite F; [auto|]. rewrite one_same. lia.
  - eapply stored_frame; [exact E|]. intros x Hx. apply F. lia.
  - eapply IH; [exact G|]. intros x Hx. apply F. lia.
Qed.

(** A node whose height and box are out of date. *)
Definition stale ns (p i : Z) l r : Prop :=
  exists n, ns i = Some n /\ n_link n = p /\ n_c0 n = Some (root_id l) /\ n_c1 n = Some (root_id r) /\ 1 <= n_height n /\
    stored ns i l /\ stored ns i r.

(** Everything known at one point of the way back to the root. *)
Record WInv t (i : Z) l r c : Prop := {
  w_stale : stale (t_nodes t) (parent_of c) i l r;
  w_ctx : storedc (t_nodes t) i c;
  w_cnt : forall x, (one i x + cnt x l + cnt x r + cntc x c <= 1)%nat;
  w_range : forall x, (1 <= one i x + cnt x l + cnt x r + cntc x c)%nat -> 0 <= x < t_alloc t;
  w_leaves : nleaves l + nleaves r + nleavesc c <= 32768;
  w_tight : tight o l /\ tight o r /\ tightc c;
  w_root : t_root t = top i c
}.

(** Nodes outside a set of identifiers and the other fields are unchanged. *)
Definition same_rest t t' (K : Z -> nat) : Prop :=
  t_free t' = t_free t /\ t_alloc t' = t_alloc t /\ t_n t' = t_n t /\
  forall x, K x = 0%nat -> t_nodes t' x = t_nodes t x.
Lemma same_rest_refl : forall t K, same_rest t t K.
Proof. intros. unfold same_rest. splits; auto. Qed.

Lemma top_change : forall f c i j, top i (f :: c) = top j (f :: c).
Proof. reflexivity. Qed.

Ltac neqs := repeat match goal with H : ?a <> ?b |- _ => lazymatch goal with H' : b <> a |- _ => fail | _ => pose proof (not_eq_sym H) end end.
Ltac lk := repeat (rewrite upd_same || (rewrite upd_other by assumption)).

Lemma get_put_same' : forall i n t, 0 <= i < t_alloc t -> get i (put i n t) = Ok n.
Proof. intros. apply get_ok; [assumption|]. cbn. apply upd_same. Qed.
(** Symbolic execution of reads after writes. *)
Ltac step1 :=
  match goal with
  | |- context [get ?i (put ?j ?v ?tt)] =>
      first [ constr_eq i j; rewrite (get_put_same' i v tt) by assumption
            | rewrite (get_put_other j i v tt) by assumption ]
  | H : get ?i ?tt = Ok _ |- context [get ?i ?tt] => rewrite H
  end; cbn [bind rd].
Ltac step_all := repeat step1.

Lemma rotate_finish_ok : forall id up other big small (right : bool) t (na nu no nb nsm : node),
  get id t = Ok na -> get up t = Ok nu -> get other t = Ok no -> get big t = Ok nb -> get small t = Ok nsm ->
  id <> up -> id <> other -> id <> big -> id <> small -> up <> other -> up <> big -> up <> small ->
  other <> big -> other <> small -> big <> small ->
  let hA := Z.max (n_height no) (n_height nsm) + 1 in
  let bA := merge o (n_box no) (n_box nsm) in
  let na' := mk_node (n_link na) (if right then n_c0 na else Some small) (if right then Some small else n_c1 na) None (wrap16 hA) bA in
  let nu' := mk_node (n_link nu) (n_c0 nu) (Some big) None (wrap16 (Z.max (wrap16 hA) (n_height nb) + 1)) (merge o bA (n_box nb)) in
  exists t', rotate_finish o id up other big small right t = Ok t' /\
    t_nodes t' id = Some na' /\ t_nodes t' up = Some nu' /\ t_nodes t' small = Some (w_link id nsm) /\
    (forall x, x <> id -> x <> up -> x <> small -> t_nodes t' x = t_nodes t x) /\
    t_root t' = t_root t /\ t_free t' = t_free t /\ t_alloc t' = t_alloc t /\ t_n t' = t_n t.
Proof.
  intros id up other big small right t na nu no nb nsm GA GU GO GB GS N1 N2 N3 N4 N5 N6 N7 N8 N9 N10 hA bA na' nu'.
  pose proof (proj1 (get_inv _ _ _ GA)) as RA. pose proof (proj1 (get_inv _ _ _ GU)) as RU. pose proof (proj1 (get_inv _ _ _ GS)) as RS.
  neqs. unfold rotate_finish, modify.
  destruct right; step_all.
  all: eexists; split; [reflexivity|]; cbn [put t_nodes t_root t_free t_alloc t_n]; splits; auto.
  all: try (lk; reflexivity).
  all: intros x X1 X2 X3; lk; reflexivity.
Qed.

Definition total (i : Z) l r c (x : Z) : nat := (one i x + cnt x l + cnt x r + cntc x c)%nat.
(** The effect of one balancing step. *)
Definition Step t (i : Z) l r t' (i' : Z) l' r' c : Prop :=
  WInv t' i' l' r' c /\ same_rest t t' (total i l r c) /\
  (forall x, (one i' x + cnt x l' + cnt x r' = one i x + cnt x l + cnt x r)%nat) /\
  (forall y, In y (leaves l' ++ leaves r') <-> In y (leaves l ++ leaves r)) /\
  nleaves l' + nleaves r' = nleaves l + nleaves r.
Lemma step_refl : forall t i l r c, WInv t i l r c -> Step t i l r t i l r c.
Proof. intros. unfold Step. splits; auto using same_rest_refl. tauto. Qed.

(** The link from the parent of a node is redirected. *)
Definition redirect (p i u : Z) t : res dtree :=
  if negb (p =? NULL) then
    let* np := get p t in
    let* ch := rd (n_c0 np) in
    if ch =? i then modify p (w_c0 u) t else modify p (w_c1 u) t
  else Ok (with_root u t).
Lemma redirect_ok : forall t i u c, storedc (t_nodes t) i c ->
  (forall x, (1 <= cntc x c)%nat -> 0 <= x < t_alloc t) -> (forall x, (cntc x c <= 1)%nat) -> cntc i c = 0%nat ->
  exists t', redirect (parent_of c) i u t = Ok t' /\ storedc (t_nodes t') u c /\
    (c = [] /\ t_root t' = u \/ c <> [] /\ t_root t' = t_root t) /\
    t_free t' = t_free t /\ t_alloc t' = t_alloc t /\ t_n t' = t_n t /\
    (forall x, x <> parent_of c -> t_nodes t' x = t_nodes t x).
Proof.
  intros t i u c H R C1 CI. destruct c as [|f c].
  - exists (with_root u t). unfold redirect. cbn. splits; auto.
  - cbn [parent_of]. cbn [storedc] in H. destruct H as ((n & A & B & HH & K) & SS & SC).
    assert (RF : 0 <= f_id f < t_alloc t) by (apply R; cbn [cntc]; rewrite one_same; lia).
    pose proof (get_ok _ _ _ RF A) as G. unfold redirect.
    assert (NN : (f_id f =? NULL) = false) by (apply Z.eqb_neq; unfold NULL; lia). rewrite NN. cbn [negb]. rewrite G. cbn [bind].
    assert (RS : root_id (f_sib f) <> i).
    { intros E. pose proof (cnt_root (f_sib f)). rewrite E in H. cbn [cntc] in CI. lia. }
    assert (FIN : forall n', n_link n' = n_link n -> n_height n' = n_height n ->
      (if f_left f then n_c0 n' = Some u /\ n_c1 n' = Some (root_id (f_sib f)) else n_c0 n' = Some (root_id (f_sib f)) /\ n_c1 n' = Some u) ->
      storedc (t_nodes (put (f_id f) n' t)) u (f :: c)).
    { intros n' E1 E2 E3. cbn [storedc put t_nodes]. splits.
      - exists n'. rewrite upd_same. splits; auto; congruence.
      - eapply stored_frame; [exact SS|]. intros x Hx. rewrite upd_other; [reflexivity|]. intros ->. specialize (C1 (f_id f)). cbn [cntc] in C1. rewrite one_same in C1. lia.
      - eapply storedc_frame; [exact SC|]. intros x Hx. rewrite upd_other; [reflexivity|]. intros ->. specialize (C1 (f_id f)). cbn [cntc] in C1. rewrite one_same in C1. lia. }
    destruct (f_left f) eqn:FL; destruct K as (K0 & K1); rewrite K0; cbn [rd bind].
    + rewrite Z.eqb_refl, (modify_ok _ _ _ _ G). eexists. split; [reflexivity|]. split; [apply FIN; cbn; auto|]. splits; auto.
      * right. split; [discriminate|reflexivity].
      * intros x Hx. cbn. apply upd_other. exact Hx.
    + assert (EB : (root_id (f_sib f) =? i) = false) by (apply Z.eqb_neq; exact RS). rewrite EB, (modify_ok _ _ _ _ G).
      eexists. split; [reflexivity|]. split; [apply FIN; cbn; auto|]. splits; auto.
      * right. split; [discriminate|reflexivity].
      * intros x Hx. cbn. apply upd_other. exact Hx.
Qed.

Lemma parent_cnt : forall c, c <> [] -> (1 <= cntc (parent_of c) c)%nat.
Proof. intros [|f c] H; [congruence|]. cbn. rewrite one_same. lia. Qed.

Lemma top_nonempty : forall c i j, c <> [] -> top i c = top j c.
Proof. intros [|f c] i j H; [congruence|reflexivity]. Qed.

(** [lia] without the disequalities of the context (it would split on each). *)
Ltac nlia := repeat match goal with H : _ <> _ |- _ => clear H end; lia.

Lemma rotate_ok : forall t i (right : bool) u bu f g O c,
  let U := Node u bu f g in
  let l := if right then O else U in
  let r := if right then U else O in
  WInv t i l r c ->
  exists t' l' r', rotate o i u (root_id O) right t = Ok (t', u) /\ Step t i l r t' u l' r' c.
Proof.
  intros t i right u bu f g O c U l r W.
  destruct W as [(na & A & LA & K0 & K1 & HA & SL & SR) SC CNT RNG NL (TL & TR & TC) ROOT].
  assert (CNT' : forall x, (one i x + one u x + cnt x f + cnt x g + cnt x O + cntc x c <= 1)%nat).
  { intros x. specialize (CNT x). unfold l, r, U in CNT. destruct right; rewrite ?cnt_node in CNT; nlia. }
  assert (RNG' : forall x, (1 <= one i x + one u x + cnt x f + cnt x g + cnt x O + cntc x c)%nat -> 0 <= x < t_alloc t).
  { intros x Hx. apply RNG. unfold l, r, U. destruct right; rewrite ?cnt_node; nlia. }
  assert (NL' : nleaves f + nleaves g + nleaves O + nleavesc c <= 32768).
  { unfold l, r, U in NL. destruct right; cbn [nleaves] in NL; nlia. }
  assert (SO : stored (t_nodes t) i O) by (unfold l, r, U in *; destruct right; assumption).
  assert (SU : stored (t_nodes t) i U) by (unfold l, r in *; destruct right; assumption).
  assert (TO : tight o O) by (unfold l, r, U in *; destruct right; assumption).
  assert (TU : tight o U) by (unfold l, r in *; destruct right; assumption).
  assert (NLT : nleaves l + nleaves r = nleaves f + nleaves g + nleaves O) by (unfold l, r, U; destruct right; cbn [nleaves]; nlia).
  assert (LVT : forall y, In y (leaves l ++ leaves r) <-> In y (leaves f) \/ In y (leaves g) \/ In y (leaves O)).
  { intros y. unfold l, r, U. destruct right; cbn [leaves]; rewrite !in_app_iff; tauto. }
  assert (CTT : forall x, (cnt x l + cnt x r = one u x + cnt x f + cnt x g + cnt x O)%nat).
  { intros x. unfold l, r, U. destruct right; rewrite ?cnt_node; nlia. }
  assert (KA : n_c0 na = Some (if right then root_id O else u) /\ n_c1 na = Some (if right then u else root_id O)).
  { unfold l, r, U in K0, K1. destruct right; cbn [root_id] in K0, K1; auto. }
  clear K0 K1 SL SR TL TR CNT RNG NL. destruct KA as (KA0 & KA1).
  cbn [stored U] in SU. destruct SU as (nu & AU & LU & HU & BU & U0 & U1 & SF & SG).
  destruct TU as (_ & TF & TG). clear HU. clearbody l r. clear U.
  (* positions *)
  pose proof (cnt_root f) as PF. pose proof (cnt_root g) as PG. pose proof (cnt_root O) as PO.
  assert (DI : forall x, (1 <= one u x + cnt x f + cnt x g + cnt x O + cntc x c)%nat -> i <> x).
  { intros x Hx E. subst x. specialize (CNT' i). rewrite one_same in CNT'. nlia. }
  assert (DU : forall x, (1 <= cnt x f + cnt x g + cnt x O + cntc x c)%nat -> u <> x).
  { intros x Hx E. subst x. specialize (CNT' u). rewrite one_same in CNT'. nlia. }
  assert (N1 : i <> u) by (apply DI; rewrite one_same; nlia).
  assert (N2 : i <> root_id O) by (apply DI; nlia). assert (N3 : i <> root_id f) by (apply DI; nlia). assert (N4 : i <> root_id g) by (apply DI; nlia).
  assert (N5 : u <> root_id O) by (apply DU; nlia). assert (N6 : u <> root_id f) by (apply DU; nlia). assert (N7 : u <> root_id g) by (apply DU; nlia).
  assert (N8 : root_id O <> root_id f) by (intros E; specialize (CNT' (root_id O)); rewrite <- E in PF; nlia).
  assert (N9 : root_id O <> root_id g) by (intros E; specialize (CNT' (root_id O)); rewrite <- E in PG; nlia).
  assert (N10 : root_id f <> root_id g) by (intros E; specialize (CNT' (root_id f)); rewrite <- E in PG; nlia).
  assert (RI : 0 <= i < t_alloc t) by (apply RNG'; rewrite one_same; nlia).
  assert (RU : 0 <= u < t_alloc t) by (apply RNG'; rewrite one_same; nlia).
  destruct (stored_root _ _ _ SF) as (nf & AF & LF & HF & BF). destruct (stored_root _ _ _ SG) as (ng & AG & LG & HG & BG).
  destruct (stored_root _ _ _ SO) as (no & AO & LO & HO & BO).
  assert (GI : get i t = Ok na) by (apply get_ok; assumption).
  assert (GU : get u t = Ok nu) by (apply get_ok; assumption).
  unfold rotate. rewrite GU. cbn [bind]. rewrite U0, U1. cbn [rd bind]. rewrite GI. cbn [bind].
  rewrite LA. fold NULL.
  rewrite (modify_ok _ _ _ _ GU). cbn [bind]. set (t1 := put u (w_c0 i nu) t).
  assert (GU1 : get u t1 = Ok (w_c0 i nu)) by (unfold t1; apply get_put_same'; exact RU).
  rewrite (modify_ok _ _ _ _ GU1). cbn [bind]. set (t2 := put u _ t1).
  assert (GI2 : get i t2 = Ok na) by (unfold t2, t1; rewrite !get_put_other by assumption; exact GI).
  rewrite (modify_ok _ _ _ _ GI2). cbn [bind]. set (t3 := put i _ t2).
  assert (E3 : forall x, x <> i -> x <> u -> t_nodes t3 x = t_nodes t x).
  { intros x X1 X2. unfold t3, t2, t1. cbn. rewrite !upd_other by assumption. reflexivity. }
  assert (RT3 : t_root t3 = t_root t) by reflexivity. assert (FR3 : t_free t3 = t_free t) by reflexivity.
  assert (AL3 : t_alloc t3 = t_alloc t) by reflexivity. assert (TN3 : t_n t3 = t_n t) by reflexivity.
  assert (AI3 : t_nodes t3 i = Some (w_link u na)) by (unfold t3; cbn; apply upd_same).
  assert (AU3 : t_nodes t3 u = Some (w_link (parent_of c) (w_c0 i nu))).
  { unfold t3, t2. cbn. rewrite upd_other by (apply not_eq_sym; exact N1). apply upd_same. }
  clear GU1 GI2. clearbody t3. clear t2 t1.
  assert (SC3 : storedc (t_nodes t3) i c).
  { eapply storedc_frame; [exact SC|]. intros x Hx. apply E3; apply not_eq_sym; [apply DI|apply DU]; nlia. }
  destruct (redirect_ok t3 i u c SC3) as (t4 & R4 & SC4 & RT4 & FR4 & AL4 & TN4 & E4).
  { intros x Hx. rewrite AL3. apply RNG'. nlia. }
  { intros x. specialize (CNT' x). nlia. }
  { specialize (CNT' i). rewrite one_same in CNT'. nlia. }
  unfold redirect in R4. rewrite R4. cbn [bind].
  assert (PC : forall x, (1 <= one i x + one u x + cnt x f + cnt x g + cnt x O)%nat -> x <> parent_of c).
  { intros x Hx E. destruct c as [|fr c0]; [cbn in E; assert (0 <= x < t_alloc t) by (apply RNG'; nlia); unfold NULL in E; nlia|].
    pose proof (parent_cnt (fr :: c0) ltac:(discriminate)) as Q. rewrite <- E in Q. specialize (CNT' x). nlia. }
  assert (E5 : forall x, (1 <= cnt x f + cnt x g + cnt x O)%nat -> t_nodes t4 x = t_nodes t x).
  { intros x Hx. rewrite E4 by (apply PC; nlia). apply E3; apply not_eq_sym; [apply DI|apply DU]; nlia. }
  assert (AI4 : t_nodes t4 i = Some (w_link u na)).
  { rewrite E4 by (apply PC; rewrite one_same; nlia). exact AI3. }
  assert (AU4 : t_nodes t4 u = Some (w_link (parent_of c) (w_c0 i nu))).
  { rewrite E4 by (apply PC; rewrite (one_same u); nlia). exact AU3. }
  assert (AL : t_alloc t4 = t_alloc t) by (rewrite AL4; exact AL3).
  assert (GI4 : get i t4 = Ok (w_link u na)) by (apply get_ok; [rewrite AL; exact RI|exact AI4]).
  assert (GU4 : get u t4 = Ok (w_link (parent_of c) (w_c0 i nu))) by (apply get_ok; [rewrite AL; exact RU|exact AU4]).
  assert (GO4 : get (root_id O) t4 = Ok no) by (apply get_ok; [rewrite AL; apply RNG'; nlia|rewrite E5 by nlia; exact AO]).
  assert (GF4 : get (root_id f) t4 = Ok nf) by (apply get_ok; [rewrite AL; apply RNG'; nlia|rewrite E5 by nlia; exact AF]).
  assert (GG4 : get (root_id g) t4 = Ok ng) by (apply get_ok; [rewrite AL; apply RNG'; nlia|rewrite E5 by nlia; exact AG]).
  rewrite GF4, GG4. cbn [bind].
  (* both choices of the moved subtree *)
  assert (FIN : forall big small nb nsm,
     (big = f /\ small = g \/ big = g /\ small = f) ->
     get (root_id big) t4 = Ok nb -> get (root_id small) t4 = Ok nsm ->
     n_height nb = height big -> n_height nsm = height small -> n_box nb = root_box big -> n_box nsm = root_box small ->
     exists t5, rotate_finish o i u (root_id O) (root_id big) (root_id small) right t4 = Ok t5 /\
       exists l' r', Step t i l r t5 u l' r' c).
  { intros big small nb nsm BS GB GS HB HS BB BSM.
    assert (Q : (forall x, (cnt x big + cnt x small = cnt x f + cnt x g)%nat) /\ (i <> root_id big /\ i <> root_id small /\ u <> root_id big /\ u <> root_id small) /\
       (root_id O <> root_id big /\ root_id O <> root_id small /\ root_id big <> root_id small) /\
       (stored (t_nodes t) u big /\ stored (t_nodes t) u small) /\ (tight o big /\ tight o small) /\
       nleaves big + nleaves small = nleaves f + nleaves g /\ (forall y, In y (leaves big) \/ In y (leaves small) <-> In y (leaves f) \/ In y (leaves g))).
    { destruct BS as [(B1 & B2)|(B1 & B2)]; subst big small; splits; auto; intros; try nlia; tauto. }
    destruct Q as (QC & (Q1 & Q2 & Q3 & Q4) & (Q5 & Q6 & Q7) & (SB & SS) & (TB & TS) & QN & QL). clear BS.
    destruct (rotate_finish_ok i u (root_id O) (root_id big) (root_id small) right t4 _ _ _ _ _ GI4 GU4 GO4 GB GS)
      as (t5 & R5 & A5 & U5 & S5 & E6 & RT5 & FR5 & AL5 & TN5); try assumption.
    exists t5. split; [exact R5|].
    pose proof (height_bound O) as HBO. pose proof (height_bound big) as HBB. pose proof (height_bound small) as HBS.
    pose proof (nleavesc_nonneg c) as NCP. pose proof (nleaves_pos big). pose proof (nleaves_pos small). pose proof (nleaves_pos O).
    rewrite HO, HS in A5. rewrite HO, HS, HB in U5.
    remember (Z.max (height O) (height small) + 1) as hA eqn:EA. assert (W1 : wrap16 hA = hA) by (apply wrap16_id; clear - EA HBO HBB HBS QN NL' NCP; nlia). rewrite W1 in A5, U5.
    remember (Z.max hA (height big) + 1) as hU eqn:EU. assert (W2 : wrap16 hU = hU) by (apply wrap16_id; clear - EA EU HBO HBB HBS QN NL' NCP; nlia). rewrite W2 in U5.
    rewrite BO, BSM in A5, U5. rewrite BB in U5. cbn [w_link w_c0 n_link n_c0 n_c1] in A5, U5.
    set (bA := merge o (root_box O) (root_box small)) in *.
    set (AN := Node i bA (if right then O else small) (if right then small else O)).
    exists AN, big.
    pose proof (cnt_root big) as PB. pose proof (cnt_root small) as PS.
    assert (FRM : forall x, (1 <= cnt x big + cnt x O)%nat \/ ((1 <= cnt x small)%nat /\ x <> root_id small) -> t_nodes t5 x = t_nodes t x).
    { intros x Hx. specialize (QC x). assert (X1 : i <> x) by (apply DI; nlia). assert (X2 : u <> x) by (apply DU; nlia).
      assert (X3 : x <> root_id small).
      { destruct Hx as [Hx|(_ & Hx)]; [|exact Hx]. intros ->. specialize (CNT' (root_id small)). nlia. }
      rewrite E6 by (assumption || (apply not_eq_sym; assumption)). apply E5. nlia. }
    assert (SB5 : stored (t_nodes t5) u big) by (eapply stored_frame; [exact SB|]; intros x Hx; apply FRM; left; nlia).
    assert (SO5 : stored (t_nodes t5) i O) by (eapply stored_frame; [exact SO|]; intros x Hx; apply FRM; left; nlia).
    assert (SS5 : stored (t_nodes t5) i small).
    { eapply (stored_reparent small (t_nodes t)); [exact SS| |exact S5| |].
      - apply get_inv in GS. destruct GS as (_ & GS). rewrite E5 in GS by (specialize (QC (root_id small)); nlia). exact GS.
      - specialize (CNT' (root_id small)). specialize (QC (root_id small)). nlia.
      - intros x Hx NX. apply FRM. right. split; [nlia|exact NX]. }
    assert (SA5 : stored (t_nodes t5) u AN).
    { unfold AN. cbn [stored]. eexists. split; [exact A5|]. cbn [n_link n_height n_box n_c0 n_c1]. splits; auto.
      - cbn [height]. destruct right; nlia.
      - destruct right; [exact KA0|reflexivity].
      - destruct right; [reflexivity|exact KA1].
      - destruct right; assumption.
      - destruct right; assumption. }
    assert (TA : tight o AN).
    { unfold AN. cbn [tight]. unfold bA. destruct right; splits; auto; [apply merge_join|apply join_sym; apply merge_join]. }
    assert (CA : forall x, cnt x AN = (one i x + cnt x O + cnt x small)%nat).
    { intros x. unfold AN. rewrite cnt_node. destruct right; nlia. }
    assert (NA : nleaves AN = nleaves O + nleaves small) by (unfold AN; cbn [nleaves]; destruct right; nlia).
    unfold Step. splits.
    - constructor.
      + unfold stale. eexists. split; [exact U5|]. cbn [n_link n_height n_box n_c0 n_c1]. splits; auto; nlia.
      + eapply storedc_frame; [exact SC4|]. intros x Hx. apply E6; apply not_eq_sym; [apply DI|apply DU|]; try nlia.
        intros E; subst x. specialize (CNT' (root_id small)). specialize (QC (root_id small)). nlia.
      + intros x. rewrite CA. specialize (CNT' x). specialize (QC x). nlia.
      + intros x Hx. rewrite CA in Hx. specialize (QC x). rewrite AL5, AL. apply RNG'. nlia.
      + nlia.
      + splits; auto.
      + rewrite RT5. destruct RT4 as [(C0 & RT4)|(C0 & RT4)].
        * subst c. exact RT4.
        * rewrite RT4, RT3, ROOT. apply top_nonempty. exact C0.
    - unfold same_rest. splits; try congruence.
      intros x Hx. unfold total in Hx. pose proof (CTT x) as CT. specialize (QC x).
        assert (i <> x) by (intros ->; rewrite one_same in Hx; nlia). assert (u <> x) by (intros ->; rewrite (one_same x) in CT; nlia).
        assert (x <> root_id small) by (intros ->; nlia).
        rewrite E6 by (assumption || (apply not_eq_sym; assumption)). destruct c as [|fr c0].
        * destruct RT4 as [(_ & RT4)|(C0 & _)]; [|congruence]. cbn in R4. inversion R4; subst t4. cbn [with_root t_nodes]. apply E3; apply not_eq_sym; assumption.
        * rewrite E4; [apply E3; apply not_eq_sym; assumption|]. intros ->. pose proof (parent_cnt (fr :: c0) ltac:(discriminate)). nlia.
    - intros x. rewrite CA. pose proof (CTT x). specialize (QC x). nlia.
    - intros y. rewrite LVT. specialize (QL y). unfold AN. cbn [leaves]. rewrite !in_app_iff. destruct right; tauto.
    - nlia. }
  destruct (n_height ng <? n_height nf).
  - destruct (FIN f g nf ng) as (t5 & R5 & l' & r' & ST); auto. rewrite R5. cbn [bind]. exists t5, l', r'. auto.
  - destruct (FIN g f ng nf) as (t5 & R5 & l' & r' & ST); auto. rewrite R5. cbn [bind]. exists t5, l', r'. auto.
Qed.
End Proofs.
