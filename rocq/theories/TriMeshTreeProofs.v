(** Proofs about the tree of boxes of a triangle mesh. *)
From Coq Require Import List Arith Lia Bool ZArith.
From Verif Require Import Base Decimal HashSpec TreeModel TreeSpec RayModel RaySpec TreeProofs TreeProofs2 TreeProofs3 TreeProofs4 TreeProofs5 TreeProofs6 RayProofs TreeProperties
  VecModel VecProofs GeomSpec ShapeModel ShapeSpec TriMeshModel TriMeshSpec TriMeshProofs.
Import ListNotations.
Local Open Scope R_scope.

Lemma rle_iff a b : rle a b = true <-> a <= b.
Proof. unfold rle. destruct (Rle_dec a b); split; intros; try discriminate; auto; contradiction. Qed.
Lemma rlt_iff a b : rlt a b = true <-> a < b.
Proof. unfold rlt. destruct (Rlt_dec a b); split; intros; try discriminate; auto; contradiction. Qed.
Lemma real_laws : decimal_laws real_ops.
Proof.
  constructor; cbn; intros; rewrite ?rle_iff in *.
  - lra.
  - lra.
  - unfold rlt, rle. destruct (Rlt_dec a b), (Rle_dec b a); cbn; try reflexivity; lra.
  - lra.
  - lra.
  - lra.
  - now apply Rmult_le_pos.
  - lra.
  - lra.
Qed.
Lemma real_zero d : d_eq0 real_ops d = true <-> d = 0.
Proof. unfold d_eq0. cbn. rewrite andb_true_iff, !rle_iff. lra. Qed.
Lemma real_nonzero d : d_eq0 real_ops d = false <-> d <> 0.
Proof. rewrite <- real_zero. destruct (d_eq0 real_ops d); split; congruence. Qed.
Lemma real_ray_laws : ray_laws real_ops Rinv.
Proof.
  constructor; cbn; intros; rewrite ?rle_iff, ?rlt_iff in *; try lra.
  apply real_nonzero in H. destruct (Rlt_dec 0 d) as [P|P]; [left|right]; intros a b; rewrite !rle_iff; intros AB.
  - apply Rmult_le_compat_r; [|exact AB]. left. now apply Rinv_0_lt_compat.
  - assert (N : / d < 0) by (apply Rinv_lt_0_compat; lra). nra.
Qed.

(** ** Boxes of triangles *)
Definition box_ok (b : box3) : Prop := vx (bmin b) <= vx (bmax b) /\ vy (bmin b) <= vy (bmax b) /\ vz (bmin b) <= vz (bmax b).
Lemma tree_box_valid b : valid_box real_ops (tree_box b) <-> box_ok b.
Proof. unfold valid_box, box_ok. cbn. rewrite !rle_iff. tauto. Qed.
Lemma lower_ok a b : lower a b <= a /\ lower a b <= b /\ (lower a b = a \/ lower a b = b).
Proof. unfold lower, rlt. destruct (Rlt_dec b a); lra. Qed.
Lemma upper_ok a b : a <= upper a b /\ b <= upper a b /\ (upper a b = a \/ upper a b = b).
Proof. unfold upper, rlt. destruct (Rlt_dec a b); lra. Qed.
Lemma lower3 a b c : let m := lower (lower a b) c in m <= a /\ m <= b /\ m <= c /\ (m = a \/ m = b \/ m = c).
Proof. cbv zeta. pose proof (lower_ok a b). pose proof (lower_ok (lower a b) c). intuition lra. Qed.
Lemma upper3 a b c : let m := upper (upper a b) c in a <= m /\ b <= m /\ c <= m /\ (m = a \/ m = b \/ m = c).
Proof. cbv zeta. pose proof (upper_ok a b). pose proof (upper_ok (upper a b) c). intuition lra. Qed.
Lemma triangle_vertices a b c : triangle_set a b c a /\ triangle_set a b c b /\ triangle_set a b c c.
Proof.
  split; [|split]; [exists 1, 0, 0|exists 0, 1, 0|exists 0, 0, 1]; (repeat split; try lra); destruct a as [a1 a2 a3], b as [b1 b2 b3], c as [c1 c2 c3]; cbn; f_equal; ring.
Qed.
Lemma combine_between u v w a b c lo hi : 0 <= u -> 0 <= v -> 0 <= w -> u + v + w = 1 -> lo <= a <= hi -> lo <= b <= hi -> lo <= c <= hi ->
  lo <= u * a + v * b + w * c <= hi.
Proof. intros. nra. Qed.
Lemma triangle_box_tight p q r : tight_bounds (triangle_set p q r) (triangle_box p q r).
Proof.
  destruct (triangle_vertices p q r) as [P [Q R]]. unfold tight_bounds, triangle_box. cbn [bmin bmax vx vy vz].
  pose proof (lower3 (vx p) (vx q) (vx r)) as X. pose proof (lower3 (vy p) (vy q) (vy r)) as Y. pose proof (lower3 (vz p) (vz q) (vz r)) as Z.
  pose proof (upper3 (vx p) (vx q) (vx r)) as X'. pose proof (upper3 (vy p) (vy q) (vy r)) as Y'. pose proof (upper3 (vz p) (vz q) (vz r)) as Z'. cbv zeta in *.
  split; [|repeat split].
  - intros x [u [v [w [U [V [W [S ->]]]]]]]. unfold in_bounds. cbn [vx vy vz bmin bmax]. split; [|split]; apply combine_between; auto; lra.
  - destruct X as (_ & _ & _ & [E|[E|E]]); rewrite E; eauto.
  - destruct X' as (_ & _ & _ & [E|[E|E]]); rewrite E; eauto.
  - destruct Y as (_ & _ & _ & [E|[E|E]]); rewrite E; eauto.
  - destruct Y' as (_ & _ & _ & [E|[E|E]]); rewrite E; eauto.
  - destruct Z as (_ & _ & _ & [E|[E|E]]); rewrite E; eauto.
  - destruct Z' as (_ & _ & _ & [E|[E|E]]); rewrite E; eauto.
Qed.
Lemma tight_unique S a b : tight_bounds S a -> tight_bounds S b -> a = b.
Proof.
  intros (A0 & [a1 [A1 A1']] & [a2 [A2 A2']] & [a3 [A3 A3']] & [a4 [A4 A4']] & [a5 [A5 A5']] & [a6 [A6 A6']]) (B0 & [b1 [B1 B1']] & [b2 [B2 B2']] & [b3 [B3 B3']] & [b4 [B4 B4']] & [b5 [B5 B5']] & [b6 [B6 B6']]).
  destruct a as [[ax ay az] [ax' ay' az']], b as [[bx by_ bz] [bx' by' bz']]. unfold in_bounds in A0, B0. cbn [bmin bmax vx vy vz] in *.
  pose proof (A0 _ B1). pose proof (A0 _ B2). pose proof (A0 _ B3). pose proof (A0 _ B4). pose proof (A0 _ B5). pose proof (A0 _ B6).
  pose proof (B0 _ A1). pose proof (B0 _ A2). pose proof (B0 _ A3). pose proof (B0 _ A4). pose proof (B0 _ A5). pose proof (B0 _ A6).
  f_equal; f_equal; lra.
Qed.
Lemma triangle_box_ok p q r : box_ok (triangle_box p q r).
Proof.
  destruct (triangle_box_tight p q r) as [B _]. destruct (triangle_vertices p q r) as [P _]. specialize (B p P). unfold in_bounds in B. unfold box_ok. lra.
Qed.
Lemma fat_same b : fat_box real_ops 0 b = b.
Proof. destruct b as [[a1 a2 a3] [b1 b2 b3]]. unfold fat_box, extent, TreeModel.vsub, TreeModel.vadd, TreeModel.vscale. cbn.
  repeat match goal with |- context [?a - (?x * 0) * ?h] => replace (a - (x * 0) * h) with a by ring | |- context [?a + (?x * 0) * ?h] => replace (a + (x * 0) * h) with a by ring end. reflexivity. Qed.

(** ** The tree *)
Record holds (t : dtree R) (ids : list Z) (boxes : list box3) : Prop :=
  { h_len : length ids = length boxes
  ; h_nodup : NoDup ids
  ; h_tree : exists a so F, TInv real_ops 0 t a so F /\ tree_history real_ops 0 t a /\ zlen a = zlen boxes /\
      (forall y, In y (leaveso so) <-> exists i id b, nth_error ids i = Some id /\ nth_error boxes i = Some b /\ y = (id, (tree_box b, Some (Z.of_nat i)))) }.
Lemma holds_init : holds (init_tree real_ops) [] [].
Proof.
  constructor; [reflexivity|constructor|]. eexists [], None, _. split; [apply init_inv|]. split; [constructor|]. split; [reflexivity|].
  intros y. cbn. split; [intros []|]. intros [i [id [b [H _]]]]. destruct i; discriminate.
Qed.
Lemma holds_add t ids boxes b : holds t ids boxes -> box_ok b -> (zlen boxes < 32768)%Z ->
  exists t' id, add_object real_ops 0 (tree_box b) (Z.of_nat (length boxes)) t = Ok (t', id) /\ holds t' (ids ++ [id]) (boxes ++ [b]).
Proof.
  intros [HL HN (a & so & F & I & TH & ZA & LV)] BO SZ. apply tree_box_valid in BO.
  destruct (add_ok real_ops real_laws 0 t a so F (tree_box b) (Z.of_nat (length boxes)) I BO) as (t' & id & so' & F' & E & I' & HF & LV'); [lia|].
  assert (NI : ~ In id ids).
  { intros H. apply In_nth_error in H. destruct H as [i H]. destruct (nth_some boxes i) as [bi B]; [rewrite <- HL; eapply some_lt; eauto|].
    assert (K : In (id, (tree_box bi, Some (Z.of_nat i))) (leaveso so)) by (apply LV; eauto 8). apply (i_leaf _ _ _ _ _ _ I) in K. congruence. }
  exists t', id. split; [exact E|]. constructor.
  - rewrite !app_length, HL. reflexivity.
  - apply NoDup_app_snoc; assumption.
  - exists ((id, (tree_box b, Z.of_nat (length boxes))) :: a), so', F'. split; [exact I'|]. split; [eapply th_add; eauto; lia|].
    split; [unfold zlen in *; rewrite app_length; cbn [length]; lia|].
    intros y. rewrite LV', LV, fat_same. split.
    + intros [[i [j [c [A [B ->]]]]]| ->].
      * exists i, j, c. rewrite !nth_error_app1; [auto|eapply some_lt; eauto|eapply some_lt; eauto].
      * exists (length boxes), id, b. rewrite <- HL at 1. rewrite !nth_error_app2, !Nat.sub_diag by lia. auto.
    + intros [i [j [c [A [B ->]]]]]. apply nth_snoc in A. apply nth_snoc in B. destruct A as [A|[A ->]].
      * destruct B as [B|[B ->]]; [left; eauto 8|]. apply some_lt in A. lia.
      * destruct B as [B|[B ->]]; [apply some_lt in B; lia|]. right. subst i. now rewrite HL.
Qed.
Lemma build_tree_ok vs : forall fs t ids boxes, holds t ids boxes -> (Z.of_nat (length boxes + length fs) <= 32768)%Z ->
  (forall f, In f fs -> exists p q r, points_of vs f p q r) ->
  exists t' ids' more, build_tree vs (length boxes) fs t = Ok t' /\ holds t' ids' (boxes ++ more) /\
    Forall2 (fun f b => exists p q r, points_of vs f p q r /\ b = triangle_box p q r) fs more.
Proof.
  induction fs as [|f fs IH]; intros t ids boxes H SZ PO; cbn [build_tree].
  - exists t, ids, []. rewrite app_nil_r. split; [reflexivity|]. split; [exact H|constructor].
  - destruct (PO f (or_introl eq_refl)) as (p & q & r & P). cbn [length] in SZ.
    assert (FP : face_points vs f = Ok (p, q, r)).
    { destruct f as [[a b] c]. destruct P as (A & B & C). unfold face_points. rewrite A, B, C. reflexivity. }
    rewrite FP. cbn [bind].
    destruct (holds_add t ids boxes (triangle_box p q r) H (triangle_box_ok p q r)) as (t1 & id & E & H1); [unfold zlen; lia|]. rewrite E. cbn [bind].
    specialize (IH t1 (ids ++ [id]) (boxes ++ [triangle_box p q r]) H1). rewrite app_length in IH. cbn [length] in IH. rewrite Nat.add_1_r in IH.
    destruct IH as (t2 & ids2 & more & E2 & H2 & F2); [lia|intros g G; apply PO; now right|].
    exists t2, ids2, (triangle_box p q r :: more). split; [exact E2|]. split; [now rewrite <- app_assoc in H2|]. constructor; [eauto 8|exact F2].
Qed.

(** What the tree answers. *)
Lemma holds_data t ids boxes : holds t ids boxes -> forall i id, nth_error ids i = Some id -> get_data id t = Ok (Z.of_nat i).
Proof.
  intros [HL HN (a & so & F & I & TH & ZA & LV)] i id A. destruct (nth_some boxes i) as [b B]; [rewrite <- HL; eapply some_lt; eauto|].
  assert (K : In (id, (tree_box b, Some (Z.of_nat i))) (leaveso so)) by (apply LV; eauto 8).
  destruct (leaf_get real_ops _ _ _ _ _ _ _ (i_rep _ _ _ _ _ _ I) K) as (n & G & _ & D & _). unfold get_data. rewrite G. cbn [bind]. now rewrite D.
Qed.
Lemma holds_fat t ids boxes : holds t ids boxes -> exists a, tree_history real_ops 0 t a /\
  forall id fb, (has Z.eqb id a = true /\ get_fat id t = Ok fb) <-> exists i b, nth_error ids i = Some id /\ nth_error boxes i = Some b /\ fb = tree_box b.
Proof.
  intros [HL HN (a & so & F & I & TH & ZA & LV)]. exists a. split; [exact TH|]. intros id fb. rewrite (live_fat real_ops 0 _ _ _ _ id I fb). split.
  - intros [d K]. apply LV in K. destruct K as (i & id' & b & A & B & E). injection E as -> -> ->. eauto.
  - intros (i & b & A & B & ->). eexists. apply LV. eauto 8.
Qed.
Definition meets_box (q b : box3) : Prop := overlap real_ops (tree_box q) (tree_box b).
Lemma holds_query t ids boxes q : holds t ids boxes -> exists out, query real_ops (tree_box q) t = Ok out /\ NoDup out /\
  forall id, In id out <-> exists i b, nth_error ids i = Some id /\ nth_error boxes i = Some b /\ meets_box q b.
Proof.
  intros H. destruct (holds_fat _ _ _ H) as (a & TH & FT). destruct (C20_query_exact real_ops real_laws 0 t a (tree_box q) TH) as (out & Q & ND & IN).
  exists out. split; [exact Q|]. split; [exact ND|]. intros id. rewrite IN. split.
  - intros (HI & fb & G & O). destruct (proj1 (FT id fb) (conj HI G)) as (i & b & A & B & ->). eauto.
  - intros (i & b & A & B & O). destruct (proj2 (FT id (tree_box b)) (ex_intro _ i (ex_intro _ b (conj A (conj B eq_refl))))) as [HI G]. eauto.
Qed.
Lemma collect_dialogue : forall tr s m s' m', m <> 0 -> dialogue real_ops collect s m tr s' m' ->
  s' = s ++ offered tr /\ m' = m /\ forall id m1 f, In (id, m1, f) tr -> m1 = m /\ f = m.
Proof.
  induction tr as [|[[id m1] f] tr IH]; intros s m s' m' M D; cbn [dialogue] in D.
  - destruct D as (-> & ->). rewrite app_nil_r. split; [reflexivity|]. split; [reflexivity|intros ? ? ? []].
  - destruct D as (-> & s1 & CB & D). unfold collect in CB. injection CB as <- <-. rewrite (proj2 (real_nonzero m) M) in D.
    assert (SH : shorten real_ops m m = m) by (unfold shorten; cbn; destruct (rlt 0 m && rlt m m)%bool; reflexivity). rewrite SH in D.
    destruct (IH _ _ _ _ M D) as (-> & -> & K). split; [now rewrite <- app_assoc|]. split; [reflexivity|].
    intros id' m' f' [E|E]; [injection E as <- <- <-; auto|eauto].
Qed.
Lemma holds_cast t ids boxes ry m : holds t ids boxes -> m <> 0 -> exists out, raycast real_ops (test_ray real_ops Rinv ry) collect m [] t = Ok (out, m) /\ NoDup out /\
  (forall id, In id out -> exists i b, nth_error ids i = Some id /\ nth_error boxes i = Some b /\ test_ray real_ops Rinv ry (tree_box b) m = true) /\
  (forall i id b, nth_error ids i = Some id -> nth_error boxes i = Some b -> test_ray real_ops Rinv ry (tree_box b) m = true -> off_faces real_ops ry (tree_box b) -> In id out).
Proof.
  intros H M. destruct (holds_fat _ _ _ H) as (a & TH & FT).
  destruct (C21_raycast_each real_ops real_laws 0 Rinv real_ray_laws ry _ collect t a m []) as (s' & tr & m' & R & _ & D & ND & _ & OF & AL); [cbn; apply rle_iff; lra|exact TH|].
  destruct (collect_dialogue _ _ _ _ _ M D) as (-> & -> & K). cbn [app] in *. exists (offered tr). split; [exact R|]. split; [exact ND|]. split.
  - intros id I. unfold offered in I. apply in_map_iff in I. destruct I as ([[id' m1] f] & E & I). cbn in E. subst id'. destruct (K _ _ _ I) as [-> _].
    destruct (OF _ _ _ I) as (HI & fb & G & T). destruct (proj1 (FT id fb) (conj HI G)) as (i & b & A & B & ->). eauto.
  - intros i id b A B T O. destruct (proj2 (FT id (tree_box b)) (ex_intro _ i (ex_intro _ b (conj A (conj B eq_refl))))) as [HI G]. apply AL.
    + intros id' m1 f I. destruct (K _ _ _ I) as [_ ->]. now apply real_nonzero.
    + split; [exact HI|]. eauto.
    + intros fb G'. rewrite G in G'. injection G' as <-. exact O.
Qed.
(** The box of the root. *)
Lemma root_least : forall (s : shape R), tight real_ops s -> forall c, (forall i b d, In (i, (b, d)) (leaves s) -> within real_ops b c) -> within real_ops (root_box s) c.
Proof.
  induction s as [j b d|j b l IHl r IHr]; intros TI c H; cbn [root_box tight leaves] in *.
  - eapply H. now left.
  - destruct TI as ((_ & _ & J) & TL & TR). apply J; [apply IHl|apply IHr]; auto; intros i b' d' I; eapply H; apply in_app_iff; eauto.
Qed.
Definition inside_box (b c : box3) : Prop := within real_ops (tree_box b) (tree_box c).
Lemma holds_root t ids boxes : holds t ids boxes -> boxes <> [] -> exists rb, get_root_box t = Ok (tree_box rb) /\
  (forall b, In b boxes -> inside_box b rb) /\ (forall c, (forall b, In b boxes -> inside_box b c) -> inside_box rb c).
Proof.
  intros [HL HN (a & so & F & I & TH & ZA & LV)] NE. destruct (i_rep _ _ _ _ _ _ I) as [RT RF RC RN RA RP RD].
  destruct so as [s|]; cbn [rooted cnto sizeo leaveso] in *.
  - destruct RT as (ST & TI & ROOT). destruct (stored_root _ _ _ ST) as (n & A & _ & _ & B).
    assert (RG : (0 <= root_id s < t_alloc t)%Z) by (apply inr_pos; rewrite <- RC; pose proof (cnt_root s); lia).
    exists (real_box (root_box s)). assert (EB : forall b : box R, tree_box (real_box b) = b) by (intros [[x y z] [x' y' z']]; reflexivity). unfold inside_box. rewrite !EB.
    split; [|split].
    + unfold get_root_box, get_fat. rewrite ROOT, (get_ok _ _ _ RG A). cbn [bind]. now rewrite B.
    + intros b IB. apply In_nth_error in IB. destruct IB as [i IB]. destruct (nth_some ids i) as [id ID]; [rewrite HL; eapply some_lt; eauto|].
      eapply (leaf_within real_ops real_laws); [exact TI|]. apply LV. eauto 8.
    + intros c H. apply root_least; [exact TI|]. intros i b d L. apply LV in L. destruct L as (k & id & b' & A1 & B1 & E). injection E as -> -> ->. apply H. eapply nth_error_In; eauto.
  - exfalso. destruct boxes as [|b boxes]; [congruence|]. destruct ids as [|id ids]; [discriminate|].
    assert (K : In (id, (tree_box b, Some (Z.of_nat 0))) []) by (apply LV; exists 0%nat, id, b; auto). destruct K.
Qed.
