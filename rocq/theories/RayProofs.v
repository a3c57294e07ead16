(** The ray test of a box. *)
From Coq Require Import QArith Reals Psatz.
From Flocq Require Import Core Plus_error.
From Verif Require Import Base Decimal DecimalInstances TreeModel TreeSpec RayModel RaySpec TreeProofs TreeProofs6.

(** Laws of subtraction and division used by the ray test. *)
Record ray_laws {T : Type} (o : decimal_ops T) (inv : T -> T) : Prop := {
  sub_mono : forall a b c, d_le o a b = true -> d_le o (d_sub o a c) (d_sub o b c) = true;
  sub_neg : forall a c, d_lt o a c = true -> d_lt o (d_sub o a c) (d_zero o) = true;
  sub_pos : forall a c, d_lt o c a = true -> d_lt o (d_zero o) (d_sub o a c) = true;
  div_mono : forall d, d_eq0 o d = false ->
    (forall a b, d_le o a b = true -> d_le o (d_mul o a (inv d)) (d_mul o b (inv d)) = true) \/
    (forall a b, d_le o a b = true -> d_le o (d_mul o b (inv d)) (d_mul o a (inv d)) = true)
}.

Section Proofs.
Context {T : Type} (o : decimal_ops T) (L : decimal_laws o) (inv : T -> T) (RL : ray_laws o inv).
Notation ext := (ext T).

Lemma ele_refl : forall a : ext, a <> NaN -> ele o a a = true.
Proof. intros [| |x|] H; cbn; try reflexivity; [congruence|apply (le_refl o L)]. Qed.
Lemma ele_trans : forall a b c : ext, ele o a b = true -> ele o b c = true -> ele o a c = true.
Proof. intros [| |x|] [| |y|] [| |z|]; cbn; intros; try discriminate; try reflexivity. eapply (le_trans o L); eauto. Qed.
Lemma elt_ele : forall a b : ext, a <> NaN -> b <> NaN -> elt o a b = negb (ele o b a).
Proof. intros [| |x|] [| |y|] A B; cbn; try reflexivity; try congruence. apply (lt_le o L). Qed.
Lemma ele_total : forall a b : ext, a <> NaN -> b <> NaN -> ele o a b = true \/ ele o b a = true.
Proof. intros [| |x|] [| |y|] A B; cbn; auto; try congruence. apply (le_total o L). Qed.

Lemma emin_nan : forall a b : ext, a <> NaN -> b <> NaN -> emin o a b <> NaN.
Proof. intros. unfold emin. destruct (elt o b a); assumption. Qed.
Lemma emax_nan : forall a b : ext, a <> NaN -> b <> NaN -> emax o a b <> NaN.
Proof. intros. unfold emax. destruct (elt o a b); assumption. Qed.
Lemma ele_emin : forall c a b : ext, a <> NaN -> b <> NaN -> (ele o c (emin o a b) = true <-> ele o c a = true /\ ele o c b = true).
Proof.
  intros c a b A B. unfold emin. rewrite elt_ele by assumption. destruct (ele o a b) eqn:E; cbn [negb].
  - split; [|tauto]. intros H. split; [exact H|eapply ele_trans; eauto].
  - split; [|tauto]. intros H. split; [|exact H]. destruct (ele_total a b A B); [congruence|]. eapply ele_trans; eauto.
Qed.
Lemma emax_ele : forall c a b : ext, a <> NaN -> b <> NaN -> (ele o (emax o a b) c = true <-> ele o a c = true /\ ele o b c = true).
Proof.
  intros c a b A B. unfold emax. rewrite elt_ele by assumption. destruct (ele o b a) eqn:E; cbn [negb].
  - split; [|tauto]. intros H. split; [exact H|eapply ele_trans; eauto].
  - split; [|tauto]. intros H. split; [|exact H]. destruct (ele_total a b A B); [|congruence]. eapply ele_trans; eauto.
Qed.

Section Box.
Variable ry : ray (T:=T).
Definition sx (b : box T) := slab o inv (vx (b_min b)) (vx (b_max b)) (vx (r_origin ry)) (vx (r_dir ry)) (fst (fst (r_neg ry))).
Definition sy (b : box T) := slab o inv (vy (b_min b)) (vy (b_max b)) (vy (r_origin ry)) (vy (r_dir ry)) (snd (fst (r_neg ry))).
Definition sz (b : box T) := slab o inv (vz (b_min b)) (vz (b_max b)) (vz (r_origin ry)) (vz (r_dir ry)) (snd (r_neg ry)).
Definition lo (s : ext * ext) := emin o (fst s) (snd s).
Definition hi (s : ext * ext) := emax o (fst s) (snd s).
Definition num (s : ext * ext) := fst s <> NaN /\ snd s <> NaN.

Lemma test_ray_iff : forall b m, num (sx b) -> num (sy b) -> num (sz b) ->
  (test_ray o inv ry b m = true <->
   forall l h, In l [lo (sx b); lo (sy b); lo (sz b); Fin (d_zero o)] -> In h [hi (sx b); hi (sy b); hi (sz b); Fin m] -> ele o l h = true).
Proof.
  intros b m (X1 & X2) (Y1 & Y2) (Z1 & Z2). unfold test_ray.
  replace (r_neg ry) with (fst (fst (r_neg ry)), snd (fst (r_neg ry)), snd (r_neg ry)) by (destruct (r_neg ry) as [[p q] r]; reflexivity).
  fold (sx b) (sy b) (sz b). 
  assert (P : forall s : ext * ext, num s -> lo s <> NaN /\ hi s <> NaN) by (intros s (A & B); split; [apply emin_nan|apply emax_nan]; assumption).
  destruct (P (sx b)) as (LX & HX); [split; assumption|]. destruct (P (sy b)) as (LY & HY); [split; assumption|]. destruct (P (sz b)) as (LZ & HZ); [split; assumption|]. clear P.
  unfold lo, hi in *. destruct (sx b) as [x1 x2]. destruct (sy b) as [y1 y2]. destruct (sz b) as [z1 z2]. cbn [fst snd] in *.
  assert (FM : @Fin T m <> NaN) by discriminate. assert (FZ : @Fin T (d_zero o) <> NaN) by discriminate.
  repeat (rewrite emax_ele || rewrite ele_emin); auto using emin_nan, emax_nan.
  split.
  - intros H l h. cbn [In]. intros IL IH. repeat (destruct H as (H & ?) || idtac).
    intuition (subst; assumption).
  - intros H. repeat split; apply H; cbn; tauto.
Qed.
End Box.

(** The two fractions of a slab that is not parallel to the ray, or does not touch it. *)
Lemma slab_num : forall mn mx og d neg, off_face o mn mx og d -> num (slab o inv mn mx og d neg).
Proof.
  intros mn mx og d neg H. unfold slab, num, times_inverse. cbn [fst snd]. destruct (d_eq0 o d) eqn:E; [|split; discriminate].
  destruct H as [H|(A & B)]; [congruence|].
  assert (Q : forall v, d_lt o v og = true \/ d_lt o og v = true ->
    (if d_lt o (d_zero o) (d_sub o v og) then if neg then NInf else PInf else if d_lt o (d_sub o v og) (d_zero o) then if neg then PInf else NInf else @NaN T) <> NaN).
  { intros v [V|V].
    - rewrite (sub_neg o inv RL _ _ V). destruct (d_lt o (d_zero o) (d_sub o v og)); destruct neg; discriminate.
    - rewrite (sub_pos o inv RL _ _ V). destruct neg; discriminate. }
  split; apply Q; assumption.
Qed.

Lemma lt_asym : forall a b, d_lt o a b = true -> d_lt o b a = false.
Proof. intros a b H. rewrite (lt_le o L). apply negb_false_iff. apply (le_of_lt o L). exact H. Qed.
Lemma lt_le_trans : forall a b c, d_lt o a b = true -> d_le o b c = true -> d_lt o a c = true.
Proof.
  intros a b c A B. rewrite (lt_le o L) in *. apply negb_true_iff in A. apply negb_true_iff. destruct (d_le o c a) eqn:E; [|reflexivity].
  rewrite (le_trans o L b c a B E) in A. discriminate.
Qed.
Lemma le_lt_trans : forall a b c, d_le o a b = true -> d_lt o b c = true -> d_lt o a c = true.
Proof.
  intros a b c A B. rewrite (lt_le o L) in *. apply negb_true_iff in B. apply negb_true_iff. destruct (d_le o c a) eqn:E; [|reflexivity].
  rewrite (le_trans o L c a b E A) in B. discriminate.
Qed.

(** On an axis parallel to the faces the interval is everything or nothing. *)
Lemma slab_zero : forall mn mx og d neg, d_eq0 o d = true -> off_face o mn mx og d -> d_le o mn mx = true ->
  (d_lt o mn og = true /\ d_lt o og mx = true /\ lo (slab o inv mn mx og d neg) = NInf /\ hi (slab o inv mn mx og d neg) = PInf) \/
  ((d_lt o og mn = true \/ d_lt o mx og = true) /\ lo (slab o inv mn mx og d neg) = hi (slab o inv mn mx og d neg) /\
   (hi (slab o inv mn mx og d neg) = NInf \/ lo (slab o inv mn mx og d neg) = PInf)).
Proof.
  intros mn mx og d neg Z [H|(A & B)] V; [congruence|]. unfold slab, times_inverse, lo, hi. rewrite Z. cbn [fst snd].
  destruct A as [A|A]; destruct B as [B|B].
  - right. split; [auto|]. rewrite (sub_neg o inv RL _ _ A), (sub_neg o inv RL _ _ B), (lt_asym _ _ (sub_neg o inv RL _ _ A)), (lt_asym _ _ (sub_neg o inv RL _ _ B)).
    destruct neg; cbn; auto.
  - left. splits; auto; rewrite (sub_neg o inv RL _ _ A), (sub_pos o inv RL _ _ B), (lt_asym _ _ (sub_neg o inv RL _ _ A)); destruct neg; reflexivity.
  - exfalso. pose proof (lt_le_trans _ _ _ A V) as Q. rewrite (lt_asym _ _ Q) in B. discriminate.
  - right. split; [auto|]. rewrite (sub_pos o inv RL _ _ A), (sub_pos o inv RL _ _ B). destruct neg; cbn; auto.
Qed.

(** A larger slab gives a larger interval. *)
Lemma slab_mono : forall mn mx mn' mx' og d neg, off_face o mn mx og d -> d_le o mn mx = true ->
  d_le o mn' mn = true -> d_le o mx mx' = true ->
  hi (slab o inv mn mx og d neg) = NInf \/ lo (slab o inv mn mx og d neg) = PInf \/
  (num (slab o inv mn' mx' og d neg) /\
   ele o (lo (slab o inv mn' mx' og d neg)) (lo (slab o inv mn mx og d neg)) = true /\
   ele o (hi (slab o inv mn mx og d neg)) (hi (slab o inv mn' mx' og d neg)) = true).
Proof.
  intros mn mx mn' mx' og d neg OF V A B. destruct (d_eq0 o d) eqn:Z.
  - destruct (slab_zero mn mx og d neg Z OF V) as [(P1 & P2 & P3 & P4)|(P1 & P2 & [P3|P3])]; [|auto|auto].
    right. right. assert (Q1 : d_lt o mn' og = true) by (eapply le_lt_trans; eauto). assert (Q2 : d_lt o og mx' = true) by (eapply lt_le_trans; eauto).
    assert (OF' : off_face o mn' mx' og d) by (right; auto).
    assert (V' : d_le o mn' mx' = true) by (eapply (le_trans o L); [exact A|eapply (le_trans o L); eauto]).
    destruct (slab_zero mn' mx' og d neg Z OF' V') as [(R1 & R2 & R3 & R4)|([R1|R1] & _)].
    + split; [apply slab_num; exact OF'|]. rewrite R3, R4, P3, P4. auto.
    + rewrite (lt_asym _ _ R1) in Q1. discriminate.
    + rewrite (lt_asym _ _ R1) in Q2. discriminate.
  - right. right. unfold slab, times_inverse, num, lo, hi. rewrite Z. cbn [fst snd]. split; [split; discriminate|].
    pose proof (sub_mono o inv RL _ _ og A) as SA. pose proof (sub_mono o inv RL _ _ og B) as SB. pose proof (sub_mono o inv RL _ _ og V) as SV.
    set (f := fun x => d_mul o x (inv d)). fold (f (d_sub o mn og)) (f (d_sub o mx og)) (f (d_sub o mn' og)) (f (d_sub o mx' og)).
    assert (NN : forall x : T, Fin x <> NaN) by discriminate.
    assert (LMIN : forall x y, ele o (emin o (Fin x) (Fin y)) (Fin x) = true /\ ele o (emin o (Fin x) (Fin y)) (Fin y) = true).
    { intros x y. apply ele_emin; auto. apply ele_refl. apply emin_nan; auto. }
    assert (LMAX : forall x y, ele o (Fin x) (emax o (Fin x) (Fin y)) = true /\ ele o (Fin y) (emax o (Fin x) (Fin y)) = true).
    { intros x y. apply emax_ele; auto. apply ele_refl. apply emax_nan; auto. }
    assert (C : (d_le o (f (d_sub o mn' og)) (f (d_sub o mn og)) = true /\ d_le o (f (d_sub o mn og)) (f (d_sub o mx og)) = true /\ d_le o (f (d_sub o mx og)) (f (d_sub o mx' og)) = true) \/
                (d_le o (f (d_sub o mx' og)) (f (d_sub o mx og)) = true /\ d_le o (f (d_sub o mx og)) (f (d_sub o mn og)) = true /\ d_le o (f (d_sub o mn og)) (f (d_sub o mn' og)) = true)).
    { unfold f. destruct (div_mono o inv RL d Z) as [M|M]; [left|right]; splits; apply M; assumption. }
    clearbody f. set (a' := f (d_sub o mn' og)) in *. set (a := f (d_sub o mn og)) in *. set (b := f (d_sub o mx og)) in *. set (b' := f (d_sub o mx' og)) in *. clearbody a a' b b'.
    assert (TR : forall x y z, d_le o x y = true -> d_le o y z = true -> d_le o x z = true) by (apply (le_trans o L)).
    split.
    + apply ele_emin; auto. destruct (LMIN a' b') as (M1 & M2). destruct C as [(C1 & C2 & C3)|(C1 & C2 & C3)]; split.
      * eapply ele_trans; [exact M1|]. exact C1.
      * eapply ele_trans; [exact M1|]. cbn. eauto.
      * eapply ele_trans; [exact M2|]. cbn. eauto.
      * eapply ele_trans; [exact M2|]. exact C1.
    + apply emax_ele; auto. destruct (LMAX a' b') as (M1 & M2). destruct C as [(C1 & C2 & C3)|(C1 & C2 & C3)]; split.
      * eapply ele_trans; [|exact M2]. cbn. eauto.
      * eapply ele_trans; [|exact M2]. exact C3.
      * eapply ele_trans; [|exact M1]. exact C3.
      * eapply ele_trans; [|exact M1]. cbn. eauto.
Qed.

(** The test is monotone in the box and in the length of the ray. *)
Theorem test_ray_mono : forall ry b a m, off_faces o ry b -> valid_box o b -> within o b a ->
  test_ray o inv ry b m = true -> test_ray o inv ry a m = true.
Proof.
  intros ry b a m (FX & FY & FZ) (VX & VY & VZ) ((X1 & X2) & (Y1 & Y2) & (Z1 & Z2)) H.
  rewrite test_ray_iff in H by (apply slab_num; assumption).
  assert (Q : forall s, In s [sx ry b; sy ry b; sz ry b] -> hi s <> NInf /\ lo s <> PInf).
  { intros s IS. split; intros E.
    - assert (K : ele o (Fin (d_zero o)) (hi s) = true); [apply H; cbn in IS |- *; [tauto|intuition (subst; auto)]|]. rewrite E in K. discriminate.
    - assert (K : ele o (lo s) (Fin m) = true); [apply H; cbn in IS |- *; [intuition (subst; auto)|tauto]|]. rewrite E in K. discriminate. }
  destruct (slab_mono _ _ _ _ _ _ (fst (fst (r_neg ry))) FX VX X1 X2) as [E|[E|(NX & LX & HX)]]; [exfalso; apply (proj1 (Q (sx ry b) ltac:(cbn; tauto))); exact E|exfalso; apply (proj2 (Q (sx ry b) ltac:(cbn; tauto))); exact E|].
  destruct (slab_mono _ _ _ _ _ _ (snd (fst (r_neg ry))) FY VY Y1 Y2) as [E|[E|(NY & LY & HY)]]; [exfalso; apply (proj1 (Q (sy ry b) ltac:(cbn; tauto))); exact E|exfalso; apply (proj2 (Q (sy ry b) ltac:(cbn; tauto))); exact E|].
  destruct (slab_mono _ _ _ _ _ _ (snd (r_neg ry)) FZ VZ Z1 Z2) as [E|[E|(NZ & LZ & HZ)]]; [exfalso; apply (proj1 (Q (sz ry b) ltac:(cbn; tauto))); exact E|exfalso; apply (proj2 (Q (sz ry b) ltac:(cbn; tauto))); exact E|].
  fold (sx ry b) (sx ry a) in *. fold (sy ry b) (sy ry a) in *. fold (sz ry b) (sz ry a) in *.
  apply test_ray_iff; auto.
  intros l h IL IH.
  assert (ML : exists l', In l' [lo (sx ry b); lo (sy ry b); lo (sz ry b); Fin (d_zero o)] /\ ele o l l' = true).
  { cbn in IL. destruct IL as [<-|[<-|[<-|[<-|[]]]]]; eexists; (split; [|eassumption || (apply ele_refl; discriminate)]); cbn; tauto. }
  assert (MH : exists h', In h' [hi (sx ry b); hi (sy ry b); hi (sz ry b); Fin m] /\ ele o h' h = true).
  { cbn in IH. destruct IH as [<-|[<-|[<-|[<-|[]]]]]; eexists; (split; [|eassumption || (apply ele_refl; discriminate)]); cbn; tauto. }
  destruct ML as (l' & I1 & L1). destruct MH as (h' & I2 & L2). eapply ele_trans; [exact L1|]. eapply ele_trans; [|exact L2]. apply H; assumption.
Qed.
Theorem test_ray_longer : forall ry b m m', off_faces o ry b -> test_ray o inv ry b m = true -> d_le o m m' = true -> test_ray o inv ry b m' = true.
Proof.
  intros ry b m m' (FX & FY & FZ) H LE. rewrite test_ray_iff in H by (apply slab_num; assumption). apply test_ray_iff; [apply slab_num; assumption..|].
  intros l h IL IH. cbn in IH. destruct IH as [<-|[<-|[<-|[<-|[]]]]]; try (apply H; [exact IL|cbn; tauto]).
  eapply ele_trans; [apply (H l (Fin m)); [exact IL|cbn; tauto]|]. exact LE.
Qed.
End Proofs.

(** * Instances *)
Lemma Q_ray_laws : ray_laws Q_ops Qinv.
Proof.
  constructor; cbn; unfold Qlt_bool, d_eq0; cbn.
  - intros. rewrite Qle_bool_iff in *. lra.
  - intros a c H. apply negb_true_iff in H. apply negb_true_iff. destruct (Qle_bool 0 (a - c)) eqn:E; [|reflexivity].
    assert (N : ~ (c <= a)%Q) by (rewrite <- Qle_bool_iff; congruence). apply Qle_bool_iff in E. lra.
  - intros a c H. apply negb_true_iff in H. apply negb_true_iff. destruct (Qle_bool (a - c) 0) eqn:E; [|reflexivity].
    assert (N : ~ (a <= c)%Q) by (rewrite <- Qle_bool_iff; congruence). apply Qle_bool_iff in E. lra.
  - intros d H. destruct (Qle_bool 0 d) eqn:P.
    + left. intros a b. rewrite !Qle_bool_iff. intros AB. apply Qle_bool_iff in P. apply Qmult_le_compat_r; [exact AB|]. apply Qinv_le_0_compat. exact P.
    + right. intros a b. rewrite !Qle_bool_iff. intros AB. assert (N : (d < 0)%Q). { destruct (Qlt_le_dec d 0); [assumption|]. apply Qle_bool_iff in q. congruence. }
      assert (I : (0 <= - / d)%Q).
      { assert (E : (- / d == / - d)%Q) by (field; lra). rewrite E. apply Qinv_le_0_compat. lra. }
      nra.
Qed.

Lemma rnd_sub_neq : forall a c : f32, proj1_sig a <> proj1_sig c -> rnd (proj1_sig a - proj1_sig c) <> 0%R.
Proof.
  intros a c H. unfold rnd, Rminus. apply round_plus_neq_0.
  - apply f32_valid.
  - apply monotone_exp_not_FTZ; [apply f32_valid|apply FLT_exp_monotone].
  - apply valid_rnd_N.
  - exact (proj2_sig a).
  - apply generic_format_opp. exact (proj2_sig c).
  - lra.
Qed.
Definition f32_inv (d : f32) : f32 := f32_of (/ proj1_sig d).
Lemma Rlt_bool_iff : forall x y, Rlt_bool x y = true <-> (x < y)%R.
Proof. intros. destruct (Rlt_bool_spec x y); split; intros; try reflexivity; try discriminate; lra. Qed.
Lemma f32_ray_laws : ray_laws f32_ops f32_inv.
Proof.
  constructor.
  - cbn. intros a b c. rewrite !Rle_bool_iff. intros. apply rnd_mono. lra.
  - cbn. intros a c. rewrite !Rlt_bool_iff, rnd_0. intros H. pose proof (rnd_sub_neq a c ltac:(lra)). pose proof (rnd_mono (proj1_sig a - proj1_sig c) 0 ltac:(lra)) as M. rewrite rnd_0 in M. lra.
  - cbn. intros a c. rewrite !Rlt_bool_iff, rnd_0. intros H. pose proof (rnd_sub_neq a c ltac:(lra)). pose proof (rnd_mono 0 (proj1_sig a - proj1_sig c) ltac:(lra)) as M. rewrite rnd_0 in M. lra.
  - cbn. intros d H. destruct (Rle_dec 0 (rnd (/ proj1_sig d))) as [P|P].
    + left. intros a b. rewrite !Rle_bool_iff. intros. apply rnd_mono. apply Rmult_le_compat_r; assumption.
    + right. intros a b. rewrite !Rle_bool_iff. intros. apply rnd_mono. nra.
Qed.

(** * In exact arithmetic the test is the intersection of the segment with the box *)
Open Scope Q_scope.
Lemma Qlt_bool_iff : forall a b, Qlt_bool a b = true <-> a < b.
Proof. intros. unfold Qlt_bool. rewrite negb_true_iff. split; intros H. - destruct (Qlt_le_dec a b) as [Q|Q]; [exact Q|]. apply Qle_bool_iff in Q. congruence. - destruct (Qle_bool b a) eqn:E; [|reflexivity]. apply Qle_bool_iff in E. lra. Qed.
Lemma Qeq0_iff : forall d, d_eq0 Q_ops d = true <-> d == 0.
Proof. intros. unfold d_eq0. cbn. rewrite andb_true_iff, !Qle_bool_iff. split; [intros; lra|intros ->; lra]. Qed.

(** The fractions at which the ray is inside one slab. *)
Lemma slab_exact : forall mn mx og d neg t, off_face Q_ops mn mx og d -> mn <= mx ->
  (ele Q_ops (lo Q_ops (slab Q_ops Qinv mn mx og d neg)) (Fin t) = true /\ ele Q_ops (Fin t) (hi Q_ops (slab Q_ops Qinv mn mx og d neg)) = true <->
   mn <= og + d * t /\ og + d * t <= mx).
Proof.
  intros mn mx og d neg t OF V. destruct (d_eq0 Q_ops d) eqn:Z.
  - pose proof Z as Z'. apply Qeq0_iff in Z'. assert (E : og + d * t == og) by (rewrite Z'; ring).
    destruct (slab_zero Q_ops Q_laws Qinv Q_ray_laws mn mx og d neg Z OF) as [(P1 & P2 & P3 & P4)|(P1 & P2 & P3)]; [cbn; apply Qle_bool_iff; exact V| |].
    + rewrite P3, P4. cbn in P1, P2. rewrite Qlt_bool_iff in P1, P2. cbn. split; [intros; lra|auto].
    + cbn in P1. rewrite !Qlt_bool_iff in P1. split.
      * intros (A & B). destruct P3 as [P3|P3]; [rewrite P3 in B; discriminate|rewrite P3 in A; discriminate].
      * intros (A & B). exfalso. destruct P1; lra.
  - assert (N : ~ d == 0) by (intros E; apply Qeq0_iff in E; congruence).
    unfold slab, times_inverse, lo, hi. rewrite Z. cbn [fst snd d_sub d_mul Q_ops].
    set (a := (mn - og) * / d). set (b := (mx - og) * / d).
    assert (EA : a * d == mn - og) by (unfold a; field; exact N). assert (EB : b * d == mx - og) by (unfold b; field; exact N). clearbody a b.
    assert (MM : forall x y z, ele Q_ops (emin Q_ops (Fin x) (Fin y)) (Fin z) = true <-> (x <= z \/ y <= z)).
    { intros x y z. unfold emin. cbn. unfold Qlt_bool. destruct (Qle_bool x y) eqn:E; cbn; rewrite Qle_bool_iff.
      - apply Qle_bool_iff in E. split; [auto|intros [?|?]; lra].
      - assert (~ x <= y) by (rewrite <- Qle_bool_iff; congruence). split; [auto|intros [?|?]; lra]. }
    assert (MX : forall x y z, ele Q_ops (Fin z) (emax Q_ops (Fin x) (Fin y)) = true <-> (z <= x \/ z <= y)).
    { intros x y z. unfold emax. cbn. unfold Qlt_bool. destruct (Qle_bool y x) eqn:E; cbn; rewrite Qle_bool_iff.
      - apply Qle_bool_iff in E. split; [auto|intros [?|?]; lra].
      - assert (~ y <= x) by (rewrite <- Qle_bool_iff; congruence). split; [auto|intros [?|?]; lra]. }
    rewrite MM, MX. destruct (Qlt_le_dec 0 d) as [D|D].
    + assert (AB : a <= b) by (apply Qnot_lt_le; intros Q; nra). split.
      * intros (A & B). assert (a <= t) by (destruct A; lra). assert (t <= b) by (destruct B; lra). split; nra.
      * intros (A & B). split; [left|right]; apply Qnot_lt_le; intros Q; nra.
    + assert (D' : d < 0) by (destruct (Qlt_le_dec d 0); [assumption|exfalso; apply N; lra]).
      assert (AB : b <= a) by (apply Qnot_lt_le; intros Q; nra). split.
      * intros (A & B). assert (b <= t) by (destruct A; lra). assert (t <= a) by (destruct B; lra). split; nra.
      * intros (A & B). split; [right|left]; apply Qnot_lt_le; intros Q; nra.
Qed.

Theorem test_ray_exact : forall ry b m, off_faces Q_ops ry b -> valid_box Q_ops b ->
  (test_ray Q_ops Qinv ry b m = true <-> ray_meets Q_ops ry m b).
Proof.
  intros ry b m OFB (VX & VY & VZ). pose proof OFB as (FX & FY & FZ). cbn in VX, VY, VZ. rewrite Qle_bool_iff in VX, VY, VZ.
  rewrite (test_ray_iff Q_ops Q_laws Qinv) by (apply (slab_num Q_ops Qinv Q_ray_laws); assumption).
  pose proof (fun t => slab_exact _ _ _ _ (fst (fst (r_neg ry))) t FX VX) as EX. pose proof (fun t => slab_exact _ _ _ _ (snd (fst (r_neg ry))) t FY VY) as EY. pose proof (fun t => slab_exact _ _ _ _ (snd (r_neg ry)) t FZ VZ) as EZ.
  fold (sx Q_ops Qinv ry b) in EX. fold (sy Q_ops Qinv ry b) in EY. fold (sz Q_ops Qinv ry b) in EZ.
  assert (PI : forall t, point_in Q_ops (ray_point Q_ops ry t) b <->
    (vx (b_min b) <= vx (r_origin ry) + vx (r_dir ry) * t /\ vx (r_origin ry) + vx (r_dir ry) * t <= vx (b_max b)) /\
    (vy (b_min b) <= vy (r_origin ry) + vy (r_dir ry) * t /\ vy (r_origin ry) + vy (r_dir ry) * t <= vy (b_max b)) /\
    (vz (b_min b) <= vz (r_origin ry) + vz (r_dir ry) * t /\ vz (r_origin ry) + vz (r_dir ry) * t <= vz (b_max b))).
  { intros t. unfold point_in, ray_point. cbn. rewrite !Qle_bool_iff. tauto. }
  unfold ray_meets. cbn [d_le d_zero Q_ops].
  set (X := sx Q_ops Qinv ry b) in *. set (Y := sy Q_ops Qinv ry b) in *. set (Z := sz Q_ops Qinv ry b) in *.
  split.
  - intros H.
    (* the earliest of the upper bounds *)
    assert (E : exists t, (forall h, In h [hi Q_ops X; hi Q_ops Y; hi Q_ops Z; Fin m] -> ele Q_ops (Fin t) h = true) /\ In (Fin t) [hi Q_ops X; hi Q_ops Y; hi Q_ops Z; Fin m]).
    { assert (NI : forall h, In h [hi Q_ops X; hi Q_ops Y; hi Q_ops Z; Fin m] -> h = PInf \/ exists q, h = Fin q).
      { intros h IH. specialize (H (Fin 0) h ltac:(cbn; tauto) IH). destruct h; cbn in H; try discriminate; eauto. }
      revert NI. generalize (hi Q_ops X) (hi Q_ops Y) (hi Q_ops Z). clear. intros h1 h2 h3 NI.
      assert (STEP : forall (l : list (ext Q)) q, (forall h, In h l -> h = PInf \/ exists q, h = Fin q) -> exists t, (forall h, In h (Fin q :: l) -> ele Q_ops (Fin t) h = true) /\ In (Fin t) (Fin q :: l)).
      { induction l as [|h l IHl]; intros q NI'.
        - exists q. split; [|left; reflexivity]. intros h [<-|[]]. cbn. apply Qle_bool_iff. lra.
        - destruct (IHl q) as (t & A & B). { intros h' I. apply NI'. right. exact I. }
          destruct (NI' h (or_introl eq_refl)) as [->|(q2 & ->)].
          + exists t. split; [|destruct B as [B|B]; [left; exact B|right; right; exact B]]. intros h' [<-|[<-|I]]; [apply A; left; reflexivity|reflexivity|apply A; right; exact I].
          + destruct (Qlt_le_dec q2 t).
            * exists q2. split; [|right; left; reflexivity]. intros h' I.
              assert (I' : h' = Fin q2 \/ In h' (Fin q :: l)) by (destruct I as [I|[I|I]]; [right; left; exact I|left; congruence|right; right; exact I]).
              destruct I' as [->|I']; [cbn; apply Qle_bool_iff; lra|]. apply (ele_trans Q_ops Q_laws) with (b := Fin t); [cbn; apply Qle_bool_iff; lra|apply A; exact I'].
            * exists t. split; [|destruct B as [B|B]; [left; exact B|right; right; exact B]]. intros h' [<-|[<-|I]]; [apply A; left; reflexivity|cbn; apply Qle_bool_iff; lra|apply A; right; exact I]. }
      destruct (STEP [h1; h2; h3] m) as (t & A & B). { intros h I. apply NI. cbn in *. tauto. }
      exists t. split; [intros h I; apply A; cbn in *; tauto|cbn in *; tauto]. }
    destruct E as (t & UP & IT).
    assert (LOW : forall l, In l [lo Q_ops X; lo Q_ops Y; lo Q_ops Z; Fin 0] -> ele Q_ops l (Fin t) = true) by (intros l IL; apply H; assumption).
    exists t. splits.
    + apply (LOW (Fin 0)). cbn. tauto.
    + apply (UP (Fin m)). cbn. tauto.
    + apply PI. split; [|split]; [apply EX|apply EY|apply EZ]; (split; [apply LOW; cbn; tauto|apply UP; cbn; tauto]).
  - intros (t & T0 & TM & P). apply PI in P. destruct P as (PX & PY & PZ). apply EX in PX. apply EY in PY. apply EZ in PZ.
    assert (LOW : forall l, In l [lo Q_ops X; lo Q_ops Y; lo Q_ops Z; Fin 0] -> ele Q_ops l (Fin t) = true).
    { intros l [<-|[<-|[<-|[<-|[]]]]]; [apply PX|apply PY|apply PZ|exact T0]. }
    assert (UP : forall h, In h [hi Q_ops X; hi Q_ops Y; hi Q_ops Z; Fin m] -> ele Q_ops (Fin t) h = true).
    { intros h [<-|[<-|[<-|[<-|[]]]]]; [apply PX|apply PY|apply PZ|exact TM]. }
    intros l h IL IH. eapply (ele_trans Q_ops Q_laws); [apply LOW; exact IL|apply UP; exact IH].
Qed.
