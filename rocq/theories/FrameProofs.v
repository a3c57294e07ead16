(** Proofs about the single-frame allocator. *)
From Coq Require Import Permutation.
From Verif Require Import Base HeapModel HeapSpec PoolModel PoolSpec HeapProofs2 PoolProofs.
Open Scope Z_scope.

Definition outb (f : frame) (c : Z * Z) : bool := negb (in_buffer f c).

Record FInv (f : frame) (live : list (Z * Z)) : Prop := mk_finv {
  fi_own : Permutation (f_own f) ((f_start f, f_total f) :: filter (outb f) live);
  fi_disj : ForallOrdPairs papart (f_own f);
  fi_pos : Forall (fun c => 0 < fst c /\ fst c mod 16 = 0) (f_own f);
  fi_live : ForallOrdPairs papart live;
  fi_size : Forall (fun c => 0 < snd c) live;
  fi_in : forall c, In c live -> in_buffer f c = true ->
          f_start f <= fst c /\ fst c + snd c <= f_start f + f_offset f /\ fst c mod 16 = 0;
  fi_off : 0 <= f_offset f <= f_total f;
  fi_tot : 0 < f_total f;
  fi_gap : forall c, In c live -> in_buffer f c = false -> fst c <> f_start f + f_total f
}.

Lemma in_buffer_spec : forall f c, in_buffer f c = true <-> f_start f <= fst c < f_start f + f_total f.
Proof. intros. unfold in_buffer. rewrite andb_true_iff, Z.leb_le, Z.ltb_lt. tauto. Qed.

Lemma in_buffer_false : forall f c, in_buffer f c = false <-> ~ (f_start f <= fst c < f_start f + f_total f).
Proof. intros. rewrite <- in_buffer_spec. destruct (in_buffer f c); split; congruence. Qed.

Lemma out_own : forall f live c, FInv f live -> In c live -> in_buffer f c = false -> In c (f_own f).
Proof.
  intros f live c I H O. eapply Permutation_in; [symmetry; apply (fi_own _ _ I)|]. right.
  apply filter_In. split; [exact H|]. unfold outb. rewrite O. reflexivity.
Qed.

Lemma out_apart : forall f live c, FInv f live -> In c live -> in_buffer f c = false ->
  apart (fst c) (snd c) (f_start f) (f_total f).
Proof.
  intros f live c I H O.
  pose proof (FOP_perm _ _ papart_sym _ _ (fi_own _ _ I) (fi_disj _ _ I)) as D.
  inversion D as [|? ? D1 _]; subst. rewrite Forall_forall in D1.
  assert (X : In c (filter (outb f) live)) by (apply filter_In; split; [exact H|unfold outb; rewrite O; reflexivity]).
  specialize (D1 c X). unfold papart, apart in *. cbn [fst snd] in *. tauto.
Qed.

Lemma FOP_filter : forall A (R : A -> A -> Prop) g l, ForallOrdPairs R l -> ForallOrdPairs R (filter g l).
Proof.
  intros A R g l F. induction F as [|x l F1 F2 IH]; [constructor|].
  cbn [filter]. destruct (g x); [|exact IH]. constructor; [|exact IH].
  rewrite Forall_forall in *. intros y Hy. apply filter_In in Hy. apply F1; tauto.
Qed.

Lemma FOP_remove : forall A (R : A -> A -> Prop) l1 x l2, ForallOrdPairs R (l1 ++ x :: l2) -> ForallOrdPairs R (l1 ++ l2).
Proof.
  intros A R l1 x l2 F. apply FOP_app in F. destruct F as (F1 & F2 & F3). inversion F2; subst.
  apply FOP_app. splits; [exact F1|assumption|]. intros a b Ha Hb. apply F3; [exact Ha|right; exact Hb].
Qed.

Lemma filter_all : forall A (g : A -> bool) l, (forall x, In x l -> g x = true) -> filter g l = l.
Proof.
  induction l as [|x l IH]; intro H; [reflexivity|]. cbn. rewrite (H x (or_introl eq_refl)). f_equal.
  apply IH. intros y Hy. apply H; right; exact Hy.
Qed.

Lemma frame_alloc_inv : forall f live size b, FInv f live -> 0 < size -> base_ok (f_own f) b size -> gap f b ->
  FInv (fst (frame_alloc size b f)) ((snd (frame_alloc size b f), size) :: live).
Proof.
  intros f live size b I Hs BO G. unfold frame_alloc. change ALIGN with 16.
  pose proof (fi_off _ _ I) as Off. pose proof (fi_tot _ _ I) as Tot.
  destruct (Z.ltb_spec (f_total f) (f_offset f + (size + 16))) as [H|H]; cbn [fst snd].
  - destruct (own_cons _ _ _ BO (fi_disj _ _ I) (fi_pos _ _ I)) as [D P].
    assert (Hb : In (f_start f, f_total f) (f_own f)) by (eapply Permutation_in; [symmetry; apply (fi_own _ _ I)|left; reflexivity]).
    destruct BO as (B1 & B2 & B3). pose proof (B3 _ Hb) as AB. unfold apart in AB. cbn [fst snd] in AB.
    set (f' := mk_frame _ _ _ _ _).
    assert (NB : in_buffer f' (b, size) = false) by (apply in_buffer_false; cbn; lia).
    assert (EB : forall c, in_buffer f' c = in_buffer f c) by reflexivity.
    constructor; cbn [f' f_own f_start f_total f_offset f_more].
    + cbn [filter]. unfold outb at 1. rewrite NB. cbn [negb]. change (outb f') with (outb f).
      rewrite (fi_own _ _ I) at 1. apply perm_swap.
    + exact D.
    + exact P.
    + constructor; [|apply (fi_live _ _ I)]. rewrite Forall_forall. intros c Hc. unfold papart. cbn [fst snd].
      destruct (in_buffer f c) eqn:E.
      * destruct (fi_in _ _ I c Hc E) as (C1 & C2 & _). unfold apart. lia.
      * apply B3. eapply out_own; eauto.
    + constructor; [exact Hs|apply (fi_size _ _ I)].
    + intros c [<-|Hc] E; [congruence|]. rewrite EB in E. exact (fi_in _ _ I c Hc E).
    + exact Off.
    + exact Tot.
    + intros c [<-|Hc] E; [exact G|]. rewrite EB in E. exact (fi_gap _ _ I c Hc E).
  - set (f' := mk_frame _ _ _ _ _). set (p := align_address (f_start f + f_offset f) 16).
    pose proof (align_address_bounds (f_start f + f_offset f)) as AB. change (align_address (f_start f + f_offset f) ALIGN) with p in AB.
    pose proof (align_address_mod (f_start f + f_offset f)) as AM. change (align_address (f_start f + f_offset f) ALIGN) with p in AM.
    assert (NB : in_buffer f' (p, size) = true) by (apply in_buffer_spec; cbn; lia).
    assert (EB : forall c, in_buffer f' c = in_buffer f c) by reflexivity.
    constructor; cbn [f' f_own f_start f_total f_offset f_more].
    + cbn [filter]. unfold outb at 1. rewrite NB. cbn [negb]. change (outb f') with (outb f). apply (fi_own _ _ I).
    + apply (fi_disj _ _ I).
    + apply (fi_pos _ _ I).
    + constructor; [|apply (fi_live _ _ I)]. rewrite Forall_forall. intros c Hc. unfold papart. cbn [fst snd].
      destruct (in_buffer f c) eqn:E.
      * destruct (fi_in _ _ I c Hc E) as (C1 & C2 & _). unfold apart. lia.
      * pose proof (out_apart _ _ _ I Hc E) as A. unfold apart in *. lia.
    + constructor; [exact Hs|apply (fi_size _ _ I)].
    + intros c [<-|Hc] E; [cbn [fst snd]; lia|]. rewrite EB in E. destruct (fi_in _ _ I c Hc E) as (C1 & C2 & C3). lia.
    + lia.
    + exact Tot.
    + intros c [<-|Hc] E; [congruence|]. rewrite EB in E. exact (fi_gap _ _ I c Hc E).
Qed.

Lemma frame_release_inv : forall f live1 p size live2, FInv f (live1 ++ (p, size) :: live2) ->
  exists f', frame_release p size f = Ok f' /\ FInv f' (live1 ++ live2).
Proof.
  intros f live1 p size live2 I. unfold frame_release.
  assert (Hin : In (p, size) (live1 ++ (p, size) :: live2)) by (apply in_or_app; right; left; reflexivity).
  assert (Sub : forall c, In c (live1 ++ live2) -> In c (live1 ++ (p, size) :: live2)).
  { intros c Hc. rewrite in_app_iff in *. cbn; tauto. }
  assert (SZ : Forall (fun c => 0 < snd c) (live1 ++ live2)).
  { pose proof (fi_size _ _ I) as S. rewrite Forall_forall in *. auto. }
  pose proof (fi_size _ _ I) as S. rewrite Forall_forall in S. specialize (S _ Hin). cbn in S.
  destruct (in_buffer f (p, size)) eqn:E.
  - pose proof E as E'. apply in_buffer_spec in E'. cbn in E'.
    destruct (Z.ltb_spec p (f_start f)); [lia|]. destruct (Z.ltb_spec (f_start f + f_total f) p); [lia|]. cbn [orb].
    exists f. split; [reflexivity|]. destruct I. constructor; auto.
    + rewrite fi_own0. rewrite !filter_app. cbn [filter]. unfold outb at 2. rewrite E. apply Permutation_refl.
    + eapply FOP_remove; eauto.
  - pose proof (out_apart _ _ _ I Hin E) as A. pose proof (fi_gap _ _ I _ Hin E) as G. unfold apart in A. cbn [fst snd] in A, G.
    replace ((p <? f_start f) || (f_start f + f_total f <? p)) with true.
    2:{ symmetry. apply orb_true_iff. rewrite !Z.ltb_lt. lia. }
    destruct (base_release_ok p size (f_own f) (out_own _ _ _ I Hin E)) as (own' & R & PM). rewrite R. cbn [bind].
    eexists; split; [reflexivity|].
    pose proof (FOP_perm _ _ papart_sym _ _ PM (fi_disj _ _ I)) as D. inversion D as [|? ? _ D3]; subst.
    destruct I. constructor; cbn [f_own f_start f_total f_offset f_more]; auto.
    + apply Permutation_cons_inv with (a := (p, size)). rewrite <- PM, fi_own0.
      rewrite filter_split by (unfold outb; rewrite E; reflexivity).
      change (outb (mk_frame _ _ _ _ _)) with (outb f). rewrite filter_app.
      symmetry. etransitivity; [apply perm_swap|]. constructor. apply Permutation_middle.
    + rewrite Forall_forall in *. intros c Hc. apply fi_pos0. eapply Permutation_in; [symmetry; exact PM|right; exact Hc].
    + eapply FOP_remove; eauto.
Qed.

Lemma frame_reset_inv : forall f live b, FInv f live ->
  (forall own, base_release (f_start f) (f_total f) (f_own f) = Ok own -> base_ok own b (f_total f * 2)) ->
  (forall c, In c (filter (outb f) live) -> fst c <> b + f_total f * 2) ->
  exists f', frame_reset b f = Ok f' /\ FInv f' (filter (outb f) live) /\ f_offset f' = 0 /\
    f_more f' = false /\ f_total f' = (if f_more f then f_total f * 2 else f_total f).
Proof.
  intros f live b I BO G. unfold frame_reset.
  pose proof (fi_tot _ _ I) as Tot. pose proof (fi_off _ _ I) as Off.
  assert (SZ : Forall (fun c => 0 < snd c) (filter (outb f) live)).
  { pose proof (fi_size _ _ I) as S. rewrite Forall_forall in *. intros c Hc. apply filter_In in Hc. apply S; tauto. }
  destruct (f_more f) eqn:EM.
  - assert (Hb : In (f_start f, f_total f) (f_own f)) by (eapply Permutation_in; [symmetry; apply (fi_own _ _ I)|left; reflexivity]).
    destruct (base_release_ok _ _ _ Hb) as (own' & R & PM). rewrite R. cbn [bind]. specialize (BO own' R).
    pose proof (FOP_perm _ _ papart_sym _ _ PM (fi_disj _ _ I)) as D. inversion D as [|? ? _ D3]; subst.
    assert (P3 : Forall (fun c => 0 < fst c /\ fst c mod 16 = 0) own').
    { pose proof (fi_pos _ _ I) as P. rewrite Forall_forall in *. intros c Hc. apply P. eapply Permutation_in; [symmetry; exact PM|right; exact Hc]. }
    assert (PO : Permutation own' (filter (outb f) live)).
    { apply Permutation_cons_inv with (a := (f_start f, f_total f)). rewrite <- PM. apply (fi_own _ _ I). }
    destruct (own_cons _ _ _ BO D3 P3) as [D4 P4].
    eexists; split; [reflexivity|]. split; [|auto].
    set (f' := mk_frame _ _ _ _ _).
    assert (OUT : forall c, In c (filter (outb f) live) -> in_buffer f' c = false).
    { intros c Hc. apply in_buffer_false. cbn.
      destruct BO as (_ & _ & BA). specialize (BA c (Permutation_in _ (Permutation_sym PO) Hc)). unfold apart in BA.
      rewrite Forall_forall in SZ. specialize (SZ c Hc). lia. }
    constructor; cbn [f' f_own f_start f_total f_offset f_more].
    + constructor. rewrite (filter_all _ (outb _)); [exact PO|]. intros c Hc. unfold outb. rewrite (OUT c Hc). reflexivity.
    + exact D4.
    + exact P4.
    + apply FOP_filter, (fi_live _ _ I).
    + exact SZ.
    + intros c Hc E. rewrite OUT in E by exact Hc. discriminate.
    + lia.
    + lia.
    + intros c Hc _. apply G; exact Hc.
  - eexists; split; [reflexivity|]. split; [|auto].
    set (f' := mk_frame _ _ _ _ _).
    assert (OUT : forall c, In c (filter (outb f) live) -> in_buffer f c = false).
    { intros c Hc. apply filter_In in Hc. unfold outb in Hc. apply negb_true_iff. tauto. }
    constructor; cbn [f' f_own f_start f_total f_offset f_more].
    + change (outb f') with (outb f). rewrite (filter_all _ (outb f)); [apply (fi_own _ _ I)|].
      intros c Hc. unfold outb. rewrite (OUT c Hc). reflexivity.
    + apply (fi_disj _ _ I).
    + apply (fi_pos _ _ I).
    + apply FOP_filter, (fi_live _ _ I).
    + exact SZ.
    + intros c Hc E. change (in_buffer f' c) with (in_buffer f c) in E. rewrite OUT in E by exact Hc. discriminate.
    + lia.
    + exact Tot.
    + intros c Hc E. apply filter_In in Hc. apply (fi_gap _ _ I c); [tauto|exact E].
Qed.

Lemma frame_history_inv : forall f live, frame_history f live -> FInv f live.
Proof.
  induction 1 as [b (B1 & B2 & _)|f live size b HH IH Hs BO G|f live1 p size live2 f' HH IH R|f live b f' HH IH BO G R].
  - constructor; cbn; auto; try lia; try (intros; contradiction); try (constructor; constructor); try (constructor; [cbn; auto|constructor]).
  - apply frame_alloc_inv; assumption.
  - destruct (frame_release_inv _ _ _ _ _ IH) as (f1 & R1 & I1). rewrite R in R1. inversion R1; subst. exact I1.
  - destruct (frame_reset_inv _ _ _ IH BO G) as (f1 & R1 & I1 & _). rewrite R in R1. inversion R1; subst. exact I1.
Qed.
