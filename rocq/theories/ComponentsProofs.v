(** The component store refines a partial function. *)
From Verif Require Import Base Float24 HashSpec HashProofs HeapModel HeapProofs2 ComponentsModel ComponentsSpec.
Open Scope Z_scope.

Lemma lookup_remove : forall B (m : list (Z * B)) k k',
  lookup Z.eqb k' (m_remove Z.eqb k m) = if k' =? k then None else lookup Z.eqb k' m.
Proof.
  intros B m k k'. induction m as [|[a v] m IH]; [cbn; destruct (k' =? k); reflexivity|].
  unfold m_remove in *. cbn [filter fst lookup].
  destruct (Z.eqb_spec a k) as [E|N]; cbn [negb].
  - subst a. rewrite IH. destruct (Z.eqb_spec k' k) as [E|N']; [reflexivity|]. destruct (Z.eqb_spec k k'); [congruence|reflexivity].
  - cbn [lookup]. destruct (Z.eqb_spec a k') as [E|N'].
    + destruct (Z.eqb_spec k' k); [congruence|reflexivity].
    + exact IH.
Qed.
Lemma lookup_set : forall B (m : list (Z * B)) k v k',
  lookup Z.eqb k' (m_set Z.eqb k v m) = if k' =? k then Some v else lookup Z.eqb k' m.
Proof.
  intros. unfold m_set. cbn [lookup]. rewrite lookup_remove, (Z.eqb_sym k k'). destruct (k' =? k); reflexivity.
Qed.

Section Proofs.
Context {D : Type}.
Notation comps := (comps D).
Implicit Types c : comps.

Record Good (c : comps) (S : Z -> Prop) : Prop := {
  g_mem : forall i, S i -> 0 <= i < c_alloc c;
  g_slot : forall i, S i -> exists e d, c_slots c i = Some (e, d) /\ lookup Z.eqb e (c_map c) = Some i;
  g_map : forall e i, lookup Z.eqb e (c_map c) = Some i -> S i /\ exists d, c_slots c i = Some (e, d)
}.

Lemma good_unique : forall c S i j e d d', Good c S -> S i -> S j ->
  c_slots c i = Some (e, d) -> c_slots c j = Some (e, d') -> i = j.
Proof.
  intros c S i j e d d' G Si Sj Hi Hj.
  destruct (g_slot _ _ G _ Si) as (e1 & d1 & A & B). destruct (g_slot _ _ G _ Sj) as (e2 & d2 & A2 & B2).
  congruence.
Qed.

Lemma good_ext : forall c S S', (forall i, S i <-> S' i) -> Good c S -> Good c S'.
Proof.
  intros c S S' E G. constructor.
  - intros i H. apply (g_mem _ _ G). apply E; exact H.
  - intros i H. apply (g_slot _ _ G). apply E; exact H.
  - intros e i H. destruct (g_map _ _ G _ _ H) as (A & B). split; [apply E; exact A|exact B].
Qed.

Lemma in_mem_ok : forall c i, 0 <= i < c_alloc c -> in_mem c i = true.
Proof. intros c i H. unfold in_mem. destruct (Z.leb_spec 0 i); destruct (Z.ltb_spec i (c_alloc c)); cbn; auto; lia. Qed.

Lemma destroy_good : forall c S i, Good c S -> S i -> exists e d c',
  c_slots c i = Some (e, d) /\ lookup Z.eqb e (c_map c) = Some i /\
  destroy_component i c = Ok c' /\ Good c' (fun j => S j /\ j <> i) /\
  c' = mk_comps (c_n c) (c_alloc c) (upd (c_slots c) i None) (m_remove Z.eqb e (c_map c)) (c_dis c).
Proof.
  intros c S i G Si. destruct (g_slot _ _ G _ Si) as (e & d & A & B).
  unfold destroy_component, read_slot. rewrite in_mem_ok by (apply (g_mem _ _ G); exact Si).
  cbn [check bind]. rewrite A. cbn [rd bind].
  do 3 eexists. splits; try reflexivity; [exact B|]. constructor; cbn [c_slots c_map c_alloc].
  - intros j (Sj & _). apply (g_mem _ _ G). exact Sj.
  - intros j (Sj & N). destruct (g_slot _ _ G _ Sj) as (e2 & d2 & A2 & B2). exists e2, d2.
    rewrite upd_other by exact N. split; [exact A2|]. rewrite lookup_remove.
    destruct (Z.eqb_spec e2 e) as [->|NE]; [congruence|exact B2].
  - intros e2 j H. rewrite lookup_remove in H. destruct (Z.eqb_spec e2 e) as [->|NE]; [discriminate|].
    destruct (g_map _ _ G _ _ H) as (Sj & d2 & A2).
    assert (j <> i) by (intros ->; congruence). splits; auto. exists d2. rewrite upd_other by assumption. exact A2.
Qed.

(** Constructing a component for a new entity at a free index. *)
Lemma put_good : forall c S i e d, Good c S -> ~ S i -> 0 <= i < c_alloc c -> lookup Z.eqb e (c_map c) = None ->
  exists c', (let* c1 := construct i (e, d) c in map_entity e i c1) = Ok c' /\ Good c' (fun j => S j \/ j = i) /\
   c' = mk_comps (c_n c) (c_alloc c) (upd (c_slots c) i (Some (e, d))) (m_set Z.eqb e i (c_map c)) (c_dis c).
Proof.
  intros c S i e d G NS B L. unfold construct. rewrite in_mem_ok by exact B. cbn [check bind].
  unfold map_entity, map_add, has. cbn [c_map]. rewrite L. cbn [bind c_n c_alloc c_slots c_dis].
  eexists. splits; try reflexivity. constructor; cbn [c_slots c_map c_alloc].
  - intros j [Sj|E]; [apply (g_mem _ _ G); exact Sj|subst; exact B].
  - intros j [Sj|E].
    + assert (j <> i) by (intros ->; contradiction). destruct (g_slot _ _ G _ Sj) as (e2 & d2 & A2 & B2). exists e2, d2.
      rewrite upd_other by assumption. split; [exact A2|]. rewrite lookup_set. destruct (Z.eqb_spec e2 e); [congruence|exact B2].
    + subst j. exists e, d. rewrite upd_same, lookup_set, Z.eqb_refl. auto.
  - intros e2 j H. rewrite lookup_set in H. destruct (Z.eqb_spec e2 e) as [->|NE].
    + inversion H; subst j. split; [right; reflexivity|]. exists d. apply upd_same.
    + destruct (g_map _ _ G _ _ H) as (Sj & d2 & A2). assert (j <> i) by (intros ->; contradiction).
      split; [left; exact Sj|]. exists d2. rewrite upd_other by assumption. exact A2.
Qed.

Lemma move_good : forall c S src dst, Good c S -> S src -> ~ S dst -> 0 <= dst < c_alloc c -> exists c',
  move_component src dst c = Ok c' /\ Good c' (fun j => (S j /\ j <> src) \/ j = dst) /\
  c_n c' = c_n c /\ c_alloc c' = c_alloc c /\ c_dis c' = c_dis c /\
  c_slots c' = upd (upd (c_slots c) dst (c_slots c src)) src None.
Proof.
  intros c S src dst G Ss Nd B. destruct (g_slot _ _ G _ Ss) as (e & d & A & L).
  assert (NE : src <> dst) by (intros ->; contradiction).
  unfold move_component, read_slot. rewrite in_mem_ok by (apply (g_mem _ _ G); exact Ss). cbn [check bind]. rewrite A. cbn [rd bind].
  unfold construct. rewrite in_mem_ok by exact B. cbn [check bind].
  unfold destroy_component, read_slot. unfold in_mem. cbn [c_alloc c_slots c_map c_n c_dis].
  change ((0 <=? src) && (src <? c_alloc c)) with (in_mem c src). rewrite in_mem_ok by (apply (g_mem _ _ G); exact Ss).
  cbn [check bind]. rewrite upd_other by exact NE. rewrite A. cbn [rd bind].
  unfold map_entity, map_add, has. cbn [c_alloc c_slots c_map c_n c_dis]. rewrite lookup_remove, Z.eqb_refl. cbn [bind].
  eexists. splits; try reflexivity. constructor; cbn [c_slots c_map c_alloc].
  - intros j [(Sj & _)|E]; [apply (g_mem _ _ G); exact Sj|subst; exact B].
  - intros j [(Sj & N)|E].
    + assert (j <> dst) by (intros ->; contradiction). destruct (g_slot _ _ G _ Sj) as (e2 & d2 & A2 & B2). exists e2, d2.
      rewrite !upd_other by assumption. split; [exact A2|]. rewrite lookup_set, lookup_remove.
      destruct (Z.eqb_spec e2 e); [congruence|exact B2].
    + subst j. exists e, d. rewrite upd_other by congruence. rewrite upd_same, lookup_set, Z.eqb_refl. auto.
  - intros e2 j H. rewrite lookup_set, lookup_remove in H. destruct (Z.eqb_spec e2 e) as [->|N2].
    + inversion H; subst j. split; [right; reflexivity|]. exists d. rewrite upd_other by congruence. apply upd_same.
    + destruct (g_map _ _ G _ _ H) as (Sj & d2 & A2). assert (j <> dst) by (intros ->; contradiction).
      assert (j <> src) by (intros ->; congruence).
      split; [left; auto|]. exists d2. rewrite !upd_other by assumption. exact A2.
Qed.

Lemma swap_good : forall c S i1 i2, Good c S -> S i1 -> S i2 -> i1 <> i2 -> exists c',
  swap_components (fun d => d) i1 i2 c = Ok c' /\ Good c' S /\
  c_n c' = c_n c /\ c_alloc c' = c_alloc c /\ c_dis c' = c_dis c /\
  c_slots c' = upd (upd (upd (upd (c_slots c) i1 None) i1 (c_slots c i2)) i2 None) i2 (c_slots c i1).
Proof.
  intros c S i1 i2 G S1 S2 NE. unfold swap_components.
  destruct (destroy_good _ _ _ G S1) as (e1 & d1 & c1 & A1 & L1 & R1 & G1 & E1).
  unfold read_slot at 1. rewrite in_mem_ok by (apply (g_mem _ _ G); exact S1). cbn [check bind]. rewrite A1. cbn [rd bind].
  rewrite R1. cbn [bind].
  assert (AL : c_alloc c1 = c_alloc c) by (subst c1; reflexivity).
  destruct (move_good c1 _ i2 i1 G1) as (c2 & R2 & G2 & N2 & AL2 & D2 & SL2).
  { split; [exact S2|congruence]. }
  { intros (_ & C); congruence. }
  { rewrite AL. apply (g_mem _ _ G); exact S1. }
  rewrite R2. cbn [bind].
  destruct (put_good c2 _ i2 e1 d1 G2) as (c3 & R3 & G3 & E3).
  { intros [(_ & C)|C]; congruence. }
  { rewrite AL2, AL. apply (g_mem _ _ G); exact S2. }
  { destruct (lookup Z.eqb e1 (c_map c2)) as [j|] eqn:LK; [|reflexivity]. exfalso.
    destruct (g_map _ _ G2 _ _ LK) as (Sj & d & Aj). rewrite SL2 in Aj. subst c1. cbn [c_slots] in Aj.
    destruct Sj as [((Sj & J1) & J2)|J].
    - rewrite !upd_other in Aj by congruence. apply J1. exact (good_unique _ _ _ _ _ _ _ G Sj S1 Aj A1).
    - subst j. rewrite upd_other, upd_same in Aj by congruence. rewrite upd_other in Aj by congruence.
      apply NE. exact (good_unique _ _ _ _ _ _ _ G S1 S2 A1 Aj). }
  unfold bind at 1 in R3. destruct (construct i2 (e1, d1) c2) as [c2'| |] eqn:CC; try discriminate. cbn [bind].
  rewrite R3. eexists. split; [reflexivity|]. subst c3. cbn [c_n c_alloc c_dis c_slots]. splits; try congruence.
  - eapply good_ext; [|exact G3]. intro j. cbn. split.
    + intros [[((A & _) & _)|E]|E]; try subst j; auto.
    + intros H. destruct (Z.eq_dec j i2); [auto|]. destruct (Z.eq_dec j i1); [auto|]. left; left; auto.
  - subst c1; exact N2.
  - rewrite D2. subst c1. reflexivity.
  - rewrite SL2. subst c1. cbn [c_slots]. rewrite (upd_other _ (c_slots c) i1 i2) by congruence. try rewrite A1. reflexivity.
Qed.

(** * The refinement *)
Record CInv (c : comps) (s : store D) : Prop := {
  ci_good : Good c (fun i => 0 <= i < c_n c);
  ci_cap : 16 <= c_alloc c /\ 0 <= c_n c <= c_alloc c;
  ci_dis : 0 <= c_dis c <= c_n c;
  ci_abs : forall e d b, lookup Z.eqb e s = Some (d, b) <->
             exists i, 0 <= i < c_n c /\ c_slots c i = Some (e, d) /\ b = (c_dis c <=? i)
}.

Lemma cinv_index : forall c s e d b, CInv c s -> lookup Z.eqb e s = Some (d, b) ->
  exists i, lookup Z.eqb e (c_map c) = Some i /\ 0 <= i < c_n c /\ c_slots c i = Some (e, d) /\ b = (c_dis c <=? i).
Proof.
  intros c s e d b I H. apply (ci_abs _ _ I) in H. destruct H as (i & R & A & B). exists i. splits; auto; try lia.
  destruct (g_slot _ _ (ci_good _ _ I) _ R) as (e2 & d2 & A2 & L2). congruence.
Qed.
Lemma cinv_absent : forall c s e, CInv c s -> lookup Z.eqb e s = None -> lookup Z.eqb e (c_map c) = None.
Proof.
  intros c s e I H. destruct (lookup Z.eqb e (c_map c)) as [i|] eqn:L; [|reflexivity]. exfalso.
  destruct (g_map _ _ (ci_good _ _ I) _ _ L) as (R & d & A).
  assert (Q : lookup Z.eqb e s = Some (d, c_dis c <=? i)) by (apply (ci_abs _ _ I); eauto). congruence.
Qed.

Lemma allocate_inv : forall c s n, CInv c s -> c_n c < round_cap n -> 16 <= round_cap n ->
  exists c', comps_allocate n c = Ok c' /\ CInv c' s /\ c_n c' < c_alloc c' /\ c_n c' = c_n c /\ c_dis c' = c_dis c /\
    c_map c' = c_map c.
Proof.
  intros c s n I H1 H2. unfold comps_allocate.
  destruct (Z.leb_spec (c_n c) (round_cap n)); [|lia]. cbn [check bind].
  eexists. splits; [reflexivity| |cbn [c_n c_alloc]; lia|reflexivity..].
  destruct I as [G C Dd A]. constructor; cbn [c_alloc c_n c_slots c_map c_dis].
  - constructor; cbn [c_alloc c_slots c_map].
    + intros i Hi. lia.
    + intros i Hi. destruct (Z.ltb_spec i (c_n c)); [|lia]. apply (g_slot _ _ G). exact Hi.
    + intros e i L. destruct (g_map _ _ G _ _ L) as (R & d & E). split; [exact R|]. exists d.
      destruct (Z.ltb_spec i (c_n c)); [exact E|lia].
  - lia.
  - exact Dd.
  - intros e d b. rewrite A. split; intros (i & R & E & B); exists i; splits; auto; try lia;
      destruct (Z.ltb_spec i (c_n c)); auto; lia.
Qed.

Lemma grow_inv : forall c s, CInv c s ->
  exists c', (if c_n c =? c_alloc c then comps_allocate (c_alloc c * 2) c else Ok c) = Ok c' /\ CInv c' s /\
    c_n c' < c_alloc c' /\ c_n c' = c_n c /\ c_dis c' = c_dis c /\ c_map c' = c_map c.
Proof.
  intros c s I. destruct (Z.eqb_spec (c_n c) (c_alloc c)) as [E|E].
  - pose proof (ci_cap _ _ I). pose proof (round_cap_double (c_alloc c) ltac:(lia)).
    replace (2 * c_alloc c) with (c_alloc c * 2) in H0 by lia. apply allocate_inv; [exact I|lia|lia].
  - exists c. pose proof (ci_cap _ _ I). splits; auto; lia.
Qed.

Ltac slot := repeat (match goal with
  | H : context [upd _ ?i _ ?j] |- _ => unfold upd in H
  | |- context [upd _ ?i _ ?j] => unfold upd end).

Lemma add_inv : forall c s e b d, CInv c s -> lookup Z.eqb e s = None ->
  exists c', add_component e b d c = Ok c' /\ CInv c' (m_set Z.eqb e (d, b) s).
Proof.
  intros c0 s e b d I0 AB. unfold add_component, prepare_add.
  destruct (grow_inv _ _ I0) as (c & R0 & I & LT & EN & ED & EM). rewrite R0. cbn [bind].
  pose proof (cinv_absent _ _ _ I AB) as LN.
  pose proof (ci_good _ _ I) as G. pose proof (ci_dis _ _ I) as HD. pose proof (ci_cap _ _ I) as HC.
  destruct b.
  - (* disabled: at the end *)
    cbn [bind].
    destruct (put_good c _ (c_n c) e d G) as (c1 & R1 & G1 & E1); [lia|lia|exact LN|].
    destruct (construct (c_n c) (e, d) c) as [c'| |]; cbn [bind] in *; try discriminate. rewrite R1. cbn [bind].
    eexists. split; [reflexivity|]. subst c1. unfold with_n. cbn [c_n c_alloc c_slots c_map c_dis].
    constructor; cbn [c_n c_alloc c_slots c_map c_dis].
    + apply (good_ext _ (fun j => 0 <= j < c_n c \/ j = c_n c)); [intros; lia|]. destruct G1 as [g1 g2 g3]. constructor; [exact g1|exact g2|exact g3].
    + lia.
    + lia.
    + intros e' d' b'. rewrite lookup_set. destruct (Z.eqb_spec e' e) as [->|NE].
      * split.
        -- intros E. inversion E; subst. exists (c_n c). rewrite upd_same. splits; auto; lia.
        -- intros (i & R & S & B). destruct (Z.eq_dec i (c_n c)) as [->|N].
           ++ rewrite upd_same in S. inversion S; subst. f_equal. f_equal. symmetry. apply Z.leb_le; lia.
           ++ rewrite upd_other in S by exact N. exfalso.
              assert (Q : lookup Z.eqb e s = Some (d', c_dis c <=? i)) by (apply (ci_abs _ _ I); exists i; splits; auto; lia). congruence.
      * rewrite (ci_abs _ _ I). split; intros (i & R & S & B).
        -- exists i. rewrite upd_other by lia. splits; auto; lia.
        -- destruct (Z.eq_dec i (c_n c)) as [->|N]; [rewrite upd_same in S; congruence|].
           rewrite upd_other in S by exact N. exists i. splits; auto; lia.
  - (* enabled: at the border *)
    set (k := c_dis c) in *.
    assert (MV : exists c1, (if negb (k =? c_n c) then move_component k (c_n c) c else Ok c) = Ok c1 /\
      Good c1 (fun j => (0 <= j < c_n c + 1) /\ j <> k) /\ c_n c1 = c_n c /\ c_alloc c1 = c_alloc c /\ c_dis c1 = k /\
      forall j, 0 <= j < c_n c + 1 -> j <> k -> c_slots c1 j = c_slots c (if j =? c_n c then k else j)).
    { destruct (Z.eqb_spec k (c_n c)) as [E|E]; cbn [negb].
      - exists c. splits; auto.
        + eapply good_ext; [|exact G]. intros; cbn; lia.
        + intros j H1 H2. destruct (Z.eqb_spec j (c_n c)); [lia|reflexivity].
      - destruct (move_good c _ k (c_n c) G) as (c1 & R1 & G1 & N1 & A1 & D1 & S1); try lia.
        exists c1. splits; auto.
        + eapply good_ext; [|exact G1]. intros; cbn; lia.
        + intros j H1 H2. rewrite S1. rewrite upd_other by exact H2. unfold upd. destruct (j =? c_n c); reflexivity. }
    destruct MV as (c1 & R1 & G1 & N1 & A1 & D1 & S1). rewrite R1. cbn [bind].
    rewrite D1.
    assert (LN1 : lookup Z.eqb e (c_map c1) = None).
    { destruct (lookup Z.eqb e (c_map c1)) as [j|] eqn:LK; [|reflexivity]. exfalso.
      destruct (g_map _ _ G1 _ _ LK) as ((Rj & Nj) & d2 & Aj). rewrite S1 in Aj by assumption.
      assert (Q : lookup Z.eqb e s = Some (d2, c_dis c <=? (if j =? c_n c then k else j))).
      { apply (ci_abs _ _ I). exists (if j =? c_n c then k else j). splits; auto; destruct (Z.eqb_spec j (c_n c)); lia. }
      congruence. }
    assert (G1' : Good (with_dis (k + 1) c1) (fun j => 0 <= j < c_n c + 1 /\ j <> k)).
    { destruct G1 as [g1 g2 g3]. constructor; [exact g1|exact g2|exact g3]. }
    destruct (put_good (with_dis (k + 1) c1) _ k e d G1') as (c2 & R2 & G2 & E2).
    { tauto. } { cbn [with_dis c_alloc]. lia. } { exact LN1. }
    destruct (construct k (e, d) (with_dis (k + 1) c1)) as [c'| |]; cbn [bind] in *; try discriminate. rewrite R2. cbn [bind].
    eexists. split; [reflexivity|]. subst c2. unfold with_n. cbn [with_dis c_n c_alloc c_slots c_map c_dis] in *.
    constructor; cbn [c_n c_alloc c_slots c_map c_dis].
    + rewrite N1. apply (good_ext _ (fun j => ((0 <= j < c_n c + 1) /\ j <> k) \/ j = k)); [intros; lia|].
      destruct G2 as [g1 g2 g3]. constructor; [exact g1|exact g2|exact g3].
    + lia.
    + lia.
    + rewrite N1. intros e' d' b'. rewrite lookup_set. destruct (Z.eqb_spec e' e) as [->|NE].
      * split.
        -- intros E. inversion E; subst. exists k. rewrite upd_same. splits; auto; lia.
        -- intros (i & R & S & B). destruct (Z.eq_dec i k) as [->|N].
           ++ rewrite upd_same in S. inversion S; subst. f_equal. f_equal. symmetry. apply Z.leb_gt; lia.
           ++ rewrite upd_other in S by exact N. rewrite S1 in S by assumption. exfalso.
              assert (Q : lookup Z.eqb e s = Some (d', c_dis c <=? (if i =? c_n c then k else i))).
              { apply (ci_abs _ _ I). exists (if i =? c_n c then k else i). splits; auto; destruct (Z.eqb_spec i (c_n c)); lia. }
              congruence.
      * rewrite (ci_abs _ _ I). fold k. split; intros (i & R & S & B).
        -- destruct (Z.eq_dec i k) as [->|N].
           ++ exists (c_n c). destruct (Z.eq_dec (c_n c) k) as [E|E]; [lia|].
              rewrite upd_other by lia. rewrite S1 by lia. rewrite Z.eqb_refl. splits; auto; try lia.
              subst b'. destruct (Z.leb_spec k k); destruct (Z.leb_spec (k + 1) (c_n c)); auto; lia.
           ++ exists i. rewrite upd_other by exact N. rewrite S1 by lia. destruct (Z.eqb_spec i (c_n c)); [lia|].
              splits; auto; try lia. subst b'. destruct (Z.leb_spec k i); destruct (Z.leb_spec (k + 1) i); auto; lia.
        -- destruct (Z.eq_dec i k) as [->|N]; [rewrite upd_same in S; congruence|].
           rewrite upd_other in S by exact N. rewrite S1 in S by assumption.
           exists (if i =? c_n c then k else i). destruct (Z.eqb_spec i (c_n c)); splits; auto; try lia;
             subst b'; destruct (Z.leb_spec k k); destruct (Z.leb_spec (k + 1) i); auto; try lia;
             destruct (Z.leb_spec k i); auto; lia.
Qed.

Lemma remove_inv : forall c s e d b, CInv c s -> lookup Z.eqb e s = Some (d, b) ->
  exists c', remove_component e c = Ok c' /\ CInv c' (m_remove Z.eqb e s).
Proof.
  intros c s e d b I L. destruct (cinv_index _ _ _ _ _ I L) as (i & LM & R & A & B).
  pose proof (ci_good _ _ I) as G. pose proof (ci_dis _ _ I) as HD. pose proof (ci_cap _ _ I) as HC.
  unfold remove_component, map_at. rewrite LM. cbn [rd bind].
  destruct (destroy_good _ _ _ G R) as (e1 & d1 & c1 & A1 & L1 & R1 & G1 & E1). rewrite A in A1. inversion A1; subst e1 d1.
  rewrite R1. cbn [bind]. cbv beta in G1.
  assert (N1 : c_n c1 = c_n c) by (subst c1; reflexivity). assert (D1 : c_dis c1 = c_dis c) by (subst c1; reflexivity).
  assert (AL1 : c_alloc c1 = c_alloc c) by (subst c1; reflexivity).
  assert (S1 : forall j, j <> i -> c_slots c1 j = c_slots c j) by (intros j Hj; subst c1; cbn; apply upd_other; exact Hj).
  rewrite D1, N1. set (n := c_n c) in *. set (k := c_dis c) in *.
  (* what remains to show once the moves are known: [h j] is the old index of new slot [j] *)
  assert (FIN : forall c2 (h : Z -> Z) k', 0 <= k' <= n - 1 -> c_dis c2 = k' -> c_n c2 = n -> c_alloc c2 = c_alloc c ->
    Good c2 (fun j => 0 <= j < n - 1) ->
    (forall j, 0 <= j < n - 1 -> c_slots c2 j = c_slots c (h j) /\ 0 <= h j < n /\ h j <> i /\ (k' <=? j) = (k <=? h j)) ->
    (forall x, 0 <= x < n -> x <> i -> exists j, 0 <= j < n - 1 /\ h j = x) ->
    CInv (with_n (c_n c2 - 1) c2) (m_remove Z.eqb e s)).
  { intros c2 h k' Hk E1' E2 E3 Gd H1 H2. constructor; unfold with_n; cbn [c_n c_alloc c_slots c_map c_dis]; rewrite E2.
    - destruct Gd as [g1 g2 g3]. constructor; [exact g1|exact g2|exact g3].
    - lia.
    - lia.
    - intros e' d' b'. rewrite lookup_remove. rewrite E1'. split.
      + destruct (Z.eqb_spec e' e) as [->|NE]; [discriminate|]. intros Q. apply (ci_abs _ _ I) in Q.
        destruct Q as (x & Rx & Sx & Bx).
        assert (x <> i) by (intros ->; congruence). destruct (H2 x Rx H) as (j & Rj & <-).
        destruct (H1 j Rj) as (Q1 & Q2 & Q3 & Q4). exists j. splits; try lia; [congruence|]. rewrite Bx. symmetry; exact Q4.
      + intros (j & Rj & Sj & Bj). destruct (H1 j Rj) as (Q1 & Q2 & Q3 & Q4). rewrite Q1 in Sj.
        destruct (Z.eqb_spec e' e) as [->|NE].
        * exfalso. apply Q3. exact (good_unique _ _ _ _ _ _ _ G Q2 R Sj A).
        * apply (ci_abs _ _ I). exists (h j). splits; auto; try lia. rewrite Bj. exact Q4. }
  destruct (Z.leb_spec k i) as [C|C].
  - destruct (Z.eqb_spec i (n - 1)) as [E|E]; cbn [negb bind].
    + eexists. split; [reflexivity|]. apply (FIN c1 (fun j => j) k); auto; try lia.
      * eapply good_ext; [|exact G1]. intros; cbn; lia.
      * intros j Hj. rewrite S1 by lia. splits; auto; lia.
      * intros x Hx Nx. exists x. split; lia.
    + destruct (move_good c1 _ (n - 1) i G1) as (c2 & R2 & G2 & N2 & A2 & D2 & S2); [lia|lia|lia|].
      rewrite R2. cbn [bind]. eexists. split; [reflexivity|].
      apply (FIN c2 (fun j => if j =? i then n - 1 else j) k); auto; try congruence; try lia.
      * eapply good_ext; [|exact G2]. intros; cbn; lia.
      * intros j Hj. rewrite S2. rewrite upd_other by lia. unfold upd. destruct (Z.eqb_spec j i) as [->|NE].
        -- rewrite S1 by lia. splits; auto; lia.
        -- rewrite S1 by lia. splits; auto; lia.
      * intros x Hx Nx. destruct (Z.eq_dec x (n - 1)) as [->|Nx2].
        -- exists i. rewrite Z.eqb_refl. split; lia.
        -- exists x. destruct (Z.eqb_spec x i); [contradiction|]. split; lia.
  - assert (M1 : exists c2, (if negb (i =? k - 1) then move_component (k - 1) i c1 else Ok c1) = Ok c2 /\
       Good c2 (fun j => 0 <= j < n /\ j <> k - 1) /\ c_n c2 = n /\ c_alloc c2 = c_alloc c /\ c_dis c2 = k /\
       forall j, 0 <= j < n -> j <> k - 1 -> c_slots c2 j = c_slots c (if j =? i then k - 1 else j)).
    { destruct (Z.eqb_spec i (k - 1)) as [E|E]; cbn [negb].
      - exists c1. splits; auto.
        + eapply good_ext; [|exact G1]. intros; cbn; lia.
        + intros j Hj Nj. rewrite S1 by lia. destruct (Z.eqb_spec j i); [lia|reflexivity].
      - destruct (move_good c1 _ (k - 1) i G1) as (c2 & R2 & G2 & N2 & A2 & D2 & S2); [lia|lia|lia|].
        exists c2. splits; auto; try congruence.
        + eapply good_ext; [|exact G2]. intros; cbn; lia.
        + intros j Hj Nj. rewrite S2. rewrite upd_other by exact Nj. unfold upd. destruct (Z.eqb_spec j i); rewrite S1 by lia; reflexivity. }
    destruct M1 as (c2 & R2 & G2 & N2 & A2 & D2 & S2). rewrite R2. cbn [bind]. rewrite D2, N2.
    assert (M2 : exists c3, (if negb (k =? n) then move_component (n - 1) (k - 1) c2 else Ok c2) = Ok c3 /\
       Good c3 (fun j => 0 <= j < n - 1) /\ c_n c3 = n /\ c_alloc c3 = c_alloc c /\ c_dis c3 = k /\
       forall j, 0 <= j < n - 1 -> c_slots c3 j = c_slots c2 (if j =? k - 1 then n - 1 else j)).
    { destruct (Z.eqb_spec k n) as [E|E]; cbn [negb].
      - exists c2. splits; auto.
        + eapply good_ext; [|exact G2]. intros; cbn; lia.
        + intros j Hj. destruct (Z.eqb_spec j (k - 1)); [lia|reflexivity].
      - destruct (move_good c2 _ (n - 1) (k - 1) G2) as (c3 & R3 & G3 & N3 & A3 & D3 & S3); [lia|lia|lia|].
        exists c3. splits; auto; try congruence.
        + eapply good_ext; [|exact G3]. intros; cbn; lia.
        + intros j Hj. rewrite S3. rewrite upd_other by lia. unfold upd. destruct (Z.eqb_spec j (k - 1)); reflexivity. }
    destruct M2 as (c3 & R3 & G3 & N3 & A3 & D3 & S3). rewrite R3. cbn [bind]. rewrite D3.
    eexists. split; [reflexivity|]. unfold with_dis. cbn [c_n].
    assert (Q := FIN (mk_comps (c_n c3) (c_alloc c3) (c_slots c3) (c_map c3) (k - 1))
       (fun j => if j =? k - 1 then (if n - 1 =? k - 1 then i else n - 1) else if j =? i then k - 1 else j) (k - 1)).
    cbn [c_n c_alloc c_slots c_map c_dis] in Q. apply Q; clear Q; auto; try lia.
    + destruct G3 as [g1 g2 g3]. constructor; [exact g1|exact g2|exact g3].
    + intros j Hj. rewrite S3 by exact Hj. destruct (Z.eqb_spec j (k - 1)) as [->|NE].
      * destruct (Z.eqb_spec (n - 1) (k - 1)) as [E|E]; [lia|].
        rewrite S2 by lia. destruct (Z.eqb_spec (n - 1) i); [lia|]. splits; auto; lia.
      * rewrite S2 by lia. destruct (Z.eqb_spec j i) as [->|NI]; splits; auto; try lia.
    + intros x Hx Nx. destruct (Z.eq_dec x (k - 1)) as [->|N4].
      * exists i. destruct (Z.eqb_spec i (k - 1)); [lia|]. rewrite Z.eqb_refl. split; lia.
      * destruct (Z.eq_dec x (n - 1)) as [->|N5].
        -- exists (k - 1). rewrite Z.eqb_refl. destruct (Z.eqb_spec (n - 1) (k - 1)); [lia|]. split; lia.
        -- exists x. destruct (Z.eqb_spec x (k - 1)); [lia|]. destruct (Z.eqb_spec x i); [lia|]. split; lia.
Qed.

Lemma set_disabled_inv : forall c s e d b b', CInv c s -> lookup Z.eqb e s = Some (d, b) ->
  exists c', set_disabled (fun d => d) e b' c = Ok c' /\ CInv c' (m_set Z.eqb e (d, b') s).
Proof.
  intros c s e d b b' I L. destruct (cinv_index _ _ _ _ _ I L) as (i & LM & R & A & B).
  pose proof (ci_good _ _ I) as G. pose proof (ci_dis _ _ I) as HD. pose proof (ci_cap _ _ I) as HC.
  unfold set_disabled, map_at. rewrite LM. cbn [rd bind].
  set (n := c_n c) in *. set (k := c_dis c) in *.
  assert (FIN : forall c2 (t : Z) k', 0 <= k' <= n -> c_n c2 = n -> c_alloc c2 = c_alloc c ->
    Good c2 (fun j => 0 <= j < n) -> 0 <= t < n ->
    (forall j, 0 <= j < n -> c_slots c2 j = c_slots c (if j =? i then t else if j =? t then i else j)) ->
    (k' <=? t) = b' -> (forall j, 0 <= j < n -> j <> t -> (k' <=? j) = (k <=? (if j =? i then t else j))) ->
    CInv (with_dis k' c2) (m_set Z.eqb e (d, b') s)).
  { intros c2 t k' Hk E2 E3 Gd Ht H1 Hb H2. constructor; unfold with_dis; cbn [c_n c_alloc c_slots c_map c_dis]; rewrite E2.
    - destruct Gd as [g1 g2 g3]. constructor; [exact g1|exact g2|exact g3].
    - lia.
    - lia.
    - intros e' d' b''. rewrite lookup_set. destruct (Z.eqb_spec e' e) as [->|NE].
      + split.
        * intros Q. inversion Q; subst d' b''. exists t. splits; try lia; [|congruence]. rewrite H1 by exact Ht.
          destruct (Z.eqb_spec t i) as [->|NT]; [exact A|]. rewrite Z.eqb_refl. exact A.
        * intros (j & Rj & Sj & Bj). rewrite H1 in Sj by exact Rj.
          assert (J : (if j =? i then t else if j =? t then i else j) = i).
          { refine (good_unique _ _ _ _ _ _ _ G _ R Sj A). cbn. destruct (j =? i); destruct (j =? t); lia. }
          assert (JT : j = t). { destruct (Z.eqb_spec j i); destruct (Z.eqb_spec j t); lia. }
          subst j. rewrite J in Sj. congruence.
      + rewrite (ci_abs _ _ I). fold n k. split; intros (j & Rj & Sj & Bj).
        * assert (j <> i) by (intros ->; congruence).
          destruct (Z.eq_dec j t) as [->|NT].
          -- exists i. rewrite H1 by exact R. rewrite Z.eqb_refl. splits; try lia; [exact Sj|]. rewrite H2 by (congruence || lia).
             rewrite Z.eqb_refl. exact Bj.
          -- exists j. rewrite H1 by exact Rj. rewrite H2 by assumption. destruct (Z.eqb_spec j i); [lia|]. destruct (Z.eqb_spec j t); [lia|]. splits; auto; lia.
        * rewrite H1 in Sj by exact Rj. destruct (Z.eq_dec j t) as [->|NT].
          -- destruct (Z.eqb_spec t i) as [->|N2]; [congruence|]. rewrite Z.eqb_refl in Sj. congruence.
          -- rewrite H2 in Bj by assumption. destruct (Z.eqb_spec j i) as [->|N2].
             ++ exists t. splits; auto; lia.
             ++ destruct (Z.eqb_spec j t); [lia|]. exists j. splits; auto; lia. }
  destruct b'; cbn [negb andb].
  - destruct (Z.ltb_spec i k) as [C|C]; cbn [andb].
    + destruct (Z.eqb_spec i (k - 1)) as [E|E]; cbn [negb bind].
      * eexists. split; [reflexivity|]. apply (FIN c i); auto; fold k; try lia.
        -- intros j Hj. destruct (Z.eqb_spec j i) as [->|]; reflexivity.
        -- intros j Hj NJ. destruct (Z.eqb_spec j i); [lia|]. destruct (Z.leb_spec (k - 1) j); destruct (Z.leb_spec k j); auto; lia.
      * destruct (swap_good c _ i (k - 1) G) as (c2 & R2 & G2 & N2 & A2 & D2 & S2); try lia.
        rewrite R2. cbn [bind]. rewrite D2. eexists. split; [reflexivity|].
        apply (FIN c2 (k - 1)); auto; fold k; try lia.
        -- intros j Hj. rewrite S2. unfold upd. destruct (Z.eqb_spec j (k - 1)); destruct (Z.eqb_spec j i); auto; lia.
        -- intros j Hj NJ. destruct (Z.eqb_spec j i); destruct (Z.leb_spec (k - 1) j); destruct (Z.leb_spec k (k - 1)); destruct (Z.leb_spec k j); auto; lia.
    + eexists. split; [reflexivity|]. replace c with (with_dis k c) by (unfold with_dis, k; destruct c; reflexivity).
      apply (FIN c i); auto; try lia.
      * intros j Hj. destruct (Z.eqb_spec j i) as [->|]; reflexivity.
      * intros j Hj NJ. destruct (Z.eqb_spec j i); [lia|reflexivity].
  - destruct (Z.leb_spec k i) as [C|C]; cbn [andb].
    + destruct (Z.eqb_spec k i) as [E|E]; cbn [negb bind].
      * eexists. split; [reflexivity|]. apply (FIN c i); auto; fold k; try lia.
        -- intros j Hj. destruct (Z.eqb_spec j i) as [->|]; reflexivity.
        -- intros j Hj NJ. destruct (Z.eqb_spec j i); [lia|]. destruct (Z.leb_spec (k + 1) j); destruct (Z.leb_spec k j); auto; lia.
      * destruct (swap_good c _ i k G) as (c2 & R2 & G2 & N2 & A2 & D2 & S2); try lia.
        rewrite R2. cbn [bind]. rewrite D2. eexists. split; [reflexivity|].
        apply (FIN c2 k); auto; fold k; try lia.
        -- intros j Hj. rewrite S2. unfold upd. destruct (Z.eqb_spec j k); destruct (Z.eqb_spec j i); auto; lia.
        -- intros j Hj NJ. destruct (Z.eqb_spec j i); destruct (Z.leb_spec (k + 1) j); destruct (Z.leb_spec k k); destruct (Z.leb_spec k j); auto; lia.
    + eexists. split; [reflexivity|]. replace c with (with_dis k c) by (unfold with_dis, k; destruct c; reflexivity).
      apply (FIN c i); auto; try lia.
      * intros j Hj. destruct (Z.eqb_spec j i) as [->|]; reflexivity.
      * intros j Hj NJ. destruct (Z.eqb_spec j i); [lia|reflexivity].
Qed.

Lemma set_data_inv : forall c s e d b d', CInv c s -> lookup Z.eqb e s = Some (d, b) ->
  exists c', set_data e d' c = Ok c' /\ CInv c' (m_set Z.eqb e (d', b) s).
Proof.
  intros c s e d b d' I L. destruct (cinv_index _ _ _ _ _ I L) as (i & LM & R & A & B).
  pose proof (ci_good _ _ I) as G.
  unfold set_data, map_at. rewrite LM. cbn [rd bind]. unfold read_slot, construct.
  rewrite in_mem_ok by (apply (g_mem _ _ G); exact R). cbn [check bind]. rewrite A. cbn [rd bind].
  eexists. split; [reflexivity|]. constructor; cbn [c_n c_alloc c_slots c_map c_dis].
  - constructor; cbn [c_alloc c_slots c_map].
    + apply (g_mem _ _ G).
    + intros j Hj. destruct (Z.eq_dec j i) as [->|N].
      * rewrite upd_same. eauto.
      * rewrite upd_other by exact N. apply (g_slot _ _ G). exact Hj.
    + intros e2 j H. destruct (g_map _ _ G _ _ H) as (Rj & d2 & E). split; [exact Rj|].
      destruct (Z.eq_dec j i) as [->|N].
      * rewrite upd_same. assert (e2 = e) by congruence. subst; eauto.
      * rewrite upd_other by exact N. eauto.
  - apply (ci_cap _ _ I).
  - apply (ci_dis _ _ I).
  - intros e' d'' b'. rewrite lookup_set. destruct (Z.eqb_spec e' e) as [->|NE].
    + split.
      * intros Q. inversion Q; subst. exists i. rewrite upd_same. auto.
      * intros (j & Rj & Sj & Bj). destruct (Z.eq_dec j i) as [->|N].
        -- rewrite upd_same in Sj. congruence.
        -- rewrite upd_other in Sj by exact N. exfalso. apply N. exact (good_unique _ _ _ _ _ _ _ G Rj R Sj A).
    + rewrite (ci_abs _ _ I). split; intros (j & Rj & Sj & Bj).
      * assert (j <> i) by (intros ->; congruence). exists j. rewrite upd_other by assumption. auto.
      * destruct (Z.eq_dec j i) as [->|N]; [rewrite upd_same in Sj; congruence|]. rewrite upd_other in Sj by exact N. eauto.
Qed.

Lemma init_inv : exists c, comps_init = Ok c /\ CInv c (@nil (Z * (D * bool))).
Proof.
  unfold comps_init, comps_allocate. assert (E : round_cap 10 = 16) by (vm_compute; reflexivity). rewrite E.
  cbn [c_n]. change (0 <=? 16) with true. cbn [check bind]. eexists. split; [reflexivity|].
  constructor; cbn; try lia.
  - constructor; cbn; try lia. discriminate.
  - intros e d b. split; [discriminate|]. intros (i & R & _). lia.
Qed.

Lemma step_refines : forall c s o s', CInv c s -> spec_step s o = Ok s' ->
  exists c', comps_step (fun d => d) c o = Ok c' /\ CInv c' s'.
Proof.
  intros c s o s' I H. destruct o as [e b d|e|e b|e d]; cbn [spec_step comps_step] in *.
  - unfold has in H. destruct (lookup Z.eqb e s) eqn:L; [discriminate|]. inversion H; subst. apply add_inv; assumption.
  - unfold has in H. destruct (lookup Z.eqb e s) as [[d b]|] eqn:L; [|discriminate]. inversion H; subst. eapply remove_inv; eauto.
  - destruct (lookup Z.eqb e s) as [[d b0]|] eqn:L; [|discriminate]. inversion H; subst. eapply set_disabled_inv; eauto.
  - destruct (lookup Z.eqb e s) as [[d0 b]|] eqn:L; [|discriminate]. inversion H; subst. eapply set_data_inv; eauto.
Qed.
Lemma run_refines : forall os c s s', CInv c s -> spec_run s os = Ok s' ->
  exists c', comps_run (fun d => d) c os = Ok c' /\ CInv c' s'.
Proof.
  induction os as [|o os IH]; intros c s s' I H; cbn [spec_run comps_run] in *.
  - inversion H; subst. eauto.
  - apply bind_ok in H. destruct H as (s1 & H1 & H2). destruct (step_refines _ _ _ _ I H1) as (c1 & R1 & I1).
    rewrite R1. cbn [bind]. eapply IH; eauto.
Qed.

(** Entities met by a loop over the indices [a .. a+n-1]. *)
Definition visit (c : comps) (a n : Z) : list (option (Z * D)) := map (c_slots c) (zrange a n).
Lemma visit_inv : forall c s, CInv c s ->
  NoDup (map (option_map fst) (visit c 0 (c_n c))) /\
  (forall e d, In (Some (e, d)) (visit c 0 (c_dis c)) <-> lookup Z.eqb e s = Some (d, false)) /\
  (forall e d, In (Some (e, d)) (visit c (c_dis c) (c_n c - c_dis c)) <-> lookup Z.eqb e s = Some (d, true)) /\
  ~ In None (visit c 0 (c_n c)).
Proof.
  intros c s I. pose proof (ci_good _ _ I) as G. pose proof (ci_dis _ _ I) as HD. unfold visit.
  assert (F : forall i, 0 <= i < c_n c -> exists e d, c_slots c i = Some (e, d)).
  { intros i H. destruct (g_slot _ _ G _ H) as (e & d & A & _). eauto. }
  splits.
  - rewrite map_map. 
    assert (X : forall l, NoDup l -> (forall i, In i l -> 0 <= i < c_n c) -> NoDup (map (fun x => option_map fst (c_slots c x)) l)).
    { induction l as [|x l IH]; intros N H; [constructor|]. inversion N; subst. cbn [map]. constructor.
      - rewrite in_map_iff. intros (y & E & Hy). destruct (F x (H x (or_introl eq_refl))) as (e & d & Ex).
        destruct (F y (H y (or_intror Hy))) as (e' & d' & Ey). rewrite Ex, Ey in E. cbn in E. inversion E; subst.
        assert (x = y) by (eapply (good_unique c); [exact G|apply H; left; reflexivity|apply H; right; exact Hy|exact Ex|exact Ey]).
        subst y. contradiction.
      - apply IH; auto. intros i Hi. apply H. right; exact Hi. }
    apply X; [apply NoDup_zrange|]. intros i Hi. apply In_zrange in Hi. lia.
  - intros e d. rewrite in_map_iff, (ci_abs _ _ I). split.
    + intros (i & E & H). apply In_zrange in H. exists i. splits; auto; lia.
    + intros (i & R & E & B). symmetry in B. apply Z.leb_gt in B. exists i. split; [exact E|]. apply In_zrange. lia.
  - intros e d. rewrite in_map_iff, (ci_abs _ _ I). split.
    + intros (i & E & H). apply In_zrange in H. exists i. splits; auto; lia.
    + intros (i & R & E & B). symmetry in B. apply Z.leb_le in B. exists i. split; [exact E|]. apply In_zrange. lia.
  - rewrite in_map_iff. intros (i & E & H). apply In_zrange in H. destruct (F i ltac:(lia)) as (e & d & A). congruence.
Qed.
End Proofs.

(** * Layout of the arrays *)
Lemma layout_from_ok : forall sizes start n, 0 <= n -> Forall (fun s => 0 <= s) sizes -> start mod 16 = 0 ->
  let total := n * fold_right Z.add 0 sizes + zlen sizes * 16 in
  (forall a l, In (a, l) (layout_from start n sizes) -> a mod 16 = 0 /\ start <= a /\ a + l <= start + total) /\
  ForallOrdPairs (fun x y => fst x + snd x <= fst y) (layout_from start n sizes).
Proof.
  induction sizes as [|s sizes IH]; intros start n Hn HF M total.
  - split; [intros a l []|constructor].
  - inversion HF; subst. cbn [layout_from].
    pose proof (align_address_bounds (start + n * s)) as AB. change ALIGN with 16 in AB.
    pose proof (align_address_mod (start + n * s)) as AM. change ALIGN with 16 in AM.
    set (st := align_address (start + n * s) 16) in *.
    destruct (IH st n Hn H2 AM) as (IH1 & IH2).
    assert (TOT : total = n * s + n * fold_right Z.add 0 sizes + zlen sizes * 16 + 16).
    { unfold total. cbn [fold_right]. rewrite zlen_cons. lia. }
    assert (NS : 0 <= n * s) by (apply Z.mul_nonneg_nonneg; assumption).
    assert (NF : 0 <= n * fold_right Z.add 0 sizes).
    { apply Z.mul_nonneg_nonneg; [exact Hn|]. clear - H2. induction H2; cbn; lia. }
    pose proof (zlen_nonneg _ sizes).
    split.
    + intros a l [E|Hin].
      * inversion E; subst. splits; auto; lia.
      * destruct (IH1 _ _ Hin) as (A & B & C). splits; auto; lia.
    + constructor; [|exact IH2]. apply Forall_forall. intros (a, l) Hin. destruct (IH1 _ _ Hin) as (_ & B & _). cbn [fst snd]. lia.
Qed.
