(** Proofs about the islands of [IslandModel]. *)
From Verif Require Import Base IslandModel IslandSpec.
Open Scope Z_scope.

Lemma memb_in : forall x l, memb x l = true <-> In x l.
Proof.
  intros. unfold memb. rewrite existsb_exists. split.
  - intros (y & H & E). apply Z.eqb_eq in E. now subst.
  - intros H. exists x. split; [assumption | apply Z.eqb_refl].
Qed.
Lemma memb_nin : forall x l, memb x l = false <-> ~ In x l.
Proof. intros. rewrite <- memb_in. destruct (memb x l); split; congruence. Qed.
Lemma memb_spec : forall x l, {memb x l = true /\ In x l} + {memb x l = false /\ ~ In x l}.
Proof.
  intros. destruct (memb x l) eqn:E; [left | right]; split; auto; [now apply memb_in | now apply memb_nin].
Qed.

Lemma in_app_swap : forall (x : Z) a l1 l2, In x (l1 ++ a :: l2) <-> In x ((l1 ++ [a]) ++ l2).
Proof. intros. rewrite <- app_assoc. reflexivity. Qed.

Section Proofs.
Variable g : graph.
Notation static := (g_static g).
Variable arr : list Z.
Hypothesis G : graph_ok g arr.
Hypothesis arr_nd : NoDup arr.

Lemma pair_at_znth : forall k p, pair_at g k p <-> znth (g_cpairs g) k = Some p.
Proof.
  intros. unfold pair_at, znth. destruct (Z.ltb_spec k 0); split.
  - intros (A & _). lia.
  - discriminate.
  - now intros (_ & B).
  - intros; split; auto.
Qed.
Lemma pair_at_fun : forall k p q, pair_at g k p -> pair_at g k q -> p = q.
Proof. intros k p q H1 H2. apply pair_at_znth in H1, H2. congruence. Qed.

Lemma in_combine_seq : forall A (l : list A) n k x, In (k, x) (combine (seq n (length l)) l) <-> (n <= k)%nat /\ nth_error l (k - n) = Some x.
Proof.
  induction l as [|a l IH]; intros; simpl.
  - split; [tauto|]. intros (_ & H). destruct (k - n)%nat; discriminate.
  - rewrite IH. split.
    + intros [H | (H & E)].
      * injection H as -> ->. rewrite Nat.sub_diag. split; auto.
      * split; [lia|]. replace (k - n)%nat with (S (k - S n)) by lia. exact E.
    + intros (H & E). destruct (Nat.eq_dec k n) as [->|D].
      * rewrite Nat.sub_diag in E. simpl in E. injection E as ->. now left.
      * right. split; [lia|]. replace (k - n)%nat with (S (k - S n)) in E by lia. exact E.
Qed.

Lemma pairs_of_body_spec : forall b k, In k (pairs_of_body g b) <-> exists p, pair_at g k p /\ (cp_b1 p = b \/ cp_b2 p = b).
Proof.
  intros. unfold pairs_of_body. rewrite in_flat_map. split.
  - intros ((n & p) & H & I). apply in_combine_seq in H. destruct H as (_ & H). rewrite Nat.sub_0_r in H.
    assert (k = Z.of_nat n /\ (cp_b1 p = b \/ cp_b2 p = b)) as (-> & D).
    { apply in_app_or in I. destruct (Z.eqb_spec (cp_b1 p) b), (Z.eqb_spec (cp_b2 p) b); simpl in I; intuition. }
    exists p. split; auto. split; [lia|]. now rewrite Nat2Z.id.
  - intros (p & (K & H) & D). exists (Z.to_nat k, p). split.
    + apply in_combine_seq. rewrite Nat.sub_0_r. split; [lia | assumption].
    + rewrite Z2Nat.id by lia. apply in_or_app. destruct D as [<-|<-]; rewrite Z.eqb_refl; simpl; auto.
Qed.

Lemma linked_sym : forall x y, linked g x y -> linked g y x.
Proof.
  intros x y [(k & p & A & B & C) | (j & p & A & B)]; [left; exists k, p | right; exists j, p]; unfold ends in *; tauto.
Qed.
Lemma linked_arr : forall x y, linked g x y -> In y arr.
Proof.
  intros x y [(k & p & A & B & C) | (j & p & A & C)].
  - apply (go_pair _ _ G) in A. destruct C as [(<- & <-)|(<- & <-)]; tauto.
  - apply (go_joint _ _ G) in A. destruct C as [(<- & <-)|(<- & <-)]; tauto.
Qed.

(** * Waking up bodies *)
Section Woken.
Variables (en0 dis0 sl0 : list Z).
Hypothesis arr0 : forall x, In x arr <-> In x en0 \/ In x dis0.
(** [W s A]: the components of [s] are those of the start with the sleeping bodies of [A] awake. *)
Record W (A : list Z) (s : istate) : Prop := {
  w_len : (length (n_en s) + length (n_dis s) = length en0 + length dis0)%nat;
  w_arr : forall x, In x arr <-> In x (n_en s) \/ In x (n_dis s);
  w_slp : forall x, In x (n_sleep s) <-> In x sl0 /\ ~ (In x A /\ static x = false /\ g_active g x = true);
  w_enb : forall x, In x (n_en s) <-> In x en0 \/ (In x sl0 /\ In x A /\ static x = false /\ g_active g x = true);
  w_ndp : NoDup (n_en s ++ n_dis s)
}.

Lemma nodup_swap : forall (x d : Z) rest, NoDup (d :: rest) -> In x rest -> NoDup (map (fun y => if y =? x then d else y) rest).
Proof.
  intros x d rest H I. inversion H as [|? ? Hd Hr]; subst.
  clear H. revert Hd Hr. clear I. induction rest as [|a r IH]; intros Hd Hr; simpl; constructor.
  - rewrite in_map_iff. intros (y & E & Iy). inversion Hr; subst. simpl in Hd.
    destruct (Z.eqb_spec a x); destruct (Z.eqb_spec y x); subst; try tauto; intuition congruence.
  - inversion Hr; subst. apply IH; auto. simpl in Hd. tauto.
Qed.
Lemma in_swap : forall (x d y : Z) rest, In x rest -> x <> d -> ~ In d rest -> (In y (map (fun z => if z =? x then d else z) rest) <-> (y = d \/ In y rest) /\ y <> x).
Proof.
  intros x d y rest I N Nd. rewrite in_map_iff. split.
  - intros (z & E & Iz). destruct (Z.eqb_spec z x).
    + subst. split; auto.
    + subst. auto.
  - intros ([-> | Iy] & D).
    + exists x. rewrite Z.eqb_refl. auto.
    + exists y. destruct (Z.eqb_spec y x); [contradiction | auto].
Qed.

Lemma enable_comp_spec : forall x en dis en' dis', NoDup (en ++ dis) -> In x en \/ In x dis -> enable_comp x en dis = (en', dis') ->
  (length en' + length dis' = length en + length dis)%nat /\ NoDup (en' ++ dis') /\
  (forall y, In y en' <-> In y en \/ y = x) /\ (forall y, In y en' \/ In y dis' <-> In y en \/ In y dis) /\
  exists ext, en' = en ++ ext.
Proof.
  intros x en dis en' dis' ND I E. unfold enable_comp in E.
  destruct (memb_spec x en) as [(M & Ix)|(M & Ix)]; rewrite M in E.
  - injection E as <- <-. repeat split; auto; try tauto.
    + intros [?| ->]; auto.
    + exists []. now rewrite app_nil_r.
  - destruct I as [I|I]; [contradiction|]. destruct dis as [|d rest]; [contradiction|].
    injection E as <- <-. pose proof (NoDup_remove_1 _ _ _ ND) as N1. pose proof (NoDup_remove_2 _ _ _ ND) as N2.
    assert (Nr : NoDup (d :: rest)). { clear -ND. induction en; simpl in ND; auto. inversion ND; auto. }
    assert (Hd : ~ In d rest) by (inversion Nr; auto).
    assert (Ne : NoDup en). { clear -ND. induction en; simpl in ND; constructor; inversion ND; subst; auto. rewrite in_app_iff in *. tauto. }
    assert (Dj : forall y, In y en -> ~ In y (d :: rest)).
    { clear -ND. induction en; simpl; [tauto|]. simpl in ND. inversion ND; subst. intros y [<-|Hy]; [rewrite in_app_iff in H1; intros C; apply H1; right; exact C | exact (IHen H2 y Hy)]. }
    destruct (Z.eqb_spec x d) as [->|D].
    + repeat split.
      * rewrite app_length; simpl; lia.
      * rewrite <- app_assoc. exact ND.
      * rewrite in_app_iff; simpl; intuition.
      * rewrite in_app_iff; simpl; intuition.
      * rewrite in_app_iff; simpl; intuition.
      * rewrite in_app_iff; simpl; intuition.
      * now exists [d].
    + assert (Ir : In x rest) by (simpl in I; intuition congruence).
      repeat split.
      * rewrite app_length, map_length; simpl; lia.
      * rewrite <- app_assoc. simpl. apply NoDup_Add with (a := x) (l := en ++ map (fun y => if y =? x then d else y) rest).
        { apply Add_app. }
        split.
        { clear - Ne Nr Dj Hd Ir D. 
          assert (NM := nodup_swap x d rest Nr Ir).
          induction en; simpl; auto. inversion Ne; subst. constructor; [|apply IHen; auto; intros; apply Dj; right; auto].
          rewrite in_app_iff. intros [C|C]; [contradiction|].
          apply in_swap in C; auto. destruct C as (C & _). apply (Dj a); simpl; [auto|]. destruct C; auto. }
        { rewrite in_app_iff, in_swap by auto. intros [C|(_ & C)]; auto. }
      * rewrite in_app_iff; simpl; intuition.
      * rewrite in_app_iff; simpl; intuition.
      * rewrite in_app_iff, in_swap by auto. simpl. intros [[?|[<-|[]]]|([-> |?] & _)]; auto.
      * rewrite in_app_iff, in_swap by auto. simpl. destruct (Z.eq_dec y x); intuition.
      * now exists [x].
Qed.

Lemma wake_frame : forall x s, let s' := wake g x s in
  n_in s' = n_in s /\ n_pin s' = n_pin s /\ n_jin s' = n_jin s /\ n_order s' = n_order s /\ n_tot s' = n_tot s /\ n_isl s' = n_isl s.
Proof.
  intros. subst s'. unfold wake. repeat (destruct (negb _)); try (repeat split; reflexivity); destruct (static x); try (repeat split; reflexivity).
  - destruct (enable_comp x (n_en s) (n_dis s)). repeat split; reflexivity.
Qed.

Lemma wake_W : forall A x s, W A s -> In x arr -> W (A ++ [x]) (wake g x s) /\ exists ext, n_en (wake g x s) = n_en s ++ ext.
Proof.
  intros A x s I Ix. unfold wake.
  assert (Same : (In x sl0 -> In x A \/ ~ (static x = false /\ g_active g x = true)) -> W (A ++ [x]) s /\ exists ext, n_en s = n_en s ++ ext).
  { intros D. split; [|exists []; now rewrite app_nil_r].
    destruct I. constructor; auto.
    - intros y. rewrite w_slp0, in_app_iff; simpl. split; [intros (B & C) | intros (B & C)]; split; auto; intros (Ey & F).
      + destruct Ey as [Ey | [<-|[]]]; [tauto|]. destruct (D B); tauto.
      + apply C. tauto.
    - intros y. rewrite w_enb0, in_app_iff; simpl. split; [tauto|]. intros [B|(B & [C| [<-|[]]] & F)]; auto. destruct (D B); tauto. }
  destruct (memb_spec x (n_sleep s)) as [(M & Sx)|(M & Sx)]; rewrite M; simpl negb; cbv iota.
  2:{ apply Same; auto. intros S0. destruct I. rewrite w_slp0 in Sx.
      destruct (static x), (g_active g x); try (right; intuition congruence). left.
      destruct (memb_spec x A) as [(_ & E)|(_ & E)]; tauto. }
  destruct (static x) eqn:St; [apply Same; intuition congruence|].
  destruct (g_active g x) eqn:Ac; simpl negb; cbv iota; [|apply Same; intuition congruence].
  destruct (enable_comp x (n_en s) (n_dis s)) as (en' & dis') eqn:E.
  destruct I as [L Ar Sl En Nd].
  pose proof (enable_comp_spec x (n_en s) (n_dis s) en' dis' Nd (proj1 (Ar x) Ix) E) as (L' & N' & I1 & I2 & X).
  apply Sl in Sx. split; [|exact X]. constructor; simpl.
  - lia.
  - intros y. rewrite I2. apply Ar.
  - intros y. rewrite filter_In, Sl, in_app_iff, negb_true_iff, Z.eqb_neq. simpl. split.
    + intros ((A1 & A2) & A3). split; auto. intros ([B|[B|[]]] & C); [tauto | congruence].
    + intros (A1 & A2). destruct (Z.eq_dec y x) as [->|]; [|tauto]. exfalso. apply A2. tauto.
  - intros y. rewrite I1, En, in_app_iff. simpl. split.
    + intros [[?|?]| ->]; tauto.
    + intros [?|(? & [?|[<-|[]]] & ?)]; tauto.
  - exact N'.
Qed.
End Woken.

(** * The search *)
Definition touches (S : Z -> Prop) (k : Z) : Prop := exists p, pair_at g k p /\ (S (cp_b1 p) \/ S (cp_b2 p)).
Definition jtouches (S : Z -> Prop) (j : Z) : Prop := exists p, g_joint g j = Some p /\ (S (jp_b1 p) \/ S (jp_b2 p)).
Definition same_comp (s s' : istate) : Prop := n_en s' = n_en s /\ n_dis s' = n_dis s /\ n_sleep s' = n_sleep s.

Section Search.
Variables (V0 : list Z) (isl0 : list island) (ord0 : list Z) (first root : Z).
Hypothesis V0_ns : forall x, In x V0 -> static x = false.
Hypothesis V0_closed : forall x y, In x V0 -> linked g x y -> static y = false -> In y V0.

Definition seen (P : list Z) (x : Z) : Prop := In x V0 \/ (In x P /\ static x = false).

(** [P]: bodies whose visit is complete, [L]: bodies of the island, [dp], [dj]: pairs and joints of the
    body being visited already handled. *)
Record DI (P L dp dj stack : list Z) (s : istate) : Prop := {
  d_isl : exists seg, n_order s = ord0 ++ seg /\
            n_isl s = mk_island first (sumz (map (nman_of g) seg)) L :: isl0 /\
            n_tot s = first + sumz (map (nman_of g) seg) /\ NoDup seg /\
            forall k, In k seg <-> In k (n_pin s) /\ (exists p, pair_at g k p /\ cp_sim p = true) /\ ~ touches (fun x => In x V0) k;
  d_nd : NoDup (L ++ stack);
  d_arr : forall x, In x (L ++ stack) -> In x arr;
  d_v0 : forall x, In x V0 -> ~ In x (L ++ stack);
  d_in : forall x, In x (n_in s) <-> In x V0 \/ In x (L ++ stack);
  d_pin : forall k, In k (n_pin s) <-> touches (seen P) k \/ In k dp;
  d_jin : forall j, In j (n_jin s) <-> jtouches (seen P) j \/ In j dj;
  d_PL : forall x, In x P -> In x L;
  d_closed : forall x y, In x P -> static x = false -> linked g x y -> In y (L ++ stack);
  d_dp : forall k p, In k dp -> pair_at g k p -> cp_sim p = true -> In (cp_b1 p) (L ++ stack) /\ In (cp_b2 p) (L ++ stack);
  d_dj : forall j p, In j dj -> g_joint g j = Some p -> In (jp_b1 p) (L ++ stack) /\ In (jp_b2 p) (L ++ stack);
  d_root : In root (L ++ stack);
  d_reach : forall x, In x (L ++ stack) -> static x = false -> chain g root x;
  d_stat : forall x, In x (L ++ stack) -> static x = true -> exists y, In y L /\ static y = false /\ linked g y x
}.

(** Pushing [o] on the stack: the parts of the invariant about the bodies. *)
Lemma push_ok : forall P L dp dj stack s o b, DI P L dp dj stack s -> In b L -> static b = false -> linked g b o -> ~ In o (n_in s) ->
  NoDup (L ++ o :: stack) /\ (forall x, In x (L ++ o :: stack) <-> x = o \/ In x (L ++ stack)) /\ In o arr /\ ~ In o V0 /\
  (static o = false -> chain g root o).
Proof.
  intros P L dp dj stack s o b I Ib Sb Lk N. rewrite (d_in _ _ _ _ _ _ I) in N.
  assert (Q : forall x, In x (L ++ o :: stack) <-> x = o \/ In x (L ++ stack)).
  { intros. rewrite !in_app_iff. simpl. intuition. }
  splits; auto.
  - apply NoDup_Add with (a := o) (l := L ++ stack); [apply Add_app|]. split; [apply (d_nd _ _ _ _ _ _ I) | tauto].
  - eapply linked_arr; eauto.
  - intros So. apply chain_step with b; auto. apply (d_reach _ _ _ _ _ _ I); auto. apply in_or_app; auto.
Qed.

Lemma touches_V0_pair : forall k p b, pair_at g k p -> cp_sim p = true -> (cp_b1 p = b \/ cp_b2 p = b) -> static b = false ->
  touches (fun x => In x V0) k -> In b V0.
Proof.
  intros k p b K S E Sb (q & K' & D). rewrite (pair_at_fun _ _ _ K' K) in D.
  assert (Lk : linked g (cp_b1 p) (cp_b2 p)) by (left; exists k, p; unfold ends; auto).
  destruct E as [<-|<-], D as [D|D]; auto; eapply V0_closed; eauto using linked_sym.
Qed.
Lemma touches_V0_joint : forall j p b, g_joint g j = Some p -> (jp_b1 p = b \/ jp_b2 p = b) -> static b = false ->
  jtouches (fun x => In x V0) j -> In b V0.
Proof.
  intros j p b K E Sb (q & K' & D). assert (q = p) by congruence. subst q.
  assert (Lk : linked g (jp_b1 p) (jp_b2 p)) by (right; exists j, p; unfold ends; auto).
  destruct E as [<-|<-], D as [D|D]; auto; eapply V0_closed; eauto using linked_sym.
Qed.

Lemma visit_pair_ok : forall P L dp dj stack s b k p, DI P L dp dj stack s -> In b L -> ~ In b P -> static b = false ->
  pair_at g k p -> (cp_b1 p = b \/ cp_b2 p = b) ->
  exists stack' s', visit_pair g b k (stack, s) = Ok (stack', s') /\ DI P L (k :: dp) dj stack' s' /\ same_comp s s'.
Proof.
  intros P L dp dj stack s b k p I Ib NPb Sb K E.
  assert (NV : ~ In b V0). { intros C. apply (d_v0 _ _ _ _ _ _ I) in C. apply C, in_or_app. auto. }
  unfold visit_pair. rewrite (proj1 (pair_at_znth k p) K). cbn [rd bind].
  destruct (memb_spec k (n_pin s)) as [(M & Ik)|(M & Ik)]; rewrite M.
  - exists stack, s. split; [reflexivity|]. split; [|repeat split].
    pose proof (proj1 (d_pin _ _ _ _ _ _ I k) Ik) as D.
    destruct I. constructor; auto.
    + intros k'. rewrite d_pin0. simpl. split; [tauto|]. intros [?|[<-|?]]; auto.
    + intros k' p' [<-|C] Kp Sp; [|eapply d_dp0; eauto].
      destruct D as [T|D]; [|eapply d_dp0; eauto].
      rewrite (pair_at_fun _ _ _ Kp K) in *. destruct T as (q & Kq & T). rewrite (pair_at_fun _ _ _ Kq K) in *. clear Kq Kp.
      assert (Lk : linked g (cp_b1 p) (cp_b2 p)) by (left; exists k, p; unfold ends; auto).
      assert (NoV : ~ touches (fun x => In x V0) k). { intros C. apply NV. eapply touches_V0_pair; eauto. }
      destruct T as [[T|(T & Ts)]|[T|(T & Ts)]].
      * destruct NoV. exists p. auto.
      * split; [apply in_or_app; auto | eapply d_closed0; eauto].
      * destruct NoV. exists p. auto.
      * split; [eapply d_closed0; eauto using linked_sym | apply in_or_app; auto].
  - assert (Nk : ~ In k dp) by (intros C; apply Ik, (d_pin _ _ _ _ _ _ I); auto).
    assert (PIN : forall k', k = k' \/ In k' (n_pin s) <-> touches (seen P) k' \/ In k' (k :: dp)).
    { intros k'. rewrite (d_pin _ _ _ _ _ _ I). simpl. tauto. }
    destruct (cp_sim p) eqn:Sp; simpl negb; cbv iota.
    2:{ exists stack. eexists. split; [reflexivity|]. split; [|repeat split].
        destruct I. constructor; auto.
        - destruct d_isl0 as (seg & A1 & A2 & A3 & A4 & A5). exists seg. splits; auto. intros k'. rewrite A5. simpl. split; [tauto|].
          intros ([<-|?] & (q & Kq & Sq) & ?); [|eauto]. rewrite (pair_at_fun _ _ _ Kq K) in Sq. congruence.
        - intros k' p' [<-|C] Kp Sq; [|eapply d_dp0; eauto]. rewrite (pair_at_fun _ _ _ Kp K) in Sq. congruence. }
    set (o := if cp_b1 p =? b then cp_b2 p else cp_b1 p).
    assert (EO : ends (cp_b1 p) (cp_b2 p) b o).
    { unfold o, ends. destruct (Z.eqb_spec (cp_b1 p) b); [auto | destruct E; [contradiction | auto]]. }
    assert (Lk : linked g b o) by (left; exists k, p; auto).
    assert (HS : g_hassim g o = true). { apply (go_hassim _ _ G) in K; auto. destruct EO as [(_ & <-)|(<- & _)]; tauto. }
    rewrite HS. simpl negb; cbv iota. unfold cur. simpl n_isl.
    destruct (d_isl _ _ _ _ _ _ I) as (seg & A1 & A2 & A3 & A4 & A5). rewrite A2. cbn [bind]. simpl n_in.
    assert (ISL : exists sg, n_order s ++ [k] = ord0 ++ sg /\
              {| is_first := first; is_nman := sumz (map (nman_of g) seg) + cp_nman p; is_bodies := L |} :: isl0 = mk_island first (sumz (map (nman_of g) sg)) L :: isl0 /\
              n_tot s + cp_nman p = first + sumz (map (nman_of g) sg) /\ NoDup sg /\
              forall k', In k' sg <-> (k = k' \/ In k' (n_pin s)) /\ (exists p, pair_at g k' p /\ cp_sim p = true) /\ ~ touches (fun x => In x V0) k').
    { exists (seg ++ [k]). assert (SM : sumz (map (nman_of g) (seg ++ [k])) = sumz (map (nman_of g) seg) + cp_nman p).
      { clear - K. induction seg as [|a seg IH]; simpl.
        - unfold nman_of. destruct K as (_ & ->). lia.
        - unfold sumz in *. rewrite IH. lia. }
      splits.
      - rewrite A1. symmetry. apply app_assoc.
      - rewrite SM. reflexivity.
      - rewrite SM. lia.
      - apply NoDup_Add with (a := k) (l := seg); [rewrite <- (app_nil_r seg) at 1; apply Add_app|]. split; auto. rewrite A5. tauto.
      - intros k'. rewrite in_app_iff, A5. simpl. split.
        + intros [?|[<-|[]]]; [tauto|]. splits; eauto. intros C. apply NV. eapply touches_V0_pair; eauto.
        + intros ([<-|?] & ? & ?); auto. }
    destruct (memb_spec o (n_in s)) as [(Mo & Io)|(Mo & Io)]; rewrite Mo.
    + exists stack. eexists. split; [reflexivity|]. split; [|repeat split].
      destruct I. constructor; auto.
      intros k' p' [<-|C] Kp Sq; [|eapply d_dp0; eauto]. rewrite (pair_at_fun _ _ _ Kp K).
      apply d_in0 in Io. destruct Io as [Io|Io].
      * destruct NV. apply (V0_closed o); auto using linked_sym.
      * assert (In b (L ++ stack)) by (apply in_or_app; auto). destruct EO as [(-> & ->)|(-> & ->)]; auto.
    + exists (o :: stack). eexists. split; [reflexivity|]. split; [|repeat split].
      destruct (push_ok _ _ _ _ _ _ o b I Ib Sb Lk Io) as (B1 & B2 & B3 & B4 & B5).
      destruct I. constructor; auto; simpl n_in.
      * intros x. rewrite B2. intros [->|?]; auto.
      * intros x V. rewrite B2. intros [->|C]; [tauto | eapply d_v1; eauto].
      * intros x. rewrite B2. simpl. rewrite d_in0. intuition.
      * intros x y X Sx Lx. rewrite B2. right. eapply d_closed0; eauto.
      * intros k' p' [<-|C] Kp Sq; rewrite !B2; [|split; right; eapply d_dp0; eauto].
        rewrite (pair_at_fun _ _ _ Kp K). assert (In b (L ++ stack)) by (apply in_or_app; auto).
        destruct EO as [(-> & ->)|(-> & ->)]; auto.
      * intros j q C Kq. rewrite !B2. split; right; eapply d_dj0; eauto.
      * rewrite B2. auto.
      * intros x. rewrite B2. intros [->|C]; auto.
      * intros x. rewrite B2. intros [->|C]; [|auto]. intros So. exists b. auto.
Qed.

Lemma visit_joint_ok : forall P L dp dj stack s b j p, DI P L dp dj stack s -> In b L -> ~ In b P -> static b = false ->
  g_joint g j = Some p -> (jp_b1 p = b \/ jp_b2 p = b) ->
  exists stack' s', visit_joint g b j (stack, s) = Ok (stack', s') /\ DI P L dp (j :: dj) stack' s' /\ same_comp s s'.
Proof.
  intros P L dp dj stack s b j p I Ib NPb Sb K E.
  assert (NV : ~ In b V0). { intros C. apply (d_v0 _ _ _ _ _ _ I) in C. apply C, in_or_app. auto. }
  unfold visit_joint. rewrite K. cbn [rd bind].
  assert (Lk0 : linked g (jp_b1 p) (jp_b2 p)) by (right; exists j, p; unfold ends; auto).
  destruct (memb_spec j (n_jin s)) as [(M & Ij)|(M & Ij)]; rewrite M.
  - exists stack, s. split; [reflexivity|]. split; [|repeat split].
    pose proof (proj1 (d_jin _ _ _ _ _ _ I j) Ij) as D.
    destruct I. constructor; auto.
    + intros k'. rewrite d_jin0. simpl. split; [tauto|]. intros [?|[<-|?]]; auto.
    + intros k' p' [<-|C] Kp; [|eapply d_dj0; eauto].
      destruct D as [T|D]; [|eapply d_dj0; eauto].
      assert (p' = p) by congruence. subst p'. destruct T as (q & Kq & T). assert (q = p) by congruence. subst q.
      assert (NoV : ~ jtouches (fun x => In x V0) j). { intros C. apply NV. eapply touches_V0_joint; eauto. }
      destruct T as [[T|(T & Ts)]|[T|(T & Ts)]].
      * destruct NoV. exists p. auto.
      * split; [apply in_or_app; auto | eapply d_closed0; eauto].
      * destruct NoV. exists p. auto.
      * split; [eapply d_closed0; eauto using linked_sym | apply in_or_app; auto].
  - assert (PIN : forall k', j = k' \/ In k' (n_jin s) <-> jtouches (seen P) k' \/ In k' (j :: dj)).
    { intros k'. rewrite (d_jin _ _ _ _ _ _ I). simpl. tauto. }
    set (o := if jp_b1 p =? b then jp_b2 p else jp_b1 p).
    assert (EO : ends (jp_b1 p) (jp_b2 p) b o).
    { unfold o, ends. destruct (Z.eqb_spec (jp_b1 p) b); [auto | destruct E; [contradiction | auto]]. }
    assert (Lk : linked g b o) by (right; exists j, p; auto).
    assert (Ibs : In b (L ++ stack)) by (apply in_or_app; auto).
    simpl n_in.
    destruct (memb_spec o (n_in s)) as [(Mo & Io)|(Mo & Io)]; rewrite Mo.
    + exists stack. eexists. split; [reflexivity|]. split; [|repeat split].
      destruct I. constructor; auto.
      intros k' p' [<-|C] Kp; [|eapply d_dj0; eauto]. assert (p' = p) by congruence. subst p'.
      apply d_in0 in Io. destruct Io as [Io|Io].
      * destruct NV. apply (V0_closed o); auto using linked_sym.
      * destruct EO as [(-> & ->)|(-> & ->)]; auto.
    + exists (o :: stack). eexists. split; [reflexivity|]. split; [|repeat split].
      destruct (push_ok _ _ _ _ _ _ o b I Ib Sb Lk Io) as (B1 & B2 & B3 & B4 & B5).
      destruct I. constructor; auto; simpl n_in.
      * intros x. rewrite B2. intros [->|?]; auto.
      * intros x V. rewrite B2. intros [->|C]; [tauto | eapply d_v1; eauto].
      * intros x. rewrite B2. simpl. rewrite d_in0. intuition.
      * intros x y X Sx Lx. rewrite B2. right. eapply d_closed0; eauto.
      * intros k' q C Kp Sq. rewrite !B2. split; right; eapply d_dp0; eauto.
      * intros k' p' [<-|C] Kp; rewrite !B2; [|split; right; eapply d_dj0; eauto].
        assert (p' = p) by congruence. subst p'.
        destruct EO as [(-> & ->)|(-> & ->)]; auto.
      * rewrite B2. auto.
      * intros x. rewrite B2. intros [->|C]; auto.
      * intros x. rewrite B2. intros [->|C]; [|auto]. intros So. exists b. auto.
Qed.

Lemma visit_pairs_ok : forall l P L dp dj stack s b, DI P L dp dj stack s -> In b L -> ~ In b P -> static b = false ->
  (forall k, In k l -> In k (pairs_of_body g b)) ->
  exists stack' s', visit_all (visit_pair g b) l (stack, s) = Ok (stack', s') /\ DI P L (rev l ++ dp) dj stack' s' /\ same_comp s s'.
Proof.
  induction l as [|k l IH]; intros P L dp dj stack s b I Ib NPb Sb H; cbn [visit_all].
  - exists stack, s. split; [reflexivity|]. split; [exact I | repeat split].
  - destruct (proj1 (pairs_of_body_spec b k) (H k (or_introl eq_refl))) as (p & K & E).
    destruct (visit_pair_ok _ _ _ _ _ _ b k p I Ib NPb Sb K E) as (st1 & s1 & R & I1 & C1). rewrite R. cbn [bind].
    destruct (IH P L (k :: dp) dj st1 s1 b I1 Ib NPb Sb) as (st2 & s2 & R2 & I2 & C2); [intros; apply H; now right|].
    exists st2, s2. split; [exact R2|]. split.
    + simpl. rewrite <- app_assoc. exact I2.
    + unfold same_comp in *. intuition congruence.
Qed.
Lemma visit_joints_ok : forall l P L dp dj stack s b, DI P L dp dj stack s -> In b L -> ~ In b P -> static b = false ->
  (forall k, In k l -> In k (g_joints_of g b)) ->
  exists stack' s', visit_all (visit_joint g b) l (stack, s) = Ok (stack', s') /\ DI P L dp (rev l ++ dj) stack' s' /\ same_comp s s'.
Proof.
  induction l as [|k l IH]; intros P L dp dj stack s b I Ib NPb Sb H; cbn [visit_all].
  - exists stack, s. split; [reflexivity|]. split; [exact I | repeat split].
  - destruct (proj1 (go_joints_of _ _ G b k) (H k (or_introl eq_refl))) as (p & K & E).
    destruct (visit_joint_ok _ _ _ _ _ _ b k p I Ib NPb Sb K E) as (st1 & s1 & R & I1 & C1). rewrite R. cbn [bind].
    destruct (IH P L dp (k :: dj) st1 s1 b I1 Ib NPb Sb) as (st2 & s2 & R2 & I2 & C2); [intros; apply H; now right|].
    exists st2, s2. split; [exact R2|]. split.
    + simpl. rewrite <- app_assoc. exact I2.
    + unfold same_comp in *. intuition congruence.
Qed.

(** The current body is finished. *)
Lemma finish_body : forall P L b stack s, DI P L (rev (pairs_of_body g b)) (rev (g_joints_of g b)) stack s -> In b L -> static b = false ->
  DI (b :: P) L [] [] stack s.
Proof.
  intros P L b stack s I Ib Sb.
  assert (T : forall k, touches (seen P) k \/ In k (rev (pairs_of_body g b)) <-> touches (seen (b :: P)) k \/ In k []).
  { intros k. rewrite <- in_rev, pairs_of_body_spec. unfold touches, seen. simpl. split.
    - intros [(p & K & D)|(p & K & D)]; left; exists p; (split; [auto|]); [tauto|]. destruct D as [<-|<-]; tauto.
    - intros [(p & K & [[D|([D|D] & Sd)]|[D|([D|D] & Sd)]])|[]]; try (left; exists p; tauto); right; exists p; auto. }
  assert (TJ : forall k, jtouches (seen P) k \/ In k (rev (g_joints_of g b)) <-> jtouches (seen (b :: P)) k \/ In k []).
  { intros k. rewrite <- in_rev, (go_joints_of _ _ G). unfold jtouches, seen. simpl. split.
    - intros [(p & K & D)|(p & K & D)]; left; exists p; (split; [auto|]); [tauto|]. destruct D as [<-|<-]; tauto.
    - intros [(p & K & [[D|([D|D] & Sd)]|[D|([D|D] & Sd)]])|[]]; try (left; exists p; tauto); right; exists p; auto. }
  destruct I. constructor; auto.
  - intros k. rewrite d_pin0. apply T.
  - intros k. rewrite d_jin0. apply TJ.
  - intros x [<-|?]; auto.
  - intros x y [<-|C] Sx Lx; [|eapply d_closed0; eauto].
    destruct Lx as [(k & p & K & Sp & E)|(j & p & K & E)].
    + assert (In k (rev (pairs_of_body g b))) as Ik. { rewrite <- in_rev. apply pairs_of_body_spec. exists p. destruct E as [(<- & _)|(_ & <-)]; auto. }
      destruct (d_dp0 k p Ik K Sp). destruct E as [(_ & <-)|(<- & _)]; auto.
    + assert (In j (rev (g_joints_of g b))) as Ik. { rewrite <- in_rev. apply (go_joints_of _ _ G). exists p. destruct E as [(<- & _)|(_ & <-)]; auto. }
      destruct (d_dj0 j p Ik K). destruct E as [(_ & <-)|(<- & _)]; auto.
  - intros k p [].
  - intros k p [].
Qed.

(** The static bodies of a list. *)
Definition statics_of (l : list Z) : list Z := filter (g_static g) l.

Lemma add_body_DI : forall P L b stack s, DI P L [] [] (b :: stack) s -> exists s', add_body b s = Ok s' /\ DI P (L ++ [b]) [] [] stack s' /\ same_comp s s'.
Proof.
  intros P L b stack s I. unfold add_body, cur.
  destruct (d_isl _ _ _ _ _ _ I) as (seg & A1 & A2 & A3 & A4 & A5). rewrite A2. cbn [bind]. eexists. split; [reflexivity|]. split; [|repeat split].
  assert (Q : forall x, In x ((L ++ [b]) ++ stack) <-> In x (L ++ b :: stack)) by (intros; rewrite <- app_assoc; reflexivity).
  destruct I. constructor; auto.
  - exists seg. auto.
  - rewrite <- app_assoc. exact d_nd0.
  - intros x. rewrite Q. auto.
  - intros x V. rewrite Q. auto.
  - intros x. rewrite Q. auto.
  - intros x X. apply in_or_app. auto.
  - intros x y. rewrite Q. eauto.
  - intros k p. rewrite !Q. eauto.
  - intros k p. rewrite !Q. eauto.
  - rewrite Q. auto.
  - intros x. rewrite Q. auto.
  - intros x. rewrite Q. intros C Sx. destruct (d_stat0 x C Sx) as (y & ? & ?). exists y. split; auto. apply in_or_app; auto.
Qed.

Lemma DI_wake : forall P L dp dj stack s x, DI P L dp dj stack s -> DI P L dp dj stack (wake g x s).
Proof.
  intros P L dp dj stack s x I. destruct (wake_frame x s) as (E1 & E2 & E3 & E4 & E5 & E6).
  destruct I. constructor; rewrite ?E1, ?E2, ?E3, ?E4, ?E5, ?E6; auto.
Qed.
Lemma DI_static : forall P L b stack s, DI P L [] [] stack s -> In b L -> static b = true -> DI (b :: P) L [] [] stack s.
Proof.
  intros P L b stack s I Ib Sb. destruct I. constructor; auto.
  - intros k. rewrite d_pin0. unfold touches, seen. simpl. split; intros [(p & K & D)|[]]; left; exists p; intuition congruence.
  - intros k. rewrite d_jin0. unfold jtouches, seen. simpl. split; intros [(p & K & D)|[]]; left; exists p; intuition congruence.
  - intros x [<-|?]; auto.
  - intros x y [<-|?]; [congruence | eauto].
Qed.

Lemma same_comp_W : forall en0 dis0 sl0 A s s', W en0 dis0 sl0 A s -> same_comp s s' -> W en0 dis0 sl0 A s'.
Proof. intros en0 dis0 sl0 A s s' I (E1 & E2 & E3). destruct I. constructor; rewrite ?E1, ?E2, ?E3; auto. Qed.

Lemma nodup_app_l : forall (a b : list Z), NoDup (a ++ b) -> NoDup a.
Proof. induction a; simpl; intros b H; constructor; inversion H; subst; eauto. rewrite in_app_iff in *. tauto. Qed.

Lemma dfs_ok : forall en0 dis0 sl0 A fuel P L stack st s, DI P L [] [] stack s -> (forall x, In x P <-> In x L) ->
  W en0 dis0 sl0 (A ++ L) s -> st = statics_of L -> (length arr <= fuel + length L)%nat ->
  exists L' s' ext, dfs g fuel stack st s = Ok (statics_of L', s') /\ DI L' L' [] [] [] s' /\ W en0 dis0 sl0 (A ++ L') s' /\ n_en s' = n_en s ++ ext.
Proof.
  intros en0 dis0 sl0 A. induction fuel as [|fuel IH]; intros P L stack st s I PL Ww -> F.
  - destruct stack as [|b stack].
    + exists L, s, []. simpl. rewrite app_nil_r. splits; auto.
      destruct I. constructor; auto.
      * intros k. rewrite d_pin0. unfold touches, seen. split; intros [(p & K & D)|[]]; left; exists p; rewrite ?PL in *; auto.
      * intros k. rewrite d_jin0. unfold jtouches, seen. split; intros [(p & K & D)|[]]; left; exists p; rewrite ?PL in *; auto.
      * intros x y. rewrite <- PL. eauto.
    + exfalso. pose proof (NoDup_incl_length (d_nd _ _ _ _ _ _ I) (d_arr _ _ _ _ _ _ I)) as H. rewrite app_length in H. simpl in *. lia.
  - destruct stack as [|b stack]; cbn [dfs].
    + exists L, s, []. simpl. rewrite app_nil_r. splits; auto.
      destruct I. constructor; auto.
      * intros k. rewrite d_pin0. unfold touches, seen. split; intros [(p & K & D)|[]]; left; exists p; rewrite ?PL in *; auto.
      * intros k. rewrite d_jin0. unfold jtouches, seen. split; intros [(p & K & D)|[]]; left; exists p; rewrite ?PL in *; auto.
      * intros x y. rewrite <- PL. eauto.
    + assert (Ab : In b arr) by (apply (d_arr _ _ _ _ _ _ I), in_or_app; right; now left).
      assert (NPb : ~ In b P).
      { rewrite PL. intros C. pose proof (d_nd _ _ _ _ _ _ I) as N. apply NoDup_remove_2 in N. apply N, in_or_app. auto. }
      destruct (add_body_DI _ _ _ _ _ I) as (s1 & R1 & I1 & C1). rewrite R1. cbn [bind].
      pose proof (same_comp_W _ _ _ _ _ _ Ww C1) as W1.
      destruct (wake_W en0 dis0 sl0 (A ++ L) b s1 W1 Ab) as (W2 & ext & X2).
      pose proof (DI_wake _ _ _ _ _ _ b I1) as I2.
      rewrite <- app_assoc in W2.
      set (s2 := wake g b s1) in *. assert (Ib : In b (L ++ [b])) by (apply in_or_app; right; now left).
      assert (PL' : forall x, In x (b :: P) <-> In x (L ++ [b])).
      { intros x. simpl. rewrite PL, in_app_iff. simpl. tauto. }
      assert (FL : (length arr <= fuel + length (L ++ [b]))%nat) by (rewrite app_length; simpl; lia).
      destruct (static b) eqn:Sb.
      * destruct (IH (b :: P) (L ++ [b]) stack (statics_of L ++ [b]) s2) as (L' & s' & e' & R & I' & W' & X'); auto.
        { apply DI_static; auto. }
        { unfold statics_of. rewrite filter_app. simpl. now rewrite Sb. }
        exists L', s', (ext ++ e'). splits; auto. rewrite X', X2, (proj1 C1). now rewrite app_assoc.
      * destruct (visit_pairs_ok (pairs_of_body g b) _ _ _ _ _ _ b I2 Ib NPb Sb) as (st3 & s3 & R3 & I3 & C3); [auto|].
        rewrite R3. cbn [bind]. rewrite app_nil_r in I3.
        destruct (visit_joints_ok (g_joints_of g b) _ _ _ _ _ _ b I3 Ib NPb Sb) as (st4 & s4 & R4 & I4 & C4); [auto|].
        rewrite R4. cbn [bind]. rewrite app_nil_r in I4.
        destruct (IH (b :: P) (L ++ [b]) st4 (statics_of L) s4) as (L' & s' & e' & R & I' & W' & X'); auto.
        { apply finish_body; auto. }
        { eapply same_comp_W; [|exact C4]. eapply same_comp_W; [|exact C3]. exact W2. }
        { unfold statics_of. rewrite filter_app. simpl. rewrite Sb. now rewrite app_nil_r. }
        exists L', s', (ext ++ e'). splits; auto.
        rewrite X', (proj1 C4), (proj1 C3), X2, (proj1 C1). now rewrite app_assoc.
Qed.
End Search.

(** * The loop over the bodies *)
Record good (i : island) : Prop := {
  gd_nd : NoDup (is_bodies i);
  gd_arr : forall x, In x (is_bodies i) -> In x arr;
  gd_chain : exists r, In r (is_bodies i) /\ static r = false /\ forall x, In x (is_bodies i) -> static x = false -> chain g r x;
  gd_closed : forall x y, In x (is_bodies i) -> static x = false -> linked g x y -> In y (is_bodies i);
  gd_static : forall x, In x (is_bodies i) -> static x = true -> exists y, In y (is_bodies i) /\ static y = false /\ linked g y x
}.
Definition apart (i i' : island) : Prop := forall x, In x (is_bodies i) -> In x (is_bodies i') -> static x = true.
Definition all_bodies (l : list island) : list Z := flat_map is_bodies l.
Definition visited (l : list island) : list Z := filter (fun x => negb (static x)) (all_bodies l).
Definition seg_of (i : island) (seg : list Z) : Prop :=
  NoDup seg /\ is_nman i = sumz (map (nman_of g) seg) /\ forall k, In k seg <-> contact_of g (is_bodies i) k.

Lemma visited_spec : forall l x, In x (visited l) <-> (exists i, In i l /\ In x (is_bodies i)) /\ static x = false.
Proof.
  intros. unfold visited, all_bodies. rewrite filter_In, in_flat_map, negb_true_iff. tauto.
Qed.

Section Loop.
Variables (en0 dis0 sl0 : list Z).
Hypothesis arr_def : arr = en0 ++ dis0.

Record OI (n : nat) (s : istate) : Prop := {
  o_good : Forall good (n_isl s);
  o_apart : ForallOrdPairs apart (n_isl s);
  o_root : forall i, In i (n_isl s) -> exists r, In r (is_bodies i) /\ static r = false /\ In r en0;
  o_in : forall x, In x (n_in s) <-> In x (visited (n_isl s));
  o_pin : forall k, In k (n_pin s) <-> touches (fun x => In x (visited (n_isl s))) k;
  o_jin : forall j, In j (n_jin s) <-> jtouches (fun x => In x (visited (n_isl s))) j;
  o_W : W en0 dis0 sl0 (all_bodies (n_isl s)) s;
  o_done : forall m x, (m < n)%nat -> nth_error (n_en s) m = Some x -> static x = false -> In x (n_in s);
  o_ord : exists segs, Forall2 seg_of (rev (n_isl s)) segs /\ n_order s = concat segs;
  o_tot : n_tot s = sumz (map is_nman (n_isl s));
  o_first : forall l1 i l2, n_isl s = l1 ++ i :: l2 -> is_first i = sumz (map is_nman l2);
  o_pre : exists ext, n_en s = en0 ++ ext
}.

Lemma W_ext : forall A B s, W en0 dis0 sl0 A s -> (forall x, In x A <-> In x B) -> W en0 dis0 sl0 B s.
Proof.
  intros A B s I E. destruct I. constructor; auto; intros x; rewrite <- E; auto.
Qed.
Lemma touches_ext : forall (A B : Z -> Prop) k, (forall x, A x <-> B x) -> (touches A k <-> touches B k).
Proof. intros A B k E. unfold touches. split; intros (p & K & D); exists p; rewrite ?E in *; auto; rewrite <- ?E in *; auto. Qed.
Lemma jtouches_ext : forall (A B : Z -> Prop) k, (forall x, A x <-> B x) -> (jtouches A k <-> jtouches B k).
Proof. intros A B k E. unfold jtouches. split; intros (p & K & D); exists p; rewrite ?E in *; auto; rewrite <- ?E in *; auto. Qed.

Lemma OI_skip : forall n s x, OI n s -> nth_error (n_en s) n = Some x -> (In x (n_in s) \/ static x = true) -> OI (S n) s.
Proof.
  intros n s x I E D. destruct I. constructor; auto.
  intros m y Hm Ey Sy. destruct (Nat.eq_dec m n) as [->|]; [|apply (o_done0 m); auto; lia].
  assert (y = x) by congruence. subst y. destruct D; [auto | congruence].
Qed.

Lemma OI_island : forall n s b, OI n s -> nth_error (n_en s) n = Some b -> ~ In b (n_in s) -> static b = false ->
  exists statics s', dfs g (length (n_en s) + length (n_dis s)) [b] [] (add_island (w_in (b :: n_in s) s)) = Ok (statics, s') /\
    OI (S n) (w_in (filter (fun x => negb (memb x statics)) (n_in s')) s').
Proof.
  intros n s b I E Nb Sb.
  set (V0 := visited (n_isl s)).
  assert (V0_ns : forall x, In x V0 -> static x = false) by (intros x Hx; apply visited_spec in Hx; tauto).
  assert (V0_closed : forall x y, In x V0 -> linked g x y -> static y = false -> In y V0).
  { intros x y Hx Lx Sy. apply visited_spec in Hx. destruct Hx as ((i & Ii & Xi) & Sx). apply visited_spec. split; auto.
    exists i. split; auto. pose proof (o_good _ _ I) as Gd. rewrite Forall_forall in Gd. eapply (gd_closed i); eauto. }
  assert (Iben : In b (n_en s)) by (eapply nth_error_In; eauto).
  assert (Iarr : In b arr) by (apply (w_arr _ _ _ _ _ (o_W _ _ I)); auto).
  assert (Nb0 : ~ In b V0) by (unfold V0; rewrite <- (o_in _ _ I); exact Nb).
  assert (D0 : DI V0 (n_isl s) (n_order s) (n_tot s) b [] [] [] [] [b] (add_island (w_in (b :: n_in s) s))).
  { constructor; simpl; auto; try tauto.
    - exists []. simpl. rewrite app_nil_r, Z.add_0_r. splits; auto; [constructor|]. intros k. rewrite (o_pin _ _ I). fold V0. tauto.
    - constructor; [tauto | constructor].
    - intros x [<-|[]]. auto.
    - intros x Hx [<-|[]]. auto.
    - intros x. rewrite (o_in _ _ I). fold V0. tauto.
    - intros k. rewrite (o_pin _ _ I). fold V0. rewrite (touches_ext (seen V0 []) (fun x => In x V0)); [tauto|]. intros; unfold seen; simpl; tauto.
    - intros k. rewrite (o_jin _ _ I). fold V0. rewrite (jtouches_ext (seen V0 []) (fun x => In x V0)); [tauto|]. intros; unfold seen; simpl; tauto.
    - intros x [<-|[]] _. constructor.
    - intros x [<-|[]]. congruence. }
  assert (W0 : W en0 dis0 sl0 (all_bodies (n_isl s) ++ []) (add_island (w_in (b :: n_in s) s))).
  { rewrite app_nil_r. eapply same_comp_W; [exact (o_W _ _ I) | repeat split]. }
  destruct (dfs_ok V0 (n_isl s) (n_order s) (n_tot s) b V0_closed en0 dis0 sl0 (all_bodies (n_isl s)) (length (n_en s) + length (n_dis s)) [] [] [b] []
              (add_island (w_in (b :: n_in s) s)) D0) as (L & s' & ext & R & I' & W' & X); auto; try tauto.
  { rewrite (w_len _ _ _ _ _ (o_W _ _ I)). rewrite arr_def, app_length. lia. }
  exists (statics_of L), s'. split; [exact R|].
  destruct (d_isl _ _ _ _ _ _ _ _ _ _ _ I') as (seg & A1 & A2 & A3 & A4 & A5).
  assert (Ln : forall x, In x (L ++ []) <-> In x L) by (intros; rewrite app_nil_r; tauto).
  set (i := mk_island (n_tot s) (sumz (map (nman_of g) seg)) L) in *.
  assert (VV : forall x, In x (visited (n_isl s')) <-> seen V0 L x).
  { intros x. rewrite A2, visited_spec. unfold seen, V0. rewrite visited_spec. split.
    - intros ((j & [<-|Hj] & Xj) & Sx); [right; auto | left; eauto].
    - intros [((j & Hj & Xj) & Sx)|(Hx & Sx)]; split; auto; [exists j | exists i]; simpl; auto. }
  assert (INV : forall x, In x (filter (fun x => negb (memb x (statics_of L))) (n_in s')) <-> In x (visited (n_isl s'))).
  { intros x. rewrite filter_In, negb_true_iff, memb_nin, VV, (d_in _ _ _ _ _ _ _ _ _ _ _ I'), Ln. unfold seen, statics_of. rewrite filter_In. split.
    - intros ([?|?] & C); [auto|]. right. split; auto. destruct (static x); [tauto | auto].
    - intros [Hx|(Hx & Sx)]; split; auto; intros (? & ?); [|congruence]. apply V0_ns in Hx. congruence. }
  assert (rootI : In b L) by (apply Ln, (d_root _ _ _ _ _ _ _ _ _ _ _ I')).
  destruct I. constructor; simpl n_isl; simpl n_in; simpl n_pin; simpl n_jin; simpl n_en; simpl n_order; simpl n_tot; auto.
  - rewrite A2. constructor; auto. constructor; simpl.
    + pose proof (d_nd _ _ _ _ _ _ _ _ _ _ _ I') as N. now rewrite app_nil_r in N.
    + intros x Hx. apply (d_arr _ _ _ _ _ _ _ _ _ _ _ I'), Ln. auto.
    + exists b. splits; auto. intros x Hx. apply (d_reach _ _ _ _ _ _ _ _ _ _ _ I'), Ln. auto.
    + intros x y Hx Sx Lx. apply Ln. eapply (d_closed _ _ _ _ _ _ _ _ _ _ _ I'); eauto.
    + intros x Hx Sx. apply (d_stat _ _ _ _ _ _ _ _ _ _ _ I'); auto. apply Ln; auto.
  - rewrite A2. constructor; auto. apply Forall_forall. intros j Hj x Hx Xj. simpl in Hx.
    destruct (static x) eqn:Sx; auto. exfalso. apply (d_v0 _ _ _ _ _ _ _ _ _ _ _ I' x); [|apply Ln; auto].
    apply visited_spec. eauto.
  - intros j. rewrite A2. intros [<-|Hj]; auto. exists b. splits; auto.
    pose proof (proj1 (w_enb _ _ _ _ _ o_W0 b) Iben) as D. destruct D as [D|(_ & D & _)]; auto. exfalso. apply Nb0. apply visited_spec.
    split; auto. unfold all_bodies in D. rewrite in_flat_map in D. exact D.
  - intros k. rewrite (d_pin _ _ _ _ _ _ _ _ _ _ _ I'). simpl. rewrite (touches_ext (fun x => In x (visited (n_isl s'))) (seen V0 L)); [tauto | exact VV].
  - intros k. rewrite (d_jin _ _ _ _ _ _ _ _ _ _ _ I'). simpl. rewrite (jtouches_ext (fun x => In x (visited (n_isl s'))) (seen V0 L)); [tauto | exact VV].
  - eapply same_comp_W with (s := s'); [|repeat split]. eapply W_ext; [exact W'|]. intros x. rewrite A2. simpl. rewrite !in_app_iff. tauto.
  - intros m x Hm Ex Sx. apply INV. rewrite X in Ex. simpl n_en in Ex. rewrite VV. destruct (Nat.eq_dec m n) as [->|D].
    + rewrite nth_error_app1 in Ex by (apply nth_error_Some; congruence). assert (x = b) by congruence. subst x. right. auto.
    + assert (Lt : (m < length (n_en s))%nat). { assert (n < length (n_en s))%nat by (apply nth_error_Some; congruence). lia. }
      rewrite nth_error_app1 in Ex by auto. left. unfold V0. apply o_in0. apply (o_done0 m); auto. lia.
  - destruct o_ord0 as (segs & F & Es). exists (segs ++ [seg]). rewrite A2. simpl. split.
    + apply Forall2_app; auto. constructor; [|constructor]. split; [auto|]. split; [reflexivity|]. intros k. rewrite A5, (d_pin _ _ _ _ _ _ _ _ _ _ _ I'). simpl is_bodies. split.
      * intros ([(p & K & D)|[]] & (q & Kq & Sq) & Nt). rewrite (pair_at_fun _ _ _ Kq K) in *.
        exists p. splits; auto. unfold seen in D. destruct D as [[D|D]|[D|D]]; auto; destruct Nt; exists p; auto.
      * intros (p & K & Sp & D). splits; eauto.
        { left. exists p. split; auto. unfold seen. destruct D as [D|D]; auto. }
        { intros T. destruct D as [(D & Ds)|(D & Ds)].
          - apply (d_v0 _ _ _ _ _ _ _ _ _ _ _ I' (cp_b1 p)); [|apply Ln; auto]. eapply touches_V0_pair; eauto.
          - apply (d_v0 _ _ _ _ _ _ _ _ _ _ _ I' (cp_b2 p)); [|apply Ln; auto]. eapply touches_V0_pair; eauto. }
    + rewrite A1, Es, concat_app. simpl. now rewrite app_nil_r.
  - rewrite A3, A2. simpl. unfold sumz in *. simpl. lia.
  - intros l1 j l2. rewrite A2. destruct l1 as [|j' l1]; simpl; intros Ej; injection Ej as E1 E2.
    + subst j l2. simpl. exact o_tot0.
    + eapply o_first0; eauto.
  - destruct o_pre0 as (e0 & Xe). exists (e0 ++ ext). rewrite X. simpl. rewrite Xe. now rewrite app_assoc.
Qed.

Lemma island_loop_ok : forall fuel n s, OI n s -> (length arr <= fuel + n)%nat ->
  exists s' m, island_loop g fuel n s = Ok s' /\ OI m s' /\ nth_error (n_en s') m = None.
Proof.
  induction fuel as [|fuel IH]; intros n s I F; cbn [island_loop].
  - destruct (nth_error (n_en s) n) eqn:E.
    + exfalso. assert (n < length (n_en s))%nat by (apply nth_error_Some; congruence).
      pose proof (w_len _ _ _ _ _ (o_W _ _ I)). rewrite arr_def, app_length in F. lia.
    + exists s, n. auto.
  - destruct (nth_error (n_en s) n) as [b|] eqn:E; [|exists s, n; auto].
    destruct (memb_spec b (n_in s)) as [(M & Ib)|(M & Ib)]; rewrite M.
    + apply IH; [|lia]. eapply OI_skip; eauto.
    + destruct (static b) eqn:Sb.
      * apply IH; [|lia]. eapply OI_skip; eauto.
      * destruct (OI_island n s b I E Ib Sb) as (st & s' & R & I'). cbn zeta.
        change (n_en (add_island (w_in (b :: n_in s) s))) with (n_en s). change (n_dis (add_island (w_in (b :: n_in s) s))) with (n_dis s).
        rewrite R. cbn [bind]. apply IH; auto. lia.
Qed.

Lemma create_islands_ok : exists s m, create_islands g en0 dis0 sl0 = Ok s /\ OI m s /\ nth_error (n_en s) m = None.
Proof.
  unfold create_islands. apply island_loop_ok.
  - constructor; simpl; try tauto; try constructor; auto; simpl; auto; try tauto.
    + intros (p & _ & D). simpl in D. tauto.
    + intros (p & _ & D). simpl in D. tauto.
    + intros x. rewrite arr_def. apply in_app_iff.
    + now rewrite <- arr_def.
    + intros; lia.
    + exists []. split; [constructor | reflexivity].
    + intros l1 i l2 H; destruct l1; discriminate.
    + exists []. now rewrite app_nil_r.
  - rewrite arr_def, app_length. lia.
Qed.
End Loop.
End Proofs.
