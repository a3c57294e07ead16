(** Theorems about the islands built by an update (C25). *)
From Verif Require Import Base IslandModel IslandSpec IslandProofs.
Open Scope Z_scope.

(** The islands in the order in which they were created. *)
Definition islands (s : istate) : list island := rev (n_isl s).

(** [en]: the bodies that take part in the update, [dis]: the sleeping and the inactive bodies,
    [sleeping]: the bodies that sleep. *)
Definition world_ok (g : graph) (en dis sleeping : list Z) : Prop :=
  NoDup (en ++ dis) /\ graph_ok g (en ++ dis) /\
  (forall x, In x en <-> In x (en ++ dis) /\ g_active g x = true /\ ~ In x sleeping).

Section Theorems.
Variables (g : graph) (en dis sleeping : list Z).
Hypothesis H : world_ok g en dis sleeping.

Lemma inv_of : forall s, create_islands g en dis sleeping = Ok s -> exists m, OI g (en ++ dis) en dis sleeping m s /\ nth_error (n_en s) m = None.
Proof.
  intros s E. destruct H as (N & G & _).
  destruct (create_islands_ok g (en ++ dis) G N en dis sleeping eq_refl) as (s' & m & E' & I & Z).
  assert (s' = s) by congruence. subst. eauto.
Qed.

Lemma good_of : forall s i, create_islands g en dis sleeping = Ok s -> In i (islands s) -> good g (en ++ dis) i.
Proof.
  intros s i E Ii. destruct (inv_of s E) as (m & I & _). apply in_rev in Ii.
  pose proof (o_good _ _ _ _ _ _ _ I) as F. rewrite Forall_forall in F. auto.
Qed.

Lemma chain_trans : forall x y z, chain g x y -> chain g y z -> chain g x z.
Proof. intros x y z A B. induction B; auto. eapply chain_step; eauto. Qed.
Lemma chain_sym : forall x y, g_static g x = false -> chain g x y -> chain g y x.
Proof.
  intros x y Sx C. induction C; [constructor|].
  eapply chain_trans; [|exact IHC]. eapply chain_step; [constructor | apply linked_sym; eauto |].
  destruct C; auto.
Qed.

(** Building the islands always succeeds. *)
Theorem C25_islands_built : exists s, create_islands g en dis sleeping = Ok s.
Proof.
  destruct H as (N & G & _).
  destruct (create_islands_ok g (en ++ dis) G N en dis sleeping eq_refl) as (s' & m & E' & I & Z). eauto.
Qed.

Lemma one_island : forall s a b i j x, create_islands g en dis sleeping = Ok s -> nth_error (islands s) a = Some i -> nth_error (islands s) b = Some j ->
  In x (is_bodies i) -> In x (is_bodies j) -> g_static g x = false -> a = b.
Proof.
  intros s a b i j x E A B X Y Sx. destruct (inv_of s E) as (m & I & _).
  pose proof (o_apart _ _ _ _ _ _ _ I) as P. unfold islands in *.
  assert (Q : forall l, ForallOrdPairs (apart g) l -> forall a b i j, (a < b)%nat -> nth_error l a = Some i -> nth_error l b = Some j ->
                In x (is_bodies i) -> In x (is_bodies j) -> False).
  { clear - Sx. induction l as [|h l IH]; intros F a b i j L A B X Y; [destruct a; discriminate|].
    inversion F; subst. destruct b; [lia|]. simpl in B. destruct a.
    - simpl in A. injection A as <-. rewrite Forall_forall in H1. apply nth_error_In in B. pose proof (H1 j B x X Y). congruence.
    - simpl in A. eapply (IH H2 a b); eauto. lia. }
  assert (RV : forall k i0, nth_error (rev (n_isl s)) k = Some i0 -> (k < length (n_isl s))%nat /\ nth_error (n_isl s) (length (n_isl s) - S k) = Some i0).
  { intros k i0 K. assert (k < length (n_isl s))%nat by (rewrite <- rev_length; apply nth_error_Some; congruence). split; auto.
    rewrite <- K. rewrite (nth_error_nth' _ i0) by lia. rewrite (nth_error_nth' (rev _) i0) by (rewrite rev_length; lia).
    rewrite rev_nth by lia. reflexivity. }
  destruct (RV a i A) as (La & A'). destruct (RV b j B) as (Lb & B').
  destruct (lt_eq_lt_dec a b) as [[L|L]|L]; auto; exfalso.
  - eapply (Q _ P (length (n_isl s) - S b)%nat (length (n_isl s) - S a)%nat j i); eauto. lia.
  - eapply (Q _ P (length (n_isl s) - S a)%nat (length (n_isl s) - S b)%nat i j); eauto. lia.
Qed.

(** Each body that takes part in the update and is not static belongs to exactly one island, once. *)
Theorem C25_exactly_one_island : forall s x, create_islands g en dis sleeping = Ok s -> In x en -> g_static g x = false ->
  exists a i, nth_error (islands s) a = Some i /\ In x (is_bodies i) /\ NoDup (is_bodies i) /\
    forall b j, nth_error (islands s) b = Some j -> In x (is_bodies j) -> b = a.
Proof.
  intros s x E X Sx. destruct (inv_of s E) as (m & I & Nm).
  destruct (o_pre _ _ _ _ _ _ _ I) as (ext & Xe).
  assert (In x (n_in s)) as V.
  { apply In_nth_error in X. destruct X as (k & Xk).
    assert (Kl : (k < length en)%nat) by (apply nth_error_Some; congruence).
    apply nth_error_None in Nm. rewrite Xe, app_length in Nm.
    apply (o_done _ _ _ _ _ _ _ I k); [lia | | auto]. rewrite Xe, nth_error_app1; auto. }
  apply (o_in _ _ _ _ _ _ _ I) in V. apply visited_spec in V. destruct V as ((i & Ii & Xi) & _).
  assert (Ii' : In i (islands s)) by (apply in_rev in Ii; exact Ii).
  destruct (In_nth_error _ _ Ii') as (a & Ea). exists a, i. splits; auto.
  - apply (gd_nd _ _ _ (good_of s i E Ii')).
  - intros b j Eb Xj. eapply one_island; eauto.
Qed.

(** Two bodies that are not static are in the same island exactly when they are linked by a chain of
    contacts and joints through bodies that are not static. *)
Theorem C25_same_island_iff_chain : forall s i x y, create_islands g en dis sleeping = Ok s -> In i (islands s) -> In x (is_bodies i) ->
  g_static g x = false -> g_static g y = false -> (In y (is_bodies i) <-> chain g x y).
Proof.
  intros s i x y E Ii X Sx Sy. pose proof (good_of s i E Ii) as Gd.
  destruct (gd_chain _ _ _ Gd) as (r & Ir & Sr & C). split.
  - intros Y. eapply chain_trans; [apply chain_sym; [exact Sr | apply C; auto] | apply C; auto].
  - intros K. clear Sy. induction K as [|y z K IH L Sz]; auto.
    eapply (gd_closed _ _ _ Gd); [exact IH | | exact L]. destruct K; auto.
Qed.

(** The bodies of the islands are those linked to a body that takes part in the update. *)
Theorem C25_members : forall s x, create_islands g en dis sleeping = Ok s -> g_static g x = false ->
  ((exists i, In i (islands s) /\ In x (is_bodies i)) <-> exists y, In y en /\ g_static g y = false /\ chain g y x).
Proof.
  intros s x E Sx. destruct (inv_of s E) as (m & I & Nm). split.
  - intros (i & Ii & X). assert (In i (n_isl s)) as Ii' by (apply in_rev; auto).
    destruct (o_root _ _ _ _ _ _ _ I i Ii') as (r & R & Sr & Re). exists r. splits; auto.
    eapply C25_same_island_iff_chain; eauto.
  - intros (y & Y & Sy & C). destruct (C25_exactly_one_island s y E Y Sy) as (a & i & Ea & Yi & _).
    exists i. split; [eapply nth_error_In; eauto|]. eapply C25_same_island_iff_chain; eauto. eapply nth_error_In; eauto.
Qed.

(** A static body is in an island exactly when it touches, or is joined to, one of its other bodies; it
    joins no two islands. *)
Theorem C25_static_members : forall s i z, create_islands g en dis sleeping = Ok s -> In i (islands s) -> g_static g z = true ->
  (In z (is_bodies i) <-> exists x, In x (is_bodies i) /\ g_static g x = false /\ linked g x z).
Proof.
  intros s i z E Ii Sz. pose proof (good_of s i E Ii) as Gd. split.
  - intros Z. apply (gd_static _ _ _ Gd); auto.
  - intros (x & X & Sx & L). eapply (gd_closed _ _ _ Gd); eauto.
Qed.

Lemma firsts : forall s a i, create_islands g en dis sleeping = Ok s -> nth_error (islands s) a = Some i ->
  is_first i = sumz (map is_nman (firstn a (islands s))).
Proof.
  intros s a i E A. destruct (inv_of s E) as (m & I & _). unfold islands in *.
  destruct (nth_error_split _ _ A) as (l1 & l2 & El & <-).
  rewrite El, firstn_app, Nat.sub_diag, firstn_all. simpl. rewrite app_nil_r.
  rewrite (o_first _ _ _ _ _ _ _ I (rev l2) i (rev l1)).
  - rewrite map_rev. generalize (map is_nman l1). clear. intros l.
    assert (Q : forall l acc, fold_right Z.add acc l = sumz l + acc) by (induction l0; intros; unfold sumz in *; simpl; [lia | rewrite IHl0; lia]).
    induction l as [|a l IH]; [reflexivity|]. simpl rev. unfold sumz in *. rewrite fold_right_app. simpl fold_right at 2.
    rewrite Q. rewrite IH. unfold sumz. simpl. lia.
  - rewrite <- (rev_involutive (n_isl s)), El, rev_app_distr. simpl. now rewrite <- app_assoc.
Qed.

(** The contacts to solve are listed island after island: the part of each island lists the contacts of
    its bodies that are not static, each once, and the range of manifolds of an island starts after
    those of the islands before it. *)
Theorem C25_contacts_grouped : forall s, create_islands g en dis sleeping = Ok s ->
  exists parts, n_order s = concat parts /\
    Forall2 (fun i part => NoDup part /\ is_nman i = sumz (map (nman_of g) part) /\
                           forall k, In k part <-> contact_of g (is_bodies i) k) (islands s) parts /\
    forall a i, nth_error (islands s) a = Some i -> is_first i = sumz (map is_nman (firstn a (islands s))).
Proof.
  intros s E. destruct (inv_of s E) as (m & I & _). destruct (o_ord _ _ _ _ _ _ _ I) as (segs & F & O).
  exists segs. splits; auto. intros. eapply firsts; eauto.
Qed.

(** No contact is solved twice. *)
Theorem C25_contacts_once : forall s, create_islands g en dis sleeping = Ok s ->
  NoDup (n_order s) /\ forall k, In k (n_order s) <-> exists i, In i (islands s) /\ contact_of g (is_bodies i) k.
Proof.
  intros s E. destruct (C25_contacts_grouped s E) as (parts & O & F & _).
  assert (OI := fun a b i j x => one_island s a b i j x E).
  assert (SP : forall i, In i (islands s) -> good g (en ++ dis) i) by (intros; eapply good_of; eauto).
  rewrite O. clear O E. revert OI SP F. generalize (islands s). intros l OI SP F.
  induction F as [|i part l parts (N & _ & Hk) F IH].
  - simpl. split; [constructor|]. intros k. split; [tauto | intros (i & [] & _)].
  - destruct IH as (N2 & M2).
    + intros a b i0 j x A B X Y Sx. apply (f_equal pred) with (x := S a) (y := S b). eapply (OI (S a) (S b)); eauto.
    + intros; apply SP; now right.
    + simpl. split.
      * assert (D : forall k, In k part -> ~ In k (concat parts)).
        { intros k K1 K2. apply Hk in K1. apply M2 in K2. destruct K2 as (j & Jl & K2).
          destruct K1 as (p & P1 & S1 & D1). destruct K2 as (q & P2 & _ & D2). rewrite (pair_at_fun g _ _ _ P2 P1) in D2.
          destruct (In_nth_error _ _ Jl) as (b & B).
          assert (Lk : linked g (cp_b1 p) (cp_b2 p)) by (left; exists k, p; unfold ends; auto).
          assert (exists x, In x (is_bodies i) /\ In x (is_bodies j) /\ g_static g x = false) as (x & X & Y & Sx).
          { assert (Gi := SP i (or_introl eq_refl)). assert (Gj := SP j (or_intror Jl)).
            destruct D1 as [(X & Sx)|(X & Sx)], D2 as [(Y & Sy)|(Y & Sy)].
            - exists (cp_b1 p). auto.
            - exists (cp_b2 p). splits; auto. eapply (gd_closed _ _ _ Gi); eauto.
            - exists (cp_b1 p). splits; auto. eapply (gd_closed _ _ _ Gi); [exact X | exact Sx | apply linked_sym; auto].
            - exists (cp_b2 p). auto. }
          assert (0%nat = S b) by (apply (OI 0%nat (S b) i j x); auto). discriminate. }
        clear - N N2 D. induction part as [|k part IH]; simpl; auto. inversion N; subst. constructor.
        { rewrite in_app_iff. intros [C|C]; [contradiction | apply (D k); simpl; auto]. }
        { apply IH; auto. intros k' K'. apply D. now right. }
      * intros k. rewrite in_app_iff, Hk, M2. split.
        { intros [C|(j & J & C)]; [exists i | exists j]; simpl; auto. }
        { intros (j & [<-|J] & C); eauto. }
Qed.

(** After the islands are built the active bodies of the islands that are not static are awake and take
    part in the update; no other body is woken up. *)
Theorem C25_members_awake : forall s x, create_islands g en dis sleeping = Ok s ->
  (In x (n_sleep s) <-> In x sleeping /\ ~ ((exists i, In i (islands s) /\ In x (is_bodies i)) /\ g_static g x = false /\ g_active g x = true)) /\
  (In x (n_en s) <-> In x (en ++ dis) /\ g_active g x = true /\ ~ In x (n_sleep s)).
Proof.
  intros s x E. destruct (inv_of s E) as (m & I & _). pose proof (o_W _ _ _ _ _ _ _ I) as Ww.
  assert (A : In x (all_bodies (n_isl s)) <-> exists i, In i (islands s) /\ In x (is_bodies i)).
  { unfold all_bodies, islands. rewrite in_flat_map. split; intros (i & Ii & X); exists i; (split; [apply in_rev; rewrite ?rev_involutive|]); auto. }
  assert (S1 : In x (n_sleep s) <-> In x sleeping /\ ~ ((exists i, In i (islands s) /\ In x (is_bodies i)) /\ g_static g x = false /\ g_active g x = true)).
  { rewrite (w_slp _ _ _ _ _ _ _ Ww), A. tauto. }
  split; auto. destruct H as (N & G & En). rewrite (w_enb _ _ _ _ _ _ _ Ww), En, S1, A.
  assert (Mem : (exists i, In i (islands s) /\ In x (is_bodies i)) -> In x (en ++ dis)).
  { intros (i & Ii & X). apply (gd_arr _ _ _ (good_of s i E Ii)); auto. }
  split.
  - intros [(B1 & B2 & B3)|(B1 & B2 & B3 & B4)]; splits; auto; tauto.
  - intros (B1 & B2 & B3). destruct (memb_spec x sleeping) as [(_ & C)|(_ & C)]; [|tauto]. right.
    destruct (memb_spec x (all_bodies (n_isl s))) as [(_ & D)|(_ & D)]; rewrite A in D; [|tauto].
    destruct (g_static g x); splits; auto. exfalso. apply B3. split; auto. intuition discriminate.
Qed.
End Theorems.

(** A world with two islands that touch one static body: bodies 1-2-3 linked by a contact and a joint
    (3 sleeps), body 4 alone on the static body 0, body 5 inactive, body 6 asleep. *)
Definition ex_graph : graph :=
  mk_graph (fun x => x =? 0) (fun x => negb (x =? 5)) (fun _ => true)
    [mk_cpair 1 2 true 1; mk_cpair 0 1 true 2; mk_cpair 0 4 true 1; mk_cpair 1 4 false 3]
    (fun j => if j =? 9 then Some (mk_jpair 3 2) else None)
    (fun b => if (b =? 2) || (b =? 3) then [9] else []).
Example C25_world : world_ok ex_graph [0; 1; 2; 4] [5; 6; 3] [3; 6].
Proof.
  split; [|split; [constructor|]].
  - repeat constructor; simpl; intuition discriminate.
  - intros k p (Hk & E). simpl in E. destruct (Z.to_nat k) as [|[|[|[|n]]]]; simpl in E; try (injection E as <-; simpl; splits; auto 10; discriminate). destruct n; discriminate.
  - intros; split; reflexivity.
  - intros j p E. simpl in E. destruct (j =? 9); [|discriminate]. injection E as <-. simpl. splits; auto 10. discriminate.
  - intros b j. simpl. split.
    + destruct (Z.eqb_spec b 2) as [->|]; [|destruct (Z.eqb_spec b 3) as [->|]]; simpl; intros Q; try tauto; destruct Q as [<-|[]]; exists (mk_jpair 3 2); simpl; auto.
    + intros (p & E & D). destruct (Z.eqb_spec j 9) as [->|]; [|discriminate]. injection E as <-. simpl in D.
      destruct D as [<-|<-]; simpl; auto.
  - intros x. simpl. split.
    + intros [<-|[<-|[<-|[<-|[]]]]]; splits; auto 10; intuition discriminate.
    + intros ([<-|[<-|[<-|[<-|[<-|[<-|[<-|[]]]]]]]] & A & B); auto 10; simpl in *; try discriminate; exfalso; apply B; auto.
Qed.
Example C25_islands : exists s, create_islands ex_graph [0; 1; 2; 4] [5; 6; 3] [3; 6] = Ok s /\
  islands s = [mk_island 0 3 [1; 0; 2; 3]; mk_island 3 1 [4; 0]] /\ n_en s = [0; 1; 2; 4; 3] /\ n_sleep s = [6].
Proof. eexists. vm_compute. splits; reflexivity. Qed.

Print Assumptions C25_exactly_one_island.
Print Assumptions C25_same_island_iff_chain.
Print Assumptions C25_members.
Print Assumptions C25_static_members.
Print Assumptions C25_contacts_grouped.
Print Assumptions C25_contacts_once.
Print Assumptions C25_members_awake.
Print Assumptions C25_islands_built.
