(** Proofs about the half-edge structure. *)
From Verif Require Import Base HalfEdgeModel HalfEdgeSpec.

Lemma vpair_eqb_spec : forall a b, reflect (a = b) (vpair_eqb a b).
Proof.
  intros [a b] [c d]. unfold vpair_eqb. cbn.
  destruct (Nat.eqb_spec a c) as [E|E]; destruct (Nat.eqb_spec b d) as [F|F]; cbn; constructor; congruence.
Qed.
Lemma rev_rev : forall k, rev_edge (rev_edge k) = k. Proof. intros [a b]; reflexivity. Qed.

Lemma wr_ok : forall A (l : list A) i a, i < length l -> exists l', wr l i a = Ok l' /\ length l' = length l /\
  nth_error l' i = Some a /\ forall j, j <> i -> nth_error l' j = nth_error l j.
Proof.
  intros A l. induction l as [|x l IH]; intros i a H; cbn in H; [lia|].
  destruct i as [|i]; cbn.
  - exists (a :: l). repeat (split; [reflexivity|]). intros [|j] D; [congruence|reflexivity].
  - destruct (IH i a) as [l' [E [L [N O]]]]; [lia|]. rewrite E. cbn. exists (x :: l').
    split; [reflexivity|]. split; [cbn; lia|]. split; [exact N|].
    intros [|j] D; [reflexivity|]. cbn. apply O. lia.
Qed.

(** ** The invariant over the directed edges visited so far, each with its face *)
Record inv (nv : nat) (P : list (nat * vpair)) (s : hstate) : Prop := mk_inv {
  i_map : forall k e, h_map s k = Some e -> In (e_face e, k) P /\ e_vertex e = fst k;
  i_dom : forall f k, In (f, k) P -> h_map s k <> None;
  i_key : forall i, i < length (h_edges s) -> exists k e j, h_key s i = Some k /\ h_index s k = Some i /\
    nth_error (h_edges s) i = Some e /\ e_vertex e = fst k /\ In (e_face e, k) P /\ e_twin e = Some j /\
    h_index s (rev_edge k) = Some j;
  i_over : forall i, length (h_edges s) <= i -> h_key s i = None;
  i_index : forall k i, h_index s k = Some i -> h_key s i = Some k /\ In k (map snd P);
  i_match : forall k, In k (map snd P) -> In (rev_edge k) (map snd P) -> h_index s k <> None;
  i_vlen : length (h_verts s) = nv;
  i_verts : forall k i, In k (map snd P) -> In (rev_edge k) (map snd P) -> nth_error (h_verts s) (fst k) = Some i ->
    exists k', h_key s i = Some k' /\ fst k' = fst k;
  i_face : forall f k, h_facekey s f = Some k -> In (f, k) P;
  i_hasface : forall f k, In (f, k) P -> h_facekey s f <> None
}.

Lemma inv_init : forall nv, inv nv [] (init_hstate nv).
Proof.
  intros nv. constructor; cbn; try discriminate; try easy; intros; try lia; try contradiction.
  apply repeat_length.
Qed.

Lemma in_snoc : forall A (l : list A) x y, In y (l ++ [x]) <-> In y l \/ y = x.
Proof. intros. rewrite in_app_iff. cbn. intuition congruence. Qed.
Lemma in_snoc_snd : forall (l : list (nat * vpair)) f k y, In y (map snd (l ++ [(f, k)])) <-> In y (map snd l) \/ y = k.
Proof. intros. rewrite map_app. cbn. apply in_snoc. Qed.

Lemma visit_edge_ok : forall nv P s f v1 v2, inv nv P s -> ~ In (v1, v2) (map snd P) -> v1 <> v2 -> v1 < nv -> v2 < nv ->
  exists s', visit_edge f v1 v2 s = Ok s' /\ inv nv (P ++ [(f, (v1, v2))]) s' /\ h_nextkey s' = h_nextkey s.
Proof.
  intros nv P s f v1 v2 I N D L1 L2. unfold visit_edge, madd.
  assert (F : h_map s (v1, v2) = None).
  { destruct (h_map s (v1, v2)) eqn:E; [|reflexivity]. destruct (i_map _ _ _ I _ _ E) as [Q _].
    exfalso. apply N. apply in_map_iff. exists (e_face e, (v1, v2)). split; [reflexivity|exact Q]. }
  assert (FI : forall k, ~ In k (map snd P) -> h_index s k = None).
  { intros k Hk. destruct (h_index s k) eqn:E; [|reflexivity]. destruct (i_index _ _ _ I _ _ E) as [_ Q]. contradiction. }
  assert (FR : h_index s (v2, v1) = None).
  { destruct (h_index s (v2, v1)) eqn:E; [|reflexivity].
    destruct (i_index _ _ _ I _ _ E) as [K Q].
    assert (n < length (h_edges s)) as Ln.
    { destruct (le_lt_dec (length (h_edges s)) n) as [G|G]; [|exact G]. rewrite (i_over _ _ _ I _ G) in K. discriminate. }
    destruct (i_key _ _ _ I _ Ln) as [k [e [j [K1 [K2 [K3 [K4 [K5 [K6 K7]]]]]]]]].
    rewrite K in K1. injection K1 as <-. destruct (i_index _ _ _ I _ _ K7) as [_ Q2]. cbn in Q2. contradiction. }
  rewrite F. cbn [bind]. cbn beta.
  destruct (vpair_eqb_spec (v1, v2) (v2, v1)) as [E|_]; [injection E; congruence|].
  destruct (h_map s (v2, v1)) as [e'|] eqn:R.
  - (* the reversed edge is there *)
    destruct (i_map _ _ _ I _ _ R) as [R1 R2]. cbn in R2.
    assert (R3 : In (v2, v1) (map snd P)) by (apply in_map_iff; exists (e_face e', (v2, v1)); split; [reflexivity|exact R1]).
    rewrite (i_over _ _ _ I (length (h_edges s))) by lia. cbn [bind].
    destruct (Nat.eqb_spec (length (h_edges s)) (S (length (h_edges s)))) as [X|_]; [lia|].
    rewrite (i_over _ _ _ I (S (length (h_edges s)))) by lia. cbn [bind].
    destruct (wr_ok _ (h_verts s) v1 (S (length (h_edges s)))) as [w1 [W1 [W1l [W1n W1o]]]]; [rewrite (i_vlen _ _ _ I); exact L1|].
    rewrite W1. cbn [bind].
    destruct (wr_ok _ w1 v2 (length (h_edges s))) as [w2 [W2 [W2l [W2n W2o]]]]; [rewrite W1l, (i_vlen _ _ _ I); exact L2|].
    rewrite W2. cbn [bind].
    rewrite (FI _ N). cbn [bind].
    destruct (vpair_eqb_spec (v1, v2) (v2, v1)) as [E|_]; [injection E; congruence|].
    rewrite FR. cbn [bind].
    eexists. split; [reflexivity|]. split; [|reflexivity].
    set (L := length (h_edges s)) in *.
    constructor; cbn [h_map h_nextkey h_index h_key h_facekey h_edges h_verts].
    + intros k e. unfold mput. destruct (vpair_eqb_spec (v2, v1) k) as [<-|X1].
      * intros Q. injection Q as <-. cbn. split; [apply in_snoc; left; exact R1|exact R2].
      * destruct (vpair_eqb_spec (v1, v2) k) as [<-|X2].
        -- intros Q. injection Q as <-. cbn. split; [apply in_snoc; right; reflexivity|reflexivity].
        -- intros Q. destruct (i_map _ _ _ I _ _ Q) as [Q1 Q2]. split; [apply in_snoc; left; exact Q1|exact Q2].
    + intros g k Q. unfold mput. destruct (vpair_eqb_spec (v2, v1) k) as [<-|X1]; [discriminate|].
      destruct (vpair_eqb_spec (v1, v2) k) as [<-|X2]; [discriminate|].
      apply in_snoc in Q. destruct Q as [Q|Q]; [exact (i_dom _ _ _ I _ _ Q)|]. injection Q as _ Q. congruence.
    + intros i Hi. rewrite app_length in Hi. cbn in Hi. fold L in Hi.
      assert (C : i < L \/ i = L \/ i = S L) by lia. destruct C as [C|[->| ->]].
      * destruct (i_key _ _ _ I i C) as [k [e [j [K1 [K2 [K3 [K4 [K5 [K6 K7]]]]]]]]].
        exists k, e, j.
        destruct (Nat.eqb_spec (S L) i) as [X|_]; [lia|]. destruct (Nat.eqb_spec L i) as [X|_]; [lia|].
        assert (Y1 : k <> (v2, v1)) by congruence.
        assert (Y2 : k <> (v1, v2)) by (intros ->; rewrite (FI _ N) in K2; discriminate).
        assert (Y3 : rev_edge k <> (v2, v1)) by congruence.
        assert (Y4 : rev_edge k <> (v1, v2)) by (intros Y; rewrite Y, (FI _ N) in K7; discriminate).
        destruct (vpair_eqb_spec (v2, v1) k) as [Y|_]; [congruence|].
        destruct (vpair_eqb_spec (v1, v2) k) as [Y|_]; [congruence|].
        destruct (vpair_eqb_spec (v2, v1) (rev_edge k)) as [Y|_]; [congruence|].
        destruct (vpair_eqb_spec (v1, v2) (rev_edge k)) as [Y|_]; [congruence|].
        rewrite nth_error_app1 by exact C.
        split; [exact K1|]. split; [exact K2|]. split; [exact K3|]. split; [exact K4|].
        split; [apply in_snoc; left; exact K5|]. split; [exact K6|exact K7].
      * exists (v2, v1), (mk_edge (e_vertex e') (Some (S L)) (e_face e') (e_next e')), (S L).
        destruct (Nat.eqb_spec (S L) L) as [X|_]; [lia|]. rewrite Nat.eqb_refl.
        destruct (vpair_eqb_spec (v2, v1) (v2, v1)) as [_|Y]; [|congruence].
        split; [reflexivity|]. split; [reflexivity|].
        rewrite nth_error_app2 by (fold L; lia). fold L. rewrite Nat.sub_diag.
        split; [reflexivity|]. split; [exact R2|]. split; [apply in_snoc; left; exact R1|]. split; [reflexivity|].
        unfold rev_edge. cbn [fst snd].
        destruct (vpair_eqb_spec (v2, v1) (v1, v2)) as [Y|_]; [injection Y; congruence|].
        destruct (vpair_eqb_spec (v1, v2) (v1, v2)) as [_|Y]; [reflexivity|congruence].
      * exists (v1, v2), (mk_edge v1 (Some L) f None), L.
        rewrite Nat.eqb_refl.
        destruct (vpair_eqb_spec (v2, v1) (v1, v2)) as [Y|_]; [injection Y; congruence|].
        destruct (vpair_eqb_spec (v1, v2) (v1, v2)) as [_|Y]; [|congruence].
        split; [reflexivity|]. split; [reflexivity|].
        rewrite nth_error_app2 by (fold L; lia). fold L. replace (S L - L) with 1 by lia.
        split; [reflexivity|]. split; [reflexivity|]. split; [apply in_snoc; right; reflexivity|]. split; [reflexivity|].
        unfold rev_edge. cbn [fst snd].
        destruct (vpair_eqb_spec (v2, v1) (v2, v1)) as [_|Y]; [reflexivity|congruence].
    + intros i Hi. rewrite app_length in Hi. cbn in Hi. fold L in Hi.
      destruct (Nat.eqb_spec (S L) i) as [X|_]; [lia|]. destruct (Nat.eqb_spec L i) as [X|_]; [lia|].
      apply (i_over _ _ _ I). fold L. lia.
    + intros k i. destruct (vpair_eqb_spec (v2, v1) k) as [<-|X1].
      * intros Q. injection Q as <-. destruct (Nat.eqb_spec (S L) L) as [X|_]; [lia|]. rewrite Nat.eqb_refl.
        split; [reflexivity|]. apply in_snoc_snd. left; exact R3.
      * destruct (vpair_eqb_spec (v1, v2) k) as [<-|X2].
        -- intros Q. injection Q as <-. rewrite Nat.eqb_refl. split; [reflexivity|]. apply in_snoc_snd. right; reflexivity.
        -- intros Q. destruct (i_index _ _ _ I _ _ Q) as [Q1 Q2].
           assert (i < L).
           { destruct (le_lt_dec L i) as [G|G]; [|exact G]. rewrite (i_over _ _ _ I _ G) in Q1. discriminate. }
           destruct (Nat.eqb_spec (S L) i) as [X|_]; [lia|]. destruct (Nat.eqb_spec L i) as [X|_]; [lia|].
           split; [exact Q1|]. apply in_snoc_snd. left; exact Q2.
    + intros k Q1 Q2. destruct (vpair_eqb_spec (v2, v1) k) as [<-|X1]; [discriminate|].
      destruct (vpair_eqb_spec (v1, v2) k) as [<-|X2]; [discriminate|].
      apply in_snoc_snd in Q1. apply in_snoc_snd in Q2.
      destruct Q1 as [Q1|Q1]; [|congruence]. destruct Q2 as [Q2|Q2].
      * exact (i_match _ _ _ I _ Q1 Q2).
      * apply (f_equal rev_edge) in Q2. rewrite rev_rev in Q2. unfold rev_edge in Q2. cbn in Q2. congruence.
    + rewrite W2l, W1l. exact (i_vlen _ _ _ I).
    + intros k i Q1 Q2 Q3.
      destruct (Nat.eq_dec (fst k) v2) as [A|A].
      * rewrite A in *. rewrite W2n in Q3. injection Q3 as <-. exists (v2, v1).
        destruct (Nat.eqb_spec (S L) L) as [X|_]; [lia|]. rewrite Nat.eqb_refl. split; reflexivity.
      * rewrite W2o in Q3 by exact A. destruct (Nat.eq_dec (fst k) v1) as [B|B].
        -- rewrite B in *. rewrite W1n in Q3. injection Q3 as <-. exists (v1, v2). rewrite Nat.eqb_refl. split; reflexivity.
        -- rewrite W1o in Q3 by exact B. apply in_snoc_snd in Q1. apply in_snoc_snd in Q2.
           destruct Q1 as [Q1|Q1]; [|rewrite Q1 in B; cbn in B; congruence].
           destruct Q2 as [Q2|Q2]; [|apply (f_equal rev_edge) in Q2; rewrite rev_rev in Q2; unfold rev_edge in Q2; rewrite Q2 in A; cbn in A; congruence].
           destruct (i_verts _ _ _ I _ _ Q1 Q2 Q3) as [k' [K1 K2]]. exists k'. split; [|exact K2].
           assert (i < L).
           { destruct (le_lt_dec L i) as [G|G]; [|exact G]. rewrite (i_over _ _ _ I _ G) in K1. discriminate. }
           destruct (Nat.eqb_spec (S L) i) as [X|_]; [lia|]. destruct (Nat.eqb_spec L i) as [X|_]; [lia|]. exact K1.
    + intros g k. unfold mput. destruct (Nat.eqb_spec f g) as [<-|X].
      * intros Q. injection Q as <-. apply in_snoc. right; reflexivity.
      * intros Q. apply in_snoc. left. exact (i_face _ _ _ I _ _ Q).
    + intros g k Q. unfold mput. destruct (Nat.eqb_spec f g) as [<-|X]; [discriminate|].
      apply in_snoc in Q. destruct Q as [Q|Q]; [exact (i_hasface _ _ _ I _ _ Q)|]. injection Q as Q _. congruence.
  - (* not yet *)
    eexists. split; [reflexivity|]. split; [|reflexivity].
    assert (R3 : ~ In (v2, v1) (map snd P)).
    { intros Q. apply in_map_iff in Q. destruct Q as [[g k] [Q1 Q2]]. cbn in Q1. subst k. exact (i_dom _ _ _ I _ _ Q2 R). }
    assert (R4 : forall k, In k (map snd (P ++ [(f, (v1, v2))])) -> In (rev_edge k) (map snd (P ++ [(f, (v1, v2))])) ->
                 In k (map snd P) /\ In (rev_edge k) (map snd P)).
    { intros k Q1 Q2. apply in_snoc_snd in Q1. apply in_snoc_snd in Q2. destruct Q1 as [Q1|Q1]; destruct Q2 as [Q2|Q2].
      - split; assumption.
      - apply (f_equal rev_edge) in Q2. rewrite rev_rev in Q2. unfold rev_edge in Q2. cbn in Q2. subst k. contradiction.
      - subst k. cbn in Q2. contradiction.
      - subst k. cbn in Q2. injection Q2; congruence. }
    constructor; cbn [h_map h_nextkey h_index h_key h_facekey h_edges h_verts].
    + intros k e. destruct (vpair_eqb_spec (v1, v2) k) as [<-|X2].
      * intros Q. injection Q as <-. cbn. split; [apply in_snoc; right; reflexivity|reflexivity].
      * intros Q. destruct (i_map _ _ _ I _ _ Q) as [Q1 Q2]. split; [apply in_snoc; left; exact Q1|exact Q2].
    + intros g k Q. destruct (vpair_eqb_spec (v1, v2) k) as [<-|X2]; [discriminate|].
      apply in_snoc in Q. destruct Q as [Q|Q]; [exact (i_dom _ _ _ I _ _ Q)|]. injection Q as _ Q. congruence.
    + intros i Hi. destruct (i_key _ _ _ I i Hi) as [k [e [j [K1 [K2 [K3 [K4 [K5 [K6 K7]]]]]]]]].
      exists k, e, j. split; [exact K1|]. split; [exact K2|]. split; [exact K3|]. split; [exact K4|].
      split; [apply in_snoc; left; exact K5|]. split; [exact K6|exact K7].
    + exact (i_over _ _ _ I).
    + intros k i Q. destruct (i_index _ _ _ I _ _ Q) as [Q1 Q2]. split; [exact Q1|]. apply in_snoc_snd. left; exact Q2.
    + intros k Q1 Q2. destruct (R4 _ Q1 Q2) as [Q3 Q4]. exact (i_match _ _ _ I _ Q3 Q4).
    + exact (i_vlen _ _ _ I).
    + intros k i Q1 Q2. destruct (R4 _ Q1 Q2) as [Q3 Q4]. exact (i_verts _ _ _ I _ _ Q3 Q4).
    + intros g k. unfold mput. destruct (Nat.eqb_spec f g) as [<-|X].
      * intros Q. injection Q as <-. apply in_snoc. right; reflexivity.
      * intros Q. apply in_snoc. left. exact (i_face _ _ _ I _ _ Q).
    + intros g k Q. unfold mput. destruct (Nat.eqb_spec f g) as [<-|X]; [discriminate|].
      apply in_snoc in Q. destruct Q as [Q|Q]; [exact (i_hasface _ _ _ I _ _ Q)|]. injection Q as Q _. congruence.
Qed.

(** ** One face *)
Lemma around_length : forall vs, length (around vs) = length vs.
Proof.
  intros [|v r]; [reflexivity|]. unfold around. unfold vpair. rewrite combine_length, app_length. cbn [length]. lia.
Qed.
Lemma nth_error_combine : forall A B (l : list A) (r : list B) n a b, nth_error l n = Some a -> nth_error r n = Some b ->
  nth_error (combine l r) n = Some (a, b).
Proof.
  intros A B l. induction l as [|x l IH]; intros [|y r] [|n] a b; cbn; try discriminate.
  - congruence.
  - apply IH.
Qed.
Lemma around_nth : forall vs n v1 v2, nth_error vs n = Some v1 ->
  nth_error vs (if Nat.eqb n (length vs - 1) then O else S n) = Some v2 -> nth_error (around vs) n = Some (v1, v2).
Proof.
  intros [|v r] n v1 v2 H1 H2; [destruct n; discriminate|].
  unfold around. apply nth_error_combine; [exact H1|].
  cbn [length] in H2. replace (S (length r) - 1) with (length r) in H2 by lia.
  destruct (Nat.eqb_spec n (length r)) as [->|D].
  - cbn in H2. rewrite nth_error_app2 by lia. rewrite Nat.sub_diag. exact H2.
  - cbn in H2. assert (n < length r) by (apply nth_error_Some; congruence).
    rewrite nth_error_app1 by assumption. exact H2.
Qed.
Lemma around_at : forall (vs : list nat) n, n < length vs -> exists v1 v2 : nat, nth_error vs n = Some v1 /\
  nth_error vs (if Nat.eqb n (length vs - 1) then O else S n) = Some v2.
Proof.
  intros vs n H. destruct (nth_error vs n) as [v1|] eqn:E1; [|apply nth_error_None in E1; lia].
  destruct (nth_error vs (if Nat.eqb n (length vs - 1) then O else S n)) as [v2|] eqn:E2.
  - exists v1, v2. split; reflexivity.
  - exfalso. apply nth_error_None in E2. destruct (Nat.eqb_spec n (length vs - 1)); lia.
Qed.
Lemma nodup_nth : forall A (l : list A) i j x, NoDup l -> nth_error l i = Some x -> nth_error l j = Some x -> i = j.
Proof.
  intros A l i j x N H1 H2. apply (proj1 (NoDup_nth_error l) N).
  - apply nth_error_Some. congruence.
  - congruence.
Qed.
Lemma nodup_tail : forall A (l r : list A), NoDup (l ++ r) -> NoDup r.
Proof. intros A l r. induction l as [|x l IH]; cbn; [easy|]. intros H. inversion H; subst. apply IH. assumption. Qed.
Lemma nodup_head : forall A (l r : list A), NoDup (l ++ r) -> NoDup l.
Proof.
  intros A l r. induction l as [|x l IH]; cbn; [constructor|]. intros H. inversion H; subst. constructor; [|apply IH; assumption].
  intros Q. apply H2. apply in_app_iff. left; exact Q.
Qed.
Lemma nodup_apart : forall A (l r : list A) x, NoDup (l ++ r) -> In x l -> In x r -> False.
Proof.
  intros A l r x. induction l as [|y l IH]; cbn; [easy|]. intros H [->|Q] R; inversion H; subst.
  - apply H2. apply in_app_iff. right; exact R.
  - apply IH; assumption.
Qed.
Lemma firstn_snoc : forall A (l : list A) n x, nth_error l n = Some x -> firstn (S n) l = firstn n l ++ [x].
Proof.
  intros A l. induction l as [|y l IH]; intros [|n] x H; cbn in *; try discriminate.
  - congruence.
  - f_equal. exact (IH _ _ H).
Qed.

(** The successor of position [n] in a cycle of length [L]. *)
Definition cyc (L n : nat) : nat := if Nat.eqb (S n) L then O else S n.

(** What nextEdges holds after the first [v] edges of the face. *)
Definition nexts (A : list vpair) (v : nat) (m0 m : vpair -> option vpair) : Prop :=
  (forall n k k', n < v -> (S n < v \/ v = length A) -> nth_error A n = Some k -> nth_error A (cyc (length A) n) = Some k' -> m k = Some k') /\
  (forall k, (forall n, n < v -> (S n < v \/ v = length A) -> nth_error A n <> Some k) -> m k = m0 k).

Lemma visit_face_ok : forall nv f vs P0 m0 todo v first prev s,
  NoDup (map snd P0 ++ around vs) -> (forall k, In k (around vs) -> fst k <> snd k /\ fst k < nv /\ snd k < nv) ->
  (forall k, In k (around vs) -> m0 k = None) ->
  v + todo = length vs ->
  inv nv (P0 ++ map (pair f) (firstn v (around vs))) s -> nexts (around vs) v m0 (h_nextkey s) ->
  (0 < v -> nth_error (around vs) 0 = Some first /\ nth_error (around vs) (v - 1) = Some prev) ->
  exists s', visit_face f vs v todo first prev s = Ok s' /\ inv nv (P0 ++ map (pair f) (around vs)) s' /\
    nexts (around vs) (length vs) m0 (h_nextkey s').
Proof.
  intros nv f vs P0 m0 todo. induction todo as [|todo IH]; intros v first prev s ND OK M0 Lv I NX FP.
  - cbn. exists s. split; [reflexivity|]. replace v with (length vs) in * by lia.
    rewrite <- (around_length vs) in I. rewrite firstn_all in I. split; [exact I|exact NX].
  - cbn [visit_face]. assert (Hv : v < length vs) by lia.
    destruct (around_at vs v Hv) as [v1 [v2 [E1 E2]]]. rewrite E1, E2. cbn [rd bind].
    pose proof (around_nth _ _ _ _ E1 E2) as EA.
    set (A := around vs) in *. set (k := (v1, v2)) in *.
    assert (LA : length A = length vs) by apply around_length.
    assert (NA : NoDup A) by (exact (nodup_tail _ _ _ ND)).
    assert (KA : In k A) by (eapply nth_error_In; exact EA).
    set (first' := if Nat.eqb v 0 then k else first).
    assert (F' : nth_error A 0 = Some first').
    { unfold first'. destruct (Nat.eqb_spec v 0) as [->|Z]; [exact EA|]. apply FP. lia. }
    (* the two insertions in nextEdges *)
    assert (S1 : exists s1, (if Nat.eqb v 0 then Ok s else add_next prev k s) = Ok s1 /\
              inv nv (P0 ++ map (pair f) (firstn v A)) s1 /\
              (forall n a b, n < v -> nth_error A n = Some a -> nth_error A (S n) = Some b -> h_nextkey s1 a = Some b) /\
              (forall a, (forall n, n < v -> nth_error A n <> Some a) -> h_nextkey s1 a = m0 a)).
    { destruct (Nat.eqb_spec v 0) as [Z|Z].
      - exists s. split; [reflexivity|]. split; [exact I|]. split; [intros; lia|].
        intros a Ha. apply (proj2 NX). intros n Hn. lia.
      - destruct (FP ltac:(lia)) as [_ PV]. unfold add_next, madd.
        assert (NO : h_nextkey s prev = None).
        { rewrite (proj2 NX).
          - apply M0. eapply nth_error_In. exact PV.
          - intros n Hn C X. assert (n = v - 1) by (eapply nodup_nth; eassumption). lia. }
        rewrite NO. cbn [bind]. eexists. split; [reflexivity|]. split.
        { destruct I. constructor; assumption. }
        split; cbn [h_nextkey].
        + intros n a b Hn Ha Hb. destruct (vpair_eqb_spec prev a) as [<-|X].
          * assert (n = v - 1) by (eapply nodup_nth; eassumption). subst n. replace (S (v - 1)) with v in Hb by lia. congruence.
          * assert (n <> v - 1) by (intros ->; congruence).
            apply (proj1 NX) with (n := n); [exact Hn|left; lia|exact Ha|].
            unfold cyc. destruct (Nat.eqb_spec (S n) (length A)); [lia|exact Hb].
        + intros a Ha. destruct (vpair_eqb_spec prev a) as [<-|X]; [exfalso; apply (Ha (v - 1)); [lia|exact PV]|].
          apply (proj2 NX). intros n Hn C. apply Ha. exact Hn. }
    destruct S1 as [s1 [Q1 [I1 [N1 N1']]]]. rewrite Q1. cbn [bind].
    assert (S2 : exists s2, (if Nat.eqb v (length vs - 1) then add_next k first' s1 else Ok s1) = Ok s2 /\
              inv nv (P0 ++ map (pair f) (firstn v A)) s2 /\ nexts A (S v) m0 (h_nextkey s2)).
    { destruct (Nat.eqb_spec v (length vs - 1)) as [Z|Z].
      - unfold add_next, madd. rewrite N1'.
        2:{ intros n Hn X. assert (n = v) by (eapply nodup_nth; eassumption). lia. }
        rewrite (M0 _ KA). cbn [bind]. eexists. split; [reflexivity|]. split.
        { destruct I1. constructor; assumption. }
        split; cbn [h_nextkey].
        + intros n a b Hn _ Ha Hb. destruct (vpair_eqb_spec k a) as [<-|X].
          * assert (n = v) by (eapply nodup_nth; eassumption). subst n. unfold cyc in Hb.
            destruct (Nat.eqb_spec (S v) (length A)) as [_|Y]; [congruence|lia].
          * assert (n <> v) by (intros ->; congruence). unfold cyc in Hb.
            destruct (Nat.eqb_spec (S n) (length A)) as [Y|_]; [lia|]. apply N1 with (n := n); [lia|exact Ha|exact Hb].
        + intros a Ha. destruct (vpair_eqb_spec k a) as [<-|X]; [exfalso; apply (Ha v); [lia|right; lia|exact EA]|].
          apply N1'. intros n Hn. apply Ha; [lia|right; lia].
      - exists s1. split; [reflexivity|]. split; [exact I1|]. split.
        + intros n a b Hn C Ha Hb. unfold cyc in Hb. destruct (Nat.eqb_spec (S n) (length A)) as [Y|_]; [lia|].
          apply N1 with (n := n); [lia|exact Ha|exact Hb].
        + intros a Ha. apply N1'. intros n Hn. apply Ha; [lia|left; lia]. }
    destruct S2 as [s2 [Q2 [I2 N2]]]. rewrite Q2. cbn [bind].
    destruct (OK _ KA) as [O1 [O2 O3]]. cbn in O1, O2, O3.
    destruct (visit_edge_ok nv _ s2 f v1 v2 I2) as [s3 [Q3 [I3 N3]]]; try assumption.
    { fold k. rewrite map_app, map_map. cbn [snd]. rewrite map_id. intros X. apply in_app_iff in X. destruct X as [X|X].
      - exact (nodup_apart _ _ _ _ ND X KA).
      - destruct (In_nth_error _ _ X) as [n Hn]. assert (n < v) as Ln.
        { assert (X2 : n < length (firstn v A)) by (apply nth_error_Some; congruence). rewrite firstn_length in X2. lia. }
        assert (Hn' : nth_error A n = Some k).
        { rewrite <- (firstn_skipn v A). rewrite nth_error_app1; [exact Hn|]. apply nth_error_Some. congruence. }
        assert (n = v) by (eapply nodup_nth; eassumption). lia. }
    rewrite Q3. cbn [bind].
    apply IH; try assumption; try lia.
    + rewrite (firstn_snoc _ _ _ _ EA), map_app, app_assoc. exact I3.
    + rewrite N3. exact N2.
    + intros _. split; [exact F'|]. replace (S v - 1) with v by lia. exact EA.
Qed.

(** ** All faces *)
(** The directed edges of the faces, the first one having index [f], each with its face. *)
Fixpoint tagged (f : nat) (faces : list (list nat)) : list (nat * vpair) :=
  match faces with [] => [] | vs :: r => map (pair f) (around vs) ++ tagged (S f) r end.
Lemma tagged_edges : forall faces f, map snd (tagged f faces) = mesh_edges faces.
Proof.
  induction faces as [|vs r IH]; intros f; [reflexivity|]. cbn [tagged mesh_edges flat_map].
  rewrite map_app, map_map, IH. cbn [snd]. rewrite map_id. reflexivity.
Qed.
Lemma tagged_in : forall faces f g k, In (g, k) (tagged f faces) <-> exists n vs, g = f + n /\ nth_error faces n = Some vs /\ In k (around vs).
Proof.
  induction faces as [|vs r IH]; intros f g k; cbn [tagged].
  - split; [contradiction|]. intros [[|n] [vs [_ [H _]]]]; discriminate.
  - rewrite in_app_iff, IH, in_map_iff. split.
    + intros [[k' [E H]]|[n [vs' [E [H1 H2]]]]].
      * injection E as <- <-. exists 0, vs. split; [lia|]. split; [reflexivity|exact H].
      * exists (S n), vs'. split; [lia|]. split; [exact H1|exact H2].
    + intros [[|n] [vs' [E [H1 H2]]]].
      * left. cbn in H1. injection H1 as <-. exists k. split; [f_equal; lia|exact H2].
      * right. exists n, vs'. split; [lia|]. split; [exact H1|exact H2].
Qed.

(** What nextEdges holds at the end. *)
Definition all_next (faces : list (list nat)) (m : vpair -> option vpair) : Prop :=
  forall vs n k k', In vs faces -> nth_error (around vs) n = Some k -> nth_error (around vs) (cyc (length vs) n) = Some k' -> m k = Some k'.

Lemma visit_faces_ok : forall nv faces done f s,
  NoDup (mesh_edges done ++ mesh_edges faces) ->
  (forall k, In k (mesh_edges faces) -> fst k <> snd k /\ fst k < nv /\ snd k < nv) ->
  f = length done -> inv nv (tagged 0 done) s -> all_next done (h_nextkey s) ->
  (forall k, ~ In k (mesh_edges done) -> h_nextkey s k = None) ->
  exists s', visit_faces f faces s = Ok s' /\ inv nv (tagged 0 (done ++ faces)) s' /\ all_next (done ++ faces) (h_nextkey s').
Proof.
  intros nv faces. induction faces as [|vs r IH]; intros done f s ND OK Lf I AN NN.
  - cbn. exists s. rewrite app_nil_r. split; [reflexivity|]. split; assumption.
  - cbn [visit_faces]. cbn [mesh_edges flat_map] in ND, OK.
    assert (TG : forall l g x, tagged g (l ++ [x]) = tagged g l ++ map (pair (g + length l)) (around x)).
    { induction l as [|y l IHl]; intros g x; cbn [tagged app length].
      - rewrite app_nil_r, Nat.add_0_r. reflexivity.
      - rewrite IHl, app_assoc. do 3 f_equal. lia. }
    assert (ND1 : NoDup (map snd (tagged 0 done) ++ around vs)).
    { rewrite tagged_edges. rewrite app_assoc in ND. exact (nodup_head _ _ _ ND). }
    destruct (visit_face_ok nv f vs (tagged 0 done) (h_nextkey s) (length vs) 0 (O, O) (O, O) s) as [s1 [E [I1 NX]]]; try assumption.
    + intros k Hk. apply OK. apply in_app_iff. left; exact Hk.
    + intros k Hk. apply NN. intros Q. rewrite tagged_edges in ND1. exact (nodup_apart _ _ _ _ ND1 Q Hk).
    + reflexivity.
    + cbn. rewrite app_nil_r. exact I.
    + split; [intros; lia|]. intros k _. reflexivity.
    + lia.
    + rewrite E. cbn [bind].
      assert (ME : mesh_edges (done ++ [vs]) = mesh_edges done ++ around vs).
      { unfold mesh_edges. rewrite flat_map_app. cbn. rewrite app_nil_r. reflexivity. }
      destruct (IH (done ++ [vs]) (S f) s1) as [s2 [E2 [I2 A2]]].
      * rewrite ME, <- app_assoc. exact ND.
      * intros k Hk. apply OK. apply in_app_iff. right; exact Hk.
      * rewrite app_length. cbn. lia.
      * rewrite TG. cbn. rewrite <- Lf. exact I1.
      * intros ws n k k' Hin Hk Hk'. apply in_app_iff in Hin. destruct Hin as [Hin|[<-|[]]].
        -- rewrite (proj2 NX).
           ++ exact (AN ws n k k' Hin Hk Hk').
           ++ intros m _ _ Q. rewrite tagged_edges in ND1.
              apply (nodup_apart _ _ _ k ND1); [|eapply nth_error_In; exact Q].
              apply in_flat_map. exists ws. split; [exact Hin|]. eapply nth_error_In; exact Hk.
        -- assert (Ln : n < length vs) by (rewrite <- around_length; apply nth_error_Some; congruence).
           apply (proj1 NX) with (n := n); [exact Ln|right; symmetry; apply around_length|exact Hk|].
           rewrite around_length. exact Hk'.
      * intros k Hk. rewrite ME in Hk. rewrite (proj2 NX).
        -- apply NN. intros Q. apply Hk. apply in_app_iff. left; exact Q.
        -- intros n _ _ Q. apply Hk. apply in_app_iff. right. eapply nth_error_In; exact Q.
      * exists s2. rewrite <- app_assoc in I2, A2. split; [exact E2|]. split; assumption.
Qed.

(** ** The last two passes *)
Lemma set_next_ok : forall s es i, (forall n, n < length es -> exists k k' j, h_key s (i + n) = Some k /\ h_nextkey s k = Some k' /\ h_index s k' = Some j) ->
  exists es', set_next s i es = Ok es' /\ length es' = length es /\
    forall n e, nth_error es n = Some e -> exists k k' j, h_key s (i + n) = Some k /\ h_nextkey s k = Some k' /\ h_index s k' = Some j /\
      nth_error es' n = Some (mk_edge (e_vertex e) (e_twin e) (e_face e) (Some j)).
Proof.
  intros s es. induction es as [|x es IH]; intros i H.
  - exists []. split; [reflexivity|]. split; [reflexivity|]. intros [|n] e Q; discriminate.
  - destruct (H 0) as [k [k' [j [H1 [H2 H3]]]]]; [cbn; lia|]. rewrite Nat.add_0_r in H1.
    destruct (IH (S i)) as [es' [E [L N]]].
    { intros n Hn. replace (S i + n) with (i + S n) by lia. apply H. cbn. lia. }
    cbn [set_next]. rewrite H1. cbn [rd bind]. rewrite H2. cbn [rd bind]. rewrite H3. cbn [rd bind]. rewrite E. cbn [bind].
    eexists. split; [reflexivity|]. split; [cbn; lia|].
    intros [|n] e Q.
    + cbn in Q. injection Q as <-. exists k, k', j. rewrite Nat.add_0_r. repeat (split; [assumption|]). reflexivity.
    + replace (i + S n) with (S i + n) by lia. exact (N n e Q).
Qed.
Lemma set_faces_ok : forall s fs, (forall f, In f fs -> exists k j, h_facekey s f = Some k /\ h_index s k = Some j) ->
  exists l, set_faces s fs = Ok l /\ length l = length fs /\
    forall n j, nth_error l n = Some j -> exists f k, nth_error fs n = Some f /\ h_facekey s f = Some k /\ h_index s k = Some j.
Proof.
  intros s fs. induction fs as [|f fs IH]; intros H.
  - exists []. split; [reflexivity|]. split; [reflexivity|]. intros [|n] j Q; discriminate.
  - destruct (H f) as [k [j [H1 H2]]]; [left; reflexivity|].
    destruct IH as [l [E [L N]]]; [intros g Hg; apply H; right; exact Hg|].
    cbn [set_faces]. rewrite H1. cbn [rd bind]. rewrite H2. cbn [rd bind]. rewrite E. cbn [bind].
    eexists. split; [reflexivity|]. split; [cbn; lia|].
    intros [|n] i Q.
    + cbn in Q. injection Q as <-. exists f, k. split; [reflexivity|]. split; assumption.
    + exact (N n i Q).
Qed.

(** ** Positions in a face *)
Lemma around_cyc : forall vs n a b, nth_error (around vs) n = Some (a, b) -> exists c, nth_error (around vs) (cyc (length vs) n) = Some (b, c).
Proof.
  intros vs n a b H.
  assert (Ln : n < length vs) by (rewrite <- around_length; apply nth_error_Some; congruence).
  destruct (around_at vs n Ln) as [v1 [v2 [E1 E2]]]. pose proof (around_nth _ _ _ _ E1 E2) as E.
  rewrite H in E. injection E as -> ->.
  assert (Lc : cyc (length vs) n < length vs) by (unfold cyc; destruct (Nat.eqb_spec (S n) (length vs)); lia).
  destruct (around_at vs _ Lc) as [w1 [w2 [F1 F2]]]. exists w2. apply around_nth; [|exact F2].
  rewrite <- E2. f_equal. unfold cyc. destruct (Nat.eqb_spec (S n) (length vs)); destruct (Nat.eqb_spec n (length vs - 1)); lia.
Qed.
Lemma around_in : forall vs a b, In (a, b) (around vs) -> In a vs /\ In b vs.
Proof.
  intros [|v r] a b; [contradiction|]. unfold around. intros H. split.
  - eapply in_combine_l; exact H.
  - apply in_combine_r in H. apply in_app_iff in H. cbn in H. cbn. tauto.
Qed.
Lemma in_around : forall vs v, In v vs -> exists b, In (v, b) (around vs).
Proof.
  intros vs v H. destruct (In_nth_error _ _ H) as [n Hn].
  assert (Ln : n < length vs) by (apply nth_error_Some; congruence).
  destruct (around_at vs n Ln) as [v1 [v2 [E1 E2]]]. exists v2.
  rewrite Hn in E1. injection E1 as <-. eapply nth_error_In. apply around_nth; eassumption.
Qed.
Lemma nodup_map_in : forall A B (f : A -> B) l, (forall x y, In x l -> In y l -> f x = f y -> x = y) -> NoDup l -> NoDup (map f l).
Proof.
  intros A B f l. induction l as [|x l IH]; intros H N; cbn; [constructor|]. inversion N; subst. constructor.
  - intros Q. apply in_map_iff in Q. destruct Q as [y [E Q]]. assert (y = x) by (apply H; [right; exact Q|left; reflexivity|exact E]).
    subst y. contradiction.
  - apply IH; [|assumption]. intros y z Hy Hz. apply H; right; assumption.
Qed.

(** ** The structure of a closed mesh *)
Theorem half_edges_ok : forall nv faces, faces <> [] -> (forall vs, In vs faces -> vs <> []) -> in_range nv faces -> closed faces ->
  exists h, compute_half_edges nv faces = Ok h /\ consistent nv faces h.
Proof.
  intros nv faces NE NF RG [ND CL].
  assert (OK : forall k, In k (mesh_edges faces) -> fst k <> snd k /\ fst k < nv /\ snd k < nv).
  { intros [a b] Hk. split; [exact (proj1 (CL _ Hk))|]. apply in_flat_map in Hk. destruct Hk as [vs [H1 H2]].
    apply around_in in H2. cbn. split; apply (RG vs); tauto. }
  unfold compute_half_edges. destruct faces as [|vs0 r0] eqn:EF; [congruence|]. rewrite <- EF in *. cbn [nth_error rd bind].
  destruct (visit_faces_ok nv faces [] 0 (init_hstate nv)) as [s [E [I AN]]]; try assumption.
  { reflexivity. } { apply inv_init. } { intros ws n k k' []. } { intros; reflexivity. }
  rewrite EF in E |- *. cbn [nth_error rd bind]. rewrite E. cbn [bind]. rewrite <- EF in *. clear E EF vs0 r0. cbn [app] in I, AN.
  assert (TE : map snd (tagged 0 faces) = mesh_edges faces) by apply tagged_edges.
  assert (IX : forall k, In k (mesh_edges faces) -> exists i, h_index s k = Some i /\ h_key s i = Some k /\ i < length (h_edges s)).
  { intros k Hk. destruct (h_index s k) as [i|] eqn:Q.
    - exists i. split; [reflexivity|]. destruct (i_index _ _ _ I _ _ Q) as [Q1 _]. split; [exact Q1|].
      destruct (le_lt_dec (length (h_edges s)) i) as [G|G]; [|exact G]. rewrite (i_over _ _ _ I _ G) in Q1. discriminate.
    - exfalso. apply (i_match _ _ _ I k); rewrite ?TE; [exact Hk|exact (proj2 (CL _ Hk))|exact Q]. }
  assert (KX : forall i, i < length (h_edges s) -> exists f vs n k k' e j t, h_key s i = Some k /\ h_index s k = Some i /\
            nth_error faces f = Some vs /\ nth_error (around vs) n = Some k /\ nth_error (around vs) (cyc (length vs) n) = Some k' /\
            fst k' = snd k /\ h_nextkey s k = Some k' /\ h_index s k' = Some j /\
            nth_error (h_edges s) i = Some e /\ e_vertex e = fst k /\ e_face e = f /\ e_twin e = Some t /\ h_index s (rev_edge k) = Some t).
  { intros i Hi. destruct (i_key _ _ _ I i Hi) as [k [e [t [K1 [K2 [K3 [K4 [K5 [K6 K7]]]]]]]]].
    apply tagged_in in K5. destruct K5 as [f [vs [F1 [F2 F3]]]]. cbn in F1.
    destruct (In_nth_error _ _ F3) as [n Hn]. destruct k as [a b].
    destruct (around_cyc _ _ _ _ Hn) as [c Hc].
    assert (NK : h_nextkey s (a, b) = Some (b, c)) by (apply (AN vs n); [eapply nth_error_In; exact F2|exact Hn|exact Hc]).
    assert (Hin : In (b, c) (mesh_edges faces)).
    { apply in_flat_map. exists vs. split; [eapply nth_error_In; exact F2|eapply nth_error_In; exact Hc]. }
    destruct (IX _ Hin) as [j [J1 [J2 J3]]].
    exists f, vs, n, (a, b), (b, c), e, j, t. repeat (split; [first [assumption|reflexivity]|]). exact K7. }
  destruct (set_next_ok s (h_edges s) 0) as [es [ES [EL EN]]].
  { intros i Hi. destruct (KX i Hi) as [f [vs [n [k [k' [e [j [t [K1 [K2 [K3 [K4 [K5 [K6 [K7 [K8 K9]]]]]]]]]]]]]]]].
    exists k, k', j. cbn. split; [exact K1|]. split; assumption. }
  rewrite ES. cbn [bind].
  destruct (set_faces_ok s (seq 0 (length faces))) as [fs [FS [FL FN]]].
  { intros f Hf. apply in_seq in Hf. destruct (nth_error faces f) as [vs|] eqn:Q; [|apply nth_error_None in Q; lia].
    destruct vs as [|v vs].
    - exfalso. apply (NF []); [eapply nth_error_In; exact Q|reflexivity].
    - destruct (in_around (v :: vs) v) as [b Hb]; [left; reflexivity|].
      assert (T : In (f, (v, b)) (tagged 0 faces)) by (apply tagged_in; exists f, (v :: vs); split; [reflexivity|]; split; assumption).
      destruct (h_facekey s f) as [k|] eqn:Q2; [|exfalso; exact (i_hasface _ _ _ I _ _ T Q2)].
      pose proof (i_face _ _ _ I _ _ Q2) as T2. apply (in_map snd) in T2. rewrite TE in T2. cbn in T2.
      destruct (IX _ T2) as [j [J _]]. exists k, j. split; [reflexivity|exact J]. }
  rewrite FS. cbn [bind]. eexists. split; [reflexivity|].
  (* the half-edges of the result *)
  assert (IE : forall i k f, h_key s i = Some k -> In (f, k) (tagged 0 faces) ->
            is_edge (mk_structure es fs (h_verts s)) i f (fst k) (snd k)).
  { intros i k f K T.
    assert (Hi : i < length (h_edges s)).
    { destruct (le_lt_dec (length (h_edges s)) i) as [G|G]; [|exact G]. rewrite (i_over _ _ _ I _ G) in K. discriminate. }
    destruct (KX i Hi) as [g [vs [n [k0 [k' [e [j [t [K1 [K2 [K3 [K4 [K5 [K6 [K7 [K8 [K9 [K10 [K11 [K12 K13]]]]]]]]]]]]]]]]]]]].
    rewrite K in K1. injection K1 as <-.
    destruct (EN _ _ K9) as [k1 [k2 [j' [G1 [G2 [G3 G4]]]]]]. cbn in G1.
    rewrite K in G1. injection G1 as <-. rewrite K7 in G2. injection G2 as <-. rewrite K8 in G3. injection G3 as <-.
    destruct (i_index _ _ _ I _ _ K8) as [Kj _].
    assert (Hj : j < length (h_edges s)).
    { destruct (le_lt_dec (length (h_edges s)) j) as [G|G]; [|exact G]. rewrite (i_over _ _ _ I _ G) in Kj. discriminate. }
    destruct (i_key _ _ _ I j Hj) as [q [ej [tj [L1 [L2 [L3 [L4 _]]]]]]]. rewrite Kj in L1. injection L1 as <-.
    destruct (EN _ _ L3) as [q1 [q2 [j'' [_ [_ [_ M4]]]]]].
    assert (FG : g = f).
    { assert (Tg : In (g, k) (tagged 0 faces)).
      { apply tagged_in. exists g, vs. split; [reflexivity|]. split; [exact K3|]. eapply nth_error_In; exact K4. }
      rewrite <- TE in ND. clear - ND T Tg. induction (tagged 0 faces) as [|[x y] l IHl]; [contradiction|].
      cbn in ND. inversion ND; subst. destruct T as [T|T]; destruct Tg as [Tg|Tg]; try congruence.
      - injection T as -> ->. exfalso. apply H1. apply in_map_iff. exists (g, k). split; [reflexivity|exact Tg].
      - injection Tg as -> ->. exfalso. apply H1. apply in_map_iff. exists (f, k). split; [reflexivity|exact T].
      - apply IHl; assumption. }
    exists (mk_edge (e_vertex e) (e_twin e) (e_face e) (Some j)), j, (mk_edge (e_vertex ej) (e_twin ej) (e_face ej) (Some j'')).
    cbn. split; [exact G4|]. split; [exact K10|]. split; [congruence|]. split; [reflexivity|]. split; [exact M4|]. congruence. }
  assert (EI : forall i f a b, is_edge (mk_structure es fs (h_verts s)) i f a b ->
            i < length (h_edges s) /\ h_key s i = Some (a, b) /\ h_index s (a, b) = Some i /\ In (f, (a, b)) (tagged 0 faces)).
  { intros i f a b [e [n [e' [H1 [H2 [H3 [H4 [H5 H6]]]]]]]]. cbn in H1, H5.
    assert (Hi : i < length (h_edges s)) by (rewrite <- EL; apply nth_error_Some; congruence).
    destruct (KX i Hi) as [g [vs [m [k [k' [e0 [j [t [K1 [K2 [K3 [K4 [K5 [K6 [K7 [K8 [K9 [K10 [K11 [K12 K13]]]]]]]]]]]]]]]]]]]].
    destruct (EN _ _ K9) as [k1 [k2 [j' [G1 [G2 [G3 G4]]]]]]. cbn in G1.
    rewrite K1 in G1. injection G1 as <-. rewrite K7 in G2. injection G2 as <-. rewrite K8 in G3. injection G3 as <-.
    rewrite H1 in G4. injection G4 as ->. cbn in H2, H3, H4. injection H4 as <-.
    destruct (i_index _ _ _ I _ _ K8) as [Kj _].
    assert (Hj : j < length (h_edges s)).
    { destruct (le_lt_dec (length (h_edges s)) j) as [G|G]; [|exact G]. rewrite (i_over _ _ _ I _ G) in Kj. discriminate. }
    destruct (i_key _ _ _ I j Hj) as [q [ej [tj [L1 [L2 [L3 [L4 _]]]]]]]. rewrite Kj in L1. injection L1 as <-.
    destruct (EN _ _ L3) as [q1 [q2 [j'' [_ [_ [_ M4]]]]]]. rewrite H5 in M4. injection M4 as ->. cbn in H6.
    assert (KE : k = (a, b)) by (destruct k as [x y]; cbn in *; congruence). subst k.
    split; [exact Hi|]. split; [exact K1|]. split; [exact K2|]. apply tagged_in. exists f, vs.
    split; [reflexivity|]. split; [congruence|]. eapply nth_error_In; exact K4. }
  assert (TM : forall f k, In (f, k) (tagged 0 faces) -> In k (mesh_edges faces)).
  { intros f k T. apply (in_map snd) in T. rewrite TE in T. exact T. }
  assert (MT : forall k, In k (mesh_edges faces) -> exists f, In (f, k) (tagged 0 faces)).
  { intros k Hk. rewrite <- TE in Hk. apply in_map_iff in Hk. destruct Hk as [[f k0] [Q1 Q2]]. cbn in Q1. subst k0. exists f. exact Q2. }
  assert (AT : forall f vs k, nth_error faces f = Some vs -> In k (around vs) -> In (f, k) (tagged 0 faces)).
  { intros f vs k Q1 Q2. apply tagged_in. exists f, vs. split; [reflexivity|]. split; assumption. }
  split; [|split; [|split; [|split; [|split; [|split]]]]].
  - (* the number of half-edges *)
    cbn [st_edges]. rewrite EL.
    set (kf := fun i => match h_key s i with Some k => k | None => (O, O) end).
    assert (NK : NoDup (map kf (seq 0 (length (h_edges s))))).
    { apply nodup_map_in; [|apply seq_NoDup]. intros x y Hx Hy Q. apply in_seq in Hx. apply in_seq in Hy. cbn in Hx, Hy.
      destruct (i_key _ _ _ I x (proj2 Hx)) as [k [e [t [K1 [K2 _]]]]].
      destruct (i_key _ _ _ I y (proj2 Hy)) as [k' [e' [t' [K1' [K2' _]]]]].
      unfold kf in Q. rewrite K1, K1' in Q. congruence. }
    apply Nat.le_antisymm.
    + rewrite <- (seq_length (length (h_edges s)) 0) at 1. rewrite <- (map_length kf). apply NoDup_incl_length; [exact NK|].
      intros k Hk. apply in_map_iff in Hk. destruct Hk as [i [Q1 Q2]]. apply in_seq in Q2.
      destruct (i_key _ _ _ I i (proj2 Q2)) as [k' [e [t [K1 [_ [_ [_ [K5 _]]]]]]]]. unfold kf in Q1. rewrite K1 in Q1. subst k'.
      eapply TM. exact K5.
    + rewrite <- (seq_length (length (h_edges s)) 0). rewrite <- (map_length kf). apply NoDup_incl_length; [exact ND|].
      intros k Hk. destruct (IX _ Hk) as [i [J1 [J2 J3]]]. apply in_map_iff. exists i. unfold kf. rewrite J2.
      split; [reflexivity|]. apply in_seq. lia.
  - intros f vs a b Q1 Q2. pose proof (AT _ _ _ Q1 Q2) as T. destruct (IX _ (TM _ _ T)) as [i [J1 [J2 J3]]].
    exists i. split; [exact (IE _ _ _ J2 T)|]. intros i' f' Q. apply EI in Q. destruct Q as [_ [_ [Q _]]]. congruence.
  - intros i f a b Q. apply EI in Q. destruct Q as [Hi [K [X T]]].
    destruct (KX i Hi) as [g [vs [m [k [k' [e0 [j [t [K1 [K2 [K3 [K4 [K5 [K6 [K7 [K8 [K9 [K10 [K11 [K12 K13]]]]]]]]]]]]]]]]]]]].
    rewrite K in K1. injection K1 as <-. cbn in K13.
    destruct (EN _ _ K9) as [k1 [k2 [j' [G1 [G2 [G3 G4]]]]]].
    destruct (CL _ (TM _ _ T)) as [D RE]. cbn in D, RE.
    destruct (MT _ RE) as [g' TR].
    destruct (IX _ RE) as [t' [J1 [J2 J3]]]. unfold rev_edge in J1, K13. cbn in J1, K13. rewrite K13 in J1. injection J1 as <-.
    exists t, g'. split; [|split; [|split]].
    + intros ->. unfold rev_edge in J2. cbn in J2. rewrite K in J2. injection J2. congruence.
    + eexists. split; [exact G4|]. cbn. exact K12.
    + destruct (i_key _ _ _ I t J3) as [q [et [tt [L1 [L2 [L3 [L4 [L5 [L6 L7]]]]]]]]].
      rewrite J2 in L1. injection L1 as <-. rewrite rev_rev in L7. rewrite X in L7. injection L7 as <-.
      destruct (EN _ _ L3) as [q1 [q2 [j'' [_ [_ [_ M4]]]]]]. eexists. split; [exact M4|]. exact L6.
    + exact (IE _ _ _ J2 TR).
  - intros f vs n a b c Q1 Q2 Q3. fold (cyc (length vs) n) in Q3.
    pose proof (AT _ _ _ Q1 (nth_error_In _ _ Q2)) as T1. pose proof (AT _ _ _ Q1 (nth_error_In _ _ Q3)) as T2.
    destruct (IX _ (TM _ _ T1)) as [i [J1 [J2 J3]]]. destruct (IX _ (TM _ _ T2)) as [j [J4 [J5 J6]]].
    exists i, j. split; [exact (IE _ _ _ J2 T1)|]. split; [exact (IE _ _ _ J5 T2)|].
    destruct (nth_error (h_edges s) i) as [e|] eqn:Q4; [|apply nth_error_None in Q4; lia].
    destruct (EN _ _ Q4) as [k1 [k2 [j' [G1 [G2 [G3 G4]]]]]]. cbn in G1. rewrite J2 in G1. injection G1 as <-.
    assert (NK : h_nextkey s (a, b) = Some (b, c)) by (apply (AN vs n); [eapply nth_error_In; exact Q1|exact Q2|exact Q3]).
    eexists. split; [exact G4|]. cbn. congruence.
  - intros i Hi. cbn [st_edges] in Hi. rewrite EL in Hi. destruct (i_key _ _ _ I i Hi) as [k [e [t [K1 [_ [_ [_ [K5 _]]]]]]]].
    pose proof K5 as T. apply tagged_in in K5. destruct K5 as [f [vs [F1 [F2 F3]]]]. cbn in F1. rewrite F1 in T.
    exists f, vs, (fst k), (snd k). split; [exact F2|]. split; [destruct k; exact F3|]. exact (IE _ _ _ K1 T).
  - split; [cbn [st_faces]; rewrite FL, seq_length; reflexivity|].
    intros f i Q. cbn [st_faces] in Q. destruct (FN _ _ Q) as [g [k [G1 [G2 G3]]]].
    assert (g = f).
    { assert (f < length faces) by (rewrite <- (seq_length (length faces) 0); apply nth_error_Some; congruence).
      rewrite (nth_error_nth' _ 0) in G1 by (rewrite seq_length; assumption). rewrite seq_nth in G1 by assumption. cbn in G1. congruence. }
    subst g. exists (fst k), (snd k). apply IE; [exact (proj1 (i_index _ _ _ I _ _ G3))|exact (i_face _ _ _ I _ _ G2)].
  - split; [exact (i_vlen _ _ _ I)|]. intros v i Q Hv. cbn [st_verts] in Q. apply in_concat in Hv. destruct Hv as [vs [V1 V2]].
    destruct (in_around _ _ V2) as [b Hb].
    assert (M : In (v, b) (mesh_edges faces)) by (apply in_flat_map; exists vs; split; assumption).
    destruct (i_verts _ _ _ I (v, b) i) as [k' [K1 K2]]; try (rewrite TE; first [exact M|exact (proj2 (CL _ M))]); [exact Q|]. cbn in K2.
    assert (Hi : i < length (h_edges s)).
    { destruct (le_lt_dec (length (h_edges s)) i) as [G|G]; [|exact G]. rewrite (i_over _ _ _ I _ G) in K1. discriminate. }
    destruct (i_key _ _ _ I i Hi) as [q [e [t [L1 [_ [_ [_ [L5 _]]]]]]]]. rewrite K1 in L1. injection L1 as <-.
    exists (e_face e), (snd k'). rewrite <- K2. exact (IE _ _ _ K1 L5).
Qed.

(** ** Success implies a closed mesh *)
Record winv (nv : nat) (P : list (nat * vpair)) (s : hstate) : Prop := mk_winv {
  w_dom : forall k, h_map s k <> None <-> In k (map snd P);
  w_index : forall k i, h_index s k = Some i -> h_key s i = Some k /\ i < length (h_edges s) /\
    In k (map snd P) /\ In (rev_edge k) (map snd P) /\ fst k <> snd k /\ fst k < nv /\ snd k < nv;
  w_key : forall i k, h_key s i = Some k -> i < length (h_edges s);
  w_face : forall f k, h_facekey s f = Some k -> In (f, k) P;
  w_nodup : NoDup (map snd P);
  w_vlen : length (h_verts s) = nv }.
Lemma wr_inv : forall A (l : list A) i a l', wr l i a = Ok l' -> i < length l /\ length l' = length l.
Proof.
  intros A l. induction l as [|x l IH]; intros [|i] a l' H; cbn in H; try discriminate.
  - injection H as <-. cbn. lia.
  - apply bind_ok in H. destruct H as [r [H1 H2]]. injection H2 as <-. destruct (IH _ _ _ H1). cbn. lia.
Qed.
Lemma madd_inv : forall K V (eqb : K -> K -> bool) k (v : V) m m', madd eqb k v m = Ok m' ->
  m k = None /\ m' = (fun x => if eqb k x then Some v else m x).
Proof. intros K V eqb k v m m'. unfold madd. destruct (m k); [discriminate|]. intros H. injection H as <-. split; reflexivity. Qed.
Lemma nodup_snoc : forall A (l : list A) x, NoDup l -> ~ In x l -> NoDup (l ++ [x]).
Proof.
  intros A l x N H. induction l as [|y l IH]; cbn.
  - constructor; [easy|constructor].
  - inversion N; subst. constructor; [rewrite in_snoc; intros [Q|Q]; [contradiction|apply H; left; congruence]|].
    apply IH; [assumption|]. intros Q. apply H. right; exact Q.
Qed.

Lemma visit_edge_inv : forall nv P s f v1 v2 s', visit_edge f v1 v2 s = Ok s' -> winv nv P s ->
  winv nv (P ++ [(f, (v1, v2))]) s' /\ h_nextkey s' = h_nextkey s.
Proof.
  intros nv P s f v1 v2 s' H W. unfold visit_edge in H.
  apply bind_ok in H. destruct H as [m [M H]]. apply madd_inv in M. destruct M as [M0 ->].
  assert (N : ~ In (v1, v2) (map snd P)) by (intros Q; apply (w_dom _ _ _ W) in Q; congruence).
  assert (ND : NoDup (map snd (P ++ [(f, (v1, v2))]))).
  { rewrite map_app. cbn. apply nodup_snoc; [exact (w_nodup _ _ _ W)|exact N]. }
  assert (FK : forall g k, mput Nat.eqb f (v1, v2) (h_facekey s) g = Some k -> In (g, k) (P ++ [(f, (v1, v2))])).
  { intros g k. unfold mput. destruct (Nat.eqb_spec f g) as [<-|X].
    - intros Q. injection Q as <-. apply in_snoc. right; reflexivity.
    - intros Q. apply in_snoc. left. exact (w_face _ _ _ W _ _ Q). }
  assert (DM : forall k, (if vpair_eqb (v1, v2) k then Some (mk_edge v1 None f None) else h_map s k) <> None <-> In k (map snd (P ++ [(f, (v1, v2))]))).
  { intros k. rewrite in_snoc_snd. destruct (vpair_eqb_spec (v1, v2) k) as [<-|X].
    - split; [intros _; right; reflexivity|discriminate].
    - rewrite (w_dom _ _ _ W). split; [tauto|]. intros [Q|Q]; [exact Q|congruence]. }
  cbn beta in H.
  destruct (if vpair_eqb (v1, v2) (v2, v1) then Some (mk_edge v1 None f None) else h_map s (v2, v1)) as [e'|] eqn:R.
  - apply bind_ok in H. destruct H as [k1 [K1 H]]. apply bind_ok in H. destruct H as [k2 [K2 H]].
    apply bind_ok in H. destruct H as [w1 [W1 H]]. apply bind_ok in H. destruct H as [w2 [W2 H]].
    apply bind_ok in H. destruct H as [x1 [X1 H]]. apply bind_ok in H. destruct H as [x2 [X2 H]].
    injection H as <-. split; [|reflexivity].
    apply madd_inv in K1. destruct K1 as [K1 ->]. apply madd_inv in K2. destruct K2 as [K2 ->].
    apply madd_inv in X1. destruct X1 as [X1 ->]. apply madd_inv in X2. destruct X2 as [X2 ->].
    destruct (vpair_eqb_spec (v1, v2) (v2, v1)) as [D|D]; [discriminate|].
    assert (D' : v1 <> v2) by (intros ->; congruence).
    assert (R3 : In (v2, v1) (map snd P)) by (apply (w_dom _ _ _ W); congruence).
    apply wr_inv in W1. apply wr_inv in W2. rewrite (w_vlen _ _ _ W) in W1. destruct W1 as [L1 W1]. rewrite W1 in W2. destruct W2 as [L2 W2].
    constructor; cbn [h_map h_nextkey h_index h_key h_facekey h_edges h_verts].
    + intros k. unfold mput. destruct (vpair_eqb_spec (v2, v1) k) as [<-|X].
      * split; [intros _; apply in_snoc_snd; left; exact R3|discriminate].
      * apply DM.
    + intros k i. rewrite app_length. cbn [length]. destruct (vpair_eqb_spec (v2, v1) k) as [<-|Y1].
      * intros Q. injection Q as <-. destruct (Nat.eqb_spec (S (length (h_edges s))) (length (h_edges s))) as [X|_]; [lia|]. rewrite Nat.eqb_refl.
        split; [reflexivity|]. split; [lia|]. rewrite !in_snoc_snd. cbn. split; [left; exact R3|]. split; [right; reflexivity|].
        split; [congruence|]. split; assumption.
      * destruct (vpair_eqb_spec (v1, v2) k) as [<-|Y2].
        -- intros Q. injection Q as <-. rewrite Nat.eqb_refl. split; [reflexivity|]. split; [lia|]. rewrite !in_snoc_snd. cbn.
           split; [right; reflexivity|]. split; [left; exact R3|]. split; [exact D'|]. split; assumption.
        -- intros Q. destruct (w_index _ _ _ W _ _ Q) as [Q1 [Q2 [Q3 [Q4 Q5]]]].
           destruct (Nat.eqb_spec (S (length (h_edges s))) i) as [X|_]; [lia|]. destruct (Nat.eqb_spec (length (h_edges s)) i) as [X|_]; [lia|].
           split; [exact Q1|]. split; [lia|]. rewrite !in_snoc_snd. split; [left; exact Q3|]. split; [left; exact Q4|exact Q5].
    + intros i k. rewrite app_length. cbn [length]. destruct (Nat.eqb_spec (S (length (h_edges s))) i) as [X|_]; [lia|].
      destruct (Nat.eqb_spec (length (h_edges s)) i) as [X|_]; [lia|]. intros Q. apply (w_key _ _ _ W) in Q. lia.
    + exact FK.
    + exact ND.
    + exact W2.
  - injection H as <-. split; [|reflexivity].
    constructor; cbn [h_map h_nextkey h_index h_key h_facekey h_edges h_verts]; try assumption.
    + intros k i Q. destruct (w_index _ _ _ W _ _ Q) as [Q1 [Q2 [Q3 [Q4 Q5]]]].
      split; [exact Q1|]. split; [exact Q2|]. rewrite !in_snoc_snd. split; [left; exact Q3|]. split; [left; exact Q4|exact Q5].
    + exact (w_key _ _ _ W).
    + exact (w_vlen _ _ _ W).
Qed.

Definition extends (m m' : vpair -> option vpair) : Prop := forall k k', m k = Some k' -> m' k = Some k'.
Lemma add_next_inv : forall k k' s s', add_next k k' s = Ok s' -> extends (h_nextkey s) (h_nextkey s') /\ h_nextkey s' k = Some k' /\
  forall nv P, winv nv P s -> winv nv P s'.
Proof.
  intros k k' s s' H. unfold add_next in H. apply bind_ok in H. destruct H as [m [M H]]. apply madd_inv in M. destruct M as [M0 ->].
  injection H as <-. cbn. split; [|split].
  - intros a b Q. destruct (vpair_eqb_spec k a) as [<-|X]; [congruence|exact Q].
  - destruct (vpair_eqb_spec k k); congruence.
  - intros nv P W. destruct W. constructor; assumption.
Qed.

Lemma visit_face_inv : forall nv f vs P0 todo v first prev s s',
  visit_face f vs v todo first prev s = Ok s' -> v + todo = length vs ->
  winv nv (P0 ++ map (pair f) (firstn v (around vs))) s ->
  (0 < v -> nth_error (around vs) 0 = Some first /\ nth_error (around vs) (v - 1) = Some prev) ->
  winv nv (P0 ++ map (pair f) (around vs)) s' /\ extends (h_nextkey s) (h_nextkey s') /\
  (forall n k k', v <= S n -> (todo = 0 -> S n < v) -> nth_error (around vs) n = Some k -> nth_error (around vs) (cyc (length vs) n) = Some k' ->
     S n = v -> v < length vs -> h_nextkey s' k = Some k') /\
  (forall n k k', v <= n -> nth_error (around vs) n = Some k -> nth_error (around vs) (cyc (length vs) n) = Some k' -> h_nextkey s' k = Some k').
Proof.
  intros nv f vs P0 todo. induction todo as [|todo IH]; intros v first prev s s' H Lv W FP.
  - cbn in H. injection H as <-. replace v with (length vs) in * by lia.
    rewrite <- (around_length vs) in W. rewrite firstn_all in W. split; [exact W|]. split; [intros k k' Q; exact Q|]. split.
    + intros; lia.
    + intros n k k' Hn Q. assert (n < length (around vs)) by (apply nth_error_Some; congruence). rewrite around_length in *. lia.
  - cbn [visit_face] in H. assert (Hv : v < length vs) by lia.
    destruct (around_at vs v Hv) as [v1 [v2 [E1 E2]]]. rewrite E1, E2 in H. cbn [rd bind] in H.
    pose proof (around_nth _ _ _ _ E1 E2) as EA.
    set (A := around vs) in *. set (k := (v1, v2)) in *.
    assert (LA : length A = length vs) by apply around_length.
    apply bind_ok in H. destruct H as [s1 [Q1 H]]. apply bind_ok in H. destruct H as [s2 [Q2 H]]. apply bind_ok in H. destruct H as [s3 [Q3 H]].
    assert (F' : nth_error A 0 = Some (if Nat.eqb v 0 then k else first)).
    { destruct (Nat.eqb_spec v 0) as [->|Z]; [exact EA|]. apply FP. lia. }
    assert (S1 : winv nv (P0 ++ map (pair f) (firstn v A)) s1 /\ extends (h_nextkey s) (h_nextkey s1) /\ (0 < v -> h_nextkey s1 prev = Some k)).
    { destruct (Nat.eqb_spec v 0) as [Z|Z].
      - injection Q1 as <-. split; [exact W|]. split; [intros a b Q; exact Q|lia].
      - apply add_next_inv in Q1. destruct Q1 as [A1 [A2 A3]]. split; [apply A3; exact W|]. split; [exact A1|]. intros _. exact A2. }
    destruct S1 as [W1 [X1 N1]].
    assert (S2 : winv nv (P0 ++ map (pair f) (firstn v A)) s2 /\ extends (h_nextkey s1) (h_nextkey s2) /\
                 (v = length vs - 1 -> h_nextkey s2 k = Some (if Nat.eqb v 0 then k else first))).
    { destruct (Nat.eqb_spec v (length vs - 1)) as [Z|Z].
      - apply add_next_inv in Q2. destruct Q2 as [A1 [A2 A3]]. split; [apply A3; exact W1|]. split; [exact A1|]. intros _. exact A2.
      - injection Q2 as <-. split; [exact W1|]. split; [intros a b Q; exact Q|contradiction]. }
    destruct S2 as [W2 [X2 N2]].
    destruct (visit_edge_inv _ _ _ _ _ _ _ Q3 W2) as [W3 N3].
    destruct (IH _ _ _ _ _ H) as [W4 [X4 [NV NN]]].
    + lia.
    + rewrite (firstn_snoc _ _ _ _ EA), map_app, app_assoc. exact W3.
    + intros _. split; [exact F'|]. replace (S v - 1) with v by lia. exact EA.
    + assert (X5 : extends (h_nextkey s2) (h_nextkey s')) by (intros a b Q; apply X4; rewrite N3; exact Q).
      split; [exact W4|]. split; [|split].
      * intros a b Q. apply X5, X2, X1. exact Q.
      * intros n a b _ _ Ha Hb Hn _. destruct (FP ltac:(lia)) as [_ PV]. replace (v - 1) with n in PV by lia.
        rewrite Ha in PV. injection PV as <-. unfold cyc in Hb. destruct (Nat.eqb_spec (S n) (length vs)) as [Y|_]; [lia|].
        rewrite Hn in Hb. assert (b = k) by congruence. subst b. apply X5, X2, N1. lia.
      * intros n a b Hn Ha Hb. destruct (Nat.eq_dec n v) as [->|D].
        -- rewrite EA in Ha. injection Ha as <-. destruct (Nat.eq_dec v (length vs - 1)) as [Z|Z].
           ++ unfold cyc in Hb. destruct (Nat.eqb_spec (S v) (length vs)) as [_|Y]; [|lia].
              rewrite F' in Hb. injection Hb as <-. apply X5, N2. exact Z.
           ++ apply (NV v k b); try lia; assumption.
        -- apply (NN n a b); try lia; assumption.
Qed.

Lemma visit_faces_inv : forall nv faces done f s s',
  visit_faces f faces s = Ok s' -> f = length done -> winv nv (tagged 0 done) s -> all_next done (h_nextkey s) ->
  winv nv (tagged 0 (done ++ faces)) s' /\ all_next (done ++ faces) (h_nextkey s').
Proof.
  intros nv faces. induction faces as [|vs r IH]; intros done f s s' H Lf W AN.
  - cbn in H. injection H as <-. rewrite app_nil_r. split; assumption.
  - cbn [visit_faces] in H. apply bind_ok in H. destruct H as [s1 [Q H]].
    assert (TG : forall l g x, tagged g (l ++ [x]) = tagged g l ++ map (pair (g + length l)) (around x)).
    { induction l as [|y l IHl]; intros g x; cbn [tagged app length].
      - rewrite app_nil_r, Nat.add_0_r. reflexivity.
      - rewrite IHl, app_assoc. do 3 f_equal. lia. }
    destruct (visit_face_inv nv f vs (tagged 0 done) _ _ _ _ _ _ Q) as [W1 [X1 [_ N1]]].
    + reflexivity.
    + cbn. rewrite app_nil_r. exact W.
    + lia.
    + replace (done ++ vs :: r) with ((done ++ [vs]) ++ r) by (rewrite <- app_assoc; reflexivity).
      apply (IH (done ++ [vs]) (S f) s1); [exact H|rewrite app_length; cbn; lia|rewrite TG; cbn; rewrite <- Lf; exact W1|].
      intros ws n k k' Hin Hk Hk'. apply in_app_iff in Hin. destruct Hin as [Hin|[<-|[]]].
      * apply X1. exact (AN ws n k k' Hin Hk Hk').
      * apply (N1 n); [lia|exact Hk|exact Hk'].
Qed.
Lemma set_next_inv : forall s es i es', set_next s i es = Ok es' -> forall n, n < length es ->
  exists k k' j, h_key s (i + n) = Some k /\ h_nextkey s k = Some k' /\ h_index s k' = Some j.
Proof.
  intros s es. induction es as [|x es IH]; intros i es' H n Hn; cbn in Hn; [lia|].
  cbn [set_next] in H. destruct (h_key s i) as [k|] eqn:K; [|discriminate]. cbn [rd bind] in H.
  destruct (h_nextkey s k) as [k'|] eqn:K'; [|discriminate]. cbn [rd bind] in H.
  destruct (h_index s k') as [j|] eqn:J; [|discriminate]. cbn [rd bind] in H.
  apply bind_ok in H. destruct H as [r [H _]]. destruct n as [|n].
  - exists k, k', j. rewrite Nat.add_0_r. split; [exact K|]. split; assumption.
  - replace (i + S n) with (S i + n) by lia. apply (IH _ _ H). lia.
Qed.
Lemma set_faces_inv : forall s fs l, set_faces s fs = Ok l -> forall f, In f fs -> exists k j, h_facekey s f = Some k /\ h_index s k = Some j.
Proof.
  intros s fs. induction fs as [|g fs IH]; intros l H f Hf; [contradiction|].
  cbn [set_faces] in H. destruct (h_facekey s g) as [k|] eqn:K; [|discriminate]. cbn [rd bind] in H.
  destruct (h_index s k) as [j|] eqn:J; [|discriminate]. cbn [rd bind] in H.
  apply bind_ok in H. destruct H as [r [H _]]. destruct Hf as [<-|Hf]; [exists k, j; split; assumption|exact (IH _ H _ Hf)].
Qed.

Theorem half_edges_closed : forall nv faces h, compute_half_edges nv faces = Ok h ->
  faces <> [] /\ (forall vs, In vs faces -> vs <> []) /\ in_range nv faces /\ closed faces.
Proof.
  intros nv faces h H. unfold compute_half_edges in H.
  destruct faces as [|vs0 r0] eqn:EF; [discriminate|]. cbn [nth_error rd bind] in H. rewrite <- EF in *.
  split; [congruence|]. clear EF vs0 r0.
  apply bind_ok in H. destruct H as [s [V H]]. apply bind_ok in H. destruct H as [es [E H]]. apply bind_ok in H. destruct H as [fs [F _]].
  assert (W0 : winv nv (tagged 0 []) (init_hstate nv)).
  { constructor; cbn; try discriminate; try easy; [constructor|apply repeat_length]. }
  destruct (visit_faces_inv nv _ [] _ _ _ V) as [W AN]; [reflexivity|exact W0|intros ws n k k' []|]. cbn [app] in W, AN.
  assert (TE : map snd (tagged 0 faces) = mesh_edges faces) by apply tagged_edges.
  assert (ND : NoDup (mesh_edges faces)) by (rewrite <- TE; exact (w_nodup _ _ _ W)).
  (* the face edge of each face *)
  assert (FE : forall f vs, nth_error faces f = Some vs -> exists n k i, nth_error (around vs) n = Some k /\ h_index s k = Some i).
  { intros f vs Q. destruct (set_faces_inv _ _ _ F f) as [k [j [K J]]].
    - apply in_seq. split; [lia|]. cbn. apply nth_error_Some. congruence.
    - apply (w_face _ _ _ W) in K. apply tagged_in in K. destruct K as [g [ws [G1 [G2 G3]]]]. cbn in G1. subst g.
      rewrite Q in G2. injection G2 as <-. destruct (In_nth_error _ _ G3) as [n Hn]. exists n, k, j. split; assumption. }
  (* a step around the face *)
  assert (ST : forall vs n k i, In vs faces -> nth_error (around vs) n = Some k -> h_index s k = Some i ->
            exists k' j, nth_error (around vs) (cyc (length vs) n) = Some k' /\ h_index s k' = Some j).
  { intros vs n [a b] i Hin Hk Hi. destruct (around_cyc _ _ _ _ Hk) as [c Hc].
    destruct (w_index _ _ _ W _ _ Hi) as [Ki [Li _]].
    destruct (set_next_inv _ _ _ _ E i Li) as [k [k' [j [K1 [K2 K3]]]]]. cbn in K1. rewrite Ki in K1. injection K1 as <-.
    rewrite (AN _ _ _ _ Hin Hk Hc) in K2. injection K2 as <-. exists (b, c), j. split; assumption. }
  assert (AL : forall vs n, In vs faces -> n < length vs -> exists k i, nth_error (around vs) n = Some k /\ h_index s k = Some i).
  { intros vs n Hin Hn. destruct (In_nth_error _ _ Hin) as [f Hf]. destruct (FE _ _ Hf) as [m [k [i [M1 M2]]]].
    assert (Hm : m < length vs) by (rewrite <- around_length; apply nth_error_Some; congruence).
    assert (IT : forall d, exists k i, nth_error (around vs) ((m + d) mod length vs) = Some k /\ h_index s k = Some i).
    { induction d as [|d [k' [i' [D1 D2]]]].
      - rewrite Nat.add_0_r, Nat.mod_small by exact Hm. exists k, i. split; assumption.
      - destruct (ST _ _ _ _ Hin D1 D2) as [k2 [i2 [D3 D4]]]. exists k2, i2. split; [|exact D4].
        rewrite <- D3. f_equal. unfold cyc. pose proof (Nat.mod_upper_bound (m + d) (length vs) ltac:(lia)) as B.
        pose proof (Nat.div_mod (m + d) (length vs) ltac:(lia)) as DM.
        destruct (Nat.eqb_spec (S ((m + d) mod length vs)) (length vs)) as [X|X].
        + symmetry. apply (Nat.mod_unique _ _ (S ((m + d) / length vs))); [lia|]. rewrite Nat.mul_succ_r. lia.
        + symmetry. apply (Nat.mod_unique _ _ ((m + d) / length vs)); lia. }
    destruct (IT (length vs - m + n)) as [k' [i' [D1 D2]]]. exists k', i'. split; [|exact D2].
    rewrite <- D1. f_equal. apply (Nat.mod_unique _ _ 1); lia. }
  assert (AK : forall k, In k (mesh_edges faces) -> exists i, h_index s k = Some i).
  { intros k Hk. apply in_flat_map in Hk. destruct Hk as [vs [Hin Hk]]. destruct (In_nth_error _ _ Hk) as [n Hn].
    assert (Ln : n < length vs) by (rewrite <- around_length; apply nth_error_Some; congruence).
    destruct (AL _ _ Hin Ln) as [k' [i [Q1 Q2]]]. rewrite Hn in Q1. injection Q1 as <-. exists i. exact Q2. }
  split; [|split; [|split]].
  - intros vs Hin ->. destruct (In_nth_error _ _ Hin) as [f Hf]. destruct (FE _ _ Hf) as [[|n] [k [i [M1 M2]]]]; discriminate.
  - intros vs v Hin Hv. destruct (in_around _ _ Hv) as [b Hb].
    assert (M : In (v, b) (mesh_edges faces)) by (apply in_flat_map; exists vs; split; assumption).
    destruct (AK _ M) as [i Hi]. apply (w_index _ _ _ W) in Hi. cbn in Hi. tauto.
  - exact ND.
  - intros k Hk. destruct (AK _ Hk) as [i Hi]. apply (w_index _ _ _ W) in Hi. rewrite TE in Hi. tauto.
Qed.
