(** Proofs about the making of triangle meshes. *)
From Coq Require Import List Sorted Arith Lia Bool.
From Verif Require Import Base Decimal TreeModel RayModel VecModel VecProofs GeomSpec ShapeModel ShapeSpec TriMeshModel TriMeshSpec.
Import ListNotations.
Local Open Scope R_scope.

(** ** Lists *)
Lemma put_length {A} (a : A) : forall l i, length (put_at i a l) = length l.
Proof. induction l as [|x l IH]; intros [|i]; cbn; auto. Qed.
Lemma put_same {A} (a : A) : forall l i, (i < length l)%nat -> nth_error (put_at i a l) i = Some a.
Proof. induction l as [|x l IH]; intros [|i] H; cbn in *; try lia; auto. apply IH. lia. Qed.
Lemma put_other {A} (a : A) : forall l i j, j <> i -> nth_error (put_at i a l) j = nth_error l j.
Proof. induction l as [|x l IH]; intros [|i] [|j] H; cbn; auto; try congruence. Qed.
Lemma nth_some {A} (l : list A) i : (i < length l)%nat -> exists a, nth_error l i = Some a.
Proof. intros H. destruct (nth_error l i) eqn:E; [eauto|]. apply nth_error_None in E. lia. Qed.
Lemma some_lt {A} (l : list A) i a : nth_error l i = Some a -> (i < length l)%nat.
Proof. intros H. apply nth_error_Some. congruence. Qed.
Lemma delete_app {A} (l1 : list A) : forall x l2, delete_at (length l1) (l1 ++ x :: l2) = l1 ++ l2.
Proof. induction l1 as [|y l1 IH]; intros; cbn; [reflexivity|]. now rewrite IH. Qed.
Lemma delete_map {A B} (g : A -> B) : forall l i, map g (delete_at i l) = delete_at i (map g l).
Proof. induction l as [|x l IH]; intros [|i]; cbn; auto. now rewrite IH. Qed.
Lemma nth_snoc {A} (l : list A) a i x : nth_error (l ++ [a]) i = Some x <-> nth_error l i = Some x \/ i = length l /\ x = a.
Proof.
  destruct (Nat.lt_trichotomy i (length l)) as [H|[H|H]].
  - rewrite nth_error_app1 by exact H. split; [auto|]. intros [H'|[H' _]]; [exact H'|lia].
  - subst. rewrite nth_error_app2 by lia. rewrite Nat.sub_diag. cbn. split.
    + intros [= ->]. auto.
    + intros [H|[_ ->]]; [|reflexivity]. apply some_lt in H. lia.
  - split.
    + intros K. apply some_lt in K. rewrite app_length in K. cbn in K. lia.
    + intros [K|[K _]]; [apply some_lt in K|]; lia.
Qed.
Lemma NoDup_app_snoc {A} (a : A) : forall l, NoDup l -> ~ In a l -> NoDup (l ++ [a]).
Proof.
  induction l as [|x l IH]; intros N H; cbn; [constructor; [intros []|constructor]|]. inversion N; subst. constructor.
  - rewrite in_app_iff. cbn. intros [K|[K|[]]]; [contradiction|]. apply H. now left.
  - apply IH; [assumption|]. intros K. apply H. now right.
Qed.
Lemma list_as_map {A} (d : A) : forall l m, length l = m -> l = map (fun j => nth j l d) (seq 0 m).
Proof.
  induction l as [|x l IH]; intros m <-; [reflexivity|]. cbn [length seq map nth]. f_equal. rewrite <- seq_shift, map_map. now apply IH.
Qed.
Lemma kept_snoc_in {A} (P : A -> Prop) a : P a -> forall l k, kept P l k -> kept P (l ++ [a]) (k ++ [a]).
Proof. intros H. induction 1; cbn; [apply kept_in; [exact H|constructor]|now apply kept_in|now apply kept_out]. Qed.
Lemma kept_snoc_out {A} (P : A -> Prop) a : ~ P a -> forall l k, kept P l k -> kept P (l ++ [a]) k.
Proof. intros H. induction 1; cbn; [apply kept_out; [exact H|constructor]|now apply kept_in|now apply kept_out]. Qed.
Lemma kept_iff {A} (P : A -> Prop) : forall l k, kept P l k -> forall a, In a k <-> In a l /\ P a.
Proof.
  induction 1 as [|a l k H K IH|a l k H K IH]; intros x; cbn; [tauto| |]; rewrite IH; split; intros; intuition (subst; auto).
  contradiction.
Qed.

(** ** The tolerance *)
Lemma larger_ok m a : m <= larger m a /\ Rabs a <= larger m a /\ (larger m a = m \/ larger m a = Rabs a).
Proof. unfold larger, rlt. destruct (Rlt_dec m (Rabs a)); lra. Qed.
Lemma fold_larger (g : vec3 -> R) : forall vs m, let r := fold_left (fun m v => larger m (g v)) vs m in
  m <= r /\ (forall v, In v vs -> Rabs (g v) <= r) /\ (r = m \/ exists v, In v vs /\ Rabs (g v) = r).
Proof.
  induction vs as [|v vs IH]; intros m; cbn [fold_left].
  - split; [lra|]. split; [intros v []|now left].
  - cbv zeta in IH |- *. specialize (IH (larger m (g v))). set (r := fold_left _ _ _) in *. destruct IH as [A [B C]].
    destruct (larger_ok m (g v)) as [D [E F]]. split; [lra|]. split.
    + intros w [<-|W]; [lra|now apply B].
    + destruct C as [C|[w [W C]]]; [|right; exists w; split; [now right|exact C]].
      destruct F as [F|F]; [left; lra|right; exists v; split; [now left|lra]].
Qed.
Lemma extents_split : forall vs m, fold_left (fun m v => V3 (larger (vx m) (vx v)) (larger (vy m) (vy v)) (larger (vz m) (vz v))) vs m =
  V3 (fold_left (fun m v => larger m (vx v)) vs (vx m)) (fold_left (fun m v => larger m (vy v)) vs (vy m)) (fold_left (fun m v => larger m (vz v)) vs (vz m)).
Proof. induction vs as [|v vs IH]; intros [x y z]; cbn [fold_left]; [reflexivity|]. rewrite IH. reflexivity. Qed.
Lemma fold_largest (g : vec3 -> R) vs : largest g vs (fold_left (fun m v => larger m (g v)) vs 0).
Proof.
  destruct (fold_larger g vs 0) as [A [B C]]. split; [exact B|]. destruct vs as [|v vs]; [now left|]. right. destruct C as [C|C]; [|exact C].
  exists v. split; [now left|]. specialize (B v (or_introl eq_refl)). pose proof (Rabs_pos (g v)). lra.
Qed.
Lemma largest_unique g vs a b : largest g vs a -> largest g vs b -> a = b.
Proof.
  intros [A1 A2] [B1 B2]. destruct A2 as [[-> ->]|[v [V A2]]]; [|].
  - destruct B2 as [[-> _]|[v [[] _]]]. reflexivity.
  - destruct B2 as [[_ ->]|[w [W B2]]]; [destruct V|]. specialize (A1 w W). specialize (B1 v V). lra.
Qed.
Lemma tolerance_iff eps vs e : tolerance eps vs e <-> e = mesh_epsilon eps vs.
Proof.
  unfold tolerance, mesh_epsilon, extents. rewrite extents_split. cbn [vx vy vz vzero]. cbv zeta. split.
  - intros [x [y [z [X [Y [Z ->]]]]]]. rewrite (largest_unique _ _ _ _ X (fold_largest vx vs)), (largest_unique _ _ _ _ Y (fold_largest vy vs)),
      (largest_unique _ _ _ _ Z (fold_largest vz vs)). reflexivity.
  - intros ->. do 3 eexists. split; [apply fold_largest|]. split; [apply fold_largest|]. split; [apply fold_largest|reflexivity].
Qed.
Lemma mesh_epsilon_nonneg eps vs : 0 < eps -> 0 <= mesh_epsilon eps vs.
Proof.
  intros H. unfold mesh_epsilon, extents. rewrite extents_split. cbn [vx vy vz vzero]. cbv zeta.
  destruct (fold_larger vx vs 0) as [A _]. destruct (fold_larger vy vs 0) as [B _]. destruct (fold_larger vz vs 0) as [C _].
  apply Rmult_le_pos; lra.
Qed.

(** ** The tests on triangles *)
Lemma vlen_lt_square v e : 0 <= e -> (vlen2 v < e * e <-> vlen v < e).
Proof.
  intros H. unfold vlen. assert (P : 0 <= vlen2 v) by (unfold vlen2; nra). pose proof (sqrt_pos (vlen2 v)) as Q. pose proof (sqrt_sqrt _ P) as S.
  split; intros; nra.
Qed.
Lemma short_square e v : 0 <= e -> rlt (vlen2 v) (e * e) = true <-> vlen v < e.
Proof. intros H. rewrite <- vlen_lt_square by exact H. unfold rlt. destruct (Rlt_dec _ _); split; intros; try lra; try discriminate; reflexivity. Qed.
Lemma vlen_cross_swap a b : vlen (vcross a b) = vlen (vcross b a).
Proof. unfold vlen. f_equal. unfold vlen2, vcross. cbn [vx vy vz]. ring. Qed.
Lemma dist_vlen p q : vlen (vsub q p) = dist p q.
Proof. unfold vlen, dist, vlen2, vsub. cbn [vx vy vz]. f_equal. unfold Rsqr. ring. Qed.
Lemma zero_area_iff e p q r : 0 <= e -> zero_area (e * e) p q r = true <-> flat e p q r.
Proof. intros H. unfold zero_area. rewrite short_square by exact H. unfold flat, double_area. now rewrite vlen_cross_swap. Qed.
Lemma zero_edge_iff e p q r : 0 <= e -> zero_edge (e * e) p q r = true <-> short e p q r.
Proof.
  intros H. unfold zero_edge, short. rewrite !orb_true_iff, !short_square by exact H. rewrite !dist_vlen. tauto.
Qed.
Lemma points_corner vs f p q r : points_of vs f p q r -> forall j, corner f j -> (j < length vs)%nat.
Proof. destruct f as [[a b] c]. intros [A [B C]] j [->|[->| ->]]; eapply some_lt; eauto. Qed.
Lemma points_unique vs f p q r p' q' r' : points_of vs f p q r -> points_of vs f p' q' r' -> p = p' /\ q = q' /\ r = r'.
Proof. destruct f as [[a b] c]. intros [A [B C]] [A' [B' C']]. repeat split; congruence. Qed.
Lemma bad_none n f : bad_indices n f = [] <-> forall j, corner f j -> (j < n)%nat.
Proof.
  destruct f as [[a b] c]. unfold bad_indices, corner. cbn [filter].
  destruct (Nat.leb_spec n a), (Nat.leb_spec n b), (Nat.leb_spec n c); split; intros H'; try reflexivity; try discriminate; try (intros j [->|[->| ->]]; assumption);
  exfalso; [specialize (H' a)|specialize (H' a)|specialize (H' a)|specialize (H' a)|specialize (H' b)|specialize (H' b)|specialize (H' c)]; intuition lia.
Qed.
Lemma bad_in n f v : In v (bad_indices n f) <-> corner f v /\ (n <= v)%nat.
Proof.
  destruct f as [[a b] c]. unfold bad_indices, corner. rewrite filter_In. rewrite Nat.leb_le. cbn. intuition.
Qed.

Lemma classic_msg (m : message) : m = NoTriangles \/ m <> NoTriangles.
Proof. destruct m; (now left) || (right; discriminate). Qed.

(** ** The copy of the faces *)
Section Copy.
Variables (ta : tri_array) (e : R).
Hypothesis E0 : 0 <= e.
Hypothesis CP : complete ta.
Let n := length (ta_vertices ta).
Definition normal_of (j : nat) : vec3 := match ta_normals ta with None => vzero | Some ns => nth j ns vzero end.
Definition used_by (done : list face) (j : nat) : Prop := exists f, In f done /\ good ta e f /\ corner f j.
Definition small_by (done : list face) (j : nat) : Prop :=
  exists ns m, ta_normals ta = Some ns /\ nth_error ns j = Some m /\ vlen m < e /\ used_by done j.
Definition said_by (done : list face) (m : message) : Prop :=
  match m with
  | IndexOut i v => exists f, nth_error done i = Some f /\ corner f v /\ (n <= v)%nat
  | ZeroArea i => exists f p q r, nth_error done i = Some f /\ points_of (ta_vertices ta) f p q r /\ flat e p q r
  | ZeroEdge i => exists f p q r, nth_error done i = Some f /\ points_of (ta_vertices ta) f p q r /\ short e p q r
  | SmallNormal j => small_by done j
  | NoTriangles => False
  end.
Record BInv (done : list face) (s : builder) : Prop :=
  { bi_v : length (b_vertices s) = n; bi_n : length (b_normals s) = n; bi_u : length (b_used s) = n
  ; bi_faces : kept (good ta e) done (b_faces s)
  ; bi_used : forall j, (j < n)%nat -> (used_by done j -> nth_error (b_used s) j = Some true /\ nth_error (b_vertices s) j = nth_error (ta_vertices ta) j /\ nth_error (b_normals s) j = Some (normal_of j)) /\
      (~ used_by done j -> nth_error (b_used s) j = Some false /\ nth_error (b_vertices s) j = Some vzero /\ nth_error (b_normals s) j = Some vzero)
  ; bi_valid : b_valid s = true <-> (forall f, In f done -> in_range ta f) /\ (forall j, ~ small_by done j)
  ; bi_said : forall m, In m (b_messages s) <-> said_by done m }.

Lemma used_snoc done f j : used_by (done ++ [f]) j <-> used_by done j \/ good ta e f /\ corner f j.
Proof.
  unfold used_by. split.
  - intros [g [I [G C]]]. apply in_app_iff in I. destruct I as [I|[<-|[]]]; eauto 6.
  - intros [[g [I [G C]]]|[G C]]; [exists g|exists f]; (split; [apply in_app_iff; cbn; auto|auto]).
Qed.
Lemma small_snoc done f j : small_by (done ++ [f]) j <-> small_by done j \/ good ta e f /\ corner f j /\ exists ns m, ta_normals ta = Some ns /\ nth_error ns j = Some m /\ vlen m < e.
Proof.
  unfold small_by. split.
  - intros [ns [m [A [B [C U]]]]]. apply used_snoc in U. destruct U as [U|[G U]]; [left|right]; eauto 10.
  - intros [[ns [m [A [B [C U]]]]]|[G [U [ns [m [A [B C]]]]]]]; exists ns, m; rewrite used_snoc; auto 8.
Qed.
Lemma range_snoc done f : (forall g, In g (done ++ [f]) -> in_range ta g) <-> (forall g, In g done -> in_range ta g) /\ in_range ta f.
Proof.
  split.
  - intros H. split; [intros g G|]; apply H; apply in_app_iff; cbn; auto.
  - intros [H K] g G. apply in_app_iff in G. destruct G as [G|[<-|[]]]; auto.
Qed.

Lemma copy_face_ok done f s : BInv done s -> exists s', copy_face (e * e) ta (length done) f s = Ok s' /\ BInv (done ++ [f]) s'.
Proof.
  intros [LV LN LU KF US VA SA]. destruct f as [[a b] c]. unfold copy_face. destruct (bad_indices (length (ta_vertices ta)) (a, b, c)) as [|x bad] eqn:BI.
  - (* the indices are in range *)
    pose proof (proj1 (bad_none _ _) BI) as RG. fold n in RG.
    destruct (nth_some (ta_vertices ta) a) as [p P]; [apply RG; cbn; auto|].
    destruct (nth_some (ta_vertices ta) b) as [q Q]; [apply RG; cbn; auto|].
    destruct (nth_some (ta_vertices ta) c) as [r R]; [apply RG; cbn; auto|].
    rewrite P, Q, R. cbn [rd bind].
    assert (PO : points_of (ta_vertices ta) (a, b, c) p q r) by (cbn; auto).
    assert (NB : forall v, ~ (corner (a, b, c) v /\ (n <= v)%nat)) by (intros v [C H]; specialize (RG v C); lia).
    destruct (zero_area (e * e) p q r || zero_edge (e * e) p q r)%bool eqn:ZZ.
    + (* dropped *)
      assert (NG : ~ good ta e (a, b, c)).
      { intros [p' [q' [r' [P' [F' S']]]]]. destruct (points_unique _ _ _ _ _ _ _ _ P' PO) as [-> [-> ->]].
        apply orb_true_iff in ZZ. rewrite zero_area_iff, zero_edge_iff in ZZ by exact E0. tauto. }
      eexists. split; [reflexivity|]. constructor; cbn [b_vertices b_normals b_faces b_used b_valid b_messages]; auto.
      * now apply kept_snoc_out.
      * intros j J. rewrite used_snoc. destruct (US j J) as [U1 U2]. split; [intros [H|[H _]]; [auto|contradiction]|intros H; apply U2; tauto].
      * rewrite VA, range_snoc. assert (RI : in_range ta (a, b, c)) by exact RG. split.
        -- intros [H1 H2]. split; [auto|]. intros j H. rewrite small_snoc in H. destruct H as [H|[H _]]; [now apply (H2 j)|contradiction].
        -- intros [[H1 H2] H3]. split; [auto|]. intros j H'. apply (H3 j). rewrite small_snoc. auto.
      * intros m. rewrite !in_app_iff, SA.
        pose proof (zero_area_iff e p q r E0) as ZA. pose proof (zero_edge_iff e p q r E0) as ZE.
        destruct m as [i v|i|i|v|]; cbn [said_by].
        -- split.
           ++ intros [[f [F C]]|[H|H]]; [exists f; rewrite nth_snoc; auto| |]; [destruct (zero_area _ _ _ _)|destruct (zero_edge _ _ _ _)]; cbn in H; intuition discriminate.
           ++ intros [f [F C]]. apply nth_snoc in F. destruct F as [F|[-> ->]]; [eauto|]. destruct (NB v C).
        -- split.
           ++ intros [[f [p' [q' [r' [F C]]]]]|[H|H]]; [exists f, p', q', r'; rewrite nth_snoc; auto| |].
              ** destruct (zero_area _ _ _ _); cbn in H; [|tauto]. destruct H as [[= <-]|[]]. exists (a, b, c), p, q, r. rewrite nth_snoc. intuition.
              ** destruct (zero_edge _ _ _ _); cbn in H; intuition discriminate.
           ++ intros [f [p' [q' [r' [F [C D]]]]]]. apply nth_snoc in F. destruct F as [F|[-> ->]]; [left; eauto 8|].
              destruct (points_unique _ _ _ _ _ _ _ _ C PO) as [-> [-> ->]]. apply ZA in D. rewrite D. cbn. auto.
        -- split.
           ++ intros [[f [p' [q' [r' [F C]]]]]|[H|H]]; [exists f, p', q', r'; rewrite nth_snoc; auto| |].
              ** destruct (zero_area _ _ _ _); cbn in H; intuition discriminate.
              ** destruct (zero_edge _ _ _ _); cbn in H; [|tauto]. destruct H as [[= <-]|[]]. exists (a, b, c), p, q, r. rewrite nth_snoc. intuition.
           ++ intros [f [p' [q' [r' [F [C D]]]]]]. apply nth_snoc in F. destruct F as [F|[-> ->]]; [left; eauto 8|].
              destruct (points_unique _ _ _ _ _ _ _ _ C PO) as [-> [-> ->]]. apply ZE in D. rewrite D. cbn. auto.
        -- rewrite small_snoc. split; [intros [H|[H|H]]; [auto| |]; [destruct (zero_area _ _ _ _)|destruct (zero_edge _ _ _ _)]; cbn in H; intuition discriminate|].
           intros [H|[H _]]; [auto|contradiction].
        -- split; [|tauto]. intros [H|[H|H]]; [auto| |]; [destruct (zero_area _ _ _ _)|destruct (zero_edge _ _ _ _)]; cbn in H; intuition discriminate.
    + (* kept *)
      apply orb_false_iff in ZZ. destruct ZZ as [ZA ZE].
      assert (NF : ~ flat e p q r) by (rewrite <- zero_area_iff by exact E0; congruence).
      assert (NS : ~ short e p q r) by (rewrite <- zero_edge_iff by exact E0; congruence).
      assert (G : good ta e (a, b, c)) by (exists p, q, r; auto).
      assert (NM : exists errors, face_normals (e * e) ta (a, b, c) = Ok (normal_of a, normal_of b, normal_of c, errors) /\
        (forall m, In m errors <-> exists j, m = SmallNormal j /\ corner (a, b, c) j /\ exists ns x, ta_normals ta = Some ns /\ nth_error ns j = Some x /\ vlen x < e)).
      { unfold face_normals, normal_of. destruct (ta_normals ta) as [ns|] eqn:EN.
        - pose proof (CP ns EN) as LNS. fold n in LNS.
          assert (RD : forall j, corner (a, b, c) j -> nth_error ns j = Some (nth j ns vzero)) by (intros j C; apply nth_error_nth'; rewrite LNS; auto).
          rewrite !RD by (cbn; auto). cbn [rd bind]. eexists. split; [reflexivity|]. intros m. rewrite in_map_iff. split.
          + intros [[j x] [<- H]]. apply filter_In in H. destruct H as [H1 H2]. cbn [fst snd] in *. apply short_square in H2; [|exact E0]. exists j.
            split; [reflexivity|]. cbn [In] in H1.
            assert (C : corner (a, b, c) j /\ x = nth j ns vzero) by (destruct H1 as [[= <- <-]|[[= <- <-]|[[= <- <-]|[]]]]; cbn; auto).
            destruct C as [C ->]. split; [exact C|]. exists ns, (nth j ns vzero). auto.
          + intros [j [-> [C [ns' [x [[= <-] [X L]]]]]]]. exists (j, x). split; [reflexivity|]. apply filter_In. cbn [snd]. rewrite short_square by exact E0. split; [|exact L].
            rewrite (RD j C) in X. injection X as <-. cbn [In]. destruct C as [->|[->| ->]]; auto.
        - eexists. split; [reflexivity|]. intros m. split; [intros []|]. intros [j [_ [_ [ns [x [H _]]]]]]. discriminate. }
      destruct NM as [errors [NM NE]]. rewrite NM. cbn [bind].
      eexists. split; [reflexivity|]. constructor; cbn [b_vertices b_normals b_faces b_used b_valid b_messages].
      * now rewrite !put_length.
      * now rewrite !put_length.
      * now rewrite !put_length.
      * now apply kept_snoc_in.
      * assert (A' : (a < n)%nat) by (apply RG; cbn; auto). assert (B' : (b < n)%nat) by (apply RG; cbn; auto). assert (C' : (c < n)%nat) by (apply RG; cbn; auto).
        assert (W : forall (T : Type) (g : nat -> option T) (x y z : T) l j, length l = n -> g a = Some x -> g b = Some y -> g c = Some z -> (j < n)%nat ->
          (corner (a, b, c) j -> nth_error (put_at c z (put_at b y (put_at a x l))) j = g j) /\
          (~ corner (a, b, c) j -> nth_error (put_at c z (put_at b y (put_at a x l))) j = nth_error l j)).
        { intros T g x y z l j L GA GB GC J. cbn [corner].
          destruct (Nat.eq_dec j c) as [->|NC]; [rewrite put_same by (rewrite !put_length; lia); split; [now rewrite GC|tauto]|]. rewrite put_other by exact NC.
          destruct (Nat.eq_dec j b) as [->|NB']; [rewrite put_same by (rewrite !put_length; lia); split; [now rewrite GB|tauto]|]. rewrite put_other by exact NB'.
          destruct (Nat.eq_dec j a) as [->|NA]; [rewrite put_same by lia; split; [now rewrite GA|tauto]|]. rewrite put_other by exact NA.
          split; [intros [H|[H|H]]; contradiction|reflexivity]. }
        intros j J. rewrite used_snoc. destruct (US j J) as [U1 U2].
        destruct (W _ (fun _ => Some true) true true true (b_used s) j LU eq_refl eq_refl eq_refl J) as [W1 W2].
        destruct (W _ (nth_error (ta_vertices ta)) p q r (b_vertices s) j LV P Q R J) as [W3 W4].
        destruct (W _ (fun j => Some (normal_of j)) _ _ _ (b_normals s) j LN eq_refl eq_refl eq_refl J) as [W5 W6].
        assert (CD : corner (a, b, c) j \/ ~ corner (a, b, c) j) by (cbn; lia).
        destruct CD as [CD|CD]; [rewrite W1, W3, W5 by exact CD|rewrite W2, W4, W6 by exact CD]; split; intros H; [auto|tauto| |apply U2; tauto].
        apply U1. destruct H as [H|[_ H]]; [exact H|contradiction].
      * rewrite andb_true_iff, VA, range_snoc.
        assert (ER : match errors with [] => true | _ :: _ => false end = true <-> forall j, ~ (corner (a, b, c) j /\ exists ns x, ta_normals ta = Some ns /\ nth_error ns j = Some x /\ vlen x < e)).
        { split.
          - destruct errors; [|discriminate]. intros _ j H. apply (in_nil (a := SmallNormal j)). apply NE. eauto.
          - intros H. destruct errors as [|m l]; [reflexivity|]. destruct (proj1 (NE m) (or_introl eq_refl)) as [j [_ H']]. destruct (H j H'). }
        rewrite ER. assert (RI : in_range ta (a, b, c)) by exact RG. split.
        -- intros [[H1 H2] H3]. split; [auto|]. intros j K. apply small_snoc in K. destruct K as [K|[_ K]]; [exact (H2 j K)|exact (H3 j K)].
        -- intros [[H1 H2] H3]. split; [split; [auto|]|]; intros j K; apply (H3 j); rewrite small_snoc; auto.
      * intros m. rewrite ZA, ZE. rewrite !in_app_iff, SA, NE. destruct m as [i v|i|i|v|]; cbn [said_by In app].
        -- split.
           ++ intros [[[f [F C]]|[[]|[]]]|[j [H _]]]; [exists f; rewrite nth_snoc; auto|discriminate].
           ++ intros [f [F C]]. apply nth_snoc in F. destruct F as [F|[-> ->]]; [eauto 6|]. destruct (NB v C).
        -- split.
           ++ intros [[[f [p' [q' [r' [F C]]]]]|[[]|[]]]|[j [H _]]]; [exists f, p', q', r'; rewrite nth_snoc; auto|discriminate].
           ++ intros [f [p' [q' [r' [F [C D]]]]]]. apply nth_snoc in F. destruct F as [F|[-> ->]]; [left; left; eauto 8|].
              destruct (points_unique _ _ _ _ _ _ _ _ C PO) as [-> [-> ->]]. contradiction.
        -- split.
           ++ intros [[[f [p' [q' [r' [F C]]]]]|[[]|[]]]|[j [H _]]]; [exists f, p', q', r'; rewrite nth_snoc; auto|discriminate].
           ++ intros [f [p' [q' [r' [F [C D]]]]]]. apply nth_snoc in F. destruct F as [F|[-> ->]]; [left; left; eauto 8|].
              destruct (points_unique _ _ _ _ _ _ _ _ C PO) as [-> [-> ->]]. contradiction.
        -- rewrite small_snoc. split.
           ++ intros [[H|[[]|[]]]|[j [[= <-] H]]]; [auto|]. right. auto.
           ++ intros [H|[_ H]]; [auto|]. right. exists v. auto.
        -- split; [|intros []]. intros [[[]|[[]|[]]]|[j [H _]]]. discriminate.
  - (* an index is out of range *)
    assert (NR : ~ in_range ta (a, b, c)).
    { intros H. assert (bad_indices (length (ta_vertices ta)) (a, b, c) = []) by (apply bad_none; exact H). congruence. }
    assert (NG : ~ good ta e (a, b, c)).
    { intros [p [q [r [P _]]]]. apply NR. intros j C. eapply points_corner; eauto. }
    eexists. split; [reflexivity|]. constructor; cbn [b_vertices b_normals b_faces b_used b_valid b_messages]; auto.
    + now apply kept_snoc_out.
    + intros j J. rewrite used_snoc. destruct (US j J) as [U1 U2]. split; [intros [H|[H _]]; [auto|contradiction]|intros H; apply U2; tauto].
    + split; [discriminate|]. intros [H _]. apply range_snoc in H. tauto.
    + intros m. rewrite in_app_iff, SA, in_map_iff.
      assert (BB : forall v, In v (x :: bad) <-> corner (a, b, c) v /\ (n <= v)%nat) by (intros v; rewrite <- BI; apply bad_in).
      assert (NP : forall p q r, ~ points_of (ta_vertices ta) (a, b, c) p q r) by (intros p q r H; apply NR; intros j C; eapply points_corner; eauto).
      destruct m as [i v|i|i|v|]; cbn [said_by].
      * split.
        -- intros [[f [F C]]|[v' [[= <- <-] H]]]; [exists f; rewrite nth_snoc; auto|]. apply BB in H. exists (a, b, c). rewrite nth_snoc. auto.
        -- intros [f [F C]]. apply nth_snoc in F. destruct F as [F|[-> ->]]; [eauto|]. right. exists v. split; [reflexivity|now apply BB].
      * split.
        -- intros [[f [p' [q' [r' [F C]]]]]|[v' [H _]]]; [exists f, p', q', r'; rewrite nth_snoc; auto|discriminate].
        -- intros [f [p' [q' [r' [F [C D]]]]]]. apply nth_snoc in F. destruct F as [F|[-> ->]]; [left; eauto 8|]. destruct (NP _ _ _ C).
      * split.
        -- intros [[f [p' [q' [r' [F C]]]]]|[v' [H _]]]; [exists f, p', q', r'; rewrite nth_snoc; auto|discriminate].
        -- intros [f [p' [q' [r' [F [C D]]]]]]. apply nth_snoc in F. destruct F as [F|[-> ->]]; [left; eauto 8|]. destruct (NP _ _ _ C).
      * rewrite small_snoc. split; [intros [H|[v' [H _]]]; [auto|discriminate]|]. intros [H|[H _]]; [auto|contradiction].
      * split; [|intros []]. intros [[]|[v' [H _]]]. discriminate.
Qed.
Lemma copy_faces_ok : forall fs done s, BInv done s -> exists s', copy_faces (e * e) ta (length done) fs s = Ok s' /\ BInv (done ++ fs) s'.
Proof.
  induction fs as [|f fs IH]; intros done s I; cbn [copy_faces].
  - exists s. rewrite app_nil_r. auto.
  - destruct (copy_face_ok done f s I) as [s1 [E1 I1]]. rewrite E1. cbn [bind]. specialize (IH (done ++ [f]) s1 I1). rewrite app_length in IH. cbn in IH.
    rewrite Nat.add_1_r in IH. destruct IH as [s2 [E2 I2]]. exists s2. split; [exact E2|]. now rewrite <- app_assoc in I2.
Qed.
Lemma start_ok : BInv [] (start n).
Proof.
  unfold start. constructor; cbn [b_vertices b_normals b_faces b_used b_valid b_messages]; rewrite ?repeat_length; auto.
  - constructor.
  - intros j J. split; [intros [f [[] _]]|]. intros _. assert (RP : forall (T : Type) (x : T), nth_error (repeat x n) j = Some x).
    { intros T x. rewrite nth_error_nth' with (d := x) by (rewrite repeat_length; exact J). f_equal. apply nth_repeat. }
    now rewrite !RP.
  - split; [|reflexivity]. intros _. split; [intros f []|]. intros j [ns [m [_ [_ [_ [f [[] _]]]]]]].
  - intros m. split; [intros []|]. destruct m as [i v|i|i|v|]; cbn [said_by]; [intros [f [F _]]|intros [f [p [q [r [F _]]]]]|intros [f [p [q [r [F _]]]]]|intros [ns [m [_ [_ [_ [f [[] _]]]]]]]|intros []];
      destruct i; discriminate.
Qed.

(** ** The removal of the vertices *)
Definition shift_ok (us : list nat) (F fs : list face) : Prop := map (renamed us) fs = F /\ forall f j, In f fs -> corner f j -> (j < length us)%nat.
Lemma remove_loop_ok V N used F :
  length used = n -> (forall f j, In f F -> corner f j -> nth_error used j = Some true) ->
  forall i tail fs, (i < n)%nat ->
  StronglySorted lt (seq 0 (S i) ++ tail) -> (forall j, In j tail <-> (i < j)%nat /\ nth_error used j = Some true) ->
  shift_ok (seq 0 (S i) ++ tail) F fs ->
  exists us fs', remove_loop i used (map V (seq 0 (S i) ++ tail)) (map N (seq 0 (S i) ++ tail)) fs = Ok (map V us, map N us, fs') /\
    StronglySorted lt us /\ (forall j, In j us <-> j = 0%nat \/ nth_error used j = Some true) /\ shift_ok us F fs'.
Proof.
  intros LU FU. induction i as [|i IH]; intros tail fs I SO TA SH.
  - cbn [remove_loop seq app]. exists (0%nat :: tail), fs. split; [reflexivity|]. split; [exact SO|]. split; [|exact SH].
    intros j. cbn [In]. rewrite TA. destruct j as [|j]; [split; auto; intros _; now left|]. intuition (try lia; try discriminate).
  - cbn [remove_loop]. destruct (nth_some used (S i)) as [u U]; [lia|]. rewrite U. cbn [rd bind].
    assert (SQ : seq 0 (S (S i)) = seq 0 (S i) ++ [S i]) by (rewrite (seq_S (S i) 0); reflexivity).
    destruct u.
    + assert (EQ : seq 0 (S (S i)) ++ tail = seq 0 (S i) ++ (S i :: tail)) by (rewrite SQ, <- app_assoc; reflexivity).
      rewrite EQ in *. apply IH; [lia|exact SO| |exact SH].
      intros j. cbn [In]. rewrite TA. split.
      * intros [<-|[H H']]; [split; [lia|exact U]|split; [lia|exact H']].
      * intros [H H']. destruct (Nat.eq_dec (S i) j) as [->|NE]; [now left|right]. split; [lia|exact H'].
    + assert (LS : length (seq 0 (S i)) = S i) by apply seq_length.
      assert (EQ : seq 0 (S (S i)) ++ tail = seq 0 (S i) ++ (S i :: tail)) by (rewrite SQ, <- app_assoc; reflexivity).
      rewrite EQ in *.
      rewrite <- !delete_map. replace (delete_at (S i) (seq 0 (S i) ++ S i :: tail)) with (seq 0 (S i) ++ tail) by (rewrite <- LS at 2; symmetry; apply delete_app).
      assert (HN : forall j, nth_error used j = Some true -> j <> S i) by (intros j H ->; congruence).
      destruct SH as [SH1 SH2].
      assert (IX : forall f j, In f fs -> corner f j -> j <> S i).
      { intros f j H C ->. assert (HC : corner (renamed (seq 0 (S i) ++ S i :: tail) f) (nth (S i) (seq 0 (S i) ++ S i :: tail) 0%nat)).
        { destruct f as [[a b] c]. cbn [corner renamed] in *. destruct C as [<-|[<-|<-]]; auto. }
        apply FU with (f := renamed (seq 0 (S i) ++ S i :: tail) f) in HC; [|rewrite <- SH1; now apply in_map].
        rewrite app_nth2 in HC by (rewrite LS; lia). rewrite LS, Nat.sub_diag in HC. cbn [nth] in HC. congruence. }
      assert (NX : forall j, j <> S i -> nth (shift_index (S i) j) (seq 0 (S i) ++ tail) 0%nat = nth j (seq 0 (S i) ++ S i :: tail) 0%nat).
      { intros j J. unfold shift_index. destruct (Nat.ltb_spec (S i) j) as [H|H].
        - rewrite app_nth2 by (rewrite LS; lia). rewrite app_nth2 by (rewrite LS; lia). rewrite LS. replace (j - S i)%nat with (S (pred j - S i)) by lia. reflexivity.
        - rewrite !app_nth1 by (rewrite LS; lia). reflexivity. }
      apply IH; [lia| | |].
      * revert SO. clear. generalize (seq 0 (S i)). induction l as [|y l IH]; cbn [app]; intros H.
        -- now inversion H.
        -- inversion H as [|? ? H1 H2]; subst. constructor; [auto|]. apply Forall_app in H2. destruct H2 as [H2 H3]. inversion H3; subst. apply Forall_app. auto.
      * intros j. rewrite TA. split; [intros [H H']; split; [lia|exact H']|]. intros [H H']. split; [|exact H']. specialize (HN j H'). lia.
      * split.
        -- rewrite <- SH1, map_map. apply map_ext_in. intros f H. destruct f as [[a b] c]. cbn [shift_face renamed]. rewrite !NX; [reflexivity| | |]; eapply IX; eauto; cbn; auto.
        -- intros f j H C. apply in_map_iff in H. destruct H as [g [<- H]]. rewrite app_length, LS. rewrite app_length in SH2. cbn [length] in SH2. rewrite LS in SH2.
           assert (Q : exists j', corner g j' /\ j = shift_index (S i) j').
           { destruct g as [[a b] c]. cbn [corner shift_face] in *. destruct C as [->|[->| ->]]; eauto. }
           destruct Q as [j' [C' ->]]. specialize (SH2 g j' H C'). specialize (IX g j' H C'). unfold shift_index. destruct (Nat.ltb_spec (S i) j'); lia.
Qed.
Lemma renamed_seq : forall m f, (forall j, corner f j -> (j < m)%nat) -> renamed (seq 0 m) f = f.
Proof. intros m [[a b] c] H. cbn [renamed]. rewrite !seq_nth by (apply H; cbn; auto). reflexivity. Qed.

(** The result of the copy. *)
Definition vertex_of (s : builder) (j : nat) : vec3 := nth j (b_vertices s) vzero.
Record copied (vs ns : list vec3) (fs : list face) (us : list nat) : Prop :=
  { co_sorted : StronglySorted lt us
  ; co_used : forall j, In j us <-> j = 0%nat \/ corner_of_good ta e j
  ; co_vs : length vs = length us /\ forall k j, nth_error us k = Some j ->
      (corner_of_good ta e j -> nth_error vs k = nth_error (ta_vertices ta) j) /\ (~ corner_of_good ta e j -> nth_error vs k = Some vzero)
  ; co_ns : length ns = length us /\ forall k j, nth_error us k = Some j ->
      (corner_of_good ta e j -> nth_error ns k = Some (normal_of j)) /\ (~ corner_of_good ta e j -> nth_error ns k = Some vzero)
  ; co_faces : kept (good ta e) (ta_faces ta) (map (renamed us) fs)
  ; co_inside : forall f j, In f fs -> corner f j -> (j < length us)%nat
  ; co_bound : forall j, In j us -> (j < n)%nat }.
Lemma copy_data_ok : ta_vertices ta <> [] -> exists vs ns fs valid ms us, copy_data e ta = Ok (vs, ns, fs, valid, ms) /\ copied vs ns fs us /\
  (valid = true <-> acceptable ta e) /\ (forall m, In m ms <-> to_be_said ta e m).
Proof.
  intros NV. unfold copy_data. fold n. destruct (copy_faces_ok (ta_faces ta) [] (start n) start_ok) as [s [E1 I]]. cbn [length app] in *. rewrite E1. cbn [bind].
  destruct I as [LV LN LU KF US VA SA].
  assert (NP : n <> 0%nat) by (intros H; apply NV; apply length_zero_iff_nil; exact H).
  assert (EN : exists k, n = S k) by (exists (pred n); lia). destruct EN as [k EN]. rewrite EN in LV, LN, LU, US.
  unfold remove_unused. rewrite LV.
  assert (EV : b_vertices s = map (fun j => nth j (b_vertices s) vzero) (seq 0 (S k) ++ [])).
  { rewrite app_nil_r. apply list_as_map. exact LV. }
  assert (ENn : b_normals s = map (fun j => nth j (b_normals s) vzero) (seq 0 (S k) ++ [])).
  { rewrite app_nil_r. apply list_as_map. exact LN. }
  assert (FG : forall f, In f (b_faces s) -> In f (ta_faces ta) /\ good ta e f) by (intros f H; now apply (kept_iff _ _ _ KF)).
  assert (BC : forall f j, In f (b_faces s) -> corner f j -> (j < S k)%nat).
  { intros f j H C. destruct (FG f H) as [_ [p [q [r [P _]]]]]. rewrite <- EN. exact (points_corner _ _ _ _ _ P j C). }
  assert (UI : forall j, (j < S k)%nat -> (nth_error (b_used s) j = Some true <-> corner_of_good ta e j)).
  { intros j J. destruct (US j J) as [U1 U2]. split.
    - intros H. destruct (kept_iff _ _ _ KF) with (a := (0, 0, 0)%nat) as [_ _].
      assert (D : used_by (ta_faces ta) j \/ ~ used_by (ta_faces ta) j).
      { destruct (List.Exists_dec (fun f : face => corner f j) (b_faces s)) as [D|D].
        - intros [[a b] c]. cbn [corner]. destruct (Nat.eq_dec j a), (Nat.eq_dec j b), (Nat.eq_dec j c); (left; tauto) || (right; tauto).
        - left. apply Exists_exists in D. destruct D as [f [D C]]. destruct (FG f D). exists f. auto.
        - right. intros [f [F [G C]]]. apply D. apply Exists_exists. exists f. split; [|exact C]. apply (kept_iff _ _ _ KF). auto. }
      destruct D as [D|D]; [exact D|]. destruct (U2 D) as [D' _]. congruence.
    - intros H. now apply U1. }
  destruct (remove_loop_ok (fun j => nth j (b_vertices s) vzero) (fun j => nth j (b_normals s) vzero) (b_used s) (b_faces s)) with (i := k) (tail := @nil nat) (fs := b_faces s)
    as [us [fs' [E2 [SO [UU [SH1 SH2]]]]]].
  { now rewrite EN. }
  { intros f j H C. apply UI; [eauto|]. destruct (FG f H). exists f. auto. }
  { rewrite EN. lia. }
  { rewrite app_nil_r. generalize 0%nat. generalize (S k). clear. induction n as [|m IH]; intros i; cbn [seq]; constructor; [apply IH|]. apply Forall_forall. intros j J. apply in_seq in J. lia. }
  { intros j. split; [intros []|]. intros [H1 H2]. apply some_lt in H2. lia. }
  { rewrite app_nil_r. split; [|rewrite seq_length; exact BC]. rewrite <- (map_id (b_faces s)) at 2. apply map_ext_in. intros f H. apply renamed_seq. intros j C. eapply BC; eauto. }
  rewrite <- EV, <- ENn in E2. rewrite E2. cbn [bind].
  assert (UB : forall j, In j us -> (j < S k)%nat) by (intros j J; apply UU in J; destruct J as [->|J]; [lia|apply some_lt in J; lia]).
  assert (CO : copied (map (fun j => nth j (b_vertices s) vzero) us) (map (fun j => nth j (b_normals s) vzero) us) fs' us).
  { constructor; auto.
    - intros j. rewrite UU. split; (intros [H|H]; [now left|]).
      + right. apply UI; [apply some_lt in H; lia|exact H].
      + right. apply UI; [|exact H]. destruct H as [f [F [[p [q [r [P _]]]] C]]]. rewrite <- EN. exact (points_corner _ _ _ _ _ P j C).
    - split; [apply map_length|]. intros i j H. assert (J : (j < S k)%nat) by (apply UB; eapply nth_error_In; eauto). destruct (US j J) as [U1 U2].
      rewrite (map_nth_error _ _ _ H). split; intros G; [destruct (U1 G) as [_ [K _]]|destruct (U2 G) as [_ [K _]]]; rewrite <- K; symmetry; apply nth_error_nth'; lia.
    - split; [apply map_length|]. intros i j H. assert (J : (j < S k)%nat) by (apply UB; eapply nth_error_In; eauto). destruct (US j J) as [U1 U2].
      rewrite (map_nth_error _ _ _ H). split; intros G; [destruct (U1 G) as [_ [_ K]]|destruct (U2 G) as [_ [_ K]]]; rewrite <- K; symmetry; apply nth_error_nth'; lia.
    - rewrite SH1. exact KF.
    - intros j J. rewrite EN. auto. }
  assert (SAY : forall m, m <> NoTriangles -> (said_by (ta_faces ta) m <-> to_be_said ta e m)).
  { intros m H. destruct m; cbn [said_by to_be_said]; try reflexivity. congruence. }
  destruct fs' as [|g fs'].
  - cbn [map] in SH1.
    assert (NG : forall f, In f (ta_faces ta) -> ~ good ta e f).
    { intros f F G. assert (H : In f (b_faces s)) by (apply (kept_iff _ _ _ KF); auto). rewrite <- SH1 in H. destruct H. }
    do 6 eexists. split; [reflexivity|]. split; [exact CO|]. split.
    + split; [discriminate|]. intros [_ [[f [F G]] _]]. destruct (NG f F G).
    + intros m. rewrite in_app_iff, SA. cbn [In]. destruct (classic_msg m) as [->|H].
      * cbn. split; [auto|auto].
      * rewrite (SAY m H). split; [intros [K|[K|[]]]; [exact K|congruence]|auto].
  - assert (EX : exists f, In f (ta_faces ta) /\ good ta e f).
    { exists (renamed us g). apply FG. rewrite <- SH1. now left. }
    do 6 eexists. split; [reflexivity|]. split; [exact CO|]. split.
    + rewrite VA. unfold acceptable. split; [intros [H1 H2]; split; [exact H1|]; split; [exact EX|exact H2]|intros [H1 [_ H2]]; auto].
    + intros m. rewrite SA. destruct (classic_msg m) as [->|H]; [|now apply SAY].
      cbn [said_by to_be_said]. split; [intros []|]. intros H. destruct EX as [f [F G]]. exact (H f F G).
Qed.
End Copy.
