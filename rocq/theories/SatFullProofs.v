(** Proofs about the separating axis test: the loops and the whole test. *)
From Coq Require Import Reals Lra Psatz List Bool Arith Lia.
From Verif Require Import Base VecModel VecProofs GeomModel GeomSpec GeomProofs HalfEdgeModel ShapeModel ShapeSpec ShapeProofs ShapeMeshProofs GjkSpec NarrowModel NarrowSpec NarrowProofs NarrowCapsuleProofs GjkShapeProofs SatModel SatSpec SatProofs SatEdgeProofs SatClipProofs.
Import ListNotations.
Local Open Scope R_scope.

(** ** Loops *)
Lemma faces_loop_ok p1 p2 t : forall fs d0 o0 d o, faces_loop p1 p2 t fs (d0, o0) = Ok (d, o) -> 0 < d0 ->
  (d <= 0 /\ exists f, In f fs /\ o = Some f /\ face_depth p1 p2 t f = Ok d) \/
  (0 < d /\ (forall f, In f fs -> exists df, face_depth p1 p2 t f = Ok df /\ 0 < df /\ d <= df) /\ d <= d0 /\
   ((d = d0 /\ o = o0) \/ (d < d0 /\ exists f, In f fs /\ o = Some f /\ face_depth p1 p2 t f = Ok d))).
Proof.
  induction fs as [|f fs IH]; intros d0 o0 d o H L; cbn [faces_loop] in H.
  - inversion H; subst. right. split; [exact L|]. split; [intros ? []|]. split; [lra|now left].
  - destruct (face_depth p1 p2 t f) as [df| |] eqn:E; cbn [bind] in H; try discriminate. destruct (rle df 0) eqn:Z.
    + apply rle_true in Z. inversion H; subst. left. split; [exact Z|]. exists f. repeat split; auto. now left.
    + apply rle_false in Z. cbn [fst] in H. destruct (rlt df d0) eqn:B.
      * apply rlt_true in B. destruct (IH df (Some f) d o H Z) as [(Z2 & g & G1 & G2 & G3)|(P & A & LE & C)].
        -- left. split; [exact Z2|]. exists g. repeat split; auto. now right.
        -- right. split; [exact P|]. split; [|split; [lra|]].
           ++ intros g [<-|Hg]; [exists df; auto|now apply A].
           ++ right. destruct C as [(-> & ->)|(C & g & G1 & G2 & G3)]; [split; [exact B|exists f; repeat split; auto; now left]|split; [lra|exists g; repeat split; auto; now right]].
      * apply rlt_false in B. destruct (IH d0 o0 d o H L) as [(Z2 & g & G1 & G2 & G3)|(P & A & LE & C)].
        -- left. split; [exact Z2|]. exists g. repeat split; auto. now right.
        -- right. split; [exact P|]. split; [|split; [exact LE|]].
           ++ intros g [<-|Hg]; [exists df; repeat split; auto; lra|now apply A].
           ++ destruct C as [C|(C & g & G1 & G2 & G3)]; [now left|right; split; [exact C|exists g; repeat split; auto; now right]].
Qed.
Lemma faces_depth_ok big p1 p2 t d o : 0 < big -> faces_depth big p1 p2 t = Ok (d, o) ->
  (d <= 0 /\ exists f, (f < length (so_faces p1))%nat /\ o = Some f /\ face_depth p1 p2 t f = Ok d) \/
  (0 < d /\ (forall f, (f < length (so_faces p1))%nat -> exists df, face_depth p1 p2 t f = Ok df /\ 0 < df /\ d <= df) /\
   ((d = big /\ o = None) \/ (d < big /\ exists f, (f < length (so_faces p1))%nat /\ o = Some f /\ face_depth p1 p2 t f = Ok d))).
Proof.
  intros L H. destruct (faces_loop_ok _ _ _ _ _ _ _ _ H L) as [(Z & f & F1 & F2 & F3)|(P & A & _ & C)].
  - left. split; [exact Z|]. exists f. apply in_seq in F1. repeat split; auto; lia.
  - right. split; [exact P|]. split; [intros f Hf; apply A, in_seq; lia|]. destruct C as [C|(C & f & F1 & F2 & F3)]; [now left|right]. split; [exact C|]. exists f. apply in_seq in F1. repeat split; auto; lia.
Qed.
(** The depth of an axis that the edges must beat. *)
Definition slack (d : R) : R := d * rel_tolerance + abs_tolerance.
Lemma slack_more d : 0 < d -> d < slack d. Proof. unfold slack, rel_tolerance, abs_tolerance. lra. Qed.
Lemma slack_mono a b : a <= b -> slack a <= slack b. Proof. unfold slack, rel_tolerance. lra. Qed.
Lemma slack_lt a b : slack a < b -> 0 < a -> a < b. Proof. unfold slack, rel_tolerance, abs_tolerance. lra. Qed.
Lemma edges_loop_ok eps big p1 p2 t : forall ijs best r, edges_loop eps big p1 p2 t ijs best = Ok r ->
  match r with
  | inl (i, j) => In (i, j) ijs /\ exists x, edge_pair eps big p1 p2 t i j = Ok (Some x) /\ ea_depth x <= 0
  | inr b => (forall i j, In (i, j) ijs -> exists o, edge_pair eps big p1 p2 t i j = Ok o /\ forall x, o = Some x -> 0 < ea_depth x /\ best_depth b <= slack (ea_depth x)) /\
      (b = best \/ (exists i j x, b = BestEdges i j x /\ In (i, j) ijs /\ edge_pair eps big p1 p2 t i j = Ok (Some x) /\ 0 < ea_depth x /\ ea_depth x < best_depth best))
  end.
Proof.
  induction ijs as [|(i, j) ijs IH]; intros best r H; cbn [edges_loop] in H.
  - inversion H; subst. split; [intros ? ? []|now left].
  - destruct (edge_pair eps big p1 p2 t i j) as [o| |] eqn:E; cbn [bind] in H; try discriminate. destruct o as [x|].
    + destruct (rle (ea_depth x) 0) eqn:Z.
      * apply rle_true in Z. inversion H; subst. split; [now left|]. eauto.
      * apply rle_false in Z. set (b' := if match best with BestFace _ _ m => rlt (ea_depth x * rel_tolerance + abs_tolerance) m | BestEdges _ _ y => rlt (ea_depth x) (ea_depth y) end then BestEdges i j x else best) in H.
        assert (B : best_depth b' <= slack (ea_depth x) /\ (b' = best \/ (b' = BestEdges i j x /\ ea_depth x < best_depth best))).
        { unfold b'. pose proof (slack_more _ Z). destruct best as [f1 f m|i0 j0 y].
          - destruct (rlt (ea_depth x * rel_tolerance + abs_tolerance) m) eqn:C; [apply rlt_true in C|apply rlt_false in C].
            + cbn [best_depth]. split; [lra|right; split; [reflexivity|now apply slack_lt]].
            + cbn [best_depth]. split; [exact C|now left].
          - destruct (rlt (ea_depth x) (ea_depth y)) eqn:C; [apply rlt_true in C|apply rlt_false in C]; cbn [best_depth]; (split; [lra|]); [right; auto|now left]. }
        destruct B as (B1 & B2). specialize (IH b' r H). destruct r as [(i', j')|b].
        -- destruct IH as (I & K). split; [now right|exact K].
        -- destruct IH as (I & K). assert (LB : best_depth b <= best_depth b'). { destruct K as [->|(i0 & j0 & y & -> & _ & _ & _ & L)]; [lra|cbn [best_depth]; lra]. }
           split.
           ++ intros i0 j0 [E0|Hi]; [inversion E0; subst i0 j0|now apply I]. exists (Some x). split; [exact E|]. intros y E1. inversion E1; subst y. split; [exact Z|lra].
           ++ destruct K as [->|(i0 & j0 & y & -> & I0 & E0 & P0 & L0)].
              ** destruct B2 as [->|(-> & L)]; [now left|]. right. exists i, j, x. repeat split; auto. now left.
              ** right. exists i0, j0, y. repeat split; auto; [now right|]. destruct B2 as [E2|(E2 & L)]; rewrite E2 in L0; [exact L0|cbn [best_depth] in L0; lra].
    + specialize (IH best r H). destruct r as [(i', j')|b].
      * destruct IH as (I & K). split; [now right|exact K].
      * destruct IH as (I & K). split.
        -- intros i0 j0 [E0|Hi]; [inversion E0; subst i0 j0|now apply I]. exists None. split; [exact E|discriminate].
        -- destruct K as [K|(i0 & j0 & y & K1 & K2 & K3)]; [now left|right]. exists i0, j0, y. split; [exact K1|]. split; [now right|exact K3].
Qed.

Lemma anti_parallel_ok d : forall ns i best, let g := anti_parallel_loop d ns i best in
  (g = snd best /\ forall k m, nth_error ns k = Some m -> fst best <= vdot m d) \/
  (exists k m, g = (i + k)%nat /\ nth_error ns k = Some m /\ vdot m d < fst best /\ forall k' m', nth_error ns k' = Some m' -> vdot m d <= vdot m' d).
Proof.
  induction ns as [|x ns IH]; intros i best; cbn [anti_parallel_loop]; [left; split; [reflexivity|intros [|k] m E; discriminate]|].
  destruct (rlt (vdot x d) (fst best)) eqn:L; [apply rlt_true in L|apply rlt_false in L].
  - right. destruct (IH (S i) (vdot x d, i)) as [(-> & K)|(k & m & -> & E & L2 & K)]; cbn [fst snd] in *.
    + exists O, x. split; [lia|]. split; [reflexivity|]. split; [exact L|]. intros [|k'] m' E'; cbn in E'; [inversion E'; lra|now apply K with k'].
    + exists (S k), m. split; [lia|]. split; [exact E|]. split; [lra|]. intros [|k'] m' E'; cbn in E'; [inversion E'; subst; lra|now apply K with k'].
  - destruct (IH (S i) best) as [(-> & K)|(k & m & -> & E & L2 & K)].
    + left. split; [reflexivity|]. intros [|k'] m' E'; cbn in E'; [inversion E'; subst; lra|now apply K with k'].
    + right. exists (S k), m. split; [lia|]. split; [exact E|]. split; [lra|]. intros [|k'] m' E'; cbn in E'; [inversion E'; subst; lra|now apply K with k'].
Qed.
Lemma unit_normal big p f n : solid_ok big p -> nth_error (so_normals p) f = Some n -> vlen n = 1.
Proof.
  intros OK E. destruct (ok_count _ _ OK) as (C & _). assert (L : (f < length (so_faces p))%nat) by (rewrite <- C; apply nth_error_Some; congruence).
  destruct (nth_error (so_faces p) f) as [vs|] eqn:V; [|apply nth_error_None in V; lia]. apply (ok_faces _ _ OK f vs n V E).
Qed.
Lemma most_anti_parallel_ok big p d : 4 < big -> solid_ok big p -> vlen d = 1 -> exists m, nth_error (so_normals p) (most_anti_parallel big p d) = Some m /\
  forall h m', nth_error (so_normals p) h = Some m' -> vdot m d <= vdot m' d.
Proof.
  intros Hb OK U. unfold most_anti_parallel. destruct (anti_parallel_ok d (so_normals p) 0 (big, O)) as [(E & K)|(k & m & -> & E & _ & K)]; cbn [fst snd] in *.
  - exfalso. destruct (so_normals p) as [|n ns] eqn:N; [destruct (ok_count _ _ OK) as (C & _); pose proof (ok_some _ _ OK); rewrite N in C; destruct (so_faces p); [congruence|discriminate]|].
    specialize (K O n eq_refl). assert (Un : vlen n = 1) by (apply (unit_normal big p O n OK); now rewrite N). pose proof (cauchy_schwarz n d). rewrite Un, U in *. lra.
  - exists m. split; [exact E|exact K].
Qed.
Section Two.
Variables (eps big : R) (fuel : nat) (p1 p2 : solid) (t1 t2 : transform).
Hypothesis He : 0 < eps <= / 1000.
Hypothesis Hb : 4 < big.
Hypothesis Q1 : quat_len2 (t_rot t1) = 1.
Hypothesis Q2 : quat_len2 (t_rot t2) = 1.
Hypothesis O1 : solid_ok big p1.
Hypothesis O2 : solid_ok big p2.
Hypothesis NT : so_triangle p1 = false \/ so_triangle p2 = false.
Let t12 := tr_mul (tr_inverse t2) t1.
Let t21 := tr_inverse t12.
Let W1 := body_of p1 t1.
Let W2 := body_of p2 t2.
Definition a_face_depth (first : bool) f := if first then face_depth p1 p2 t12 f else face_depth p2 p1 t21 f.
Definition face_count (first : bool) := length (so_faces (if first then p1 else p2)).
Definition edge_pairs : list (nat * nat) := list_prod (evens (length (st_edges (so_edges p1)))) (evens (length (st_edges (so_edges p2)))).
(** No tested axis separates, and none has a much smaller depth than [D]. *)
Definition no_axis (D : R) : Prop :=
  (forall first f, (f < face_count first)%nat -> exists d, a_face_depth first f = Ok d /\ 0 < d /\ D <= slack (slack d)) /\
  (forall i j, In (i, j) edge_pairs -> exists o, edge_pair eps big p1 p2 t12 i j = Ok o /\ forall x, o = Some x -> 0 < ea_depth x /\ D <= slack (slack (ea_depth x))).
Lemma sat_full_cases report l b cs l' : sat_full eps big fuel report p1 p2 t1 t2 t12 t21 l = Ok (b, cs, l') ->
  (b = false /\ cs = [] /\ exists first f d, (f < face_count first)%nat /\ a_face_depth first f = Ok d /\ d <= 0 /\ l' = keep_face first f l) \/
  (b = false /\ cs = [] /\ exists i j x, In (i, j) edge_pairs /\ edge_pair eps big p1 p2 t12 i j = Ok (Some x) /\ ea_depth x <= 0 /\ l' = keep_edges i j l) \/
  (exists first f d, (f < face_count first)%nat /\ a_face_depth first f = Ok d /\ 0 < d < big /\ no_axis d /\ face_contacts big fuel report first p1 p2 t1 t2 t12 t21 f = Ok (b, cs) /\ l' = keep_face first f l) \/
  (b = true /\ exists i j x, In (i, j) edge_pairs /\ edge_pair eps big p1 p2 t12 i j = Ok (Some x) /\ 0 < ea_depth x < big /\ no_axis (ea_depth x) /\ cs = edge_contact eps report t2 t21 x /\ l' = keep_edges i j l).
Proof.
  intros H. assert (Hb0 : 0 < big) by lra. unfold sat_full in H. destruct (faces_depth big p1 p2 t12) as [[d1 f1]| |] eqn:F1; cbn [bind] in H; try discriminate.
  destruct (faces_depth_ok _ _ _ _ _ _ Hb0 F1) as [(Z & f & Hf & -> & Df)|(P1 & A1 & C1)].
  - apply rle_true in Z as Z'. rewrite Z' in H. cbn [rd bind] in H. inversion H; subst. left. split; [reflexivity|]. split; [reflexivity|]. exists true, f, d1. auto.
  - assert (Z' : rle d1 0 = false) by (apply rle_false; exact P1). rewrite Z' in H. clear Z'.
    destruct (faces_depth big p2 p1 t21) as [[d2 f2]| |] eqn:F2; cbn [bind] in H; try discriminate.
    destruct (faces_depth_ok _ _ _ _ _ _ Hb0 F2) as [(Z & f & Hf & -> & Df)|(P2 & A2 & C2)].
    + apply rle_true in Z as Z'. rewrite Z' in H. cbn [rd bind] in H. inversion H; subst. left. split; [reflexivity|]. split; [reflexivity|]. exists false, f, d2. auto.
    + assert (Z' : rle d2 0 = false) by (apply rle_false; exact P2). rewrite Z' in H. clear Z'.
      set (first := rlt d1 (d2 * rel_tolerance + abs_tolerance)) in H.
      destruct (rd (if first then f1 else f2)) as [f| |] eqn:Ef; cbn [bind] in H; try discriminate. apply rd_ok in Ef.
      assert (D : exists d, (f < face_count first)%nat /\ a_face_depth first f = Ok d /\ 0 < d < big /\ Rmin d1 d2 <= d /\ d <= slack (Rmin d1 d2)).
      { unfold face_count, a_face_depth. destruct first eqn:Fi; unfold first in Fi.
        - apply rlt_true in Fi. subst f1. destruct C1 as [(_ & X)|(L & f' & G1 & G2 & G3)]; [discriminate|]. inversion G2; subst f'. exists d1. split; [exact G1|]. split; [exact G3|]. split; [lra|]. split; [apply Rmin_l|].
          pose proof (slack_more d1 P1). unfold Rmin. destruct (Rle_dec d1 d2); [lra|fold (slack d2) in Fi; lra].
        - apply rlt_false in Fi. subst f2. destruct C2 as [(_ & X)|(L & f' & G1 & G2 & G3)]; [discriminate|]. inversion G2; subst f'. exists d2. split; [exact G1|]. split; [exact G3|]. split; [lra|]. split; [apply Rmin_r|].
          pose proof (slack_more d2 P2). fold (slack d2) in Fi. unfold Rmin. destruct (Rle_dec d1 d2); lra. }
      destruct D as (d & Df & Da & Dp & Dm & Ds).
      assert (M : 0 < Rmin d1 d2) by (unfold Rmin; destruct (Rle_dec d1 d2); lra).
      assert (FA : forall D, D <= slack (Rmin d1 d2) -> forall first f, (f < face_count first)%nat -> exists d, a_face_depth first f = Ok d /\ 0 < d /\ D <= slack (slack d)).
      { intros D LD [|] g Hg; unfold face_count, a_face_depth in *.
        - destruct (A1 g Hg) as (x & X1 & X2 & X3). exists x. split; [exact X1|]. split; [exact X2|]. assert (K : slack (Rmin d1 d2) <= slack x) by (apply slack_mono; pose proof (Rmin_l d1 d2); lra). assert (K2 : x <= slack x) by (pose proof (slack_more x X2); lra). pose proof (slack_mono _ _ K2). lra.
        - destruct (A2 g Hg) as (x & X1 & X2 & X3). exists x. split; [exact X1|]. split; [exact X2|]. assert (K : slack (Rmin d1 d2) <= slack x) by (apply slack_mono; pose proof (Rmin_r d1 d2); lra). assert (K2 : x <= slack x) by (pose proof (slack_more x X2); lra). pose proof (slack_mono _ _ K2). lra. }
      fold edge_pairs in H. destruct (edges_loop eps big p1 p2 t12 edge_pairs (BestFace first f (Rmin d1 d2))) as [r| |] eqn:EL; cbn [bind] in H; try discriminate.
      apply edges_loop_ok in EL. destruct r as [(i, j)|bst].
      * destruct EL as (I & x & E & Z). inversion H; subst. right. left. split; [reflexivity|]. split; [reflexivity|]. exists i, j, x. auto.
      * destruct EL as (AE & [->|(i & j & x & -> & I & E & Px & Lx)]).
        -- destruct (face_contacts big fuel report first p1 p2 t1 t2 t12 t21 f) as [[found cs']| |] eqn:FC; cbn [bind] in H; try discriminate. inversion H; subst. right. right. left.
           exists first, f, d. split; [exact Df|]. split; [exact Da|]. split; [exact Dp|]. split; [|auto]. split; [apply FA; exact Ds|].
           intros i j I. destruct (AE i j I) as (o & E & K). exists o. split; [exact E|]. intros x Ex. destruct (K x Ex) as (K1 & K2). split; [exact K1|]. cbn [best_depth] in K2. apply slack_mono in K2. lra.
        -- inversion H; subst. right. right. right. split; [reflexivity|]. exists i, j, x. cbn [best_depth] in Lx. split; [exact I|]. split; [exact E|]. pose proof (Rmin_l d1 d2). assert (Lb : ea_depth x < big) by lra.
           split; [lra|]. split; [|auto]. split.
           ++ apply FA. pose proof (slack_more _ M). lra.
           ++ intros i0 j0 I0. destruct (AE i0 j0 I0) as (o & E0 & K). exists o. split; [exact E0|]. intros y Ey. destruct (K y Ey) as (K1 & K2). split; [exact K1|]. cbn [best_depth] in K2.
              assert (K3 : ea_depth y <= slack (ea_depth y)) by (pose proof (slack_more _ K1); lra). apply slack_mono in K3. lra.
Qed.
Lemma sat_previous_cases clip report l b cs l' : sat_previous eps big fuel clip report p1 p2 t1 t2 t12 t21 l = Ok (Some (b, cs, l')) -> lf_valid l = true /\
  ((lf_colliding l = false /\ b = false /\ cs = [] /\ l' = l /\
    ((lf_face1 l || lf_face2 l = true /\ exists d, a_face_depth (lf_face1 l) (lf_face l) = Ok d /\ d <= 0) \/
     (lf_face1 l || lf_face2 l = false /\ exists x, edge_pair eps big p1 p2 t12 (lf_edge1 l) (lf_edge2 l) = Ok (Some x) /\ ea_depth x <= 0))) \/
   (lf_colliding l = true /\ clip = true /\ b = true /\
    ((exists d, a_face_depth (lf_face1 l) (lf_face l) = Ok d /\ 0 < d /\ face_contacts big fuel report (lf_face1 l) p1 p2 t1 t2 t12 t21 (lf_face l) = Ok (true, cs) /\ l' = keep_face (lf_face1 l) (lf_face l) l) \/
     (exists x, edge_pair eps big p1 p2 t12 (lf_edge1 l) (lf_edge2 l) = Ok (Some x) /\ 0 < ea_depth x < big /\ cs = edge_contact eps report t2 t21 x /\ l' = l)))).
Proof.
  intros H. unfold sat_previous in H. destruct (lf_valid l && lf_sat l) eqn:V; cbn [negb] in H; [|discriminate]. apply andb_prop in V. destruct V as (V & _). split; [exact V|].
  destruct (lf_face1 l || lf_face2 l) eqn:F.
  - fold (a_face_depth (lf_face1 l) (lf_face l)) in H. destruct (a_face_depth (lf_face1 l) (lf_face l)) as [d| |] eqn:D; cbn [bind] in H; try discriminate.
    destruct (negb (lf_colliding l) && rle d 0) eqn:C1.
    + apply andb_prop in C1. destruct C1 as (C1 & Z). apply rle_true in Z. apply negb_true_iff in C1. inversion H; subst. left. split; [exact C1|]. repeat split; auto. left. split; [reflexivity|]. eauto.
    + destruct (lf_colliding l && clip && rlt 0 d) eqn:C2; [|discriminate]. apply andb_prop in C2. destruct C2 as (C2 & Z). apply andb_prop in C2. destruct C2 as (C2 & C3). apply rlt_true in Z.
      destruct (face_contacts big fuel report (lf_face1 l) p1 p2 t1 t2 t12 t21 (lf_face l)) as [[found cs']| |] eqn:FC; cbn [bind] in H; try discriminate. destruct found; [|discriminate]. inversion H; subst.
      right. split; [exact C2|]. split; [reflexivity|]. split; [reflexivity|]. left. exists d. auto.
  - destruct (edge_pair eps big p1 p2 t12 (lf_edge1 l) (lf_edge2 l)) as [[x|]| |] eqn:E; cbn [bind] in H; try discriminate.
    destruct (negb (lf_colliding l) && rle (ea_depth x) 0) eqn:C1.
    + apply andb_prop in C1. destruct C1 as (C1 & Z). apply rle_true in Z. apply negb_true_iff in C1. inversion H; subst. left. split; [exact C1|]. repeat split; auto. right. split; [reflexivity|]. eauto.
    + destruct (lf_colliding l && clip && rlt 0 (ea_depth x) && rlt (ea_depth x) big && still_crossing eps x) eqn:C2; [|discriminate]. repeat (apply andb_prop in C2; destruct C2 as (C2 & ?)). 
      inversion H; subst. right. split; [exact C2|]. split; [first [assumption|reflexivity]|]. split; [reflexivity|]. right. exists x. split; [reflexivity|]. split; [|auto]. split; now apply rlt_true.
Qed.

(** ** Contacts of a face, in world space *)
Lemma facing_1 axis : vlen axis = 1 -> facing p2 t2 (quat_vec (t_rot t1) axis) (most_anti_parallel big p2 (quat_vec (t_rot t12) axis)).
Proof.
  intros U. destruct (most_anti_parallel_ok big p2 (quat_vec (t_rot t12) axis) Hb O2) as (m & E & K); [unfold vlen in *; rewrite vlen2_turned by (apply unit12; assumption); exact U|].
  exists m. split; [exact E|]. intros h m' E'. rewrite <- (tr_forth t1 t2 axis Q2), !quat_vec_dot, Q2. fold t12. specialize (K h m' E'). rewrite (vdot_comm _ m), (vdot_comm _ m'). lra.
Qed.
Lemma facing_2 axis : vlen axis = 1 -> facing p1 t1 (quat_vec (t_rot t2) axis) (most_anti_parallel big p1 (quat_vec (t_rot t21) axis)).
Proof.
  intros U. destruct (most_anti_parallel_ok big p1 (quat_vec (t_rot t21) axis) Hb O1) as (m & E & K); [unfold vlen in *; rewrite vlen2_turned by (apply unit21; assumption); exact U|].
  exists m. split; [exact E|]. intros h m' E'. rewrite <- (tr_inverse_back t1 t2 axis Q1 Q2), !quat_vec_dot, Q1. fold t12. fold t21. specialize (K h m' E'). rewrite (vdot_comm _ m), (vdot_comm _ m'). lra.
Qed.
Lemma face_contacts_world report (first : bool) f found cs : face_contacts big fuel report first p1 p2 t1 t2 t12 t21 f = Ok (found, cs) ->
  exists n g, world_face first p1 p2 t1 t2 f = Some n /\ (if first then facing p2 t2 n g else facing p1 t1 (vneg n) g) /\
  (forall c, In c cs -> c_normal c = n /\
     (if first then face_contact p1 p2 t1 t2 f g n (c_depth c) (c_local1 c) (c_local2 c) else face_contact p2 p1 t2 t1 f g (vneg n) (c_depth c) (c_local2 c) (c_local1 c)) /\
     forall D, depth_along n W1 W2 D -> c_depth c <= D) /\
  (report = false -> cs = []) /\ (report = true -> (found = true <-> cs <> [])) /\
  (found = false -> cs = [] /\ if first then misses p1 p2 t1 t2 f g else misses p2 p1 t2 t1 f g).
Proof.
  intros H. unfold face_contacts in H. destruct first.
  - unfold normal, half_edge, vert in H. destruct (nth_error (so_normals p1) f) as [axis|] eqn:Ea; cbn [rd bind] in H; [|discriminate].
    destruct (nth_error (st_faces (so_edges p1)) f) as [start|] eqn:Es; cbn [rd bind] in H; [|discriminate].
    set (g := most_anti_parallel big p2 (quat_vec (t_rot t12) axis)) in H.
    destruct (nth_error (so_faces p2) g) as [vs|] eqn:Eg; cbn [rd bind] in H; [|discriminate].
    destruct (verts p2 vs) as [poly| |] eqn:Ep; cbn [bind] in H; try discriminate.
    destruct (nth_error (st_edges (so_edges p1)) start) as [e|] eqn:Ee; cbn [rd bind] in H; [|discriminate].
    destruct (nth_error (so_verts p1) (e_vertex e)) as [v|] eqn:Ev; cbn [rd bind] in H; [|discriminate].
    destruct (clip_loop fuel p1 axis start start v (map (tr_point t21) poly)) as [out| |] eqn:Ec; cbn [bind] in H; try discriminate.
    destruct (face_points big fuel p1 p2 t1 t2 t12 t21 f axis start vs g poly e v out O1 Q1 Q2) as (K1 & K2); auto.
    { intros x. now apply pass_back. } { intros x. apply tr_inverse_point. apply unit12; assumption. }
    set (below := filter (fun q => rlt 0 (vdot (vsub v q) axis)) out) in *.
    exists (quat_vec (t_rot t1) axis), g. split; [unfold world_face; now rewrite Ea|]. split; [apply facing_1; apply (unit_normal _ _ _ _ O1 Ea)|].
    inversion H; subst found cs; clear H. split; [|split; [|split]].
    + intros c Hc. destruct report; [|destruct Hc]. apply in_map_iff in Hc. destruct Hc as (q & <- & Hq). cbn [c_normal c_depth c_local1 c_local2]. split; [reflexivity|].
      destruct (K1 q Hq) as (FC & x & Hx & Dx). split; [exact FC|]. intros D (_ & M & _). rewrite Dx. apply M.
      * exists x. split; [now apply hull_vertex|reflexivity].
      * eexists. split; [|reflexivity]. apply hull_incl with (vs := corners p2 g); [apply corners_incl|]. apply (fc_incident _ _ _ _ _ _ _ _ _ _ FC).
    + intros ->. reflexivity.
    + intros ->. destruct below; cbn; split; congruence.
    + intros N. assert (below = []) by (destruct below; [reflexivity|discriminate]). rewrite H. split; [now destruct report|].
      intros x y Hx Exy P. assert (y = tr_point t21 x). { apply (tr_point_inj t1 _ _ Q1). rewrite <- Exy. symmetry. now apply pass_back. } subst y. now apply K2.
  - unfold normal, half_edge, vert in H. destruct (nth_error (so_normals p2) f) as [axis|] eqn:Ea; cbn [rd bind] in H; [|discriminate].
    destruct (nth_error (st_faces (so_edges p2)) f) as [start|] eqn:Es; cbn [rd bind] in H; [|discriminate].
    set (g := most_anti_parallel big p1 (quat_vec (t_rot t21) axis)) in H.
    destruct (nth_error (so_faces p1) g) as [vs|] eqn:Eg; cbn [rd bind] in H; [|discriminate].
    destruct (verts p1 vs) as [poly| |] eqn:Ep; cbn [bind] in H; try discriminate.
    destruct (nth_error (st_edges (so_edges p2)) start) as [e|] eqn:Ee; cbn [rd bind] in H; [|discriminate].
    destruct (nth_error (so_verts p2) (e_vertex e)) as [v|] eqn:Ev; cbn [rd bind] in H; [|discriminate].
    destruct (clip_loop fuel p2 axis start start v (map (tr_point t12) poly)) as [out| |] eqn:Ec; cbn [bind] in H; try discriminate.
    destruct (face_points big fuel p2 p1 t2 t1 t21 t12 f axis start vs g poly e v out O2 Q2 Q1) as (K1 & K2); auto.
    { intros x. now apply pass_through. } { intros x. apply tr_point_inverse. apply unit12; assumption. }
    set (below := filter (fun q => rlt 0 (vdot (vsub v q) axis)) out) in *.
    assert (NN : forall w, vneg (vneg w) = w) by (clear; intros [x y z]; unfold vneg; cbn; f_equal; ring).
    exists (vneg (quat_vec (t_rot t2) axis)), g. split; [unfold world_face; now rewrite Ea|]. split; [rewrite NN; apply facing_2; apply (unit_normal _ _ _ _ O2 Ea)|].
    inversion H; subst found cs; clear H. split; [|split; [|split]].
    + intros c Hc. destruct report; [|destruct Hc]. apply in_map_iff in Hc. destruct Hc as (q & <- & Hq). cbn [c_normal c_depth c_local1 c_local2]. split; [reflexivity|]. rewrite NN.
      destruct (K1 q Hq) as (FC & x & Hx & Dx). split; [exact FC|]. intros D (_ & M & _). rewrite Dx.
      match goal with |- vdot ?n (vsub ?a ?b) <= _ => replace (vdot n (vsub a b)) with (vdot (vneg n) (vsub b a)) by (rewrite id_negdot, !vdot_vsub_r; ring) end. apply M.
      * eexists. split; [|reflexivity]. apply hull_incl with (vs := corners p1 g); [apply corners_incl|]. apply (fc_incident _ _ _ _ _ _ _ _ _ _ FC).
      * exists x. split; [now apply hull_vertex|reflexivity].
    + intros ->. reflexivity.
    + intros ->. destruct below; cbn; split; congruence.
    + intros N. assert (below = []) by (destruct below; [reflexivity|discriminate]). rewrite H. split; [now destruct report|].
      intros x y Hx Exy P. assert (y = tr_point t12 x). { apply (tr_point_inj t2 _ _ Q2). rewrite <- Exy. symmetry. now apply pass_through. } subst y. now apply K2.
Qed.
End Two.
