(** Theorems about closest points, clipping, barycentric coordinates and projections (exact arithmetic).
    [eps] is the machine epsilon of the engine: any positive number. *)
From Coq Require Import Reals Lra Psatz List Lia Bool.
From Verif Require Import Base VecModel VecProofs GeomModel GeomSpec GeomProofs.
Import ListNotations.
Local Open Scope R_scope.

(** ** C36: closest point of a segment *)
Theorem C36_optimal : forall eps a b c, 0 < eps -> eps <= dist a b * dist a b ->
  let r := closest_on_segment eps a b c in
  on_segment a b r /\ forall q, on_segment a b q -> dist c r <= dist c q.
Proof.
  intros eps a b c He H. rewrite (dist_sym a b), dist_vlen, vlen_sq in H. cbv zeta. rewrite closest_on_segment_param by auto. split.
  - eexists. split; [apply clampR_bounds|reflexivity].
  - intros q Hq. apply dist_le_iff. apply closest_point_optimal; auto. lra.
Qed.
Print Assumptions C36_optimal.
(** For shorter segments the first end point is returned, which is off by at most the square root of the threshold. *)
Theorem C36_short : forall eps a b c, 0 < eps ->
  let r := closest_on_segment eps a b c in
  on_segment a b r /\ forall q, on_segment a b q -> dist c r <= dist c q + sqrt eps.
Proof.
  intros eps a b c He. cbv zeta. destruct (Rle_dec eps (dist a b * dist a b)) as [L|L].
  - destruct (C36_optimal eps a b c He L) as [S O]. split; auto. intros q Hq. specialize (O q Hq). pose proof (sqrt_pos eps). lra.
  - unfold closest_on_segment. cbv zeta. rewrite (dist_sym a b), dist_vlen, vlen_sq in L.
    assert (E : rlt (vlen2 (vsub b a)) eps = true) by (apply rlt_true; lra). rewrite E.
    split; [apply on_segment_l|]. intros q Hq. pose proof (triangle c q a). pose proof (dist_segment _ _ _ Hq).
    pose proof (dist_of_sq a b eps). rewrite (dist_sym q a) in *. lra.
Qed.
Print Assumptions C36_short.
Example C36_example : / 1000 <= dist (V3 0 0 0) (V3 2 0 0) * dist (V3 0 0 0) (V3 2 0 0) /\
  closest_on_segment (/ 1000) (V3 0 0 0) (V3 2 0 0) (V3 1 5 0) = V3 1 0 0.
Proof.
  split.
  - rewrite dist_vlen, vlen_sq. unfold vlen2, vsub; cbn [vx vy vz]. lra.
  - rewrite closest_on_segment_param; [|lra|unfold vlen2, vsub; cbn [vx vy vz]; lra].
    unfold vlen2, vdot, vsub; cbn [vx vy vz]. match goal with |- lerp _ _ (clampR ?e 0 1) = _ => replace e with (/ 2) by lra end.
    unfold clampR. rewrite Rmax_left, Rmin_left by lra. unfold lerp; cbn [vx vy vz]. f_equal; lra.
Qed.

(** ** C37: closest points of two segments *)
(** Either a segment is longer than the threshold or it is a single point. *)
Definition long_or_point (eps : R) (a b : vec3) : Prop := eps < dist a b * dist a b \/ a = b.
Theorem C37_optimal : forall eps a1 b1 a2 b2, 0 <= eps -> long_or_point eps a1 b1 -> long_or_point eps a2 b2 ->
  let '(p, q) := closest_segments eps a1 b1 a2 b2 in
  on_segment a1 b1 p /\ on_segment a2 b2 q /\
  forall p' q', on_segment a1 b1 p' -> on_segment a2 b2 q' -> dist p q <= dist p' q'.
Proof.
  intros eps a1 b1 a2 b2 He H1 H2. unfold long_or_point in *.
  rewrite (dist_sym a1 b1), (dist_vlen b1 a1), vlen_sq in H1. rewrite (dist_sym a2 b2), (dist_vlen b2 a2), vlen_sq in H2.
  unfold closest_segments. cbv zeta.
  assert (Z : forall a b, a = b -> vlen2 (vsub b a) = 0) by (intros a b ->; unfold vlen2, vsub; cbn [vx vy vz]; ring).
  destruct (rle (vlen2 (vsub b1 a1)) eps && rle (vlen2 (vsub b2 a2)) eps)%bool eqn:B.
  - apply andb_true_iff in B. destruct B as [B1 B2]. apply rle_true in B1. apply rle_true in B2.
    destruct H1 as [H1|H1]; [lra|]. destruct H2 as [H2|H2]; [lra|]. subst b1 b2.
    split; [apply on_segment_l|]. split; [apply on_segment_l|]. intros p' q' (s & _ & ->) (t & _ & ->).
    assert (E : forall a s, lerp a a s = a) by (intros [x y z] u; unfold lerp; cbn [vx vy vz]; f_equal; ring). rewrite !E. lra.
  - assert (N : ~ (a1 = b1 /\ a2 = b2)).
    { intros [-> ->]. rewrite !Z in B by auto. apply andb_false_iff in B. destruct B as [B|B]; apply rle_false in B; lra. }
    pose proof (segments_optimal_params eps a1 b1 a2 b2) as O. destruct (segments_params eps a1 b1 a2 b2) as [s t].
    rewrite <- !lerp_eq.
    destruct (O 0 0) as [[S T] _]; auto; try lra. repeat split; try (eexists; split; [|reflexivity]; auto).
    intros p' q' (s' & Hs & ->) (t' & Ht & ->). apply dist_le_iff. now apply O.
Qed.
Print Assumptions C37_optimal.
(** All segments: the result is at most twice the square root of the threshold longer than optimal. *)
Lemma closest_short eps a1 b1 a2 b2 : 0 < eps ->
  vlen2 (vsub b1 a1) <= eps -> eps < vlen2 (vsub b2 a2) ->
  closest_segments eps a1 b1 a2 b2 = (a1, lerp a2 b2 (clampR (vdot (vsub a1 a2) (vsub b2 a2) / vlen2 (vsub b2 a2)) 0 1)).
Proof.
  intros He H1 H2. unfold closest_segments, segments_params. cbv zeta.
  apply rle_true in H1. apply rle_false in H2. rewrite H1, H2. cbn [andb].
  f_equal. { destruct a1 as [x y z]; unfold vadd, vscale; cbn [vx vy vz]; f_equal; ring. }
  rewrite lerp_eq. rewrite (vdot_comm (vsub b2 a2)). reflexivity.
Qed.
Lemma closest_short2 eps a1 b1 a2 b2 : 0 < eps ->
  eps < vlen2 (vsub b1 a1) -> vlen2 (vsub b2 a2) <= eps ->
  closest_segments eps a1 b1 a2 b2 = (lerp a1 b1 (clampR (vdot (vsub a2 a1) (vsub b1 a1) / vlen2 (vsub b1 a1)) 0 1), a2).
Proof.
  intros He H1 H2. unfold closest_segments, segments_params. cbv zeta.
  apply rle_false in H1. apply rle_true in H2. rewrite H1, H2. cbn [andb].
  f_equal. 2:{ destruct a2 as [x y z]; unfold vadd, vscale; cbn [vx vy vz]; f_equal; ring. }
  rewrite lerp_eq. f_equal. f_equal. f_equal. f_equal. unfold vdot, vsub; cbn [vx vy vz]. ring.
Qed.
Theorem C37_near_optimal : forall eps a1 b1 a2 b2, 0 < eps ->
  let '(p, q) := closest_segments eps a1 b1 a2 b2 in
  on_segment a1 b1 p /\ on_segment a2 b2 q /\
  forall p' q', on_segment a1 b1 p' -> on_segment a2 b2 q' -> dist p q <= dist p' q' + 2 * sqrt eps.
Proof.
  intros eps a1 b1 a2 b2 He. pose proof (sqrt_pos eps) as Sp.
  assert (NE : forall a b p, vlen2 (vsub b a) <= eps -> on_segment a b p -> dist a p <= sqrt eps).
  { intros a b p Hl Hp. pose proof (dist_segment _ _ _ Hp). pose proof (dist_of_sq a b eps). lra. }
  destruct (Rle_dec (vlen2 (vsub b1 a1)) eps) as [L1|L1]; destruct (Rle_dec (vlen2 (vsub b2 a2)) eps) as [L2|L2].
  - assert (E : closest_segments eps a1 b1 a2 b2 = (a1, a2)).
    { unfold closest_segments. apply rle_true in L1. apply rle_true in L2. rewrite L1, L2. reflexivity. }
    rewrite E. split; [apply on_segment_l|]. split; [apply on_segment_l|]. intros p' q' Hp Hq.
    pose proof (triangle a1 p' a2). pose proof (triangle p' q' a2). pose proof (NE _ _ _ L1 Hp). pose proof (NE _ _ _ L2 Hq).
    rewrite (dist_sym q' a2) in *. lra.
  - rewrite closest_short by lra. split; [apply on_segment_l|]. split; [eexists; split; [apply clampR_bounds|reflexivity]|].
    intros p' q' Hp Hq. assert (O := closest_point_optimal a2 b2 a1 q'). rewrite <- dist_le_iff in O.
    pose proof (triangle a1 p' q'). pose proof (NE _ _ _ L1 Hp).
    assert (0 < vlen2 (vsub b2 a2)) by lra. specialize (O H1 Hq). lra.
  - rewrite closest_short2 by lra. split; [eexists; split; [apply clampR_bounds|reflexivity]|]. split; [apply on_segment_l|].
    intros p' q' Hp Hq. assert (O := closest_point_optimal a1 b1 a2 p'). rewrite <- dist_le_iff in O.
    assert (0 < vlen2 (vsub b1 a1)) by lra. specialize (O H Hp).
    pose proof (triangle a2 q' p'). pose proof (NE _ _ _ L2 Hq). rewrite (dist_sym _ a2), (dist_sym p' q'). lra.
  - pose proof (C37_optimal eps a1 b1 a2 b2) as O. destruct (closest_segments eps a1 b1 a2 b2) as [p q].
    assert (LP : forall a b, ~ vlen2 (vsub b a) <= eps -> long_or_point eps a b) by (intros a b N; left; rewrite (dist_sym a b), dist_vlen, vlen_sq; lra).
    destruct O as (P & Q & M); auto; try lra. repeat split; auto. intros p' q' Hp Hq. specialize (M p' q' Hp Hq). lra.
Qed.
Print Assumptions C37_near_optimal.
(** Parallel segments side by side, whose lines have no unique closest points. *)
Example C37_example : long_or_point 0 (V3 0 0 0) (V3 4 0 0) /\ long_or_point 0 (V3 1 1 0) (V3 2 1 0).
Proof. split; left; rewrite dist_vlen, vlen_sq; unfold vlen2, vsub; cbn [vx vy vz]; lra. Qed.

(** ** C38: clipping a polygon against a plane *)
(** The edges of a polygon, the first one closing it. *)
Definition edge_of (poly : list vec3) (s e : vec3) : Prop :=
  neighbours poly s e.
Lemma edges_from_split v l s e : In (s, e) (edges_from v l) <-> exists l1 l2, v :: l = l1 ++ s :: e :: l2.
Proof.
  revert v; induction l as [|x l IH]; intros v; cbn [edges_from].
  - split; [intros []|]. intros (l1 & l2 & E). destruct l1 as [|? [|? ?]]; discriminate.
  - split.
    + intros [E|H]; [inversion E; subst; exists [], l; reflexivity|]. apply IH in H. destruct H as (l1 & l2 & H).
      exists (v :: l1), l2. rewrite H. reflexivity.
    + intros (l1 & l2 & E). destruct l1 as [|y l1]; cbn in E; inversion E; subst; [now left|]. right. apply IH. exists l1, l2. assumption.
Qed.
Lemma last_nth (l : list vec3) d : nth_error (l) (length l - 1) = match l with [] => None | _ => Some (last l d) end.
Proof.
  induction l as [|x l IH]; auto. cbn [length]. destruct l as [|y l]; auto.
  replace (S (length (y :: l)) - 1)%nat with (S (length (y :: l) - 1)) by (cbn; lia). cbn [nth_error]. rewrite IH. reflexivity.
Qed.
Lemma clip_polygon_eq poly pp n : poly <> [] -> clip_polygon poly pp n = Ok (clip_polygon_loop pp n (last poly vzero) poly).
Proof. intros H. unfold clip_polygon. rewrite (last_nth poly vzero). destruct poly; [congruence|reflexivity]. Qed.

Theorem C38_safe : forall poly pp n, poly <> [] -> exists out, clip_polygon poly pp n = Ok out.
Proof. intros poly pp n H. rewrite clip_polygon_eq by auto. eauto. Qed.
Print Assumptions C38_safe.
Theorem C38_in_front_on_boundary : forall poly pp n out p, clip_polygon poly pp n = Ok out -> In p out ->
  0 <= offset pp n p /\ exists s e, edge_of poly s e /\ on_segment s e p.
Proof.
  intros poly pp n out p E Hp. assert (poly <> []) by (intros ->; discriminate). rewrite clip_polygon_eq in E by auto.
  inversion E; subst out. apply clip_loop_in in Hp. destruct Hp as ((s & e) & He & Hp). apply clip_edge_front in Hp. cbn [fst snd] in Hp.
  split; [tauto|]. exists s, e. split; [|tauto]. apply edges_from_split in He. exact He.
Qed.
Print Assumptions C38_in_front_on_boundary.
(** The vertices in front are kept, in order. *)
Theorem C38_keeps_front : forall poly pp n out keep, clip_polygon poly pp n = Ok out ->
  (forall p, keep p = true <-> 0 <= offset pp n p) -> sublist (filter keep poly) out.
Proof.
  intros poly pp n out keep E K. assert (poly <> []) by (intros ->; discriminate). rewrite clip_polygon_eq in E by auto.
  inversion E; subst out. replace (filter keep poly) with (filter (fun p => rle 0 (offset pp n p)) poly); [apply clip_loop_sublist|].
  apply filter_ext. intros p. apply eq_iff_eq_true. rewrite K. apply rle_true.
Qed.
Print Assumptions C38_keeps_front.
(** Nothing in front is lost: every boundary point in front of the plane is on an edge of the result, if no edge
    crosses the plane at a grazing angle. *)
Definition crosses_wide (pp n s e : vec3) : Prop :=
  (0 <= offset pp n s <-> 0 <= offset pp n e) \/ / 10000 < Rabs (offset pp n e - offset pp n s).
Theorem C38_covers_front : forall poly pp n out s e p, clip_polygon poly pp n = Ok out ->
  (forall s e, edge_of poly s e -> crosses_wide pp n s e) ->
  edge_of poly s e -> on_segment s e p -> 0 <= offset pp n p ->
  exists u v, neighbours out u v /\ on_segment u v p.
Proof.
  intros poly pp n out s e p E W He Hs Hp. assert (NE : poly <> []) by (intros ->; discriminate). rewrite clip_polygon_eq in E by auto.
  inversion E; subst out. clear E. set (v0 := last poly vzero) in *.
  assert (WF : forall ed, In ed (edges_from v0 poly) -> wide pp n (fst ed) (snd ed) = true \/ (0 <= offset pp n (fst ed) <-> 0 <= offset pp n (snd ed))).
  { intros [s' e'] H. cbn [fst snd]. destruct (W s' e') as [X|X]; auto; [now apply edges_from_split|]. left. now apply rlt_true. }
  assert (EX : exists ed, In ed (edges_from v0 poly) /\ on_segment (fst ed) (snd ed) p) by (exists (s, e); split; auto; now apply edges_from_split).
  set (out := clip_polygon_loop pp n v0 poly).
  assert (LF : 0 <= offset pp n v0 -> last out vzero = v0) by (intros H; now apply clip_loop_last).
  destruct (clip_loop_covers pp n v0 poly p [last out vzero]) as (u & v & l1 & l2 & Hu & Hl); auto.
  - intros H. exists []. now rewrite LF.
  - exists u, v. split; auto. exists l1, l2. exact Hl.
Qed.
Print Assumptions C38_covers_front.
(** An edge that crosses at a grazing angle may lose a sliver: its front part is cut back to its front vertex. *)
Theorem C38_empty_polygon_refuted : exists pp n, clip_polygon [] pp n = Ub.
Proof. exists vzero, vzero. reflexivity. Qed.
Print Assumptions C38_empty_polygon_refuted.
Theorem C38_grazing_refuted : exists poly pp n out s e p, clip_polygon poly pp n = Ok out /\
  edge_of poly s e /\ on_segment s e p /\ 0 <= offset pp n p /\ forall u v, neighbours out u v -> ~ on_segment u v p.
Proof.
  (* a thin triangle whose long edges cross the plane z = 0 nearly parallel to it *)
  exists [V3 0 0 (/ 20000); V3 1 0 (- / 20000); V3 1 1 (- / 20000)], vzero, (V3 0 0 1), [V3 0 0 (/ 20000); V3 0 0 (/ 20000); V3 0 0 (/ 20000)].
  exists (V3 0 0 (/ 20000)), (V3 1 0 (- / 20000)), (V3 (/ 4) 0 (/ 40000)).
  set (A := V3 0 0 (/ 20000)). set (B := V3 1 0 (- / 20000)). set (C := V3 1 1 (- / 20000)).
  assert (OA : offset vzero (V3 0 0 1) A = / 20000) by (unfold offset, vzero, A; cbn [vx vy vz]; ring).
  assert (OB : offset vzero (V3 0 0 1) B = - / 20000) by (unfold offset, vzero, B; cbn [vx vy vz]; ring).
  assert (OC : offset vzero (V3 0 0 1) C = - / 20000) by (unfold offset, vzero, C; cbn [vx vy vz]; ring).
  assert (P : rle 0 (/ 20000) = true) by (apply rle_true; lra). assert (N : rle 0 (- / 20000) = false) by (apply rle_false; lra).
  assert (P' : rlt (/ 20000) 0 = false) by (apply rlt_false; lra). assert (N' : rlt (- / 20000) 0 = true) by (apply rlt_true; lra).
  split; [|split; [|split; [|split]]].
  - rewrite clip_polygon_eq by discriminate. f_equal. cbn [last clip_polygon_loop]. rewrite !clip_polygon_edge_eq. unfold wide. rewrite OA, OB, OC, P, N, N'.
    assert (W1 : rlt (/ 10000) (Rabs (- / 20000 - / 20000)) = false) by (apply rlt_false; rewrite Rabs_left; lra).
    assert (W2 : rlt (/ 10000) (Rabs (/ 20000 - - / 20000)) = false) by (apply rlt_false; rewrite Rabs_pos_eq; lra).
    rewrite W1, W2. reflexivity.
  - exists [C], [C]. reflexivity.
  - exists (/ 4). split; [lra|]. unfold lerp, A, B; cbn [vx vy vz]. f_equal; lra.
  - unfold offset, vzero; cbn [vx vy vz]. lra.
  - intros u v (l1 & l2 & E). assert (U : u = A /\ v = A).
    { assert (In u [A; A; A; A] /\ In v [A; A; A; A]) as [Hu Hv] by (change [A; A; A; A] with (last [A; A; A] vzero :: [A; A; A]); rewrite E; split; apply in_or_app; right; [now left|right; now left]).
      cbn [In] in Hu, Hv. split; intuition. }
    destruct U as [-> ->]. intros (t & _ & H). pose proof (f_equal vx H) as X. unfold lerp, A in X; cbn [vx vy vz] in X. lra.
Qed.
Print Assumptions C38_grazing_refuted.
Example C38_example : forall s e, edge_of [V3 (-1) 0 0; V3 1 0 0; V3 0 1 0] s e -> crosses_wide vzero (V3 1 0 0) s e.
Proof.
  intros s e (l1 & l2 & E). cbn [last] in E.
  assert (H : In (s, e) (edges_from (V3 0 1 0) [V3 (-1) 0 0; V3 1 0 0; V3 0 1 0])) by (apply edges_from_split; eauto).
  cbn [edges_from In] in H. unfold crosses_wide, offset, vzero.
  destruct H as [H|[H|[H|[]]]]; inversion H; subst; cbn [vx vy vz].
  - right. rewrite Rabs_left; lra.
  - right. rewrite Rabs_pos_eq; lra.
  - left. split; lra.
Qed.

(** ** C39: clipping a segment against planes *)
Theorem C39_exact_partial : forall a b planes, planes <> [] -> no_graze a b planes ->
  exists out, clip_segment a b planes = Ok out /\
   ((out = [] /\ forall p, ~ part a b planes p) \/
    exists x y, out = [x; y] /\ forall p, on_segment x y p <-> part a b planes p).
Proof.
  intros a b planes NE G. unfold clip_segment. replace [a; b] with [lerp a b 0; lerp a b 1] by (rewrite lerp_0, lerp_1; reflexivity).
  apply (clip_loop_correct a b planes [] 0 1 []); auto; try lra.
  - intros u Hu. split; [constructor|lra].
  - congruence.
Qed.
Print Assumptions C39_exact_partial.
(** Whatever the angles: a result never leaves the part in front. *)
Theorem C39_sound : forall a b planes out p, clip_segment a b planes = Ok out -> In p out -> part a b planes p.
Proof.
  intros a b planes out p E Hp. apply (clip_loop_sound a b planes [] [a; b] [] out); auto.
  - intros q [<-|[<-|[]]]; split; auto using on_segment_l, on_segment_r.
  - intros q [].
Qed.
Print Assumptions C39_sound.
(** A single plane never causes an invalid read. *)
Theorem C39_one_plane : forall a b pl, exists out, clip_segment a b [pl] = Ok out /\ (length out <= 2)%nat.
Proof.
  intros a b [pp n]. unfold clip_segment. cbn [clip_segment_loop nth_error rd bind]. eexists; split; [reflexivity|].
  rewrite clip_segment_plane_eq. destruct (rle 0 _); [|destruct (rle 0 _); [|cbn; lia]].
  - destruct (rlt _ _); cbn; lia.
  - destruct (wide _ _ _ _); cbn; lia.
Qed.
Print Assumptions C39_one_plane.
(** A segment that leaves the first of two planes at a grazing angle: one vertex is kept and the second is read. *)
Theorem C39_invalid_read_refuted : exists a b planes, planes <> [] /\ clip_segment a b planes = Ub.
Proof.
  exists (V3 0 0 (/ 20000)), (V3 1 0 (- / 20000)), [(vzero, V3 0 0 1); (vzero, V3 1 0 0)]. split; [discriminate|].
  unfold clip_segment. cbn [clip_segment_loop nth_error rd bind]. rewrite clip_segment_plane_eq. unfold wide.
  set (A := V3 0 0 (/ 20000)). set (B := V3 1 0 (- / 20000)).
  assert (OA : offset vzero (V3 0 0 1) A = / 20000) by (unfold offset, vzero, A; cbn [vx vy vz]; ring).
  assert (OB : offset vzero (V3 0 0 1) B = - / 20000) by (unfold offset, vzero, B; cbn [vx vy vz]; ring).
  rewrite OA, OB.
  assert (P : rle 0 (/ 20000) = true) by (apply rle_true; lra). assert (N : rle 0 (- / 20000) = false) by (apply rle_false; lra).
  assert (W1 : rlt (/ 10000) (Rabs (- / 20000 - / 20000)) = false) by (apply rlt_false; rewrite Rabs_left; lra).
  rewrite N, P, W1. reflexivity.
Qed.
Print Assumptions C39_invalid_read_refuted.
(** Without planes nothing is returned although the whole segment is in front. *)
Theorem C39_no_planes_refuted : forall a b, clip_segment a b [] = Ok [] /\ part a b [] a.
Proof. intros a b. split; [reflexivity|]. split; [apply on_segment_l|constructor]. Qed.
Print Assumptions C39_no_planes_refuted.
(** A segment cut by two planes. *)
Example C39_example : no_graze (V3 0 0 0) (V3 4 0 0) [(V3 1 0 0, V3 1 0 0); (V3 3 0 0, V3 (-1) 0 0)].
Proof.
  assert (PL : forall k l, 0 <= k <= 1 -> Forall (fun q => front q (lerp (V3 0 0 0) (V3 4 0 0) k)) l -> part (V3 0 0 0) (V3 4 0 0) l (lerp (V3 0 0 0) (V3 4 0 0) k)).
  { intros k l Hk F. split; auto. now exists k. }
  intros before pl after E _. destruct before as [|p1 [|p2 [|p3 before]]]; cbn in E; inversion E; subst.
  - exists (lerp (V3 0 0 0) (V3 4 0 0) 0), (lerp (V3 0 0 0) (V3 4 0 0) (/ 2)).
    split; [apply PL; [lra|constructor]|]. split; [apply PL; [lra|constructor]|].
    unfold front, offset, lerp; cbn [fst snd vx vy vz]. repeat split; lra.
  - exists (lerp (V3 0 0 0) (V3 4 0 0) 1), (lerp (V3 0 0 0) (V3 4 0 0) (/ 2)).
    split; [apply PL; [lra|]|split; [apply PL; [lra|]|]].
    + constructor; [|constructor]. unfold front, offset, lerp; cbn [fst snd vx vy vz]. lra.
    + constructor; [|constructor]. unfold front, offset, lerp; cbn [fst snd vx vy vz]. lra.
    + unfold front, offset, lerp; cbn [fst snd vx vy vz]. repeat split; lra.
Qed.

(** ** C40: barycentric coordinates *)
Definition combine3 (u v w : R) (a b c : vec3) : vec3 :=
  V3 (u * vx a + v * vx b + w * vx c) (u * vy a + v * vy b + w * vy c) (u * vz a + v * vz b + w * vz c).
Definition in_triangle (a b c p : vec3) : Prop := exists u v w, 0 <= u /\ 0 <= v /\ 0 <= w /\ u + v + w = 1 /\ p = combine3 u v w a b c.
(** The triangle has an area, and the point is in its plane. *)
Definition triangle_normal (a b c : vec3) : vec3 := vcross (vsub b a) (vsub c a).
Theorem C40_reconstruct : forall a b c p, vlen (triangle_normal a b c) <> 0 -> vdot (vsub p a) (triangle_normal a b c) = 0 ->
  let '(u, v, w) := barycentric a b c p in u + v + w = 1 /\ combine3 u v w a b c = p.
Proof.
  intros a b c p Hn Hp. unfold barycentric. cbv zeta. unfold triangle_normal in *.
  assert (N : vlen2 (vcross (vsub b a) (vsub c a)) <> 0) by (intros Z; apply Hn; unfold vlen; rewrite Z; apply sqrt_0).
  pose proof (in_plane_span (vsub b a) (vsub c a) (vsub p a) N Hp) as S. cbv zeta in S.
  set (v := (vdot (vsub c a) (vsub c a) * _ - _) / _) in *. set (w := (vdot (vsub b a) (vsub b a) * _ - _) / _) in *.
  clearbody v w. split; [ring|]. clear - S.
  pose proof (f_equal vx S) as X. pose proof (f_equal vy S) as Y. pose proof (f_equal vz S) as Z.
  unfold vadd, vsub, vscale in X, Y, Z; cbn [vx vy vz] in *. unfold combine3. apply v3_eq; cbn [vx vy vz]; lra.
Qed.
Print Assumptions C40_reconstruct.
(** Uniqueness: weights that sum to one and recombine to the point are the computed ones. *)
Theorem C40_unique : forall a b c u v w, vlen (triangle_normal a b c) <> 0 -> u + v + w = 1 ->
  barycentric a b c (combine3 u v w a b c) = (u, v, w).
Proof.
  intros a b c u v w Hn Hs. unfold barycentric. cbv zeta. unfold triangle_normal in Hn.
  assert (N : vlen2 (vcross (vsub b a) (vsub c a)) <> 0) by (intros Z; apply Hn; unfold vlen; rewrite Z; apply sqrt_0).
  rewrite gram. set (e := vsub b a) in *. set (f := vsub c a) in *.
  assert (P : vsub (combine3 u v w a b c) a = vadd (vscale v e) (vscale w f)).
  { unfold combine3, e, f. replace u with (1 - v - w) by lra. clear. vring. }
  rewrite P. rewrite !vdot_vadd_l, !vdot_vscale_l. rewrite (vdot_comm f e).
  pose proof (gram e f) as G. set (k := vlen2 (vcross e f)) in *.
  assert (V : (vdot f f * (v * vdot e e + w * vdot e f) - vdot e f * (v * vdot e f + w * vdot f f)) / k = v).
  { transitivity (v * (vdot e e * vdot f f - vdot e f * vdot e f) / k); [field; auto|]. rewrite G. field; auto. }
  assert (W : (vdot e e * (v * vdot e f + w * vdot f f) - vdot e f * (v * vdot e e + w * vdot e f)) / k = w).
  { transitivity (w * (vdot e e * vdot f f - vdot e f * vdot e f) / k); [field; auto|]. rewrite G. field; auto. }
  rewrite V, W. f_equal. f_equal. lra.
Qed.
Print Assumptions C40_unique.
Theorem C40_inside : forall a b c p, vlen (triangle_normal a b c) <> 0 -> vdot (vsub p a) (triangle_normal a b c) = 0 ->
  let '(u, v, w) := barycentric a b c p in (0 <= u /\ 0 <= v /\ 0 <= w) <-> in_triangle a b c p.
Proof.
  intros a b c p Hn Hp. pose proof (C40_reconstruct a b c p Hn Hp) as R. destruct (barycentric a b c p) as [[u v] w] eqn:E. destruct R as [S R]. split.
  - intros (U & V & W). exists u, v, w. auto.
  - intros (u' & v' & w' & U & V & W & S' & ->). rewrite C40_unique in E by auto. inversion E; subst. auto.
Qed.
Print Assumptions C40_inside.
Example C40_example : vlen (triangle_normal (V3 0 0 0) (V3 1 0 0) (V3 0 1 0)) <> 0 /\ barycentric (V3 0 0 0) (V3 1 0 0) (V3 0 1 0) (V3 (/4) (/2) 0) = (/4, /4, /2).
Proof.
  assert (N : vlen (triangle_normal (V3 0 0 0) (V3 1 0 0) (V3 0 1 0)) <> 0).
  { intros H. apply vlen_zero in H. unfold triangle_normal, vcross, vsub, vzero in H; cbn [vx vy vz] in H. apply (f_equal vz) in H. cbn [vz] in H. lra. }
  split; auto. rewrite <- (C40_unique (V3 0 0 0) (V3 1 0 0) (V3 0 1 0) (/4) (/4) (/2)); auto; [|lra].
  f_equal. unfold combine3; cbn [vx vy vz]. f_equal; lra.
Qed.

(** ** C73: projections on planes and distances to planes and lines *)
Definition on_plane (pp n p : vec3) : Prop := offset pp n p = 0.
Theorem C73_projection : forall p n pp, vlen n = 1 ->
  let r := project_on_plane p n pp in
  on_plane pp n r /\ dist p r = Rabs (point_to_plane p n pp) /\ forall q, on_plane pp n q -> dist p r <= dist p q.
Proof.
  intros p n pp Hn. assert (N : vlen2 n = 1) by (rewrite <- vlen_sq, Hn; ring). cbv zeta. unfold project_on_plane, point_to_plane.
  set (k := vdot n (vsub p pp)).
  assert (D : dist p (vsub p (vscale k n)) = Rabs k).
  { rewrite dist_vlen. assert (E : vsub p (vsub p (vscale k n)) = vscale k n) by (clear; generalize k; vring). rewrite E, vlen_vscale, Hn. ring. }
  split; [|split; auto].
  - unfold on_plane. rewrite <- offset_dot. rewrite !vdot_vsub_l, vdot_vscale_l. change (vdot n n) with (vlen2 n). rewrite N. unfold k.
    rewrite vdot_vsub_r, !(vdot_comm n). ring.
  - intros q Hq. rewrite D. unfold on_plane in Hq. rewrite <- offset_dot in Hq.
    assert (E : k = vdot n (vsub p q)).
    { unfold k. rewrite !vdot_vsub_r. rewrite vdot_vsub_l in Hq. rewrite !(vdot_comm n). lra. }
    rewrite dist_vlen, E. pose proof (cauchy_schwarz n (vsub p q)) as C1. pose proof (cauchy_schwarz (vneg n) (vsub p q)) as C2.
    rewrite vdot_vneg_l, vlen_vneg in C2. rewrite Hn in *. apply Rabs_le. lra.
Qed.
Print Assumptions C73_projection.
(** The distance to a line: the smallest distance to a point of the line, and it is attained. *)
Theorem C73_line_distance : forall eps a b p, 0 < eps -> eps <= dist a b ->
  (exists t, dist p (lerp a b t) = point_to_line eps a b p) /\ forall t, point_to_line eps a b p <= dist p (lerp a b t).
Proof.
  intros eps a b p He Hl. unfold point_to_line. cbv zeta. rewrite (dist_sym a b), dist_vlen in Hl.
  destruct (rlt (vlen (vsub b a)) eps) eqn:E; [apply rlt_true in E; lra|]. clear E.
  set (d := vsub b a) in *. set (w := vsub p a) in *.
  assert (X : vlen (vcross w (vsub p b)) = vlen (vcross w d)).
  { unfold vlen. f_equal. unfold w, d. clear. vring. }
  rewrite X. set (L := vlen d) in *. assert (L2 : L * L = vlen2 d) by apply vlen_sq.
  assert (Q : forall t, vlen2 (vsub p (lerp a b t)) * (L * L) = vlen2 (vcross w d) + (t * (L * L) - vdot w d) * (t * (L * L) - vdot w d)).
  { intros t. rewrite L2, lagrange. assert (F : vlen2 (vsub p (lerp a b t)) = vlen2 w - 2 * t * vdot w d + t * t * vlen2 d) by (unfold w, d, lerp; clear; vring).
    rewrite F. ring. }
  assert (K : forall t, vlen (vcross w d) / L * (vlen (vcross w d) / L) = vlen2 (vsub p (lerp a b t)) - (t * (L * L) - vdot w d) * (t * (L * L) - vdot w d) / (L * L)).
  { intros t. transitivity (vlen2 (vcross w d) / (L * L)). { rewrite <- (vlen_sq (vcross w d)). field. lra. }
    transitivity ((vlen2 (vsub p (lerp a b t)) * (L * L) - (t * (L * L) - vdot w d) * (t * (L * L) - vdot w d)) / (L * L)); [|field; lra].
    rewrite Q. f_equal. ring. }
  assert (P : 0 <= vlen (vcross w d) / L). { apply Rmult_le_pos; [apply vlen_nonneg|]. left. apply Rinv_0_lt_compat. lra. }
  split.
  - exists (vdot w d / (L * L)). rewrite dist_vlen. unfold vlen at 1. specialize (K (vdot w d / (L * L))).
    replace (vdot w d / (L * L) * (L * L) - vdot w d) with 0 in K by (field; lra).
    replace (vlen2 (vsub p (lerp a b (vdot w d / (L * L))))) with (vlen (vcross w d) / L * (vlen (vcross w d) / L)).
    { apply sqrt_square. auto. }
    rewrite K. field. lra.
  - intros t. rewrite dist_vlen. apply sq_le_le; [apply vlen_nonneg|]. rewrite vlen_sq, (K t).
    assert (0 <= (t * (L * L) - vdot w d) * (t * (L * L) - vdot w d) / (L * L)); [|lra].
    apply Rmult_le_pos; [apply Rle_0_sqr|]. left. apply Rinv_0_lt_compat. apply Rmult_lt_0_compat; lra.
Qed.
Print Assumptions C73_line_distance.
Example C73_example : vlen (V3 0 0 1) = 1 /\ project_on_plane (V3 3 4 5) (V3 0 0 1) (V3 7 7 1) = V3 3 4 1.
Proof.
  split. { unfold vlen, vlen2; cbn [vx vy vz]. replace (0*0+0*0+1*1) with 1 by ring. apply sqrt_1. }
  unfold project_on_plane, vsub, vscale, vdot; cbn [vx vy vz]. f_equal; ring.
Qed.

(** ** C74: clamping a vector *)
Theorem C74_clamp : forall eps v m, 0 < eps <= 1 -> 0 <= m ->
  vlen (clamp_vec eps v m) <= m /\ (vlen v <= m -> clamp_vec eps v m = v) /\
  (m < vlen v -> eps <= vlen v -> vlen (clamp_vec eps v m) = m) /\ exists k, 0 <= k <= 1 /\ clamp_vec eps v m = vscale k v.
Proof.
  intros eps v m He Hm. unfold clamp_vec. destruct (rlt (m * m) (vlen2 v)) eqn:E; [apply rlt_true in E|apply rlt_false in E].
  - assert (L : m < vlen v) by (destruct (Rle_dec (vlen v) m) as [X|X]; [apply vlen_le_iff in X; lra|lra]).
    unfold vunit. destruct (rlt (vlen v) eps) eqn:U; [apply rlt_true in U|apply rlt_false in U].
    + rewrite vlen_vscale, Rabs_pos_eq by auto. pose proof (vlen_nonneg v). split; [nra|]. split; [lra|]. split; [lra|].
      exists m. split; [lra|reflexivity].
    + cbv zeta. set (l := vlen v) in *.
      assert (S : vscale m (V3 (vx v * (1 / l)) (vy v * (1 / l)) (vz v * (1 / l))) = vscale (m / l) v).
      { unfold vscale; cbn [vx vy vz]. f_equal; field; lra. }
      rewrite S. assert (Q : 0 <= m / l <= 1).
      { split; [apply Rmult_le_pos; auto; left; apply Rinv_0_lt_compat; lra|]. apply (Rmult_le_reg_r l); [lra|]. replace (m / l * l) with m by (field; lra). lra. }
      assert (V : vlen (vscale (m / l) v) = m) by (rewrite vlen_vscale, Rabs_pos_eq by lra; fold l; field; lra).
      rewrite V. split; [lra|]. split; [lra|]. split; auto. exists (m / l). auto.
  - assert (L : vlen v <= m) by (apply vlen_le_iff; auto). split; auto. split; auto. split; [lra|]. exists 1. split; [lra|]. symmetry. apply vscale_1.
Qed.
Print Assumptions C74_clamp.
Example C74_example : vlen (V3 3 4 0) = 5 /\ 2 < vlen (V3 3 4 0).
Proof.
  assert (E : vlen (V3 3 4 0) = 5).
  { unfold vlen, vlen2; cbn [vx vy vz]. replace (3*3+4*4+0*0) with (5*5) by ring. apply sqrt_square; lra. }
  rewrite E. split; lra.
Qed.
