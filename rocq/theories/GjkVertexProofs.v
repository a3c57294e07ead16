(** The vertices of the shapes, and concrete runs of the GJK algorithm. *)
From Coq Require Import List Bool Arith Lia Lra Psatz ZArith.
From Verif Require Import Base VecModel VecProofs GeomSpec GeomProofs ShapeModel ShapeSpec ShapeProofs ShapeMeshProofs NarrowModel NarrowSpec NarrowProofs
  NarrowProperties GjkModel GjkSpec VoronoiProofs GjkProofs GjkLoopProofs GjkShapeProofs.
Import ListNotations.
Local Open Scope R_scope.

Lemma sphere_finds big : finds_vertex big sphere_support0 [V3 0 0 0].
Proof. intros d _. split; [now left|]. intros p [<-|[]]. apply Rle_refl. Qed.
Lemma box_finds big h : 0 <= vx h -> 0 <= vy h -> 0 <= vz h -> finds_vertex big (box_support0 h) (box_corners h).
Proof.
  intros Hx Hy Hz d _. unfold box_support0, box_corners. split.
  - destruct (rlt (vx d) 0), (rlt (vy d) 0), (rlt (vz d) 0); cbn [In]; tauto.
  - intros p Hp. cbn [vx vy vz].
    assert (X : forall k a b, - b <= a <= b -> a * k <= (if rlt k 0 then - b else b) * k) by (intros k a b H; destruct (rlt k 0) eqn:E; rewrite ?rlt_true, ?rlt_false in E; nra).
    assert (A : - vx h <= vx p <= vx h /\ - vy h <= vy p <= vy h /\ - vz h <= vz p <= vz h).
    { cbn [In] in Hp. repeat (destruct Hp as [<-|Hp]; [cbn [vx vy vz]; lra|]). elim Hp. }
    destruct A as (A & B & C). pose proof (X (vx d) _ _ A). pose proof (X (vy d) _ _ B). pose proof (X (vz d) _ _ C). lra.
Qed.
Lemma capsule_finds big hh : 0 <= hh -> finds_vertex big (capsule_support0 hh) (capsule_ends hh).
Proof.
  intros H d _. unfold capsule_support0, capsule_ends. split; [destruct (rlt _ _); cbn [In]; tauto|].
  intros p Hp. cbn [In] in Hp. destruct (rlt (- hh * vy d) (hh * vy d)) eqn:E; rewrite ?rlt_true, ?rlt_false in E;
    repeat (destruct Hp as [<-|Hp]; [cbn [vx vy vz]; lra|]); elim Hp.
Qed.
Lemma cmesh_finds big m k : 0 < k -> cm_vertices m <> [] -> (forall v, In v (cm_vertices m) -> 4 * vlen2 v < big) ->
  finds_vertex big (cmesh_support0 big m (V3 k k k)) (map (fun v => V3 (vx v * k) (vy v * k) (vz v * k)) (cm_vertices m)).
Proof.
  intros Hk Hn Hb d Hd. change (4 * vlen2 d < big) in Hd.
  assert (B : forall v, In v (cm_vertices m) -> - big < vdot d v).
  { intros v Hv. specialize (Hb v Hv). pose proof (vlen2_nonneg (vadd d v)) as P. replace (vlen2 (vadd d v)) with (vlen2 d + vlen2 v + 2 * vdot d v) in P by (generalize d, v; clear; vring).
    pose proof (vlen2_nonneg d). pose proof (vlen2_nonneg v). lra. }
  destruct (cmesh_support_ok big m k d Hk Hn B) as (_ & M). split.
  - unfold cmesh_support0, cm_vertex.
    destruct (support_scan_max d (cm_vertices m) (cm_vertices m) [] 0%nat (- big) eq_refl) as [Hr Hm]; [left; auto|exact Hn|]. cbn [length] in Hr.
    apply in_map_iff. exists (nth (support_scan d (cm_vertices m) 0 0 (- big)) (cm_vertices m) vzero). split; [reflexivity|now apply nth_In].
  - intros p Hp. apply M. now apply hull_vertex.
Qed.

Lemma hull_point c p : hull [c] p <-> p = c.
Proof.
  split; [|intros ->; apply hull_vertex; now left]. induction 1 as [v [<-|[]]|a b m _ -> _ -> M]; [reflexivity|].
  apply on_segment_eq in M as (t & _ & ->). generalize c, t; clear; vring.
Qed.
Lemma sphere_hull t p : hull_core [V3 0 0 0] t p <-> sphere_core t p.
Proof.
  unfold hull_core, moved, sphere_core. split.
  - intros (q & Hq & ->). apply hull_point in Hq. subst q. apply tr_point_zero.
  - intros ->. exists (V3 0 0 0). split; [now apply hull_point|]. symmetry. apply tr_point_zero.
Qed.
Lemma capsule_hull hh t p : 0 <= hh -> hull_core (capsule_ends hh) t p <-> capsule_core hh t p.
Proof.
  intros H. unfold hull_core, capsule_core, moved. enough (G : forall q, hull (capsule_ends hh) q <-> on_segment (V3 0 (- hh) 0) (V3 0 hh 0) q).
  { split; intros (q & Hq & ->); exists q; (split; [now apply G|reflexivity]). }
  intros q. split.
  - induction 1 as [v Hv|a b m _ A _ B M].
    + rewrite segment_capsule by exact H. cbn [capsule_ends In] in Hv. destruct Hv as [<-|[<-|[]]]; cbn [vx vy vz]; lra.
    + rewrite segment_capsule in * by exact H. apply on_segment_eq in M as (u & Hu & ->). unfold vadd, vscale. cbn [vx vy vz].
      destruct A as (A1 & A2 & A3), B as (B1 & B2 & B3). rewrite A1, A2, B1, B2. split; [ring|]. split; [ring|]. nra.
  - intros Hq. apply (hull_between _ (V3 0 (- hh) 0) (V3 0 hh 0)); [apply hull_vertex; right; now left|apply hull_vertex; now left|exact Hq].
Qed.
Lemma between_axis x a : 0 <= a -> - a <= x <= a -> exists t, 0 <= t <= 1 /\ x = (1 - t) * - a + t * a.
Proof.
  intros A X. destruct (Req_dec a 0) as [->|N]; [exists 0; split; [lra|lra]|]. exists ((x + a) / (2 * a)). split; [|field; lra].
  split; [apply Rmult_le_pos; [lra|left; apply Rinv_0_lt_compat; lra]|apply (Rmult_le_reg_r (2 * a)); [lra|]; unfold Rdiv; rewrite Rmult_assoc, Rinv_l by lra; lra].
Qed.
Lemma box_hull h p : 0 <= vx h -> 0 <= vy h -> 0 <= vz h -> hull (box_corners h) p <-> cuboid h p.
Proof.
  intros Hx Hy Hz. split.
  - induction 1 as [v Hv|a b m _ A _ B M].
    + cbn [box_corners In] in Hv. unfold cuboid. repeat (destruct Hv as [<-|Hv]; [cbn [vx vy vz]; lra|]). elim Hv.
    + apply on_segment_eq in M as (u & Hu & ->). unfold cuboid, vadd, vscale in *. cbn [vx vy vz]. destruct A as (A1 & A2 & A3), B as (B1 & B2 & B3). repeat split; nra.
  - intros (X & Y & Z). destruct p as [x y z]. cbn [vx vy vz] in *.
    assert (SZ : forall a b, (a = vx h \/ a = - vx h) -> (b = vy h \/ b = - vy h) -> hull (box_corners h) (V3 a b z)).
    { intros a b Ha Hb. destruct (between_axis z (vz h) Hz Z) as (t & Ht & E). apply (hull_between _ (V3 a b (- vz h)) (V3 a b (vz h))).
      - apply hull_vertex. cbn [box_corners In]. destruct Ha as [->| ->], Hb as [->| ->]; tauto.
      - apply hull_vertex. cbn [box_corners In]. destruct Ha as [->| ->], Hb as [->| ->]; tauto.
      - apply on_segment_eq. exists t. split; [exact Ht|]. rewrite E. unfold vadd, vscale. apply v3_eq; cbn [vx vy vz]; ring. }
    assert (SY : forall a, (a = vx h \/ a = - vx h) -> hull (box_corners h) (V3 a y z)).
    { intros a Ha. destruct (between_axis y (vy h) Hy Y) as (t & Ht & E). apply (hull_between _ (V3 a (- vy h) z) (V3 a (vy h) z)); [apply SZ; auto|apply SZ; auto|].
      apply on_segment_eq. exists t. split; [exact Ht|]. rewrite E. unfold vadd, vscale. apply v3_eq; cbn [vx vy vz]; ring. }
    destruct (between_axis x (vx h) Hx X) as (t & Ht & E). apply (hull_between _ (V3 (- vx h) y z) (V3 (vx h) y z)); [apply SY; auto|apply SY; auto|].
    apply on_segment_eq. exists t. split; [exact Ht|]. rewrite E. unfold vadd, vscale. apply v3_eq; cbn [vx vy vz]; ring.
Qed.

(** ** Points with whole coordinates *)
Definition whole (c p : vec3) : Prop := exists x y z : Z, p = vadd c (V3 (IZR x) (IZR y) (IZR z)).
Lemma small_whole (n : Z) : Rabs (IZR n) <= 1 / 10000 -> IZR n = 0.
Proof.
  intros H. destruct (Z.eq_dec n 0) as [->|N]; [reflexivity|]. exfalso. rewrite <- abs_IZR in H. assert (1 <= Z.abs n)%Z by lia. apply IZR_le in H0. lra.
Qed.
Lemma small_whole_vec a b c : vlen2 (V3 (IZR a) (IZR b) (IZR c)) <= 1 / 10000 -> V3 (IZR a) (IZR b) (IZR c) = V3 0 0 0.
Proof.
  intros H. unfold vlen2 in H. cbn [vx vy vz] in H.
  assert (S : forall n, IZR n * IZR n <= 1 / 10000 -> IZR n = 0).
  { intros n Hn. rewrite <- mult_IZR in Hn. assert (E : IZR (n * n) = 0) by (apply small_whole; rewrite Rabs_right; [exact Hn|]; rewrite mult_IZR; nra). apply eq_IZR in E. assert (n = 0%Z) by nia. subst. reflexivity. }
  rewrite (S a), (S b), (S c) by nra. reflexivity.
Qed.
Lemma whole_diff c p q : whole c p -> whole c q -> exists x y z : Z, vsub p q = V3 (IZR x) (IZR y) (IZR z).
Proof.
  intros (x1 & y1 & z1 & ->) (x2 & y2 & z2 & ->). exists (x1 - x2)%Z, (y1 - y2)%Z, (z1 - z2)%Z. rewrite !minus_IZR.
  destruct c as [c1 c2 c3]. unfold vsub, vadd. apply v3_eq; cbn [vx vy vz]; ring.
Qed.
Lemma whole_cross x y z x' y' z' : vcross (V3 (IZR x) (IZR y) (IZR z)) (V3 (IZR x') (IZR y') (IZR z')) = V3 (IZR (y * z' - z * y')) (IZR (z * x' - x * z')) (IZR (x * y' - y * x')).
Proof. unfold vcross. cbn [vx vy vz]. rewrite !minus_IZR, !mult_IZR. apply v3_eq; cbn [vx vy vz]; ring. Qed.
Lemma whole_no_slivers c l : Forall (whole c) l -> no_slivers l.
Proof.
  intros W. rewrite Forall_forall in W. split.
  - intros p q r Hp Hq Hr. destruct (whole_diff c q p (W q Hq) (W p Hp)) as (x & y & z & ->). destruct (whole_diff c r p (W r Hr) (W p Hp)) as (x' & y' & z' & ->).
    rewrite whole_cross. apply small_whole_vec.
  - intros p q r t Hp Hq Hr Ht. destruct (whole_diff c q p (W q Hq) (W p Hp)) as (x & y & z & ->). destruct (whole_diff c r p (W r Hr) (W p Hp)) as (x' & y' & z' & ->).
    destruct (whole_diff c t p (W t Ht) (W p Hp)) as (a & b & d & ->). rewrite whole_cross. unfold vdot. cbn [vx vy vz]. rewrite <- !mult_IZR, <- !plus_IZR. apply small_whole.
Qed.

(** ** Runs *)
Lemma away_point c p : tr_point (away c) p = vadd c p.
Proof. destruct p as [p1 p2 p3], c as [c1 c2 c3]. unfold away, tr_point, quat_vec, vadd. apply v3_eq; cbn [vx vy vz t_pos t_rot qx qy qz qw]; ring. Qed.
Lemma supports_away s1 s2 c v : gjk_supports s1 s2 here (away c) v = (cs_support s1 (vneg v), vadd c (cs_support s2 v)).
Proof.
  unfold gjk_supports. rewrite here_inverse, here_mul, away_point. do 2 f_equal. f_equal.
  destruct v as [v1 v2 v3]. unfold here, away, quat_mul, quat_inverse, quat_vec. cbn [t_rot]. apply v3_eq; cbn [vx vy vz qx qy qz qw]; ring.
Qed.
Lemma loop_next eps big margin supp fuel s v d2 a b w vw s2 n2 : supp v = (a, b) -> vsub a b = w -> vdot v w = vw ->
  (vw <= 0 \/ vw * vw <= d2 * (margin * margin)) -> in_simplex s w = false -> d2 * rel_error2 < d2 - vw ->
  dependent (simplex_add s (SP w a b)) = false -> recompute big (simplex_add s (SP w a b)) = s2 -> sx_valid s2 = true -> vlen2 (sx_close s2) = n2 ->
  eps * d2 < d2 - n2 -> full s2 = false -> eps * max_len2 s2 < n2 ->
  gjk_loop eps big margin supp (S fuel) s v d2 = gjk_loop eps big margin supp fuel s2 (sx_close s2) n2.
Proof.
  intros E1 E2 E3 A I R D C V N P F M. cbn [gjk_loop]. rewrite E1, E2, E3.
  assert (X : rlt 0 vw && rlt (d2 * (margin * margin)) (vw * vw) = false).
  { apply andb_false_iff. destruct A as [A|A]; [left|right]; now apply rlt_false. }
  rewrite X, I. assert (Y : rle (d2 - vw) (d2 * rel_error2) = false) by now apply rle_false. rewrite Y. cbn [orb]. rewrite D, C, V, N. cbn [negb].
  assert (Z : rle (d2 - n2) (eps * d2) = false) by now apply rle_false. rewrite Z, F. cbn [negb andb].
  assert (W : rlt (eps * max_len2 s2) n2 = true) by now apply rlt_true. now rewrite W.
Qed.
Lemma max_len2_one p a b c v : max_len2 (Simplex [p] a b c v) = Rmax 0 (vlen2 (sp_w p)).
Proof. unfold max_len2. cbn [sx_points fold_left]. destruct (rlt 0 (vlen2 (sp_w p))) eqn:E; rewrite ?rlt_true, ?rlt_false in E; [rewrite Rmax_right; lra|rewrite Rmax_left; lra]. Qed.

(** A sphere under a small box, near a corner of the lower face. *)
Definition small_h : vec3 := V3 (45 / 1000) (45 / 1000) (45 / 1000).
Definition small_c : vec3 := V3 (- 35 / 1000) (- 75 / 1000) (35 / 1000).
Definition small_box : cshape := CShape (box_support0 small_h) 0.
Definition small_sphere : cshape := CShape sphere_support0 (5 / 100).
Ltac vcalc := unfold vsub, vadd, vneg, vscale, vcross; apply v3_eq; cbn [vx vy vz]; lra.
Ltac rcalc := unfold vlen2, vdot, vsub, vadd, vneg, vscale, vcross; cbn [vx vy vz]; lra.
Lemma box_support_at h d a : (vx d < 0 /\ vx a = - vx h \/ 0 <= vx d /\ vx a = vx h) -> (vy d < 0 /\ vy a = - vy h \/ 0 <= vy d /\ vy a = vy h) ->
  (vz d < 0 /\ vz a = - vz h \/ 0 <= vz d /\ vz a = vz h) -> box_support0 h d = a.
Proof.
  intros X Y Z. unfold box_support0. apply v3_eq; cbn [vx vy vz].
  - destruct (rlt (vx d) 0) eqn:E; rewrite ?rlt_true, ?rlt_false in E; lra.
  - destruct (rlt (vy d) 0) eqn:E; rewrite ?rlt_true, ?rlt_false in E; lra.
  - destruct (rlt (vz d) 0) eqn:E; rewrite ?rlt_true, ?rlt_false in E; lra.
Qed.
Lemma box_sphere_supports h r0 r c v a : box_support0 h (vneg v) = a -> gjk_supports (CShape (box_support0 h) r0) (CShape sphere_support0 r) here (away c) v = (a, c).
Proof. intros E. rewrite supports_away. cbn [cs_support]. rewrite E. f_equal. unfold sphere_support0. generalize c. clear. vring. Qed.

Lemma small_run eps big fuel report : 0 < eps <= / 1000 -> 4 < big ->
  gjk eps big (S (S (S fuel))) report small_box small_sphere here (away small_c) None = Ok (Separated, [], None).
Proof.
  intros HE HB. unfold gjk. cbv zeta. unfold small_box, small_sphere. cbn [cs_margin].
  set (h := 45 / 1000). set (a1 := V3 h (- h) h). set (w1 := V3 (80 / 1000) (30 / 1000) (10 / 1000)). set (p1 := SP w1 a1 small_c).
  assert (S1 : forall f, gjk_loop eps big (0 + 5 / 100) (gjk_supports (CShape (box_support0 small_h) 0) (CShape sphere_support0 (5 / 100)) here (away small_c)) (S f) simplex_empty (V3 0 1 0) big =
    gjk_loop eps big (0 + 5 / 100) (gjk_supports (CShape (box_support0 small_h) 0) (CShape sphere_support0 (5 / 100)) here (away small_c)) f (Simplex [p1] w1 a1 small_c true) w1 (74 / 10000)).
  { intros f. apply (loop_next _ _ _ _ _ _ _ _ a1 small_c w1 (30 / 1000)).
    - apply box_sphere_supports, box_support_at; unfold a1, h, small_h, vneg; cbn [vx vy vz]; lra.
    - unfold a1, w1, h, small_c. vcalc.
    - unfold w1. rcalc.
    - right. nra.
    - reflexivity.
    - unfold rel_error2. lra.
    - reflexivity.
    - unfold recompute, simplex_add, simplex_empty. cbn [sx_points app]. rewrite check_valid_true by lra. reflexivity.
    - reflexivity.
    - cbn [sx_close]. unfold w1. rcalc.
    - nra.
    - reflexivity.
    - rewrite max_len2_one. cbn [sp_w p1]. replace (vlen2 w1) with (74 / 10000) by (unfold w1; rcalc). rewrite Rmax_right by lra. lra. }
  rewrite S1. clear S1.
  set (a2 := V3 (- h) (- h) (- h)). set (w2 := V3 (- 10 / 1000) (30 / 1000) (- 80 / 1000)). set (p2 := SP w2 a2 small_c).
  set (s2 := Simplex [p1; p2] (V3 (35 / 1000) (30 / 1000) (- 35 / 1000)) (V3 0 (- h) 0) small_c true).
  assert (S2 : forall f, gjk_loop eps big (0 + 5 / 100) (gjk_supports (CShape (box_support0 small_h) 0) (CShape sphere_support0 (5 / 100)) here (away small_c)) (S f) (Simplex [p1] w1 a1 small_c true) w1 (74 / 10000) =
    gjk_loop eps big (0 + 5 / 100) (gjk_supports (CShape (box_support0 small_h) 0) (CShape sphere_support0 (5 / 100)) here (away small_c)) f s2 (V3 (35 / 1000) (30 / 1000) (- 35 / 1000)) (335 / 100000)).
  { intros f. apply (loop_next _ _ _ _ _ _ _ _ a2 small_c w2 (- 7 / 10000)).
    - apply box_sphere_supports, box_support_at; unfold w1, a2, h, small_h, vneg; cbn [vx vy vz]; lra.
    - unfold a2, w2, h, small_c. vcalc.
    - unfold w1, w2. rcalc.
    - left. lra.
    - unfold in_simplex. cbn [sx_points existsb sp_w p1]. rewrite orb_false_r. apply rle_false. unfold w1, w2, voronoi_eps. rcalc.
    - unfold rel_error2. lra.
    - unfold dependent, simplex_add. cbn [sx_points app map sp_w p1]. apply rle_false. unfold w1, w2, voronoi_eps. rcalc.
    - unfold recompute, simplex_add. cbn [sx_points app]. fold p2. cbn [sp_w sp_a sp_b p1 p2].
      assert (C : closest_seg w1 w2 = (3%nat, 1 / 2)).
      { unfold closest_seg. assert (X1 : vdot (vneg w1) (vsub w2 w1) = 81 / 10000) by (unfold w1, w2; rcalc). assert (X2 : vlen2 (vsub w2 w1) = 162 / 10000) by (unfold w1, w2; rcalc).
        rewrite X1, X2. rewrite (R2 0 (81 / 10000)) by lra. rewrite (R2 (81 / 10000) (162 / 10000)) by lra. f_equal. lra. }
      rewrite C. rewrite check_valid_true by lra. unfold s2.
      assert (Q1 : vadd a1 (vscale (1 / 2) (vsub a2 a1)) = V3 0 (- h) 0) by (unfold a1, a2; vcalc).
      assert (Q2 : vadd small_c (vscale (1 / 2) (vsub small_c small_c)) = small_c) by (generalize small_c; clear; vring).
      rewrite Q1, Q2. change (reduce 3 [p1; p2]) with [p1; p2]. f_equal. unfold small_c, h. vcalc.
    - reflexivity.
    - cbn [sx_close s2]. rcalc.
    - lra.
    - reflexivity.
    - assert (M : max_len2 s2 <= 74 / 10000).
      { apply max_len2_le; [lra|]. cbn [sx_points s2]. intros q [<-|[<-|[]]]; cbn [sp_w p1 p2]; unfold w1, w2; rcalc. }
      nra. }
  rewrite S2. clear S2. cbn [gjk_loop].
  set (a3 := V3 (- h) (- h) h). set (w3 := V3 (- 10 / 1000) (30 / 1000) (10 / 1000)).
  rewrite (box_sphere_supports _ _ _ _ _ a3) by (apply box_support_at; unfold a3, h, small_h, vneg; cbn [vx vy vz]; lra).
  assert (E3 : vsub a3 small_c = w3) by (unfold a3, w3, h, small_c; vcalc). rewrite E3.
  assert (V3' : vdot (V3 (35 / 1000) (30 / 1000) (- 35 / 1000)) w3 = 2 / 10000) by (unfold w3; rcalc). rewrite V3'.
  assert (X : rlt 0 (2 / 10000) && rlt (335 / 100000 * ((0 + 5 / 100) * (0 + 5 / 100))) (2 / 10000 * (2 / 10000)) = false) by (apply andb_false_iff; right; apply rlt_false; lra). rewrite X.
  assert (Y : in_simplex s2 w3 || rle (335 / 100000 - 2 / 10000) (335 / 100000 * rel_error2) = false).
  { apply orb_false_iff. split; [|apply rle_false; unfold rel_error2; lra]. unfold in_simplex. cbn [sx_points s2 existsb sp_w p1 p2]. rewrite orb_false_r. apply orb_false_iff.
    split; apply rle_false; unfold w1, w2, w3, voronoi_eps; rcalc. }
  rewrite Y.
  assert (Z : dependent (simplex_add s2 (SP w3 a3 small_c)) = true).
  { unfold dependent, simplex_add. cbn [sx_points s2 app map sp_w p1 p2]. apply rle_true. unfold w1, w2, w3, voronoi_eps. rcalc. }
  rewrite Z. cbn [bind]. unfold gjk_finish. rewrite (R2 eps (335 / 100000)) by lra. cbv zeta. cbn [cs_margin].
  assert (W : rle (0 + 5 / 100 - sqrt (335 / 100000)) 0 = true).
  { apply rle_true. assert (5 / 100 <= sqrt (335 / 100000)) by (rewrite <- (sqrt_square (5 / 100)) by lra; apply sqrt_le_1_alt; lra). lra. }
  now rewrite W.
Qed.
Lemma small_overlap : overlap (hull_core (box_corners small_h) here) (hull_core [V3 0 0 0] (away small_c)) 0 (31 / 1000).
Proof.
  exists (V3 (- 35 / 1000) (- 45 / 1000) (35 / 1000)), small_c. split; [|split].
  - exists (V3 (- 35 / 1000) (- 45 / 1000) (35 / 1000)). split; [|now rewrite here_point]. apply box_hull; unfold small_h, cuboid; cbn [vx vy vz]; lra.
  - apply sphere_hull. reflexivity.
  - apply dist_lt_sq; [lra|]. unfold small_c. rcalc.
Qed.

(** A sphere and a box of moderate size that overlap. *)
Definition one_h : vec3 := V3 1 1 1.
Definition one_c : vec3 := V3 1 (- 3 / 2) 1.
Definition one_box : cshape := CShape (box_support0 one_h) 0.
Definition one_sphere : cshape := CShape sphere_support0 1.
Lemma one_run eps big fuel : 0 < eps <= / 1000 -> 4 < big -> exists c,
  gjk eps big (S (S fuel)) true one_box one_sphere here (away one_c) None = Ok (InMargin, [c], None) /\ c_depth c = 1 / 2.
Proof.
  intros HE HB. unfold gjk. cbv zeta. unfold one_box, one_sphere. cbn [cs_margin].
  set (a1 := V3 1 (-1) 1). set (w1 := V3 0 (1 / 2) 0). set (p1 := SP w1 a1 one_c).
  rewrite (loop_next _ _ _ _ _ _ _ _ a1 one_c w1 (1 / 2) (Simplex [p1] w1 a1 one_c true) (1 / 4)).
  - cbn [gjk_loop sx_close].
    rewrite (box_sphere_supports _ _ _ _ _ a1) by (apply box_support_at; unfold a1, one_h, w1, vneg; cbn [vx vy vz]; lra).
    assert (E : vsub a1 one_c = w1) by (unfold a1, w1, one_c; vcalc). rewrite E.
    assert (V : vdot w1 w1 = 1 / 4) by (unfold w1; rcalc). rewrite V.
    assert (X : rlt 0 (1 / 4) && rlt (1 / 4 * ((0 + 1) * (0 + 1))) (1 / 4 * (1 / 4)) = false) by (apply andb_false_iff; right; apply rlt_false; lra). rewrite X.
    assert (Y : in_simplex (Simplex [p1] w1 a1 one_c true) w1 || rle (1 / 4 - 1 / 4) (1 / 4 * rel_error2) = true) by (apply orb_true_iff; right; apply rle_true; unfold rel_error2; lra). rewrite Y.
    cbn [bind]. unfold gjk_finish. rewrite (R2 eps (1 / 4)) by lra. cbv zeta. cbn [cs_margin].
    assert (Q : sqrt (1 / 4) = 1 / 2) by (replace (1 / 4) with (1 / 2 * (1 / 2)) by lra; apply sqrt_square; lra). rewrite Q.
    assert (Z : rle (0 + 1 - 1 / 2) 0 = false) by (apply rle_false; lra). rewrite Z.
    destruct (unit_normal eps here w1 ltac:(lra) here_unit) as (_ & U); [unfold w1; rcalc|]. rewrite U. rewrite (R1 1 eps) by lra.
    eexists. split; [reflexivity|]. cbn [c_depth]. lra.
  - apply box_sphere_supports, box_support_at; unfold a1, one_h, vneg; cbn [vx vy vz]; lra.
  - unfold a1, w1, one_c. vcalc.
  - unfold w1. rcalc.
  - right. nra.
  - reflexivity.
  - unfold rel_error2. lra.
  - reflexivity.
  - unfold recompute, simplex_add, simplex_empty. cbn [sx_points app]. rewrite check_valid_true by lra. reflexivity.
  - reflexivity.
  - cbn [sx_close]. unfold w1. rcalc.
  - nra.
  - reflexivity.
  - rewrite max_len2_one. cbn [sp_w p1]. replace (vlen2 w1) with (1 / 4) by (unfold w1; rcalc). rewrite Rmax_right by lra. lra.
Qed.

Lemma box_faces_of h : 0 < vx h -> 0 < vy h -> 0 < vz h -> faces_of (box_corners h) (box_faces h).
Proof.
  intros Hx Hy Hz. split; [discriminate|]. split.
  - assert (L : forall x y z, x * x + y * y + z * z = 1 -> vlen (V3 x y z) = 1) by (intros x y z E; unfold vlen, vlen2; cbn [vx vy vz]; rewrite E; apply sqrt_1).
    assert (I1 : In h (box_corners h)) by (destruct h as [a b c]; cbn; tauto). assert (I2 : In (vneg h) (box_corners h)) by (destruct h as [a b c]; cbn; tauto).
    intros f Hf. cbn [box_faces In] in Hf. repeat (destruct Hf as [<-|Hf]; [cbn [fst snd]; split; [apply L; ring|assumption]|]). elim Hf.
  - intros p. rewrite box_hull by lra. unfold cuboid, behind_all, box_faces. cbn [map fst snd]. rewrite !Forall_cons_iff. unfold offset, vneg. cbn [fst snd vx vy vz]. split.
    + intros H. repeat split; try lra. constructor.
    + intros H. lra.
Qed.
Definition small_poly : polyhedron := Polyhedron (box_support0 small_h) (box_faces small_h).
Definition one_poly : polyhedron := Polyhedron (box_support0 one_h) (box_faces one_h).
