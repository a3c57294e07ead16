(** The GJK algorithm for two placed shapes. *)
From Coq Require Import List Bool Arith Lia Lra Psatz.
From Verif Require Import Base VecModel VecProofs GeomSpec GeomProofs ShapeModel ShapeSpec ShapeProofs ShapeMeshProofs NarrowModel NarrowSpec NarrowProofs
  GjkModel GjkSpec VoronoiProofs GjkProofs GjkLoopProofs.
Import ListNotations.
Local Open Scope R_scope.

(** ** Hulls *)

Lemma on_segment_eq a b p : on_segment a b p <-> exists t, 0 <= t <= 1 /\ p = vadd (vscale (1 - t) a) (vscale t b).
Proof.
  unfold on_segment. split; intros (t & H & E); exists t; (split; [exact H|]); subst p; unfold lerp; generalize a, b; clear; intros [] []; unfold vadd, vscale; cbn; apply v3_eq; cbn; ring.
Qed.
Lemma rest_zero {A} (f : A -> vec3) u : Forall (fun x => 0 <= fst x) u -> total u = 0 -> weigh f u = vzero.
Proof.
  induction u as [|[k p] u IH]; intros P T; [reflexivity|]. rewrite Forall_cons_iff in P. destruct P as (P0 & P). cbn [fst total weigh] in *.
  assert (0 <= total u). { clear - P. induction u as [|[k p] u IH]; cbn; [lra|]. rewrite Forall_cons_iff in P. destruct P as (P0 & P). cbn in P0. specialize (IH P). lra. }
  rewrite IH by (try exact P; lra). assert (k = 0) by lra. subst k. generalize (f p); clear; vring.
Qed.
Lemma total_nonneg {A} (u : list (R * A)) : Forall (fun x => 0 <= fst x) u -> 0 <= total u.
Proof. induction u as [|[k p] u IH]; intros P; cbn; [lra|]. rewrite Forall_cons_iff in P. destruct P as (P0 & P). cbn in P0. specialize (IH P). lra. Qed.
Lemma weigh_hull {A} (f : A -> vec3) vs l u : convex_weights l u -> (forall p, In p l -> In (f p) vs) -> hull vs (weigh f u).
Proof.
  intros (M & P & T) H. enough (G : 0 < total u -> hull vs (vscale (/ total u) (weigh f u))).
  { rewrite T in G. replace (vscale (/ 1) (weigh f u)) with (weigh f u) in G; [apply G; lra|]. rewrite Rinv_1. generalize (weigh f u); clear; vring. }
  subst l. clear T. induction u as [|[k p] u IH]; cbn [total weigh]; intros K; [lra|].
  rewrite Forall_cons_iff in P. destruct P as (P0 & P). cbn [fst map snd] in *. pose proof (total_nonneg u P) as N.
  assert (Hp : In (f p) vs) by (apply H; now left).
  destruct (Req_dec (total u) 0) as [Z|Z].
  - rewrite rest_zero by assumption. rewrite Z in *. replace (vscale (/ (k + 0)) (vadd (vscale k (f p)) vzero)) with (f p); [now apply hull_vertex|].
    replace (f p) with (vscale (/ (k + 0) * k) (f p)) at 1; [generalize (f p), (/ (k + 0)); clear; vring|].
    replace (/ (k + 0) * k) with 1 by (field; lra). generalize (f p); clear; vring.
  - assert (T0 : 0 < total u) by lra. assert (G : hull vs (vscale (/ total u) (weigh f u))) by (apply IH; [exact P|intros; apply H; now right|exact T0]).
    apply (hull_between vs (f p) (vscale (/ total u) (weigh f u))); [now apply hull_vertex|exact G|].
    apply on_segment_eq. exists (total u / (k + total u)). split.
    + split; [apply Rmult_le_pos; [lra|left; apply Rinv_0_lt_compat; lra]|apply (Rmult_le_reg_r (k + total u)); [lra|]; unfold Rdiv; rewrite Rmult_assoc, Rinv_l by lra; lra].
    + set (x := total u) in *. replace (1 - x / (k + x)) with (/ (k + x) * k) by (field; lra).
      assert (E : vscale (x / (k + x)) (vscale (/ x) (weigh f u)) = vscale (/ (k + x)) (weigh f u)).
      { replace (vscale (x / (k + x)) (vscale (/ x) (weigh f u))) with (vscale (x / (k + x) * / x) (weigh f u)) by (generalize (weigh f u), (x / (k + x)), (/ x); clear; vring).
        f_equal. field. lra. }
      rewrite E. generalize (f p), (weigh f u), (/ (k + x)), k; clear; vring.
Qed.
Lemma tr_between t a b k : tr_point t (vadd (vscale (1 - k) a) (vscale k b)) = vadd (vscale (1 - k) (tr_point t a)) (vscale k (tr_point t b)).
Proof. unfold tr_point. rewrite quat_vec_vadd, !quat_vec_vscale. generalize (quat_vec (t_rot t) a), (quat_vec (t_rot t) b), (t_pos t), k; clear; vring. Qed.
Lemma hull_image t vs x : hull (map (tr_point t) vs) x -> exists y, hull vs y /\ x = tr_point t y.
Proof.
  induction 1 as [v Hv|p q m Hp (p' & IHp & ->) Hq (q' & IHq & ->) Hm].
  - apply in_map_iff in Hv as (y & <- & Hy). exists y. split; [now apply hull_vertex|reflexivity].
  - apply on_segment_eq in Hm as (k & Hk & ->). exists (vadd (vscale (1 - k) p') (vscale k q')). split; [|symmetry; apply tr_between].
    apply (hull_between vs p' q'); try assumption. apply on_segment_eq. now exists k.
Qed.
Lemma image_hull t vs y : hull vs y -> hull (map (tr_point t) vs) (tr_point t y).
Proof.
  induction 1 as [v Hv|p q m Hp IHp Hq IHq Hm]; [apply hull_vertex; now apply in_map|].
  apply (hull_between _ _ _ _ IHp IHq). apply on_segment_eq in Hm as (k & Hk & ->). rewrite tr_between. apply on_segment_eq. now exists k.
Qed.
Lemma hull_low LA LB v m : (forall x y, In x LA -> In y LB -> m <= vdot v (vsub x y)) -> forall x y, hull LA x -> hull LB y -> m <= vdot v (vsub x y).
Proof.
  intros H x y Hx Hy.
  assert (A : forall b, In b LB -> vdot (vneg v) x <= - m - vdot v b).
  { intros b Hb. apply (hull_bound LA); [|exact Hx]. intros a Ha. specialize (H a b Ha Hb).
    replace (vdot v (vsub a b)) with (vdot v a - vdot v b) in H by (generalize v, a, b; clear; vring).
    replace (vdot (vneg v) a) with (- vdot v a) by (generalize v, a; clear; vring). lra. }
  assert (B : vdot v y <= - m - vdot (vneg v) x) by (apply (hull_bound LB); [|exact Hy]; intros b Hb; specialize (A b Hb); lra).
  replace (vdot v (vsub x y)) with (- vdot (vneg v) x - vdot v y) by (generalize v, x, y; clear; vring). lra.
Qed.

(** ** The support functions in the space of the first shape *)

Definition to_first (t1 t2 : transform) : transform := tr_mul (tr_inverse t1) t2.
Lemma rot_transpose q a b : quat_len2 q = 1 -> vdot a (quat_vec q b) = vdot (quat_vec (quat_inverse q) a) b.
Proof.
  intros U. transitivity (vdot (quat_vec q (quat_vec (quat_inverse q) a)) (quat_vec q b)).
  - f_equal. rewrite <- quat_vec_mul, quat_mul_inverse, U. generalize a; clear; qring.
  - rewrite quat_vec_dot, U. ring.
Qed.
Lemma gjk_supports_ok big s1 s2 t1 t2 vs1 vs2 : quat_len2 (t_rot t1) = 1 -> quat_len2 (t_rot t2) = 1 ->
  finds_vertex big (cs_support s1) vs1 -> finds_vertex big (cs_support s2) vs2 ->
  supports big (gjk_supports s1 s2 t1 t2) vs1 (map (tr_point (to_first t1 t2)) vs2).
Proof.
  intros U1 U2 F1 F2 v Hv. unfold gjk_supports. cbn [fst snd]. fold (to_first t1 t2).
  set (rot2 := quat_mul (quat_inverse (t_rot t2)) (t_rot t1)).
  assert (RU : quat_len2 (t_rot (to_first t1 t2)) = 1) by (apply unit_mul; [now apply unit_inverse|exact U2]).
  assert (RI : quat_inverse (t_rot (to_first t1 t2)) = rot2).
  { unfold to_first, tr_mul, tr_inverse, rot2. cbn [t_rot]. generalize (t_rot t1), (t_rot t2). clear. qring. }
  assert (N1 : 4 * vlen2 (vneg v) < big) by (replace (vlen2 (vneg v)) with (vlen2 v) by (generalize v; clear; vring); exact Hv).
  assert (N2 : 4 * vlen2 (quat_vec rot2 v) < big).
  { replace (vlen2 (quat_vec rot2 v)) with (vlen2 v); [exact Hv|]. change (vlen2 (quat_vec rot2 v)) with (vdot (quat_vec rot2 v) (quat_vec rot2 v)).
    rewrite quat_vec_dot. rewrite <- RI, quat_len2_inverse, RU. unfold vdot, vlen2. ring. }
  destruct (F1 (vneg v) N1) as (I1 & M1). destruct (F2 (quat_vec rot2 v) N2) as (I2 & M2).
  split; [exact I1|]. split; [now apply in_map|]. intros x y Hx Hy. apply in_map_iff in Hy as (y0 & <- & Hy0).
  specialize (M1 x Hx). specialize (M2 y0 Hy0). change (vdot x (vneg v) <= vdot (cs_support s1 (vneg v)) (vneg v)) in M1.
  change (vdot y0 (quat_vec rot2 v) <= vdot (cs_support s2 (quat_vec rot2 v)) (quat_vec rot2 v)) in M2.
  assert (T : forall z, vdot v (tr_point (to_first t1 t2) z) = vdot v (t_pos (to_first t1 t2)) + vdot z (quat_vec rot2 v)).
  { intros z. unfold tr_point. rewrite vdot_vadd_r, rot_transpose, RI by exact RU. generalize (vdot v (t_pos (to_first t1 t2))), (quat_vec rot2 v), z; clear. intros r a b. unfold vdot. ring. }
  replace (vdot x (vneg v)) with (- vdot v x) in M1 by (generalize v, x; clear; vring).
  replace (vdot (cs_support s1 (vneg v)) (vneg v)) with (- vdot v (cs_support s1 (vneg v))) in M1 by (generalize v, (cs_support s1 (vneg v)); clear; vring).
  assert (S : forall a b, vdot v (vsub a b) = vdot v a - vdot v b) by (intros; generalize v, a, b; clear; vring).
  rewrite !S, !T. lra.
Qed.

(** ** The vertices in the space of the first shape and in world space *)

Lemma world_diff t1 t2 p q : quat_len2 (t_rot t1) = 1 ->
  vsub (tr_point t1 p) (tr_point t2 q) = quat_vec (t_rot t1) (vsub p (tr_point (to_first t1 t2) q)).
Proof.
  intros U. unfold to_first. rewrite <- (pass_through t2 t1 q U). set (y := tr_point (tr_mul (tr_inverse t1) t2) q). unfold tr_point. rewrite quat_vec_vsub.
  generalize (quat_vec (t_rot t1) p), (quat_vec (t_rot t1) y), (t_pos t1); clear; vring.
Qed.
Lemma rot_len2 q v : quat_len2 q = 1 -> vlen2 (quat_vec q v) = vlen2 v.
Proof. intros U. change (vdot (quat_vec q v) (quat_vec q v) = vdot v v). rewrite quat_vec_dot, U. ring. Qed.
Lemma world_short D t1 t2 vs1 vs2 : quat_len2 (t_rot t1) = 1 -> 0 < D -> within D vs1 t1 vs2 t2 -> short D vs1 (map (tr_point (to_first t1 t2)) vs2).
Proof.
  intros U HD W x y Hx Hy. apply in_map_iff in Hy as (q & <- & Hq). specialize (W x q Hx Hq). apply dist_le_sq in W; [|lra].
  rewrite world_diff, rot_len2 in W by exact U. exact W.
Qed.
Lemma rot_zero q v : quat_len2 q = 1 -> quat_vec q v = vzero -> v = vzero.
Proof. intros U E. apply vlen2_zero. rewrite <- (rot_len2 q v U), E. clear; vring. Qed.
Lemma world_shaped t1 t2 vs1 vs2 : quat_len2 (t_rot t1) = 1 -> no_slivers (differences vs1 t1 vs2 t2) -> shaped vs1 (map (tr_point (to_first t1 t2)) vs2).
Proof.
  intros U (N3 & N4).
  assert (G : forall p, from vs1 (map (tr_point (to_first t1 t2)) vs2) p -> In (quat_vec (t_rot t1) (sp_w p)) (differences vs1 t1 vs2 t2)).
  { intros p (E & A & B). apply in_map_iff in B as (q & Eq & Hq). unfold differences. apply in_map_iff. exists (sp_a p, q). cbn [fst snd]. split; [|now apply in_prod].
    now rewrite world_diff, Eq, <- E by exact U. }
  split.
  - intros p q r Fp Fq Fr H. specialize (N3 _ _ _ (G p Fp) (G q Fq) (G r Fr)). rewrite <- !quat_vec_vsub, quat_vec_cross, U in N3.
    replace (vscale 1 (quat_vec (t_rot t1) (vcross (vsub (sp_w q) (sp_w p)) (vsub (sp_w r) (sp_w p))))) with (quat_vec (t_rot t1) (vcross (vsub (sp_w q) (sp_w p)) (vsub (sp_w r) (sp_w p)))) in N3
      by (generalize (quat_vec (t_rot t1) (vcross (vsub (sp_w q) (sp_w p)) (vsub (sp_w r) (sp_w p)))); clear; vring).
    rewrite rot_len2 in N3 by exact U. apply (rot_zero (t_rot t1)); [exact U|]. apply N3. exact H.
  - intros p q r t Fp Fq Fr Ft H. specialize (N4 _ _ _ _ (G p Fp) (G q Fq) (G r Fr) (G t Ft)). rewrite <- !quat_vec_vsub, quat_vec_cross, U in N4.
    replace (vscale 1 (quat_vec (t_rot t1) (vcross (vsub (sp_w r) (sp_w p)) (vsub (sp_w t) (sp_w p))))) with (quat_vec (t_rot t1) (vcross (vsub (sp_w r) (sp_w p)) (vsub (sp_w t) (sp_w p)))) in N4
      by (generalize (quat_vec (t_rot t1) (vcross (vsub (sp_w r) (sp_w p)) (vsub (sp_w t) (sp_w p)))); clear; vring).
    rewrite quat_vec_dot, U in N4. rewrite !Rmult_1_l in N4. apply N4. exact H.
Qed.

(** ** The answers *)

Lemma gjk_answer eps big D fuel report s1 s2 t1 t2 vs1 vs2 cache x : placed eps big D s1 s2 t1 t2 vs1 vs2 cache ->
  gjk eps big fuel report s1 s2 t1 t2 cache = Ok x ->
  exists e, outcome eps (cs_margin s1 + cs_margin s2) D vs1 (map (tr_point (to_first t1 t2)) vs2) e /\ x = gjk_finish eps report s1 s2 t1 t2 e.
Proof.
  intros (HE & HD & HB & HB2 & U1 & U2 & F1 & F2 & W & C & _ & _) H. unfold gjk in H. cbv zeta in H.
  destruct (gjk_loop eps big (cs_margin s1 + cs_margin s2) (gjk_supports s1 s2 t1 t2) fuel simplex_empty match cache with Some v => v | None => V3 0 1 0 end big) as [e| |] eqn:E;
    cbn in H; try discriminate. injection H as <-. exists e. split; [|reflexivity].
  refine (gjk_outcome eps big _ D _ _ _ fuel _ e HE HD (gjk_supports_ok big s1 s2 t1 t2 vs1 vs2 U1 U2 F1 F2) (world_short D t1 t2 vs1 vs2 U1 HD W) HB _ E).
  destruct cache as [v|]; [now apply C|]. unfold vlen2; cbn [vx vy vz]. lra.
Qed.
Lemma gjk_stops eps big D fuel report s1 s2 t1 t2 vs1 vs2 cache : placed eps big D s1 s2 t1 t2 vs1 vs2 cache ->
  (turns vs1 vs2 + 1 < fuel)%nat -> exists x, gjk eps big fuel report s1 s2 t1 t2 cache = Ok x.
Proof.
  intros (HE & HD & HB & HB2 & U1 & U2 & F1 & F2 & W & C & _ & _) L. unfold gjk. cbv zeta.
  assert (T : turns vs1 (map (tr_point (to_first t1 t2)) vs2) = turns vs1 vs2) by (rewrite !turns_eq, map_length; reflexivity). rewrite <- T in L.
  assert (V : 4 * vlen2 match cache with Some v => v | None => V3 0 1 0 end < big).
  { destruct cache as [v|]; [now apply C|]. unfold vlen2; cbn [vx vy vz]. lra. }
  destruct (gjk_ends eps big (cs_margin s1 + cs_margin s2) D _ _ _ fuel _ HE HD (gjk_supports_ok big s1 s2 t1 t2 vs1 vs2 U1 U2 F1 F2) (world_short D t1 t2 vs1 vs2 U1 HD W) HB V L) as (e & ->).
  cbn. eexists. reflexivity.
Qed.

Lemma from_weights vs1 t1 t2 vs2 l u : Forall (from vs1 (map (tr_point (to_first t1 t2)) vs2)) l -> convex_weights l u ->
  exists q, hull vs1 (weigh sp_a u) /\ hull vs2 q /\ weigh sp_b u = tr_point (to_first t1 t2) q /\ weigh sp_w u = vsub (weigh sp_a u) (weigh sp_b u).
Proof.
  intros F C. rewrite Forall_forall in F.
  assert (B : hull (map (tr_point (to_first t1 t2)) vs2) (weigh sp_b u)) by (apply (weigh_hull _ _ l); [exact C|]; intros p Hp; apply (F p Hp)).
  apply hull_image in B as (q & Hq & Eq). exists q. split; [apply (weigh_hull _ _ l); [exact C|]; intros p Hp; apply (F p Hp)|]. split; [exact Hq|]. split; [exact Eq|].
  apply weigh_sub. intros p Hp. apply F. destruct C as (<- & _). exact Hp.
Qed.
Lemma frame_dist t1 t2 p q : quat_len2 (t_rot t1) = 1 -> dist (tr_point t1 p) (tr_point t2 q) = sqrt (vlen2 (vsub p (tr_point (to_first t1 t2) q))).
Proof. intros U. rewrite dist_vlen. unfold vlen. now rewrite world_diff, rot_len2. Qed.
Lemma far_along v z m : 0 < vlen2 v -> m * sqrt (vlen2 v) <= vdot v z -> m <= sqrt (vlen2 z).
Proof.
  intros P H. pose proof (dot_bound v z) as B. assert (0 < sqrt (vlen2 v)) by now apply sqrt_lt_R0. apply (Rmult_le_reg_l (sqrt (vlen2 v))); lra.
Qed.

Lemma gjk_error_eq eps D : gjk_slack eps D = gjk_error eps D.
Proof. unfold gjk_slack, gjk_error, rel_error2. do 2 f_equal. lra. Qed.

Lemma unit_normal eps t v : 0 < eps <= 1 -> quat_len2 (t_rot t) = 1 -> eps < vlen2 v ->
  quat_vec (t_rot t) (vneg (vunit eps v)) = vscale (- (1 / sqrt (vlen2 v))) (quat_vec (t_rot t) v) /\ vlen2 (quat_vec (t_rot t) (vneg (vunit eps v))) = 1.
Proof.
  intros E U L. assert (G : eps < vlen v) by (apply sqrt_gt; assumption). split.
  - rewrite vunit_scale by lra. fold (vlen v). rewrite quat_vec_vneg, quat_vec_vscale. generalize (quat_vec (t_rot t) v), (1 / vlen v); clear; vring.
  - rewrite rot_len2 by exact U. replace (vlen2 (vneg (vunit eps v))) with (vlen2 (vunit eps v)) by (generalize (vunit eps v); clear; vring). apply vlen2_vunit; lra.
Qed.

Lemma gjk_apart eps D s1 s2 t1 t2 vs1 vs2 v : quat_len2 (t_rot t1) = 1 -> 0 <= cs_margin s1 -> 0 <= cs_margin s2 ->
  outcome eps (cs_margin s1 + cs_margin s2) D vs1 (map (tr_point (to_first t1 t2)) vs2) (Apart v) ->
  forall p q, hull_core vs1 t1 p -> hull_core vs2 t2 q -> cs_margin s1 + cs_margin s2 < dist p q.
Proof.
  intros U M1 M2 (m & Pm & Hm & L) p q (p0 & Hp & ->) (q0 & Hq & ->). rewrite frame_dist by exact U.
  pose proof (hull_low _ _ _ _ L p0 (tr_point (to_first t1 t2) q0) Hp (image_hull _ _ _ Hq)) as G. set (z := vsub p0 (tr_point (to_first t1 t2) q0)) in *. clearbody z.
  pose proof (dot_bound v z) as B. set (r := cs_margin s1 + cs_margin s2) in *. assert (0 <= r) by (unfold r; lra). clearbody r.
  pose proof (sqrt_sqrt (vlen2 v) (vlen2_nonneg v)) as Q. pose proof (sqrt_pos (vlen2 v)) as P. rewrite <- Q in Hm.
  pose proof (sqrt_pos (vlen2 z)). set (a := sqrt (vlen2 v)) in *. set (b := sqrt (vlen2 z)) in *. clearbody a b. clear Q.
  assert (a * r < m) by (apply Rnot_le_lt; intros C; assert (m * m <= (a * r) * (a * r)) by nra; lra).
  apply Rnot_le_lt. intros C. assert (a * b <= a * r) by nra. lra.
Qed.
Lemma gjk_found eps D s1 s2 t1 t2 vs1 vs2 s v d2 : 0 < eps <= / 2 -> quat_len2 (t_rot t1) = 1 -> quat_len2 (t_rot t2) = 1 ->
  outcome eps (cs_margin s1 + cs_margin s2) D vs1 (map (tr_point (to_first t1 t2)) vs2) (Found s v d2) -> eps < d2 ->
  let n := quat_vec (t_rot t1) (vneg (vunit eps v)) in
  let C1 := hull_core vs1 t1 in let C2 := hull_core vs2 t2 in let r1 := cs_margin s1 in let r2 := cs_margin s2 in
  vlen2 n = 1 /\
  (exists p q, C1 p /\ C2 q /\ dist p q = sqrt d2 /\
     tr_point t1 (vsub (sx_a s) (vscale (r1 / sqrt d2) v)) = shifted p n r1 /\
     tr_point t2 (tr_point (tr_inverse (to_first t1 t2)) (vadd (sx_b s) (vscale (r2 / sqrt d2) v))) = shifted q n (- r2) /\
     p = shifted q n (- sqrt d2)) /\
  (no_slivers (differences vs1 t1 vs2 t2) -> forall p q, C1 p -> C2 q ->
     sqrt d2 - gjk_error eps D <= dist p q /\ forall k, sqrt d2 + k - gjk_error eps D <= dist p (shifted q n k)).
Proof.
  intros HE U1 U2 (P & -> & (l & u & F & C & Ev & Ea & Eb) & G) L n C1 C2 r1 r2.
  destruct (from_weights vs1 t1 t2 vs2 l u F C) as (q & Ha & Hq & Eq & Ew).
  destruct (unit_normal eps t1 v ltac:(lra) U1 L) as (En & Un). fold n in En, Un.
  assert (RU : quat_len2 (t_rot (to_first t1 t2)) = 1) by (apply unit_mul; [now apply unit_inverse|exact U2]).
  assert (D0 : 0 < sqrt (vlen2 v)) by now apply sqrt_lt_R0.
  assert (Vw : v = vsub (sx_a s) (tr_point (to_first t1 t2) q)) by (rewrite Ea, <- Eq, Ev; exact Ew).
  split; [exact Un|]. split.
  - exists (tr_point t1 (sx_a s)), (tr_point t2 q). split; [exists (sx_a s); rewrite Ea; auto|]. split; [exists q; auto|].
    split; [rewrite frame_dist by exact U1; now rewrite <- Vw|].
    assert (T : forall a k, tr_point t1 (vadd a (vscale k v)) = shifted (tr_point t1 a) n (- (k * sqrt (vlen2 v)))).
    { intros a k. rewrite shifted_eq. unfold tr_point. rewrite quat_vec_vadd, quat_vec_vscale, En.
      replace (vscale (- (k * sqrt (vlen2 v))) (vscale (- (1 / sqrt (vlen2 v))) (quat_vec (t_rot t1) v))) with (vscale k (quat_vec (t_rot t1) v)).
      - generalize (quat_vec (t_rot t1) a), (t_pos t1), (vscale k (quat_vec (t_rot t1) v)); clear; vring.
      - transitivity (vscale (- (k * sqrt (vlen2 v)) * - (1 / sqrt (vlen2 v))) (quat_vec (t_rot t1) v)).
        + f_equal. field. lra.
        + generalize (- (k * sqrt (vlen2 v))), (- (1 / sqrt (vlen2 v))), (quat_vec (t_rot t1) v); clear; vring. }
    split; [|split].
    + replace (vsub (sx_a s) (vscale (r1 / sqrt (vlen2 v)) v)) with (vadd (sx_a s) (vscale (- (r1 / sqrt (vlen2 v))) v)) by (generalize (sx_a s), (r1 / sqrt (vlen2 v)), v; clear; vring).
      rewrite T. f_equal. field. lra.
    + assert (S : forall x, tr_point t2 (tr_point (tr_inverse (to_first t1 t2)) x) = tr_point t1 x).
      { intros x. rewrite <- (pass_through t2 t1 _ U1). fold (to_first t1 t2). now rewrite tr_inverse_point by exact RU. }
      rewrite S, T, Eb, Eq. unfold to_first. rewrite (pass_through t2 t1 q U1). f_equal. field. lra.
    + rewrite <- (pass_through t2 t1 q U1). fold (to_first t1 t2). rewrite <- (Rmult_1_l (sqrt (vlen2 v))), <- T. f_equal.
      transitivity (vadd (tr_point (to_first t1 t2) q) (vsub (sx_a s) (tr_point (to_first t1 t2) q))).
      * generalize (sx_a s), (tr_point (to_first t1 t2) q); clear; vring.
      * rewrite <- Vw. generalize (tr_point (to_first t1 t2) q), v; clear; vring.
  - intros NS p q' (p0 & Hp & ->) (q0 & Hq0 & ->). specialize (G (world_shaped t1 t2 vs1 vs2 U1 NS)).
    pose proof (hull_low _ _ _ _ G p0 (tr_point (to_first t1 t2) q0) Hp (image_hull _ _ _ Hq0)) as G2. rewrite gjk_error_eq in G2.
    pose proof (sqrt_sqrt (vlen2 v) (vlen2_nonneg v)) as Q.
    assert (K : forall k, sqrt (vlen2 v) + k - gjk_error eps D <= dist (tr_point t1 p0) (shifted (tr_point t2 q0) n k)).
    { intros k. rewrite dist_vlen. unfold vlen. apply (far_along (quat_vec (t_rot t1) v)); rewrite rot_len2 by exact U1; [exact P|].
      rewrite shifted_eq, En.
      replace (vsub (tr_point t1 p0) (vadd (tr_point t2 q0) (vscale k (vscale (- (1 / sqrt (vlen2 v))) (quat_vec (t_rot t1) v)))))
        with (vadd (vsub (tr_point t1 p0) (tr_point t2 q0)) (vscale (k * (1 / sqrt (vlen2 v))) (quat_vec (t_rot t1) v)))
        by (generalize (tr_point t1 p0), (tr_point t2 q0), (quat_vec (t_rot t1) v), k, (1 / sqrt (vlen2 v)); clear; vring).
      rewrite vdot_vadd_r, vdot_vscale_r, world_diff, !quat_vec_dot, U1 by exact U1. change (vdot v v) with (vlen2 v).
      replace (k * (1 / sqrt (vlen2 v)) * (1 * 1 * vlen2 v)) with (k * sqrt (vlen2 v)) by (rewrite <- Q at 3; field; lra).
      set (d := sqrt (vlen2 v)) in *. rewrite <- Q in G2. nra. }
    split; [|exact K]. specialize (K 0). rewrite shifted_0 in K. lra.
Qed.
