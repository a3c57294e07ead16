(** Proofs about closest points, clipping and barycentric coordinates. *)
From Coq Require Import Reals Lra Psatz List Lia Bool.
From Verif Require Import Base VecModel VecProofs GeomModel GeomSpec.
Import ListNotations.
Local Open Scope R_scope.

Lemma clampR_bounds v : 0 <= clampR v 0 1 <= 1.
Proof. unfold clampR. destruct (Rle_dec v 0), (Rle_dec v 1); unfold Rmin, Rmax; repeat destruct (Rle_dec _ _); lra. Qed.
(** The clamped minimiser of a parabola is optimal on [0, 1]. *)
Lemma clamp_kkt a c s' : 0 < a -> 0 <= s' <= 1 -> 0 <= (a * clampR (c / a) 0 1 - c) * (s' - clampR (c / a) 0 1).
Proof.
  intros Ha Hs. assert (E : c = a * (c / a)) by (field; lra). set (q := c / a) in *. rewrite E. clearbody q. clear E c.
  replace ((a * clampR q 0 1 - a * q) * (s' - clampR q 0 1)) with (a * ((clampR q 0 1 - q) * (s' - clampR q 0 1))) by ring.
  apply Rmult_le_pos; [lra|]. unfold clampR, Rmin, Rmax. repeat destruct (Rle_dec _ _); nra.
Qed.
Lemma dist_vlen p q : dist p q = vlen (vsub p q).
Proof. unfold dist, vlen, vlen2, vsub. cbn [vx vy vz]. reflexivity. Qed.
Lemma lerp_eq a b t : lerp a b t = vadd a (vscale t (vsub b a)).
Proof. reflexivity. Qed.
Lemma dist_le_iff p q p' q' : dist p q <= dist p' q' <-> vlen2 (vsub p q) <= vlen2 (vsub p' q').
Proof.
  rewrite !dist_vlen. unfold vlen. split; intros H.
  - pose proof (sqrt_sqrt _ (vlen2_nonneg (vsub p q))). pose proof (sqrt_sqrt _ (vlen2_nonneg (vsub p' q'))).
    pose proof (sqrt_pos (vlen2 (vsub p q))). nra.
  - apply sqrt_le_1_alt, H.
Qed.
Lemma dist_nonneg p q : 0 <= dist p q.
Proof. apply sqrt_pos. Qed.
Lemma dist_sym p q : dist p q = dist q p.
Proof. unfold dist. f_equal. ring. Qed.
Lemma triangle a b c : dist a c <= dist a b + dist b c.
Proof.
  rewrite !dist_vlen. set (u := vsub a b). set (v := vsub b c).
  assert (E : vsub a c = vadd u v) by (unfold u, v; clear; vring). rewrite E. clear E. clearbody u v.
  pose proof (vlen_nonneg u). pose proof (vlen_nonneg v).
  apply vlen_le_iff; [lra|].
  assert (E : vlen2 (vadd u v) = vlen2 u + vlen2 v + 2 * vdot u v) by (clear; vring).
  rewrite E, <- (vlen_sq u), <- (vlen_sq v). pose proof (cauchy_schwarz u v). lra.
Qed.
Lemma dist_segment a b p : on_segment a b p -> dist a p <= dist a b.
Proof.
  intros (t & Ht & ->). rewrite !dist_vlen.
  assert (E : vsub a (lerp a b t) = vscale (- t) (vsub b a)) by (unfold lerp; clear; vring).
  assert (E2 : vsub a b = vneg (vsub b a)) by (clear; vring).
  rewrite E, E2, vlen_vneg, vlen_vscale. rewrite Rabs_Ropp, Rabs_pos_eq by lra.
  pose proof (vlen_nonneg (vsub b a)). nra.
Qed.
Lemma dist_of_sq a b e : 0 <= e -> vlen2 (vsub b a) <= e -> dist a b <= sqrt e.
Proof.
  intros He H. rewrite dist_sym, dist_vlen. unfold vlen. now apply sqrt_le_1_alt.
Qed.

(** ** The closest point of a segment *)
Lemma closest_on_segment_param eps a b c : 0 < eps -> eps <= vlen2 (vsub b a) ->
  closest_on_segment eps a b c = lerp a b (clampR (vdot (vsub c a) (vsub b a) / vlen2 (vsub b a)) 0 1).
Proof.
  intros He H. unfold closest_on_segment. cbv zeta. destruct (rlt (vlen2 (vsub b a)) eps) eqn:E; [apply rlt_true in E; lra|].
  rewrite lerp_eq. f_equal. f_equal. set (t := _ / _). clearbody t. unfold clampR, Rmin, Rmax.
  destruct (rlt t 0) eqn:E0; [apply rlt_true in E0|apply rlt_false in E0].
  - destruct (rlt 1 0) eqn:E1; [apply rlt_true in E1; lra|]. repeat destruct (Rle_dec _ _); lra.
  - destruct (rlt 1 t) eqn:E1; [apply rlt_true in E1|apply rlt_false in E1]; repeat destruct (Rle_dec _ _); lra.
Qed.
Lemma closest_point_optimal a b c q : 0 < vlen2 (vsub b a) -> on_segment a b q ->
  vlen2 (vsub c (lerp a b (clampR (vdot (vsub c a) (vsub b a) / vlen2 (vsub b a)) 0 1))) <= vlen2 (vsub c q).
Proof.
  intros Ha (s & Hs & ->). set (ab := vsub b a) in *. set (ac := vsub c a).
  pose proof (clamp_kkt (vlen2 ab) (vdot ac ab) s Ha Hs) as K. set (t := clampR _ 0 1) in *.
  assert (E : forall u, vlen2 (vsub c (lerp a b u)) = vlen2 ac - 2 * u * vdot ac ab + u * u * vlen2 ab).
  { intros u. unfold ac, ab, lerp. clear. vring. }
  rewrite !E. clearbody t. pose proof (Rle_0_sqr (s - t)). unfold Rsqr in *. nra.
Qed.

(** ** The closest points of two segments *)
Section quad.
Variables (a b c e f rr : R).
Definition quad (s t : R) : R := rr + a * (s * s) + e * (t * t) - 2 * b * (s * t) + 2 * c * s - 2 * f * t.
Lemma quad_kkt s t s' t' : 0 <= a -> 0 <= e -> b * b <= a * e ->
  0 <= (a * s - b * t + c) * (s' - s) -> 0 <= (e * t - b * s - f) * (t' - t) -> quad s t <= quad s' t'.
Proof.
  intros Ha He Hb Ks Kt. set (x := s' - s) in *. set (y := t' - t) in *.
  assert (E : quad s' t' = quad s t + 2 * ((a * s - b * t + c) * x) + 2 * ((e * t - b * s - f) * y) + (a * (x * x) + e * (y * y) - 2 * b * (x * y))).
  { unfold quad, x, y. ring. }
  assert (Q : 0 <= a * (x * x) + e * (y * y) - 2 * b * (x * y)).
  { clear - Ha He Hb. destruct (Req_EM_T a 0) as [A|A].
    - subst a. assert (B : b = 0) by (assert (b * b <= 0) by lra; pose proof (Rle_0_sqr b); unfold Rsqr in *; nra). subst b.
      pose proof (Rle_0_sqr y). unfold Rsqr in *. nra.
    - apply (Rmult_le_reg_l a); [lra|]. rewrite Rmult_0_r.
      replace (a * (a * (x * x) + e * (y * y) - 2 * b * (x * y))) with ((a * x - b * y) * (a * x - b * y) + (a * e - b * b) * (y * y)) by ring.
      apply Rplus_le_le_0_compat; [apply Rle_0_sqr|]. apply Rmult_le_pos; [lra|apply Rle_0_sqr]. }
  rewrite E. lra.
Qed.
End quad.

(** The sign of the second derivative condition after clamping [t] (the argument of Ericson's algorithm). *)
Lemma reclamp b s0 s f K e a c denom : 0 < e -> denom = a * e - b * b -> 0 <= denom -> K = b * f - c * e ->
  b * s0 + f < 0 -> 0 <= (denom * s0 - K) * (s - s0) -> 0 <= (a * s + c) * (s0 - s) -> b * s + f <= 0.
Proof.
  intros He Hd Hp HK H0 K0 K1. destruct (Rle_dec (b * s + f) 0) as [|N]; auto. exfalso. apply Rnot_le_lt in N.
  assert (P : 0 < b * (s - s0)) by lra.
  assert (X : 0 <= (denom * s - K) * (s - s0)).
  { replace ((denom * s - K) * (s - s0)) with ((denom * s0 - K) * (s - s0) + denom * ((s - s0) * (s - s0))) by ring.
    apply Rplus_le_le_0_compat; auto. apply Rmult_le_pos; auto. apply Rle_0_sqr. }
  replace ((denom * s - K) * (s - s0)) with (- e * ((a * s + c) * (s0 - s)) - b * (s - s0) * (b * s + f)) in X by (subst denom K; ring).
  assert (0 < b * (s - s0) * (b * s + f)) by (apply Rmult_lt_0_compat; auto).
  assert (0 <= e * ((a * s + c) * (s0 - s))) by (apply Rmult_le_pos; lra). lra.
Qed.

Lemma segments_optimal_params eps a1 b1 a2 b2 s' t' :
  0 <= eps -> (eps < vlen2 (vsub b1 a1) \/ a1 = b1) -> (eps < vlen2 (vsub b2 a2) \/ a2 = b2) ->
  ~ (a1 = b1 /\ a2 = b2) -> 0 <= s' <= 1 -> 0 <= t' <= 1 ->
  let '(s, t) := segments_params eps a1 b1 a2 b2 in
  (0 <= s <= 1 /\ 0 <= t <= 1) /\ vlen2 (vsub (lerp a1 b1 s) (lerp a2 b2 t)) <= vlen2 (vsub (lerp a1 b1 s') (lerp a2 b2 t')).
Proof.
  intros He0 H1 H2 Hn Hs' Ht'. unfold segments_params. cbv zeta.
  set (d1 := vsub b1 a1) in *. set (d2 := vsub b2 a2) in *. set (r := vsub a1 a2) in *.
  assert (Z1 : a1 = b1 -> d1 = vzero) by (intros ->; unfold d1; clear; vring).
  assert (Z2 : a2 = b2 -> d2 = vzero) by (intros ->; unfold d2; clear; vring).
  assert (Q : forall s t, vlen2 (vsub (lerp a1 b1 s) (lerp a2 b2 t)) = quad (vlen2 d1) (vdot d1 d2) (vdot d1 r) (vlen2 d2) (vdot d2 r) (vlen2 r) s t).
  { intros s t. unfold quad, d1, d2, r, lerp. clear. vring. }
  pose proof (vlen2_nonneg d1) as Ha. pose proof (vlen2_nonneg d2) as He. pose proof (cauchy_schwarz2 d1 d2) as CS.
  assert (PAR : vlen2 d1 * vlen2 d2 - vdot d1 d2 * vdot d1 d2 = 0 -> vdot d1 d2 * vdot d2 r - vdot d1 r * vlen2 d2 = 0).
  { intros D.
    assert (E : vlen2 (vsub (vscale (vlen2 d2) d1) (vscale (vdot d1 d2) d2)) = vlen2 d2 * (vlen2 d1 * vlen2 d2 - vdot d1 d2 * vdot d1 d2)).
    { clear. generalize d1 d2. vring. }
    rewrite D, Rmult_0_r in E. apply vlen2_zero in E.
    assert (F : vdot (vsub (vscale (vlen2 d2) d1) (vscale (vdot d1 d2) d2)) r = vlen2 d2 * vdot d1 r - vdot d1 d2 * vdot d2 r).
    { rewrite vdot_vsub_l, !vdot_vscale_l. reflexivity. }
    rewrite E in F. unfold vdot at 1 in F. unfold vzero in F. cbn [vx vy vz] in F. lra. }
  set (a := vlen2 d1) in *. set (e := vlen2 d2) in *. set (b := vdot d1 d2) in *. set (c := vdot d1 r) in *. set (f := vdot d2 r) in *.
  destruct (rle a eps) eqn:Ra; [apply rle_true in Ra|apply rle_false in Ra].
  { (* the first segment is a point *)
    destruct H1 as [H1|H1]; [lra|]. specialize (Z1 H1).
    assert (a = 0) by (unfold a; rewrite Z1; unfold vlen2, vzero; cbn [vx vy vz]; ring).
    assert (b = 0) by (unfold b; rewrite Z1; unfold vdot, vzero; cbn [vx vy vz]; ring).
    assert (c = 0) by (unfold c; rewrite Z1; unfold vdot, vzero; cbn [vx vy vz]; ring).
    destruct H2 as [H2|H2]; [|tauto].
    split. { split; [lra|apply clampR_bounds]. }
    rewrite !Q. apply quad_kkt; auto.
    - rewrite H, H0, H3. lra.
    - pose proof (clamp_kkt e f t'). rewrite H0. lra. }
  destruct (rle e eps) eqn:Re; [apply rle_true in Re|apply rle_false in Re].
  { (* the second segment is a point *)
    destruct H2 as [H2|H2]; [lra|]. specialize (Z2 H2).
    assert (e = 0) by (unfold e; rewrite Z2; unfold vlen2, vzero; cbn [vx vy vz]; ring).
    assert (b = 0) by (unfold b; rewrite Z2; unfold vdot, vzero; cbn [vx vy vz]; ring).
    assert (f = 0) by (unfold f; rewrite Z2; unfold vdot, vzero; cbn [vx vy vz]; ring).
    split. { split; [apply clampR_bounds|lra]. }
    rewrite !Q. apply quad_kkt; auto.
    - pose proof (clamp_kkt a (- c) s'). rewrite H0. lra.
    - rewrite H, H0, H3. lra. }
  clear H1 H2 Z1 Z2 Hn.
  set (denom := a * e - b * b) in *. set (K := b * f - c * e) in *.
  set (s0 := if req denom 0 then 0 else clampR (K / denom) 0 1).
  assert (Dn : 0 <= denom) by (unfold denom; lra).
  assert (S0 : 0 <= s0 <= 1 /\ forall s, 0 <= s <= 1 -> 0 <= (denom * s0 - K) * (s - s0)).
  { unfold s0. destruct (req denom 0) eqn:D; [apply req_true in D|apply req_false in D].
    - split; [lra|]. intros s _. assert (KZ : K = 0) by (apply PAR; exact D). rewrite D, KZ. lra.
    - split; [apply clampR_bounds|]. intros s Hs. apply clamp_kkt; auto. lra. }
  destruct S0 as [S0 K0]. clearbody s0.
  assert (Te : e * ((b * s0 + f) / e) = b * s0 + f) by (field; lra).
  set (t0 := (b * s0 + f) / e) in *. clearbody t0.
  destruct (rlt t0 0) eqn:T0; [apply rlt_true in T0|apply rlt_false in T0].
  { pose proof (clampR_bounds (- c / a)) as Sb. pose proof (fun s => clamp_kkt a (- c) s) as Ks.
    set (s := clampR (- c / a) 0 1) in *. clearbody s.
    split; [split; [auto|lra]|]. rewrite !Q. apply quad_kkt; auto.
    - replace (a * s - b * 0 + c) with (a * s - - c) by ring. apply Ks; lra.
    - assert (N : b * s + f <= 0).
      { apply (reclamp b s0 s f K e a c denom); auto; try lra. - nra. - replace (a * s + c) with (a * s - - c) by ring. apply Ks; lra. }
      replace ((e * 0 - b * s - f) * (t' - 0)) with ((- (b * s + f)) * t') by ring. apply Rmult_le_pos; lra. }
  destruct (rlt 1 t0) eqn:T1; [apply rlt_true in T1|apply rlt_false in T1].
  { pose proof (clampR_bounds ((b - c) / a)) as Sb. pose proof (fun s => clamp_kkt a (b - c) s) as Ks.
    set (s := clampR ((b - c) / a) 0 1) in *. clearbody s.
    split; [split; [auto|lra]|]. rewrite !Q. apply quad_kkt; auto.
    - replace (a * s - b * 1 + c) with (a * s - (b - c)) by ring. apply Ks; lra.
    - assert (N : (- b) * s + (e - f) <= 0).
      { apply (reclamp (- b) s0 s (e - f) (- b * (e - f) - (c - b) * e) e a (c - b) denom); auto; try lra.
        - unfold denom; ring. - nra.
        - replace (denom * s0 - (- b * (e - f) - (c - b) * e)) with (denom * s0 - K) by (unfold K; ring). auto.
        - replace (a * s + (c - b)) with (a * s - (b - c)) by ring. apply Ks; lra. }
      replace ((e * 1 - b * s - f) * (t' - 1)) with ((- ((- b) * s + (e - f))) * (1 - t')) by ring. apply Rmult_le_pos; lra. }
  split; [lra|]. rewrite !Q. apply quad_kkt; auto.
  - assert (X : e * (a * s0 - b * t0 + c) = denom * s0 - K).
    { transitivity (e * a * s0 - b * (e * t0) + e * c); [ring|]. rewrite Te. unfold denom, K. ring. }
    specialize (K0 s' Hs'). rewrite <- X in K0. apply (Rmult_le_reg_l e); [lra|]. lra.
  - replace (e * t0 - b * s0 - f) with 0 by lra. lra.
Qed.

(** ** Clipping *)
Lemma offset_dot pp n p : vdot (vsub p pp) n = offset pp n p.
Proof. reflexivity. Qed.
Lemma offset_lerp pp n a b t : offset pp n (lerp a b t) = offset pp n a + t * (offset pp n b - offset pp n a).
Proof. unfold offset, lerp; cbn [vx vy vz]. ring. Qed.
Lemma offset_diff pp n a b : vdot n (vsub b a) = offset pp n b - offset pp n a.
Proof. unfold offset, vdot, vsub; cbn [vx vy vz]. ring. Qed.

(** The parameter of the crossing point, or -1 for a segment nearly parallel to the plane. *)
Lemma plane_segment_up pp n a b : plane_segment a b (vdot n pp) n =
  if rlt (/ 10000) (Rabs (offset pp n b - offset pp n a)) then - offset pp n a / (offset pp n b - offset pp n a) else -1.
Proof.
  unfold plane_segment. cbv zeta. rewrite (offset_diff pp). destruct (rlt _ _); auto. f_equal.
  unfold offset, vdot; cbn [vx vy vz]. ring.
Qed.
Lemma plane_segment_down pp n a b : plane_segment a b (- vdot n pp) (vneg n) =
  if rlt (/ 10000) (Rabs (offset pp n b - offset pp n a)) then - offset pp n a / (offset pp n b - offset pp n a) else -1.
Proof.
  unfold plane_segment. cbv zeta. rewrite vdot_vneg_l, (offset_diff pp), Rabs_Ropp.
  destruct (rlt (/ 10000) _) eqn:E; auto. apply rlt_true in E.
  assert (N : offset pp n b - offset pp n a <> 0) by (intros Z; rewrite Z, Rabs_R0 in E; lra).
  assert (X : vdot n pp = vdot n a - offset pp n a) by (unfold offset, vdot; cbn [vx vy vz]; ring).
  rewrite vdot_vneg_l, X. field. auto.
Qed.
Definition crossing (pp n a b : vec3) : R := - offset pp n a / (offset pp n b - offset pp n a).
Lemma crossing_range pp n a b : (offset pp n a < 0 <= offset pp n b \/ offset pp n b < 0 <= offset pp n a) ->
  0 <= crossing pp n a b <= 1 /\ offset pp n (lerp a b (crossing pp n a b)) = 0.
Proof.
  intros H. rewrite offset_lerp. unfold crossing. set (x := offset pp n a) in *. set (y := offset pp n b) in *. clearbody x y.
  assert (N : y - x <> 0) by lra. assert (E : (- x / (y - x)) * (y - x) = - x) by (field; auto).
  split; [|rewrite E; ring]. set (t := - x / (y - x)) in *. clearbody t. destruct H; split; nra.
Qed.
Lemma crossing_branch pp n a b (A : Type) (k1 : R -> A) (k2 : A) :
  (offset pp n a < 0 <= offset pp n b \/ offset pp n b < 0 <= offset pp n a) ->
  (let t := if rlt (/ 10000) (Rabs (offset pp n b - offset pp n a)) then crossing pp n a b else -1 in
   if (rle 0 t && rle t 1)%bool then k1 t else k2)
  = if rlt (/ 10000) (Rabs (offset pp n b - offset pp n a)) then k1 (crossing pp n a b) else k2.
Proof.
  intros H. cbv zeta. destruct (rlt (/ 10000) _).
  - destruct (crossing_range _ _ _ _ H) as [[C0 C1] _]. apply rle_true in C0. apply rle_true in C1. rewrite C0, C1. reflexivity.
  - assert (E : rle 0 (-1) = false) by (apply rle_false; lra). rewrite E. reflexivity.
Qed.

(** The vertices kept of one edge, in terms of offsets only. *)
Definition wide (pp n a b : vec3) : bool := rlt (/ 10000) (Rabs (offset pp n b - offset pp n a)).
Lemma clip_segment_plane_eq v1 v2 pp n :
  clip_segment_plane v1 v2 pp n =
  if rle 0 (offset pp n v2) then
    (if rlt (offset pp n v1) 0 then [if wide pp n v1 v2 then lerp v1 v2 (crossing pp n v1 v2) else v2] else [v1]) ++ [v2]
  else if rle 0 (offset pp n v1) then v1 :: (if wide pp n v1 v2 then [lerp v1 v2 (crossing pp n v1 v2)] else []) else [].
Proof.
  unfold clip_segment_plane. cbv zeta. rewrite !offset_dot, plane_segment_up, plane_segment_down. fold (crossing pp n v1 v2).
  destruct (rle 0 (offset pp n v2)) eqn:E2; [apply rle_true in E2|apply rle_false in E2].
  - destruct (rlt (offset pp n v1) 0) eqn:E1; [apply rlt_true in E1|reflexivity].
    pose proof (crossing_branch pp n v1 v2 _ (fun t => [vadd v1 (vscale t (vsub v2 v1))]) [v2]) as X. cbv beta zeta in X. rewrite X by lra. clear X.
    unfold wide. destruct (rlt (/ 10000) _); reflexivity.
  - destruct (rle 0 (offset pp n v1)) eqn:E1; [apply rle_true in E1|reflexivity].
    pose proof (crossing_branch pp n v1 v2 _ (fun t => [vadd v1 (vscale t (vsub v2 v1))]) []) as X. cbv beta zeta in X. rewrite X by lra. clear X.
    unfold wide. destruct (rlt (/ 10000) _); reflexivity.
Qed.
Lemma clip_polygon_edge_eq v1 v2 pp n :
  clip_polygon_edge pp n v1 v2 =
  if rle 0 (offset pp n v2) then
    (if rlt (offset pp n v1) 0 then [if wide pp n v1 v2 then lerp v1 v2 (crossing pp n v1 v2) else v2] else []) ++ [v2]
  else if rle 0 (offset pp n v1) then [if wide pp n v1 v2 then lerp v1 v2 (crossing pp n v1 v2) else v1] else [].
Proof.
  unfold clip_polygon_edge. cbv zeta. rewrite !offset_dot, plane_segment_up, plane_segment_down. fold (crossing pp n v1 v2).
  destruct (rle 0 (offset pp n v2)) eqn:E2; [apply rle_true in E2|apply rle_false in E2].
  - destruct (rlt (offset pp n v1) 0) eqn:E1; [apply rlt_true in E1|reflexivity].
    pose proof (crossing_branch pp n v1 v2 _ (fun t => [vadd v1 (vscale t (vsub v2 v1))]) [v2]) as X. cbv beta zeta in X. rewrite X by lra. clear X.
    unfold wide. destruct (rlt (/ 10000) _); reflexivity.
  - destruct (rle 0 (offset pp n v1)) eqn:E1; [apply rle_true in E1|reflexivity].
    pose proof (crossing_branch pp n v1 v2 _ (fun t => [vadd v1 (vscale t (vsub v2 v1))]) [v1]) as X. cbv beta zeta in X. rewrite X by lra. clear X.
    unfold wide. destruct (rlt (/ 10000) _); reflexivity.
Qed.

Lemma lerp_0 a b : lerp a b 0 = a.
Proof. destruct a as [x y z]; unfold lerp; cbn [vx vy vz]; f_equal; ring. Qed.
Lemma lerp_1 a b : lerp a b 1 = b.
Proof. destruct b as [x y z]; unfold lerp; cbn [vx vy vz]; f_equal; ring. Qed.
Lemma on_segment_l a b : on_segment a b a.
Proof. exists 0. split; [lra|]. symmetry. apply lerp_0. Qed.
Lemma on_segment_r a b : on_segment a b b.
Proof. exists 1. split; [lra|]. symmetry. apply lerp_1. Qed.
Lemma lerp_lerp a b s t u : lerp (lerp a b s) (lerp a b t) u = lerp a b (s + u * (t - s)).
Proof. unfold lerp; cbn [vx vy vz]. f_equal; ring. Qed.
(** A segment between two parameters contains exactly the parameters in between. *)
Lemma sub_segment a b s t p : s <= t -> on_segment (lerp a b s) (lerp a b t) p <-> exists u, s <= u <= t /\ p = lerp a b u.
Proof.
  intros Hst. split.
  - intros (u & Hu & ->). rewrite lerp_lerp. exists (s + u * (t - s)). split; [|reflexivity]. nra.
  - intros (u & Hu & ->). destruct (Req_EM_T s t) as [E|E].
    + subst t. exists 0. split; [lra|]. rewrite lerp_lerp. f_equal. lra.
    + exists ((u - s) / (t - s)). assert (X : (u - s) / (t - s) * (t - s) = u - s) by (field; lra). split.
      * set (q := (u - s) / (t - s)) in *. clearbody q. nra.
      * rewrite lerp_lerp. f_equal. lra.
Qed.

(** *** Polygons *)
Lemma clip_edge_front pp n vs ve p : In p (clip_polygon_edge pp n vs ve) -> 0 <= offset pp n p /\ on_segment vs ve p.
Proof.
  rewrite clip_polygon_edge_eq.
  destruct (rle 0 (offset pp n ve)) eqn:E2; [apply rle_true in E2|apply rle_false in E2].
  - rewrite in_app_iff. intros [H|[<-|[]]]; [|split; [auto|apply on_segment_r]].
    destruct (rlt (offset pp n vs) 0) eqn:E1; [apply rlt_true in E1|destruct H]. destruct H as [<-|[]].
    destruct (wide _ _ _ _); [|split; [auto|apply on_segment_r]].
    destruct (crossing_range pp n vs ve) as [C Z]; [lra|]. rewrite Z. split; [lra|]. now exists (crossing pp n vs ve).
  - destruct (rle 0 (offset pp n vs)) eqn:E1; [apply rle_true in E1|intros []]. intros [<-|[]].
    destruct (wide _ _ _ _); [|split; [auto|apply on_segment_l]].
    destruct (crossing_range pp n vs ve) as [C Z]; [lra|]. rewrite Z. split; [lra|]. now exists (crossing pp n vs ve).
Qed.
(** Consecutive vertices, starting from [v]. *)
Fixpoint edges_from (v : vec3) (l : list vec3) : list (vec3 * vec3) :=
  match l with [] => [] | x :: l' => (v, x) :: edges_from x l' end.
Lemma clip_loop_in pp n vs l p : In p (clip_polygon_loop pp n vs l) <-> exists e, In e (edges_from vs l) /\ In p (clip_polygon_edge pp n (fst e) (snd e)).
Proof.
  revert vs; induction l as [|x l IH]; intros vs; cbn [clip_polygon_loop edges_from].
  - split; [intros []|intros (e & [] & _)].
  - rewrite in_app_iff, IH. split.
    + intros [H|(e & He & H)]; [exists (vs, x)|exists e]; split; auto; [now left|now right].
    + intros (e & [<-|He] & H); [now left|right; now exists e].
Qed.
Lemma sublist_refl {A} (l : list A) : sublist l l.
Proof. induction l; constructor; auto. Qed.
Lemma sublist_nil_l {A} (l : list A) : sublist [] l.
Proof. induction l; constructor; auto. Qed.
Lemma sublist_app {A} (a a' b b' : list A) : sublist a a' -> sublist b b' -> sublist (a ++ b) (a' ++ b').
Proof. induction 1; intros H'; cbn; auto; constructor; auto. Qed.
Lemma clip_loop_sublist pp n vs l : sublist (filter (fun p => rle 0 (offset pp n p)) l) (clip_polygon_loop pp n vs l).
Proof.
  revert vs; induction l as [|x l IH]; intros vs; cbn [clip_polygon_loop filter]; [constructor|].
  rewrite clip_polygon_edge_eq. destruct (rle 0 (offset pp n x)) eqn:E.
  - rewrite <- app_assoc. rewrite <- (app_nil_l (x :: _)). apply sublist_app; [apply sublist_nil_l|]. cbn. constructor. apply IH.
  - rewrite <- (app_nil_l (filter _ _)). apply sublist_app; [apply sublist_nil_l|apply IH].
Qed.

(** If the last vertex is in front it is the last one kept. *)
Lemma last_app_ne {A} (d : A) l l' : l' <> [] -> last (l ++ l') d = last l' d.
Proof.
  intros H. induction l as [|x l IH]; auto. cbn [app]. destruct (l ++ l') eqn:E.
  - destruct l, l'; try discriminate; congruence.
  - rewrite <- IH. reflexivity.
Qed.
Lemma clip_loop_last pp n vs l d : l <> [] -> 0 <= offset pp n (last l d) ->
  clip_polygon_loop pp n vs l <> [] /\ last (clip_polygon_loop pp n vs l) d = last l d.
Proof.
  revert vs; induction l as [|x l IH]; intros vs Hl Ho; [congruence|]. cbn [clip_polygon_loop].
  destruct l as [|y l].
  - cbn [clip_polygon_loop last] in *. rewrite app_nil_r, clip_polygon_edge_eq. apply rle_true in Ho. rewrite Ho.
    split; [destruct (rlt _ _); discriminate|]. rewrite last_app_ne by discriminate. reflexivity.
  - destruct (IH x) as [N L]; [discriminate|exact Ho|]. split.
    + intros E. apply app_eq_nil in E. tauto.
    + rewrite last_app_ne by auto. exact L.
Qed.

(** Every front point of an edge lies between two neighbouring kept vertices. *)
Lemma front_of_edge pp n vs ve p : wide pp n vs ve = true \/ (0 <= offset pp n vs <-> 0 <= offset pp n ve) ->
  on_segment vs ve p -> 0 <= offset pp n p ->
  (offset pp n vs < 0 /\ 0 <= offset pp n ve /\ on_segment (lerp vs ve (crossing pp n vs ve)) ve p) \/
  (0 <= offset pp n vs /\ offset pp n ve < 0 /\ on_segment vs (lerp vs ve (crossing pp n vs ve)) p) \/
  (0 <= offset pp n vs /\ 0 <= offset pp n ve).
Proof.
  intros W (t & Ht & ->) Hp. rewrite offset_lerp in Hp.
  destruct (Rlt_dec (offset pp n vs) 0) as [S|S]; destruct (Rlt_dec (offset pp n ve) 0) as [E|E].
  - exfalso. nra.
  - left. split; [auto|]. split; [lra|]. rewrite <- (lerp_1 vs ve) at 3.
    destruct (crossing_range pp n vs ve) as [C Z]; [lra|]. apply sub_segment; [lra|]. exists t. split; auto. split; [|lra].
    rewrite offset_lerp in Z. destruct (Rle_dec (crossing pp n vs ve) t); auto. exfalso. nra.
  - right; left. split; [lra|]. split; [auto|]. rewrite <- (lerp_0 vs ve) at 1.
    destruct (crossing_range pp n vs ve) as [C Z]; [lra|]. apply sub_segment; [lra|]. exists t. split; auto. split; [lra|].
    rewrite offset_lerp in Z. destruct (Rle_dec t (crossing pp n vs ve)); auto. exfalso. nra.
  - right; right. split; lra.
Qed.
Lemma clip_loop_covers pp n vs l p : forall pre,
  (0 <= offset pp n vs -> exists pre', pre = pre' ++ [vs]) ->
  (exists e, In e (edges_from vs l) /\ on_segment (fst e) (snd e) p) ->
  (forall e, In e (edges_from vs l) -> wide pp n (fst e) (snd e) = true \/ (0 <= offset pp n (fst e) <-> 0 <= offset pp n (snd e))) ->
  0 <= offset pp n p ->
  exists u v l1 l2, on_segment u v p /\ pre ++ clip_polygon_loop pp n vs l = l1 ++ u :: v :: l2.
Proof.
  revert vs; induction l as [|x l IH]; intros vs pre Hpre (e & He & Hs) W Hp; [destruct He|].
  cbn [edges_from] in He, W. cbn [clip_polygon_loop]. destruct He as [<-|He].
  - cbn [fst snd] in Hs. pose proof (W (vs, x) (or_introl eq_refl)) as Wx. cbn [fst snd] in Wx.
    pose proof (front_of_edge _ _ _ _ _ Wx Hs Hp) as F. rewrite clip_polygon_edge_eq.
    destruct F as [(F1 & F2 & F3)|[(F1 & F2 & F3)|(F1 & F2)]].
    + assert (W' : wide pp n vs x = true) by (destruct Wx as [|Wx]; auto; exfalso; lra).
      apply rle_true in F2. apply rlt_true in F1. rewrite F1, F2, W'. cbn [app].
      exists (lerp vs x (crossing pp n vs x)), x, pre, (clip_polygon_loop pp n x l). split; auto.
    + assert (W' : wide pp n vs x = true) by (destruct Wx as [|Wx]; auto; exfalso; lra).
      destruct (Hpre F1) as (pre' & ->). apply rle_true in F1. apply rle_false in F2. rewrite F1, F2, W'. cbn [app].
      exists vs, (lerp vs x (crossing pp n vs x)), pre', (clip_polygon_loop pp n x l). split; auto. rewrite <- app_assoc. reflexivity.
    + destruct (Hpre F1) as (pre' & ->). apply rlt_false in F1. apply rle_true in F2. rewrite F1, F2. cbn [app].
      exists vs, x, pre', (clip_polygon_loop pp n x l). split; auto. rewrite <- app_assoc. reflexivity.
  - rewrite app_assoc. apply IH; auto.
    + intros Ho. rewrite clip_polygon_edge_eq. apply rle_true in Ho. rewrite Ho. rewrite app_assoc. eexists; reflexivity.
    + exists e; auto.
    + intros e' He'. apply W. now right.
Qed.

(** *** Segments *)
Lemma clip_plane_cases v1 v2 pp n :
  (* the part in front is the whole result, unless the segment crosses the plane nearly parallel to it *)
  (wide pp n v1 v2 = true \/ (0 <= offset pp n v1 <-> 0 <= offset pp n v2)) ->
  (clip_segment_plane v1 v2 pp n = [] /\ (forall p, on_segment v1 v2 p -> ~ 0 <= offset pp n p)) \/
  exists s t, 0 <= s <= t /\ t <= 1 /\ clip_segment_plane v1 v2 pp n = [lerp v1 v2 s; lerp v1 v2 t] /\
    forall u, 0 <= u <= 1 -> (s <= u <= t <-> 0 <= offset pp n (lerp v1 v2 u)).
Proof.
  intros W. rewrite clip_segment_plane_eq.
  destruct (rle 0 (offset pp n v2)) eqn:E2; [apply rle_true in E2|apply rle_false in E2].
  - destruct (rlt (offset pp n v1) 0) eqn:E1; [apply rlt_true in E1|apply rlt_false in E1].
    + destruct W as [W|W]; [|exfalso; lra]. rewrite W. right. destruct (crossing_range pp n v1 v2) as [C Z]; [lra|].
      exists (crossing pp n v1 v2), 1. split; [lra|]. split; [lra|]. rewrite lerp_1. split; [reflexivity|].
      intros u Hu. rewrite offset_lerp in Z |- *. set (k := crossing pp n v1 v2) in *. clearbody k. split; intros H.
      * nra.
      * split; [|lra]. destruct (Rle_dec k u); auto. exfalso; nra.
    + right. exists 0, 1. split; [lra|]. split; [lra|]. rewrite lerp_0, lerp_1. split; [reflexivity|].
      intros u Hu. rewrite offset_lerp. split; intros; [nra|lra].
  - destruct (rle 0 (offset pp n v1)) eqn:E1; [apply rle_true in E1|apply rle_false in E1].
    + destruct W as [W|W]; [|exfalso; lra]. rewrite W. right. destruct (crossing_range pp n v1 v2) as [C Z]; [lra|].
      exists 0, (crossing pp n v1 v2). split; [lra|]. split; [lra|]. rewrite lerp_0. split; [reflexivity|].
      intros u Hu. rewrite offset_lerp in Z |- *. set (k := crossing pp n v1 v2) in *. clearbody k. split; intros H.
      * nra.
      * split; [lra|]. destruct (Rle_dec u k); auto. exfalso; nra.
    + left. split; [reflexivity|]. intros p (u & Hu & ->). rewrite offset_lerp. nra.
Qed.

Lemma wide_of_part pp n v1 v2 :
  ((exists x y, on_segment v1 v2 x /\ on_segment v1 v2 y /\ ~ 0 <= offset pp n x /\ 0 <= offset pp n y) ->
   exists x y, on_segment v1 v2 x /\ on_segment v1 v2 y /\ ~ 0 <= offset pp n x /\ 0 <= offset pp n y /\ / 10000 < offset pp n y - offset pp n x) ->
  wide pp n v1 v2 = true \/ (0 <= offset pp n v1 <-> 0 <= offset pp n v2).
Proof.
  intros H.
  assert (K : (exists x y, on_segment v1 v2 x /\ on_segment v1 v2 y /\ ~ 0 <= offset pp n x /\ 0 <= offset pp n y) ->
    / 10000 < Rabs (offset pp n v2 - offset pp n v1)).
  { intros X. destruct (H X) as (x & y & (s & Hs & ->) & (t & Ht & ->) & _ & _ & D). rewrite !offset_lerp in D.
    set (d := offset pp n v2 - offset pp n v1) in *. clearbody d. unfold Rabs. destruct (Rcase_abs d); nra. }
  destruct (Rle_dec 0 (offset pp n v1)) as [S|S]; destruct (Rle_dec 0 (offset pp n v2)) as [E|E]; try tauto;
    left; apply rlt_true, K.
  - exists v2, v1. auto using on_segment_l, on_segment_r.
  - exists v1, v2. auto using on_segment_l, on_segment_r.
Qed.

Lemma clip_loop_correct a b planes : forall before s t out,
  0 <= s <= t -> t <= 1 ->
  (forall u, 0 <= u <= 1 -> (s <= u <= t <-> Forall (fun q => front q (lerp a b u)) before)) ->
  no_graze a b (before ++ planes) ->
  (planes = [] -> out = [lerp a b s; lerp a b t]) ->
  exists r, clip_segment_loop planes [lerp a b s; lerp a b t] out = Ok r /\
   ((r = [] /\ forall p, ~ part a b (before ++ planes) p) \/
    exists x y, r = [x; y] /\ forall p, on_segment x y p <-> part a b (before ++ planes) p).
Proof.
  induction planes as [|[pp n] rest IH]; intros before s t out Hst Ht Hu G Ho.
  - cbn [clip_segment_loop]. exists out. split; [reflexivity|]. right. rewrite (Ho eq_refl).
    do 2 eexists; split; [reflexivity|]. rewrite app_nil_r. intros p. rewrite sub_segment by lra. split.
    + intros (u & Hu' & ->). assert (U : 0 <= u <= 1) by lra. split; [now exists u|]. now apply Hu.
    + intros [(u & U & ->) F]. exists u. split; auto. now apply Hu.
  - set (v1 := lerp a b s). set (v2 := lerp a b t).
    assert (PV : forall p, on_segment v1 v2 p <-> part a b before p).
    { intros p. unfold v1, v2. rewrite sub_segment by lra. split.
      + intros (u & Hu' & ->). assert (U : 0 <= u <= 1) by lra. split; [now exists u|]. now apply Hu.
      + intros [(u & U & ->) F]. exists u. split; auto. now apply Hu. }
    assert (W : wide pp n v1 v2 = true \/ (0 <= offset pp n v1 <-> 0 <= offset pp n v2)).
    { apply wide_of_part. intros (x & y & X & Y & Nx & Fy). destruct (G before (pp, n) rest eq_refl) as (x' & y' & X' & Y' & Nx' & Fy' & D).
      - exists x, y. rewrite <- !PV. repeat split; auto.
      - exists x', y'. rewrite !PV. repeat split; auto; try apply X'; try apply Y'; auto. }
    cbn [clip_segment_loop nth_error rd bind].
    destruct (clip_plane_cases v1 v2 pp n W) as [[-> N]|(s' & t' & Hs' & Ht' & -> & C)].
    + exists []. split. { destruct rest as [|[] ?]; reflexivity. }
      left. split; [reflexivity|]. intros p [S F]. apply Forall_app in F. destruct F as [F1 F2]. inversion F2; subst.
      apply (N p); auto. apply PV. split; auto.
    + assert (E : before ++ (pp, n) :: rest = (before ++ [(pp, n)]) ++ rest) by (rewrite <- app_assoc; reflexivity).
      rewrite E in *. unfold v1, v2. rewrite !lerp_lerp. fold v1 v2.
      set (s2 := s + s' * (t - s)). set (t2 := s + t' * (t - s)).
      assert (R : 0 <= s2 <= t2 /\ t2 <= 1). { unfold s2, t2. repeat split; nra. }
      apply IH; try tauto.
      intros u Hu'. rewrite Forall_app. rewrite <- Hu by auto. split.
      * intros Hr. assert (S : s <= u <= t). { unfold s2, t2 in Hr. nra. }
        split; auto. constructor; [|constructor]. unfold front; cbn [fst snd].
        destruct (Req_EM_T s t) as [Eq|Ne].
        { assert (u = s) by lra. subst u t. replace (lerp a b s) with (lerp v1 v2 s'). 2:{ unfold v1, v2. rewrite lerp_lerp. f_equal. ring. }
          apply C; lra. }
        set (q := (u - s) / (t - s)). assert (Q : q * (t - s) = u - s) by (unfold q; field; lra).
        assert (Eu : lerp a b u = lerp v1 v2 q). { unfold v1, v2. rewrite lerp_lerp. f_equal. lra. }
        rewrite Eu. apply C; unfold s2, t2 in Hr; clearbody q; nra.
      * intros [S F]. inversion F as [|? ? Fr _]; subst. unfold front in Fr; cbn [fst snd] in Fr.
        destruct (Req_EM_T s t) as [Eq|Ne].
        { unfold s2, t2. subst t. lra. }
        set (q := (u - s) / (t - s)). assert (Q : q * (t - s) = u - s) by (unfold q; field; lra).
        assert (Eu : lerp a b u = lerp v1 v2 q). { unfold v1, v2. rewrite lerp_lerp. f_equal. lra. }
        rewrite Eu in Fr. apply C in Fr; unfold s2, t2; clearbody q; nra.
Qed.

(** Without the hypothesis: whatever is returned is on the segment and in front of all planes. *)
Lemma clip_plane_sound v1 v2 pp n p : In p (clip_segment_plane v1 v2 pp n) -> on_segment v1 v2 p /\ 0 <= offset pp n p.
Proof.
  rewrite clip_segment_plane_eq.
  destruct (rle 0 (offset pp n v2)) eqn:E2; [apply rle_true in E2|apply rle_false in E2].
  - rewrite in_app_iff. intros [H|[<-|[]]]; [|split; [apply on_segment_r|auto]].
    destruct (rlt (offset pp n v1) 0) eqn:E1; [apply rlt_true in E1|apply rlt_false in E1]; destruct H as [<-|[]].
    + destruct (wide _ _ _ _); [|split; [apply on_segment_r|auto]].
      destruct (crossing_range pp n v1 v2) as [C Z]; [lra|]. rewrite Z. split; [|lra]. now exists (crossing pp n v1 v2).
    + split; [apply on_segment_l|auto].
  - destruct (rle 0 (offset pp n v1)) eqn:E1; [apply rle_true in E1|intros []]. intros [<-|H].
    + split; [apply on_segment_l|auto].
    + destruct (wide _ _ _ _); [destruct H as [<-|[]]|destruct H]. destruct (crossing_range pp n v1 v2) as [C Z]; [lra|]. rewrite Z. split; [|lra]. now exists (crossing pp n v1 v2).
Qed.
Lemma on_segment_trans a b u v p : on_segment a b u -> on_segment a b v -> on_segment u v p -> on_segment a b p.
Proof.
  intros (s & Hs & ->) (t & Ht & ->) (q & Hq & ->). rewrite lerp_lerp. exists (s + q * (t - s)). split; auto. nra.
Qed.
Lemma segment_front pp n u v p : 0 <= offset pp n u -> 0 <= offset pp n v -> on_segment u v p -> 0 <= offset pp n p.
Proof. intros Hu Hv (q & Hq & ->). rewrite offset_lerp. nra. Qed.
Lemma clip_loop_sound a b planes : forall before input out r,
  (forall p, In p input -> part a b before p) -> (forall p, In p out -> part a b before p) ->
  clip_segment_loop planes input out = Ok r -> forall p, In p r -> part a b (before ++ planes) p.
Proof.
  induction planes as [|[pp n] rest IH]; intros before input out r Hi Ho E p Hp.
  - cbn [clip_segment_loop] in E. inversion E; subst r. rewrite app_nil_r. auto.
  - cbn [clip_segment_loop] in E. destruct input as [|v1 [|v2 more]].
    + inversion E; subst r. destruct Hp.
    + cbn [nth_error rd bind] in E. discriminate.
    + cbn [nth_error rd bind] in E. replace (before ++ (pp, n) :: rest) with ((before ++ [(pp, n)]) ++ rest) by (rewrite <- app_assoc; reflexivity).
      assert (K : forall q, In q (clip_segment_plane v1 v2 pp n) -> part a b (before ++ [(pp, n)]) q).
      { intros q Hq. apply clip_plane_sound in Hq. destruct Hq as [S F].
        assert (P1 : part a b before v1) by (apply Hi; now left). assert (P2 : part a b before v2) by (apply Hi; right; now left).
        destruct P1 as [S1 F1], P2 as [S2 F2]. split; [now apply (on_segment_trans a b v1 v2)|]. apply Forall_app. split; [|constructor; auto].
        rewrite Forall_forall in *. intros pl Hpl. apply (segment_front _ _ v1 v2); auto; [now apply F1|now apply F2]. }
      apply (IH (before ++ [(pp, n)]) _ _ r K K E p Hp).
Qed.

(** ** Barycentric coordinates *)
Lemma gram a b : vdot a a * vdot b b - vdot a b * vdot a b = vlen2 (vcross a b).
Proof. rewrite lagrange. reflexivity. Qed.
Lemma frame_expand d u v : vscale (vlen2 (vcross u v)) d =
  vadd (vadd (vscale (vdot d u) (vcross v (vcross u v))) (vscale (vdot d v) (vcross (vcross u v) u))) (vscale (vdot d (vcross u v)) (vcross u v)).
Proof. vring. Qed.
Lemma vscale_eq_zero k w : k <> 0 -> vscale k w = vzero -> w = vzero.
Proof.
  intros Hk F. pose proof (f_equal vx F) as Fx. pose proof (f_equal vy F) as Fy. pose proof (f_equal vz F) as Fz.
  destruct w as [x y z]. unfold vscale, vzero in *; cbn [vx vy vz] in *. f_equal; apply (Rmult_eq_reg_l k); auto; lra.
Qed.
Lemma in_plane_span u v d : vlen2 (vcross u v) <> 0 -> vdot d (vcross u v) = 0 ->
  let den := vdot u u * vdot v v - vdot u v * vdot u v in
  d = vadd (vscale ((vdot v v * vdot d u - vdot u v * vdot d v) / den) u) (vscale ((vdot u u * vdot d v - vdot u v * vdot d u) / den) v).
Proof.
  intros Hn Hp. cbv zeta. rewrite gram. set (k := vlen2 (vcross u v)) in *.
  set (be := (vdot v v * vdot d u - vdot u v * vdot d v) / k). set (ga := (vdot u u * vdot d v - vdot u v * vdot d u) / k).
  set (w := vsub d (vadd (vscale be u) (vscale ga v))).
  assert (Hbe : be * k = vdot v v * vdot d u - vdot u v * vdot d v) by (unfold be; field; auto).
  assert (Hga : ga * k = vdot u u * vdot d v - vdot u v * vdot d u) by (unfold ga; field; auto).
  assert (Ek : k = vdot u u * vdot v v - vdot u v * vdot u v) by (unfold k; rewrite <- gram; reflexivity).
  assert (Wu : vdot w u = 0).
  { apply (Rmult_eq_reg_r k); auto. unfold w. rewrite vdot_vsub_l, vdot_vadd_l, !vdot_vscale_l. rewrite (vdot_comm v u).
    transitivity (vdot d u * k - (be * k * vdot u u + ga * k * vdot u v)); [ring|]. rewrite Hbe, Hga, Ek. ring. }
  assert (Wv : vdot w v = 0).
  { apply (Rmult_eq_reg_r k); auto. unfold w. rewrite vdot_vsub_l, vdot_vadd_l, !vdot_vscale_l.
    transitivity (vdot d v * k - (be * k * vdot u v + ga * k * vdot v v)); [ring|]. rewrite Hbe, Hga, Ek. ring. }
  assert (Wn : vdot w (vcross u v) = 0).
  { unfold w. rewrite vdot_vsub_l, vdot_vadd_l, !vdot_vscale_l, Hp.
    rewrite (vdot_comm u), (vdot_comm v), vcross_dot_l, vcross_dot_r. ring. }
  pose proof (frame_expand w u v) as F. rewrite Wu, Wv, Wn in F. fold k in F.
  assert (Z : forall x y z, vadd (vadd (vscale 0 x) (vscale 0 y)) (vscale 0 z) = vzero) by (clear; vring).
  rewrite Z in F.
  assert (W0 : w = vzero).
  { apply (vscale_eq_zero k); auto. }
  clearbody be ga. clear - W0. unfold w in W0.
  pose proof (f_equal vx W0). pose proof (f_equal vy W0). pose proof (f_equal vz W0).
  unfold vsub, vadd, vscale, vzero in *; cbn [vx vy vz] in *. apply v3_eq; cbn [vx vy vz]; lra.
Qed.
