(** Proofs about the collision test of two capsules. *)
From Coq Require Import Reals Lra Psatz List Bool.
From Verif Require Import Base VecModel VecProofs GeomModel GeomSpec GeomProofs GeomProperties LinAlgProperties ShapeModel ShapeSpec ShapeProofs ShapeMeshProofs NarrowModel NarrowSpec NarrowProofs.
Import ListNotations.
Local Open Scope R_scope.

(** ** Parallel segments: points a1 + x s with x in [0,1] and points a1 + (f + u g) s + m with u in [0,1], where m is orthogonal to s *)
Definition along (a s m : vec3) (x : R) : vec3 := vadd (vadd a (vscale x s)) m.
Lemma lerp_along a b x : lerp a b x = along a (vsub b a) vzero x.
Proof. rewrite lerp_eq. unfold along, vzero. vring. Qed.
Lemma along_lerp a s m f g u : lerp (along a s m f) (along a s m (f + g)) u = along a s m (f + u * g).
Proof. rewrite lerp_eq. unfold along. vring. Qed.
Lemma along_diff a s m x y : vsub (along a s m y) (along a s vzero x) = vadd (vscale (y - x) s) m.
Proof. unfold along, vzero. vring. Qed.
Lemma along_dist2 s m k : vdot s m = 0 -> vlen2 (vadd (vscale k s) m) = k * k * vlen2 s + vlen2 m.
Proof. intros H. replace (vlen2 (vadd (vscale k s) m)) with (k * k * vlen2 s + vlen2 m + 2 * k * vdot s m) by vring. rewrite H. ring. Qed.
Lemma decompose s w : 0 < vlen2 s -> exists f m, w = vadd (vscale f s) m /\ vdot s m = 0.
Proof.
  intros H. exists (vdot s w / vlen2 s), (vsub w (vscale (vdot s w / vlen2 s) s)). split; [generalize (vdot s w / vlen2 s); intros; vring|].
  replace (vdot s (vsub w (vscale (vdot s w / vlen2 s) s))) with (vdot s w - vdot s w / vlen2 s * vlen2 s) by (generalize (vdot s w / vlen2 s); intros; vring).
  field. lra.
Qed.
Lemma cross_zero_parallel s w : 0 < vlen2 s -> vcross s w = vzero -> exists g, w = vscale g s.
Proof.
  intros H C. destruct (decompose s w H) as (g & m & -> & O). exists g.
  assert (Z : m = vzero).
  { apply vlen2_zero. pose proof (lagrange s m) as L. replace (vcross s (vadd (vscale g s) m)) with (vcross s m) in C by vring.
    rewrite C, O in L. unfold vlen2 at 1, vzero in L. cbn [vx vy vz] in L. pose proof (vlen2_nonneg m). nra. }
  rewrite Z. unfold vzero. vring.
Qed.
Lemma parallel_dot a s m f g : vdot s m = 0 ->
  vdot s a - vdot s (along a s m (f + g)) = - (f + g) * vlen2 s /\ vdot s (vsub (along a s m f) (along a s m (f + g))) = - g * vlen2 s /\
  - vdot s (vadd a s) - vdot (vneg s) (along a s m f) = - (1 - f) * vlen2 s /\ vdot (vneg s) (vsub (along a s m (f + g)) (along a s m f)) = - g * vlen2 s.
Proof.
  intros O. unfold along.
  replace (vdot s a - vdot s (vadd (vadd a (vscale (f + g) s)) m)) with (- (f + g) * vlen2 s - vdot s m) by vring.
  replace (vdot s (vsub (vadd (vadd a (vscale f s)) m) (vadd (vadd a (vscale (f + g) s)) m))) with (- g * vlen2 s) by vring.
  replace (- vdot s (vadd a s) - vdot (vneg s) (vadd (vadd a (vscale f s)) m)) with (- (1 - f) * vlen2 s + vdot s m) by vring.
  replace (vdot (vneg s) (vsub (vadd (vadd a (vscale (f + g) s)) m) (vadd (vadd a (vscale f s)) m))) with (- g * vlen2 s) by vring.
  rewrite O. splits; ring.
Qed.
(** The two clip parameters. *)
Lemma clip_params a s m f g : vdot s m = 0 -> 0 < vlen2 s ->
  let t1 := plane_segment (along a s m (f + g)) (along a s m f) (vdot s a) s in
  let t2 := plane_segment (along a s m f) (along a s m (f + g)) (- vdot s (vadd a s)) (vneg s) in
  (/ 10000 < Rabs (g * vlen2 s) /\ t1 = (f + g) / g /\ t2 = (1 - f) / g) \/ (Rabs (g * vlen2 s) <= / 10000 /\ t1 = -1 /\ t2 = -1).
Proof.
  intros O L. destruct (parallel_dot a s m f g O) as (E1 & E2 & E3 & E4). cbv zeta. unfold plane_segment. rewrite E1, E2, E3, E4.
  assert (A : Rabs (- g * vlen2 s) = Rabs (g * vlen2 s)) by (rewrite <- (Rabs_Ropp (g * vlen2 s)); f_equal; ring). rewrite A.
  destruct (rlt (/ 10000) (Rabs (g * vlen2 s))) eqn:E; [apply rlt_true in E | apply rlt_false in E].
  - left. assert (g <> 0). { intros ->. rewrite Rmult_0_l, Rabs_R0 in E. lra. }
    splits; [exact E| |]; field; lra.
  - right. splits; auto; lra.
Qed.
Lemma div_pos_cases x g : 0 < x / g -> (0 < x /\ 0 < g) \/ (x < 0 /\ g < 0).
Proof.
  intros H. destruct (Rtotal_order g 0) as [G|[G|G]].
  - right. split; [|exact G]. assert (E : x = x / g * g) by (field; lra). nra.
  - subst. unfold Rdiv in H. rewrite Rinv_0, Rmult_0_r in H. lra.
  - left. split; [|exact G]. assert (E : x = x / g * g) by (field; lra). nra.
Qed.
(** The clipped points belong to both projections. *)
Lemma clip_inside f g : let t1 := (f + g) / g in let t2 := (1 - f) / g in 0 < t1 -> 0 < t2 ->
  let u1 := 1 - (if rlt 1 t1 then 1 else t1) in let u2 := if rlt 1 t2 then 1 else t2 in
  0 <= u1 <= 1 /\ 0 <= f + u1 * g <= 1 /\ 0 <= u2 <= 1 /\ 0 <= f + u2 * g <= 1.
Proof.
  cbv zeta. intros H1 H2.
  assert (G : g <> 0). { intros ->. unfold Rdiv in H1. rewrite Rinv_0, Rmult_0_r in H1. lra. }
  assert (E1 : (f + g) / g * g = f + g) by (field; exact G). assert (E2 : (1 - f) / g * g = 1 - f) by (field; exact G).
  pose proof (div_pos_cases _ _ H1) as D1. pose proof (div_pos_cases _ _ H2) as D2.
  set (t1 := (f + g) / g) in *. set (t2 := (1 - f) / g) in *. clearbody t1 t2.
  destruct (rlt 1 t1) eqn:B1; [apply rlt_true in B1 | apply rlt_false in B1]; destruct (rlt 1 t2) eqn:B2; [apply rlt_true in B2 | apply rlt_false in B2 | apply rlt_true in B2 | apply rlt_false in B2];
    splits; nra.
Qed.

(** ** Two segments, the first thick by [r1] and the second by [r2] *)
Definition plain_overlap (a1 b1 a2 b2 : vec3) (r : R) : Prop := exists p q, on_segment a1 b1 p /\ on_segment a2 b2 q /\ dist p q < r.
Lemma closest_overlap eps a1 b1 a2 b2 r q1 q2 : 0 <= eps -> 0 < r -> long_or_point eps a1 b1 -> long_or_point eps a2 b2 ->
  closest_segments eps a1 b1 a2 b2 = (q1, q2) -> (vlen2 (vsub q2 q1) < r * r <-> plain_overlap a1 b1 a2 b2 r).
Proof.
  intros He Hr L1 L2 E. pose proof (C37_optimal eps a1 b1 a2 b2 He L1 L2) as O. rewrite E in O. destruct O as (S1 & S2 & O).
  rewrite <- dist_lt_sq by lra. rewrite dist_sym. unfold plain_overlap. split.
  - intros H. now exists q1, q2.
  - intros (p & q & Hp & Hq & H). specialize (O p q Hp Hq). lra.
Qed.
Lemma capsule_closest_flag eps report par r1 r2 c tr a1 b1 a2 b2 : 0 <= eps -> 0 < r1 + r2 -> long_or_point eps a1 b1 -> long_or_point eps a2 b2 ->
  (fst (capsule_closest eps report par r1 r2 c tr a1 b1 a2 b2) = true <-> plain_overlap a1 b1 a2 b2 (r1 + r2)).
Proof.
  intros He Hr L1 L2. unfold capsule_closest. destruct (closest_segments eps a1 b1 a2 b2) as [q1 q2] eqn:E.
  rewrite <- (closest_overlap eps a1 b1 a2 b2 _ q1 q2 He Hr L1 L2 E). destruct (rlt (vlen2 (vsub q2 q1)) ((r1 + r2) * (r1 + r2))) eqn:B; cbn [fst].
  - apply rlt_true in B. tauto.
  - apply rlt_false in B. split; [easy|lra].
Qed.
Lemma seg_along a s m f g p : on_segment (along a s m f) (along a s m (f + g)) p <-> exists u, 0 <= u <= 1 /\ p = along a s m (f + u * g).
Proof.
  unfold on_segment. split; intros (u & Hu & ->); exists u; (split; [exact Hu|]); [apply along_lerp|symmetry; apply along_lerp].
Qed.
Lemma seg_first a s p : on_segment a (vadd a s) p <-> exists x, 0 <= x <= 1 /\ p = along a s vzero x.
Proof.
  unfold on_segment. assert (E : vsub (vadd a s) a = s) by vring.
  split; intros (u & Hu & ->); exists u; (split; [exact Hu|]); rewrite lerp_along, E; reflexivity.
Qed.
Lemma perp_line eps a s m f : eps <= vlen s -> 0 < vlen2 s -> vdot s m = 0 -> point_to_line eps a (vadd a s) (along a s m f) = vlen m.
Proof.
  intros He Hs O. unfold point_to_line. assert (E : vsub (vadd a s) a = s) by vring. rewrite E.
  destruct (rlt (vlen s) eps) eqn:B; [apply rlt_true in B; lra|].
  assert (C : vcross (vsub (along a s m f) a) (vsub (along a s m f) (vadd a s)) = vcross s m) by (unfold along; vring). rewrite C.
  assert (Ls : 0 < vlen s) by (apply vlen_pos; lra).
  assert (L : vlen (vcross s m) = vlen s * vlen m).
  { pose proof (lagrange s m) as L. rewrite O in L. apply Rsqr_inj; [apply sqrt_pos|apply Rmult_le_pos; apply sqrt_pos|].
    unfold Rsqr. rewrite vlen_sq. replace (vlen s * vlen m * (vlen s * vlen m)) with (vlen s * vlen s * (vlen m * vlen m)) by ring. rewrite !vlen_sq. lra. }
  rewrite L. field. lra.
Qed.
(** The whole test as a function of the two inner segments, in the space of the second capsule. *)
Definition two_segments (eps : R) (report : bool) (r1 r2 : R) (c tr : transform) (a1 b1 a2 b2 : vec3) : bool * list contact :=
  let seg1 := vsub b1 a1 in
  if are_parallel seg1 (vsub b2 a2) then
    let perp := point_to_line eps a1 b1 a2 in
    if rle (r1 + r2) perp then (false, [])
    else
      let t1 := plane_segment b2 a2 (vdot seg1 a1) seg1 in
      let t2 := plane_segment a2 b2 (- vdot seg1 b1) (vneg seg1) in
      if (rlt 0 t1 && rlt 0 t2)%bool then
        (true, if report then capsule_parallel eps r1 r2 c tr a1 b1 a2 b2 perp t1 t2 else [])
      else capsule_closest eps report true r1 r2 c tr a1 b1 a2 b2
  else capsule_closest eps report false r1 r2 c tr a1 b1 a2 b2.
Lemma capsule_capsule_segments eps report r1 h1 tr1 r2 h2 tr2 : let c := tr_mul (tr_inverse tr2) tr1 in
  capsule_capsule eps report r1 h1 tr1 r2 h2 tr2 =
  two_segments eps report r1 r2 c tr2 (tr_point c (V3 0 (- h1) 0)) (tr_point c (V3 0 h1 0)) (V3 0 (- h2) 0) (V3 0 h2 0).
Proof. reflexivity. Qed.

Definition clearly_crossed (s1 s2 : vec3) : Prop := / 100000 <= vlen2 (vcross s1 s2).
Lemma parallel_form a1 b1 a2 b2 : 0 < vlen2 (vsub b1 a1) -> vcross (vsub b1 a1) (vsub b2 a2) = vzero ->
  exists s m f g, b1 = vadd a1 s /\ a2 = along a1 s m f /\ b2 = along a1 s m (f + g) /\ vdot s m = 0 /\ 0 < vlen2 s /\ s = vsub b1 a1 /\ vsub b2 a2 = vscale g s.
Proof.
  intros L C. destruct (cross_zero_parallel _ _ L C) as (g & G). destruct (decompose (vsub b1 a1) (vsub a2 a1) L) as (f & m & F & O).
  exists (vsub b1 a1), m, f, g. splits; auto.
  - vring.
  - unfold along. replace a2 with (vadd a1 (vsub a2 a1)) at 1 by vring. rewrite F. vring.
  - unfold along. replace b2 with (vadd (vadd a1 (vsub a2 a1)) (vsub b2 a2)) at 1 by vring. rewrite F, G. vring.
Qed.
Lemma are_parallel_zero s1 s2 : vcross s1 s2 = vzero -> are_parallel s1 s2 = true.
Proof. intros E. unfold are_parallel. rewrite E. apply rlt_true. unfold vlen2, vzero. cbn [vx vy vz]. lra. Qed.
Lemma are_parallel_crossed s1 s2 : clearly_crossed s1 s2 -> are_parallel s1 s2 = false.
Proof. intros E. unfold are_parallel. apply rlt_false. exact E. Qed.
Lemma along_far s m a x y : vdot s m = 0 -> vlen m <= dist (along a s vzero x) (along a s m y).
Proof.
  intros O. rewrite dist_sym, dist_vlen, along_diff. apply vlen_le_iff; [apply sqrt_pos|]. rewrite vlen_sq, along_dist2 by exact O. pose proof (vlen2_nonneg s). pose proof (Rle_0_sqr (y - x)) as Q. unfold Rsqr in Q. nra.
Qed.
Lemma along_near s m a x : dist (along a s vzero x) (along a s m x) = vlen m.
Proof. rewrite dist_sym, dist_vlen, along_diff. f_equal. replace (x - x) with 0 by ring. vring. Qed.

Lemma two_segments_flag eps report r1 r2 c tr a1 b1 a2 b2 : 0 < eps -> 0 < r1 + r2 ->
  eps < vlen2 (vsub b1 a1) -> eps < vlen2 (vsub b2 a2) -> eps <= vlen (vsub b1 a1) ->
  vcross (vsub b1 a1) (vsub b2 a2) = vzero \/ clearly_crossed (vsub b1 a1) (vsub b2 a2) ->
  (fst (two_segments eps report r1 r2 c tr a1 b1 a2 b2) = true <-> plain_overlap a1 b1 a2 b2 (r1 + r2)).
Proof.
  intros He Hr L1 L2 L3 P.
  assert (Q1 : long_or_point eps a1 b1) by (left; rewrite dist_sym, dist_vlen, vlen_sq; exact L1).
  assert (Q2 : long_or_point eps a2 b2) by (left; rewrite dist_sym, dist_vlen, vlen_sq; exact L2).
  unfold two_segments. destruct P as [P|P].
  - rewrite (are_parallel_zero _ _ P). destruct (parallel_form a1 b1 a2 b2 ltac:(lra) P) as (s & m & f & g & -> & -> & -> & O & Ls & Es & _).
    rewrite <- Es in *. rewrite perp_line by assumption.
    destruct (rle (r1 + r2) (vlen m)) eqn:E; [apply rle_true in E | apply rle_false in E].
    { cbn [fst]. split; [easy|]. intros (p & q & Hp & Hq & H). apply seg_first in Hp as (x & _ & ->). apply seg_along in Hq as (u & _ & ->).
      pose proof (along_far s m a1 x (f + u * g) O). lra. }
    destruct (clip_params a1 s m f g O Ls) as [(_ & T1 & T2)|(_ & T1 & T2)]; rewrite T1, T2.
    + destruct (rlt 0 ((f + g) / g) && rlt 0 ((1 - f) / g))%bool eqn:B; [|now apply capsule_closest_flag; try lra].
      apply andb_true_iff in B as [B1 B2]. apply rlt_true in B1, B2. cbn [fst]. split; [intros _|easy].
      destruct (clip_inside f g B1 B2) as (U & X & _).
      set (u := 1 - (if rlt 1 ((f + g) / g) then 1 else (f + g) / g)) in *. clearbody u.
      exists (along a1 s vzero (f + u * g)), (along a1 s m (f + u * g)). splits.
      * apply seg_first. now exists (f + u * g).
      * apply seg_along. now exists u.
      * rewrite along_near. exact E.
    + assert (B : (rlt 0 (-1) && rlt 0 (-1))%bool = false) by (replace (rlt 0 (-1)) with false by (symmetry; apply rlt_false; lra); reflexivity).
      rewrite B. now apply capsule_closest_flag; try lra.
  - rewrite (are_parallel_crossed _ _ P). now apply capsule_closest_flag; try lra.
Qed.

(** ** The contacts *)
Definition contact2 (tol r1 r2 : R) (C1 C2 : vec3 -> Prop) (c tr : transform) (k : contact) : Prop :=
  exists n w1, good_contact tol C1 C2 r1 r2 n (c_depth k) w1 (c_local2 k) /\ c_normal k = quat_vec (t_rot tr) n /\ c_local1 k = tr_point (tr_inverse c) w1.
Lemma contact2_make tol r1 r2 C1 C2 c tr n depth q1 q2 : good_contact tol C1 C2 r1 r2 n depth (shifted q1 n r1) (shifted q2 n (- r2)) ->
  contact2 tol r1 r2 C1 C2 c tr (Contact (quat_vec (t_rot tr) n) depth (tr_point (tr_inverse c) (vadd q1 (vscale r1 n))) (vsub q2 (vscale r2 n))).
Proof. intros G. exists n, (shifted q1 n r1). cbn [c_normal c_depth c_local1 c_local2]. rewrite vsub_shift. now splits. Qed.
Lemma good_tol tol C1 C2 r1 r2 n depth w1 w2 : 0 <= tol -> good_contact 0 C1 C2 r1 r2 n depth w1 w2 -> good_contact tol C1 C2 r1 r2 n depth w1 w2.
Proof. intros Ht [G1 G2 G3 G4 (k & G5 & G6) G7]. constructor; auto. exists k. split; [exact G5|lra]. Qed.
(** Contacts of parallel segments. *)
Lemma parallel_contact tol a s m f g r1 r2 n u : 0 <= tol -> vdot s m = 0 -> vlen n = 1 -> vdot n s = 0 -> m = vscale (vlen m) n -> vlen m < r1 + r2 ->
  0 <= u <= 1 -> 0 <= f + u * g <= 1 ->
  good_contact tol (on_segment a (vadd a s)) (on_segment (along a s m f) (along a s m (f + g))) r1 r2 n (r1 + r2 - vlen m)
    (shifted (along a s vzero (f + u * g)) n r1) (shifted (along a s m (f + u * g)) n (- r2)).
Proof.
  intros Ht O Hn Hs Em Hd Hu Hx. apply good_tol; [exact Ht|]. apply (good_plane 0 _ _ r1 r2 n (vlen m)); auto; try lra.
  - apply seg_first. now exists (f + u * g).
  - apply seg_along. now exists u.
  - rewrite shifted_eq. rewrite <- Em. unfold along, vzero. vring.
  - intros p q Hp Hq. apply seg_first in Hp as (x & _ & ->). apply seg_along in Hq as (v & _ & ->). rewrite along_diff.
    assert (Em' : vdot m n = vlen m). { rewrite Em at 1. rewrite vdot_vscale_l, <- vlen2_dot, <- vlen_sq, Hn. ring. }
    replace (vdot (vadd (vscale (f + v * g - x) s) m) n) with ((f + v * g - x) * vdot n s + vdot m n) by (generalize (f + v * g - x); intros; vring).
    rewrite Hs, Em'. lra.
Qed.
Lemma parallel_unit a s m f g : vsub (along a s m (f + g)) (along a s m f) = vscale g s.
Proof. unfold along. vring. Qed.
Lemma vdot_zero_l s : vdot vzero s = 0.
Proof. unfold vzero. vring. Qed.
Lemma along_clip a s m f g t : vsub (along a s m (f + g)) (vscale t (vsub (along a s m (f + g)) (along a s m f))) = along a s m (f + (1 - t) * g).
Proof. unfold along. vring. Qed.
Lemma along_clip' a s m f g t : vadd (along a s m f) (vscale t (vsub (along a s m (f + g)) (along a s m f))) = along a s m (f + t * g).
Proof. unfold along. vring. Qed.
Lemma along_back a s m x : vsub (along a s m x) m = along a s vzero x.
Proof. unfold along, vzero. vring. Qed.
Lemma along_back0 a s x : vsub (along a s vzero x) (V3 0 0 0) = along a s vzero x.
Proof. unfold along, vzero. vring. Qed.
(** The projection of the first end of the second segment on the line of the first one. *)
Lemma projection a s m f l : vdot s m = 0 -> l <> 0 -> vlen2 s = l * l ->
  vsub (along a s m f) (vadd a (vscale (vdot (vscale (1 / l) s) (vsub (along a s m f) a)) (vscale (1 / l) s))) = m.
Proof.
  intros O L E.
  replace (vdot (vscale (1 / l) s) (vsub (along a s m f) a)) with (1 / l * (f * vlen2 s + vdot s m)) by (unfold along; generalize (1 / l); intros; vring).
  rewrite O, E. rewrite vscale_vscale. replace (1 / l * (f * (l * l) + 0) * (1 / l)) with f by (field; exact L). unfold along. vring.
Qed.
Lemma capsule_parallel_contact eps r1 r2 c tr a s m f g t1 t2 nn k : 0 < eps -> vdot s m = 0 -> 0 < vlen2 s -> eps <= vlen s -> vlen m < r1 + r2 ->
  0 < t1 -> 0 < t2 -> t1 = (f + g) / g -> t2 = (1 - f) / g ->
  orthogonal_to eps (vscale g s) = nn -> vlen nn = 1 -> vdot nn s = 0 -> eps < vlen m \/ m = vzero ->
  In k (capsule_parallel eps r1 r2 c tr a (vadd a s) (along a s m f) (along a s m (f + g)) (vlen m) t1 t2) ->
  contact2 eps r1 r2 (on_segment a (vadd a s)) (on_segment (along a s m f) (along a s m (f + g))) c tr k.
Proof.
  intros He O Ls Le Hm H1 H2 E1 E2 En Hn1 Hn2 Hp. unfold capsule_parallel.
  rewrite !along_clip, !along_clip', parallel_unit, En. assert (Ea : vsub (vadd a s) a = s) by vring. rewrite Ea.
  rewrite E1 in H1 |- *. rewrite E2 in H2 |- *. destruct (clip_inside f g H1 H2) as (U1 & X1 & U2 & X2).
  set (u1 := 1 - (if rlt 1 ((f + g) / g) then 1 else (f + g) / g)) in *. set (u2 := if rlt 1 ((1 - f) / g) then 1 else (1 - f) / g) in *. clearbody u1 u2.
  assert (L0 : vlen s <> 0) by (assert (0 < vlen s) by (apply vlen_pos; lra); lra).
  rewrite (vunit_scale eps s) by exact Le. rewrite projection by (auto; symmetry; apply vlen_sq).
  destruct (rlt eps (vlen m)) eqn:B; [apply rlt_true in B | apply rlt_false in B].
  - rewrite (vunit_scale eps m) by lra. set (n := vscale (1 / vlen m) m).
    assert (N1 : vlen n = 1). { unfold n. rewrite vlen_vscale, Rabs_pos_eq; [field; lra|]. apply Rlt_le, Rdiv_lt_0_compat; lra. }
    assert (N2 : vdot n s = 0). { unfold n. rewrite vdot_vscale_l, vdot_comm, O. ring. }
    assert (N3 : m = vscale (vlen m) n). { unfold n. rewrite vscale_vscale. replace (vlen m * (1 / vlen m)) with 1 by (field; lra). now rewrite vscale_1. }
    clearbody n. rewrite !along_back. intros [<-|[<-|[]]]; apply contact2_make; apply parallel_contact; auto; lra.
  - destruct Hp as [Hp|Hp]; [lra|]. assert (Z : vlen m = 0) by (rewrite Hp; apply vlen_vzero).
    subst m. rewrite !along_back0. intros [<-|[<-|[]]]; apply contact2_make; apply parallel_contact; auto; try lra; rewrite Z; unfold vzero; vring.
Qed.
(** Contacts from the closest points. *)
Lemma closest_contact eps par r1 r2 c tr a1 b1 a2 b2 k : 0 < eps <= / 1000 -> 0 < r1 + r2 -> long_or_point eps a1 b1 -> long_or_point eps a2 b2 ->
  (forall p q, on_segment a1 b1 p -> on_segment a2 b2 q -> eps < dist p q * dist p q) ->
  In k (snd (capsule_closest eps true par r1 r2 c tr a1 b1 a2 b2)) ->
  contact2 eps r1 r2 (on_segment a1 b1) (on_segment a2 b2) c tr k.
Proof.
  intros He Hr L1 L2 Hd. unfold capsule_closest. pose proof (C37_optimal eps a1 b1 a2 b2 ltac:(lra) L1 L2) as O.
  destruct (closest_segments eps a1 b1 a2 b2) as [q1 q2]. destruct O as (S1 & S2 & O).
  destruct (rlt (vlen2 (vsub q2 q1)) ((r1 + r2) * (r1 + r2))) eqn:B; [apply rlt_true in B|easy]. cbn [snd].
  specialize (Hd q1 q2 S1 S2). rewrite dist_sym, dist_vlen, vlen_sq in Hd. assert (B2 : rlt eps (vlen2 (vsub q2 q1)) = true) by (now apply rlt_true). rewrite B2.
  fold (vlen (vsub q2 q1)). assert (Hl : eps < vlen (vsub q2 q1)) by (unfold vlen; apply sqrt_gt; lra).
  assert (Hu : vlen (vsub q2 q1) < r1 + r2) by (apply vlen_lt_iff; lra).
  rewrite vdiv_scale. intros [<-|[]]. apply contact2_make.
  apply (good_closest eps _ _ r1 r2 _ q1 q2 (vlen (vsub q2 q1))); auto using convex_segment; try lra.
  - apply Rlt_le_trans with eps; [lra|apply Rmax_r].
  - unfold Rmax. destruct (Rle_dec (r1 + r2 - vlen (vsub q2 q1)) eps); lra.
Qed.
(** Crossing segments with a common point. *)
Lemma crossing_contact eps r1 r2 c tr a1 b1 a2 b2 k : 0 < eps <= / 1000 -> 0 < r1 + r2 -> long_or_point eps a1 b1 -> long_or_point eps a2 b2 ->
  clearly_crossed (vsub b1 a1) (vsub b2 a2) -> (exists x, on_segment a1 b1 x /\ on_segment a2 b2 x) ->
  In k (snd (capsule_closest eps true false r1 r2 c tr a1 b1 a2 b2)) ->
  contact2 eps r1 r2 (on_segment a1 b1) (on_segment a2 b2) c tr k.
Proof.
  intros He Hr L1 L2 Hc (x & X1 & X2). unfold capsule_closest. pose proof (C37_optimal eps a1 b1 a2 b2 ltac:(lra) L1 L2) as O.
  destruct (closest_segments eps a1 b1 a2 b2) as [q1 q2]. destruct O as (S1 & S2 & O).
  assert (E : q2 = q1).
  { specialize (O x x X1 X2). rewrite !dist_vlen in O. replace (vsub x x) with vzero in O by (unfold vzero; vring). rewrite vlen_vzero in O.
    assert (Z : vsub q1 q2 = vzero) by (apply vlen_zero; pose proof (sqrt_pos (vlen2 (vsub q1 q2))); unfold vlen in *; lra).
    replace q1 with (vadd q2 (vsub q1 q2)) by vring. rewrite Z. unfold vzero. vring. }
  subst q2. assert (Z : vlen2 (vsub q1 q1) = 0) by vring. rewrite Z.
  assert (B1 : rlt 0 ((r1 + r2) * (r1 + r2)) = true) by (apply rlt_true; nra). rewrite B1.
  assert (B2 : rlt eps 0 = false) by (apply rlt_false; lra). rewrite B2. cbn [snd].
  unfold clearly_crossed in Hc. set (w := vcross (vsub b1 a1) (vsub b2 a2)) in *.
  assert (Hl : eps < vlen w).
  { unfold vlen. rewrite <- (sqrt_square eps) by lra. apply sqrt_lt_1; nra. }
  rewrite normalize_long by lra. intros [<-|[]]. apply contact2_make. apply good_tol; [lra|].
  apply (good_plane 0 _ _ r1 r2 _ 0); auto; try lra.
  - rewrite vlen_vscale, Rabs_pos_eq; [field; lra|]. apply Rlt_le, Rdiv_lt_0_compat; lra.
  - now rewrite shifted_0.
  - intros p q Hp Hq. rewrite vdot_vscale_r. replace (vdot (vsub q p) w) with 0; [lra|].
    destruct Hp as (u & _ & ->), Hq as (v & _ & ->), S1 as (u0 & _ & E1), S2 as (v0 & _ & E2). subst w.
    assert (F : vsub (lerp a2 b2 v) (lerp a1 b1 u) = vsub (vscale (v - v0) (vsub b2 a2)) (vscale (u - u0) (vsub b1 a1))).
    { transitivity (vadd (vsub (lerp a2 b2 v) (lerp a2 b2 v0)) (vsub (lerp a1 b1 u0) (lerp a1 b1 u))); [rewrite <- E2, <- E1; generalize (lerp a2 b2 v) (lerp a1 b1 u); intros; vring|].
      rewrite !lerp_eq. vring. }
    rewrite F. vring.
Qed.
Lemma along_zero a s : along a s vzero 0 = a.
Proof. unfold along, vzero. vring. Qed.
Lemma along_one a s : along a s vzero 1 = vadd a s.
Proof. unfold along, vzero. vring. Qed.
Lemma along_meet a s m x y : vdot s m = 0 -> 0 < vlen2 s -> along a s vzero x = along a s m y -> m = vzero /\ x = y.
Proof.
  intros O L E. assert (Z : vlen2 (vadd (vscale (y - x) s) m) = 0). { rewrite <- (along_diff a), E. generalize (along a s m y). intros. vring. }
  rewrite along_dist2 in Z by exact O. pose proof (vlen2_nonneg m). pose proof (Rle_0_sqr (y - x)) as Q. unfold Rsqr in Q.
  assert (M : vlen2 m = 0) by nra. split; [now apply vlen2_zero|]. assert (Z2 : (y - x) * (y - x) = 0) by nra. nra.
Qed.
(** Segments on one line in the same direction that touch end to end. *)
Lemma touching_contact eps r1 r2 c tr a s m f g k : 0 < eps <= / 1000 -> 0 < r1 + r2 -> vdot s m = 0 -> 0 < vlen2 s -> eps < vlen2 s ->
  long_or_point eps a (vadd a s) -> long_or_point eps (along a s m f) (along a s m (f + g)) ->
  0 < g -> f + g <= 0 \/ 1 <= f -> (exists x, on_segment a (vadd a s) x /\ on_segment (along a s m f) (along a s m (f + g)) x) ->
  In k (snd (capsule_closest eps true true r1 r2 c tr a (vadd a s) (along a s m f) (along a s m (f + g)))) ->
  contact2 eps r1 r2 (on_segment a (vadd a s)) (on_segment (along a s m f) (along a s m (f + g))) c tr k.
Proof.
  intros He Hr O Ls Le L1 L2 Hg Hf (x & X1 & X2). pose proof (C37_optimal eps _ _ _ _ ltac:(lra) L1 L2) as Op.
  unfold capsule_closest. destruct (closest_segments eps a (vadd a s) (along a s m f) (along a s m (f + g))) as [q1 q2].
  destruct Op as (S1 & S2 & Op).
  assert (E : q2 = q1).
  { specialize (Op x x X1 X2). rewrite !dist_vlen in Op. replace (vsub x x) with vzero in Op by (unfold vzero; vring). rewrite vlen_vzero in Op.
    assert (Z : vsub q1 q2 = vzero) by (apply vlen_zero; pose proof (sqrt_pos (vlen2 (vsub q1 q2))); unfold vlen in *; lra).
    replace q1 with (vadd q2 (vsub q1 q2)) by vring. rewrite Z. unfold vzero. vring. }
  subst q2. assert (Z : vlen2 (vsub q1 q1) = 0) by vring. rewrite Z.
  assert (B1 : rlt 0 ((r1 + r2) * (r1 + r2)) = true) by (apply rlt_true; nra). rewrite B1.
  assert (B2 : rlt eps 0 = false) by (apply rlt_false; lra). rewrite B2. cbn [snd].
  pose proof S1 as S1'. pose proof S2 as S2'. apply seg_first in S1 as (y & Hy & Ey). apply seg_along in S2 as (u & Hu & Eu).
  rewrite Ey in Eu. destruct (along_meet a s m y (f + u * g) O Ls Eu) as [Em Exy].
  assert (Lv : eps < vlen s) by (unfold vlen; apply sqrt_gt; lra). intros HIn.
  assert (G : forall n, n = vscale (1 / vlen s) s \/ n = vscale (- (1 / vlen s)) s -> vlen n = 1).
  { assert (Pn : 0 < 1 / vlen s) by (apply Rdiv_lt_0_compat; lra).
    intros n [->| ->]; rewrite vlen_vscale; [rewrite Rabs_pos_eq by lra|rewrite Rabs_left by lra]; field; lra. }
  destruct Hf as [Hf|Hf].
  - assert (Y0 : y = 0) by nra. rewrite Y0, along_zero in Ey. subst q1. rewrite Z, B2 in HIn.
    assert (Ed : vsub a (vadd a s) = vneg s) by vring. rewrite Ed, normalize_long in HIn by (rewrite vlen_vneg; lra). rewrite vlen_vneg in HIn.
    destruct HIn as [<-|[]]. apply contact2_make. apply good_tol; [lra|].
    assert (En : vscale (1 / vlen s) (vneg s) = vscale (- (1 / vlen s)) s) by (generalize (1 / vlen s); intros; vring). rewrite En.
    apply (good_plane 0 _ _ r1 r2 _ 0); auto; try lra; [now rewrite shifted_0|].
    intros p q Hp Hq. apply seg_first in Hp as (x' & Hx' & ->). apply seg_along in Hq as (v & Hv & ->). rewrite along_diff, Em, vdot_vscale_r.
    replace (vdot (vadd (vscale (f + v * g - x') s) vzero) s) with ((f + v * g - x') * vlen2 s) by (generalize (f + v * g - x'); unfold vzero; intros; vring).
    assert (0 < 1 / vlen s) by (apply Rdiv_lt_0_compat; lra). assert (f + v * g - x' <= 0) by nra.
    generalize dependent (1 / vlen s). intros i _ _ Hi. assert (0 <= i * vlen2 s) by nra. nra.
  - assert (Y1 : y = 1) by nra. rewrite Y1, along_one in Ey. subst q1.
    assert (Ed : vlen2 (vsub a (vadd a s)) = vlen2 s) by vring. rewrite Ed in HIn.
    assert (B3 : rlt eps (vlen2 s) = true) by (now apply rlt_true). rewrite B3 in HIn.
    assert (Ed2 : vsub (vadd a s) a = s) by vring. rewrite Ed2, normalize_long in HIn by lra.
    destruct HIn as [<-|[]]. apply contact2_make. apply good_tol; [lra|].
    apply (good_plane 0 _ _ r1 r2 _ 0); auto; try lra; [now rewrite shifted_0|].
    intros p q Hp Hq. apply seg_first in Hp as (x' & Hx' & ->). apply seg_along in Hq as (v & Hv & ->). rewrite along_diff, Em, vdot_vscale_r.
    replace (vdot (vadd (vscale (f + v * g - x') s) vzero) s) with ((f + v * g - x') * vlen2 s) by (generalize (f + v * g - x'); unfold vzero; intros; vring).
    assert (0 < 1 / vlen s) by (apply Rdiv_lt_0_compat; lra). assert (0 <= f + v * g - x') by nra.
    generalize dependent (1 / vlen s). intros i G Hi. assert (0 <= i * vlen2 s) by nra. nra.
Qed.
(** All contacts of the test, in the space of the second capsule. *)
Lemma two_segments_contact eps r1 r2 c tr a1 b1 a2 b2 nn k : 0 < eps <= / 1000 -> 0 < r1 + r2 ->
  eps < vlen2 (vsub b1 a1) -> eps < vlen2 (vsub b2 a2) ->
  orthogonal_to eps (vsub b2 a2) = nn -> vlen nn = 1 -> vdot nn (vsub b2 a2) = 0 ->
  vcross (vsub b1 a1) (vsub b2 a2) = vzero \/ clearly_crossed (vsub b1 a1) (vsub b2 a2) ->
  (forall p q, on_segment a1 b1 p -> on_segment a2 b2 q -> eps < dist p q * dist p q) \/
  ((exists x, on_segment a1 b1 x /\ on_segment a2 b2 x) /\ (clearly_crossed (vsub b1 a1) (vsub b2 a2) \/ / 10000 < vdot (vsub b1 a1) (vsub b2 a2))) ->
  In k (snd (two_segments eps true r1 r2 c tr a1 b1 a2 b2)) -> contact2 eps r1 r2 (on_segment a1 b1) (on_segment a2 b2) c tr k.
Proof.
  intros He Hr L1 L2 En Hn1 Hn2 P D.
  assert (Q1 : long_or_point eps a1 b1) by (left; rewrite dist_sym, dist_vlen, vlen_sq; exact L1).
  assert (Q2 : long_or_point eps a2 b2) by (left; rewrite dist_sym, dist_vlen, vlen_sq; exact L2).
  unfold two_segments. destruct P as [P|P].
  - rewrite (are_parallel_zero _ _ P). destruct (parallel_form a1 b1 a2 b2 ltac:(lra) P) as (s & m & f & g & -> & -> & -> & O & Ls & Es & Eg).
    rewrite <- Es in *. rewrite Eg in *. assert (Lv : eps < vlen s) by (unfold vlen; apply sqrt_gt; lra). rewrite perp_line by (auto; lra).
    assert (Gn : g <> 0). { intros ->. replace (vlen2 (vscale 0 s)) with 0 in L2 by vring. lra. }
    destruct (rle (r1 + r2) (vlen m)) eqn:E; [easy|apply rle_false in E].
    assert (Nc : clearly_crossed s (vscale g s) -> False).
    { unfold clearly_crossed. replace (vcross s (vscale g s)) with vzero by (unfold vzero; vring). unfold vlen2, vzero. cbn [vx vy vz]. lra. }
    assert (Vs : vdot s (vscale g s) = g * vlen2 s) by vring.
    destruct (clip_params a1 s m f g O Ls) as [(G & T1 & T2)|(G & T1 & T2)]; rewrite T1, T2.
    + destruct (rlt 0 ((f + g) / g) && rlt 0 ((1 - f) / g))%bool eqn:B.
      * apply andb_true_iff in B as [B1 B2]. apply rlt_true in B1, B2. cbn [snd]. intros Hk.
        refine (capsule_parallel_contact eps r1 r2 c tr a1 s m f g _ _ nn k _ O Ls _ _ B1 B2 eq_refl eq_refl En Hn1 _ _ Hk); try lra.
        -- rewrite vdot_vscale_r in Hn2. apply Rmult_integral in Hn2 as [Hn2|Hn2]; [contradiction|exact Hn2].
        -- destruct D as [D|[(x & X1 & X2) _]].
           ++ left. destruct (clip_inside f g B1 B2) as (U & X & _). set (u := 1 - (if rlt 1 ((f + g) / g) then 1 else (f + g) / g)) in *. clearbody u.
              specialize (D (along a1 s vzero (f + u * g)) (along a1 s m (f + u * g))). rewrite along_near, vlen_sq in D.
              unfold vlen. apply sqrt_gt; [lra|]. apply D; [apply seg_first; now exists (f + u * g)|apply seg_along; now exists u].
           ++ right. apply seg_first in X1 as (y & _ & ->). apply seg_along in X2 as (u & _ & X2). now apply (along_meet a1 s m y (f + u * g)).
      * destruct D as [D|[X [C|D]]]; [now apply closest_contact|contradiction (Nc C)|]. rewrite Vs in D.
        assert (Hg : 0 < g) by nra. apply touching_contact; auto.
        destruct (Rle_dec (f + g) 0) as [|N1]; [now left|]. right. destruct (Rle_dec 1 f) as [|N2]; [assumption|]. exfalso.
        assert (B1 : rlt 0 ((f + g) / g) = true) by (apply rlt_true, Rdiv_lt_0_compat; lra).
        assert (B2 : rlt 0 ((1 - f) / g) = true) by (apply rlt_true, Rdiv_lt_0_compat; lra). rewrite B1, B2 in B. easy.
    + assert (B : (rlt 0 (-1) && rlt 0 (-1))%bool = false) by (replace (rlt 0 (-1)) with false by (symmetry; apply rlt_false; lra); reflexivity).
      rewrite B. destruct D as [D|[X [C|D]]]; [now apply closest_contact|contradiction (Nc C)|]. rewrite Vs in D. apply Rabs_def2 in G || (pose proof (Rle_abs (g * vlen2 s)); lra).
  - rewrite (are_parallel_crossed _ _ P). destruct D as [D|[X _]]; [now apply closest_contact|now apply crossing_contact].
Qed.

(** ** Back to world space *)
Lemma contact2_ok tol r1 r2 C1 C2 D1 D2 tr1 tr2 k : quat_len2 (t_rot tr1) = 1 -> quat_len2 (t_rot tr2) = 1 ->
  (forall p, moved tr2 C1 p <-> D1 p) -> (forall p, moved tr2 C2 p <-> D2 p) ->
  contact2 tol r1 r2 C1 C2 (tr_mul (tr_inverse tr2) tr1) tr2 k -> contact_ok tol D1 D2 r1 r2 tr1 tr2 k.
Proof.
  intros T1 T2 E1 E2 (n & w1 & G & En & Ew). unfold contact_ok. rewrite En, Ew, pass_back by assumption.
  apply (good_ext tol _ _ D1 D2 r1 r2 _ _ _ _ E1 E2). now apply good_moved.
Qed.
Lemma core_first h1 tr1 tr2 p : quat_len2 (t_rot tr2) = 1 -> let c := tr_mul (tr_inverse tr2) tr1 in
  moved tr2 (on_segment (tr_point c (V3 0 (- h1) 0)) (tr_point c (V3 0 h1 0))) p <-> capsule_core h1 tr1 p.
Proof.
  intros T2. cbv zeta. rewrite moved_segment, !pass_through by exact T2. unfold capsule_core. symmetry. apply moved_segment.
Qed.
Lemma tr_diff t p q : vsub (tr_point t p) (tr_point t q) = quat_vec (t_rot t) (vsub p q).
Proof. unfold tr_point. rewrite quat_vec_vsub. generalize (quat_vec (t_rot t) p) (quat_vec (t_rot t) q) (t_pos t). intros. vring. Qed.
Lemma axis_first h1 tr1 tr2 : quat_len2 (t_rot tr2) = 1 -> let c := tr_mul (tr_inverse tr2) tr1 in
  quat_vec (t_rot tr2) (vsub (tr_point c (V3 0 h1 0)) (tr_point c (V3 0 (- h1) 0))) = capsule_axis h1 tr1.
Proof. intros T2. cbv zeta. rewrite <- tr_diff, !pass_through by exact T2. reflexivity. Qed.
Lemma axis_second h2 tr2 : quat_vec (t_rot tr2) (vsub (V3 0 h2 0) (V3 0 (- h2) 0)) = capsule_axis h2 tr2.
Proof. unfold capsule_axis. now rewrite tr_diff. Qed.
Lemma axis_len h t : quat_len2 (t_rot t) = 1 -> vlen2 (capsule_axis h t) = 4 * (h * h).
Proof.
  intros T. rewrite <- axis_second. rewrite <- !vlen_sq, vlen_rotated by exact T. rewrite !vlen_sq. unfold vlen2, vsub. cbn [vx vy vz]. ring.
Qed.
Lemma rotated_cross q u v : quat_len2 q = 1 -> vcross (quat_vec q u) (quat_vec q v) = quat_vec q (vcross u v).
Proof. intros H. pose proof (quat_vec_cross q u v) as E. rewrite H, vscale_1 in E. exact E. Qed.
Lemma rotated_zero q u : quat_len2 q = 1 -> quat_vec q u = vzero -> u = vzero.
Proof. intros H E. apply vlen_zero. rewrite <- (vlen_rotated q u H), E. apply vlen_vzero. Qed.
Section Capsules.
Variables (eps r1 h1 r2 h2 : R) (tr1 tr2 : transform).
Hypothesis Heps : 0 < eps <= / 1000.
Hypothesis Hr : 0 < r1 + r2.
Hypothesis Hh1 : 0 < h1 /\ eps < 4 * (h1 * h1).
Hypothesis Hh2 : 0 < h2 /\ eps < 4 * (h2 * h2).
Hypothesis T1 : quat_len2 (t_rot tr1) = 1.
Hypothesis T2 : quat_len2 (t_rot tr2) = 1.
Hypothesis Hpar : vcross (capsule_axis h1 tr1) (capsule_axis h2 tr2) = vzero \/ / 100000 <= vlen2 (vcross (capsule_axis h1 tr1) (capsule_axis h2 tr2)).
Definition cc_to2 : transform := tr_mul (tr_inverse tr2) tr1.
Definition cc_a1 : vec3 := tr_point cc_to2 (V3 0 (- h1) 0).
Definition cc_b1 : vec3 := tr_point cc_to2 (V3 0 h1 0).
Definition cc_a2 : vec3 := V3 0 (- h2) 0.
Definition cc_b2 : vec3 := V3 0 h2 0.
Lemma cc_axis1 : quat_vec (t_rot tr2) (vsub cc_b1 cc_a1) = capsule_axis h1 tr1. Proof. exact (axis_first h1 tr1 tr2 T2). Qed.
Lemma cc_axis2 : quat_vec (t_rot tr2) (vsub cc_b2 cc_a2) = capsule_axis h2 tr2. Proof. exact (axis_second h2 tr2). Qed.
Lemma cc_par : vcross (vsub cc_b1 cc_a1) (vsub cc_b2 cc_a2) = vzero \/ clearly_crossed (vsub cc_b1 cc_a1) (vsub cc_b2 cc_a2).
Proof.
  destruct Hpar as [H|H]; rewrite <- cc_axis1, <- cc_axis2, rotated_cross in H by exact T2.
  - left. now apply rotated_zero in H.
  - right. unfold clearly_crossed. rewrite <- vlen_sq in *. now rewrite vlen_rotated in H by exact T2.
Qed.
Lemma cc_len1 : vlen2 (vsub cc_b1 cc_a1) = 4 * (h1 * h1).
Proof. rewrite <- (axis_len h1 tr1 T1), <- cc_axis1. rewrite <- !vlen_sq. now rewrite vlen_rotated by exact T2. Qed.
Lemma cc_len2 : vlen2 (vsub cc_b2 cc_a2) = 4 * (h2 * h2).
Proof. rewrite <- (axis_len h2 tr2 T2), <- cc_axis2. rewrite <- !vlen_sq. now rewrite vlen_rotated by exact T2. Qed.
Lemma cc_core1 p : moved tr2 (on_segment cc_a1 cc_b1) p <-> capsule_core h1 tr1 p. Proof. exact (core_first h1 tr1 tr2 p T2). Qed.
Lemma cc_core2 p : moved tr2 (on_segment cc_a2 cc_b2) p <-> capsule_core h2 tr2 p. Proof. reflexivity. Qed.
Lemma cc_in1 p : on_segment cc_a1 cc_b1 p -> capsule_core h1 tr1 (tr_point tr2 p). Proof. intros H. apply cc_core1. now exists p. Qed.
Lemma cc_in2 p : on_segment cc_a2 cc_b2 p -> capsule_core h2 tr2 (tr_point tr2 p). Proof. intros H. apply cc_core2. now exists p. Qed.
Lemma capsule_flag report : fst (capsule_capsule eps report r1 h1 tr1 r2 h2 tr2) = true <-> overlap (capsule_core h1 tr1) (capsule_core h2 tr2) r1 r2.
Proof.
  rewrite capsule_capsule_segments. cbv zeta. fold cc_to2 cc_a1 cc_b1 cc_a2 cc_b2.
  rewrite two_segments_flag; [| lra | exact Hr | rewrite cc_len1; lra | rewrite cc_len2; lra | | exact cc_par].
  - unfold plain_overlap, overlap. split.
    + intros (p & q & Hp & Hq & H). exists (tr_point tr2 p), (tr_point tr2 q). splits; [now apply cc_in1|now apply cc_in2|]. now rewrite tr_isometry.
    + intros (p & q & Hp & Hq & H). apply cc_core1 in Hp as (p' & Hp & ->). apply cc_core2 in Hq as (q' & Hq & ->). rewrite tr_isometry in H by exact T2.
      now exists p', q'.
  - apply Rlt_le. unfold vlen. apply sqrt_gt; [lra|]. rewrite cc_len1. lra.
Qed.
Lemma capsule_contact k :
  (forall p q, capsule_core h1 tr1 p -> capsule_core h2 tr2 q -> eps < dist p q * dist p q) \/
  ((exists x, capsule_core h1 tr1 x /\ capsule_core h2 tr2 x) /\
   (/ 100000 <= vlen2 (vcross (capsule_axis h1 tr1) (capsule_axis h2 tr2)) \/ / 10000 < vdot (capsule_axis h1 tr1) (capsule_axis h2 tr2))) ->
  In k (snd (capsule_capsule eps true r1 h1 tr1 r2 h2 tr2)) ->
  contact_ok eps (capsule_core h1 tr1) (capsule_core h2 tr2) r1 r2 tr1 tr2 k.
Proof.
  intros D. rewrite capsule_capsule_segments. cbv zeta. fold cc_to2 cc_a1 cc_b1 cc_a2 cc_b2. intros Hk.
  apply (contact2_ok eps r1 r2 (on_segment cc_a1 cc_b1) (on_segment cc_a2 cc_b2) _ _ tr1 tr2 k T1 T2 cc_core1 cc_core2).
  apply (two_segments_contact eps r1 r2 cc_to2 tr2 cc_a1 cc_b1 cc_a2 cc_b2 (V3 0 0 (-1)) k); auto.
  - rewrite cc_len1. lra.
  - rewrite cc_len2. lra.
  - apply orthogonal_axis; lra.
  - rewrite vlen_axis_z, Rabs_left; lra.
  - unfold vdot, vsub, cc_b2, cc_a2. cbn [vx vy vz]. ring.
  - exact cc_par.
  - destruct D as [D|[(x & X1 & X2) D]].
    + left. intros p q Hp Hq. rewrite <- (tr_isometry tr2 p q T2). apply D; [now apply cc_in1|now apply cc_in2].
    + right. split.
      * apply cc_core1 in X1 as (x1 & X1 & ->). apply cc_core2 in X2 as (x2 & X2 & E). apply (tr_point_inj tr2) in E; [|exact T2]. subst x2. now exists x1.
      * rewrite <- cc_axis1, <- cc_axis2, rotated_cross, quat_vec_dot, T2 in D by exact T2. destruct D as [D|D]; [left|right; lra].
        unfold clearly_crossed. rewrite <- vlen_sq in *. now rewrite vlen_rotated in D by exact T2.
Qed.
End Capsules.
