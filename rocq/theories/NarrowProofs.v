(** Proofs about the narrow-phase algorithms for spheres and capsules. *)
From Coq Require Import Reals Lra Psatz List Bool.
From Verif Require Import Base VecModel VecProofs GeomModel GeomSpec GeomProofs GeomProperties LinAlgProperties ShapeModel ShapeSpec ShapeProofs ShapeMeshProofs NarrowModel NarrowSpec.
Import ListNotations.
Local Open Scope R_scope.

Lemma shifted_eq p n k : shifted p n k = vadd p (vscale k n).
Proof. reflexivity. Qed.
Lemma tr_shifted t p n k : tr_point t (shifted p n k) = shifted (tr_point t p) (quat_vec (t_rot t) n) k.
Proof. rewrite !shifted_eq. unfold tr_point. rewrite quat_vec_vadd, quat_vec_vscale. generalize (quat_vec (t_rot t) p) (quat_vec (t_rot t) n) (t_pos t). intros. vring. Qed.
Lemma shifted_neg p n k : shifted p (vneg n) k = shifted p n (- k).
Proof. rewrite !shifted_eq. vring. Qed.
Lemma shifted_shifted p n k l : shifted (shifted p n k) n l = shifted p n (k + l).
Proof. rewrite !shifted_eq. vring. Qed.
Lemma shifted_0 p n : shifted p n 0 = p.
Proof. rewrite !shifted_eq. vring. Qed.
Lemma dist_shift p q n k : dist p (shifted q n k) = dist (shifted p n (- k)) q.
Proof. rewrite !dist_vlen, !shifted_eq. f_equal. vring. Qed.

Lemma good_moved t tol C1 C2 r1 r2 n depth w1 w2 : quat_len2 (t_rot t) = 1 -> good_contact tol C1 C2 r1 r2 n depth w1 w2 ->
  good_contact tol (moved t C1) (moved t C2) r1 r2 (quat_vec (t_rot t) n) depth (tr_point t w1) (tr_point t w2).
Proof.
  intros Ht [G1 G2 (q1 & G3 & ->) (q2 & G4 & ->) (k & G5 & G6) G7]. constructor.
  - now rewrite vlen_rotated.
  - exact G2.
  - exists (tr_point t q1). split; [now exists q1|apply tr_shifted].
  - exists (tr_point t q2). split; [now exists q2|apply tr_shifted].
  - exists k. split; [|exact G6]. rewrite G5. apply tr_shifted.
  - intros p q (p0 & Hp & ->) (q0 & Hq & ->). rewrite <- tr_shifted, tr_isometry by exact Ht. now apply G7.
Qed.
Lemma good_flip tol C1 C2 r1 r2 n depth w1 w2 : good_contact tol C1 C2 r1 r2 n depth w1 w2 ->
  good_contact tol C2 C1 r2 r1 (vneg n) depth w2 w1.
Proof.
  intros [G1 G2 (q1 & G3 & E1) (q2 & G4 & E2) (k & G5 & G6) G7]. constructor.
  - now rewrite vlen_vneg.
  - exact G2.
  - exists q2. split; [exact G4|]. rewrite shifted_neg. exact E2.
  - exists q1. split; [exact G3|]. rewrite shifted_neg, Ropp_involutive. exact E1.
  - exists k. split; [|exact G6]. rewrite shifted_neg, G5, shifted_shifted, <- (shifted_0 w2 n) at 1. f_equal. ring.
  - intros p q Hp Hq. rewrite shifted_neg, dist_shift, Ropp_involutive, dist_sym. rewrite (Rplus_comm r2 r1). now apply G7.
Qed.
Lemma good_ext tol C1 C2 D1 D2 r1 r2 n depth w1 w2 : (forall p, C1 p <-> D1 p) -> (forall p, C2 p <-> D2 p) ->
  good_contact tol C1 C2 r1 r2 n depth w1 w2 -> good_contact tol D1 D2 r1 r2 n depth w1 w2.
Proof.
  intros E1 E2 [G1 G2 (q1 & G3 & F1) (q2 & G4 & F2) G5 G7]. constructor; auto.
  - exists q1. split; [now apply E1|exact F1].
  - exists q2. split; [now apply E2|exact F2].
  - intros p q Hp Hq. apply G7; [now apply E1|now apply E2].
Qed.
(** The common form of all contacts: two inner points that differ by [e] along the normal, and no two inner points closer than
    [e] in that direction. *)
Lemma good_plane tol (C1 C2 : vec3 -> Prop) r1 r2 n e depth q1 q2 : vlen n = 1 -> C1 q1 -> C2 q2 -> q2 = shifted q1 n e ->
  (forall p q, C1 p -> C2 q -> e <= vdot (vsub q p) n) -> 0 < depth -> r1 + r2 - e <= depth <= r1 + r2 - e + tol ->
  good_contact tol C1 C2 r1 r2 n depth (shifted q1 n r1) (shifted q2 n (- r2)).
Proof.
  intros Hn H1 H2 E Hs Hd Ht. constructor; auto.
  - now exists q1.
  - now exists q2.
  - exists (r1 + r2 - e). split; [|exact Ht]. rewrite E, !shifted_shifted. f_equal. ring.
  - intros p q Hp Hq. specialize (Hs p q Hp Hq). rewrite dist_sym, dist_vlen.
    pose proof (cauchy_schwarz (vsub (shifted q n depth) p) n) as CS. rewrite Hn in CS.
    assert (EE : vdot (vsub (shifted q n depth) p) n = vdot (vsub q p) n + depth * vdot n n) by (rewrite shifted_eq; vring).
    rewrite <- vlen2_dot, <- vlen_sq, Hn in EE. lra.
Qed.
(** Closest points of convex sets. *)
Definition convex (C : vec3 -> Prop) : Prop := forall p q t, C p -> C q -> 0 <= t <= 1 -> C (lerp p q t).
Lemma small_quadratic a b : (forall t, 0 <= t <= 1 -> 2 * t * b <= t * t * a) -> b <= 0.
Proof.
  intros H. destruct (Rle_dec b 0) as [|C]; [assumption|]. exfalso. apply Rnot_le_lt in C.
  set (m := Rmax a 0). assert (Hm : a <= m /\ 0 <= m) by (unfold m; split; [apply Rmax_l|apply Rmax_r]).
  specialize (H (b / (b + m))). assert (P : 0 < b + m) by lra.
  assert (T : 0 < b / (b + m) <= 1).
  { split; [now apply Rdiv_lt_0_compat|]. apply (Rmult_le_reg_r (b + m)); [lra|]. unfold Rdiv. rewrite Rmult_assoc, Rinv_l; lra. }
  specialize (H ltac:(lra)). set (t := b / (b + m)) in *.
  assert (E : t * (b + m) = b) by (unfold t; field; lra).
  assert (t * a <= t * m) by nra. assert (2 * b <= t * a) by nra. nra.
Qed.
Lemma closest_supports (C1 C2 : vec3 -> Prop) q1 q2 : convex C1 -> convex C2 -> C1 q1 -> C2 q2 ->
  (forall p q, C1 p -> C2 q -> dist q1 q2 <= dist p q) -> forall p q, C1 p -> C2 q -> vlen2 (vsub q2 q1) <= vdot (vsub q p) (vsub q2 q1).
Proof.
  intros V1 V2 H1 H2 Hm p q Hp Hq.
  assert (A : vdot (vsub p q1) (vsub q2 q1) <= 0).
  { apply (small_quadratic (vlen2 (vsub p q1))). intros t Ht. specialize (Hm (lerp q1 p t) q2 (V1 _ _ _ H1 Hp Ht) H2).
    apply dist_le_iff in Hm.
    replace (vlen2 (vsub (lerp q1 p t) q2)) with (vlen2 (vsub q1 q2) + t * t * vlen2 (vsub p q1) - 2 * t * vdot (vsub p q1) (vsub q2 q1)) in Hm
      by (rewrite lerp_eq; vring). lra. }
  assert (B : vdot (vsub q2 q) (vsub q2 q1) <= 0).
  { apply (small_quadratic (vlen2 (vsub q q2))). intros t Ht. specialize (Hm q1 (lerp q2 q t) H1 (V2 _ _ _ H2 Hq Ht)).
    apply dist_le_iff in Hm.
    replace (vlen2 (vsub q1 (lerp q2 q t))) with (vlen2 (vsub q1 q2) + t * t * vlen2 (vsub q q2) - 2 * t * vdot (vsub q2 q) (vsub q2 q1)) in Hm
      by (rewrite lerp_eq; vring). lra. }
  replace (vdot (vsub q p) (vsub q2 q1)) with (vlen2 (vsub q2 q1) - vdot (vsub p q1) (vsub q2 q1) - vdot (vsub q2 q) (vsub q2 q1)) by vring. lra.
Qed.
Lemma good_closest tol (C1 C2 : vec3 -> Prop) r1 r2 depth q1 q2 d n : convex C1 -> convex C2 -> C1 q1 -> C2 q2 ->
  (forall p q, C1 p -> C2 q -> dist q1 q2 <= dist p q) -> d = vlen (vsub q2 q1) -> 0 < d -> n = vscale (1 / d) (vsub q2 q1) ->
  0 < depth -> r1 + r2 - d <= depth <= r1 + r2 - d + tol ->
  good_contact tol C1 C2 r1 r2 n depth (shifted q1 n r1) (shifted q2 n (- r2)).
Proof.
  intros V1 V2 H1 H2 Hm Ed Hd En Hp Ht. apply (good_plane tol C1 C2 r1 r2 n d); auto.
  - rewrite En, vlen_vscale, <- Ed, Rabs_pos_eq; [field; lra|]. apply Rlt_le, Rdiv_lt_0_compat; lra.
  - rewrite En, shifted_eq. rewrite vscale_vscale. replace (d * (1 / d)) with 1 by (field; lra). rewrite vscale_1. symmetry. apply vadd_vsub.
  - intros p q Hp' Hq'. pose proof (closest_supports C1 C2 q1 q2 V1 V2 H1 H2 Hm p q Hp' Hq') as S.
    rewrite En, vdot_vscale_r. rewrite <- vlen_sq, <- Ed in S. apply (Rmult_le_reg_l d); [exact Hd|].
    replace (d * (1 / d * vdot (vsub q p) (vsub q2 q1))) with (vdot (vsub q p) (vsub q2 q1)) by (field; lra). exact S.
Qed.
Lemma convex_point c : convex (fun p => p = c).
Proof. intros p q t -> -> _. unfold lerp. apply v3_eq; cbn [vx vy vz]; ring. Qed.
Lemma convex_segment a b : convex (on_segment a b).
Proof.
  intros p q t (s & Hs & ->) (u & Hu & ->) Ht. rewrite lerp_lerp. exists (s + t * (u - s)). split; [|reflexivity]. split; nra.
Qed.
Lemma sqrt_gt eps d2 : 0 < eps <= 1 -> eps < d2 -> eps < sqrt d2.
Proof. intros He H. rewrite <- (sqrt_square eps) by lra. apply sqrt_lt_1; nra. Qed.

Lemma vsub_swap a b : vsub a b = vneg (vsub b a).
Proof. vring. Qed.
Lemma vscale_neg k v : vscale k (vneg v) = vneg (vscale k v).
Proof. vring. Qed.
Lemma vdiv_scale v d : vdiv v d = vscale (1 / d) v.
Proof. unfold vdiv, vscale. compw; unfold Rdiv; ring. Qed.
Lemma vsub_shift q n k : vsub q (vscale k n) = shifted q n (- k).
Proof. rewrite shifted_eq. vring. Qed.

Lemma overlap_thick C1 C2 r1 r2 : 0 < r1 -> 0 < r2 -> (overlap C1 C2 r1 r2 <-> exists x, thick C1 r1 x /\ thick C2 r2 x).
Proof.
  intros H1 H2. split.
  - intros (p & q & Hp & Hq & H). set (u := r1 / (r1 + r2)). assert (U : u * (r1 + r2) = r1) by (unfold u; field; lra). clearbody u.
    assert (0 < u) by nra. assert (u < 1) by nra. exists (lerp p q u).
    assert (E1 : dist (lerp p q u) p = u * dist p q).
    { rewrite (dist_sym p q), !dist_vlen. replace (vsub (lerp p q u) p) with (vscale u (vsub q p)) by (rewrite lerp_eq; vring). rewrite vlen_vscale, Rabs_pos_eq; [reflexivity|lra]. }
    assert (E2 : dist (lerp p q u) q = (1 - u) * dist p q).
    { rewrite !dist_vlen. replace (vsub (lerp p q u) q) with (vscale (1 - u) (vsub p q)) by (rewrite lerp_eq; vring). rewrite vlen_vscale, Rabs_pos_eq; [reflexivity|lra]. }
    split; [exists p|exists q]; (split; [assumption|]); [rewrite E1|rewrite E2]; nra.
  - intros (x & (p & Hp & D1) & (q & Hq & D2)). exists p, q. splits; auto. pose proof (triangle p x q). rewrite (dist_sym p x) in *. lra.
Qed.

(** ** Two spheres *)
Lemma sphere_sphere_flag eps report r1 r2 t1 t2 : 0 <= r1 -> 0 <= r2 ->
  (fst (sphere_sphere eps report r1 r2 t1 t2) = true <-> overlap (sphere_core t1) (sphere_core t2) r1 r2).
Proof.
  intros H1 H2. unfold sphere_sphere. set (d2 := vlen2 (vsub (t_pos t2) (t_pos t1))).
  assert (O : overlap (sphere_core t1) (sphere_core t2) r1 r2 <-> d2 < (r1 + r2) * (r1 + r2)).
  { unfold overlap, sphere_core. split.
    - intros (p & q & -> & -> & H). rewrite dist_sym in H. apply dist_lt_sq in H; [exact H|lra].
    - intros H. exists (t_pos t1), (t_pos t2). splits; auto. rewrite dist_sym. apply dist_lt_sq; [lra|exact H]. }
  rewrite O. destruct (rlt d2 ((r1 + r2) * (r1 + r2))) eqn:E; [apply rlt_true in E | apply rlt_false in E].
  - assert (P : rlt 0 (r1 + r2 - sqrt d2) = true).
    { apply rlt_true. assert (sqrt d2 < r1 + r2); [|lra]. rewrite <- (sqrt_square (r1 + r2)) by lra. apply sqrt_lt_1; [apply vlen2_nonneg|nra|exact E]. }
    rewrite P. cbn [fst]. tauto.
  - cbn [fst]. split; [easy|lra].
Qed.
Lemma world_unit eps t p r : 0 < eps -> quat_len2 (t_rot t) = 1 -> eps <= vlen (vsub p (t_pos t)) ->
  tr_point t (vscale r (vunit eps (tr_point (tr_inverse t) p))) = shifted (t_pos t) (vscale (1 / vlen (vsub p (t_pos t))) (vsub p (t_pos t))) r.
Proof.
  intros He Ht Hl.
  assert (E : tr_point (tr_inverse t) p = quat_vec (quat_inverse (t_rot t)) (vsub p (t_pos t))).
  { unfold tr_point, tr_inverse. cbn [t_pos t_rot]. rewrite <- quat_vec_vadd. f_equal. }
  rewrite E. rewrite vunit_scale by (rewrite vlen_rotated by (now rewrite quat_len2_inverse); exact Hl).
  rewrite vlen_rotated by (now rewrite quat_len2_inverse). unfold tr_point. rewrite !quat_vec_vscale.
  rewrite <- (quat_inverse_inverse (t_rot t)) at 1. rewrite quat_vec_inverse, quat_len2_inverse, Ht. rewrite shifted_eq.
  generalize (vsub p (t_pos t)) (t_pos t). intros. vring.
Qed.
Lemma sphere_sphere_contact eps r1 r2 t1 t2 c : 0 < eps <= 1 -> 0 <= r1 -> 0 <= r2 -> quat_len2 (t_rot t1) = 1 -> quat_len2 (t_rot t2) = 1 ->
  eps < vlen2 (vsub (t_pos t2) (t_pos t1)) -> In c (snd (sphere_sphere eps true r1 r2 t1 t2)) ->
  contact_ok 0 (sphere_core t1) (sphere_core t2) r1 r2 t1 t2 c.
Proof.
  intros He H1 H2 T1 T2 Hd. unfold sphere_sphere. set (v := vsub (t_pos t2) (t_pos t1)) in *.
  destruct (rlt (vlen2 v) ((r1 + r2) * (r1 + r2))) eqn:E; [|easy].
  destruct (rlt 0 (r1 + r2 - sqrt (vlen2 v))) eqn:E2; [apply rlt_true in E2|easy].
  assert (E3 : rlt eps (vlen2 v) = true) by (now apply rlt_true). rewrite E3. cbn [snd In]. intros [<-|[]].
  assert (Hl : eps < vlen v) by (unfold vlen; now apply sqrt_gt). fold (vlen v) in *.
  unfold contact_ok. cbn [c_normal c_depth c_local1 c_local2].
  assert (Ev : vsub (t_pos t1) (t_pos t2) = vneg v) by apply vsub_swap.
  rewrite vunit_scale by lra. rewrite (world_unit eps t1) by (try assumption; try (fold v); lra).
  rewrite (world_unit eps t2) by (try assumption; try (rewrite Ev, vlen_vneg); lra). fold v.
  rewrite Ev, vlen_vneg. rewrite vscale_neg.
  rewrite shifted_neg.
  apply (good_closest 0 _ _ r1 r2 _ (t_pos t1) (t_pos t2) (vlen v)); try apply convex_point; try reflexivity; try lra.
  intros p q -> ->. lra.
Qed.

(** ** Converting between the spaces of the shapes *)
Lemma unit_mul a b : quat_len2 (t_rot a) = 1 -> quat_len2 (t_rot b) = 1 -> quat_len2 (t_rot (tr_mul a b)) = 1.
Proof. intros Ha Hb. exact (C34_closed a b Ha Hb). Qed.
Lemma unit_inverse t : quat_len2 (t_rot t) = 1 -> quat_len2 (t_rot (tr_inverse t)) = 1.
Proof. intros H. unfold tr_inverse. cbn [t_rot]. now rewrite quat_len2_inverse. Qed.
Lemma pass_through ta tb x : quat_len2 (t_rot tb) = 1 -> tr_point tb (tr_point (tr_mul (tr_inverse tb) ta) x) = tr_point ta x.
Proof. intros H. rewrite C34_compose. now apply tr_inverse_point. Qed.
Lemma pass_back ta tb x : quat_len2 (t_rot ta) = 1 -> quat_len2 (t_rot tb) = 1 ->
  tr_point ta (tr_point (tr_inverse (tr_mul (tr_inverse tb) ta)) x) = tr_point tb x.
Proof.
  intros Ha Hb. rewrite <- (pass_through ta tb) by exact Hb. f_equal. apply tr_inverse_point. apply unit_mul; [now apply unit_inverse|exact Ha].
Qed.
Lemma moved_segment t a b p : moved t (on_segment a b) p <-> on_segment (tr_point t a) (tr_point t b) p.
Proof.
  unfold moved, on_segment. split.
  - intros (q & (u & Hu & ->) & ->). exists u. split; [exact Hu|]. apply tr_point_lerp.
  - intros (u & Hu & ->). exists (lerp a b u). split; [now exists u|]. symmetry. apply tr_point_lerp.
Qed.

(** ** A sphere and a capsule *)
Section SphereCapsule.
Variables (eps rs rc hh : R) (ts tc : transform).
Hypothesis Heps : 0 < eps <= 1.
Hypothesis Hrs : 0 < rs.
Hypothesis Hrc : 0 < rc.
Hypothesis Hhh : 0 < hh /\ eps <= 4 * (hh * hh).
Hypothesis Ts : quat_len2 (t_rot ts) = 1.
Hypothesis Tc : quat_len2 (t_rot tc) = 1.
(** The centre of the sphere seen from the capsule, and the closest inner point of the capsule. *)
Definition sc_centre : vec3 := t_pos (tr_mul (tr_inverse tc) ts).
Definition sc_closest : vec3 := closest_on_segment eps (V3 0 (- hh) 0) (V3 0 hh 0) sc_centre.
Lemma sc_core p : moved tc (fun q => q = sc_centre) p <-> sphere_core ts p.
Proof.
  unfold moved, sphere_core. assert (E : tr_point tc sc_centre = t_pos ts).
  { unfold sc_centre. rewrite <- tr_point_zero, pass_through by exact Tc. apply tr_point_zero. }
  split; [intros (q & -> & ->); exact E|]. intros ->. exists sc_centre. now rewrite E.
Qed.
Lemma sc_optimal : on_segment (V3 0 (- hh) 0) (V3 0 hh 0) sc_closest /\
  forall q, on_segment (V3 0 (- hh) 0) (V3 0 hh 0) q -> dist sc_centre sc_closest <= dist sc_centre q.
Proof.
  apply (C36_optimal eps (V3 0 (- hh) 0) (V3 0 hh 0) sc_centre); [lra|]. rewrite dist_vlen, vlen_sq. unfold vlen2, vsub. cbn [vx vy vz]. lra.
Qed.
Lemma sc_overlap : overlap (sphere_core ts) (capsule_core hh tc) rs rc <-> vlen2 (vsub sc_closest sc_centre) < (rs + rc) * (rs + rc).
Proof.
  destruct sc_optimal as [S O]. rewrite <- dist_lt_sq by lra. rewrite dist_sym. unfold overlap. split.
  - intros (p & q & Hp & (q0 & Hq & ->) & H). apply sc_core in Hp as (p0 & -> & ->). rewrite tr_isometry in H by exact Tc.
    specialize (O q0 Hq). lra.
  - intros H. exists (tr_point tc sc_centre), (tr_point tc sc_closest). splits.
    + apply sc_core. now exists sc_centre.
    + now exists sc_closest.
    + now rewrite tr_isometry.
Qed.
Lemma sphere_capsule_flag report first :
  fst (sphere_capsule eps report first rs ts rc hh tc) = true <-> overlap (sphere_core ts) (capsule_core hh tc) rs rc.
Proof.
  rewrite sc_overlap. unfold sphere_capsule. fold sc_centre. fold sc_closest.
  destruct (rlt (vlen2 (vsub sc_closest sc_centre)) ((rs + rc) * (rs + rc))) eqn:E; [apply rlt_true in E | apply rlt_false in E].
  - destruct report; [|cbn [fst]; tauto].
    assert (S : sqrt (vlen2 (vsub sc_closest sc_centre)) < rs + rc).
    { rewrite <- (sqrt_square (rs + rc)) by lra. apply sqrt_lt_1; [apply vlen2_nonneg|nra|exact E]. }
    destruct (rlt eps (vlen2 (vsub sc_closest sc_centre))).
    + destruct (rle (rs + rc - sqrt (vlen2 (vsub sc_closest sc_centre))) 0) eqn:E2; [apply rle_true in E2; lra|]. cbn [fst]. tauto.
    + destruct (rle (rs + rc) 0) eqn:E2; [apply rle_true in E2; lra|]. cbn [fst]. tauto.
  - cbn [fst]. split; [easy|lra].
Qed.
Lemma orthogonal_axis : orthogonal_to eps (vsub (V3 0 hh 0) (V3 0 (- hh) 0)) = V3 0 0 (-1).
Proof.
  assert (E : vsub (V3 0 hh 0) (V3 0 (- hh) 0) = V3 0 (2 * hh) 0) by (unfold vsub; cbn [vx vy vz]; f_equal; ring).
  assert (L : vlen (V3 0 (2 * hh) 0) = 2 * hh) by (rewrite vlen_axis_y; apply Rabs_pos_eq; lra).
  unfold orthogonal_to. rewrite E. rewrite vunit_scale by (rewrite L; nra). rewrite L.
  replace (vscale (1 / (2 * hh)) (V3 0 (2 * hh) 0)) with (V3 0 1 0) by (unfold vscale; cbn [vx vy vz]; f_equal; field; lra).
  cbn [vx vy]. rewrite Rabs_R0, Rabs_R1. assert (B : rlt 0 1 = true) by (apply rlt_true; lra). rewrite B.
  unfold vcross. cbn [vx vy vz]. f_equal; ring.
Qed.
Lemma sphere_capsule_contact first c :
  eps < vlen2 (vsub sc_closest sc_centre) \/ (first = true /\ sc_closest = sc_centre) ->
  In c (snd (sphere_capsule eps true first rs ts rc hh tc)) ->
  if first then contact_ok 0 (sphere_core ts) (capsule_core hh tc) rs rc ts tc c
  else contact_ok 0 (capsule_core hh tc) (sphere_core ts) rc rs tc ts c.
Proof.
  intros Hd. destruct sc_optimal as [S O]. unfold sphere_capsule. fold sc_centre. fold sc_closest.
  destruct (rlt (vlen2 (vsub sc_closest sc_centre)) ((rs + rc) * (rs + rc))) eqn:E; [|easy].
  destruct (rlt eps (vlen2 (vsub sc_closest sc_centre))) eqn:E2; [apply rlt_true in E2 | apply rlt_false in E2].
  - set (d := sqrt (vlen2 (vsub sc_closest sc_centre))). destruct (rle (rs + rc - d) 0) eqn:E3; [easy|apply rle_false in E3].
    assert (Hl : eps < d) by now apply sqrt_gt.
    set (n := vdiv (vsub sc_closest sc_centre) d).
    assert (En : n = vscale (1 / d) (vsub sc_closest sc_centre)) by apply vdiv_scale.
    assert (G : good_contact 0 (fun p => p = sc_centre) (on_segment (V3 0 (- hh) 0) (V3 0 hh 0)) rs rc n (rs + rc - d)
                  (shifted sc_centre n rs) (shifted sc_closest n (- rc))).
    { apply (good_closest 0 _ _ rs rc _ sc_centre sc_closest d n); try reflexivity; try assumption; try lra.
      - apply convex_point.
      - apply convex_segment.
      - intros p q -> Hq. now apply O. }
    apply (good_moved tc) in G; [|exact Tc].
    apply (good_ext _ _ _ (sphere_core ts) (capsule_core hh tc)) in G; [|exact sc_core|reflexivity].
    assert (W1 : tr_point ts (tr_point (tr_inverse (tr_mul (tr_inverse tc) ts)) (vadd sc_centre (vscale rs n))) = tr_point tc (shifted sc_centre n rs))
      by now apply pass_back.
    assert (W2 : vsub sc_closest (vscale rc n) = shifted sc_closest n (- rc)) by apply vsub_shift.
    cbn [snd In]. intros [<-|[]]. destruct first; unfold contact_ok; cbn [c_normal c_depth c_local1 c_local2]; rewrite W1, W2.
    + exact G.
    + now apply good_flip.
  - destruct Hd as [Hd|[-> Hd]]; [lra|]. destruct (rle (rs + rc) 0) eqn:E3; [easy|apply rle_false in E3].
    rewrite orthogonal_axis. set (n := V3 0 0 (-1)).
    assert (G : good_contact 0 (fun p => p = sc_centre) (on_segment (V3 0 (- hh) 0) (V3 0 hh 0)) rs rc n (rs + rc)
                  (shifted sc_centre n rs) (shifted sc_centre n (- rc))).
    { apply (good_plane 0 _ _ rs rc n 0 _ sc_centre sc_centre); try reflexivity; try lra.
      - unfold n. rewrite vlen_axis_z. rewrite Rabs_left; lra.
      - now rewrite <- Hd.
      - now rewrite shifted_0.
      - intros p q -> Hq. rewrite Hd in S. apply segment_capsule in S; [|lra]. apply segment_capsule in Hq; [|lra].
        unfold n, vdot, vsub. cbn [vx vy vz]. lra. }
    apply (good_moved tc) in G; [|exact Tc].
    apply (good_ext _ _ _ (sphere_core ts) (capsule_core hh tc)) in G; [|exact sc_core|reflexivity].
    assert (W1 : tr_point ts (tr_point (tr_inverse (tr_mul (tr_inverse tc) ts)) (vadd sc_centre (vscale rs n))) = tr_point tc (shifted sc_centre n rs))
      by now apply pass_back.
    assert (W2 : vsub sc_centre (vscale rc n) = shifted sc_centre n (- rc)) by apply vsub_shift.
    cbn [snd In]. intros [<-|[]]. unfold contact_ok; cbn [c_normal c_depth c_local1 c_local2]; rewrite W1, W2. exact G.
Qed.
End SphereCapsule.
