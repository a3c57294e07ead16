(** C47, C48, C80: collisions of spheres and capsules. *)
From Coq Require Import Reals Lra Psatz List Bool.
From Verif Require Import Base VecModel VecProofs GeomModel GeomSpec GeomProofs GeomProperties LinAlgProperties ShapeModel ShapeSpec ShapeProofs ShapeMeshProofs
  NarrowModel NarrowSpec NarrowProofs NarrowCapsuleProofs.
Import ListNotations.
Local Open Scope R_scope.

(** The measure of overlap used below: two shapes share an inner point of their volumes. *)
Theorem C47_overlap : forall C1 C2 r1 r2, 0 < r1 -> 0 < r2 -> (overlap C1 C2 r1 r2 <-> exists x, thick C1 r1 x /\ thick C2 r2 x).
Proof. intros. now apply overlap_thick. Qed.
Print Assumptions C47_overlap.

(** ** C47: two spheres *)
Theorem C47_detection : forall eps report r1 r2 t1 t2, 0 <= r1 -> 0 <= r2 ->
  (fst (sphere_sphere eps report r1 r2 t1 t2) = true <-> overlap (sphere_core t1) (sphere_core t2) r1 r2).
Proof. intros. now apply sphere_sphere_flag. Qed.
Print Assumptions C47_detection.
(** Exactly one contact is reported for a collision and none otherwise. *)
Theorem C47_reported : forall eps r1 r2 t1 t2,
  length (snd (sphere_sphere eps true r1 r2 t1 t2)) = if fst (sphere_sphere eps true r1 r2 t1 t2) then 1%nat else 0%nat.
Proof.
  intros. unfold sphere_sphere. destruct (rlt _ ((r1 + r2) * (r1 + r2))); [|reflexivity]. destruct (rlt 0 _); [|reflexivity]. destruct (rlt eps _); reflexivity.
Qed.
Print Assumptions C47_reported.
Theorem C47_contact_partial : forall eps r1 r2 t1 t2 c, 0 < eps <= 1 -> 0 <= r1 -> 0 <= r2 -> quat_len2 (t_rot t1) = 1 -> quat_len2 (t_rot t2) = 1 ->
  eps < dist (t_pos t2) (t_pos t1) * dist (t_pos t2) (t_pos t1) -> In c (snd (sphere_sphere eps true r1 r2 t1 t2)) ->
  contact_ok 0 (sphere_core t1) (sphere_core t2) r1 r2 t1 t2 c.
Proof. intros eps r1 r2 t1 t2 c He H1 H2 T1 T2 Hd. rewrite dist_vlen, vlen_sq in Hd. now apply sphere_sphere_contact. Qed.
Print Assumptions C47_contact_partial.

Lemma R1 a b : b <= a -> rlt a b = false. Proof. intros. now apply rlt_false. Qed.
Lemma R2 a b : a < b -> rlt a b = true. Proof. intros. now apply rlt_true. Qed.
Lemma contact_eq n d p q n' d' p' q' : n = n' -> d = d' -> p = p' -> q = q' -> Contact n d p q = Contact n' d' p' q'. Proof. now intros -> -> -> ->. Qed.
Definition here : transform := Tr (V3 0 0 0) (Q4 0 0 0 1).
Definition away (p : vec3) : transform := Tr p (Q4 0 0 0 1).
Lemma here_unit : quat_len2 (t_rot here) = 1. Proof. unfold here, quat_len2. cbn [t_rot qx qy qz qw]. ring. Qed.
Lemma here_point p : tr_point here p = p. Proof. destruct p as [x y z]. unfold here, tr_point, quat_vec, vadd. apply v3_eq; cbn [vx vy vz t_pos t_rot qx qy qz qw]; ring. Qed.

Lemma here_inverse : tr_inverse here = here.
Proof.
  unfold tr_inverse, here. cbn [t_pos t_rot].
  assert (E : quat_inverse (Q4 0 0 0 1) = Q4 0 0 0 1) by (unfold quat_inverse, quat_len2; cbn [qx qy qz qw]; f_equal; field).
  rewrite E. f_equal. unfold quat_vec, vneg. cbn [vx vy vz qx qy qz qw]. apply v3_eq; cbn [vx vy vz]; ring.
Qed.
Lemma here_mul t : tr_mul here t = t.
Proof.
  destruct t as [[x y z] [a b c d]]. unfold tr_mul, here, quat_vec, quat_mul, vadd. cbn [t_pos t_rot vx vy vz qx qy qz qw].
  f_equal; [apply v3_eq; cbn [vx vy vz]; ring|f_equal; ring].
Qed.

(** With coincident centres both contact points are on the same side, so the contact does not say how to separate the spheres. *)
Theorem C47_coincident_refuted : exists eps r1 r2 t1 t2 c, 0 < eps <= 1 /\ 0 < r1 /\ 0 < r2 /\ quat_len2 (t_rot t1) = 1 /\ quat_len2 (t_rot t2) = 1 /\
  In c (snd (sphere_sphere eps true r1 r2 t1 t2)) /\ c_depth c = 2 /\ tr_point t1 (c_local1 c) = tr_point t2 (c_local2 c) /\
  ~ contact_ok 1 (sphere_core t1) (sphere_core t2) r1 r2 t1 t2 c.
Proof.
  exists (/ 1000), 1, 1, here, here, (Contact (V3 0 1 0) 2 (V3 0 1 0) (V3 0 1 0)). splits; try lra; try apply here_unit; try reflexivity.
  - unfold sphere_sphere. replace (vlen2 (vsub (t_pos here) (t_pos here))) with 0 by (unfold here, vlen2, vsub; cbn [t_pos vx vy vz]; ring).
    rewrite sqrt_0. rewrite (R2 0 ((1 + 1) * (1 + 1))) by lra. rewrite (R2 0 (1 + 1 - 0)) by lra. rewrite (R1 (/ 1000) 0) by lra. left.
    rewrite here_inverse. apply contact_eq; [reflexivity|ring| |]; unfold here, quat_vec, vscale; apply v3_eq; cbn [vx vy vz t_pos t_rot qx qy qz qw]; ring.
  - intros [_ _ _ _ (k & E & K) _]. cbn [c_normal c_depth c_local1 c_local2] in *. rewrite !here_point in E. unfold shifted in E. cbn [vx vy vz] in E.
    injection E as E. lra.
Qed.
Print Assumptions C47_coincident_refuted.
Example C47_case : let t2 := away (V3 1 0 0) in overlap (sphere_core here) (sphere_core t2) 1 1 /\
  / 1000 < dist (t_pos t2) (t_pos here) * dist (t_pos t2) (t_pos here) /\ quat_len2 (t_rot t2) = 1.
Proof.
  assert (D : dist (V3 1 0 0) (V3 0 0 0) * dist (V3 1 0 0) (V3 0 0 0) = 1) by (rewrite dist_vlen, vlen_sq; unfold vlen2, vsub; cbn [vx vy vz]; ring).
  cbn [away here t_pos t_rot]. splits.
  - exists (V3 0 0 0), (V3 1 0 0). splits; try reflexivity. rewrite dist_sym. apply dist_lt_sq; [lra|]. rewrite <- vlen_sq, <- dist_vlen, D. lra.
  - rewrite D. lra.
  - unfold quat_len2. cbn [qx qy qz qw]. ring.
Qed.

(** ** C48: a sphere and a capsule *)
Theorem C48_detection_partial : forall eps report first rs ts rc hh tc, 0 < eps <= 1 -> 0 < rs -> 0 < rc -> 0 < hh -> eps <= 4 * (hh * hh) ->
  quat_len2 (t_rot ts) = 1 -> quat_len2 (t_rot tc) = 1 ->
  (fst (sphere_capsule eps report first rs ts rc hh tc) = true <-> overlap (sphere_core ts) (capsule_core hh tc) rs rc).
Proof. intros. now apply sphere_capsule_flag. Qed.
Print Assumptions C48_detection_partial.
Theorem C48_reported : forall eps first rs ts rc hh tc,
  length (snd (sphere_capsule eps true first rs ts rc hh tc)) = if fst (sphere_capsule eps true first rs ts rc hh tc) then 1%nat else 0%nat.
Proof.
  intros. unfold sphere_capsule. destruct (rlt _ ((rs + rc) * (rs + rc))); [|reflexivity].
  destruct (rlt eps _); [destruct (rle (rs + rc - _) 0)|destruct (rle (rs + rc) 0)]; reflexivity.
Qed.
Print Assumptions C48_reported.
(** The contact is right when the centre of the sphere is clearly off the inner segment, or exactly on it and the sphere comes first. *)
Theorem C48_contact_partial : forall eps first rs ts rc hh tc c, 0 < eps <= 1 -> 0 < rs -> 0 < rc -> 0 < hh -> eps <= 4 * (hh * hh) ->
  quat_len2 (t_rot ts) = 1 -> quat_len2 (t_rot tc) = 1 ->
  (forall q, capsule_core hh tc q -> eps < dist (t_pos ts) q * dist (t_pos ts) q) \/ (first = true /\ capsule_core hh tc (t_pos ts)) ->
  In c (snd (sphere_capsule eps true first rs ts rc hh tc)) ->
  if first then contact_ok 0 (sphere_core ts) (capsule_core hh tc) rs rc ts tc c
  else contact_ok 0 (capsule_core hh tc) (sphere_core ts) rc rs tc ts c.
Proof.
  intros eps first rs ts rc hh tc c He H1 H2 Hh Hl T1 T2 D. apply sphere_capsule_contact; auto.
  destruct (sc_optimal eps hh ts tc ltac:(lra) ltac:(lra)) as [S O].
  assert (P : tr_point tc (sc_centre ts tc) = t_pos ts).
  { unfold sc_centre. rewrite <- tr_point_zero, pass_through by exact T2. apply tr_point_zero. }
  destruct D as [D|[-> D]].
  - left. specialize (D (tr_point tc (sc_closest eps hh ts tc)) ltac:(now exists (sc_closest eps hh ts tc))).
    rewrite <- P, tr_isometry, dist_sym, dist_vlen, vlen_sq in D by exact T2. exact D.
  - right. split; [reflexivity|]. destruct D as (q & Hq & E). rewrite <- P in E. apply tr_point_inj in E; [|exact T2]. subst q.
    specialize (O _ Hq). rewrite !dist_vlen in O. replace (vsub (sc_centre ts tc) (sc_centre ts tc)) with vzero in O by (generalize (sc_centre ts tc); unfold vzero; intros; vring).
    rewrite vlen_vzero in O. assert (Z : vsub (sc_centre ts tc) (sc_closest eps hh ts tc) = vzero).
    { apply vlen_zero. pose proof (sqrt_pos (vlen2 (vsub (sc_centre ts tc) (sc_closest eps hh ts tc)))). unfold vlen in *. lra. }
    generalize dependent (sc_centre ts tc). intros p _ _ _ Z. generalize dependent (sc_closest eps hh ts tc). intros q _ Z.
    replace p with (vadd q (vsub p q)) by vring. rewrite Z. unfold vzero. vring.
Qed.
Print Assumptions C48_contact_partial.
Example C48_case : (forall q, capsule_core 1 here q -> / 1000 < dist (t_pos (away (V3 1 0 0))) q * dist (t_pos (away (V3 1 0 0))) q) /\
  overlap (sphere_core (away (V3 1 0 0))) (capsule_core 1 here) 1 1 /\ capsule_core 1 here (t_pos here).
Proof.
  cbn [away t_pos]. assert (O : capsule_core 1 here (V3 0 0 0)).
  { exists (V3 0 0 0). split; [apply segment_capsule; cbn [vx vy vz]; lra|now rewrite here_point]. }
  splits; [| |exact O].
  - intros q (q0 & Hq & ->). rewrite here_point. apply segment_capsule in Hq as (E1 & E2 & E3); [|lra].
    rewrite dist_vlen, vlen_sq. unfold vlen2, vsub. cbn [vx vy vz]. rewrite E1, E2. nra.
  - exists (V3 1 0 0), (V3 0 0 0). splits; [reflexivity|exact O|]. apply dist_lt_sq; [lra|]. unfold vlen2, vsub. cbn [vx vy vz]. lra.
Qed.
(** When the sphere is the second shape and its centre lies on the inner segment, the normal points the wrong way. *)
Theorem C48_second_refuted : exists eps rs ts rc hh tc c, 0 < eps <= 1 /\ 0 < rs /\ 0 < rc /\ 0 < hh /\ eps <= 4 * (hh * hh) /\
  quat_len2 (t_rot ts) = 1 /\ quat_len2 (t_rot tc) = 1 /\ In c (snd (sphere_capsule eps true false rs ts rc hh tc)) /\
  ~ contact_ok 3 (capsule_core hh tc) (sphere_core ts) rc rs tc ts c.
Proof.
  exists (/ 1000), 1, here, 1, 1, here, (Contact (V3 0 0 (-1)) 2 (V3 0 0 1) (V3 0 0 (-1))). splits; try lra; try apply here_unit.
  - unfold sphere_capsule.
    assert (E : tr_mul (tr_inverse here) here = here) by (rewrite here_inverse; apply here_mul).
    rewrite E. rewrite orthogonal_axis by lra.
    assert (Q : closest_on_segment (/ 1000) (V3 0 (- (1)) 0) (V3 0 1 0) (t_pos here) = V3 0 0 0).
    { unfold closest_on_segment. replace (vlen2 (vsub (V3 0 1 0) (V3 0 (- (1)) 0))) with 4 by (unfold vlen2, vsub; cbn [vx vy vz]; ring).
      rewrite (R1 4 (/ 1000)) by lra. replace (vdot (vsub (t_pos here) (V3 0 (- (1)) 0)) (vsub (V3 0 1 0) (V3 0 (- (1)) 0)) / 4) with (/ 2) by (unfold here, vdot, vsub; cbn [t_pos vx vy vz]; field).
      rewrite (R1 (/ 2) 0) by lra. rewrite (R1 1 (/ 2)) by lra. unfold vadd, vscale, vsub. cbn [vx vy vz]. apply v3_eq; cbn [vx vy vz t_pos t_rot qx qy qz qw]; field. }
    rewrite Q. replace (vlen2 (vsub (V3 0 0 0) (t_pos here))) with 0 by (unfold here, vlen2, vsub; cbn [t_pos vx vy vz]; ring).
    rewrite (R2 0 ((1 + 1) * (1 + 1))) by lra. rewrite (R1 (/ 1000) 0) by lra.
    destruct (rle (1 + 1) 0) eqn:F; [apply rle_true in F; lra|]. left.
    rewrite here_inverse, here_point. apply contact_eq; [|ring| |]; unfold here, quat_vec, vadd, vsub, vscale; apply v3_eq; cbn [vx vy vz t_pos t_rot qx qy qz qw]; ring.
  - intros [_ _ _ _ (k & E & K) _]. cbn [c_normal c_depth c_local1 c_local2] in *. rewrite !here_point in E. unfold shifted in E. cbn [vx vy vz] in E.
    injection E as E. lra.
Qed.
Print Assumptions C48_second_refuted.

(** ** C80: two capsules *)
(** Detection is exact when the inner segments are parallel or clearly not parallel. *)
Theorem C80_detection_partial : forall eps report r1 h1 tr1 r2 h2 tr2, 0 < eps <= / 1000 -> 0 < r1 + r2 -> 0 < h1 -> eps < 4 * (h1 * h1) -> 0 < h2 -> eps < 4 * (h2 * h2) ->
  quat_len2 (t_rot tr1) = 1 -> quat_len2 (t_rot tr2) = 1 ->
  vcross (capsule_axis h1 tr1) (capsule_axis h2 tr2) = vzero \/ / 100000 <= vlen2 (vcross (capsule_axis h1 tr1) (capsule_axis h2 tr2)) ->
  (fst (capsule_capsule eps report r1 h1 tr1 r2 h2 tr2) = true <-> overlap (capsule_core h1 tr1) (capsule_core h2 tr2) r1 r2).
Proof. intros. now apply capsule_flag. Qed.
Print Assumptions C80_detection_partial.
Lemma closest_reported eps par r1 r2 c tr a1 b1 a2 b2 :
  let '(hit, l) := capsule_closest eps true par r1 r2 c tr a1 b1 a2 b2 in if hit then (length l = 1 \/ length l = 2)%nat else l = [].
Proof.
  unfold capsule_closest. destruct (closest_segments eps a1 b1 a2 b2) as [q1 q2]. destruct (rlt (vlen2 (vsub q2 q1)) _); [|reflexivity]. left.
  destruct (rlt eps (vlen2 (vsub q2 q1))); [reflexivity|]. destruct par; reflexivity.
Qed.
Lemma parallel_reported eps r1 r2 c tr a1 b1 a2 b2 perp t1 t2 : length (capsule_parallel eps r1 r2 c tr a1 b1 a2 b2 perp t1 t2) = 2%nat.
Proof. unfold capsule_parallel. cbv zeta. destruct (rlt eps perp); reflexivity. Qed.
(** One or two contacts are reported for a collision and none otherwise. *)
Theorem C80_reported : forall eps r1 h1 tr1 r2 h2 tr2,
  let '(hit, l) := capsule_capsule eps true r1 h1 tr1 r2 h2 tr2 in if hit then (length l = 1 \/ length l = 2)%nat else l = [].
Proof.
  intros. unfold capsule_capsule. cbv zeta. destruct (are_parallel _ _); [|apply closest_reported].
  destruct (rle (r1 + r2) _); [reflexivity|]. destruct (_ && _)%bool; [right; apply parallel_reported|apply closest_reported].
Qed.
Print Assumptions C80_reported.
Theorem C80_contact_partial : forall eps r1 h1 tr1 r2 h2 tr2 c, 0 < eps <= / 1000 -> 0 < r1 + r2 -> 0 < h1 -> eps < 4 * (h1 * h1) -> 0 < h2 -> eps < 4 * (h2 * h2) ->
  quat_len2 (t_rot tr1) = 1 -> quat_len2 (t_rot tr2) = 1 ->
  vcross (capsule_axis h1 tr1) (capsule_axis h2 tr2) = vzero \/ / 100000 <= vlen2 (vcross (capsule_axis h1 tr1) (capsule_axis h2 tr2)) ->
  (* the inner segments are clearly apart, or they meet and are crossed or point in the same direction *)
  (forall p q, capsule_core h1 tr1 p -> capsule_core h2 tr2 q -> eps < dist p q * dist p q) \/
  ((exists x, capsule_core h1 tr1 x /\ capsule_core h2 tr2 x) /\
   (/ 100000 <= vlen2 (vcross (capsule_axis h1 tr1) (capsule_axis h2 tr2)) \/ / 10000 < vdot (capsule_axis h1 tr1) (capsule_axis h2 tr2))) ->
  In c (snd (capsule_capsule eps true r1 h1 tr1 r2 h2 tr2)) ->
  contact_ok eps (capsule_core h1 tr1) (capsule_core h2 tr2) r1 r2 tr1 tr2 c.
Proof. intros. now apply capsule_contact. Qed.
Print Assumptions C80_contact_partial.
Example C80_case : let tr2 := Tr (V3 1 0 0) (Q4 0 0 (3 / 5) (4 / 5)) in
  quat_len2 (t_rot tr2) = 1 /\ / 100000 <= vlen2 (vcross (capsule_axis 1 here) (capsule_axis 1 tr2)) /\
  (exists p q, capsule_core 1 here p /\ capsule_core 1 tr2 q /\ dist p q < 1 + 1) /\
  vcross (capsule_axis 1 here) (capsule_axis 1 (away (V3 1 0 0))) = vzero.
Proof.
  cbn [away]. splits.
  - unfold quat_len2. cbn [t_rot qx qy qz qw]. lra.
  - unfold capsule_axis, tr_point, quat_vec, vlen2, vcross, vsub, vadd, here. cbn [vx vy vz t_pos t_rot qx qy qz qw]. lra.
  - exists (V3 0 0 0), (V3 1 0 0). splits.
    + exists (V3 0 0 0). split; [apply segment_capsule; cbn [vx vy vz]; lra|now rewrite here_point].
    + exists (V3 0 0 0). split; [apply segment_capsule; cbn [vx vy vz]; lra|]. unfold tr_point, quat_vec, vadd. apply v3_eq; cbn [vx vy vz t_pos t_rot qx qy qz qw]; ring.
    + apply dist_lt_sq; [lra|]. unfold vlen2, vsub. cbn [vx vy vz]. lra.
  - unfold capsule_axis, tr_point, quat_vec, vcross, vsub, vadd, vzero, here, away. apply v3_eq; cbn [vx vy vz t_pos t_rot qx qy qz qw]; ring.
Qed.
(** Two small capsules that cross each other in their centres are taken for parallel ones and the collision is missed. *)
Theorem C80_small_refuted : forall eps, 0 < eps <= / 1000 -> exists r1 h1 tr1 r2 h2 tr2, 0 < r1 /\ 0 < r2 /\ eps < 4 * (h1 * h1) /\ eps < 4 * (h2 * h2) /\
  quat_len2 (t_rot tr1) = 1 /\ quat_len2 (t_rot tr2) = 1 /\ t_pos tr1 = t_pos tr2 /\
  overlap (capsule_core h1 tr1) (capsule_core h2 tr2) r1 r2 /\
  forall report, capsule_capsule eps report r1 h1 tr1 r2 h2 tr2 = (false, []).
Proof.
  intros eps He. set (tr1 := Tr (V3 0 0 0) (Q4 0 0 (3 / 5) (4 / 5))). exists (/ 100), (/ 40), tr1, (/ 100), (/ 40), here.
  assert (U : quat_len2 (t_rot tr1) = 1) by (unfold tr1, quat_len2; cbn [t_rot qx qy qz qw]; lra).
  splits; try lra; try reflexivity; try exact U; try apply here_unit.
  - exists (V3 0 0 0), (V3 0 0 0). splits.
    + exists (V3 0 0 0). split; [apply segment_capsule; cbn [vx vy vz]; lra|]. unfold tr1, tr_point, quat_vec, vadd. apply v3_eq; cbn [vx vy vz t_pos t_rot qx qy qz qw]; ring.
    + exists (V3 0 0 0). split; [apply segment_capsule; cbn [vx vy vz]; lra|now rewrite here_point].
    + apply dist_lt_sq; [lra|]. unfold vlen2, vsub. cbn [vx vy vz]. lra.
  - intros report. unfold capsule_capsule.
    assert (Ea : tr_point (tr_mul (tr_inverse here) tr1) (V3 0 (- / 40) 0) = V3 (24 / 1000) (- 7 / 1000) 0)
      by (rewrite here_inverse, here_mul; unfold tr1, tr_point, quat_vec, vadd; apply v3_eq; cbn [vx vy vz t_pos t_rot qx qy qz qw]; field).
    assert (Eb : tr_point (tr_mul (tr_inverse here) tr1) (V3 0 (/ 40) 0) = V3 (- 24 / 1000) (7 / 1000) 0)
      by (rewrite here_inverse, here_mul; unfold tr1, tr_point, quat_vec, vadd; apply v3_eq; cbn [vx vy vz t_pos t_rot qx qy qz qw]; field).
    rewrite Ea, Eb. clear Ea Eb U.
    assert (P : are_parallel (vsub (V3 (- 24 / 1000) (7 / 1000) 0) (V3 (24 / 1000) (- 7 / 1000) 0)) (vsub (V3 0 (/ 40) 0) (V3 0 (- / 40) 0)) = true).
    { unfold are_parallel. apply R2. unfold vlen2, vcross, vsub. cbn [vx vy vz]. lra. }
    rewrite P. unfold point_to_line.
    assert (L : vlen (vsub (V3 (- 24 / 1000) (7 / 1000) 0) (V3 (24 / 1000) (- 7 / 1000) 0)) = / 20).
    { unfold vlen. rewrite <- (sqrt_square (/ 20)) by lra. f_equal. unfold vlen2, vsub. cbn [vx vy vz]. lra. }
    rewrite L. rewrite (R1 (/ 20) eps) by lra.
    assert (K : vlen (vcross (vsub (V3 0 (- / 40) 0) (V3 (24 / 1000) (- 7 / 1000) 0)) (vsub (V3 0 (- / 40) 0) (V3 (- 24 / 1000) (7 / 1000) 0))) = 12 / 10000).
    { unfold vlen. rewrite <- (sqrt_square (12 / 10000)) by lra. f_equal. unfold vlen2, vcross, vsub. cbn [vx vy vz]. lra. }
    rewrite K. destruct (rle (/ 100 + / 100) (12 / 10000 / / 20)) eqn:F; [reflexivity|]. apply rle_false in F. exfalso. lra.
Qed.
Print Assumptions C80_small_refuted.
(** Capsules on one line that point in opposite directions and overlap: the normal is along the line and the depth is the sum of the
    radii, which does not separate them. *)
Theorem C80_opposite_refuted : forall eps, 0 < eps <= / 1000 -> exists r1 h1 tr1 r2 h2 tr2 c, 0 < r1 /\ 0 < r2 /\ eps < 4 * (h1 * h1) /\ eps < 4 * (h2 * h2) /\
  quat_len2 (t_rot tr1) = 1 /\ quat_len2 (t_rot tr2) = 1 /\ vcross (capsule_axis h1 tr1) (capsule_axis h2 tr2) = vzero /\
  In c (snd (capsule_capsule eps true r1 h1 tr1 r2 h2 tr2)) /\
  forall tol, ~ contact_ok tol (capsule_core h1 tr1) (capsule_core h2 tr2) r1 r2 tr1 tr2 c.
Proof.
  intros eps He. set (tr2 := Tr (V3 0 (/ 2) 0) (Q4 1 0 0 0)).
  exists 1, 1, here, 1, 1, tr2, (Contact (V3 0 1 0) 2 (V3 0 (/ 2) 0) (V3 0 2 0)).
  assert (U : quat_len2 (t_rot tr2) = 1) by (unfold tr2, quat_len2; cbn [t_rot qx qy qz qw]; lra).
  splits; try lra; try exact U; try apply here_unit.
  - unfold capsule_axis, tr_point, quat_vec, vcross, vsub, vadd, vzero, tr2, here. apply v3_eq; cbn [vx vy vz t_pos t_rot qx qy qz qw]; ring.
  - unfold capsule_capsule.
    assert (Ei : tr_inverse tr2 = Tr (V3 0 (/ 2) 0) (Q4 (-1) 0 0 0)).
    { unfold tr_inverse, tr2. cbn [t_pos t_rot].
      assert (E : quat_inverse (Q4 1 0 0 0) = Q4 (-1) 0 0 0) by (unfold quat_inverse, quat_len2; cbn [qx qy qz qw]; f_equal; field).
      rewrite E. f_equal. unfold quat_vec, vneg. apply v3_eq; cbn [vx vy vz t_pos t_rot qx qy qz qw]; field. }
    assert (Ec : tr_mul (tr_inverse tr2) here = Tr (V3 0 (/ 2) 0) (Q4 (-1) 0 0 0)).
    { rewrite Ei. unfold tr_mul, here, quat_vec, quat_mul, vadd. cbn [vx vy vz t_pos t_rot qx qy qz qw]. f_equal; [apply v3_eq; cbn [vx vy vz]; ring|f_equal; ring]. }
    assert (Ej : tr_inverse (Tr (V3 0 (/ 2) 0) (Q4 (-1) 0 0 0)) = tr2).
    { unfold tr_inverse, tr2. cbn [t_pos t_rot].
      assert (E : quat_inverse (Q4 (-1) 0 0 0) = Q4 1 0 0 0) by (unfold quat_inverse, quat_len2; cbn [qx qy qz qw]; f_equal; field).
      rewrite E. f_equal. unfold quat_vec, vneg. apply v3_eq; cbn [vx vy vz t_pos t_rot qx qy qz qw]; field. }
    rewrite Ec.
    assert (Ea : tr_point (Tr (V3 0 (/ 2) 0) (Q4 (-1) 0 0 0)) (V3 0 (- (1)) 0) = V3 0 (3 / 2) 0) by (unfold tr_point, quat_vec, vadd; apply v3_eq; cbn [vx vy vz t_pos t_rot qx qy qz qw]; field).
    assert (Eb : tr_point (Tr (V3 0 (/ 2) 0) (Q4 (-1) 0 0 0)) (V3 0 1 0) = V3 0 (- / 2) 0) by (unfold tr_point, quat_vec, vadd; apply v3_eq; cbn [vx vy vz t_pos t_rot qx qy qz qw]; field).
    rewrite Ea, Eb. clear Ec Ei Ea Eb U.
    assert (S1 : vsub (V3 0 (- / 2) 0) (V3 0 (3 / 2) 0) = V3 0 (-2) 0) by (unfold vsub; apply v3_eq; cbn [vx vy vz t_pos t_rot qx qy qz qw]; field).
    assert (S2 : vsub (V3 0 1 0) (V3 0 (- (1)) 0) = V3 0 2 0) by (unfold vsub; apply v3_eq; cbn [vx vy vz t_pos t_rot qx qy qz qw]; field).
    rewrite S1, S2.
    assert (P : are_parallel (V3 0 (-2) 0) (V3 0 2 0) = true) by (apply R2; unfold vlen2, vcross; cbn [vx vy vz]; lra).
    rewrite P.
    assert (K : point_to_line eps (V3 0 (3 / 2) 0) (V3 0 (- / 2) 0) (V3 0 (- (1)) 0) = 0).
    { unfold point_to_line. rewrite S1. replace (vlen (V3 0 (-2) 0)) with 2 by (rewrite vlen_axis_y, Rabs_left; lra). rewrite (R1 2 eps) by lra.
      match goal with |- vlen ?v / _ = _ => replace v with vzero by (unfold vcross, vsub, vzero; apply v3_eq; cbn [vx vy vz t_pos t_rot qx qy qz qw]; field) end. rewrite vlen_vzero. lra. }
    rewrite K. destruct (rle (1 + 1) 0) eqn:F; [apply rle_true in F; lra|]. clear F.
    assert (T1 : plane_segment (V3 0 1 0) (V3 0 (- (1)) 0) (vdot (V3 0 (-2) 0) (V3 0 (3 / 2) 0)) (V3 0 (-2) 0) = - / 4).
    { unfold plane_segment. replace (vdot (V3 0 (-2) 0) (vsub (V3 0 (- (1)) 0) (V3 0 1 0))) with 4 by (unfold vdot, vsub; cbn [vx vy vz]; ring).
      rewrite Rabs_pos_eq by lra. rewrite (R2 (/ 10000) 4) by lra. unfold vdot. cbn [vx vy vz]. field. }
    rewrite T1. rewrite (R1 0 (- / 4)) by lra. cbn [andb]. unfold capsule_closest.
    assert (C : closest_segments eps (V3 0 (3 / 2) 0) (V3 0 (- / 2) 0) (V3 0 (- (1)) 0) (V3 0 1 0) = (V3 0 1 0, V3 0 1 0)).
    { unfold closest_segments, segments_params. rewrite S1, S2.
      replace (vlen2 (V3 0 (-2) 0)) with 4 by (unfold vlen2; cbn [vx vy vz]; ring). replace (vlen2 (V3 0 2 0)) with 4 by (unfold vlen2; cbn [vx vy vz]; ring).
      assert (F : rle 4 eps = false) by (apply rle_false; lra). rewrite F. cbn [andb].
      replace (vdot (V3 0 (-2) 0) (V3 0 2 0)) with (-4) by (unfold vdot; cbn [vx vy vz]; ring).
      assert (G : req (4 * 4 - -4 * -4) 0 = true) by (apply req_true; ring). rewrite G.
      replace (vdot (V3 0 2 0) (vsub (V3 0 (3 / 2) 0) (V3 0 (- (1)) 0))) with 5 by (unfold vdot, vsub; cbn [vx vy vz]; field).
      replace (vdot (V3 0 (-2) 0) (vsub (V3 0 (3 / 2) 0) (V3 0 (- (1)) 0))) with (-5) by (unfold vdot, vsub; cbn [vx vy vz]; field).
      rewrite (R1 ((-4 * 0 + 5) / 4) 0) by lra. rewrite (R2 1 ((-4 * 0 + 5) / 4)) by lra.
      assert (M : clampR ((-4 - -5) / 4) 0 1 = / 4) by (unfold clampR; rewrite Rmax_left, Rmin_left by (try rewrite Rmax_left by lra; lra); field). rewrite M.
      f_equal; unfold vadd, vscale; apply v3_eq; cbn [vx vy vz t_pos t_rot qx qy qz qw]; field. }
    rewrite C. replace (vlen2 (vsub (V3 0 1 0) (V3 0 1 0))) with 0 by (unfold vlen2, vsub; cbn [vx vy vz]; ring).
    rewrite (R2 0 ((1 + 1) * (1 + 1))) by lra. rewrite (R1 eps 0) by lra.
    replace (vlen2 (vsub (V3 0 (3 / 2) 0) (V3 0 1 0))) with (/ 4) by (unfold vlen2, vsub; cbn [vx vy vz]; field). rewrite (R2 eps (/ 4)) by lra.
    assert (N : vnormalize eps (vsub (V3 0 1 0) (V3 0 (3 / 2) 0)) = V3 0 (-1) 0).
    { assert (E : vsub (V3 0 1 0) (V3 0 (3 / 2) 0) = V3 0 (- / 2) 0) by (unfold vsub; apply v3_eq; cbn [vx vy vz t_pos t_rot qx qy qz qw]; field). rewrite E.
      assert (L : vlen (V3 0 (- / 2) 0) = / 2) by (rewrite vlen_axis_y, Rabs_left; lra).
      rewrite normalize_long by (rewrite L; lra). rewrite L. unfold vscale. apply v3_eq; cbn [vx vy vz t_pos t_rot qx qy qz qw]; field. }
    rewrite N, Ej. left. apply contact_eq; [|ring| |]; unfold tr2, tr_point, quat_vec, vadd, vsub, vscale; apply v3_eq; cbn [vx vy vz t_pos t_rot qx qy qz qw]; field.
  - intros tol [_ _ _ _ _ G]. cbn [c_normal c_depth] in G.
    assert (A : capsule_core 1 here (V3 0 1 0)) by (exists (V3 0 1 0); split; [apply segment_capsule; cbn [vx vy vz]; lra|now rewrite here_point]).
    assert (B : capsule_core 1 tr2 (V3 0 (- / 2) 0)).
    { exists (V3 0 1 0). split; [apply segment_capsule; cbn [vx vy vz]; lra|]. unfold tr2, tr_point, quat_vec, vadd. apply v3_eq; cbn [vx vy vz t_pos t_rot qx qy qz qw]; field. }
    specialize (G _ _ A B). apply Rle_not_lt in G. apply G. apply dist_lt_sq; [lra|]. unfold shifted, vlen2, vsub. cbn [vx vy vz]. lra.
Qed.
Print Assumptions C80_opposite_refuted.
