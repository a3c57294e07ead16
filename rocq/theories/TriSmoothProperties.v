(** C139, C140: contacts with a triangle of a mesh. *)
From Coq Require Import Reals Lra Psatz List Bool Arith Lia.
From Verif Require Import Base VecModel VecProofs GeomModel GeomSpec GeomProofs GeomProperties LinAlgProperties HalfEdgeModel ShapeModel ShapeSpec ShapeProofs GjkSpec NarrowModel NarrowSpec NarrowProofs SatModel SatSpec SatProofs SatBoxProofs SatCaseProofs SatProperties TriSmoothModel TriSmoothProofs.
Import ListNotations.
Local Open Scope R_scope.

(** The triangle is not degenerate. *)
Definition has_area (eps : R) (a b c : vec3) : Prop := eps <= vlen (triangle_normal a b c).
(** The two points of a contact are apart by its depth along its normal. *)
Definition consistent (t1 t2 : transform) (c : contact) : Prop := tr_point t1 (c_local1 c) = shifted (tr_point t2 (c_local2 c)) (c_normal c) (c_depth c).
Definition either_way (m n : vec3) : Prop := m = n \/ m = vneg n.
(** The local point of a contact on the triangle, which is the first or the second shape. *)
Definition on_tri (first : bool) (c : contact) : vec3 := if first then c_local1 c else c_local2 c.
Definition on_other (first : bool) (c : contact) : vec3 := if first then c_local2 c else c_local1 c.
(** The contact [c'] is [c] after smoothing. *)
Record smoothed (first : bool) (t1 t2 : transform) (c c' : contact) : Prop := {
  sm_depth : c_depth c' = c_depth c;
  sm_point : on_tri first c' = on_tri first c;
  sm_unit : vlen (c_normal c') = 1;
  sm_side : 0 <= vdot (c_normal c') (c_normal c);
  sm_consistent : consistent t1 t2 c' }.

(** ** A triangle is a polyhedron as the separating axis test expects it *)
Theorem C139_triangle : forall eps big a b c na nb nc, 0 < eps -> has_area eps a b c ->
  exists p, tri_solid (new_triangle eps a b c na nb nc) = Ok p /\ solid_ok big p /\ so_verts p = [a; b; c] /\ so_triangle p = true.
Proof.
  intros eps big a b c na nb nc He A. exists (the_tri (new_triangle eps a b c na nb nc)). split; [apply tri_solid_eq|]. split; [apply tri_ok; now apply new_good|]. split; reflexivity.
Qed.
Print Assumptions C139_triangle.

(** ** Every contact is consistent after smoothing *)
Theorem C139_contact : forall eps a b c na nb nc (first : bool) t1 t2 k, 0 < eps <= 1 -> has_area eps a b c -> quat_len2 (t_rot t1) = 1 -> quat_len2 (t_rot t2) = 1 ->
  smoothed first t1 t2 k (smooth_contact eps (new_triangle eps a b c na nb nc) first t1 t2 k).
Proof.
  intros eps a b c na nb nc first t1 t2 k He A Q1 Q2. set (s := new_triangle eps a b c na nb nc). assert (G : tri_good s) by (apply new_good; [lra|exact A]).
  unfold smooth_contact. destruct (smooth_mesh_contact eps s (if first then c_local1 k else c_local2 k) (if first then t1 else t2) (if first then tr_inverse t2 else tr_inverse t1) (c_depth k) first (c_normal k)) as (q, m) eqn:E.
  apply smooth_mesh_ok in E; [|exact He|exact G|destruct first; assumption|destruct first; now apply unit_inverse].
  destruct E as (U & S & _ & E). constructor; cbn [c_depth c_normal c_local1 c_local2 on_tri]; auto; try (destruct first; reflexivity).
  unfold consistent. cbn [c_depth c_normal c_local1 c_local2]. destruct first; cbn [on_tri] in *; rewrite E.
  - rewrite tr_inverse_point by assumption. unfold shifted. generalize (tr_point t1 (c_local1 k)). clear. intros v. destruct m, v. vring.
  - rewrite tr_inverse_point by assumption. unfold shifted. generalize (tr_point t2 (c_local2 k)). clear. intros v. destruct m, v. vring.
Qed.
Print Assumptions C139_contact.

(** The new normal: the normal of the triangle if the point is in the middle of the triangle, and the normal interpolated between the vertices if it is
    on the border, unless that is almost zero. *)
Theorem C139_normal : forall eps a b c na nb nc (first : bool) t1 t2 k u v w, 0 < eps <= 1 -> has_area eps a b c -> quat_len2 (t_rot t1) = 1 -> quat_len2 (t_rot t2) = 1 ->
  on_tri first k = combine3 u v w a b c -> u + v + w = 1 ->
  let n := c_normal (smooth_contact eps (new_triangle eps a b c na nb nc) first t1 t2 k) in
  let world := quat_vec (t_rot (if first then t1 else t2)) in
  let flat := world (vscale (/ vlen (triangle_normal a b c)) (triangle_normal a b c)) in
  let mixed := combine3 u v w na nb nc in
  (eps < u -> eps < v -> eps < w -> either_way n flat) /\
  (u <= eps \/ v <= eps \/ w <= eps -> vlen2 mixed < eps -> either_way n flat) /\
  (u <= eps \/ v <= eps \/ w <= eps -> eps <= vlen2 mixed -> either_way n (world (vscale (/ vlen mixed) mixed))).
Proof.
  intros eps a b c na nb nc first t1 t2 k u v w He A Q1 Q2 Ep Sm n world flat mixed. set (s := new_triangle eps a b c na nb nc) in *. assert (G : tri_good s) by (apply new_good; [lra|exact A]).
  assert (N : either_way n (world (smooth_normal eps s (on_tri first k)))).
  { unfold n, smooth_contact. destruct (smooth_mesh_contact eps s (if first then c_local1 k else c_local2 k) (if first then t1 else t2) (if first then tr_inverse t2 else tr_inverse t1) (c_depth k) first (c_normal k)) as (q, m) eqn:E.
    apply smooth_mesh_ok in E; [|exact He|exact G|destruct first; assumption|destruct first; now apply unit_inverse]. exact (proj1 (proj2 (proj2 E))). }
  assert (F : ts_n s = vscale (/ vlen (triangle_normal a b c)) (triangle_normal a b c)).
  { unfold s, new_triangle. cbn [ts_n]. fold (triangle_normal a b c). unfold vnormalize. assert (X : rlt (vlen (triangle_normal a b c)) eps = false) by (apply rlt_false; exact A). rewrite X. unfold vscale. apply v3_eq; cbn [vx vy vz]; unfold Rdiv; ring. }
  assert (B : barycentric (ts_a s) (ts_b s) (ts_c s) (on_tri first k) = (u, v, w)).
  { rewrite Ep. unfold s, new_triangle. cbn [ts_a ts_b ts_c]. apply C40_unique; [unfold has_area in A; lra|exact Sm]. }
  unfold smooth_normal in N. rewrite B in N.
  assert (Mx : vadd (vadd (vscale u (ts_na s)) (vscale v (ts_nb s))) (vscale w (ts_nc s)) = mixed) by (unfold mixed, s, new_triangle, combine3, vadd, vscale; cbn [ts_na ts_nb ts_nc vx vy vz]; reflexivity).
  rewrite Mx in N. cbv zeta in N. clear Mx.
  split; [|split].
  - intros Hu Hv Hw. assert (X : rlt eps u && rlt eps v && rlt eps w = true) by (apply rlt_true in Hu, Hv, Hw; now rewrite Hu, Hv, Hw). rewrite X, F in N. exact N.
  - intros Hm L. assert (X : rlt eps u && rlt eps v && rlt eps w = false) by (destruct Hm as [H|[H|H]]; apply rlt_false in H; rewrite H, ?andb_false_r; reflexivity). rewrite X in N.
    apply rlt_true in L. rewrite L, F in N. exact N.
  - intros Hm L. assert (X : rlt eps u && rlt eps v && rlt eps w = false) by (destruct Hm as [H|[H|H]]; apply rlt_false in H; rewrite H, ?andb_false_r; reflexivity). rewrite X in N.
    assert (Y : rlt (vlen2 mixed) eps = false) by (apply rlt_false; exact L). rewrite Y in N.
    replace (vscale (/ vlen mixed) mixed) with (vunit eps mixed); [exact N|]. replace (/ vlen mixed) with (1 / vlen mixed) by (unfold Rdiv; ring). apply vunit_scale. unfold vlen. rewrite <- (sqrt_square eps) by lra. apply sqrt_le_1_alt. nra.
Qed.
Print Assumptions C139_normal.

(** The point on the other shape moves by at most [sqrt 2] times the depth. *)
Theorem C139_moved : forall (first : bool) t1 t2 c c', quat_len2 (t_rot t1) = 1 -> quat_len2 (t_rot t2) = 1 -> vlen (c_normal c) = 1 -> consistent t1 t2 c -> smoothed first t1 t2 c c' ->
  let t := if first then t2 else t1 in dist (tr_point t (on_other first c)) (tr_point t (on_other first c')) <= sqrt 2 * Rabs (c_depth c).
Proof.
  intros first t1 t2 c c' Q1 Q2 U C [D P U' S C']. unfold consistent in *. rewrite D in C'.
  assert (K : forall x y n m d, vlen n = 1 -> vlen m = 1 -> 0 <= vdot m n -> (x = shifted y n d \/ y = shifted x n d) -> forall y', ((x = shifted y n d /\ x = shifted y' m d) \/ (y = shifted x n d /\ y' = shifted x m d)) -> dist y y' <= sqrt 2 * Rabs d).
  { clear. intros x y n m d Un Um S _ y' H.
    assert (L : vlen2 (vsub n m) <= 2). { assert (X : vlen2 (vsub n m) = vlen2 n + vlen2 m - 2 * vdot m n) by (clear; vring). rewrite X. rewrite <- !vlen_sq, Un, Um. lra. }
    assert (E : dist y y' = vlen (vscale d (vsub n m))).
    { destruct H as [(E1 & E2)|(E1 & E2)].
      - assert (E3 : vsub y y' = vscale d (vsub m n)).
        { rewrite E1 in E2. clear - E2. unfold shifted in E2. pose proof (f_equal vx E2). pose proof (f_equal vy E2). pose proof (f_equal vz E2). unfold vsub, vscale. cbn [vx vy vz] in *. apply v3_eq; cbn [vx vy vz]; lra. }
        unfold dist, vlen. f_equal. transitivity (vlen2 (vsub y y')); [clear; vring|]. rewrite E3. clear. vring.
      - subst y y'. unfold dist, vlen. f_equal. clear. unfold shifted. vring. }
    rewrite E. unfold vlen. rewrite vlen2_vscale. rewrite <- (sqrt_Rsqr_abs d). rewrite <- sqrt_mult by (try lra; apply Rle_0_sqr). apply sqrt_le_1_alt. unfold Rsqr. nra. }
  destruct first; cbv zeta; unfold on_tri, on_other in *.
  - apply (K (tr_point t1 (c_local1 c)) _ (c_normal c) (c_normal c')); auto. rewrite P in C'. auto.
  - apply (K (tr_point t2 (c_local2 c)) _ (c_normal c) (c_normal c')); auto. rewrite P in C'. auto.
Qed.
Print Assumptions C139_moved.

(** ** The test of a triangle and another polyhedron: the answer is that of the separating axis test, every contact is smoothed *)
Theorem C139_test : forall eps big D fuel clip report (first : bool) a b c na nb nc p t1 t2 l, 0 < eps <= / 1000 -> 4 < big -> has_area eps a b c ->
  quat_len2 (t_rot t1) = 1 -> quat_len2 (t_rot t2) = 1 -> solid_ok big p -> so_triangle p = false ->
  exists ts, tri_solid (new_triangle eps a b c na nb nc) = Ok ts /\ so_verts ts = [a; b; c] /\
  let p1 := if first then ts else p in let p2 := if first then p else ts in
  sat_setting eps big p1 p2 t1 t2 /\
  (within D (so_verts p1) t1 (so_verts p2) t2 -> D < big -> (6 <= fuel)%nat -> (length (st_edges (so_edges p)) <= fuel)%nat -> (lf_valid l && lf_sat l = true -> cache_ok p1 p2 l) ->
   exists hit cs cs' l', sat_polyhedra eps big fuel clip report p1 p2 t1 t2 l = Ok (hit, cs, l') /\
     sat_triangle eps big fuel clip report first (new_triangle eps a b c na nb nc) p t1 t2 l = Ok (hit, cs', l') /\
     Forall2 (smoothed first t1 t2) cs cs').
Proof.
  intros eps big D fuel clip report first a b c na nb nc p t1 t2 l He Hb A Q1 Q2 O T. set (s := new_triangle eps a b c na nb nc).
  exists (the_tri s). split; [apply tri_solid_eq|]. split; [reflexivity|]. cbv zeta.
  assert (G : solid_ok big (the_tri s)) by (apply tri_ok, new_good; [lra|exact A]).
  assert (SS : sat_setting eps big (if first then the_tri s else p) (if first then p else the_tri s) t1 t2).
  { unfold sat_setting. destruct first; auto 10. }
  split; [exact SS|]. intros W L F F' C.
  destruct (C136_total eps big D fuel clip report _ _ t1 t2 l SS W L) as (hit & cs & l' & E); [destruct first; assumption|destruct first; assumption|exact C|].
  exists hit, cs, (map (smooth_contact eps s first t1 t2) cs), l'. split; [exact E|]. split.
  - unfold sat_triangle. rewrite tri_solid_eq. cbn [bind]. rewrite E. reflexivity.
  - clear E. induction cs as [|k cs IH]; constructor; [|exact IH]. apply C139_contact; auto. lra.
Qed.
Print Assumptions C139_test.

(** ** Neighbours *)
(** Two triangles with a common edge and the same normals at its ends give contacts on the edge the same normal. *)
Theorem C139_edge : forall eps a b c d na nb nc nd (first : bool) t1 t2 k x y, 0 < eps <= 1 -> has_area eps a b c -> has_area eps b a d ->
  quat_len2 (t_rot t1) = 1 -> quat_len2 (t_rot t2) = 1 -> x + y = 1 -> on_tri first k = shifted (vscale x a) b y ->
  eps <= vlen2 (vadd (vscale x na) (vscale y nb)) ->
  smooth_contact eps (new_triangle eps a b c na nb nc) first t1 t2 k = smooth_contact eps (new_triangle eps b a d nb na nd) first t1 t2 k.
Proof.
  intros eps a b c d na nb nc nd first t1 t2 k x y He A1 A2 Q1 Q2 Sm Ep L.
  assert (E : smooth_normal eps (new_triangle eps a b c na nb nc) (on_tri first k) = smooth_normal eps (new_triangle eps b a d nb na nd) (on_tri first k)).
  { unfold smooth_normal, new_triangle. cbn [ts_a ts_b ts_c ts_na ts_nb ts_nc ts_n]. rewrite Ep.
    assert (E1 : shifted (vscale x a) b y = combine3 x y 0 a b c) by (clear; unfold shifted, combine3; vring).
    assert (E2 : shifted (vscale x a) b y = combine3 y x 0 b a d) by (clear; unfold shifted, combine3; vring).
    rewrite E1 at 1. rewrite E2. rewrite !C40_unique by (unfold has_area in *; lra).
    assert (X : rlt eps 0 = false) by (apply rlt_false; lra). rewrite X, !andb_false_r.
    assert (M1 : vadd (vadd (vscale x na) (vscale y nb)) (vscale 0 nc) = vadd (vscale x na) (vscale y nb)) by (clear; vring).
    assert (M2 : vadd (vadd (vscale y nb) (vscale x na)) (vscale 0 nd) = vadd (vscale x na) (vscale y nb)) by (clear; vring).
    rewrite M1, M2. cbv zeta. assert (Y : rlt (vlen2 (vadd (vscale x na) (vscale y nb))) eps = false) by (apply rlt_false; exact L). now rewrite Y. }
  unfold smooth_contact, smooth_mesh_contact. unfold on_tri in E. now rewrite E.
Qed.
Print Assumptions C139_edge.

(** ** C140: what smoothing does not keep *)
(** A triangle of the ground whose normals at two of the points are tilted. *)
Definition g_a : vec3 := V3 0 0 0.
Definition g_b : vec3 := V3 1 0 0.
Definition g_c : vec3 := V3 0 0 (-1).
Definition tilted : vec3 := V3 (3 / 5) (4 / 5) 0.
Definition upward : vec3 := V3 0 1 0.
Definition at_rest : transform := Tr (V3 0 0 0) (Q4 0 0 0 1).
Lemma at_rest_unit : quat_len2 (t_rot at_rest) = 1. Proof. unfold quat_len2, at_rest. cbn. ring. Qed.
Lemma at_rest_vec v : quat_vec (t_rot at_rest) v = v. Proof. unfold quat_vec, at_rest. apply v3_eq; cbn; ring. Qed.
Lemma at_rest_point v : tr_point at_rest v = v. Proof. unfold tr_point, at_rest. apply v3_eq; cbn; ring. Qed.
Lemma g_normal : triangle_normal g_a g_b g_c = upward.
Proof. unfold triangle_normal, g_a, g_b, g_c, upward, vcross, vsub. apply v3_eq; cbn [vx vy vz]; ring. Qed.
Lemma up_len : vlen upward = 1. Proof. unfold vlen, vlen2, upward. cbn [vx vy vz]. replace (0 * 0 + 1 * 1 + 0 * 0) with 1 by ring. apply sqrt_1. Qed.
Lemma tilted_len : vlen tilted = 1. Proof. unfold vlen, vlen2, tilted. cbn [vx vy vz]. replace (3 / 5 * (3 / 5) + 4 / 5 * (4 / 5) + 0 * 0) with 1 by field. apply sqrt_1. Qed.
Example C139_triangle_case : has_area (/ 1000) g_a g_b g_c.
Proof. unfold has_area. rewrite g_normal, up_len. lra. Qed.
Definition ground (eps : R) : tri_shape := new_triangle eps g_a g_b g_c tilted tilted upward.
Lemma ground_edge eps k : 0 < eps <= / 1000 -> c_local1 k = V3 (/ 2) 0 0 -> c_normal k = upward -> c_normal (smooth_contact eps (ground eps) true at_rest at_rest k) = tilted.
Proof.
  intros He Ep En. assert (A : has_area eps g_a g_b g_c) by (unfold has_area; rewrite g_normal, up_len; lra).
  destruct (C139_normal eps g_a g_b g_c tilted tilted upward true at_rest at_rest k (/ 2) (/ 2) 0) as (_ & _ & N); [lra|exact A|apply at_rest_unit|apply at_rest_unit| |lra|].
  { cbn [on_tri]. rewrite Ep. unfold combine3, g_a, g_b, g_c. apply v3_eq; cbn [vx vy vz]; field. }
  assert (M : combine3 (/ 2) (/ 2) 0 tilted tilted upward = tilted) by (unfold combine3, tilted, upward; apply v3_eq; cbn [vx vy vz]; field). rewrite M in N. cbv zeta in N.
  assert (L2 : vlen2 tilted = 1) by (rewrite <- vlen_sq, tilted_len; ring). rewrite L2, tilted_len in N. specialize (N ltac:(right; right; lra) ltac:(lra)). rewrite at_rest_vec in N.
  assert (O : vscale (/ 1) tilted = tilted) by (unfold vscale, tilted; apply v3_eq; cbn [vx vy vz]; field). rewrite O in N.
  pose proof (sm_side _ _ _ _ _ (C139_contact eps g_a g_b g_c tilted tilted upward true at_rest at_rest k ltac:(lra) A at_rest_unit at_rest_unit)) as S.
  destruct N as [N|N]; [exact N|]. exfalso. rewrite En in S. unfold ground in N. rewrite N in S. unfold vdot, vneg, tilted, upward in S. cbn [vx vy vz] in S. lra.
Qed.
(** The normal jumps: contacts of the same triangle as close as three times the machine epsilon, one on the border and one inside, have normals that differ
    by an angle with the cosine 4/5. *)
Theorem C140_jump_refuted : exists a b c na nb nc, has_area (/ 1000) a b c /\ vlen na = 1 /\ vlen nb = 1 /\ vlen nc = 1 /\ forall eps depth, 0 < eps <= / 1000 -> exists k1 k2,
  c_depth k1 = depth /\ c_depth k2 = depth /\ c_normal k1 = c_normal k2 /\ dist (c_local1 k1) (c_local1 k2) <= 3 * eps /\
  let smooth := smooth_contact eps (new_triangle eps a b c na nb nc) true at_rest at_rest in
  vdot (c_normal (smooth k1)) (c_normal (smooth k2)) = 4 / 5.
Proof.
  exists g_a, g_b, g_c, tilted, tilted, upward. split; [exact C139_triangle_case|]. split; [apply tilted_len|]. split; [apply tilted_len|]. split; [apply up_len|]. intros eps depth He.
  exists (Contact upward depth (V3 (/ 2) 0 0) (V3 (/ 2) (- depth) 0)), (Contact upward depth (V3 (/ 2 - eps) 0 (- (2 * eps))) (V3 (/ 2 - eps) (- depth) (- (2 * eps)))).
  cbn [c_depth c_normal c_local1]. split; [reflexivity|]. split; [reflexivity|]. split; [reflexivity|]. split.
  { unfold dist. cbn [vx vy vz]. rewrite <- (sqrt_square (3 * eps)) by lra. apply sqrt_le_1_alt. nra. }
  cbv zeta. fold (ground eps). rewrite (ground_edge eps _ He) by reflexivity. set (k := Contact _ _ _ _).
  assert (A : has_area eps g_a g_b g_c) by (unfold has_area; rewrite g_normal, up_len; lra).
  destruct (C139_normal eps g_a g_b g_c tilted tilted upward true at_rest at_rest k (/ 2 - eps) (/ 2 - eps) (2 * eps)) as (N & _ & _); [lra|exact A|apply at_rest_unit|apply at_rest_unit| |lra|].
  { unfold k. cbn [on_tri c_local1]. unfold combine3, g_a, g_b, g_c. apply v3_eq; cbn [vx vy vz]; field. }
  cbv zeta in N. specialize (N ltac:(lra) ltac:(lra) ltac:(lra)). rewrite g_normal, up_len, at_rest_vec in N.
  assert (O : vscale (/ 1) upward = upward) by (unfold vscale, upward; apply v3_eq; cbn [vx vy vz]; field). rewrite O in N.
  pose proof (sm_side _ _ _ _ _ (C139_contact eps g_a g_b g_c tilted tilted upward true at_rest at_rest k ltac:(lra) A at_rest_unit at_rest_unit)) as S.
  fold (ground eps) in N, S. destruct N as [N|N].
  - rewrite N. unfold vdot, tilted, upward. cbn [vx vy vz]. lra.
  - exfalso. rewrite N in S. unfold k in S. cbn [c_normal] in S. unfold vdot, vneg, upward in S. cbn [vx vy vz] in S. lra.
Qed.
Print Assumptions C140_jump_refuted.

(** The point on the other shape need not be a point of it: a box with a corner at depth [depth] below the middle of an edge of the triangle. *)
Theorem C140_surface_refuted : exists a b c na nb nc, has_area (/ 1000) a b c /\ vlen na = 1 /\ vlen nb = 1 /\ vlen nc = 1 /\ forall eps depth, 0 < eps <= / 1000 -> 0 < depth -> exists k corner,
  c_depth k = depth /\ consistent at_rest at_rest k /\ c_local2 k = corner /\
  let k' := smooth_contact eps (new_triangle eps a b c na nb nc) true at_rest at_rest k in
  forall q, vx corner <= vx q -> vy corner <= vy q -> vz corner <= vz q -> 3 / 5 * depth <= dist (c_local2 k') q.
Proof.
  exists g_a, g_b, g_c, tilted, tilted, upward. split; [exact C139_triangle_case|]. split; [apply tilted_len|]. split; [apply tilted_len|]. split; [apply up_len|]. intros eps depth He Hd.
  set (k := Contact upward depth (V3 (/ 2) 0 0) (V3 (/ 2) (- depth) 0)). exists k, (V3 (/ 2) (- depth) 0). split; [reflexivity|]. split.
  { unfold consistent, k, shifted. cbn [c_local1 c_local2 c_normal c_depth]. rewrite !at_rest_point. unfold upward. apply v3_eq; cbn [vx vy vz]; ring. }
  split; [reflexivity|]. cbv zeta. fold (ground eps).
  assert (A : has_area eps g_a g_b g_c) by (unfold has_area; rewrite g_normal, up_len; lra).
  destruct (C139_contact eps g_a g_b g_c tilted tilted upward true at_rest at_rest k ltac:(lra) A at_rest_unit at_rest_unit) as [D P U S C]. fold (ground eps) in *.
  unfold consistent in C. rewrite !at_rest_point, D in C. cbn [on_tri] in P. rewrite P in C. rewrite (ground_edge eps k He) in C by reflexivity.
  set (z := c_local2 (smooth_contact eps (ground eps) true at_rest at_rest k)) in *. clearbody z. unfold k in C. cbn [c_local1 c_depth] in C. apply (f_equal vx) in C. unfold shifted, tilted in C. cbn [vx] in C.
  cbn [vx vy vz]. intros q X _ _. unfold dist. rewrite <- (sqrt_square (3 / 5 * depth)) by lra. apply sqrt_le_1_alt.
  assert (3 / 5 * depth <= vx q - vx z) by lra. assert (0 <= 3 / 5 * depth) by lra. assert ((3 / 5 * depth) * (3 / 5 * depth) <= (vx q - vx z) * (vx q - vx z)) by (apply Rmult_le_compat; lra).
  pose proof (Rle_0_sqr (vy z - vy q)). pose proof (Rle_0_sqr (vz z - vz q)). unfold Rsqr in *. nra.
Qed.
Print Assumptions C140_surface_refuted.
(** Cases of the hypotheses of [C139_test], [C139_edge] and [C139_moved]. *)
Example C139_test_case : forall big, 4 < big -> exists p, box_solid (V3 1 1 1) = Ok p /\ solid_ok big p /\ so_triangle p = false.
Proof. intros big Hb. exists unit_box. split; [apply box_solid_eq|]. split; [apply box_ok; lra|reflexivity]. Qed.
Example C139_edge_case : has_area (/ 1000) g_a g_b g_c /\ has_area (/ 1000) g_b g_a (V3 0 0 1) /\ / 1000 <= vlen2 (vadd (vscale (/ 2) tilted) (vscale (/ 2) tilted)).
Proof.
  split; [exact C139_triangle_case|]. split.
  - unfold has_area. replace (triangle_normal g_b g_a (V3 0 0 1)) with upward; [rewrite up_len; lra|]. unfold triangle_normal, g_a, g_b, upward, vcross, vsub. apply v3_eq; cbn [vx vy vz]; ring.
  - unfold vlen2, vadd, vscale, tilted. cbn [vx vy vz]. lra.
Qed.
Example C139_moved_case : consistent at_rest at_rest (Contact upward (/ 10) (V3 (/ 2) 0 0) (V3 (/ 2) (- / 10) 0)).
Proof. unfold consistent, shifted. cbn [c_local1 c_local2 c_normal c_depth]. rewrite !at_rest_point. unfold upward. apply v3_eq; cbn [vx vy vz]; ring. Qed.
