(** C123, C124, C125, C126: collisions of convex shapes by the GJK algorithm, and of spheres with polyhedra. *)
From Coq Require Import Reals Lra Psatz List Bool Arith Lia ZArith.
From Verif Require Import Base VecModel VecProofs GeomSpec GeomProofs ShapeModel ShapeSpec ShapeProofs ShapeMeshProofs NarrowModel NarrowSpec NarrowProofs
  NarrowProperties GjkModel GjkSpec VoronoiProofs GjkProofs GjkLoopProofs GjkShapeProofs GjkVertexProofs SphereSatProofs.
Import ListNotations.
Local Open Scope R_scope.

(** ** C123: the algorithm always answers *)
Theorem C123_answers : forall eps big D report s1 s2 t1 t2 vs1 vs2 cache fuel, placed eps big D s1 s2 t1 t2 vs1 vs2 cache ->
  let m := (length vs1 * length vs2)%nat in (m * m * m + m * m + m + 2 < fuel)%nat ->
  exists answer, gjk eps big fuel report s1 s2 t1 t2 cache = Ok answer.
Proof. intros eps big D report s1 s2 t1 t2 vs1 vs2 cache fuel P m L. apply (gjk_stops eps big D fuel report s1 s2 t1 t2 vs1 vs2 cache P). rewrite turns_eq. fold m. lia. Qed.
Print Assumptions C123_answers.
(** The answer does not depend on the bound on the number of turns. *)
Lemma loop_more eps big margin supp fuel : forall s v d2 e k, gjk_loop eps big margin supp fuel s v d2 = Ok e -> gjk_loop eps big margin supp (fuel + k) s v d2 = Ok e.
Proof.
  induction fuel as [|fuel IH]; intros s v d2 e k H; [discriminate|]. cbn [gjk_loop plus] in *. destruct (supp v) as [a b].
  destruct (_ && _); [exact H|]. destruct (_ || _); [exact H|]. destruct (dependent _); [exact H|]. destruct (negb (sx_valid _)); [exact H|].
  destruct (rle _ _); [exact H|]. destruct (_ && _); [|exact H]. now apply IH.
Qed.
Theorem C123_definite : forall eps big report s1 s2 t1 t2 cache fuel fuel' x y,
  gjk eps big fuel report s1 s2 t1 t2 cache = Ok x -> gjk eps big fuel' report s1 s2 t1 t2 cache = Ok y -> x = y.
Proof.
  intros eps big report s1 s2 t1 t2 cache f f' x y H H'. unfold gjk in *. cbv zeta in *.
  destruct (gjk_loop eps big _ _ f _ _ _) as [e| |] eqn:E; cbn in H; try discriminate. destruct (gjk_loop eps big _ _ f' _ _ _) as [e'| |] eqn:E'; cbn in H'; try discriminate.
  apply (loop_more _ _ _ _ _ _ _ _ _ f') in E. apply (loop_more _ _ _ _ _ _ _ _ _ f) in E'. rewrite Nat.add_comm in E'. congruence.
Qed.
Print Assumptions C123_definite.

(** ** C124: shapes reported to overlap in their margins do *)
Lemma finish_margin eps D report s1 s2 t1 t2 vs1 vs2 e l cache' : 0 < eps <= / 2 -> quat_len2 (t_rot t1) = 1 -> quat_len2 (t_rot t2) = 1 ->
  outcome eps (cs_margin s1 + cs_margin s2) D vs1 (map (tr_point (to_first t1 t2)) vs2) e ->
  (InMargin, l, cache') = gjk_finish eps report s1 s2 t1 t2 e ->
  let C1 := hull_core vs1 t1 in let C2 := hull_core vs2 t2 in let r1 := cs_margin s1 in let r2 := cs_margin s2 in
  overlap C1 C2 r1 r2 /\ length l = (if report then 1 else 0)%nat /\ forall c, In c l ->
  near_contact C1 C2 r1 r2 (c_normal c) (c_depth c) (tr_point t1 (c_local1 c)) (tr_point t2 (c_local2 c)) /\
  (no_slivers (differences vs1 t1 vs2 t2) -> nearly_separates (gjk_error eps D) C1 C2 r1 r2 (c_normal c) (c_depth c)).
Proof.
  intros HE U1 U2 O H C1 C2 r1 r2. unfold gjk_finish in H. destruct e as [v|s v d2|s v d2]; try discriminate H.
  destruct (rlt eps d2) eqn:E; [|discriminate H]. rewrite rlt_true in E. cbv zeta in H.
  destruct (gjk_found eps D s1 s2 t1 t2 vs1 vs2 s v d2 HE U1 U2 O E) as (Un & (p & q & Hp & Hq & Dpq & W1 & W2 & Epq) & Sep).
  fold (to_first t1 t2) in H. set (n := quat_vec (t_rot t1) (vneg (vunit eps v))) in *. fold r1 r2 in H, W1, W2.
  destruct (rle (r1 + r2 - sqrt d2) 0) eqn:E2; [discriminate H|]. rewrite rle_false in E2.
  destruct (rlt (vlen2 n) eps) eqn:E3; [discriminate H|]. injection H as -> _.
  split; [exists p, q; split; [exact Hp|]; split; [exact Hq|]; lra|]. split; [now destruct report|].
  intros c Hc. destruct report; [|elim Hc]. destruct Hc as [<-|[]]. cbn [c_normal c_depth c_local1 c_local2]. split.
  - constructor.
    + unfold vlen. rewrite Un. apply sqrt_1.
    + exact E2.
    + exists p. split; [exact Hp|exact W1].
    + exists q. split; [exact Hq|exact W2].
    + rewrite W1, W2, Epq, !shifted_shifted. f_equal. ring.
  - intros NS p' q' Hp' Hq'. destruct (Sep NS p' q' Hp' Hq') as (_ & K). specialize (K (r1 + r2 - sqrt d2)). unfold C1, C2, r1, r2 in *. lra.
Qed.
Theorem C124_overlap : forall eps big D report s1 s2 t1 t2 vs1 vs2 cache fuel l cache', placed eps big D s1 s2 t1 t2 vs1 vs2 cache ->
  gjk eps big fuel report s1 s2 t1 t2 cache = Ok (InMargin, l, cache') -> overlap (hull_core vs1 t1) (hull_core vs2 t2) (cs_margin s1) (cs_margin s2).
Proof.
  intros eps big D report s1 s2 t1 t2 vs1 vs2 cache fuel l cache' P H. destruct (gjk_answer _ _ _ _ _ _ _ _ _ _ _ _ _ P H) as (e & O & E).
  destruct P as (HE & _ & _ & _ & U1 & U2 & _). exact (proj1 (finish_margin eps D report s1 s2 t1 t2 vs1 vs2 e l cache' HE U1 U2 O E)).
Qed.
Print Assumptions C124_overlap.
(** One contact is reported if contacts are asked for. *)
Theorem C124_reported : forall eps big report s1 s2 t1 t2 cache fuel r l cache', gjk eps big fuel report s1 s2 t1 t2 cache = Ok (r, l, cache') ->
  length l = match r with InMargin => if report then 1 else 0 | _ => 0 end%nat.
Proof.
  intros eps big report s1 s2 t1 t2 cache fuel r l cache' H. unfold gjk in H. cbv zeta in H.
  destruct (gjk_loop eps big _ _ fuel _ _ _) as [e| |]; cbn in H; try discriminate. injection H as H. unfold gjk_finish in H.
  destruct e as [v|s v d2|s v d2]; cbv zeta in H; [injection H as <- <- <-; reflexivity| |injection H as <- <- <-; reflexivity].
  destruct (rlt eps d2); [|injection H as <- <- <-; reflexivity]. destruct (rle _ 0); [injection H as <- <- <-; reflexivity|]. destruct (rlt _ eps); injection H as <- <- <-; [reflexivity|now destruct report].
Qed.
Print Assumptions C124_reported.
Theorem C124_contact : forall eps big D report s1 s2 t1 t2 vs1 vs2 cache fuel r l cache' c, placed eps big D s1 s2 t1 t2 vs1 vs2 cache ->
  gjk eps big fuel report s1 s2 t1 t2 cache = Ok (r, l, cache') -> In c l ->
  near_contact (hull_core vs1 t1) (hull_core vs2 t2) (cs_margin s1) (cs_margin s2) (c_normal c) (c_depth c) (tr_point t1 (c_local1 c)) (tr_point t2 (c_local2 c)).
Proof.
  intros eps big D report s1 s2 t1 t2 vs1 vs2 cache fuel r l cache' c P H Hc.
  assert (r = InMargin) as -> by (pose proof (C124_reported _ _ _ _ _ _ _ _ _ _ _ _ H) as L; destruct r; [destruct l; [elim Hc|discriminate L]|reflexivity|destruct l; [elim Hc|discriminate L]]).
  destruct (gjk_answer _ _ _ _ _ _ _ _ _ _ _ _ _ P H) as (e & O & E). destruct P as (HE & _ & _ & _ & U1 & U2 & _).
  apply (finish_margin eps D report s1 s2 t1 t2 vs1 vs2 e l cache' HE U1 U2 O E). exact Hc.
Qed.
Print Assumptions C124_contact.

(** ** C125: overlapping shapes are found *)
(** If an axis is kept for the next frame, the shapes do not overlap. *)
Theorem C125_axis : forall eps big D report s1 s2 t1 t2 vs1 vs2 cache fuel r l v, placed eps big D s1 s2 t1 t2 vs1 vs2 cache ->
  gjk eps big fuel report s1 s2 t1 t2 cache = Ok (r, l, Some v) -> r = Separated /\
  forall p q, hull_core vs1 t1 p -> hull_core vs2 t2 q -> cs_margin s1 + cs_margin s2 < dist p q.
Proof.
  intros eps big D report s1 s2 t1 t2 vs1 vs2 cache fuel r l v P H. destruct (gjk_answer _ _ _ _ _ _ _ _ _ _ _ _ _ P H) as (e & O & E).
  destruct P as (HE & _ & _ & _ & U1 & U2 & _ & _ & _ & _ & M1 & M2). unfold gjk_finish in E. destruct e as [w|s w d2|s w d2].
  - injection E as -> -> ->. split; [reflexivity|]. apply (gjk_apart eps D s1 s2 t1 t2 vs1 vs2 w); assumption.
  - cbv zeta in E. destruct (rlt eps d2); [destruct (rle _ 0); [discriminate|destruct (rlt _ eps); discriminate]|discriminate].
  - discriminate.
Qed.
Print Assumptions C125_axis.
(** If the shapes are handed over to the next algorithm, their cores touch up to a small distance. *)
Theorem C125_deep : forall eps big D report s1 s2 t1 t2 vs1 vs2 cache fuel l cache', placed eps big D s1 s2 t1 t2 vs1 vs2 cache ->
  gjk eps big fuel report s1 s2 t1 t2 cache = Ok (Interpenetrate, l, cache') ->
  exists p q, hull_core vs1 t1 p /\ hull_core vs2 t2 q /\ dist p q * dist p q <= eps * Rmax 1 (D * D).
Proof.
  intros eps big D report s1 s2 t1 t2 vs1 vs2 cache fuel l cache' P H. destruct (gjk_answer _ _ _ _ _ _ _ _ _ _ _ _ _ P H) as (e & O & E).
  destruct P as (HE & _ & _ & _ & U1 & U2 & _).
  assert (G : forall l0 u k, Forall (from vs1 (map (tr_point (to_first t1 t2)) vs2)) l0 -> convex_weights l0 u -> vlen2 (weigh sp_w u) <= eps * k -> k <= Rmax 1 (D * D) ->
    exists p q, hull_core vs1 t1 p /\ hull_core vs2 t2 q /\ dist p q * dist p q <= eps * Rmax 1 (D * D)).
  { intros l0 u k F C L K. destruct (from_weights vs1 t1 t2 vs2 l0 u F C) as (q & Ha & Hq & Eq & Ew).
    exists (tr_point t1 (weigh sp_a u)), (tr_point t2 q). split; [exists (weigh sp_a u); auto|]. split; [exists q; auto|].
    rewrite frame_dist by exact U1. rewrite <- Eq, <- Ew, sqrt_sqrt by apply vlen2_nonneg. nra. }
  unfold gjk_finish in E. destruct e as [w|s w d2|s w d2]; [discriminate| |].
  - cbv zeta in E. destruct (rlt eps d2) eqn:L; [destruct (rle _ 0); [discriminate|destruct (rlt _ eps); discriminate]|]. rewrite rlt_false in L.
    destruct O as (_ & Ed & (l0 & u & F & C & Ev & _) & _). apply (G l0 u 1 F C); [rewrite <- Ev, <- Ed; lra|apply Rmax_l].
  - destruct O as (l0 & u & F & C & L). apply (G l0 u (D * D) F C L), Rmax_r.
Qed.
Print Assumptions C125_deep.
(** Overlaps deeper than the error are found if the shapes are not too small. *)
Theorem C125_found_partial : forall eps big D report s1 s2 t1 t2 vs1 vs2 cache fuel l cache', placed eps big D s1 s2 t1 t2 vs1 vs2 cache ->
  no_slivers (differences vs1 t1 vs2 t2) -> gjk eps big fuel report s1 s2 t1 t2 cache = Ok (Separated, l, cache') ->
  forall p q, hull_core vs1 t1 p -> hull_core vs2 t2 q -> cs_margin s1 + cs_margin s2 - gjk_error eps D <= dist p q.
Proof.
  intros eps big D report s1 s2 t1 t2 vs1 vs2 cache fuel l cache' P NS H p q Hp Hq. destruct (gjk_answer _ _ _ _ _ _ _ _ _ _ _ _ _ P H) as (e & O & E).
  destruct P as (HE & _ & _ & _ & U1 & U2 & _ & _ & _ & _ & M1 & M2). unfold gjk_finish in E. destruct e as [w|s w d2|s w d2]; [| |discriminate].
  - pose proof (gjk_apart eps D s1 s2 t1 t2 vs1 vs2 w U1 M1 M2 O p q Hp Hq). unfold gjk_error. pose proof (Rmax_l (/ 100) (Rmax (1 / 1000000 * D) (5 * sqrt eps * D))). lra.
  - cbv zeta in E. destruct (rlt eps d2) eqn:L; [|discriminate]. rewrite rlt_true in L.
    destruct (gjk_found eps D s1 s2 t1 t2 vs1 vs2 s w d2 HE U1 U2 O L) as (Un & _ & Sep). destruct (Sep NS p q Hp Hq) as (K & _).
    destruct (rle (cs_margin s1 + cs_margin s2 - sqrt d2) 0) eqn:E2; [rewrite rle_true in E2; lra|].
    destruct (rlt (vlen2 (quat_vec (t_rot t1) (vneg (vunit eps w)))) eps) eqn:E3; [|discriminate]. rewrite rlt_true, Un in E3. lra.
Qed.
Print Assumptions C125_found_partial.
(** The contact ends the overlap up to the error. *)
Theorem C125_separates_partial : forall eps big D report s1 s2 t1 t2 vs1 vs2 cache fuel r l cache' c, placed eps big D s1 s2 t1 t2 vs1 vs2 cache ->
  no_slivers (differences vs1 t1 vs2 t2) -> gjk eps big fuel report s1 s2 t1 t2 cache = Ok (r, l, cache') -> In c l ->
  nearly_separates (gjk_error eps D) (hull_core vs1 t1) (hull_core vs2 t2) (cs_margin s1) (cs_margin s2) (c_normal c) (c_depth c).
Proof.
  intros eps big D report s1 s2 t1 t2 vs1 vs2 cache fuel r l cache' c P NS H Hc.
  assert (r = InMargin) as -> by (pose proof (C124_reported _ _ _ _ _ _ _ _ _ _ _ _ H) as L; destruct r; [destruct l; [elim Hc|discriminate L]|reflexivity|destruct l; [elim Hc|discriminate L]]).
  destruct (gjk_answer _ _ _ _ _ _ _ _ _ _ _ _ _ P H) as (e & O & E). destruct P as (HE & _ & _ & _ & U1 & U2 & _).
  now apply (finish_margin eps D report s1 s2 t1 t2 vs1 vs2 e l cache' HE U1 U2 O E).
Qed.
Print Assumptions C125_separates_partial.
(** Two small overlapping shapes are reported as separated. *)
Theorem C125_small_refuted : forall eps big report, 0 < eps <= / 1000 -> 4 < big ->
  placed eps big 1 small_box small_sphere here (away small_c) (box_corners small_h) [V3 0 0 0] None /\
  (exists p q, hull_core (box_corners small_h) here p /\ hull_core [V3 0 0 0] (away small_c) q /\ dist p q < cs_margin small_box + cs_margin small_sphere - 19 / 1000) /\
  gjk eps big 100 report small_box small_sphere here (away small_c) None = Ok (Separated, [], None).
Proof.
  intros eps big report HE HB. split; [|split; [|exact (small_run eps big 97 report HE HB)]].
  - unfold placed. cbn [cs_support cs_margin small_box small_sphere]. split; [lra|]. split; [lra|]. split; [lra|]. split; [lra|]. split; [apply here_unit|]. split; [apply here_unit|].
    split; [apply box_finds; unfold small_h; cbn [vx vy vz]; lra|]. split; [apply sphere_finds|]. split.
    + intros p q Hp [<-|[]]. rewrite here_point, tr_point_zero. apply Rlt_le, dist_lt_sq; [lra|]. unfold small_c, small_h in *. cbn [t_pos away].
      cbn [box_corners In vx vy vz] in Hp. repeat (destruct Hp as [<-|Hp]; [rcalc|]). elim Hp.
    + split; [discriminate|lra].
  - destruct small_overlap as (p & q & Hp & Hq & L). exists p, q. cbn [cs_margin small_box small_sphere]. repeat split; [exact Hp|exact Hq|lra].
Qed.
Print Assumptions C125_small_refuted.

(** The hypotheses hold for the shapes of the library: the support functions of spheres, boxes, capsules and convex meshes find the
    vertices, and the cores are the points, boxes and segments of NarrowSpec and ShapeSpec. *)
Example C124_sphere_case : forall big t p, finds_vertex big sphere_support0 [V3 0 0 0] /\ (hull_core [V3 0 0 0] t p <-> sphere_core t p).
Proof. intros. split; [apply sphere_finds|apply sphere_hull]. Qed.
Example C124_box_case : forall big h p, 0 <= vx h -> 0 <= vy h -> 0 <= vz h ->
  finds_vertex big (box_support0 h) (box_corners h) /\ (hull (box_corners h) p <-> cuboid h p).
Proof. intros. split; [now apply box_finds|now apply box_hull]. Qed.
Example C124_capsule_case : forall big hh t p, 0 <= hh ->
  finds_vertex big (capsule_support0 hh) (capsule_ends hh) /\ (hull_core (capsule_ends hh) t p <-> capsule_core hh t p).
Proof. intros. split; [now apply capsule_finds|now apply capsule_hull]. Qed.
Example C124_mesh_case : forall big m k, 0 < k -> cm_vertices m <> [] -> (forall v, In v (cm_vertices m) -> 4 * vlen2 v < big) ->
  finds_vertex big (cmesh_support0 big m (V3 k k k)) (map (fun v => V3 (vx v * k) (vy v * k) (vz v * k)) (cm_vertices m)).
Proof. intros. now apply cmesh_finds. Qed.
(** A box and a sphere, each with a side or diameter of two metres, that overlap by half a metre. *)
Lemma one_placed : placed (/ 1000) 1000 10 one_box one_sphere here (away one_c) (box_corners one_h) [V3 0 0 0] None.
Proof.
  unfold placed. cbn [cs_support cs_margin one_box one_sphere]. split; [lra|]. split; [lra|]. split; [lra|]. split; [lra|]. split; [apply here_unit|]. split; [apply here_unit|].
  split; [apply box_finds; unfold one_h; cbn [vx vy vz]; lra|]. split; [apply sphere_finds|]. split.
  + intros p q Hp [<-|[]]. rewrite here_point, tr_point_zero. apply Rlt_le, dist_lt_sq; [lra|]. unfold one_c, one_h in *. cbn [t_pos away].
    cbn [box_corners In vx vy vz] in Hp. repeat (destruct Hp as [<-|Hp]; [rcalc|]). elim Hp.
  + split; [discriminate|lra].
Qed.
Lemma one_no_slivers : no_slivers (differences (box_corners one_h) here [V3 0 0 0] (away one_c)).
Proof.
  apply (whole_no_slivers (vneg one_c)). apply Forall_forall. intros x Hx. unfold differences in Hx. apply in_map_iff in Hx as ([p q] & <- & Hpq). cbn [fst snd].
  apply in_prod_iff in Hpq as (Hp & [<-|[]]). rewrite here_point, tr_point_zero. unfold one_h in Hp. cbn [box_corners In vx vy vz] in Hp. cbn [t_pos away].
  assert (G : forall a b c : Z, whole (vneg one_c) (vsub (V3 (IZR a) (IZR b) (IZR c)) one_c)) by (intros a b c; exists a, b, c; generalize one_c; generalize (IZR a), (IZR b), (IZR c); clear; vring).
  assert (E : forall a b c (p0 : vec3), V3 (IZR a) (IZR b) (IZR c) = p0 -> whole (vneg one_c) (vsub p0 one_c)) by (intros a b c p0 <-; apply G).
  destruct Hp as [<-|Hp]; [apply (E (-1)%Z (-1)%Z (-1)%Z); apply v3_eq; cbn [vx vy vz]; lra|].
  destruct Hp as [<-|Hp]; [apply (E (-1)%Z (-1)%Z 1%Z); apply v3_eq; cbn [vx vy vz]; lra|].
  destruct Hp as [<-|Hp]; [apply (E (-1)%Z 1%Z (-1)%Z); apply v3_eq; cbn [vx vy vz]; lra|].
  destruct Hp as [<-|Hp]; [apply (E (-1)%Z 1%Z 1%Z); apply v3_eq; cbn [vx vy vz]; lra|].
  destruct Hp as [<-|Hp]; [apply (E 1%Z (-1)%Z (-1)%Z); apply v3_eq; cbn [vx vy vz]; lra|].
  destruct Hp as [<-|Hp]; [apply (E 1%Z (-1)%Z 1%Z); apply v3_eq; cbn [vx vy vz]; lra|].
  destruct Hp as [<-|Hp]; [apply (E 1%Z 1%Z (-1)%Z); apply v3_eq; cbn [vx vy vz]; lra|].
  destruct Hp as [<-|Hp]; [apply (E 1%Z 1%Z 1%Z); apply v3_eq; cbn [vx vy vz]; lra|]. elim Hp.
Qed.
Example C125_not_vacuous : placed (/ 1000) 1000 10 one_box one_sphere here (away one_c) (box_corners one_h) [V3 0 0 0] None /\
  no_slivers (differences (box_corners one_h) here [V3 0 0 0] (away one_c)) /\
  exists c, gjk (/ 1000) 1000 1000 true one_box one_sphere here (away one_c) None = Ok (InMargin, [c], None) /\ c_depth c = 1 / 2.
Proof. split; [exact one_placed|]. split; [exact one_no_slivers|]. apply (one_run (/ 1000) 1000 998); lra. Qed.

(** ** C126: spheres and polyhedra *)
Lemma sphere_first eps big D r ts po tp vs cache : sphere_placed eps big D r ts po tp vs cache ->
  placed eps big D (CShape sphere_support0 r) (CShape (po_support po) 0) ts tp [V3 0 0 0] vs cache.
Proof.
  intros (HE & HD & HB & HB4 & _ & U1 & U2 & FV & _ & W & HC & Hr). unfold placed. cbn [cs_support cs_margin].
  repeat (split; [assumption|]). split; [apply sphere_finds|]. split; [exact FV|]. split; [|split; [exact HC|lra]].
  intros p q [<-|[]] Hq. rewrite tr_point_zero, dist_sym. now apply W.
Qed.
Lemma sphere_second eps big D r ts po tp vs cache : sphere_placed eps big D r ts po tp vs cache ->
  placed eps big D (CShape (po_support po) 0) (CShape sphere_support0 r) tp ts vs [V3 0 0 0] cache.
Proof.
  intros (HE & HD & HB & HB4 & _ & U1 & U2 & FV & _ & W & HC & Hr). unfold placed. cbn [cs_support cs_margin].
  repeat (split; [assumption|]). split; [apply sphere_finds|]. split; [|split; [exact HC|lra]].
  intros p q Hp [<-|[]]. rewrite tr_point_zero. now apply W.
Qed.
Theorem C126_answers : forall eps big D report first r ts po tp vs cache fuel, sphere_placed eps big D r ts po tp vs cache ->
  let m := length vs in (m * m * m + m * m + m + 2 < fuel)%nat -> exists answer, sphere_polyhedron eps big fuel report first r ts po tp cache = Ok answer.
Proof.
  intros eps big D report first r ts po tp vs cache fuel P m L. unfold sphere_polyhedron. cbv zeta.
  destruct first.
  - destruct (C123_answers eps big D report _ _ ts tp _ vs cache fuel (sphere_first _ _ _ _ _ _ _ _ _ P)) as (x & ->); [cbn [length]; fold m; lia|].
    cbn [bind]. destruct (fst (fst x)); eexists; reflexivity.
  - destruct (C123_answers eps big D report _ _ tp ts vs _ cache fuel (sphere_second _ _ _ _ _ _ _ _ _ P)) as (x & ->); [cbn [length]; fold m; rewrite Nat.mul_1_r; lia|].
    cbn [bind]. destruct (fst (fst x)); eexists; reflexivity.
Qed.
Print Assumptions C126_answers.
Theorem C126_hit : forall eps big D report first r ts po tp vs cache fuel l, sphere_placed eps big D r ts po tp vs cache -> eps * Rmax 1 (D * D) < r * r ->
  sphere_polyhedron eps big fuel report first r ts po tp cache = Ok (true, l) -> exists q, hull_core vs tp q /\ dist (t_pos ts) q < r.
Proof.
  intros eps big D report first r ts po tp vs cache fuel l P HR H. assert (Hr : 0 < r) by apply P. unfold sphere_polyhedron in H. cbv zeta in H. destruct first.
  - destruct (gjk _ _ _ _ _ _ _ _ _) as [[[x l0] c0]| |] eqn:E; cbn [bind fst snd] in H; try discriminate. destruct x; [discriminate| |].
    + destruct (C124_overlap _ _ _ _ _ _ _ _ _ _ _ _ _ _ (sphere_first _ _ _ _ _ _ _ _ _ P) E) as (p & q & Hp & Hq & L). apply sphere_hull in Hp. cbn [cs_margin] in L.
      exists q. split; [exact Hq|]. rewrite <- Hp. lra.
    + destruct (C125_deep _ _ _ _ _ _ _ _ _ _ _ _ _ _ (sphere_first _ _ _ _ _ _ _ _ _ P) E) as (p & q & Hp & Hq & L). apply sphere_hull in Hp.
      exists q. split; [exact Hq|]. rewrite <- Hp. nra.
  - destruct (gjk _ _ _ _ _ _ _ _ _) as [[[x l0] c0]| |] eqn:E; cbn [bind fst snd] in H; try discriminate. destruct x; [discriminate| |].
    + destruct (C124_overlap _ _ _ _ _ _ _ _ _ _ _ _ _ _ (sphere_second _ _ _ _ _ _ _ _ _ P) E) as (p & q & Hp & Hq & L). apply sphere_hull in Hq. cbn [cs_margin] in L.
      exists p. split; [exact Hp|]. rewrite <- Hq, dist_sym. lra.
    + destruct (C125_deep _ _ _ _ _ _ _ _ _ _ _ _ _ _ (sphere_second _ _ _ _ _ _ _ _ _ P) E) as (p & q & Hp & Hq & L). apply sphere_hull in Hq.
      exists p. split; [exact Hp|]. rewrite <- Hq, dist_sym. nra.
Qed.
Print Assumptions C126_hit.
Lemma error_pos eps D : 0 < gjk_error eps D.
Proof. unfold gjk_error. pose proof (Rmax_l (/ 100) (Rmax (1 / 1000000 * D) (5 * sqrt eps * D))). lra. Qed.
(** Overlaps deeper than the error are found if the polyhedron is not too small. *)
Theorem C126_found_partial : forall eps big D report (first : bool) r ts po tp vs cache fuel l, sphere_placed eps big D r ts po tp vs cache ->
  no_slivers (if first then differences [V3 0 0 0] ts vs tp else differences vs tp [V3 0 0 0] ts) ->
  sphere_polyhedron eps big fuel report first r ts po tp cache = Ok (false, l) -> forall q, hull_core vs tp q -> r - gjk_error eps D <= dist (t_pos ts) q.
Proof.
  intros eps big D report first r ts po tp vs cache fuel l P NS H q Hq. unfold sphere_polyhedron in H. cbv zeta in H.
  assert (SAT : Ok (sat_sphere big report first r ts po tp) = Ok (false, l) -> r - gjk_error eps D <= dist (t_pos ts) q).
  { intros E. injection E as E. assert (F : fst (sat_sphere big report first r ts po tp) = false) by now rewrite E.
    pose proof (sat_apart big report first r ts po tp vs ltac:(apply P) ltac:(apply P) F q Hq). pose proof (error_pos eps D). lra. }
  assert (HS : hull_core [V3 0 0 0] ts (t_pos ts)) by now apply sphere_hull. destruct first.
  - destruct (gjk _ _ _ _ _ _ _ _ _) as [[[x l0] c0]| |] eqn:E; cbn [bind fst snd] in H; try discriminate. destruct x; [|discriminate|now apply SAT].
    pose proof (C125_found_partial _ _ _ _ _ _ _ _ _ _ _ _ _ _ (sphere_first _ _ _ _ _ _ _ _ _ P) NS E (t_pos ts) q HS Hq) as K. cbn [cs_margin] in K. lra.
  - destruct (gjk _ _ _ _ _ _ _ _ _) as [[[x l0] c0]| |] eqn:E; cbn [bind fst snd] in H; try discriminate. destruct x; [|discriminate|now apply SAT].
    pose proof (C125_found_partial _ _ _ _ _ _ _ _ _ _ _ _ _ _ (sphere_second _ _ _ _ _ _ _ _ _ P) NS E q (t_pos ts) Hq HS) as K. cbn [cs_margin] in K. rewrite dist_sym. lra.
Qed.
Print Assumptions C126_found_partial.
Lemma centre_near eps big D r ts po tp vs cache : sphere_placed eps big D r ts po tp vs cache -> forall v, In v vs -> dist v (centre_in ts tp) + r < big.
Proof.
  intros (_ & _ & _ & _ & DB & _ & U & _ & _ & W & _) v Hv. specialize (W v Hv). rewrite <- (centre_world ts tp U), tr_isometry in W by exact U. lra.
Qed.
(** The contact ends the overlap up to the error. *)
Theorem C126_separates_partial : forall eps big D report (first : bool) r ts po tp vs cache fuel hit l c, sphere_placed eps big D r ts po tp vs cache ->
  no_slivers (if first then differences [V3 0 0 0] ts vs tp else differences vs tp [V3 0 0 0] ts) ->
  sphere_polyhedron eps big fuel report first r ts po tp cache = Ok (hit, l) -> In c l ->
  if first then nearly_separates (gjk_error eps D) (sphere_core ts) (hull_core vs tp) r 0 (c_normal c) (c_depth c)
  else nearly_separates (gjk_error eps D) (hull_core vs tp) (sphere_core ts) 0 r (c_normal c) (c_depth c).
Proof.
  intros eps big D report first r ts po tp vs cache fuel hit l c P NS H Hc. unfold sphere_polyhedron in H. cbv zeta in H.
  assert (SAT : Ok (sat_sphere big report first r ts po tp) = Ok (hit, l) -> exists f : vec3 * vec3, c_normal c = (if first then vneg (quat_vec (t_rot tp) (fst f)) else quat_vec (t_rot tp) (fst f)) /\
     forall q, hull_core vs tp q -> r <= dist (t_pos ts) (shifted q (vneg (quat_vec (t_rot tp) (fst f))) (c_depth c))).
  { intros E. injection E as E. assert (F : fst (sat_sphere big report first r ts po tp) = true) by (destruct (sat_sphere big report first r ts po tp) as [[|] l1] eqn:S; [reflexivity|];
      exfalso; injection E as <- <-; unfold sat_sphere in S; cbv zeta in S; destruct (sphere_faces _ _ _ _) as [[? ?]|]; [discriminate S|injection S as <-; elim Hc]).
    destruct (sat_found big report first r ts po tp vs ltac:(apply P) (centre_near _ _ _ _ _ _ _ _ _ P) F) as (f & depth & Hf & Ed & Dp & MIN & EL). rewrite E in EL. cbv zeta in EL. cbn [snd] in EL.
    destruct report; [|subst l; elim Hc]. subst l. destruct Hc as [<-|[]]. exists f. cbn [c_normal c_depth]. split; [reflexivity|].
    apply (face_separates vs (po_faces po) tp ts r f depth); try apply P; assumption. }
  pose proof (error_pos eps D) as EP. destruct first.
  - destruct (gjk _ _ _ _ _ _ _ _ _) as [[[x l0] c0]| |] eqn:E; cbn [bind fst snd] in H; try discriminate. destruct x; [injection H as <- <-; elim Hc| |].
    + injection H as <- <-. pose proof (C125_separates_partial _ _ _ _ _ _ _ _ _ _ _ _ _ _ _ _ (sphere_first _ _ _ _ _ _ _ _ _ P) NS E Hc) as K. cbn [cs_margin] in K.
      intros p q Hp Hq. apply K; [now apply sphere_hull|exact Hq].
    + destruct (SAT H) as (f & En & S). intros p q -> Hq. rewrite En. specialize (S q Hq). lra.
  - destruct (gjk _ _ _ _ _ _ _ _ _) as [[[x l0] c0]| |] eqn:E; cbn [bind fst snd] in H; try discriminate. destruct x; [injection H as <- <-; elim Hc| |].
    + injection H as <- <-. pose proof (C125_separates_partial _ _ _ _ _ _ _ _ _ _ _ _ _ _ _ _ (sphere_second _ _ _ _ _ _ _ _ _ P) NS E Hc) as K. cbn [cs_margin] in K.
      intros p q Hp Hq. apply K; [exact Hp|now apply sphere_hull].
    + destruct (SAT H) as (f & En & S). intros p q Hp ->. rewrite En. specialize (S p Hp). rewrite dist_sym.
      replace (dist (shifted (t_pos ts) (quat_vec (t_rot tp) (fst f)) (c_depth c)) p) with (dist (t_pos ts) (shifted p (vneg (quat_vec (t_rot tp) (fst f))) (c_depth c))); [lra|].
      unfold dist, shifted, vneg. cbn [vx vy vz]. f_equal. ring.
Qed.
Print Assumptions C126_separates_partial.
(** A sphere whose centre is inside the polyhedron, as given to the separating axis test: it is found, its contact is exact, and no
    shorter translation ends the overlap. *)
Theorem C126_deep : forall eps big D (report first : bool) r ts po tp vs cache, sphere_placed eps big D r ts po tp vs cache -> hull_core vs tp (t_pos ts) ->
  exists l, sat_sphere big report first r ts po tp = (true, l) /\ length l = (if report then 1 else 0)%nat /\
  forall c, In c l -> (if first then contact_ok 0 (sphere_core ts) (hull_core vs tp) r 0 ts tp c else contact_ok 0 (hull_core vs tp) (sphere_core ts) 0 r tp ts c) /\
  forall m, vlen m < c_depth c -> exists q, hull_core vs tp q /\ dist (vadd (t_pos ts) m) q < r.
Proof.
  intros eps big D report first r ts po tp vs cache P IN.
  pose proof (centre_near _ _ _ _ _ _ _ _ _ P) as CN. destruct P as (_ & _ & _ & _ & _ & Us & U & _ & FO & _ & _ & Hr).
  pose proof (sat_inside big report first r ts po tp vs U FO Hr IN) as F.
  destruct (sat_found big report first r ts po tp vs FO CN F) as (f & depth & Hf & Ed & Dp & MIN & EL). cbv zeta in EL.
  exists (snd (sat_sphere big report first r ts po tp)). split; [destruct (sat_sphere _ _ _ _ _ _ _); cbn in *; now subst|]. rewrite EL.
  split; [now destruct report|]. intros c Hc. destruct report; [|elim Hc]. destruct Hc as [<-|[]].
  pose proof (deep_contact vs (po_faces po) tp ts r f depth U Us FO Hf Hr Ed MIN IN) as G. cbv zeta in G. split.
  - destruct first; unfold contact_ok; cbn [c_normal c_depth c_local1 c_local2]; [exact G|]. apply good_flip in G.
    replace (vneg (vneg (quat_vec (t_rot tp) (fst f)))) with (quat_vec (t_rot tp) (fst f)) in G by (generalize (quat_vec (t_rot tp) (fst f)); clear; vring). exact G.
  - cbn [c_depth]. apply (deep_minimal vs (po_faces po) tp ts r depth U FO Hr MIN).
    rewrite Ed. destruct FO as (_ & _ & HF). destruct IN as (c0 & Hc & Ec). rewrite <- (centre_world ts tp U) in Ec. apply tr_point_inj in Ec; [|exact U]. subst c0.
    apply HF in Hc. rewrite behind_faces in Hc. specialize (Hc f Hf). unfold sphere_face_depth.
    replace (vdot (vsub (snd f) (centre_in ts tp)) (fst f)) with (- vdot (vsub (centre_in ts tp) (snd f)) (fst f)) by (generalize (snd f), (fst f), (centre_in ts tp); clear; vring). lra.
Qed.
Print Assumptions C126_deep.
(** A sphere of radius five centimetres, two centimetres deep in a box of nine centimetres, is not found. *)
Theorem C126_small_refuted : forall eps big report, 0 < eps <= / 1000 -> 4 < big ->
  sphere_placed eps big 1 (5 / 100) (away small_c) small_poly here (box_corners small_h) None /\
  (exists q, hull_core (box_corners small_h) here q /\ dist (t_pos (away small_c)) q < 5 / 100 - 19 / 1000) /\
  sphere_polyhedron eps big 100 report false (5 / 100) (away small_c) small_poly here None = Ok (false, []).
Proof.
  intros eps big report HE HB. destruct (C125_small_refuted eps big report HE HB) as (P & (p & q & Hp & Hq & L) & G). split; [|split].
  - destruct P as (P1 & P2 & P3 & P4 & P5 & P6 & P7 & P8 & P9 & P10 & _). unfold sphere_placed. repeat (split; [assumption|]). split; [lra|].
    split; [exact P6|]. split; [exact P5|]. split; [exact P7|]. split; [apply box_faces_of; unfold small_h; cbn [vx vy vz]; lra|].
    split; [|split; [exact P10|lra]]. intros v Hv. rewrite <- (tr_point_zero (away small_c)). apply P9; [exact Hv|now left].
  - exists p. split; [exact Hp|]. apply sphere_hull in Hq. rewrite <- Hq, dist_sym. cbn [cs_margin small_box small_sphere] in L. lra.
  - unfold sphere_polyhedron. cbv zeta. change (CShape (po_support small_poly) 0) with small_box. change (CShape sphere_support0 (5 / 100)) with small_sphere. rewrite G. reflexivity.
Qed.
Print Assumptions C126_small_refuted.
Example C126_not_vacuous : sphere_placed (/ 1000) 1000 10 1 (away one_c) one_poly here (box_corners one_h) None /\ / 1000 * Rmax 1 (10 * 10) < 1 * 1 /\
  no_slivers (differences (box_corners one_h) here [V3 0 0 0] (away one_c)) /\
  (exists c, sphere_polyhedron (/ 1000) 1000 1000 true false 1 (away one_c) one_poly here None = Ok (true, [c]) /\ c_depth c = 1 / 2).
Proof.
  split; [|split; [rewrite Rmax_right; lra|split; [exact one_no_slivers|]]].
  - destruct one_placed as (P1 & P2 & P3 & P4 & P5 & P6 & P7 & P8 & P9 & P10 & _). unfold sphere_placed. repeat (split; [assumption|]). split; [lra|].
    split; [exact P6|]. split; [exact P5|]. split; [exact P7|]. split; [apply box_faces_of; unfold one_h; cbn [vx vy vz]; lra|].
    split; [|split; [exact P10|lra]]. intros v Hv. rewrite <- (tr_point_zero (away one_c)). apply P9; [exact Hv|now left].
  - destruct (one_run (/ 1000) 1000 998) as (c & G & D); [lra|lra|]. exists c. split; [|exact D].
    unfold sphere_polyhedron. cbv zeta. change (CShape (po_support one_poly) 0) with one_box. change (CShape sphere_support0 1) with one_sphere. change 1000%nat with (S (S 998)). rewrite G. reflexivity.
Qed.
(** A sphere at the centre of the box. *)
Example C126_deep_case : exists l, sat_sphere 1000 true true 1 (away (V3 0 0 0)) one_poly here = (true, l) /\ length l = 1%nat.
Proof.
  assert (P : sphere_placed (/ 1000) 1000 10 1 (away (V3 0 0 0)) one_poly here (box_corners one_h) None).
  { destruct one_placed as (P1 & P2 & P3 & P4 & P5 & P6 & P7 & P8 & P9 & P10 & _). unfold sphere_placed. repeat (split; [assumption|]). split; [lra|].
    split; [exact P6|]. split; [exact P5|]. split; [exact P7|]. split; [apply box_faces_of; unfold one_h; cbn [vx vy vz]; lra|].
    split; [|split; [exact P10|lra]]. intros p Hp. rewrite here_point. apply Rlt_le, dist_lt_sq; [lra|]. unfold one_h in *. cbn [t_pos away].
    cbn [box_corners In vx vy vz] in Hp. repeat (destruct Hp as [<-|Hp]; [rcalc|]). elim Hp. }
  assert (IN : hull_core (box_corners one_h) here (t_pos (away (V3 0 0 0)))).
  { exists (V3 0 0 0). split; [|now rewrite here_point]. apply box_hull; unfold one_h, cuboid; cbn [vx vy vz]; lra. }
  destruct (C126_deep (/ 1000) 1000 10 true true 1 _ _ _ _ _ P IN) as (l & E & L & _). exists l. split; [exact E|exact L].
Qed.
