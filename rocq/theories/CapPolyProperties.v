(** C143-C144: the test of a capsule against a convex polyhedron. *)
From Coq Require Import Reals Lra Psatz List Bool Arith Lia ZArith.
From Verif Require Import Base VecModel VecProofs GeomModel GeomSpec GeomProofs HalfEdgeModel ShapeModel ShapeSpec ShapeProofs ShapeMeshProofs NarrowModel NarrowSpec NarrowProofs NarrowCapsuleProofs GjkModel GjkSpec GjkShapeProofs GjkVertexProofs GjkProperties SatModel SatSpec GeomProperties LinAlgProperties SatProofs SatEdgeProofs SatClipProofs CapSatModel CapSatSpec CapSatProofs CapSatContactProofs SatFullProofs SatRunProofs SatBoxProofs SatCaseProofs CapSatCaseProofs CapSatBoxProofs CapSatProperties CapPolyModel CapPolySpec CapPolyProofs CapPolyCaseProofs.
Import ListNotations.
Local Open Scope R_scope.

(** The three answers of GJK. *)
Lemma cap_poly_cases eps big D fuel report first hh r p tc tp cache b cs : cap_poly_setting eps big D hh r p tc tp cache ->
  capsule_polyhedron eps big fuel report first hh r p tc tp cache = Ok (b, cs) ->
  (b = false /\ cs = [] /\ (cap_no_slivers first hh p tc tp -> forall x y, body_of p tp x -> cap_core hh tc y -> r - gjk_error eps D <= dist y x)) \/
  (b = true /\ (exists x y, body_of p tp x /\ cap_core hh tc y /\ dist y x < r) /\ (report = false -> cs = []) /\
   (report = true -> exists c more, cs = c :: more /\ shallow_faces eps fuel first hh r p tc tp c (seq 0 (length (so_faces p))) = Ok more /\
     (if first then near_contact (cap_core hh tc) (body_of p tp) r 0 (c_normal c) (c_depth c) (tr_point tc (c_local1 c)) (tr_point tp (c_local2 c))
      else near_contact (body_of p tp) (cap_core hh tc) 0 r (c_normal c) (c_depth c) (tr_point tp (c_local1 c)) (tr_point tc (c_local2 c))) /\
     (cap_no_slivers first hh p tc tp -> if first then nearly_separates (gjk_error eps D) (cap_core hh tc) (body_of p tp) r 0 (c_normal c) (c_depth c)
      else nearly_separates (gjk_error eps D) (body_of p tp) (cap_core hh tc) 0 r (c_normal c) (c_depth c)))) \/
  (sat_capsule eps big fuel report first hh r p tc tp = Ok (b, cs) /\ exists x y, body_of p tp x /\ cap_core hh tc y /\ dist y x * dist y x <= eps * Rmax 1 (D * D)).
Proof.
  intros P H. pose proof P as (S & _). assert (Hh : 0 <= hh) by (destruct S as (_ & _ & ? & _); lra). unfold capsule_polyhedron in H. cbv zeta in H. destruct first.
  - pose proof (cap_first _ _ _ _ _ _ _ _ _ P) as PL. destruct (gjk _ _ _ _ _ _ _ _ _) as [[[x l] c0]| |] eqn:E; cbn [bind fst snd] in H; try discriminate. destruct x.
    + left. inversion H; subst. split; [reflexivity|]. split; [reflexivity|]. intros NS x y Hx Hy. pose proof (C125_found_partial _ _ _ _ _ _ _ _ _ _ _ _ _ _ PL NS E y x (proj2 (core_capsule hh tc y Hh) Hy) Hx) as K. cbn [cs_margin] in K. lra.
    + right. left. assert (OV : exists x y, body_of p tp x /\ cap_core hh tc y /\ dist y x < r).
      { destruct (C124_overlap _ _ _ _ _ _ _ _ _ _ _ _ _ _ PL E) as (y & x & Hy & Hx & L). cbn [cs_margin] in L. exists x, y. split; [exact Hx|]. split; [now apply core_capsule|lra]. }
      pose proof (C124_reported _ _ _ _ _ _ _ _ _ _ _ _ E) as L. cbn beta iota in L. destruct report.
      * destruct l as [|c l]; [discriminate L|]. destruct l; [|discriminate L]. cbn [nth_error rd bind] in H. destruct (shallow_faces _ _ _ _ _ _ _ _ _ _) as [more| |] eqn:Em; cbn [bind] in H; try discriminate. inversion H; subst.
        split; [reflexivity|]. split; [exact OV|]. split; [discriminate|]. intros _. exists c, more. split; [reflexivity|]. split; [exact Em|]. split.
        -- pose proof (C124_contact _ _ _ _ _ _ _ _ _ _ _ _ _ _ _ c PL E (or_introl eq_refl)) as NC. cbn [cs_margin] in NC. destruct NC as [N1 N2 (q & Hq & N3) N4 N5]. constructor; auto. exists q. split; [now apply core_capsule|exact N3].
        -- intros NS y x Hy Hx. pose proof (C125_separates_partial _ _ _ _ _ _ _ _ _ _ _ _ _ _ _ c PL NS E (or_introl eq_refl) y x (proj2 (core_capsule hh tc y Hh) Hy) Hx) as K. cbn [cs_margin] in K. exact K.
      * destruct l; [|discriminate L]. inversion H; subst. repeat (split; [first [reflexivity|exact OV|auto]|]). discriminate.
    + right. right. split; [exact H|]. destruct (C125_deep _ _ _ _ _ _ _ _ _ _ _ _ _ _ PL E) as (y & x & Hy & Hx & L). exists x, y. split; [exact Hx|]. split; [now apply core_capsule|exact L].
  - pose proof (cap_second _ _ _ _ _ _ _ _ _ P) as PL. destruct (gjk _ _ _ _ _ _ _ _ _) as [[[x l] c0]| |] eqn:E; cbn [bind fst snd] in H; try discriminate. destruct x.
    + left. inversion H; subst. split; [reflexivity|]. split; [reflexivity|]. intros NS x y Hx Hy. pose proof (C125_found_partial _ _ _ _ _ _ _ _ _ _ _ _ _ _ PL NS E x y Hx (proj2 (core_capsule hh tc y Hh) Hy)) as K. cbn [cs_margin] in K. rewrite dist_sym. lra.
    + right. left. assert (OV : exists x y, body_of p tp x /\ cap_core hh tc y /\ dist y x < r).
      { destruct (C124_overlap _ _ _ _ _ _ _ _ _ _ _ _ _ _ PL E) as (x & y & Hx & Hy & L). cbn [cs_margin] in L. exists x, y. split; [exact Hx|]. split; [now apply core_capsule|rewrite dist_sym; lra]. }
      pose proof (C124_reported _ _ _ _ _ _ _ _ _ _ _ _ E) as L. cbn beta iota in L. destruct report.
      * destruct l as [|c l]; [discriminate L|]. destruct l; [|discriminate L]. cbn [nth_error rd bind] in H. destruct (shallow_faces _ _ _ _ _ _ _ _ _ _) as [more| |] eqn:Em; cbn [bind] in H; try discriminate. inversion H; subst.
        split; [reflexivity|]. split; [exact OV|]. split; [discriminate|]. intros _. exists c, more. split; [reflexivity|]. split; [exact Em|]. split.
        -- pose proof (C124_contact _ _ _ _ _ _ _ _ _ _ _ _ _ _ _ c PL E (or_introl eq_refl)) as NC. cbn [cs_margin] in NC. destruct NC as [N1 N2 N3 (q & Hq & N4) N5]. constructor; auto. exists q. split; [now apply core_capsule|exact N4].
        -- intros NS x y Hx Hy. pose proof (C125_separates_partial _ _ _ _ _ _ _ _ _ _ _ _ _ _ _ c PL NS E (or_introl eq_refl) x y Hx (proj2 (core_capsule hh tc y Hh) Hy)) as K. cbn [cs_margin] in K. exact K.
      * destruct l; [|discriminate L]. inversion H; subst. repeat (split; [first [reflexivity|exact OV|auto]|]). discriminate.
    + right. right. split; [exact H|]. destruct (C125_deep _ _ _ _ _ _ _ _ _ _ _ _ _ _ PL E) as (x & y & Hx & Hy & L). exists x, y. split; [exact Hx|]. split; [now apply core_capsule|rewrite dist_sym; exact L].
Qed.

(** ** C143: a capsule and a polyhedron collide exactly if the test says so, up to its error *)

(** The test comes to an end, and without undefined behaviour if no contacts are asked for.  Missing for the full claim: computing contacts may read beyond the
    end of an array (see [C141_read_refuted]). *)
Theorem C143_total_partial : forall eps big D fuel report first hh r p tc tp cache, cap_poly_setting eps big D hh r p tc tp cache ->
  let m := (2 * length (so_verts p))%nat in (m * m * m + m * m + m + 2 < fuel)%nat -> (length (st_edges (so_edges p)) <= fuel)%nat ->
  capsule_polyhedron eps big fuel report first hh r p tc tp cache <> Fuel /\
  (report = false -> exists b, capsule_polyhedron eps big fuel report first hh r p tc tp cache = Ok (b, [])).
Proof.
  intros eps big D fuel report first hh r p tc tp cache P m L LE. pose proof P as (S & _). pose proof (C141_total_partial eps big fuel report first hh r p tc tp S LE) as T.
  assert (G : exists x, (if first then gjk eps big fuel report (CShape (capsule_support0 hh) r) (CShape (so_support p) 0) tc tp cache else gjk eps big fuel report (CShape (so_support p) 0) (CShape (capsule_support0 hh) r) tp tc cache) = Ok x /\
    length (snd (fst x)) = match fst (fst x) with InMargin => if report then 1 else 0 | _ => 0 end%nat).
  { destruct first.
    - destruct (C123_answers eps big D report _ _ tc tp _ _ cache fuel (cap_first _ _ _ _ _ _ _ _ _ P)) as ([[x l] c'] & E); [cbn [length capsule_ends]; fold m; lia|]. exists (x, l, c'). split; [exact E|exact (C124_reported _ _ _ _ _ _ _ _ _ _ _ _ E)].
    - destruct (C123_answers eps big D report _ _ tp tc _ _ cache fuel (cap_second _ _ _ _ _ _ _ _ _ P)) as ([[x l] c'] & E); [cbn [length capsule_ends]; rewrite (Nat.mul_comm (length (so_verts p)) 2); fold m; lia|]. exists (x, l, c'). split; [exact E|exact (C124_reported _ _ _ _ _ _ _ _ _ _ _ _ E)]. }
  destruct G as ([[x l] c'] & E & Ll). unfold capsule_polyhedron. cbv zeta. rewrite E. cbn [bind fst snd] in *. destruct x; [split; [discriminate|eauto]| |exact T].
  destruct report; [|split; [discriminate|]; intros _; destruct l; [eauto|discriminate Ll]]. split; [|discriminate]. destruct l as [|c l]; [discriminate Ll|]. cbn [nth_error rd bind].
  pose proof (shallow_no_fuel eps big hh r p tc tp S fuel first c LE (seq 0 (length (so_faces p)))) as N. destruct (shallow_faces _ _ _ _ _ _ _ _ _ _); cbn [bind]; congruence.
Qed.
Print Assumptions C143_total_partial.

(** A capsule reported to collide is closer to the polyhedron than its radius. *)
Theorem C143_hit : forall eps big D fuel report first hh r p tc tp cache cs, cap_poly_setting eps big D hh r p tc tp cache -> eps * Rmax 1 (D * D) < r * r ->
  capsule_polyhedron eps big fuel report first hh r p tc tp cache = Ok (true, cs) -> exists x y, body_of p tp x /\ cap_core hh tc y /\ dist y x < r.
Proof.
  intros eps big D fuel report first hh r p tc tp cache cs P LE H. destruct (cap_poly_cases _ _ _ _ _ _ _ _ _ _ _ _ _ _ P H) as [(X & _)|[(_ & OV & _)|(_ & x & y & Hx & Hy & L)]]; [discriminate|exact OV|].
  exists x, y. split; [exact Hx|]. split; [exact Hy|]. destruct P as ((_ & _ & _ & Hr & _) & _). nra.
Qed.
Print Assumptions C143_hit.

(** Overlaps deeper than the error are found.  Missing for the full claim: the shapes must not be tiny, and if contacts are asked for a capsule may be missed whose
    deepest end is beside the face of least depth (see [C141_missed_refuted]). *)
Theorem C143_found_partial : forall eps big D fuel report first hh r p tc tp cache cs, cap_poly_setting eps big D hh r p tc tp cache -> cap_no_slivers first hh p tc tp ->
  capsule_polyhedron eps big fuel report first hh r p tc tp cache = Ok (false, cs) -> cs = [] /\
  ((forall x y, body_of p tp x -> cap_core hh tc y -> r - gjk_error eps D <= dist y x) \/
   (report = true /\ exists f n d, face_normal p tp f = Some n /\ depth_along n (body_of p tp) (cap_body hh r tc) d /\ cap_misses hh p tc tp f (d - r))).
Proof.
  intros eps big D fuel report first hh r p tc tp cache cs P NS H. destruct (cap_poly_cases _ _ _ _ _ _ _ _ _ _ _ _ _ _ P H) as [(_ & -> & F)|[(X & _)|(H' & _)]]; [split; [reflexivity|left; now apply F]|discriminate|].
  pose proof P as (S & _). destruct (C141_apart_partial _ _ _ _ _ _ _ _ _ _ _ S H') as (-> & C). split; [reflexivity|]. destruct C as [A|C]; [left|now right].
  intros x y Hx Hy. pose proof (apart_far eps big hh r p tc tp S x y A Hx Hy). pose proof (error_pos eps D). lra.
Qed.
Print Assumptions C143_found_partial.

(** Moving the second shape along the normal of the first contact by its depth ends the overlap up to the error.  Missing for the full claim: the shapes must
    not be tiny. *)
Theorem C143_separates_partial : forall eps big D D0 fuel (first : bool) hh r p tc tp cache c more, cap_poly_setting eps big D hh r p tc tp cache -> cap_no_slivers first hh p tc tp ->
  (forall x y, body_of p tp x -> cap_body hh r tc y -> dist x y <= D0) -> D0 < big ->
  capsule_polyhedron eps big fuel true first hh r p tc tp cache = Ok (true, c :: more) ->
  if first then nearly_separates (gjk_error eps D) (cap_core hh tc) (body_of p tp) r 0 (c_normal c) (c_depth c)
  else nearly_separates (gjk_error eps D) (body_of p tp) (cap_core hh tc) 0 r (c_normal c) (c_depth c).
Proof.
  intros eps big D D0 fuel first hh r p tc tp cache c more P NS NE LB H. pose proof P as (S & _). destruct (cap_poly_cases _ _ _ _ _ _ _ _ _ _ _ _ _ _ P H) as [(X & _)|[(_ & _ & _ & C)|(H' & _)]]; [discriminate| |].
  - destruct (C eq_refl) as (c' & more' & E & _ & _ & K). inversion E; subst. now apply K.
  - destruct (C142_contacts eps big D0 fuel first hh r p tc tp _ S NE LB H') as (_ & m & d & DA & _ & _ & Cn & _). destruct (Cn c (or_introl eq_refl)) as (E1 & E2). pose proof (error_pos eps D) as EP.
    assert (F : forall x y, body_of p tp x -> cap_core hh tc y -> r <= dist (vadd y (vscale d m)) x).
    { intros x y Hx (s & Hs & ->). destruct DA as (U & M & _). pose proof S as (_ & _ & _ & Hr & Qc & _).
      set (k := quat_vec (quat_inverse (t_rot tc)) m). assert (Uk : quat_vec (t_rot tc) k = m) by (unfold k; now apply JointPositionAxisProofs.quat_vec_inverse_r).
      assert (Lk : vlen k = 1) by (unfold vlen in *; rewrite <- Uk, vlen2_turned in U by exact Qc; exact U).
      assert (B : cap_body hh r tc (vsub (tr_point tc s) (vscale r m))) by (exists (vsub s (vscale r k)); split; [apply in_capsule; [exact Hs|lra|exact Lk]|]; now rewrite move_back, Uk).
      specialize (M x _ Hx B). rewrite !vdot_vsub_r, vdot_vscale_r, (vlen_1 m U) in M.
      pose proof (cauchy_schwarz m (vsub (vadd (tr_point tc s) (vscale d m)) x)) as CS. rewrite U, <- dist_vlen, Rmult_1_l in CS.
      rewrite vdot_vsub_r in CS. replace (vdot m (vadd (tr_point tc s) (vscale d m))) with (vdot m (tr_point tc s) + d * vdot m m) in CS by (generalize (tr_point tc s); clear; intros; vring). rewrite (vlen_1 m U) in CS. lra. }
    rewrite E1, E2. destruct first.
    + intros y x Hy Hx. specialize (F x y Hx Hy). replace (dist y (shifted x (vneg m) d)) with (dist (vadd y (vscale d m)) x); [lra|]. unfold dist, shifted, vadd, vscale, vneg. cbn [vx vy vz]. f_equal. ring.
    + intros x y Hx Hy. specialize (F x y Hx Hy). rewrite shifted_eq, dist_sym. lra.
Qed.
Print Assumptions C143_separates_partial.

(** ** C144: the contacts *)
Theorem C144_contacts : forall eps big D D0 fuel first hh r p tc tp cache cs, cap_poly_setting eps big D hh r p tc tp cache ->
  (forall x y, body_of p tp x -> cap_body hh r tc y -> dist x y <= D0) -> D0 < big ->
  capsule_polyhedron eps big fuel true first hh r p tc tp cache = Ok (true, cs) ->
  shallow_contacts first hh r p tc tp cs \/ deep_contacts eps first hh r p tc tp cs.
Proof.
  intros eps big D D0 fuel first hh r p tc tp cache cs P NE LB H. pose proof P as (S & _). destruct (cap_poly_cases _ _ _ _ _ _ _ _ _ _ _ _ _ _ P H) as [(X & _)|[(_ & _ & _ & C)|(H' & _)]]; [discriminate| |].
  - left. destruct (C eq_refl) as (c & more & -> & Em & NC & _). exists c, more. split; [reflexivity|]. split; [exact NC|]. split; [now apply shallow_short in Em|].
    destruct (shallow_ok eps big hh r p tc tp S fuel first c _ _ Em) as [E|(f & n & Ef & To & Pa & K)]; [now left|right]. exists f, n. split; [exact Ef|]. split; [|auto]. destruct first; [|lra].
    replace (vdot n (vneg (c_normal c))) with (- vdot n (c_normal c)) by (generalize (c_normal c); clear; intros; vring). lra.
  - right. exact (C142_contacts eps big D0 fuel first hh r p tc tp cs S NE LB H').
Qed.
Print Assumptions C144_contacts.

(** A capsule above a cube: too thin to touch it, or thick enough. *)
Example C143_case : forall fuel first, let m := (2 * length (so_verts cube))%nat in (m * m * m + m * m + m + 2 < fuel)%nat -> box_solid (V3 1 1 1) = Ok cube /\
  cap_poly_setting (/ 1000000) 1000 7 1 1 cube above stay None /\ cap_no_slivers first 1 cube above stay /\ / 1000000 * Rmax 1 (7 * 7) < 1 * 1 /\
  capsule_polyhedron (/ 1000000) 1000 fuel false first 1 1 cube above stay None = Ok (false, []).
Proof.
  intros fuel first m L. split; [apply box_solid_eq|]. pose proof (cube_setting 1 ltac:(lra)) as P. split; [exact P|]. split; [apply cube_no_slivers|]. assert (LE : / 1000000 * Rmax 1 (7 * 7) < 1 * 1) by (rewrite Rmax_right by lra; lra). split; [exact LE|].
  destruct (C143_total_partial (/ 1000000) 1000 7 fuel false first 1 1 cube above stay None P L) as (_ & T); [cbn in L |- *; lia|]. destruct (T eq_refl) as ([|] & E); [|exact E].
  destruct (C143_hit _ _ _ _ _ _ _ _ _ _ _ _ _ P LE E) as (x & y & Hx & Hy & D). pose proof (cube_far x y Hx Hy). lra.
Qed.
Example C144_case : forall fuel first, (16 * 16 * 16 + 16 * 16 + 16 + 2 < fuel)%nat ->
  cap_poly_setting (/ 1000000) 1000 7 1 (11 / 5) cube above stay None /\ cap_no_slivers first 1 cube above stay /\ / 1000000 * Rmax 1 (7 * 7) < 11 / 5 * (11 / 5) /\
  (forall x y, body_of cube stay x -> cap_body 1 (11 / 5) above y -> dist x y <= 20) /\
  exists c, capsule_polyhedron (/ 1000000) 1000 fuel true first 1 (11 / 5) cube above stay None = Ok (true, [c]).
Proof.
  intros fuel first L. split; [apply cube_setting; lra|]. split; [apply cube_no_slivers|]. split; [rewrite Rmax_right by lra; lra|]. split; [exact cube_near|now apply standing_above].
Qed.
