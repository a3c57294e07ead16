(** C141-C142: the separating axis test of a capsule and a convex polyhedron. *)
From Coq Require Import Reals Lra Psatz List Bool Arith Lia.
From Verif Require Import Base VecModel VecProofs GeomModel GeomSpec GeomProofs HalfEdgeModel ShapeModel ShapeSpec ShapeProofs ShapeMeshProofs GjkSpec NarrowModel NarrowSpec NarrowProofs NarrowCapsuleProofs GjkShapeProofs SatModel SatSpec GeomProperties LinAlgProperties SatProofs SatEdgeProofs SatClipProofs CapSatModel CapSatSpec CapSatProofs CapSatContactProofs SatFullProofs SatRunProofs SatBoxProofs SatCaseProofs CapSatCaseProofs CapSatBoxProofs CapSatEdgeProofs.
Import ListNotations.
Local Open Scope R_scope.

(** ** C141: a capsule and a polyhedron reported apart are apart *)

(** The test comes to an end, and without undefined behaviour if no contacts are asked for.  Missing for the full claim: computing the contacts may read
    beyond the end of an array (see [C141_read_refuted]). *)
Theorem C141_total_partial : forall eps big fuel report first hh r p tc tp, cap_setting eps big hh r p tc tp -> (length (st_edges (so_edges p)) <= fuel)%nat ->
  sat_capsule eps big fuel report first hh r p tc tp <> Fuel /\ (report = false -> exists b, sat_capsule eps big fuel report first hh r p tc tp = Ok (b, [])).
Proof.
  intros eps big fuel report first hh r p tc tp S L. rewrite sat_capsule_eq. destruct (cap_search eps big hh r p tc tp S) as (out & -> & _). cbn [bind]. destruct out as [((d, what), axis)|]; [|split; [discriminate|eauto]].
  unfold answer. cbv zeta. destruct report; [|split; [discriminate|eauto]]. split; [|discriminate]. destruct what as [f|v1 v2]; [|destruct (closest_segments _ _ _ _ _); discriminate]. eapply contacts_no_fuel; [exact S|exact L].
Qed.
Print Assumptions C141_total_partial.

(** Missing for the full claim: the second case is a failure of the test (see [C141_missed_refuted]).  It does not occur if no contacts are asked for. *)
Theorem C141_apart_partial : forall eps big fuel report first hh r p tc tp cs, cap_setting eps big hh r p tc tp ->
  sat_capsule eps big fuel report first hh r p tc tp = Ok (false, cs) ->
  cs = [] /\ (apart (body_of p tp) (cap_body hh r tc) \/
              (report = true /\ exists f n D, face_normal p tp f = Some n /\ depth_along n (body_of p tp) (cap_body hh r tc) D /\ cap_misses hh p tc tp f (D - r))).
Proof.
  intros eps big fuel report first hh r p tc tp cs S H. destruct (cap_cases eps big hh r p tc tp S fuel report first false cs H) as [(_ & -> & n & d & DA & L)|[(X & _)|[(_ & X & _)|(-> & n & D & DA & _ & NE & _ & C)]]]; try discriminate.
  - split; [reflexivity|]. left. exists n. now apply depth_apart with d.
  - assert (E : cs = []). { destruct cs as [|c cs]; [reflexivity|]. exfalso. assert (X : false = true) by (apply NE; discriminate). discriminate. }
    split; [exact E|]. right. split; [reflexivity|]. destruct C as [(f & Ef & M & _)|(c & X & _)]; [|congruence]. exists f, n, D. auto.
Qed.
Print Assumptions C141_apart_partial.

(** A capsule and a polyhedron that a face separates are reported apart. *)
Theorem C141_face_separates : forall eps big fuel report first hh r p tc tp b cs f n, cap_setting eps big hh r p tc tp ->
  sat_capsule eps big fuel report first hh r p tc tp = Ok (b, cs) -> face_normal p tp f = Some n -> apart_along n (body_of p tp) (cap_body hh r tc) -> b = false.
Proof.
  intros eps big fuel report first hh r p tc tp b cs f n S H En (_ & c & A1 & A2).
  assert (N : forall D, ~ least hh r p tc tp D).
  { intros D (P & M). destruct (face_index eps big hh r p tc tp S f n En) as (_ & d & nc & Ed & ->). destruct (face_depth_world eps big hh r p tc tp S f d nc Ed) as (_ & DA). specialize (M f _ d En DA).
    destruct DA as (_ & _ & x & y & Hx & Hy & E). specialize (A1 x Hx). specialize (A2 y Hy). rewrite vdot_vsub_r in E. lra. }
  destruct (cap_cases eps big hh r p tc tp S fuel report first b cs H) as [(-> & _)|[(_ & L)|[(_ & _ & _ & D & L)|(_ & n' & D & _ & L & _)]]]; [reflexivity| | |]; destruct (N _ L).
Qed.
Print Assumptions C141_face_separates.
(** A capsule beside a box. *)
Example C141_case : forall eps big fuel first, 0 < eps <= / 1000 -> 4 < big -> (24 <= fuel)%nat -> let tc := place (V3 (/ 25) (/ 100) 0) in
  cap_setting eps big (/ 50) (/ 50) small tc stay /\ sat_capsule eps big fuel false first (/ 50) (/ 50) small tc stay = Ok (false, []) /\
  apart (body_of small stay) (cap_body (/ 50) (/ 50) tc).
Proof.
  intros eps big fuel first He Hb Hf tc. assert (S : cap_setting eps big (/ 50) (/ 50) small tc stay) by (apply small_setting; [exact He|exact Hb|apply place_unit]). split; [exact S|].
  assert (AP : apart_along (V3 1 0 0) (body_of small stay) (cap_body (/ 50) (/ 50) tc)).
  { split; [apply unit_1; ring|]. exists (/ 50). split.
    - intros p Hp. apply in_small in Hp. unfold cuboid, vdot in *. cbn [vx vy vz] in *. lra.
    - intros q Hq. apply (cap_low _ _ _ (V3 1 0 0) (/ 25)) in Hq; [lra|apply place_unit|apply unit_1; ring| |]; unfold tc; rewrite place_point; unfold vdot, seg_a, seg_b; cbn; lra. }
  split; [|now exists (V3 1 0 0)]. destruct (C141_total_partial eps big fuel false first (/ 50) (/ 50) small tc stay S Hf) as (_ & T). destruct (T eq_refl) as (b & E). rewrite E.
  rewrite (C141_face_separates eps big fuel false first (/ 50) (/ 50) small tc stay b [] 1 (V3 1 0 0) S E); [reflexivity| |exact AP]. unfold face_normal. cbn. now rewrite stay_vec.
Qed.

(** A capsule and a box that share a ball are reported apart if contacts are asked for, and colliding if not: the end of the capsule that is deep in the
    box is beside the face of least depth, and the edges are not looked at since the box and the capsule are small. *)
Theorem C141_missed_refuted : exists hh r p tc tp, box_solid (V3 (/ 50) (/ 50) (/ 50)) = Ok p /\ (exists x d, 0 < d /\ forall y, dist x y < d -> body_of p tp y /\ cap_body hh r tc y) /\
  forall eps big fuel first, 0 < eps <= / 1000 -> 4 < big -> (24 <= fuel)%nat -> cap_setting eps big hh r p tc tp /\
    sat_capsule eps big fuel true first hh r p tc tp = Ok (false, []) /\ sat_capsule eps big fuel false first hh r p tc tp = Ok (true, []).
Proof.
  exists (/ 50), (/ 50), small, leaning, stay. split; [apply box_solid_eq|]. split; [exact leaning_share|]. intros eps big fuel first He Hb Hf. split; [apply small_setting; [exact He|exact Hb|exact leaning_unit]|].
  split; apply leaning_runs; assumption.
Qed.
Print Assumptions C141_missed_refuted.

(** Computing the contacts reads beyond the end of an array: a capsule almost along a side of a face is cut to one point. *)
Theorem C141_read_refuted : exists hh r p tc tp, box_solid (V3 (/ 50) (/ 50) (/ 50)) = Ok p /\
  forall eps big fuel first, 0 < eps <= / 1000 -> 4 < big -> (24 <= fuel)%nat -> cap_setting eps big hh r p tc tp /\ sat_capsule eps big fuel true first hh r p tc tp = Ub.
Proof.
  exists (/ 50), (/ 50), small, grazing, stay. split; [apply box_solid_eq|]. intros eps big fuel first He Hb Hf. split; [apply small_setting; [exact He|exact Hb|exact grazing_unit]|]. now apply grazing_runs.
Qed.
Print Assumptions C141_read_refuted.

(** ** C142: contacts of a capsule and a polyhedron *)

(** All contacts have one normal, a unit vector that leads from the first shape to the second, and one depth: that of the overlap along the normal, which
    no face undercuts.  They are contacts with a face of which that is the normal, or one contact with an edge. *)
Theorem C142_contacts : forall eps big D0 fuel first hh r p tc tp cs, cap_setting eps big hh r p tc tp ->
  (forall x y, body_of p tp x -> cap_body hh r tc y -> dist x y <= D0) -> D0 < big ->
  sat_capsule eps big fuel true first hh r p tc tp = Ok (true, cs) ->
  cs <> [] /\ exists n D, depth_along n (body_of p tp) (cap_body hh r tc) D /\ 0 < D /\
  (forall f m d, face_normal p tp f = Some m -> depth_along m (body_of p tp) (cap_body hh r tc) d -> D <= d) /\
  (forall c, In c cs -> c_normal c = (if first then vneg n else n) /\ c_depth c = D) /\
  ((exists f, face_normal p tp f = Some n /\
      forall c, In c cs -> cap_face_contact hh r p tc tp f n D (if first then c_local1 c else c_local2 c) (if first then c_local2 c else c_local1 c)) \/
   (exists c, cs = [c] /\ cap_edge_contact (2 * sqrt eps) hh r p tc tp n (if first then c_local1 c else c_local2 c) (if first then c_local2 c else c_local1 c))).
Proof.
  intros eps big D0 fuel first hh r p tc tp cs S NE LB H. destruct (cap_cases eps big hh r p tc tp S fuel true first true cs H) as [(X & _)|[(_ & L)|[(X & _)|(_ & n & D & DA & (P & M) & N & C & K)]]]; try discriminate.
  - exfalso. pose proof S as (_ & _ & _ & _ & _ & _ & O & _). destruct (so_normals p) as [|n0 ns] eqn:En.
    { destruct (ok_count _ _ O) as (X & _). rewrite En in X. pose proof (ok_some _ _ O). destruct (so_faces p); [congruence|discriminate]. }
    assert (FN : face_normal p tp 0 = Some (quat_vec (t_rot tp) n0)) by (unfold face_normal; now rewrite En). destruct (face_index eps big hh r p tc tp S 0 _ FN) as (_ & d & nc & Ed & E). destruct (face_depth_world eps big hh r p tc tp S 0 d nc Ed) as (_ & DA). rewrite <- E in DA.
    destruct L as (_ & M). specialize (M _ _ _ FN DA). pose proof (depth_dist _ _ _ _ _ DA NE). lra.
  - split; [now apply N|]. exists n, D. split; [exact DA|]. split; [exact P|]. split; [exact M|]. split; [exact C|]. destruct K as [(f & Ef & _ & K)|K]; [left; exists f; auto|now right].
Qed.
Print Assumptions C142_contacts.

(** Moving the capsule by the depth along the normal brings it in front of the polyhedron; by less does not. *)
Theorem C142_separates : forall eps big D0 fuel first hh r p tc tp cs c, cap_setting eps big hh r p tc tp ->
  (forall x y, body_of p tp x -> cap_body hh r tc y -> dist x y <= D0) -> D0 < big ->
  sat_capsule eps big fuel true first hh r p tc tp = Ok (true, cs) -> In c cs ->
  let n := if first then vneg (c_normal c) else c_normal c in
  apart_along n (body_of p tp) (shifted_set (cap_body hh r tc) n (c_depth c)) /\
  forall k, k < c_depth c -> ~ apart_along n (body_of p tp) (shifted_set (cap_body hh r tc) n k).
Proof.
  intros eps big D0 fuel first hh r p tc tp cs c S NE LB H Hc n. destruct (C142_contacts eps big D0 fuel first hh r p tc tp cs S NE LB H) as (_ & m & D & DA & _ & _ & C & _). destruct (C c Hc) as (E1 & E2).
  assert (En : n = m). { unfold n. rewrite E1. destruct first; [|reflexivity]. destruct m. unfold vneg. cbn. now rewrite !Ropp_involutive. } rewrite En, E2. split; [now apply depth_shift|].
  intros k L (_ & e & A1 & A2). destruct DA as (U & _ & x & y & Hx & Hy & Ed). specialize (A1 x Hx). specialize (A2 (shifted y m k) ltac:(exists y; auto)). pose proof (step_dot y m k U) as SD. rewrite vdot_vsub_r in SD, Ed. lra.
Qed.
Print Assumptions C142_separates.

(** A capsule standing on a box. *)
Example C142_case : forall eps big fuel first, 0 < eps <= / 1000 -> 4 < big -> (24 <= fuel)%nat ->
  cap_setting eps big (/ 50) (/ 50) small standing stay /\ (forall x y, body_of small stay x -> cap_body (/ 50) (/ 50) standing y -> dist x y <= 1) /\ 1 < big /\
  exists c, sat_capsule eps big fuel true first (/ 50) (/ 50) small standing stay = Ok (true, [c]).
Proof.
  intros eps big fuel first He Hb Hf. split; [apply small_setting; [exact He|exact Hb|apply place_unit]|]. split; [|split; [lra|now apply standing_runs]].
  intros x y Hx Hy. apply in_small in Hx. assert (L : forall n, vlen n = 1 -> -1 / 10 <= vdot n foot -> -1 / 10 <= vdot n head -> -1 / 10 - / 50 <= vdot n y).
  { intros n U A B. apply (cap_low (/ 50) (/ 50) standing n (-1 / 10) y (place_unit _) U Hy); [rewrite standing_a|rewrite standing_b]; assumption. }
  pose proof (L (V3 1 0 0) ltac:(apply unit_1; ring)) as L1. pose proof (L (V3 (-1) 0 0) ltac:(apply unit_1; ring)) as L2. pose proof (L (V3 0 1 0) ltac:(apply unit_1; ring)) as L3. pose proof (L (V3 0 (-1) 0) ltac:(apply unit_1; ring)) as L4.
  pose proof (L (V3 0 0 1) ltac:(apply unit_1; ring)) as L5. pose proof (L (V3 0 0 (-1)) ltac:(apply unit_1; ring)) as L6. unfold vdot, foot, head in *. cbn [vx vy vz] in *.
  specialize (L1 ltac:(lra) ltac:(lra)). specialize (L2 ltac:(lra) ltac:(lra)). specialize (L3 ltac:(lra) ltac:(lra)). specialize (L4 ltac:(lra) ltac:(lra)). specialize (L5 ltac:(lra) ltac:(lra)). specialize (L6 ltac:(lra) ltac:(lra)).
  apply dist_le_sq; [lra|]. unfold vlen2, vsub, cuboid in *. cbn [vx vy vz] in *. assert (K : forall a, - / 2 <= a <= / 2 -> a * a <= / 4) by (intros; nra).
  match goal with |- ?a * ?a + ?b * ?b + ?c * ?c <= _ => assert (a * a <= / 4) by (apply K; lra); assert (b * b <= / 4) by (apply K; lra); assert (c * c <= / 4) by (apply K; lra) end. lra.
Qed.

(** No edge of the polyhedron that crosses the inner segment gives a smaller depth either, and if it separates the shapes they are reported apart. *)
Theorem C142_edges : forall eps big fuel report first hh r p tc tp b cs m d, cap_setting eps big hh r p tc tp ->
  sat_capsule eps big fuel report first hh r p tc tp = Ok (b, cs) -> crossing_axis hh p tc tp m -> depth_along m (body_of p tp) (cap_body hh r tc) d ->
  (b = true -> 0 < d) /\ forall c, In c cs -> c_depth c <= d.
Proof. intros eps big fuel report first hh r p tc tp b cs m d S. now apply (crossing_least eps big). Qed.
Print Assumptions C142_edges.
(** A capsule that leans over an edge of a cube. *)
Example C142_edges_case : forall eps big fuel first, 0 < eps <= / 1000 -> 4 < big -> (24 <= fuel)%nat ->
  let p := the_box (V3 1 1 1) in let tc := Tr (V3 2 2 0) (Q4 0 0 (3 / 5) (4 / 5)) in let m := V3 (7 / 25) (24 / 25) 0 in
  cap_setting eps big 1 1 p tc stay /\ crossing_axis 1 p tc stay m /\ (exists d, depth_along m (body_of p stay) (cap_body 1 1 tc) d) /\
  exists b, sat_capsule eps big fuel false first 1 1 p tc stay = Ok (b, []).
Proof.
  intros eps big fuel first He Hb Hf p tc m. assert (Q : quat_len2 (t_rot tc) = 1) by (unfold tc, quat_len2; cbn; field).
  assert (S : cap_setting eps big 1 1 p tc stay) by (repeat (split; [first [lra|exact Q|apply stay_unit|apply box_ok; lra]|]); reflexivity). split; [exact S|].
  assert (C : crossing_axis 1 p tc stay m).
  { exists 16%nat, 17%nat, (mk_edge 6 (Some 17%nat) 1 (Some 1%nat)), (V3 1 0 0), (V3 0 1 0), (V3 1 1 (-(1))), (V3 1 1 1). cbv zeta. rewrite !stay_vec.
    assert (E : quat_vec (t_rot tc) (V3 0 (2 * 1) 0) = V3 (-48 / 25) (14 / 25) 0) by (unfold tc, quat_vec; apply v3_eq; cbn; field). rewrite E.
    split; [reflexivity|]. split; [do 2 eexists; split; [reflexivity|]; split; [reflexivity|]; split; [reflexivity|]; split; [eexists; split; reflexivity|reflexivity]|]. split; [reflexivity|]. split; [reflexivity|].
    split; [do 2 eexists; split; [reflexivity|]; split; [reflexivity|]; split; [reflexivity|]; split; [eexists; split; reflexivity|reflexivity]|].
    unfold vlen2, vcross, vdot, vsub, m. cbn [vx vy vz so_centroid p the_box vzero]. split; [lra|]. split; [lra|]. split; [apply unit_1; cbn; field|]. split; [lra|]. split; lra. }
  split; [exact C|]. split; [|destruct (C141_total_partial eps big fuel false first 1 1 p tc stay S Hf) as (_ & T); now apply T].
  destruct (crossing_runs eps big 1 1 p tc stay S m C) as (? & ? & ? & ? & ? & ? & ? & ? & d & ? & _ & _ & _ & _ & _ & _ & _ & _ & _ & _ & D). now exists d.
Qed.
