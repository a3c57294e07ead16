(** C136-C138: the separating axis test of two convex polyhedra. *)
From Coq Require Import Reals Lra Psatz List Bool Arith Lia.
From Verif Require Import Base VecModel VecProofs GeomModel GeomSpec GeomProofs GeomProperties HalfEdgeModel ShapeModel ShapeSpec ShapeProofs ShapeMeshProofs GjkSpec NarrowModel NarrowSpec NarrowProofs NarrowCapsuleProofs GjkShapeProofs SatModel SatSpec SatProofs SatEdgeProofs SatClipProofs SatFullProofs SatRunProofs SatBoxProofs SatCaseProofs.
Import ListNotations.
Local Open Scope R_scope.

Lemma sat_cases eps big fuel clip report p1 p2 t1 t2 l b cs l' : let t12 := tr_mul (tr_inverse t2) t1 in let t21 := tr_inverse t12 in
  sat_polyhedra eps big fuel clip report p1 p2 t1 t2 l = Ok (b, cs, l') ->
  exists l1, sat_previous eps big fuel clip report p1 p2 t1 t2 t12 t21 l = Ok (Some (b, cs, l1)) \/
    (sat_previous eps big fuel clip report p1 p2 t1 t2 t12 t21 l = Ok None /\ sat_full eps big fuel report p1 p2 t1 t2 t12 t21 l = Ok (b, cs, l1)).
Proof.
  intros t12 t21 H. unfold sat_polyhedra in H. cbv zeta in H. fold t12 in H. fold t21 in H. destruct (sat_previous eps big fuel clip report p1 p2 t1 t2 t12 t21 l) as [[((b1, cs1), l1)|]| |]; cbn [bind] in H; try discriminate.
  - inversion H; subst. exists l1. now left.
  - destruct (sat_full eps big fuel report p1 p2 t1 t2 t12 t21 l) as [((b1, cs1), l1)| |]; cbn [bind] in H; try discriminate. inversion H; subst. exists l1. now right.
Qed.

(** ** C136: polyhedra reported apart are apart *)

(** The test comes to an end without undefined behaviour. *)
Theorem C136_total : forall eps big D fuel clip report p1 p2 t1 t2 l, sat_setting eps big p1 p2 t1 t2 ->
  within D (so_verts p1) t1 (so_verts p2) t2 -> D < big ->
  (length (st_edges (so_edges p1)) <= fuel)%nat -> (length (st_edges (so_edges p2)) <= fuel)%nat ->
  (lf_valid l && lf_sat l = true -> cache_ok p1 p2 l) ->
  exists b cs l', sat_polyhedra eps big fuel clip report p1 p2 t1 t2 l = Ok (b, cs, l').
Proof.
  intros eps big D fuel clip report p1 p2 t1 t2 l (He & Hb & Q1 & Q2 & O1 & O2 & NT) W L F1 F2 C.
  destruct (sat_runs eps big D fuel p1 p2 t1 t2 He Hb Q1 Q2 O1 O2 NT (conj F1 F2) W L clip report l C) as (((b, cs), l') & H). eauto.
Qed.
Print Assumptions C136_total.

(** Missing for the full claim: the second case is a failure of the test (see [C136_missed_refuted]). *)
Theorem C136_apart_partial : forall eps big fuel clip report p1 p2 t1 t2 l cs l', sat_setting eps big p1 p2 t1 t2 ->
  sat_polyhedra eps big fuel clip report p1 p2 t1 t2 l = Ok (false, cs, l') ->
  cs = [] /\ (apart (body_of p1 t1) (body_of p2 t2) \/
              (exists f g n, world_face true p1 p2 t1 t2 f = Some n /\ facing p2 t2 n g /\ misses p1 p2 t1 t2 f g) \/
              (exists f g n, world_face false p1 p2 t1 t2 f = Some n /\ facing p1 t1 (vneg n) g /\ misses p2 p1 t2 t1 f g)).
Proof.
  intros eps big fuel clip report p1 p2 t1 t2 l cs l' (He & Hb & Q1 & Q2 & O1 & O2 & NT) H.
  assert (FA : forall first f d, a_face_depth p1 p2 t1 t2 first f = Ok d -> d <= 0 -> apart (body_of p1 t1) (body_of p2 t2)).
  { intros first f d E L. destruct (face_depth_world big p1 p2 t1 t2 Hb Q1 Q2 O1 O2 first f d E) as (n & _ & DA). exists n. now apply depth_apart with d. }
  assert (EA : forall i j x, edge_pair eps big p1 p2 (tr_mul (tr_inverse t2) t1) i j = Ok (Some x) -> ea_depth x <= 0 -> apart (body_of p1 t1) (body_of p2 t2)).
  { intros i j x E L. destruct (edge_pair_world eps big p1 p2 t1 t2 He Q1 Q2 O1 O2 NT i j x E) as [(B & _)|DA]; [lra|]. eexists. exact (depth_apart _ _ _ _ DA L). }
  apply sat_cases in H. destruct H as (l1 & [P|(_ & F)]).
  - apply (sat_previous_cases eps big fuel p1 p2 t1 t2) in P. destruct P as (_ & [(_ & _ & -> & _ & [(_ & d & E & L)|(_ & x & E & L)])|(_ & _ & X & _)]); [| |discriminate]; split; eauto.
  - apply (sat_full_cases eps big fuel p1 p2 t1 t2 Hb) in F. destruct F as [(_ & -> & first & f & d & _ & E & L & _)|[(_ & -> & i & j & x & _ & E & L & _)|[(first & f & d & _ & _ & _ & _ & FC & _)|(X & _)]]]; [split; eauto|split; eauto| |discriminate].
    apply (face_contacts_world big fuel p1 p2 t1 t2 Hb Q1 Q2 O1 O2) in FC. destruct FC as (n & g & En & FG & _ & _ & _ & M). destruct (M eq_refl) as (-> & MM). split; [reflexivity|]. right. destruct first; [left|right]; exists f, g, n; auto.
Qed.
Print Assumptions C136_apart_partial.

(** Boxes of any size are as the test expects its polyhedra, and their points are those of the cuboid. *)
Example C136_box_case : forall big x y z, 0 < x -> 0 < y -> 0 < z -> exists p, box_solid (V3 x y z) = Ok p /\ solid_ok big p /\ so_triangle p = false /\
  length (st_edges (so_edges p)) = 24%nat /\ forall t q, body_of p t q <-> moved t (cuboid (V3 x y z)) q.
Proof.
  intros big x y z X Y Z. exists (the_box (V3 x y z)). split; [apply box_solid_eq|]. split; [now apply box_ok|]. split; [reflexivity|]. split; [reflexivity|]. intros t q. now apply box_body.
Qed.
(** Two boxes that share a ball are reported apart: the edge of the second that is in the first is beside the top face of the first, whose normal is the
    axis of least depth (within the tolerance), and the face of the second opposite to it is beside the first. *)
Theorem C136_missed_refuted : exists p1 p2 t1 t2, box_solid (V3 1 1 1) = Ok p1 /\ box_solid (V3 1 1 1) = Ok p2 /\
  (exists x r, 0 < r /\ forall y, dist x y < r -> body_of p1 t1 y /\ body_of p2 t2 y) /\
  forall eps big fuel clip, 0 < eps <= / 1000 -> 20 < big -> (24 <= fuel)%nat ->
    sat_setting eps big p1 p2 t1 t2 /\ exists l, sat_polyhedra eps big fuel clip true p1 p2 t1 t2 fresh = Ok (false, [], l).
Proof.
  exists unit_box, unit_box, stay, turned. split; [apply box_solid_eq|]. split; [apply box_solid_eq|]. split; [exact both_share|].
  intros eps big fuel clip He Hb Hf. split.
  - split; [exact He|]. split; [lra|]. split; [apply stay_unit|]. split; [apply turned_unit|]. split; [apply box_ok; lra|]. split; [apply box_ok; lra|]. now left.
  - unfold sat_polyhedra, sat_previous. cbn [fresh lf_valid lf_sat andb negb bind]. cbv zeta. rewrite (turned_misses eps big fuel _ He Hb Hf). cbn [bind]. eauto.
Qed.
Print Assumptions C136_missed_refuted.

(** Polyhedra that a face separates are reported apart, unless the test answers with the axis of the last frame. *)
Theorem C136_face_separates : forall eps big fuel clip report p1 p2 t1 t2 l b cs l' first f n, sat_setting eps big p1 p2 t1 t2 -> no_shortcut clip l ->
  sat_polyhedra eps big fuel clip report p1 p2 t1 t2 l = Ok (b, cs, l') ->
  world_face first p1 p2 t1 t2 f = Some n -> apart_along n (body_of p1 t1) (body_of p2 t2) -> b = false.
Proof.
  intros eps big fuel clip report p1 p2 t1 t2 l b cs l' first f n (He & Hb & Q1 & Q2 & O1 & O2 & NT) NS H En (_ & c & A1 & A2).
  assert (Hf : (f < face_count p1 p2 first)%nat).
  { unfold world_face in En. unfold face_count. destruct (ok_count _ _ O1), (ok_count _ _ O2). destruct first; [destruct (nth_error (so_normals p1) f) eqn:E|destruct (nth_error (so_normals p2) f) eqn:E]; try discriminate; assert (X : (f < length (so_normals p1))%nat \/ (f < length (so_normals p2))%nat) by (first [left; apply nth_error_Some; congruence|right; apply nth_error_Some; congruence]); first [rewrite <- H0; apply nth_error_Some; congruence|rewrite <- H2; apply nth_error_Some; congruence]. }
  assert (N : forall D, ~ no_axis eps big p1 p2 t1 t2 D).
  { intros D (N1 & _). destruct (N1 first f Hf) as (d & E & P & _). destruct (face_depth_world big p1 p2 t1 t2 Hb Q1 Q2 O1 O2 first f d E) as (m & Em & (_ & _ & p & q & Hp & Hq & Ed)).
    rewrite En in Em. inversion Em; subst m. specialize (A1 p Hp). specialize (A2 q Hq). rewrite vdot_vsub_r in Ed. lra. }
  apply sat_cases in H. destruct H as (l1 & [P|(_ & F)]).
  - apply (sat_previous_cases eps big fuel p1 p2 t1 t2) in P. destruct P as (V & [(_ & -> & _)|(C & K & _)]); [reflexivity|]. exfalso. destruct NS as [X|[X|X]]; congruence.
  - apply (sat_full_cases eps big fuel p1 p2 t1 t2 Hb) in F. destruct F as [(-> & _)|[(-> & _)|[(fi & g & d & _ & _ & _ & X & _)|(_ & i & j & x & _ & _ & _ & X & _)]]]; [reflexivity|reflexivity|exfalso; eapply N; exact X|exfalso; eapply N; exact X].
Qed.
Print Assumptions C136_face_separates.

(** A box below a plate. *)
Example C136_apart_case : forall eps big fuel, 0 < eps <= / 1000 -> 20 < big -> (24 <= fuel)%nat -> let t2 := at_height (- / 100 - / 10 - / 200) in
  sat_setting eps big plate cube stay t2 /\ (exists f n, world_face false plate cube stay t2 f = Some n /\ apart_along n (body_of plate stay) (body_of cube t2)) /\
  exists l, sat_polyhedra eps big fuel true true plate cube stay t2 fresh = Ok (false, [], l).
Proof.
  intros eps big fuel He Hb Hf t2. assert (B4 : 4 < big) by lra. pose proof (plate_setting eps big (- / 100 - / 10 - / 200) He B4) as S. split; [exact S|].
  assert (AP : world_face false plate cube stay t2 5 = Some (V3 0 (-1) 0) /\ apart_along (V3 0 (-1) 0) (body_of plate stay) (body_of cube t2)).
  { split; [unfold t2, at_height, world_face; cbn [cube the_box so_normals nth_error option_map]; rewrite place_vec; f_equal; apply v3_eq; cbn; ring|]. split; [apply unit_1; ring|]. exists (/ 100). split.
    - intros p Hp. apply in_plate in Hp. unfold cuboid, vdot in *. cbn [vx vy vz] in *. lra.
    - intros q Hq. apply in_cube in Hq. unfold cuboid, vdot in *. cbn [vx vy vz] in *. lra. }
  split; [exists 5%nat, (V3 0 (-1) 0); exact AP|].
  destruct (C136_total eps big 20 fuel true true plate cube stay t2 fresh S) as (b & cs & l & E); [apply plate_near; lra|exact Hb|exact Hf|exact Hf|discriminate|].
  destruct AP as (AF & AA). assert (b = false) by (apply (C136_face_separates eps big fuel true true plate cube stay t2 fresh b cs l false 5%nat (V3 0 (-1) 0) S); auto; right; now left). subst b.
  destruct (C136_apart_partial eps big fuel true true plate cube stay t2 fresh cs l S E) as (-> & _). eauto.
Qed.

(** ** C137: contacts of polyhedra *)
Lemma edge_contact_ok eps big p1 p2 t1 t2 i j x c : sat_setting eps big p1 p2 t1 t2 -> edge_pair eps big p1 p2 (tr_mul (tr_inverse t2) t1) i j = Ok (Some x) ->
  In c (edge_contact eps true t2 (tr_inverse (tr_mul (tr_inverse t2) t1)) x) ->
  c_normal c = quat_vec (t_rot t2) (ea_axis x) /\ c_depth c = ea_depth x /\ edge_edge_contact (2 * sqrt eps) p1 p2 t1 t2 (c_local1 c) (c_local2 c).
Proof.
  intros (He & Hb & Q1 & Q2 & O1 & O2 & NT) E H. destruct (edge_pair_ok eps big p1 p2 t1 t2 He Q1 Q2 O1 O2 NT i j x E) as ((A & B & EP & EA & EB) & EP2 & _).
  unfold edge_contact in H. pose proof (C37_near_optimal eps (ea_a1 x) (ea_b1 x) (ea_a2 x) (ea_b2 x) (proj1 He)) as K.
  destruct (closest_segments eps (ea_a1 x) (ea_b1 x) (ea_a2 x) (ea_b2 x)) as (c1, c2). destruct K as (S1 & S2 & K). destruct H as [<-|[]]. cbn [c_normal c_depth c_local1 c_local2]. split; [reflexivity|]. split; [reflexivity|].
  set (t12 := tr_mul (tr_inverse t2) t1) in *. assert (Q12 : quat_len2 (t_rot t12) = 1) by (apply unit12; assumption).
  assert (IN : forall y, on_segment A B y -> on_segment (ea_a1 x) (ea_b1 x) (tr_point t12 y)). { intros y (u & Hu & ->). exists u. split; [exact Hu|]. rewrite EA, EB. apply tr_point_lerp. }
  assert (WD : forall y z, dist (tr_point t1 y) (tr_point t2 z) = dist (tr_point t12 y) z). { intros y z. rewrite <- (pass_through t1 t2 y Q2). fold t12. now apply tr_isometry. }
  exists A, B, (ea_a2 x), (ea_b2 x). split; [exact EP|]. split; [exact EP2|]. split; [|split; [exact S2|]].
  - destruct S1 as (u & Hu & ->). exists u. split; [exact Hu|]. rewrite EA, EB, <- tr_point_lerp. now apply tr_point_inverse.
  - intros y1 y2 H1 H2. rewrite !WD, tr_inverse_point by exact Q12. apply K; [now apply IN|exact H2].
Qed.
(** All contacts have one normal, a unit vector, and positive depths, none of them above the depth of the overlap along the normal. *)
Theorem C137_contacts : forall eps big fuel clip p1 p2 t1 t2 l cs l', sat_setting eps big p1 p2 t1 t2 ->
  sat_polyhedra eps big fuel clip true p1 p2 t1 t2 l = Ok (true, cs, l') ->
  cs <> [] /\ exists n D, depth_along n (body_of p1 t1) (body_of p2 t2) D /\ 0 < D /\ (forall c, In c cs -> c_normal c = n /\ 0 < c_depth c <= D) /\
  ((exists f g, world_face true p1 p2 t1 t2 f = Some n /\ facing p2 t2 n g /\ forall c, In c cs -> face_contact p1 p2 t1 t2 f g n (c_depth c) (c_local1 c) (c_local2 c)) \/
   (exists f g, world_face false p1 p2 t1 t2 f = Some n /\ facing p1 t1 (vneg n) g /\ forall c, In c cs -> face_contact p2 p1 t2 t1 f g (vneg n) (c_depth c) (c_local2 c) (c_local1 c)) \/
   (exists c, cs = [c] /\ c_depth c = D /\ edge_edge_contact (2 * sqrt eps) p1 p2 t1 t2 (c_local1 c) (c_local2 c))).
Proof.
  intros eps big fuel clip p1 p2 t1 t2 l cs l' S H. pose proof S as (He & Hb & Q1 & Q2 & O1 & O2 & NT).
  assert (FK : forall first f d, a_face_depth p1 p2 t1 t2 first f = Ok d -> 0 < d -> face_contacts big fuel true first p1 p2 t1 t2 (tr_mul (tr_inverse t2) t1) (tr_inverse (tr_mul (tr_inverse t2) t1)) f = Ok (true, cs) ->
    cs <> [] /\ exists n D, depth_along n (body_of p1 t1) (body_of p2 t2) D /\ 0 < D /\ (forall c, In c cs -> c_normal c = n /\ 0 < c_depth c <= D) /\
    ((exists f g, world_face true p1 p2 t1 t2 f = Some n /\ facing p2 t2 n g /\ forall c, In c cs -> face_contact p1 p2 t1 t2 f g n (c_depth c) (c_local1 c) (c_local2 c)) \/
     (exists f g, world_face false p1 p2 t1 t2 f = Some n /\ facing p1 t1 (vneg n) g /\ forall c, In c cs -> face_contact p2 p1 t2 t1 f g (vneg n) (c_depth c) (c_local2 c) (c_local1 c)) \/
     (exists c, cs = [c] /\ c_depth c = D /\ edge_edge_contact (2 * sqrt eps) p1 p2 t1 t2 (c_local1 c) (c_local2 c)))).
  { intros first f d E P FC. destruct (face_depth_world big p1 p2 t1 t2 Hb Q1 Q2 O1 O2 first f d E) as (n & En & DA).
    apply (face_contacts_world big fuel p1 p2 t1 t2 Hb Q1 Q2 O1 O2) in FC. destruct FC as (n' & g & En' & FA & FC & _ & NE & _). rewrite En in En'. inversion En'; subst n'.
    split; [now apply NE|]. exists n, d. split; [exact DA|]. split; [exact P|]. split.
    - intros c Hc. destruct (FC c Hc) as (-> & K & M). split; [reflexivity|]. split; [|now apply M]. destruct first; apply (fc_depth _ _ _ _ _ _ _ _ _ _ K).
    - destruct first; [left|right; left]; exists f, g; (split; [exact En|]); (split; [exact FA|]); intros c Hc; apply (FC c Hc). }
  assert (EK : forall i j x, edge_pair eps big p1 p2 (tr_mul (tr_inverse t2) t1) i j = Ok (Some x) -> 0 < ea_depth x < big -> cs = edge_contact eps true t2 (tr_inverse (tr_mul (tr_inverse t2) t1)) x ->
    cs <> [] /\ exists n D, depth_along n (body_of p1 t1) (body_of p2 t2) D /\ 0 < D /\ (forall c, In c cs -> c_normal c = n /\ 0 < c_depth c <= D) /\
    ((exists f g, world_face true p1 p2 t1 t2 f = Some n /\ facing p2 t2 n g /\ forall c, In c cs -> face_contact p1 p2 t1 t2 f g n (c_depth c) (c_local1 c) (c_local2 c)) \/
     (exists f g, world_face false p1 p2 t1 t2 f = Some n /\ facing p1 t1 (vneg n) g /\ forall c, In c cs -> face_contact p2 p1 t2 t1 f g (vneg n) (c_depth c) (c_local2 c) (c_local1 c)) \/
     (exists c, cs = [c] /\ c_depth c = D /\ edge_edge_contact (2 * sqrt eps) p1 p2 t1 t2 (c_local1 c) (c_local2 c)))).
  { intros i j x E P Ec. destruct (edge_pair_world eps big p1 p2 t1 t2 He Q1 Q2 O1 O2 NT i j x E) as [(B & _)|DA]; [lra|].
    assert (X : exists c, cs = [c]) by (rewrite Ec; unfold edge_contact; destruct (closest_segments _ _ _ _ _); eexists; reflexivity). destruct X as (c & Xc).
    destruct (edge_contact_ok eps big p1 p2 t1 t2 i j x c S E) as (N1 & N2 & N3); [rewrite <- Ec, Xc; now left|].
    split; [rewrite Xc; discriminate|]. eexists. exists (ea_depth x). split; [exact DA|]. split; [lra|]. split.
    - intros c' Hc. rewrite Xc in Hc. destruct Hc as [<-|[]]. rewrite N1, N2. split; [reflexivity|lra].
    - right. right. exists c. auto. }
  apply sat_cases in H. destruct H as (l1 & [P|(_ & F)]).
  - apply (sat_previous_cases eps big fuel p1 p2 t1 t2) in P. destruct P as (_ & [(_ & X & _)|(_ & _ & _ & [(d & E & P & FC & _)|(x & E & P & Ec & _)])]); [discriminate| |]; eauto.
  - apply (sat_full_cases eps big fuel p1 p2 t1 t2 Hb) in F. destruct F as [(X & _)|[(X & _)|[(first & f & d & _ & E & P & _ & FC & _)|(_ & i & j & x & _ & E & P & _ & Ec & _)]]]; try discriminate; [apply (FK first f d E (proj1 P) FC)|eauto].
Qed.
Print Assumptions C137_contacts.

(** A box on a plate. *)
Example C137_contacts_case : forall eps big fuel, 0 < eps <= / 1000 -> 20 < big -> (24 <= fuel)%nat -> let t2 := at_height (/ 100 + / 10 - / 2000) in
  sat_setting eps big plate cube stay t2 /\ no_shortcut true fresh /\ exists cs l, sat_polyhedra eps big fuel true true plate cube stay t2 fresh = Ok (true, cs, l).
Proof.
  intros eps big fuel He Hb Hf t2. split; [apply plate_setting; auto; lra|]. split; [right; now left|].
  destruct (plate_on eps big fuel fresh He Hb Hf) as (cs & E). cbv zeta in E. fold t2 in E. unfold sat_polyhedra, sat_previous. cbn [fresh lf_valid lf_sat andb negb bind]. cbv zeta. rewrite E. cbn [bind]. eauto.
Qed.

(** Unless the test answers with the axis of the last frame, the depth along the normal is at most slightly above the depth along the normal of any face. *)
Theorem C137_least_depth : forall eps big fuel clip p1 p2 t1 t2 l cs l' n D first f m d, sat_setting eps big p1 p2 t1 t2 -> no_shortcut clip l ->
  sat_polyhedra eps big fuel clip true p1 p2 t1 t2 l = Ok (true, cs, l') ->
  (exists c, In c cs /\ c_normal c = n) -> depth_along n (body_of p1 t1) (body_of p2 t2) D ->
  world_face first p1 p2 t1 t2 f = Some m -> depth_along m (body_of p1 t1) (body_of p2 t2) d -> D <= 101 / 100 * d + / 500.
Proof.
  intros eps big fuel clip p1 p2 t1 t2 l cs l' n D first f m d S NS H (c & Hc & En) DA Em DM. pose proof S as (He & Hb & Q1 & Q2 & O1 & O2 & NT).
  assert (UN : forall k x y, depth_along k (body_of p1 t1) (body_of p2 t2) x -> depth_along k (body_of p1 t1) (body_of p2 t2) y -> x = y).
  { intros k x y (_ & M1 & p & q & Hp & Hq & E1) (_ & M2 & p' & q' & Hp' & Hq' & E2). specialize (M1 _ _ Hp' Hq'). specialize (M2 _ _ Hp Hq). lra. }
  assert (Hf : (f < face_count p1 p2 first)%nat).
  { unfold world_face in Em. unfold face_count. destruct (ok_count _ _ O1) as (C1 & _), (ok_count _ _ O2) as (C2 & _). destruct first.
    - rewrite <- C1. apply nth_error_Some. destruct (nth_error (so_normals p1) f); discriminate.
    - rewrite <- C2. apply nth_error_Some. destruct (nth_error (so_normals p2) f); discriminate. }
  assert (K : forall x, depth_along n (body_of p1 t1) (body_of p2 t2) x -> no_axis eps big p1 p2 t1 t2 x -> D <= 101 / 100 * d + / 500).
  { intros x Dx (N1 & _). rewrite (UN n D x DA Dx). destruct (N1 first f Hf) as (y & E & P & L). destruct (face_depth_world big p1 p2 t1 t2 Hb Q1 Q2 O1 O2 first f y E) as (m' & Em' & Dy).
    rewrite Em in Em'. inversion Em'; subst m'. rewrite (UN m d y DM Dy). unfold slack, rel_tolerance, abs_tolerance in L. lra. }
  apply sat_cases in H. destruct H as (l1 & [P|(_ & F)]).
  - apply (sat_previous_cases eps big fuel p1 p2 t1 t2) in P. destruct P as (V & [(_ & X & _)|(C & X & _)]); [discriminate|]. exfalso. destruct NS as [Y|[Y|Y]]; congruence.
  - apply (sat_full_cases eps big fuel p1 p2 t1 t2 Hb) in F. destruct F as [(X & _)|[(X & _)|[(fi & g & y & _ & E & P & NA & FC & _)|(_ & i & j & x & _ & E & P & NA & Ec & _)]]]; try discriminate.
    + destruct (face_depth_world big p1 p2 t1 t2 Hb Q1 Q2 O1 O2 fi g y E) as (k & Ek & Dk). apply (face_contacts_world big fuel p1 p2 t1 t2 Hb Q1 Q2 O1 O2) in FC. destruct FC as (k' & g' & Ek' & _ & FC & _).
      rewrite Ek in Ek'. inversion Ek'; subst k'. destruct (FC c Hc) as (Nk & _). apply (K y); [|exact NA]. rewrite <- En, Nk. exact Dk.
    + destruct (edge_pair_world eps big p1 p2 t1 t2 He Q1 Q2 O1 O2 NT i j x E) as [(B & _)|Dx]; [lra|]. rewrite Ec in Hc. destruct (edge_contact_ok eps big p1 p2 t1 t2 i j x c S E Hc) as (Nk & _).
      apply (K (ea_depth x)); [|exact NA]. rewrite <- En, Nk. exact Dx.
Qed.
Print Assumptions C137_least_depth.

(** Asking for no contacts changes neither the answer nor what is kept. *)
Theorem C137_flag : forall eps big fuel clip p1 p2 t1 t2 l b l',
  (exists cs, sat_polyhedra eps big fuel clip true p1 p2 t1 t2 l = Ok (b, cs, l')) <-> sat_polyhedra eps big fuel clip false p1 p2 t1 t2 l = Ok (b, [], l').
Proof.
  intros eps big fuel clip p1 p2 t1 t2 l b l'. unfold sat_polyhedra. cbv zeta. set (t12 := tr_mul (tr_inverse t2) t1). set (t21 := tr_inverse t12).
  assert (FC : forall first f, face_contacts big fuel false first p1 p2 t1 t2 t12 t21 f = let* (found, cs) := face_contacts big fuel true first p1 p2 t1 t2 t12 t21 f in Ok (found, [])).
  { intros first f. unfold face_contacts. cbv zeta. destruct (normal _ _); cbn [bind]; auto. destruct (rd _); cbn [bind]; auto. destruct (rd _); cbn [bind]; auto. destruct (verts _ _); cbn [bind]; auto. destruct (half_edge _ _); cbn [bind]; auto. destruct (vert _ _); cbn [bind]; auto. destruct (clip_loop _ _ _ _ _ _ _); cbn [bind]; auto. }
  assert (EC : forall x, edge_contact eps false t2 t21 x = []) by (intros x; unfold edge_contact; destruct (closest_segments _ _ _ _ _); reflexivity).
  assert (PR : sat_previous eps big fuel clip false p1 p2 t1 t2 t12 t21 l = let* o := sat_previous eps big fuel clip true p1 p2 t1 t2 t12 t21 l in Ok (option_map (fun '(b, cs, l) => (b, [], l)) o)).
  { unfold sat_previous. destruct (negb _); [reflexivity|]. destruct (_ || _).
    - destruct (if lf_face1 l then _ else _); cbn [bind]; auto. destruct (_ && _); [reflexivity|]. destruct (_ && _); [|reflexivity]. rewrite FC. destruct (face_contacts _ _ _ _ _ _ _ _ _ _ _) as [([|], ?)| |]; reflexivity.
    - destruct (edge_pair _ _ _ _ _ _ _) as [[x|]| |]; cbn [bind]; auto. destruct (_ && _); [reflexivity|]. destruct (_ && _); [|reflexivity]. rewrite EC. reflexivity. }
  assert (FU : sat_full eps big fuel false p1 p2 t1 t2 t12 t21 l = let* r := sat_full eps big fuel true p1 p2 t1 t2 t12 t21 l in Ok (let '(b, cs, l) := r in (b, [], l))).
  { unfold sat_full. destruct (faces_depth _ _ _ _) as [(d1, f1)| |]; cbn [bind]; auto. destruct (rle d1 0); [destruct (rd f1); reflexivity|]. destruct (faces_depth _ _ _ _) as [(d2, f2)| |]; cbn [bind]; auto. destruct (rle d2 0); [destruct (rd f2); reflexivity|].
    destruct (rd _); cbn [bind]; auto. destruct (edges_loop _ _ _ _ _ _ _) as [[(i, j)|[first g d|i j x]]| |]; cbn [bind]; auto.
    - rewrite FC. destruct (face_contacts _ _ _ _ _ _ _ _ _ _ _) as [(?, ?)| |]; reflexivity.
    - rewrite EC. reflexivity. }
  rewrite PR. destruct (sat_previous eps big fuel clip true p1 p2 t1 t2 t12 t21 l) as [[((b1, cs1), l1)|]| |]; cbn [bind option_map]; try (split; [intros (cs & H)|intros H]; discriminate).
  - split; [intros (cs & H); inversion H; subst; reflexivity|intros H; inversion H; subst; eauto].
  - rewrite FU. destruct (sat_full eps big fuel true p1 p2 t1 t2 t12 t21 l) as [((b1, cs1), l1)| |]; cbn [bind]; try (split; [intros (cs & H)|intros H]; discriminate).
    split; [intros (cs & H); inversion H; subst; reflexivity|intros H; inversion H; subst; eauto].
Qed.
Print Assumptions C137_flag.

(** ** C138: the data kept from the last frame *)

(** Frames of a pair that stays near: unit quaternions, distances below DECIMAL_LARGEST. *)
Definition near_frames (big D : R) (p1 p2 : solid) (ts : list (transform * transform)) : Prop :=
  D < big /\ forall t1 t2, In (t1, t2) ts -> quat_len2 (t_rot t1) = 1 /\ quat_len2 (t_rot t2) = 1 /\ within D (so_verts p1) t1 (so_verts p2) t2.
Definition good_pair (eps big : R) (fuel : nat) (p1 p2 : solid) : Prop :=
  0 < eps <= / 1000 /\ 4 < big /\ solid_ok big p1 /\ solid_ok big p2 /\ (so_triangle p1 = false \/ so_triangle p2 = false) /\
  (length (st_edges (so_edges p1)) <= fuel)%nat /\ (length (st_edges (so_edges p2)) <= fuel)%nat.
Lemma fresh_same eps big fuel clip clip' report p1 p2 t1 t2 b cs l' : sat_polyhedra eps big fuel clip report p1 p2 t1 t2 fresh = Ok (b, cs, l') -> sat_polyhedra eps big fuel clip' report p1 p2 t1 t2 fresh = Ok (b, cs, l').
Proof. intros H. exact H. Qed.
Lemma one_frame eps big D fuel clip report p1 p2 t1 t2 l b cs l' : good_pair eps big fuel p1 p2 -> D < big -> quat_len2 (t_rot t1) = 1 -> quat_len2 (t_rot t2) = 1 -> within D (so_verts p1) t1 (so_verts p2) t2 ->
  (lf_valid l && lf_sat l = true -> cache_ok p1 p2 l) -> sat_polyhedra eps big fuel clip report p1 p2 t1 t2 l = Ok (b, cs, l') -> (no_shortcut clip l \/ b = false) ->
  exists l2, sat_polyhedra eps big fuel clip report p1 p2 t1 t2 fresh = Ok (b, cs, l2).
Proof.
  intros (He & Hb & O1 & O2 & NT & F1 & F2) HD Q1 Q2 W C H NS. set (t12 := tr_mul (tr_inverse t2) t1). set (t21 := tr_inverse t12).
  assert (E0 : forall r m, sat_full eps big fuel report p1 p2 t1 t2 t12 t21 fresh = Ok (r, m) -> exists l2, sat_polyhedra eps big fuel clip report p1 p2 t1 t2 fresh = Ok (r, l2)).
  { intros r m E. unfold sat_polyhedra, sat_previous. cbn [fresh lf_valid lf_sat andb negb bind]. cbv zeta. fold t12. fold t21. rewrite E. cbn [bind]. eauto. }
  pose proof H as H'. apply sat_cases in H. fold t12 in H. fold t21 in H. destruct H as (l1 & [P|(_ & F)]).
  - destruct (sat_full_runs eps big D fuel p1 p2 t1 t2 He Hb Q1 Q2 O1 O2 NT (conj F1 F2) W HD report fresh) as (((b0, cs0), l0) & EF).
    assert (VS : lf_valid l && lf_sat l = true). { unfold sat_previous in P. destruct (lf_valid l && lf_sat l); [reflexivity|discriminate]. }
    assert (b = false). { destruct NS as [NS|NS]; [|exact NS]. pose proof P as P'. apply (sat_previous_cases eps big fuel p1 p2 t1 t2) in P'. destruct P' as (V & [(_ & -> & _)|(X & Y & _)]); [reflexivity|]. exfalso. destruct NS as [Z|[Z|Z]]; congruence. }
    subst b. destruct (cached_apart eps big fuel p1 p2 t1 t2 He Hb NT clip report report l fresh cs l1 b0 cs0 l0 (C VS) P EF) as (-> & -> & ->). apply (E0 _ _ EF).
  - destruct (sat_full_same eps big fuel p1 p2 t1 t2 report l fresh b cs l1 F) as (l2 & E2). apply (E0 _ _ E2).
Qed.
(** Without clipping with the last axis (the queries), a pair gives in every frame the answer and the contacts of a pair tested for the first time. *)
Theorem C138_same_answers : forall eps big D fuel report p1 p2 ts, good_pair eps big fuel p1 p2 -> near_frames big D p1 p2 ts ->
  exists rs, sat_frames eps big fuel false report p1 p2 ts fresh = Ok rs /\
    Forall2 (fun '(t1, t2) r => exists l, sat_polyhedra eps big fuel false report p1 p2 t1 t2 fresh = Ok (r, l)) ts rs.
Proof.
  intros eps big D fuel report p1 p2 ts G (HD & N).
  assert (K : forall l, (lf_valid l && lf_sat l = true -> cache_ok p1 p2 l) -> exists rs, sat_frames eps big fuel false report p1 p2 ts l = Ok rs /\
    Forall2 (fun '(t1, t2) r => exists l, sat_polyhedra eps big fuel false report p1 p2 t1 t2 fresh = Ok (r, l)) ts rs).
  { induction ts as [|(t1, t2) ts IH]; intros l C; cbn [sat_frames]; [exists []; split; [reflexivity|constructor]|].
    destruct (N t1 t2 ltac:(now left)) as (Q1 & Q2 & W). pose proof G as (He & Hb & O1 & O2 & NT & F1 & F2).
    destruct (C136_total eps big D fuel false report p1 p2 t1 t2 l) as (b & cs & l1 & E); [unfold sat_setting; auto 10|exact W|exact HD|exact F1|exact F2|exact C|]. rewrite E. cbn [bind fst].
    pose proof (cache_kept eps big fuel p1 p2 t1 t2 Hb false report l b cs l1 C E) as C1.
    destruct (IH ltac:(intros; apply N; now right) (kept b l1) ltac:(intros _; exact C1)) as (rs & -> & FA). cbn [bind]. eexists. split; [reflexivity|]. constructor; [|exact FA].
    apply (one_frame eps big D fuel false report p1 p2 t1 t2 l b cs l1); auto. left. now left. }
  apply K. discriminate.
Qed.
Print Assumptions C138_same_answers.
(** In the simulation: where the pair is reported apart, a pair tested for the first time is. Missing: pairs reported colliding (see [C138_stale_refuted]). *)
Theorem C138_apart_partial : forall eps big D fuel report p1 p2 ts, good_pair eps big fuel p1 p2 -> near_frames big D p1 p2 ts ->
  exists rs, sat_frames eps big fuel true report p1 p2 ts fresh = Ok rs /\
    Forall2 (fun '(t1, t2) r => fst r = false -> exists l, sat_polyhedra eps big fuel true report p1 p2 t1 t2 fresh = Ok (r, l)) ts rs.
Proof.
  intros eps big D fuel report p1 p2 ts G (HD & N).
  assert (K : forall l, (lf_valid l && lf_sat l = true -> cache_ok p1 p2 l) -> exists rs, sat_frames eps big fuel true report p1 p2 ts l = Ok rs /\
    Forall2 (fun '(t1, t2) r => fst r = false -> exists l, sat_polyhedra eps big fuel true report p1 p2 t1 t2 fresh = Ok (r, l)) ts rs).
  { induction ts as [|(t1, t2) ts IH]; intros l C; cbn [sat_frames]; [exists []; split; [reflexivity|constructor]|].
    destruct (N t1 t2 ltac:(now left)) as (Q1 & Q2 & W). pose proof G as (He & Hb & O1 & O2 & NT & F1 & F2).
    destruct (C136_total eps big D fuel true report p1 p2 t1 t2 l) as (b & cs & l1 & E); [unfold sat_setting; auto 10|exact W|exact HD|exact F1|exact F2|exact C|]. rewrite E. cbn [bind fst].
    pose proof (cache_kept eps big fuel p1 p2 t1 t2 Hb true report l b cs l1 C E) as C1.
    destruct (IH ltac:(intros; apply N; now right) (kept b l1) ltac:(intros _; exact C1)) as (rs & -> & FA). cbn [bind]. eexists. split; [reflexivity|]. constructor; [|exact FA].
    cbn [fst]. intros ->. apply (one_frame eps big D fuel true report p1 p2 t1 t2 l false cs l1); auto. }
  apply K. discriminate.
Qed.
Print Assumptions C138_apart_partial.

(** Boxes and frames as required. *)
Example C138_frames_case : forall eps big fuel, 0 < eps <= / 1000 -> 20 < big -> (24 <= fuel)%nat ->
  good_pair eps big fuel plate cube /\ near_frames big 20 plate cube [(stay, at_height (/ 100 + / 10 - / 2000)); (stay, at_height (- / 100 - / 10 - / 200))].
Proof.
  intros eps big fuel He Hb Hf. split.
  - split; [exact He|]. split; [lra|]. split; [apply box_ok; lra|]. split; [apply box_ok; lra|]. split; [now left|]. split; exact Hf.
  - split; [exact Hb|]. intros t1 t2 [E|[E|[]]]; inversion E; subst; (split; [apply stay_unit|]); (split; [apply place_unit|]); apply plate_near; lra.
Qed.
(** A small box lies on a thin plate; in the next frame it is below the plate, without touching it.  The test reports contacts with the top face of the
    plate, deeper than plate and box together are high, where a new pair is reported apart. *)
Theorem C138_stale_refuted : exists p1 p2 t1 u1 u2, box_solid (V3 1 (/ 100) 1) = Ok p1 /\ box_solid (V3 (/ 10) (/ 10) (/ 10)) = Ok p2 /\
  (forall p q, body_of p1 t1 p -> body_of p2 u2 q -> vy q <= vy p - / 200) /\
  forall eps big fuel, 0 < eps <= / 1000 -> 20 < big -> (24 <= fuel)%nat ->
    (exists cs1 cs2, sat_frames eps big fuel true true p1 p2 [(t1, u1); (t1, u2)] fresh = Ok [(true, cs1); (true, cs2)] /\
       cs2 <> [] /\ forall c, In c cs2 -> c_normal c = V3 0 1 0 /\ c_depth c = 9 / 40) /\
    exists l, sat_polyhedra eps big fuel true true p1 p2 t1 u2 fresh = Ok (false, [], l).
Proof.
  exists plate, cube, stay, (at_height (/ 100 + / 10 - / 2000)), (at_height (- / 100 - / 10 - / 200)). split; [apply box_solid_eq|]. split; [apply box_solid_eq|]. split.
  { intros p q Hp Hq. apply in_plate in Hp. apply in_cube in Hq. unfold cuboid in *. cbn [vx vy vz] in *. lra. }
  intros eps big fuel He Hb Hf. split; [|apply (C136_apart_case eps big fuel He Hb Hf)].
  destruct (plate_on eps big fuel fresh He Hb Hf) as (cs1 & E1). cbv zeta in E1.
  set (l1 := LastFrame true true true true false 5 0 0).
  destruct (plate_below eps big fuel l1 He Hb Hf eq_refl eq_refl eq_refl eq_refl) as (cs2 & E2 & K). cbv zeta in E2. exists cs1, cs2.
  assert (F2 : exists l2, sat_polyhedra eps big fuel true true plate cube stay (at_height (- / 100 - / 10 - / 200)) l1 = Ok (true, cs2, l2)) by (unfold sat_polyhedra; cbv zeta; rewrite E2; cbn [bind]; eauto).
  destruct F2 as (l2 & F2). split; [|split; [|exact K]].
  - assert (F1 : exists l0, sat_polyhedra eps big fuel true true plate cube stay (at_height (/ 100 + / 10 - / 2000)) fresh = Ok (true, cs1, l0) /\ kept true l0 = l1).
    { unfold sat_polyhedra, sat_previous. cbn [fresh lf_valid lf_sat andb negb bind]. cbv zeta. fold fresh. rewrite E1. cbn [bind]. eexists. split; reflexivity. }
    destruct F1 as (l0 & F1 & KL). cbn [sat_frames]. rewrite F1. cbn [bind fst]. rewrite KL, F2. cbn [bind]. reflexivity.
  - apply (C137_contacts eps big fuel true plate cube stay (at_height (- / 100 - / 10 - / 200)) l1 cs2 l2); [apply plate_setting; auto; lra|exact F2].
Qed.
Print Assumptions C138_stale_refuted.
