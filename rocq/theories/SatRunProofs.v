(** Proofs about the separating axis test: it comes to an end, and the data of the last frame. *)
From Coq Require Import Reals Lra Psatz List Bool Arith Lia.
From Verif Require Import Base VecModel VecProofs GeomModel GeomSpec GeomProofs HalfEdgeModel ShapeModel ShapeSpec ShapeProofs ShapeMeshProofs GjkSpec NarrowModel NarrowSpec NarrowProofs NarrowCapsuleProofs GjkShapeProofs SatModel SatSpec SatProofs SatEdgeProofs SatClipProofs SatFullProofs.
Import ListNotations.
Local Open Scope R_scope.

Lemma nth_some {A} (l : list A) i : (i < length l)%nat -> exists x, nth_error l i = Some x.
Proof. intros H. apply nth_error_Some in H. destruct (nth_error l i); [eauto|congruence]. Qed.
Lemma face_depth_runs big p1 p2 t f : solid_ok big p1 -> (f < length (so_faces p1))%nat -> exists d, face_depth p1 p2 t f = Ok d.
Proof.
  intros O H. unfold face_depth, normal, vert. destruct (nth_some _ _ H) as (vs & Ev). rewrite Ev. cbn [rd bind].
  destruct (nth_some (so_normals p1) f) as (n & En); [destruct (ok_count _ _ O); lia|]. rewrite En. cbn [rd bind].
  destruct (ok_faces _ _ O f vs n Ev En) as (_ & NE & K). destruct vs as [|i vs]; [congruence|]. cbn [nth_error rd bind]. destruct (K i ltac:(now left)) as (v & -> & _). cbn [rd bind]. eauto.
Qed.
Lemma faces_loop_runs big p1 p2 t : solid_ok big p1 -> forall fs best, (forall f, In f fs -> (f < length (so_faces p1))%nat) -> exists r, faces_loop p1 p2 t fs best = Ok r.
Proof.
  intros O. induction fs as [|f fs IH]; intros best H; cbn [faces_loop]; [eauto|]. destruct (face_depth_runs big p1 p2 t f O) as (d & ->); [apply H; now left|]. cbn [bind].
  destruct (rle d 0); [eauto|]. apply IH. intros g Hg. apply H. now right.
Qed.
Lemma edge_parts big p i : solid_ok big p -> (i < length (st_edges (so_edges p)))%nat -> exists e A B k w a b u v, half_edge p i = Ok e /\ edge_ends p e = Ok (A, B) /\ rd (e_twin e) = Ok k /\ half_edge p k = Ok w /\
  normal p (e_face e) = Ok a /\ normal p (e_face w) = Ok b /\ vert p (e_vertex e) = Ok u /\ vert p (e_vertex w) = Ok v.
Proof.
  intros O H. destruct (nth_some _ _ H) as (e & Ee). destruct (ok_edges _ _ O i e Ee) as (a & b & A & B & k & (e' & n & F1 & F2 & F3 & (j & F4 & F5) & F6) & T & (w & m & G1 & G2 & G3 & _) & _).
  rewrite Ee in F1. inversion F1; subst e'. exists e, A, B, k, w, a, b, A, B. unfold half_edge, edge_ends, normal, vert, half_edge. rewrite Ee, T, G1, F2, G2, F3, G3, F4. cbn [rd bind]. rewrite F5. cbn [rd bind]. rewrite F6. cbn [rd bind]. auto 10.
Qed.
Lemma edge_pair_runs eps big p1 p2 t i j : solid_ok big p1 -> solid_ok big p2 -> (i < length (st_edges (so_edges p1)))%nat -> (j < length (st_edges (so_edges p2)))%nat -> exists o, edge_pair eps big p1 p2 t i j = Ok o.
Proof.
  intros O1 O2 H1 H2. destruct (edge_parts big p1 i O1 H1) as (e & A & B & k & w & a & b & u & v & E1 & E2 & E3 & E4 & E5 & E6 & E7 & E8).
  destruct (edge_parts big p2 j O2 H2) as (e' & A' & B' & k' & w' & a' & b' & u' & v' & F1 & F2 & F3 & F4 & F5 & F6 & F7 & F8).
  unfold edge_pair, minkowski_face. rewrite E1. cbn [bind]. rewrite E2. cbn [bind]. rewrite F1. cbn [bind]. rewrite F2. cbn [bind]. rewrite E3. cbn [bind]. rewrite E4. cbn [bind]. rewrite F3. cbn [bind]. rewrite F4. cbn [bind].
  rewrite E5. cbn [bind]. rewrite E6. cbn [bind]. rewrite F5. cbn [bind]. rewrite F6. cbn [bind]. rewrite E7. cbn [bind]. rewrite E8. cbn [bind]. rewrite F7. cbn [bind]. rewrite F8. cbn [bind].
  destruct (arcs_intersect _ _ _ _ _ _); [|eauto]. destruct (edges_depth _ _ _ _ _ _ _ _ _). eauto.
Qed.
Lemma edges_loop_runs eps big p1 p2 t : solid_ok big p1 -> solid_ok big p2 -> forall ijs best, (forall i j, In (i, j) ijs -> (i < length (st_edges (so_edges p1)))%nat /\ (j < length (st_edges (so_edges p2)))%nat) ->
  exists r, edges_loop eps big p1 p2 t ijs best = Ok r.
Proof.
  intros O1 O2. induction ijs as [|(i, j) ijs IH]; intros best H; cbn [edges_loop]; [eauto|]. destruct (H i j ltac:(now left)) as (L1 & L2).
  destruct (edge_pair_runs eps big p1 p2 t i j O1 O2 L1 L2) as (o & ->). cbn [bind]. assert (H' : forall i j, In (i, j) ijs -> (i < length (st_edges (so_edges p1)))%nat /\ (j < length (st_edges (so_edges p2)))%nat) by (intros; apply H; now right).
  destruct o as [x|]; [|now apply IH]. destruct (rle (ea_depth x) 0); [eauto|]. now apply IH.
Qed.
Lemma evens_in n i : In i (evens n) <-> (i < n)%nat /\ Nat.even i = true.
Proof. unfold evens. rewrite filter_In, in_seq. intuition lia. Qed.
Lemma edge_pairs_in p1 p2 i j : In (i, j) (edge_pairs p1 p2) <-> (i < length (st_edges (so_edges p1)))%nat /\ (j < length (st_edges (so_edges p2)))%nat /\ Nat.even i = true /\ Nat.even j = true.
Proof. unfold edge_pairs. rewrite in_prod_iff, !evens_in. tauto. Qed.
Lemma anti_parallel_bound d : forall ns i best n, (snd best < n)%nat -> (i + length ns <= n)%nat -> (anti_parallel_loop d ns i best < n)%nat.
Proof.
  induction ns as [|x ns IH]; intros i best n H L; cbn [anti_parallel_loop]; [exact H|]. cbn [length] in L. apply IH; [|lia]. destruct (rlt _ _); cbn [snd]; lia.
Qed.
Lemma verts_runs p : forall vs, (forall i, In i vs -> exists v, nth_error (so_verts p) i = Some v) -> exists out, verts p vs = Ok out /\ (vs <> [] -> out <> []).
Proof.
  induction vs as [|i vs IH]; intros H; cbn [verts]; [exists []; auto|]. unfold vert. destruct (H i ltac:(now left)) as (v & ->). cbn [rd bind]. destruct IH as (out & -> & _); [intros; apply H; now right|]. cbn [bind]. exists (v :: out). split; [reflexivity|discriminate].
Qed.
Section Face.
Variables (big : R) (fuel : nat) (rp ip : solid).
Hypothesis Or : solid_ok big rp.
Hypothesis Oi : solid_ok big ip.
Hypothesis Lf : (length (st_edges (so_edges rp)) <= fuel)%nat.
Lemma face_parts f d i2r : (f < length (so_faces rp))%nat -> exists axis start vs poly e v out, normal rp f = Ok axis /\ nth_error (st_faces (so_edges rp)) f = Some start /\
  nth_error (so_faces ip) (most_anti_parallel big ip (d axis)) = Some vs /\ verts ip vs = Ok poly /\ half_edge rp start = Ok e /\ vert rp (e_vertex e) = Ok v /\
  clip_loop fuel rp axis start start v (map (tr_point i2r) poly) = Ok out.
Proof.
  intros H. destruct (ok_count _ _ Or) as (C1 & C2). destruct (ok_count _ _ Oi) as (C3 & C4).
  destruct (nth_some (so_normals rp) f ltac:(lia)) as (axis & Ea). destruct (nth_some (st_faces (so_edges rp)) f ltac:(lia)) as (start & Es).
  set (g := most_anti_parallel big ip (d axis)). assert (Hg : (g < length (so_faces ip))%nat).
  { unfold g, most_anti_parallel. apply anti_parallel_bound; cbn [snd]; [|lia]. pose proof (ok_some _ _ Oi). destruct (so_faces ip); [congruence|cbn; lia]. }
  destruct (nth_some _ _ Hg) as (vs & Eg). destruct (nth_some (so_normals ip) g ltac:(lia)) as (n & En). destruct (ok_faces _ _ Oi g vs n Eg En) as (_ & NE & K).
  destruct (verts_runs ip vs) as (poly & Ep & NP); [intros i Hi; destruct (K i Hi) as (v & Ev & _); eauto|].
  destruct (ok_start _ _ Or f start Es) as ((e & Ee & _) & n0 & Ln & RT). destruct (ok_edges _ _ Or start e Ee) as (a & b & A & B & k & (e' & m & F1 & F2 & F3 & _) & _). rewrite Ee in F1. inversion F1; subst e'.
  destruct (clip_loop_runs rp axis start n0 start RT) with (fuel := fuel) (v1 := A) (poly := map (tr_point i2r) poly) as (out & Eo).
  - intros i e' E'. destruct (ok_edges _ _ Or i e' E') as (a' & b' & A' & B' & k' & (e2 & m' & G1 & G2 & G3 & (j & G4 & G5) & G6) & _). rewrite E' in G1. inversion G1; subst e2. eauto 10.
  - lia.
  - specialize (NP NE). destruct poly; [congruence|discriminate].
  - exists axis, start, vs, poly, e, A, out. unfold normal, half_edge, vert. rewrite Ea, Ee, F3. auto 10.
Qed.
End Face.
Section Two.
Variables (eps big D : R) (fuel : nat) (p1 p2 : solid) (t1 t2 : transform).
Hypothesis He : 0 < eps <= / 1000.
Hypothesis Hb : 4 < big.
Hypothesis Q1 : quat_len2 (t_rot t1) = 1.
Hypothesis Q2 : quat_len2 (t_rot t2) = 1.
Hypothesis O1 : solid_ok big p1.
Hypothesis O2 : solid_ok big p2.
Hypothesis NT : so_triangle p1 = false \/ so_triangle p2 = false.
Let t12 := tr_mul (tr_inverse t2) t1.
Let t21 := tr_inverse t12.
Section Full.
Hypothesis Lf : (length (st_edges (so_edges p1)) <= fuel)%nat /\ (length (st_edges (so_edges p2)) <= fuel)%nat.
Lemma face_contacts_runs report (first : bool) f : (f < face_count p1 p2 first)%nat -> exists r, face_contacts big fuel report first p1 p2 t1 t2 t12 t21 f = Ok r.
Proof.
  intros H. destruct Lf as (L1 & L2). unfold face_contacts. destruct first; cbv zeta.
  - destruct (face_parts big fuel p1 p2 O1 O2 L1 f (quat_vec (t_rot t12)) t21 H) as (axis & start & vs & poly & e & v & out & -> & E2 & E3 & E4 & E5 & E6 & E7). cbn [bind]. rewrite E2. cbn [rd bind]. rewrite E3. cbn [rd bind]. rewrite E4. cbn [bind]. rewrite E5. cbn [bind]. rewrite E6. cbn [bind]. rewrite E7. cbn [bind]. eauto.
  - destruct (face_parts big fuel p2 p1 O2 O1 L2 f (quat_vec (t_rot t21)) t12 H) as (axis & start & vs & poly & e & v & out & -> & E2 & E3 & E4 & E5 & E6 & E7). cbn [bind]. rewrite E2. cbn [rd bind]. rewrite E3. cbn [rd bind]. rewrite E4. cbn [bind]. rewrite E5. cbn [bind]. rewrite E6. cbn [bind]. rewrite E7. cbn [bind]. eauto.
Qed.
Hypothesis near : within D (so_verts p1) t1 (so_verts p2) t2.
Hypothesis near_big : D < big.
Lemma depth_near n d : depth_along n (body_of p1 t1) (body_of p2 t2) d -> d <= D.
Proof.
  intros (U & _ & p & q & Hp & Hq & <-). apply image_moved in Hp, Hq.
  assert (K : - D <= vdot (vneg n) (vsub p q)).
  { apply (hull_low (map (tr_point t1) (so_verts p1)) (map (tr_point t2) (so_verts p2))); [|exact Hp|exact Hq]. intros x y Hx Hy. apply in_map_iff in Hx, Hy. destruct Hx as (x' & <- & Hx), Hy as (y' & <- & Hy).
    pose proof (near x' y' Hx Hy) as N. rewrite dist_vlen in N. rewrite id_negdot. pose proof (cauchy_schwarz n (vsub (tr_point t1 x') (tr_point t2 y'))) as C. rewrite U in C. lra. }
  rewrite id_negdot in K. lra.
Qed.
Lemma faces_found (first : bool) : exists d o, (if first then faces_depth big p1 p2 t12 else faces_depth big p2 p1 t21) = Ok (d, o) /\ (0 < d -> exists f, o = Some f).
Proof.
  destruct first.
  - unfold faces_depth. destruct (faces_loop_runs big p1 p2 t12 O1 (seq 0 (length (so_faces p1))) (big, None)) as ((d, o) & E); [intros f Hf; apply in_seq in Hf; lia|]. exists d, o. split; [exact E|]. intros Pd.
    assert (B0 : 0 < big) by lra. destruct (faces_depth_ok big p1 p2 t12 d o B0 E) as [(Z & _)|(_ & A & [(-> & ->)|(_ & f & _ & -> & _)])]; [lra| |eauto]. exfalso.
    pose proof (ok_some _ _ O1) as NE. destruct (A O) as (df & E0 & P0 & L0); [destruct (so_faces p1); [congruence|cbn; lia]|].
    destruct (face_depth_world big p1 p2 t1 t2 Hb Q1 Q2 O1 O2 true O df E0) as (n & _ & DA). apply depth_near in DA. lra.
  - unfold faces_depth. destruct (faces_loop_runs big p2 p1 t21 O2 (seq 0 (length (so_faces p2))) (big, None)) as ((d, o) & E); [intros f Hf; apply in_seq in Hf; lia|]. exists d, o. split; [exact E|]. intros Pd.
    assert (B0 : 0 < big) by lra. destruct (faces_depth_ok big p2 p1 t21 d o B0 E) as [(Z & _)|(_ & A & [(-> & ->)|(_ & f & _ & -> & _)])]; [lra| |eauto]. exfalso.
    pose proof (ok_some _ _ O2) as NE. destruct (A O) as (df & E0 & P0 & L0); [destruct (so_faces p2); [congruence|cbn; lia]|].
    destruct (face_depth_world big p1 p2 t1 t2 Hb Q1 Q2 O1 O2 false O df E0) as (n & _ & DA). apply depth_near in DA. lra.
Qed.
Lemma sat_full_runs report l : exists r, sat_full eps big fuel report p1 p2 t1 t2 t12 t21 l = Ok r.
Proof.
  unfold sat_full. destruct (faces_found true) as (d1 & o1 & E1 & F1). cbn iota in E1. rewrite E1. cbn [bind]. assert (B0 : 0 < big) by lra.
  destruct (rle d1 0) eqn:Z1.
  - apply rle_true in Z1. destruct (faces_depth_ok big p1 p2 t12 d1 o1 B0 E1) as [(_ & f & _ & -> & _)|(P & _)]; [|lra]. cbn [rd bind]. eauto.
  - apply rle_false in Z1. destruct (F1 Z1) as (f1 & ->). destruct (faces_found false) as (d2 & o2 & E2 & F2). cbn iota in E2. rewrite E2. cbn [bind]. destruct (rle d2 0) eqn:Z2.
    + apply rle_true in Z2. destruct (faces_depth_ok big p2 p1 t21 d2 o2 B0 E2) as [(_ & f & _ & -> & _)|(P & _)]; [|lra]. cbn [rd bind]. eauto.
    + apply rle_false in Z2. destruct (F2 Z2) as (f2 & ->). 
      destruct (faces_depth_ok big p1 p2 t12 d1 (Some f1) B0 E1) as [(X & _)|(_ & _ & [(_ & X)|(_ & g1 & G1 & X1 & _)])]; [lra|discriminate|]. inversion X1; subst g1.
      destruct (faces_depth_ok big p2 p1 t21 d2 (Some f2) B0 E2) as [(X & _)|(_ & _ & [(_ & X)|(_ & g2 & G2 & X2 & _)])]; [lra|discriminate|]. inversion X2; subst g2.
      set (first := rlt d1 (d2 * rel_tolerance + abs_tolerance)). replace (rd (if first then Some f1 else Some f2)) with (Ok (if first then f1 else f2)) by (destruct first; reflexivity). cbn [bind].
      assert (Hf : ((if first then f1 else f2) < face_count p1 p2 first)%nat) by (unfold face_count; destruct first; assumption).
      fold (edge_pairs p1 p2). destruct (edges_loop_runs eps big p1 p2 t12 O1 O2 (edge_pairs p1 p2) (BestFace first (if first then f1 else f2) (Rmin d1 d2))) as (r & Er); [intros i j H; apply edge_pairs_in in H; tauto|].
      rewrite Er. cbn [bind]. apply edges_loop_ok in Er. destruct r as [(i, j)|b]; [eauto|]. destruct Er as (_ & [->|(i & j & x & -> & _)]); [|eauto].
      destruct (face_contacts_runs report first _ Hf) as ((found, cs) & ->). cbn [bind]. eauto.
Qed.
Lemma sat_previous_runs clip report l : (lf_valid l && lf_sat l = true -> cache_ok p1 p2 l) -> exists o, sat_previous eps big fuel clip report p1 p2 t1 t2 t12 t21 l = Ok o.
Proof.
  intros C. unfold sat_previous. destruct (lf_valid l && lf_sat l); cbn [negb]; [specialize (C eq_refl)|eauto]. unfold cache_ok in C.
  destruct (lf_face1 l) eqn:F1; cbn [orb].
  - destruct (face_depth_runs big p1 p2 t12 (lf_face l) O1 C) as (d & ->). cbn [bind]. destruct (negb (lf_colliding l) && rle d 0); [eauto|]. destruct (lf_colliding l && clip && rlt 0 d); [|eauto].
    destruct (face_contacts_runs report true (lf_face l) C) as ((found, cs) & ->). cbn [bind]. eauto.
  - destruct (lf_face2 l) eqn:F2.
    + destruct (face_depth_runs big p2 p1 t21 (lf_face l) O2 C) as (d & ->). cbn [bind]. destruct (negb (lf_colliding l) && rle d 0); [eauto|]. destruct (lf_colliding l && clip && rlt 0 d); [|eauto].
      destruct (face_contacts_runs report false (lf_face l) C) as ((found, cs) & ->). cbn [bind]. eauto.
    + destruct C as (C1 & C2 & _). destruct (edge_pair_runs eps big p1 p2 t12 (lf_edge1 l) (lf_edge2 l) O1 O2 C1 C2) as (o & ->). cbn [bind]. destruct o as [x|]; [|eauto].
      destruct (negb (lf_colliding l) && rle (ea_depth x) 0); [eauto|]. destruct (_ && still_crossing eps x); eauto.
Qed.
Lemma sat_runs clip report l : (lf_valid l && lf_sat l = true -> cache_ok p1 p2 l) -> exists r, sat_polyhedra eps big fuel clip report p1 p2 t1 t2 l = Ok r.
Proof.
  intros C. unfold sat_polyhedra. cbv zeta. fold t12. fold t21. destruct (sat_previous_runs clip report l C) as (o & ->). cbn [bind]. destruct o as [(r, l')|]; [cbn [bind]; eauto|].
  destruct (sat_full_runs report l) as ((r & l') & ->). cbn [bind]. eauto.
Qed.
End Full.
(** The data kept for the next frame. *)
Lemma u8_le n : (u8 n <= n)%nat. Proof. unfold u8. apply Nat.mod_le. discriminate. Qed.
Lemma u8_even n : Nat.even n = true -> Nat.even (u8 n) = true.
Proof.
  intros H. unfold u8. apply Nat.even_spec in H. destruct H as (m & ->). apply Nat.even_spec. pose proof (Nat.div_mod (2 * m) 256 ltac:(discriminate)) as K. exists (m - 128 * (2 * m / 256))%nat. lia.
Qed.
Lemma keep_face_ok (first : bool) f l : (f < face_count p1 p2 first)%nat -> cache_ok p1 p2 (keep_face first f l).
Proof. intros H. pose proof (u8_le f). unfold cache_ok, keep_face, face_count in *. cbn [lf_face1 lf_face2 lf_face]. destruct first; cbn [negb]; lia. Qed.
Lemma keep_edges_ok i j l : In (i, j) (edge_pairs p1 p2) -> cache_ok p1 p2 (keep_edges i j l).
Proof. intros H. apply edge_pairs_in in H. destruct H as (A & B & C & E). pose proof (u8_le i). pose proof (u8_le j). unfold cache_ok, keep_edges. cbn [lf_face1 lf_face2 lf_edge1 lf_edge2]. split; [lia|]. split; [lia|]. split; now apply u8_even. Qed.
Lemma cache_kept clip report l b cs l' : (lf_valid l && lf_sat l = true -> cache_ok p1 p2 l) -> sat_polyhedra eps big fuel clip report p1 p2 t1 t2 l = Ok (b, cs, l') -> cache_ok p1 p2 l'.
Proof.
  intros C H. unfold sat_polyhedra in H. cbv zeta in H. fold t12 in H. fold t21 in H. destruct (sat_previous eps big fuel clip report p1 p2 t1 t2 t12 t21 l) as [o| |] eqn:P; cbn [bind] in H; try discriminate.
  assert (K : forall m, l' = LastFrame (lf_valid m) (lf_colliding m) true (lf_face1 m) (lf_face2 m) (lf_face m) (lf_edge1 m) (lf_edge2 m) -> cache_ok p1 p2 m -> cache_ok p1 p2 l') by (intros m -> M; exact M).
  destruct o as [((b1, cs1), l1)|].
  - cbn [bind] in H. injection H as <- <- E. apply (K l1); [now symmetry|]. assert (VS : lf_valid l && lf_sat l = true). { unfold sat_previous in P. destruct (lf_valid l && lf_sat l); [reflexivity|discriminate]. } specialize (C VS).
    apply (sat_previous_cases eps big fuel p1 p2 t1 t2) in P. destruct P as (_ & [(_ & _ & _ & -> & _)|(_ & _ & _ & [(d & D1 & _ & D3 & ->)|(x & _ & _ & _ & ->)])]); auto.
    apply keep_face_ok. assert (W := face_contacts_world big fuel p1 p2 t1 t2). clear - C D1 O1 O2. 
    unfold a_face_depth, face_depth in D1. unfold face_count. destruct (lf_face1 l); apply nth_error_Some; intros E; rewrite E in D1; discriminate.
  - destruct (sat_full eps big fuel report p1 p2 t1 t2 t12 t21 l) as [((b1, cs1), l1)| |] eqn:F; cbn [bind] in H; try discriminate. injection H as <- <- E. apply (K l1); [now symmetry|].
    apply (sat_full_cases eps big fuel p1 p2 t1 t2 Hb) in F. destruct F as [(_ & _ & first & f & d & Hf & _ & _ & ->)|[(_ & _ & i & j & x & I & _ & _ & ->)|[(first & f & d & Hf & _ & _ & _ & _ & ->)|(_ & i & j & x & I & _ & _ & _ & _ & ->)]]].
    + now apply keep_face_ok. + now apply keep_edges_ok. + now apply keep_face_ok. + now apply keep_edges_ok.
Qed.
(** A test that finds a separating axis in the data kept agrees with the whole test. *)
Lemma cached_apart clip report report' l l2 cs l' b cs2 l2' : cache_ok p1 p2 l -> sat_previous eps big fuel clip report p1 p2 t1 t2 t12 t21 l = Ok (Some (false, cs, l')) ->
  sat_full eps big fuel report' p1 p2 t1 t2 t12 t21 l2 = Ok (b, cs2, l2') -> cs = [] /\ b = false /\ cs2 = [].
Proof.
  intros C P F. apply (sat_previous_cases eps big fuel p1 p2 t1 t2) in P. destruct P as (_ & [(_ & _ & -> & _ & S)|(_ & _ & X & _)]); [|discriminate]. split; [reflexivity|].
  assert (N : forall D, ~ no_axis eps big p1 p2 t1 t2 D).
  { intros D0 (N1 & N2). unfold cache_ok in C. destruct S as [(F0 & d & Fd & L)|(F0 & x & E & L)].
    - assert (Hf : (lf_face l < face_count p1 p2 (lf_face1 l))%nat) by (unfold face_count; destruct (lf_face1 l); [exact C|]; cbn [orb] in F0; rewrite F0 in C; exact C).
      destruct (N1 (lf_face1 l) (lf_face l) Hf) as (d' & E' & P' & _). unfold t12, t21 in *. rewrite Fd in E'. inversion E'; subst. lra.
    - apply orb_false_iff in F0. destruct F0 as (F1 & F2). rewrite F1, F2 in C. destruct (N2 (lf_edge1 l) (lf_edge2 l)) as (o & E' & K); [apply edge_pairs_in; tauto|]. unfold t12 in *. rewrite E in E'. inversion E'; subst o. destruct (K x eq_refl). lra. }
  apply (sat_full_cases eps big fuel p1 p2 t1 t2 Hb) in F. destruct F as [(-> & -> & _)|[(-> & -> & _)|[(first & f & d & _ & _ & _ & X & _)|(_ & i & j & x & _ & _ & _ & X & _)]]]; auto; exfalso; eapply N; exact X.
Qed.
(** The whole test depends on the data kept only in what it keeps. *)
Lemma sat_full_same report l1 l2 b cs l' : sat_full eps big fuel report p1 p2 t1 t2 t12 t21 l1 = Ok (b, cs, l') -> exists l2', sat_full eps big fuel report p1 p2 t1 t2 t12 t21 l2 = Ok (b, cs, l2').
Proof.
  unfold sat_full. destruct (faces_depth big p1 p2 t12) as [(d1, f1)| |]; cbn [bind]; try discriminate. destruct (rle d1 0).
  - destruct (rd f1); cbn [bind]; try discriminate. intros H. inversion H; subst. eauto.
  - destruct (faces_depth big p2 p1 t21) as [(d2, f2)| |]; cbn [bind]; try discriminate. destruct (rle d2 0).
    + destruct (rd f2); cbn [bind]; try discriminate. intros H. inversion H; subst. eauto.
    + destruct (rd _) as [f| |]; cbn [bind]; try discriminate. destruct (edges_loop _ _ _ _ _ _ _) as [[(i, j)|[first g d|i j x]]| |]; cbn [bind]; try discriminate.
      * intros H. inversion H; subst. eauto.
      * destruct (face_contacts _ _ _ _ _ _ _ _ _ _ _) as [(found, cs')| |]; cbn [bind]; try discriminate. intros H. inversion H; subst. eauto.
      * intros H. inversion H; subst. eauto.
Qed.
End Two.
