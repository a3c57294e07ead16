(** Proofs about the separating axis test of a capsule and a convex polyhedron: the whole test, and capsules on small boxes. *)
From Coq Require Import Reals Lra Psatz List Bool Arith Lia.
From Verif Require Import Base VecModel VecProofs GeomModel GeomSpec GeomProofs HalfEdgeModel ShapeModel ShapeSpec ShapeProofs ShapeMeshProofs GjkSpec NarrowModel NarrowSpec NarrowProofs NarrowCapsuleProofs GjkShapeProofs SatModel SatSpec GeomProperties LinAlgProperties SatProofs SatEdgeProofs SatClipProofs CapSatModel CapSatSpec CapSatProofs CapSatContactProofs SatFullProofs SatRunProofs SatBoxProofs SatCaseProofs.
Import ListNotations.
Local Open Scope R_scope.

Lemma depth_unique n A B d d' : depth_along n A B d -> depth_along n A B d' -> d = d'.
Proof. intros (_ & M & p & q & Hp & Hq & E) (_ & M' & p' & q' & Hp' & Hq' & E'). specialize (M p' q' Hp' Hq'). specialize (M' p q Hp Hq). lra. Qed.
Lemma depth_dist n A B d D : depth_along n A B d -> (forall x y, A x -> B y -> dist x y <= D) -> d <= D.
Proof. intros (U & _ & p & q & Hp & Hq & <-) N. specialize (N p q Hp Hq). rewrite dist_vlen in N. pose proof (cauchy_schwarz n (vsub p q)) as C. rewrite U in C. lra. Qed.
Lemma depth_shared n A B d : (exists x, interior A x /\ B x) -> depth_along n A B d -> 0 < d.
Proof.
  intros (x & (e & E & I) & Bx) (U & M & _). assert (K : vdot n (vsub (shifted x n (e / 2)) x) <= d).
  { apply M; [|exact Bx]. apply I. rewrite step_out by (auto; lra). lra. } rewrite step_dot in K by exact U. lra.
Qed.

(** ** The whole test *)
Section Whole.
Variables (eps big hh r : R) (p : solid) (tc tp : transform).
Hypothesis S : cap_setting eps big hh r p tc tp.
Let t := tr_mul (tr_inverse tc) tp.
Let A := body_of p tp.
Let B := cap_body hh r tc.
Let He : 0 < eps <= / 1000. Proof. apply S. Qed.
Let Hb : 4 < big. Proof. apply S. Qed.
Let Hh : 0 < hh. Proof. apply S. Qed.
Let Hr : 0 < r. Proof. apply S. Qed.
Let Qc : quat_len2 (t_rot tc) = 1. Proof. apply S. Qed.
Let Qp : quat_len2 (t_rot tp) = 1. Proof. apply S. Qed.
Let O : solid_ok big p. Proof. apply S. Qed.
Let NT : so_triangle p = false. Proof. apply S. Qed.
Let Q : quat_len2 (t_rot t) = 1. Proof. now apply unit_t. Qed.
Lemma depth_world n d : depth_along n (moved t (hull (so_verts p))) (capsule hh r) d -> depth_along (quat_vec (t_rot tc) n) A B d.
Proof.
  intros H. apply (depth_moved tc) in H; [|exact Qc]. revert H. apply depth_ext; [|tauto]. intros x. split.
  - intros (y & (z & Hz & ->) & ->). exists z. split; [exact Hz|]. now apply of_poly.
  - intros (z & Hz & ->). exists (tr_point t z). split; [exists z; auto|]. symmetry. now apply of_poly.
Qed.
Lemma wn n : quat_vec (t_rot tc) (quat_vec (t_rot t) n) = quat_vec (t_rot tp) n. Proof. now apply world_n. Qed.
Lemma face_world f n : nth_error (so_normals p) f = Some n -> face_normal p tp f = Some (quat_vec (t_rot tc) (quat_vec (t_rot t) n)).
Proof. intros E. unfold face_normal. rewrite E. cbn [option_map]. f_equal. symmetry. now apply world_n. Qed.
Lemma face_depth_world f d nc : cap_face_depth eps hh r p t f = Ok (d, nc) -> face_normal p tp f = Some (quat_vec (t_rot tc) nc) /\ depth_along (quat_vec (t_rot tc) nc) A B d.
Proof. intros H. apply (cap_face_depth_ok eps big hh r p t He Hh Hr Q O) in H. destruct H as (n & En & -> & DA). split; [now apply face_world|now apply depth_world]. Qed.
Lemma face_index f m : face_normal p tp f = Some m -> (f < length (so_faces p))%nat /\ exists d nc, cap_face_depth eps hh r p t f = Ok (d, nc) /\ m = quat_vec (t_rot tc) nc.
Proof.
  intros E. unfold face_normal in E. destruct (nth_error (so_normals p) f) as [n|] eqn:En; [|discriminate]. assert (L : (f < length (so_faces p))%nat) by (rewrite <- (proj1 (ok_count _ _ O)); apply nth_error_Some; congruence).
  split; [exact L|]. destruct (cap_face_depth_runs eps big hh r p t O f L) as (d & nc & H). exists d, nc. split; [exact H|]. destruct (face_depth_world f d nc H) as (K & _). unfold face_normal in K. rewrite En in K. cbn in *. congruence.
Qed.
(** What is known when no axis separates. *)
Definition least (depth : R) : Prop := 0 < depth /\ forall f m d, face_normal p tp f = Some m -> depth_along m A B d -> depth <= d.
Lemma cap_search : exists out, 
  (let* faces := cap_faces eps hh r p t (seq 0 (length (so_faces p))) (big, CapEdge vzero vzero, vzero) in
   match faces with None => Ok None | Some best => cap_edges eps big hh r p t (evens (length (st_edges (so_edges p)))) best end) = Ok out /\
  match out with
  | None => exists n d, depth_along n A B d /\ d <= 0
  | Some (d, what, axis) => least d /\ match what with
      | CapFace f => exists n, nth_error (so_normals p) f = Some n /\ axis = quat_vec (t_rot t) n /\ depth_along axis (moved t (hull (so_verts p))) (capsule hh r) d
      | CapEdge v1 v2 => d = big \/ (edge_points p v1 v2 /\ depth_along axis (moved t (hull (so_verts p))) (capsule hh r) d) end
  end.
Proof.
  destruct (cap_faces_runs eps big hh r p t O (seq 0 (length (so_faces p))) (big, CapEdge vzero vzero, vzero)) as (fo & Ef); [intros f Hf; apply in_seq in Hf; lia|]. rewrite Ef. cbn [bind].
  apply (cap_faces_ok eps big hh r p t He Hh Hr Q O) in Ef; [|now left|cbn; lra]. destruct fo as [best|].
  - destruct Ef as (BF & LE & MI). destruct (cap_edges_runs eps big hh r p t O (evens (length (st_edges (so_edges p)))) best) as (eo & Ee); [intros i Hi; apply evens_in in Hi; tauto|]. exists eo. split; [exact Ee|].
    apply (cap_edges_ok eps big hh r p t He Hb Hh Hr Q O NT) in Ee; [|exact BF|apply LE]. destruct eo as [((d, what), axis)|].
    + destruct Ee as (BF' & LE'). cbn [fst] in LE'. split; [|exact BF']. split; [lra|]. intros f m d' Em DA. destruct (face_index f m Em) as (L & d2 & nc & E2 & ->). destruct (face_depth_world f d2 nc E2) as (_ & DA2). rewrite (depth_unique _ _ _ _ _ DA DA2).
      specialize (MI f d2 nc ltac:(apply in_seq; lia) E2). lra.
    + destruct Ee as (axis & d & DA & L). exists (quat_vec (t_rot tc) axis), d. split; [now apply depth_world|exact L].
  - destruct Ef as (f & d & nc & _ & E & L). exists None. split; [reflexivity|]. exists (quat_vec (t_rot tc) nc), d. split; [now apply (face_depth_world f)|exact L].
Qed.
Definition answer (fuel : nat) (report first : bool) (best : cap_best) : res (bool * list contact) :=
  let '(depth, what, axis) := best in
  let t' := tr_inverse t in
  let a := tr_point t' (seg_a hh) in
  let b := tr_point t' (seg_b hh) in
  let nw := quat_vec (t_rot tc) axis in
  let nw := if first then vneg nw else nw in
  if report then
    match what with
    | CapFace f => cap_face_contacts fuel r p f depth t nw axis a b first
    | CapEdge v1 v2 =>
        let '(c1, c2) := closest_segments eps a b v1 v2 in
        let on_cap := vsub (tr_point t c1) (vscale r axis) in
        Ok (true, [Contact nw depth (if first then on_cap else c2) (if first then c2 else on_cap)])
    end
  else Ok (true, []).
Lemma sat_capsule_eq fuel report first : sat_capsule eps big fuel report first hh r p tc tp =
  (let* out := (let* faces := cap_faces eps hh r p t (seq 0 (length (so_faces p))) (big, CapEdge vzero vzero, vzero) in
   match faces with None => Ok None | Some best => cap_edges eps big hh r p t (evens (length (st_edges (so_edges p)))) best end) in
   match out with None => Ok (false, []) | Some best => answer fuel report first best end).
Proof.
  unfold sat_capsule, answer. cbv zeta. fold t. destruct (cap_faces _ _ _ _ _ _ _) as [[best|]| |]; reflexivity.
Qed.
Lemma sides_run n first cur m : returns p first cur m -> forall fuel, (m <= fuel)%nat -> exists planes, side_planes fuel p n first cur = Ok planes.
Proof.
  intros RT. assert (K : forall cur e, nth_error (st_edges (so_edges p)) cur = Some e -> exists k w v1 v2, e_twin e = Some k /\ nth_error (st_edges (so_edges p)) k = Some w /\ nth_error (so_verts p) (e_vertex e) = Some v1 /\ nth_error (so_verts p) (e_vertex w) = Some v2).
  { intros c e E. destruct (ok_edges _ _ O c e E) as (a & b & A' & B' & k & (e1 & m1 & F1 & F2 & F3 & _) & T & (e2 & m2 & G1 & G2 & G3 & _) & _). rewrite E in F1. inversion F1; subst e1. exists k, e2, A', B'. auto. }
  induction RT as [cur e E N|cur e k m E N D RT IH]; intros fuel L; (destruct fuel as [|fuel]; [lia|]); destruct (K cur e E) as (k' & w & v1 & v2 & T & Ew & E1 & E2); cbn [side_planes]; unfold half_edge, vert;
    rewrite E; cbn [rd bind]; rewrite T; cbn [rd bind]; rewrite Ew; cbn [rd bind]; rewrite E1; cbn [rd bind]; rewrite E2; cbn [rd bind]; rewrite N; cbn [rd bind].
  - rewrite Nat.eqb_refl. cbn [bind]. eauto.
  - destruct (Nat.eqb_spec k first); [congruence|]. destruct (IH fuel ltac:(lia)) as (rest & ->). cbn [bind]. eauto.
Qed.
Lemma clip_no_fuel : forall planes input out, clip_segment_loop planes input out <> Fuel.
Proof.
  induction planes as [|(pp, n) planes IH]; intros input out; cbn [clip_segment_loop]; [discriminate|]. destruct input as [|v1 [|v2 l]]; cbn [nth_error rd bind]; try discriminate. apply IH.
Qed.
Lemma contacts_no_fuel fuel f depth nw nc a b first : (length (st_edges (so_edges p)) <= fuel)%nat -> cap_face_contacts fuel r p f depth t nw nc a b first <> Fuel.
Proof.
  intros L H. unfold cap_face_contacts in H. destruct (nth_error (st_faces (so_edges p)) f) as [start|] eqn:Es; cbn [rd bind] in H; [|discriminate].
  unfold normal in H. destruct (nth_error (so_normals p) f) as [n|] eqn:En; cbn [rd bind] in H; [|discriminate].
  destruct (ok_start _ _ O f start Es) as (_ & m & Lm & RT). destruct (sides_run n start start m RT fuel ltac:(lia)) as (planes & Ep). rewrite Ep in H. cbn [bind] in H.
  unfold clip_segment in H. pose proof (clip_no_fuel planes [a; b] []) as NF. destruct (clip_segment_loop planes [a; b] []); cbn [bind] in H; try congruence. destruct (nth_error planes 0); cbn [rd bind] in H; discriminate.
Qed.
Lemma edge_contact_world first depth axis v1 v2 c : edge_points p v1 v2 ->
  c = (let '(c1, c2) := closest_segments eps (tr_point (tr_inverse t) (seg_a hh)) (tr_point (tr_inverse t) (seg_b hh)) v1 v2 in
       let on_cap := vsub (tr_point t c1) (vscale r axis) in
       Contact (if (first : bool) then vneg (quat_vec (t_rot tc) axis) else quat_vec (t_rot tc) axis) depth (if first then on_cap else c2) (if first then c2 else on_cap)) ->
  c_normal c = (if first then vneg (quat_vec (t_rot tc) axis) else quat_vec (t_rot tc) axis) /\ c_depth c = depth /\
  cap_edge_contact (2 * sqrt eps) hh r p tc tp (quat_vec (t_rot tc) axis) (if first then c_local1 c else c_local2 c) (if first then c_local2 c else c_local1 c).
Proof.
  intros EP. pose proof (C37_near_optimal eps (tr_point (tr_inverse t) (seg_a hh)) (tr_point (tr_inverse t) (seg_b hh)) v1 v2 (proj1 He)) as K.
  destruct (closest_segments eps _ _ v1 v2) as (c1, c2). destruct K as (S1 & S2 & K). intros ->. cbn [c_normal c_depth c_local1 c_local2]. split; [reflexivity|]. split; [reflexivity|].
  destruct (back_seg hh tc tp c1 S1) as (s & Hs & E1). fold t in E1.
  assert (G : cap_edge_contact (2 * sqrt eps) hh r p tc tp (quat_vec (t_rot tc) axis) (vsub (tr_point t c1) (vscale r axis)) c2).
  { exists v1, v2, s. split; [exact EP|]. split; [exact S2|]. split; [exact Hs|]. split.
    - assert (TB : tr_point t c1 = s) by (rewrite E1; exact (t_back tc tp Qc Qp s)). rewrite move_back, TB, shifted_eq. generalize (tr_point tc s), (quat_vec (t_rot tc) axis). clear. intros. vring.
    - intros y z Hy Hz. rewrite <- (to_world tc tp Qc Qp s), <- (to_world tc tp Qc Qp z). change (tr_inverse (tr_mul (tr_inverse tc) tp)) with (tr_inverse t). rewrite <- E1. rewrite !tr_isometry by exact Qp. apply K; [|exact Hy]. unfold t. apply (moved_segment (tr_inverse t) (seg_a hh) (seg_b hh)). now exists z. }
  destruct first; exact G.
Qed.
(** Contacts reported for the face or edge of least depth. *)
Definition reported (first : bool) (n : vec3) (D : R) (b : bool) (cs : list contact) : Prop :=
  depth_along n A B D /\ least D /\ (b = true <-> cs <> []) /\ (forall c, In c cs -> c_normal c = (if first then vneg n else n) /\ c_depth c = D) /\
  ((exists f, face_normal p tp f = Some n /\ (cs = [] -> cap_misses hh p tc tp f (D - r)) /\
      forall c, In c cs -> cap_face_contact hh r p tc tp f n D (if first then c_local1 c else c_local2 c) (if first then c_local2 c else c_local1 c)) \/
   (exists c, cs = [c] /\ cap_edge_contact (2 * sqrt eps) hh r p tc tp n (if first then c_local1 c else c_local2 c) (if first then c_local2 c else c_local1 c))).
Lemma cap_cases fuel report first b cs : sat_capsule eps big fuel report first hh r p tc tp = Ok (b, cs) ->
  (b = false /\ cs = [] /\ exists n d, depth_along n A B d /\ d <= 0) \/
  (b = true /\ least big) \/
  (report = false /\ b = true /\ cs = [] /\ exists D, least D) \/
  (report = true /\ exists n D, reported first n D b cs).
Proof.
  intros H. rewrite sat_capsule_eq in H. destruct cap_search as (out & EO & M). rewrite EO in H. clear EO. cbn [bind] in H. destruct out as [((d, what), axis)|]; [|inversion H; subst; left; auto]. right.
  destruct M as (LE & BF). unfold answer in H. cbv zeta in H. destruct report; [|right; left; inversion H; subst; split; [|split; [|split]]; eauto]. destruct what as [f|v1 v2].
  - destruct BF as (n & En & -> & DA). assert (U : vlen n = 1). { destruct DA as (U & _). unfold vlen in *. now rewrite vlen2_turned in U by exact Q. }
    destruct (cap_face_contacts_ok big hh r p tc tp Hr Qc Qp O fuel f n d first _ b cs En U DA H) as (K1 & K2 & K3). right. right. split; [reflexivity|]. exists (quat_vec (t_rot tp) n), d.
    pose proof (face_world f n En) as FW. pose proof (depth_world _ _ DA) as DW. rewrite wn in FW, DW.
    split; [exact DW|]. split; [exact LE|]. split; [exact K1|]. split.
    + intros c Hc. destruct (K2 c Hc) as (-> & -> & _). rewrite wn. auto.
    + left. exists f. split; [exact FW|]. split; [exact K3|]. intros c Hc. now apply K2.
  - destruct BF as [-> |(EP & DA)].
    + left. split; [|exact LE]. destruct (closest_segments _ _ _ _ _). now inversion H.
    + right. right. split; [reflexivity|]. exists (quat_vec (t_rot tc) axis), d. pose proof (fun c => edge_contact_world first d axis v1 v2 c EP) as EC.
      destruct (closest_segments eps _ _ v1 v2) as (c1, c2). inversion H; subst b cs; clear H. destruct (EC _ eq_refl) as (E1 & E2 & E3). split; [now apply depth_world|]. split; [exact LE|]. split; [split; congruence|]. split.
      * intros c [<-|[]]. auto.
      * right. eexists. split; [reflexivity|exact E3].
Qed.
(** ** Edges are left out if the product of the height and the size of the polyhedron is small *)
Lemma small_edges best : fst (fst best) <= big -> (forall x y, In x (so_verts p) -> In y (so_verts p) -> 4 * hh * hh * vlen2 (vsub y x) < / 100000) ->
  forall is, (forall i, In i is -> (i < length (st_edges (so_edges p)))%nat) -> cap_edges eps big hh r p t is best = Ok (Some best).
Proof.
  intros LB SM. induction is as [|i is IH]; intros L; cbn [cap_edges]; [reflexivity|].
  destruct (nth_error (st_edges (so_edges p)) i) as [e|] eqn:Ee; [|apply nth_error_None in Ee; specialize (L i ltac:(now left)); lia].
  destruct (ok_edges _ _ O i e Ee) as (a' & b' & A' & B' & k & (e1 & m1 & F1 & F2 & F3 & (j & F4 & F5) & F6) & T & (e2 & m2 & G1 & G2 & G3 & _) & _).
  rewrite Ee in F1. inversion F1; subst e1. unfold half_edge, edge_ends, vert, normal, half_edge. rewrite Ee. cbn [rd bind]. rewrite F3. cbn [rd bind]. rewrite F4. cbn [rd bind]. rewrite F5. cbn [rd bind]. rewrite F6. cbn [rd bind].
  rewrite T. cbn [rd bind]. rewrite G1. cbn [rd bind]. rewrite F2. cbn [rd bind]. rewrite G2. cbn [rd bind].
  assert (L' : forall i, In i is -> (i < length (st_edges (so_edges p)))%nat) by (intros; apply L; now right). specialize (IH L').
  destruct (cap_minkowski _ _ _); [|exact IH]. unfold cap_edge_depth. cbv zeta.
  assert (Z : rle (/ 100000) (vlen2 (vcross (vsub (seg_b hh) (seg_a hh)) (quat_vec (t_rot t) (vsub B' A')))) = false).
  { apply rle_false. specialize (SM A' B' (nth_error_In _ _ F3) (nth_error_In _ _ F6)). rewrite <- (vlen2_turned (t_rot t) (vsub B' A') Q) in SM. revert SM. generalize (quat_vec (t_rot t) (vsub B' A')). intros w SM.
    apply Rle_lt_trans with (2 := SM). unfold vlen2, vcross, vsub, seg_a, seg_b. cbn [vx vy vz]. pose proof (Rle_0_sqr (hh * vy w)). unfold Rsqr in *. nra. }
  rewrite Z. assert (Z1 : rle big 0 = false) by (apply rle_false; lra). assert (Z2 : rlt big (fst (fst best)) = false) by (apply rlt_false; exact LB). rewrite Z1, Z2. exact IH.
Qed.
Lemma cap_faces_what : forall fs best b, cap_faces eps hh r p t fs best = Ok (Some b) -> b = best \/ exists d f n, b = (d, CapFace f, n).
Proof.
  induction fs as [|f fs IH]; intros best b H; cbn [cap_faces] in H; [inversion H; now left|]. destruct (cap_face_depth eps hh r p t f) as [(d, n)| |]; cbn [bind] in H; try discriminate.
  destruct (rle d 0); [discriminate|]. apply IH in H. destruct H as [-> |H]; [|now right]. destruct (rlt d (fst (fst best))); [right; eauto|now left].
Qed.
(** A face with a depth less than that of the others. *)
Lemma cap_top f n D : nth_error (so_normals p) f = Some n -> (exists x, interior A x /\ B x) -> depth_along (quat_vec (t_rot tp) n) A B D -> D < big ->
  (forall g m, g <> f -> face_normal p tp g = Some m -> exists x y, A x /\ B y /\ D < vdot m (vsub x y)) ->
  (forall x y, In x (so_verts p) -> In y (so_verts p) -> 4 * hh * hh * vlen2 (vsub y x) < / 100000) ->
  forall fuel report first, sat_capsule eps big fuel report first hh r p tc tp = answer fuel report first (D, CapFace f, quat_vec (t_rot t) n).
Proof.
  intros En SH DA LB OT SM fuel report first. rewrite sat_capsule_eq.
  destruct (cap_faces_runs eps big hh r p t O (seq 0 (length (so_faces p))) (big, CapEdge vzero vzero, vzero)) as (fo & Ef); [intros g Hg; apply in_seq in Hg; lia|]. rewrite Ef. cbn [bind]. pose proof (cap_faces_what (seq 0 (length (so_faces p))) (big, CapEdge vzero vzero, vzero)) as WH.
  destruct fo as [best|]; [specialize (WH _ Ef)|]; apply (cap_faces_ok eps big hh r p t He Hh Hr Q O) in Ef; [|now left|cbn; lra| |now left|cbn; lra].
  - destruct Ef as (BF & LE & MI). cbn [fst] in LE.
    assert (FN : face_normal p tp f = Some (quat_vec (t_rot tp) n)) by (unfold face_normal; now rewrite En). destruct (face_index f _ FN) as (Lf & d & nc & Ed & En').
    assert (d = D). { destruct (face_depth_world f d nc Ed) as (_ & K). rewrite <- En' in K. now apply (depth_unique _ _ _ _ _ K). } subst d.
    specialize (MI f D nc ltac:(apply in_seq; lia) Ed).
    assert (E : best = (D, CapFace f, quat_vec (t_rot t) n)).
    { destruct best as ((d, what), axis). cbn [fst] in *. unfold best_fits in BF. destruct what as [g|v1 v2].
      - destruct BF as (m & Em & -> & DM). pose proof (face_world g m Em) as Gm. apply depth_world in DM. destruct (Nat.eq_dec g f) as [-> |N].
        + rewrite En in Em. inversion Em; subst m. rewrite wn in DM. now rewrite (depth_unique _ _ _ _ _ DM DA).
        + exfalso. destruct (OT g _ N Gm) as (x & y & Hx & Hy & L). destruct DM as (_ & M & _). specialize (M x y Hx Hy). lra.
      - exfalso. destruct WH as [WH|(d0 & f0 & n0 & WH)]; inversion WH; subst. lra. }
    subst best. rewrite small_edges; [reflexivity|cbn; lra|exact SM|intros i Hi; apply evens_in in Hi; tauto].
  - exfalso. destruct Ef as (g & d & nc & _ & E & L). destruct (face_depth_world g d nc E) as (_ & K). apply depth_shared in K; [lra|exact SH].
Qed.
End Whole.
