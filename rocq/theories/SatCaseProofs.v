(** Proofs about the separating axis test: thin overlaps, and boxes placed on boxes. *)
From Coq Require Import Reals Lra Psatz List Bool Arith Lia.
From Verif Require Import Base VecModel VecProofs GeomModel GeomSpec GeomProofs HalfEdgeModel ShapeModel ShapeSpec ShapeProofs ShapeMeshProofs GjkSpec GjkVertexProofs NarrowModel NarrowSpec NarrowProofs NarrowCapsuleProofs GjkShapeProofs SatModel SatSpec SatProofs SatEdgeProofs SatClipProofs SatFullProofs SatRunProofs SatBoxProofs.
Import ListNotations.
Local Open Scope R_scope.

(** ** A face of the first polyhedron with a depth below the absolute tolerance *)
Lemma edges_loop_keeps eps big p1 p2 t (first : bool) f m : m <= abs_tolerance -> forall ijs r, edges_loop eps big p1 p2 t ijs (BestFace first f m) = Ok r ->
  (exists i j, r = inl (i, j)) \/ r = inr (BestFace first f m).
Proof.
  intros M. induction ijs as [|(i, j) ijs IH]; intros r H; cbn [edges_loop] in H; [inversion H; now right|].
  destruct (edge_pair eps big p1 p2 t i j) as [[x|]| |]; cbn [bind] in H; try discriminate; [|now apply IH].
  destruct (rle (ea_depth x) 0) eqn:Z; [inversion H; left; eauto|]. apply rle_false in Z.
  assert (L : rlt (ea_depth x * rel_tolerance + abs_tolerance) m = false) by (apply rlt_false; unfold rel_tolerance; nra). rewrite L in H. now apply IH.
Qed.
Lemma step_out x n k : vlen n = 1 -> 0 <= k -> dist x (shifted x n k) = k.
Proof.
  intros U K. rewrite dist_vlen. replace (vsub x (shifted x n k)) with (vscale (- k) n) by (unfold shifted; vring). unfold vlen in *. replace (vlen2 (vscale (- k) n)) with (- k * - k * vlen2 n) by vring.
  assert (V : vlen2 n = 1). { rewrite <- (sqrt_sqrt (vlen2 n)) by apply vlen2_nonneg. rewrite U. ring. } rewrite V. replace (- k * - k * 1) with (k * k) by ring. now apply sqrt_square.
Qed.
Lemma step_dot x n k : vlen n = 1 -> vdot n (vsub (shifted x n k) x) = k.
Proof. intros U. apply vlen_1 in U. replace (vdot n (vsub (shifted x n k) x)) with (k * vdot n n) by (unfold shifted; vring). rewrite U. ring. Qed.
Section Thin.
Variables (eps big D : R) (fuel : nat) (p1 p2 : solid) (t1 t2 : transform).
Hypothesis He : 0 < eps <= / 1000.
Hypothesis Hb : 4 < big.
Hypothesis Q1 : quat_len2 (t_rot t1) = 1.
Hypothesis Q2 : quat_len2 (t_rot t2) = 1.
Hypothesis O1 : solid_ok big p1.
Hypothesis O2 : solid_ok big p2.
Hypothesis NT : so_triangle p1 = false \/ so_triangle p2 = false.
Hypothesis Lf : (length (st_edges (so_edges p1)) <= fuel)%nat /\ (length (st_edges (so_edges p2)) <= fuel)%nat.
Hypothesis near : within D (so_verts p1) t1 (so_verts p2) t2.
Hypothesis near_big : D < big.
Hypothesis shared : exists x, interior (body_of p1 t1) x /\ body_of p2 t2 x.
Let t12 := tr_mul (tr_inverse t2) t1.
Let t21 := tr_inverse t12.
Lemma overlap_positive n d : depth_along n (body_of p1 t1) (body_of p2 t2) d -> 0 < d.
Proof.
  intros (U & M & _). destruct shared as (x & (e & E & I) & B). assert (K : vdot n (vsub (shifted x n (e / 2)) x) <= d).
  { apply M; [|exact B]. apply I. rewrite step_out by (auto; lra). lra. } rewrite step_dot in K by exact U. lra.
Qed.
Lemma thin_runs f : (f < length (so_faces p1))%nat ->
  (forall n d, world_face true p1 p2 t1 t2 f = Some n -> depth_along n (body_of p1 t1) (body_of p2 t2) d -> d <= abs_tolerance) ->
  (forall g n, g <> f -> world_face true p1 p2 t1 t2 g = Some n -> exists p q, body_of p1 t1 p /\ body_of p2 t2 q /\ abs_tolerance < vdot n (vsub p q)) ->
  forall report l, exists found cs, face_contacts big fuel report true p1 p2 t1 t2 t12 t21 f = Ok (found, cs) /\ sat_full eps big fuel report p1 p2 t1 t2 t12 t21 l = Ok (found, cs, keep_face true f l).
Proof.
  intros Hf TH OT report l. assert (B0 : 0 < big) by lra. assert (AT : 0 < abs_tolerance < 1) by (unfold abs_tolerance; lra).
  destruct (face_contacts_runs big fuel p1 p2 t1 t2 O1 O2 Lf report true f Hf) as ((found, cs) & EF). fold t12 in EF. fold t21 in EF. exists found, cs. split; [exact EF|].
  unfold sat_full. destruct (faces_found big D fuel p1 p2 t1 t2 Hb Q1 Q2 O1 O2 Lf near near_big true) as (d1 & o1 & E1 & F1). cbn iota in E1. fold t12 in E1. rewrite E1. cbn [bind].
  assert (P1 : 0 < d1 <= abs_tolerance /\ o1 = Some f).
  { destruct (faces_depth_ok big p1 p2 t12 d1 o1 B0 E1) as [(Z & g & _ & _ & Eg)|(P & A & C)].
    - destruct (face_depth_world big p1 p2 t1 t2 Hb Q1 Q2 O1 O2 true g d1 Eg) as (n & _ & DA). apply overlap_positive in DA. lra.
    - destruct (A f Hf) as (df & Ef & Pf & Lf'). destruct (face_depth_world big p1 p2 t1 t2 Hb Q1 Q2 O1 O2 true f df Ef) as (n & En & DA). specialize (TH n df En DA).
      destruct C as [(-> & _)|(_ & g & Hg & -> & Eg)]; [lra|]. split; [lra|]. f_equal. destruct (Nat.eq_dec g f) as [|N]; [assumption|exfalso].
      destruct (face_depth_world big p1 p2 t1 t2 Hb Q1 Q2 O1 O2 true g d1 Eg) as (m & Em & (_ & M & _)). destruct (OT g m N Em) as (p & q & Hp & Hq & L). specialize (M p q Hp Hq). lra. }
  destruct P1 as (P1 & ->). assert (Z1 : rle d1 0 = false) by (apply rle_false; lra). rewrite Z1.
  destruct (faces_found big D fuel p1 p2 t1 t2 Hb Q1 Q2 O1 O2 Lf near near_big false) as (d2 & o2 & E2 & F2). cbn iota in E2. fold t12 in E2. fold t21 in E2. rewrite E2. cbn [bind].
  assert (P2 : 0 < d2).
  { destruct (faces_depth_ok big p2 p1 t21 d2 o2 B0 E2) as [(Z & g & _ & _ & Eg)|(P & _)]; [|exact P]. destruct (face_depth_world big p1 p2 t1 t2 Hb Q1 Q2 O1 O2 false g d2 Eg) as (n & _ & DA). apply overlap_positive in DA. lra. }
  assert (Z2 : rle d2 0 = false) by (apply rle_false; lra). rewrite Z2.
  assert (FI : rlt d1 (d2 * rel_tolerance + abs_tolerance) = true) by (apply rlt_true; unfold rel_tolerance; nra). rewrite FI. cbn [rd bind].
  fold (edge_pairs p1 p2). destruct (edges_loop_runs eps big p1 p2 t12 O1 O2 (edge_pairs p1 p2) (BestFace true f (Rmin d1 d2))) as (r & Er); [intros i j H; apply edge_pairs_in in H; tauto|]. rewrite Er. cbn [bind].
  assert (RM : Rmin d1 d2 <= abs_tolerance) by (pose proof (Rmin_l d1 d2); lra).
  destruct (edges_loop_keeps eps big p1 p2 t12 true f _ RM _ _ Er) as [(i & j & ->)| ->].
  - exfalso. apply edges_loop_ok in Er. destruct Er as (_ & x & Ex & Zx). destruct (edge_pair_world eps big p1 p2 t1 t2 He Q1 Q2 O1 O2 NT i j x Ex) as [(B & _)|DA]; [lra|]. apply overlap_positive in DA. lra.
  - rewrite EF. cbn [bind]. reflexivity.
Qed.
End Thin.

(** ** Boxes *)
Lemma box_body h t p : 0 < vx h -> 0 < vy h -> 0 < vz h -> body_of (the_box h) t p <-> moved t (cuboid h) p.
Proof.
  intros X Y Z. assert (K : forall q, hull (so_verts (the_box h)) q <-> cuboid h q).
  { intros q. rewrite <- box_hull by lra. destruct h as [x y z]. cbn [the_box so_verts]. split; apply hull_incl; intros v Hv; now apply box_in. }
  split; intros (q & Hq & ->); exists q; (split; [now apply K|reflexivity]).
Qed.
Definition stay : transform := Tr (V3 0 0 0) (Q4 0 0 0 1).
Definition place (p : vec3) : transform := Tr p (Q4 0 0 0 1).
Lemma place_unit p : quat_len2 (t_rot (place p)) = 1. Proof. unfold place, quat_len2. cbn. ring. Qed.
Lemma stay_unit : quat_len2 (t_rot stay) = 1. Proof. unfold stay, quat_len2. cbn. ring. Qed.
Lemma place_vec p v : quat_vec (t_rot (place p)) v = v.
Proof. destruct v as [x y z]. unfold place, quat_vec. apply v3_eq; cbn; ring. Qed.
Lemma place_point p v : tr_point (place p) v = V3 (vx v + vx p) (vy v + vy p) (vz v + vz p).
Proof. unfold tr_point. rewrite place_vec. unfold vadd. cbn. reflexivity. Qed.
Lemma stay_point v : tr_point stay v = v.
Proof. destruct v as [x y z]. change stay with (place (V3 0 0 0)). rewrite place_point. apply v3_eq; cbn; ring. Qed.
Lemma stay_vec v : quat_vec (t_rot stay) v = v. Proof. apply (place_vec (V3 0 0 0)). Qed.
Lemma coords x y r : dist x y < r -> Rabs (vx y - vx x) < r /\ Rabs (vy y - vy x) < r /\ Rabs (vz y - vz x) < r.
Proof.
  intros H. unfold dist in H. assert (P : 0 <= r) by (pose proof (sqrt_pos ((vx x - vx y) * (vx x - vx y) + (vy x - vy y) * (vy x - vy y) + (vz x - vz y) * (vz x - vz y))); lra).
  assert (K : forall a, a * a <= (vx x - vx y) * (vx x - vx y) + (vy x - vy y) * (vy x - vy y) + (vz x - vz y) * (vz x - vz y) -> Rabs a < r).
  { intros a L. rewrite <- (sqrt_Rsqr_abs a). unfold Rsqr. apply Rle_lt_trans with (2 := H). now apply sqrt_le_1_alt. }
  rewrite (Rabs_minus_sym (vx y)), (Rabs_minus_sym (vy y)), (Rabs_minus_sym (vz y)). pose proof (Rle_0_sqr (vx x - vx y)). pose proof (Rle_0_sqr (vy x - vy y)). pose proof (Rle_0_sqr (vz x - vz y)). unfold Rsqr in *. repeat split; apply K; lra.
Qed.
Lemma abs_lt a r : Rabs a < r -> - r < a < r. Proof. intros H. apply Rabs_def2 in H. lra. Qed.
Lemma top_around h k : around (the_box h) 23 k -> k = 23%nat \/ k = 17%nat \/ k = 19%nat \/ k = 21%nat.
Proof.
  induction 1 as [|k e j AR IH E N]; [now left|]. destruct IH as [-> | [-> | [-> | ->]]]; cbn in E; inversion E; subst e; cbn in N; inversion N; auto.
Qed.
(** The prism over the top face of a box. *)
Lemma top_prism h x : 0 < vx h -> 0 < vz h -> in_prism (the_box h) 5 x <-> - vx h <= vx x <= vx h /\ - vz h <= vz x <= vz h.
Proof.
  intros X Z. split.
  - intros P.
    assert (A23 : around (the_box h) 23 23) by apply ar_start. assert (A17 : around (the_box h) 23 17) by (eapply ar_next; [exact A23|reflexivity|reflexivity]).
    assert (A19 : around (the_box h) 23 19) by (eapply ar_next; [exact A17|reflexivity|reflexivity]). assert (A21 : around (the_box h) 23 21) by (eapply ar_next; [exact A19|reflexivity|reflexivity]).
    assert (K : forall k a A B, around (the_box h) 23 k -> runs (the_box h) k a A B -> 0 <= vdot (vcross (V3 0 1 0) (vsub B A)) (vsub x A)) by (intros k a A B AR RU; apply (P 23%nat (V3 0 1 0) k a A B); auto).
    pose proof (K 23%nat _ _ _ A23 ltac:(eexists; eexists; split; [reflexivity|]; split; [reflexivity|]; split; [reflexivity|]; split; [eexists; split; reflexivity|reflexivity])) as K1.
    pose proof (K 17%nat _ _ _ A17 ltac:(eexists; eexists; split; [reflexivity|]; split; [reflexivity|]; split; [reflexivity|]; split; [eexists; split; reflexivity|reflexivity])) as K2.
    pose proof (K 19%nat _ _ _ A19 ltac:(eexists; eexists; split; [reflexivity|]; split; [reflexivity|]; split; [reflexivity|]; split; [eexists; split; reflexivity|reflexivity])) as K3.
    pose proof (K 21%nat _ _ _ A21 ltac:(eexists; eexists; split; [reflexivity|]; split; [reflexivity|]; split; [reflexivity|]; split; [eexists; split; reflexivity|reflexivity])) as K4.
    clear - X Z K1 K2 K3 K4. unfold vdot, vsub, vcross in *. cbn [vx vy vz] in *. repeat split; nra.
  - intros (HX & HZ) start axis k a A B E1 E2 AR RU. cbn in E1, E2. inversion E1; subst start. inversion E2; subst axis. clear E1 E2.
    destruct (top_around h k AR) as [-> | [-> | [-> | ->]]]; destruct RU as (e & n & F1 & F2 & F3 & (j & F4 & F5) & F6); cbn in F1; inversion F1; subst e; cbn in F2, F3, F4; inversion F4; subst j; cbn in F5; inversion F5; subst n; cbn in F6;
      inversion F3; subst A; inversion F6; subst B; clear - X Z HX HZ; unfold vdot, vsub, vcross; cbn [vx vy vz]; nra.
Qed.

(** ** A box whose lowest edge is just beside the top face of another *)
Definition unit_box : solid := the_box (V3 1 1 1).
Definition turned : transform := Tr (V3 (- 1 - / 10000 - 17 / 25) (1 - / 2000 + 31 / 25) 0) (Q4 0 0 (3 / 5) (4 / 5)).
Lemma turned_unit : quat_len2 (t_rot turned) = 1. Proof. unfold turned, quat_len2. cbn. field. Qed.
Lemma turned_vec v : quat_vec (t_rot turned) v = V3 (7 / 25 * vx v - 24 / 25 * vy v) (24 / 25 * vx v + 7 / 25 * vy v) (vz v).
Proof. destruct v as [x y z]. unfold turned, quat_vec. apply v3_eq; cbn; field. Qed.
Lemma turned_point v : tr_point turned v = V3 (7 / 25 * vx v - 24 / 25 * vy v - 1 - / 10000 - 17 / 25) (24 / 25 * vx v + 7 / 25 * vy v + 1 - / 2000 + 31 / 25) (vz v).
Proof. unfold tr_point. rewrite turned_vec. unfold vadd. apply v3_eq; cbn; field. Qed.
Lemma in_first p : body_of unit_box stay p <-> cuboid (V3 1 1 1) p.
Proof. unfold unit_box. rewrite box_body by (cbn; lra). split; [intros (q & Hq & ->); now rewrite stay_point|intros H; exists p; now rewrite stay_point]. Qed.
Lemma in_second p : body_of unit_box turned p <-> exists q, cuboid (V3 1 1 1) q /\ p = tr_point turned q.
Proof. unfold unit_box. rewrite box_body by (cbn; lra). reflexivity. Qed.
Lemma both_share : exists x r, 0 < r /\ forall y, dist x y < r -> body_of unit_box stay y /\ body_of unit_box turned y.
Proof.
  exists (V3 (- 1 + / 100000) (1 - / 10000) 0), (/ 1000000). split; [lra|]. intros y H. apply coords in H. destruct H as (X & Y & Z). apply abs_lt in X, Y, Z. cbn [vx vy vz] in X, Y, Z. split.
  - apply in_first. unfold cuboid. cbn [vx vy vz]. lra.
  - apply in_second. exists (V3 (7 / 25 * (vx y + 1 + / 10000 + 17 / 25) + 24 / 25 * (vy y - 1 + / 2000 - 31 / 25)) (- 24 / 25 * (vx y + 1 + / 10000 + 17 / 25) + 7 / 25 * (vy y - 1 + / 2000 - 31 / 25)) (vz y)). split.
    + unfold cuboid. cbn [vx vy vz]. lra.
    + rewrite turned_point. destruct y as [a b c]. cbn [vx vy vz]. apply v3_eq; cbn; field.
Qed.
Lemma turned_near : within 20 (so_verts unit_box) stay (so_verts unit_box) turned.
Proof.
  intros p q Hp Hq. assert (Cp : body_of unit_box stay p) by (exists p; split; [now apply hull_vertex|now rewrite stay_point]). apply in_first in Cp.
  assert (Cq : body_of unit_box stay q) by (exists q; split; [now apply hull_vertex|now rewrite stay_point]). apply in_first in Cq.
  rewrite stay_point, turned_point. apply dist_le_sq; [lra|]. unfold vlen2, vsub, cuboid in *. cbn [vx vy vz] in *. 
  assert (K : forall a, -10 <= a <= 10 -> a * a <= 100) by (intros; nra).
  match goal with |- ?a * ?a + ?b * ?b + ?c * ?c <= _ => assert (a * a <= 100) by (apply K; lra); assert (b * b <= 100) by (apply K; lra); assert (c * c <= 100) by (apply K; lra) end. lra.
Qed.
Lemma turned_misses eps big fuel l : 0 < eps <= / 1000 -> 20 < big -> (24 <= fuel)%nat ->
  sat_full eps big fuel true unit_box unit_box stay turned (tr_mul (tr_inverse turned) stay) (tr_inverse (tr_mul (tr_inverse turned) stay)) l = Ok (false, [], keep_face true 5 l).
Proof.
  intros He Hb Hf. assert (B4 : 4 < big) by lra. assert (OB : solid_ok big unit_box) by (apply box_ok; lra).
  assert (SH : exists x, interior (body_of unit_box stay) x /\ body_of unit_box turned x). { destruct both_share as (x & r & Hr & K). exists x. split; [exists r; split; [exact Hr|]; intros y Hy; now apply K|]. apply K. rewrite dist_vlen. replace (vsub x x) with vzero by (unfold vzero; vring). unfold vlen, vlen2, vzero. cbn [vx vy vz]. replace (0 * 0 + 0 * 0 + 0 * 0) with 0 by ring. rewrite sqrt_0. exact Hr. }
  assert (W : forall g n, world_face true unit_box unit_box stay turned g = Some n -> nth_error (so_normals unit_box) g = Some n) by (intros g n; unfold world_face; destruct (nth_error (so_normals unit_box) g) as [m|]; cbn; [rewrite stay_vec; auto|discriminate]).
  destruct (thin_runs eps big 20 fuel unit_box unit_box stay turned He B4 stay_unit turned_unit OB OB (or_introl eq_refl) (conj Hf Hf) turned_near Hb SH 5%nat) with (report := true) (l := l) as (found & cs & EF & ES).
  - cbn. lia.
  - intros n d En (_ & _ & p & q & Hp & Hq & <-). apply W in En. cbn in En. inversion En; subst n. apply in_first in Hp. apply in_second in Hq. destruct Hq as (q' & Hq & ->). rewrite turned_point.
    unfold cuboid, vdot, vsub, abs_tolerance in *. cbn [vx vy vz] in *. lra.
  - intros g n Ng En. apply W in En.
    assert (FP : forall a b c, cuboid (V3 1 1 1) (V3 a b c) -> body_of unit_box stay (V3 a b c)) by (intros; now apply in_first).
    assert (SP : forall a b c, cuboid (V3 1 1 1) (V3 a b c) -> body_of unit_box turned (tr_point turned (V3 a b c))) by (intros a b c C; apply in_second; exists (V3 a b c); auto).
    assert (R1 : -1 <= 1 <= 1 /\ -1 <= -1 <= 1) by lra.
    destruct g as [|[|[|[|[|[|g]]]]]]; [| | | | |congruence|destruct g; discriminate]; cbn in En; inversion En; subst n; clear En.
    + exists (V3 0 0 1), (tr_point turned (V3 0 0 (-1))). split; [apply FP; unfold cuboid; cbn; lra|]. split; [apply SP; unfold cuboid; cbn; lra|]. rewrite turned_point. unfold vdot, vsub, abs_tolerance. cbn. lra.
    + exists (V3 1 0 0), (tr_point turned (V3 0 0 0)). split; [apply FP; unfold cuboid; cbn; lra|]. split; [apply SP; unfold cuboid; cbn; lra|]. rewrite turned_point. unfold vdot, vsub, abs_tolerance. cbn. lra.
    + exists (V3 0 0 (-1)), (tr_point turned (V3 0 0 1)). split; [apply FP; unfold cuboid; cbn; lra|]. split; [apply SP; unfold cuboid; cbn; lra|]. rewrite turned_point. unfold vdot, vsub, abs_tolerance. cbn. lra.
    + exists (V3 (-1) 0 0), (tr_point turned (V3 1 (-1) 0)). split; [apply FP; unfold cuboid; cbn; lra|]. split; [apply SP; unfold cuboid; cbn; lra|]. rewrite turned_point. unfold vdot, vsub, abs_tolerance. cbn. lra.
    + exists (V3 0 (-1) 0), (tr_point turned (V3 0 0 0)). split; [apply FP; unfold cuboid; cbn; lra|]. split; [apply SP; unfold cuboid; cbn; lra|]. rewrite turned_point. unfold vdot, vsub, abs_tolerance. cbn. lra.
  - rewrite ES. destruct (face_contacts_world big fuel unit_box unit_box stay turned B4 stay_unit turned_unit OB OB true true 5 found cs EF) as (n & g & En & FA & FC & _ & NE & MI). apply W in En. cbn in En. inversion En; subst n.
    destruct found; [exfalso|destruct (MI eq_refl) as (-> & _); reflexivity]. destruct cs as [|c cs]; [apply NE; auto|]. destruct (FC c ltac:(now left)) as (_ & K & _). destruct K as [_ KI (_ & KP) KA].
    assert (G : g = 3%nat).
    { destruct FA as (m & Em & K). specialize (K 3%nat (V3 (-1) 0 0) eq_refl). rewrite !turned_vec in K. destruct g as [|[|[|[|[|[|g]]]]]]; [| | |reflexivity| | |destruct g; discriminate]; exfalso; cbn in Em; inversion Em; subst m; clear Em; unfold vdot in K; cbn in K; lra. }
    subst g. apply top_prism in KP; [|cbn; lra|cbn; lra]. rewrite stay_point, turned_point in KA. rewrite KA in KP. unfold shifted in KP. cbn [vx vy vz] in KP.
    assert (X1 : vdot (V3 1 0 0) (c_local2 c) <= -1) by (apply (hull_bound (corners unit_box 3)); [|exact KI]; intros v Hv; cbn in Hv; destruct Hv as [<-|[<-|[<-|[<-|[]]]]]; unfold vdot; cbn; lra).
    assert (X2 : vdot (V3 0 (-1) 0) (c_local2 c) <= 1) by (apply (hull_bound (corners unit_box 3)); [|exact KI]; intros v Hv; cbn in Hv; destruct Hv as [<-|[<-|[<-|[<-|[]]]]]; unfold vdot; cbn; lra).
    unfold vdot in X1, X2. cbn [vx vy vz] in X1, X2. lra.
Qed.

(** ** A small box and a thin plate *)
Definition plate : solid := the_box (V3 1 (/ 100) 1).
Definition cube : solid := the_box (V3 (/ 10) (/ 10) (/ 10)).
Definition at_height (y : R) : transform := place (V3 0 y 0).
Lemma in_plate p : body_of plate stay p <-> cuboid (V3 1 (/ 100) 1) p.
Proof. unfold plate. rewrite box_body by (cbn; lra). split; [intros (q & Hq & ->); now rewrite stay_point|intros H; exists p; now rewrite stay_point]. Qed.
Lemma in_cube y p : body_of cube (at_height y) p <-> cuboid (V3 (/ 10) (/ 10) (/ 10)) (V3 (vx p) (vy p - y) (vz p)).
Proof.
  unfold cube, at_height. rewrite box_body by (cbn; lra). split.
  - intros (q & Hq & ->). rewrite place_point. cbn [vx vy vz]. replace (V3 (vx q + 0) (vy q + y - y) (vz q + 0)) with q; [exact Hq|]. destruct q. apply v3_eq; cbn; ring.
  - intros H. exists (V3 (vx p) (vy p - y) (vz p)). split; [exact H|]. rewrite place_point. destruct p. apply v3_eq; cbn; ring.
Qed.
Lemma plate_near y : -1 <= y <= 1 -> within 20 (so_verts plate) stay (so_verts cube) (at_height y).
Proof.
  intros Hy p q Hp Hq. assert (Cp : body_of plate stay p) by (exists p; split; [now apply hull_vertex|now rewrite stay_point]). apply in_plate in Cp.
  assert (Cq : body_of cube (at_height y) (tr_point (at_height y) q)) by (exists q; split; [now apply hull_vertex|reflexivity]). apply in_cube in Cq.
  rewrite stay_point. set (w := tr_point (at_height y) q) in *. clearbody w. apply dist_le_sq; [lra|]. unfold vlen2, vsub, cuboid in *. cbn [vx vy vz] in *.
  assert (K : forall a, -10 <= a <= 10 -> a * a <= 100) by (intros; nra).
  match goal with |- ?a * ?a + ?b * ?b + ?c * ?c <= _ => assert (a * a <= 100) by (apply K; lra); assert (b * b <= 100) by (apply K; lra); assert (c * c <= 100) by (apply K; lra) end. lra.
Qed.
Lemma plate_setting eps big y : 0 < eps <= / 1000 -> 4 < big -> sat_setting eps big plate cube stay (at_height y).
Proof.
  intros He Hb. split; [exact He|]. split; [exact Hb|]. split; [apply stay_unit|]. split; [apply place_unit|]. split; [apply box_ok; lra|]. split; [apply box_ok; lra|]. now left.
Qed.
Lemma plate_face y g n : world_face true plate cube stay (at_height y) g = Some n -> nth_error (so_normals plate) g = Some n.
Proof. unfold world_face. destruct (nth_error (so_normals plate) g) as [m|]; cbn; [rewrite stay_vec; auto|discriminate]. Qed.
Lemma plate_contacts big fuel report y found cs : 4 < big -> y < / 100 + / 10 ->
  face_contacts big fuel report true plate cube stay (at_height y) (tr_mul (tr_inverse (at_height y)) stay) (tr_inverse (tr_mul (tr_inverse (at_height y)) stay)) 5 = Ok (found, cs) ->
  found = true /\ forall c, In c cs -> c_normal c = V3 0 1 0 /\ c_depth c = / 100 - (y - / 10).
Proof.
  intros Hb Hy EF. assert (O1 : solid_ok big plate) by (apply box_ok; lra). assert (O2 : solid_ok big cube) by (apply box_ok; lra).
  destruct (face_contacts_world big fuel plate cube stay (at_height y) Hb stay_unit (place_unit _) O1 O2 report true 5 found cs EF) as (n & g & En & FA & FC & _ & _ & MI).
  apply plate_face in En. cbn in En. inversion En; subst n. clear En.
  assert (G : g = 4%nat).
  { destruct FA as (m & Em & K). specialize (K 4%nat (V3 0 (-1) 0) eq_refl). unfold at_height in K. rewrite !place_vec in K.
    destruct g as [|[|[|[|[|[|g]]]]]]; [| | | |reflexivity| |destruct g; discriminate]; exfalso; cbn in Em; inversion Em; subst m; clear Em; unfold vdot in K; cbn in K; lra. }
  subst g. split.
  - destruct found; [reflexivity|]. exfalso. destruct (MI eq_refl) as (_ & M). apply (M (V3 (- / 10) (- / 10) (/ 10)) (V3 (- / 10) (y - / 10) (/ 10))).
    + cbn. tauto.
    + unfold at_height. rewrite stay_point, place_point. apply v3_eq; cbn; ring.
    + apply top_prism; cbn; lra.
    + exists (V3 0 1 0), (V3 1 (/ 100) 1). split; [reflexivity|]. split; [cbn; tauto|]. unfold vdot, vsub. cbn. lra.
  - intros c Hc. destruct (FC c Hc) as (-> & K & _). split; [reflexivity|]. destruct K as [_ KI (KF & _) KA]. unfold at_height in KA. rewrite stay_point, place_point in KA.
    assert (X1 : vdot (V3 0 1 0) (c_local2 c) <= - / 10) by (apply (hull_bound (corners cube 4)); [|exact KI]; intros v Hv; cbn in Hv; destruct Hv as [<-|[<-|[<-|[<-|[]]]]]; unfold vdot; cbn; lra).
    assert (X2 : vdot (V3 0 (-1) 0) (c_local2 c) <= / 10) by (apply (hull_bound (corners cube 4)); [|exact KI]; intros v Hv; cbn in Hv; destruct Hv as [<-|[<-|[<-|[<-|[]]]]]; unfold vdot; cbn; lra).
    assert (Y : vy (c_local1 c) = / 100).
    { destruct KF as (n & z & En & Hz & E0 & LE). cbn in En. inversion En; subst n. pose proof (LE (V3 1 (/ 100) 1) ltac:(cbn; tauto)) as L1. unfold vdot, vsub in *. cbn [vx vy vz] in *.
      cbn in Hz. repeat (destruct Hz as [<-|Hz]; [cbn [vx vy vz] in *; lra|]). destruct Hz. }
    rewrite KA in Y. unfold shifted, vdot in *. cbn [vx vy vz] in *. lra.
Qed.
(** The first frame: the box lies on the plate; the second: the box is below the plate. *)
Lemma plate_on eps big fuel l : 0 < eps <= / 1000 -> 20 < big -> (24 <= fuel)%nat -> let y := / 100 + / 10 - / 2000 in
  exists cs, sat_full eps big fuel true plate cube stay (at_height y) (tr_mul (tr_inverse (at_height y)) stay) (tr_inverse (tr_mul (tr_inverse (at_height y)) stay)) l = Ok (true, cs, keep_face true 5 l).
Proof.
  intros He Hb Hf y. assert (B4 : 4 < big) by lra. assert (O1 : solid_ok big plate) by (apply box_ok; lra). assert (O2 : solid_ok big cube) by (apply box_ok; lra).
  assert (SH : exists x, interior (body_of plate stay) x /\ body_of cube (at_height y) x).
  { exists (V3 0 (/ 100 - / 4000) 0). split.
    - exists (/ 10000). split; [lra|]. intros q H. apply coords in H. destruct H as (X & Y & Z). apply abs_lt in X, Y, Z. cbn [vx vy vz] in X, Y, Z. apply in_plate. unfold cuboid. cbn [vx vy vz]. lra.
    - apply in_cube. unfold y, cuboid. cbn [vx vy vz]. lra. }
  assert (Hy : -1 <= y <= 1) by (unfold y; lra).
  destruct (thin_runs eps big 20 fuel plate cube stay (at_height y) He B4 stay_unit (place_unit _) O1 O2 (or_introl eq_refl) (conj Hf Hf) (plate_near y Hy) Hb SH 5%nat) with (report := true) (l := l) as (found & cs & EF & ES).
  - cbn. lia.
  - intros n d En (_ & _ & p & q & Hp & Hq & <-). apply plate_face in En. cbn in En. inversion En; subst n. apply in_plate in Hp. apply in_cube in Hq.
    unfold y, cuboid, vdot, vsub, abs_tolerance in *. cbn [vx vy vz] in *. lra.
  - intros g n Ng En. apply plate_face in En.
    assert (FP : forall a b c, cuboid (V3 1 (/ 100) 1) (V3 a b c) -> body_of plate stay (V3 a b c)) by (intros; now apply in_plate).
    assert (SP : body_of cube (at_height y) (V3 0 y 0)) by (apply in_cube; unfold cuboid; cbn; lra).
    destruct g as [|[|[|[|[|[|g]]]]]]; [| | | | |congruence|destruct g; discriminate]; cbn in En; inversion En; subst n; clear En.
    + exists (V3 0 0 1), (V3 0 y 0). split; [apply FP; unfold cuboid; cbn; lra|]. split; [exact SP|]. unfold vdot, vsub, abs_tolerance. cbn. lra.
    + exists (V3 1 0 0), (V3 0 y 0). split; [apply FP; unfold cuboid; cbn; lra|]. split; [exact SP|]. unfold vdot, vsub, abs_tolerance. cbn. lra.
    + exists (V3 0 0 (-1)), (V3 0 y 0). split; [apply FP; unfold cuboid; cbn; lra|]. split; [exact SP|]. unfold vdot, vsub, abs_tolerance. cbn. lra.
    + exists (V3 (-1) 0 0), (V3 0 y 0). split; [apply FP; unfold cuboid; cbn; lra|]. split; [exact SP|]. unfold vdot, vsub, abs_tolerance. cbn. lra.
    + exists (V3 0 0 0), (V3 0 y 0). split; [apply FP; unfold cuboid; cbn; lra|]. split; [exact SP|]. unfold y, vdot, vsub, abs_tolerance. cbn. lra.
  - exists cs. rewrite ES. destruct (plate_contacts big fuel true y found cs B4) as (-> & _); [unfold y; lra|exact EF|]. reflexivity.
Qed.
Lemma plate_below eps big fuel l : 0 < eps <= / 1000 -> 20 < big -> (24 <= fuel)%nat -> let y := - / 100 - / 10 - / 200 in
  lf_valid l && lf_sat l = true -> lf_colliding l = true -> lf_face1 l = true -> lf_face l = 5%nat ->
  exists cs, sat_previous eps big fuel true true plate cube stay (at_height y) (tr_mul (tr_inverse (at_height y)) stay) (tr_inverse (tr_mul (tr_inverse (at_height y)) stay)) l = Ok (Some (true, cs, keep_face true 5 l)) /\
    forall c, In c cs -> c_normal c = V3 0 1 0 /\ c_depth c = 9 / 40.
Proof.
  intros He Hb Hf y V C F N. assert (B4 : 4 < big) by lra. assert (O1 : solid_ok big plate) by (apply box_ok; lra). assert (O2 : solid_ok big cube) by (apply box_ok; lra).
  set (t12 := tr_mul (tr_inverse (at_height y)) stay). set (t21 := tr_inverse t12). unfold sat_previous. rewrite V, C, F, N. cbn [negb orb andb].
  destruct (face_depth_runs big plate cube t12 5 O1) as (d & Ed); [cbn; lia|]. rewrite Ed. cbn [bind].
  destruct (face_depth_world big plate cube stay (at_height y) B4 stay_unit (place_unit _) O1 O2 true 5 d Ed) as (n & En & (_ & M & _)). apply plate_face in En. cbn in En. inversion En; subst n.
  specialize (M (V3 0 0 0) (V3 0 y 0) ltac:(apply in_plate; unfold cuboid; cbn; lra) ltac:(apply in_cube; unfold cuboid; cbn; lra)). unfold vdot, vsub in M. cbn [vx vy vz] in M.
  assert (P : rlt 0 d = true) by (apply rlt_true; unfold y in M; lra). rewrite P.
  destruct (face_contacts_runs big fuel plate cube stay (at_height y) O1 O2 (conj Hf Hf) true true 5) as ((found, cs) & EF); [cbn; lia|]. fold t12 in EF. fold t21 in EF. rewrite EF. cbn [bind].
  destruct (plate_contacts big fuel true y found cs B4) as (-> & K); [unfold y; lra|exact EF|]. exists cs. split; [reflexivity|]. intros c Hc. destruct (K c Hc) as (-> & ->). split; [reflexivity|unfold y; lra].
Qed.
