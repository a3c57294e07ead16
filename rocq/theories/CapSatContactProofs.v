(** Proofs about the contacts of a capsule and a convex polyhedron. *)
From Coq Require Import Reals Lra Psatz List Bool Arith Lia.
From Verif Require Import Base VecModel VecProofs GeomModel GeomSpec GeomProofs HalfEdgeModel ShapeModel ShapeSpec ShapeProofs ShapeMeshProofs GjkSpec NarrowModel NarrowSpec NarrowProofs NarrowCapsuleProofs GjkShapeProofs SatModel SatSpec GeomProperties LinAlgProperties SatProofs SatEdgeProofs SatClipProofs CapSatModel CapSatSpec CapSatProofs.
Import ListNotations.
Local Open Scope R_scope.

(** ** The planes through the sides of a face *)
Lemma side_planes_ok big p n first : solid_ok big p -> forall fuel cur planes, side_planes fuel p n first cur = Ok planes ->
  (exists A B rest, side_ends p cur A B /\ planes = (A, vcross n (vsub B A)) :: rest) /\
  (around p first cur -> forall pl, In pl planes -> exists k A B, around p first k /\ side_ends p k A B /\ pl = (A, vcross n (vsub B A))) /\
  exists W, In cur W /\ (forall k, In k W -> exists j, next_of p k j /\ (In j W \/ j = first)) /\ forall k A B, In k W -> side_ends p k A B -> In (A, vcross n (vsub B A)) planes.
Proof.
  intros O. induction fuel as [|fuel IH]; intros cur planes H; [discriminate|]. cbn [side_planes] in H. unfold half_edge, vert in H.
  destruct (nth_error (st_edges (so_edges p)) cur) as [e|] eqn:Ee; cbn [rd bind] in H; [|discriminate].
  destruct (e_twin e) as [k|] eqn:Et; cbn [rd bind] in H; [|discriminate].
  destruct (nth_error (st_edges (so_edges p)) k) as [w|] eqn:Ew; cbn [rd bind] in H; [|discriminate].
  destruct (nth_error (so_verts p) (e_vertex e)) as [v1|] eqn:E1; cbn [rd bind] in H; [|discriminate].
  destruct (nth_error (so_verts p) (e_vertex w)) as [v2|] eqn:E2; cbn [rd bind] in H; [|discriminate].
  destruct (e_next e) as [next|] eqn:En; cbn [rd bind] in H; [|discriminate].
  assert (SE : side_ends p cur v1 v2).
  { destruct (ok_edges _ _ O cur e Ee) as (a & b & A & B & k' & R1 & T & R2 & _). rewrite Et in T. inversion T; subst k'.
    apply runs_side in R1. destruct R2 as (w' & ? & G1 & _ & G3 & _). rewrite Ew in G1. inversion G1; subst w'. rewrite E2 in G3. inversion G3; subst B.
    destruct R1 as (e' & j & m & F1 & F2 & F3 & F4 & F5). rewrite Ee in F1. inversion F1; subst e'. rewrite E1 in F4. inversion F4; subst A. exists e, j, m. auto. }
  assert (SF : forall A B, side_ends p cur A B -> A = v1 /\ B = v2). { intros A B (e' & j & m & F1 & F2 & F3 & F4 & F5). destruct SE as (e2 & j2 & m2 & G1 & G2 & G3 & G4 & G5). split; congruence. }
  destruct (next =? first)%nat eqn:St.
  - cbn [bind] in H. inversion H; subst planes; clear H. apply Nat.eqb_eq in St. split; [eauto|]. split.
    + intros Ha pl [<-|[]]. exists cur, v1, v2. auto.
    + exists [cur]. split; [now left|]. split.
      * intros k' [<-|[]]. exists next. split; [now exists e|now right].
      * intros k' A B [<-|[]] Sk. destruct (SF A B Sk) as (-> & ->). now left.
  - destruct (side_planes fuel p n first next) as [rest| |] eqn:R; cbn [bind] in H; try discriminate. inversion H; subst planes; clear H.
    destruct (IH next rest R) as (_ & I2 & W & W1 & W2 & W3). split; [eauto|]. split.
    + intros Ha pl [<-|Hp]; [exists cur, v1, v2; auto|]. apply I2; [|exact Hp]. now apply ar_next with cur e.
    + exists (cur :: W). split; [now left|]. split.
      * intros k' [<-|Hk]; [exists next; split; [now exists e|left; now right]|]. destruct (W2 k' Hk) as (j & Hj & [I|I]); exists j; split; auto. left. now right.
      * intros k' A B [<-|Hk] Sk; [destruct (SF A B Sk) as (-> & ->); now left|right; now apply (W3 k' A B)].
Qed.
Lemma offset_side n A B x : offset A (vcross n (vsub B A)) x = vdot (vcross n (vsub B A)) (vsub x A).
Proof. unfold offset, vdot, vsub. cbn [vx vy vz]. ring. Qed.
(** A point is in front of all planes exactly if it is between the sides of the face. *)
Lemma planes_prism big p f start n fuel planes x : solid_ok big p -> nth_error (st_faces (so_edges p)) f = Some start -> nth_error (so_normals p) f = Some n ->
  side_planes fuel p n start start = Ok planes -> (Forall (fun q => front q x) planes <-> in_prism p f x).
Proof.
  intros O Es En H. destruct (side_planes_ok big p n start O _ _ _ H) as (_ & K1 & W & W1 & W2 & W3). rewrite Forall_forall. split.
  - intros F start' axis' k a A B E1 E2 Ha Rk. rewrite Es in E1. inversion E1; subst start'. rewrite En in E2. inversion E2; subst axis'.
    rewrite <- offset_side. apply (F (A, vcross n (vsub B A))). apply (W3 k A B); [|now apply runs_side with a].
    clear - Ha W1 W2. induction Ha as [|k e j Ha IH Ek Ee]; [exact W1|]. destruct (W2 k IH) as (j' & (e' & F1 & F2) & [I|I]); rewrite Ek in F1; inversion F1; subst e'; rewrite Ee in F2; inversion F2; subst j'; [exact I|subst j; exact W1].
  - intros P pl Hp. destruct (K1 ltac:(constructor) pl Hp) as (k & A & B & Ha & Sk & ->). destruct (around_runs big p start k A B O Ha Sk) as (a & Rk). unfold front. cbn [fst snd]. rewrite offset_side. now apply (P start n k a A B).
Qed.
(** ** Clipping keeps the ends *)
Lemma clip_end_a a : forall planes input out res, clip_segment_loop planes input out = Ok res -> (exists l, input = a :: l) -> (planes = [] -> In a out) -> Forall (fun q => front q a) planes -> In a res.
Proof.
  induction planes as [|(pp, n) planes IH]; intros input out res H (l & ->) Ho F; cbn [clip_segment_loop] in H; [inversion H; subst; auto|].
  destruct l as [|v2 l]; [discriminate|]. cbn [nth_error rd bind] in H. inversion F as [|q qs F1 F2]; subst. unfold front in F1. cbn [fst snd] in F1.
  assert (X : exists l', clip_segment_plane a v2 pp n = a :: l').
  { rewrite clip_segment_plane_eq. assert (Y : rlt (offset pp n a) 0 = false) by (apply rlt_false; exact F1). assert (Z : rle 0 (offset pp n a) = true) by (apply rle_true; exact F1). rewrite Y, Z. destruct (rle 0 (offset pp n v2)); cbn; eauto. }
  apply IH in H; [exact H|exact X| |exact F2]. intros _. destruct X as (l' & ->). now left.
Qed.
Lemma clip_end_b b : forall planes input out res, clip_segment_loop planes input out = Ok res -> (exists x, input = [x; b]) -> (planes = [] -> In b out) -> Forall (fun q => front q b) planes -> In b res.
Proof.
  induction planes as [|(pp, n) planes IH]; intros input out res H (x & ->) Ho F; cbn [clip_segment_loop] in H; [inversion H; subst; auto|].
  cbn [nth_error rd bind] in H. inversion F as [|q qs F1 F2]; subst. unfold front in F1. cbn [fst snd] in F1.
  assert (X : exists y, clip_segment_plane x b pp n = [y; b]).
  { rewrite clip_segment_plane_eq. assert (Z : rle 0 (offset pp n b) = true) by (apply rle_true; exact F1). rewrite Z. destruct (rlt (offset pp n x) 0); cbn; eauto. }
  apply IH in H; [exact H|exact X| |exact F2]. intros _. destruct X as (l' & ->). right. now left.
Qed.
Lemma clip_ends a b planes out : planes <> [] -> clip_segment a b planes = Ok out ->
  (Forall (fun q => front q a) planes -> In a out) /\ (Forall (fun q => front q b) planes -> In b out).
Proof.
  intros NE H. unfold clip_segment in H. split; intros F.
  - apply (clip_end_a a planes [a; b] [] out H); [eauto|intros ->; congruence|exact F].
  - apply (clip_end_b b planes [a; b] [] out H); [eauto|intros ->; congruence|exact F].
Qed.

(** ** The contacts *)
Lemma move_back t x k m : tr_point t (vsub x (vscale k m)) = vsub (tr_point t x) (vscale k (quat_vec (t_rot t) m)).
Proof. unfold tr_point, quat_vec, vadd, vsub, vscale. apply v3_eq; cbn [vx vy vz]; ring. Qed.
Lemma move_on t x k m : tr_point t (vadd x (vscale k m)) = vadd (tr_point t x) (vscale k (quat_vec (t_rot t) m)).
Proof. unfold tr_point, quat_vec, vadd, vsub, vscale. apply v3_eq; cbn [vx vy vz]; ring. Qed.
Lemma prism_slide p f x n k : nth_error (so_normals p) f = Some n -> in_prism p f x -> in_prism p f (vadd x (vscale k n)).
Proof.
  intros En P start axis j a A B E1 E2 Ha Rk. rewrite En in E2. inversion E2; subst axis. specialize (P start n j a A B E1 En Ha Rk).
  replace (vdot (vcross n (vsub B A)) (vsub (vadd x (vscale k n)) A)) with (vdot (vcross n (vsub B A)) (vsub x A)); [exact P|]. clear. vring.
Qed.
Lemma in_capsule hh r s n : cap_seg hh s -> 0 <= r -> vlen n = 1 -> capsule hh r (vsub s (vscale r n)).
Proof.
  intros Hs Hr U. exists s. split; [exact Hs|]. unfold dist. apply vlen_1 in U. rewrite <- vlen2_dot in U.
  match goal with |- sqrt ?e <= r => replace e with (r * r * vlen2 n) by (unfold vlen2, vsub, vscale; cbn [vx vy vz]; ring) end. rewrite U, Rmult_1_r, sqrt_square; lra.
Qed.
Lemma pen_id n v c r : vdot n n = 1 -> vdot n (vsub v (vsub c (vscale r n))) = vdot n (vsub v c) + r.
Proof. intros U. replace (vdot n (vsub v (vsub c (vscale r n)))) with (vdot n (vsub v c) + r * vdot n n) by (clear; vring). rewrite U. ring. Qed.
Lemma pen_id' n v c k : vdot n n = 1 -> vdot n (vsub v (vadd c (vscale k n))) = vdot n (vsub v c) - k.
Proof. intros U. replace (vdot n (vsub v (vadd c (vscale k n)))) with (vdot n (vsub v c) - k * vdot n n) by (clear; vring). rewrite U. ring. Qed.
Section Contacts.
Variables (eps big hh r : R) (p : solid) (tc tp : transform).
Hypothesis He : 0 < eps <= / 1000.
Hypothesis Hh : 0 < hh.
Hypothesis Hr : 0 < r.
Hypothesis Qc : quat_len2 (t_rot tc) = 1.
Hypothesis Qp : quat_len2 (t_rot tp) = 1.
Hypothesis O : solid_ok big p.
Let t := tr_mul (tr_inverse tc) tp.
Let t' := tr_inverse t.
Let a := tr_point t' (seg_a hh).
Let b := tr_point t' (seg_b hh).
Lemma unit_t : quat_len2 (t_rot t) = 1. Proof. apply unit_mul; [now apply unit_inverse|exact Qp]. Qed.
Lemma to_world x : tr_point tp (tr_point t' x) = tr_point tc x. Proof. apply pass_back; assumption. Qed.
Lemma of_poly y : tr_point tc (tr_point t y) = tr_point tp y. Proof. apply pass_through; assumption. Qed.
Lemma back_seg c : on_segment a b c -> exists s, cap_seg hh s /\ c = tr_point t' s.
Proof. intros H. unfold a, b in H. apply (moved_segment t' (seg_a hh) (seg_b hh) c) in H. exact H. Qed.
Lemma t_back s : tr_point t (tr_point t' s) = s. Proof. unfold t'. apply tr_inverse_point, unit_t. Qed.
Lemma world_n n : quat_vec (t_rot tc) (quat_vec (t_rot t) n) = quat_vec (t_rot tp) n. Proof. apply tr_forth; assumption. Qed.
Lemma cap_face_contacts_ok fuel f n depth (first : bool) nw found cs : nth_error (so_normals p) f = Some n -> vlen n = 1 ->
  depth_along (quat_vec (t_rot t) n) (moved t (hull (so_verts p))) (capsule hh r) depth ->
  cap_face_contacts fuel r p f depth t nw (quat_vec (t_rot t) n) a b first = Ok (found, cs) ->
  (found = true <-> cs <> []) /\
  (forall c, In c cs -> c_normal c = nw /\ c_depth c = depth /\
     cap_face_contact hh r p tc tp f (quat_vec (t_rot tp) n) depth (if first then c_local1 c else c_local2 c) (if first then c_local2 c else c_local1 c)) /\
  (cs = [] -> cap_misses hh p tc tp f (depth - r)).
Proof.
  intros En U DA H. unfold cap_face_contacts in H. destruct (nth_error (st_faces (so_edges p)) f) as [start|] eqn:Es; cbn [rd bind] in H; [|discriminate].
  unfold normal in H. rewrite En in H. cbn [rd bind] in H. destruct (side_planes fuel p n start start) as [planes| |] eqn:Ep; cbn [bind] in H; try discriminate.
  destruct (clip_segment a b planes) as [cl| |] eqn:Ec; cbn [bind] in H; try discriminate. pose proof (fun x => planes_prism big p f start n fuel planes x O Es En Ep) as PP.
  destruct (side_planes_ok big p n start O _ _ _ Ep) as ((v0 & B0 & rest & S0 & Epl) & _ & _). rewrite Epl in H. cbn [nth_error rd bind fst] in H.
  assert (V0 : In v0 (so_verts p) /\ forall x, In x (so_verts p) -> vdot n (vsub x v0) <= 0).
  { destruct S0 as (e & j & m & F1 & F2 & F3 & F4 & F5). apply (start_plane big p f start e v0 n O Es F1 F4 En). }
  destruct V0 as (Iv & Tv). inversion H; subst found cs; clear H. pose proof (vlen_1 n U) as UU.
  assert (NE : planes <> []) by (rewrite Epl; discriminate).
  split; [|split].
  - set (l := map _ _). destruct l; cbn; split; congruence.
  - intros c Hc. apply in_map_iff in Hc. destruct Hc as (x & <- & Hx). apply filter_In in Hx. destruct Hx as (Hx & K). apply rlt_true in K. cbn [c_normal c_depth c_local1 c_local2]. split; [reflexivity|]. split; [reflexivity|].
    destruct (C39_sound a b planes cl x Ec Hx) as (Sx & Fx). apply PP in Fx. destruct (back_seg x Sx) as (s & Hs & ->).
    assert (L1 : tr_point tc (vsub (tr_point t (tr_point t' s)) (vscale r (quat_vec (t_rot t) n))) = vsub (tr_point tc s) (vscale r (quat_vec (t_rot tp) n))) by (rewrite move_back, t_back, world_n; reflexivity).
    assert (D : vdot n (vsub v0 (tr_point t' s)) + r <= depth).
    { destruct DA as (_ & M & _). specialize (M (tr_point t v0) (vsub s (vscale r (quat_vec (t_rot t) n)))). rewrite <- (t_back s) in M at 2.
      rewrite <- move_back, tr_diff, quat_vec_dot, unit_t, pen_id in M by exact UU.
      assert (X : 1 * 1 * (vdot n (vsub v0 (tr_point t' s)) + r) <= depth); [apply M; [exists v0; split; [now apply hull_vertex|reflexivity]|]|lra].
      apply in_capsule; [exact Hs|lra|]. unfold vlen in *. now rewrite vlen2_turned by exact unit_t. }
    assert (G : cap_face_contact hh r p tc tp f (quat_vec (t_rot tp) n) depth (vsub (tr_point t (tr_point t' s)) (vscale r (quat_vec (t_rot t) n))) (vadd (tr_point t' s) (vscale (depth - r) n))).
    { constructor.
      - exists s. split; [exact Hs|]. rewrite L1, shifted_eq. generalize (tr_point tc s), (quat_vec (t_rot tp) n). clear. intros. vring.
      - now apply prism_slide.
      - exists (vdot n (vsub v0 (vadd (tr_point t' s) (vscale (depth - r) n)))). split; [exists n, v0; auto|]. rewrite pen_id' by exact UU. rewrite (vdot_comm _ n) in K. lra.
      - rewrite move_on, to_world, L1, shifted_eq. generalize (tr_point tc s), (quat_vec (t_rot tp) n). clear. intros. vring. }
    destruct first; exact G.
  - intros E0 s y d Hs Ey P (n' & y0 & En' & Iy & -> & Ty). rewrite En in En'. inversion En'; subst n'.
    assert (Y : y = tr_point t' s). { rewrite <- (to_world s) in Ey. apply (f_equal (tr_point (tr_inverse tp))) in Ey. now rewrite !tr_point_inverse in Ey by exact Qp. }
    assert (Iny : In y cl). { apply PP in P. destruct (clip_ends a b planes cl NE Ec) as (Ka & Kb). destruct Hs as [-> | ->]; [change y with y; fold (seg_a hh) in Y; rewrite Y in *; now apply Ka|fold (seg_b hh) in Y; rewrite Y in *; now apply Kb]. }
    assert (Ke : rlt (depth - r - / 1000) (vdot (vsub v0 y) n) = false).
    { destruct (rlt (depth - r - / 1000) (vdot (vsub v0 y) n)) eqn:K; [|reflexivity]. exfalso. apply map_eq_nil in E0. assert (X : In y []) by (rewrite <- E0; apply filter_In; auto). destruct X. }
    apply rlt_false in Ke. rewrite (vdot_comm _ n) in Ke. specialize (Tv y0 Iy). specialize (Ty v0 Iv). rewrite !vdot_vsub_r in *. lra.
Qed.
End Contacts.
