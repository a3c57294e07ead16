(** Proofs about the test of a capsule against a convex polyhedron. *)
From Coq Require Import Reals Lra Psatz List Bool Arith Lia.
From Verif Require Import Base VecModel VecProofs GeomModel GeomSpec GeomProofs HalfEdgeModel ShapeModel ShapeSpec ShapeProofs ShapeMeshProofs NarrowModel NarrowSpec NarrowProofs NarrowCapsuleProofs GjkModel GjkSpec GjkShapeProofs GjkVertexProofs SatModel SatSpec GeomProperties LinAlgProperties SatProofs SatEdgeProofs SatClipProofs CapSatModel CapSatSpec CapSatProofs CapSatContactProofs CapSatCaseProofs CapPolyModel CapPolySpec.
From Verif Require JointPositionAxisProofs.
Import ListNotations.
Local Open Scope R_scope.

Lemma core_capsule hh t x : 0 <= hh -> hull_core (capsule_ends hh) t x <-> cap_core hh t x.
Proof. intros H. rewrite capsule_hull by exact H. reflexivity. Qed.
Lemma cap_first eps big D hh r p tc tp cache : cap_poly_setting eps big D hh r p tc tp cache ->
  placed eps big D (CShape (capsule_support0 hh) r) (CShape (so_support p) 0) tc tp (capsule_ends hh) (so_verts p) cache.
Proof.
  intros ((He & Hb & Hh & Hr & Qc & Qp & O & _) & HD & HB & W & HC). unfold placed. cbn [cs_support cs_margin].
  split; [lra|]. repeat (split; [assumption|]). split; [apply capsule_finds; lra|]. split; [apply (ok_support _ _ O)|]. split; [exact W|]. split; [exact HC|lra].
Qed.
Lemma cap_second eps big D hh r p tc tp cache : cap_poly_setting eps big D hh r p tc tp cache ->
  placed eps big D (CShape (so_support p) 0) (CShape (capsule_support0 hh) r) tp tc (so_verts p) (capsule_ends hh) cache.
Proof.
  intros ((He & Hb & Hh & Hr & Qc & Qp & O & _) & HD & HB & W & HC). unfold placed. cbn [cs_support cs_margin].
  split; [lra|]. repeat (split; [assumption|]). split; [apply (ok_support _ _ O)|]. split; [apply capsule_finds; lra|]. split; [|split; [exact HC|lra]].
  intros a b Ha Hb'. rewrite dist_sym. now apply W.
Qed.

Section Beside.
Variables (eps big hh r : R) (p : solid) (tc tp : transform).
Hypothesis S : cap_setting eps big hh r p tc tp.
Let t := tr_mul (tr_inverse tc) tp.
Let t' := tr_inverse t.
Let a := tr_point t' (seg_a hh).
Let b := tr_point t' (seg_b hh).
Let Qc : quat_len2 (t_rot tc) = 1. Proof. apply S. Qed.
Let Qp : quat_len2 (t_rot tp) = 1. Proof. apply S. Qed.
Let O : solid_ok big p. Proof. apply S. Qed.
Lemma wnorm n : quat_vec (t_rot tc) (quat_vec (t_rot t) n) = quat_vec (t_rot tp) n. Proof. now apply world_n. Qed.
Lemma wback s : tr_point t (tr_point t' s) = s. Proof. now apply t_back. Qed.
Lemma wworld s : tr_point tp (tr_point t' s) = tr_point tc s. Proof. now apply to_world. Qed.
Lemma beside_ok fuel f n depth (first : bool) nw found cs : nth_error (so_normals p) f = Some n -> vlen n = 1 ->
  cap_face_contacts fuel r p f depth t nw (quat_vec (t_rot t) n) a b first = Ok (found, cs) ->
  (found = true <-> cs <> []) /\
  (forall c, In c cs -> c_normal c = nw /\ c_depth c = depth /\
     beside_contact hh r p tc tp f (quat_vec (t_rot tp) n) depth (if first then c_local1 c else c_local2 c) (if first then c_local2 c else c_local1 c)).
Proof.
  intros En U H. unfold cap_face_contacts in H. destruct (nth_error (st_faces (so_edges p)) f) as [start|] eqn:Es; cbn [rd bind] in H; [|discriminate].
  unfold normal in H. rewrite En in H. cbn [rd bind] in H. destruct (side_planes fuel p n start start) as [planes| |] eqn:Ep; cbn [bind] in H; try discriminate.
  destruct (clip_segment a b planes) as [cl| |] eqn:Ec; cbn [bind] in H; try discriminate. pose proof (fun x => planes_prism big p f start n fuel planes x O Es En Ep) as PP.
  destruct (side_planes_ok big p n start O _ _ _ Ep) as ((v0 & B0 & rest & S0 & Epl) & _ & _). rewrite Epl in H. cbn [nth_error rd bind fst] in H.
  assert (V0 : In v0 (so_verts p) /\ forall x, In x (so_verts p) -> vdot n (vsub x v0) <= 0).
  { destruct S0 as (e & j & m & F1 & F2 & F3 & F4 & F5). apply (start_plane big p f start e v0 n O Es F1 F4 En). }
  destruct V0 as (Iv & Tv). inversion H; subst found cs; clear H. pose proof (vlen_1 n U) as UU.
  split.
  - set (l := map _ _). destruct l; cbn; split; congruence.
  - intros c Hc. apply in_map_iff in Hc. destruct Hc as (x & <- & Hx). apply filter_In in Hx. destruct Hx as (Hx & K). apply rlt_true in K. cbn [c_normal c_depth c_local1 c_local2]. split; [reflexivity|]. split; [reflexivity|].
    destruct (C39_sound a b planes cl x Ec Hx) as (Sx & Fx). apply PP in Fx. destruct (back_seg hh tc tp x Sx) as (s & Hs & Ex). change (x = tr_point t' s) in Ex. subst x.
    assert (L1 : tr_point tc (vsub (tr_point t (tr_point t' s)) (vscale r (quat_vec (t_rot t) n))) = vsub (tr_point tc s) (vscale r (quat_vec (t_rot tp) n))) by (rewrite move_back, wback, wnorm; reflexivity).
    assert (G : beside_contact hh r p tc tp f (quat_vec (t_rot tp) n) depth (vsub (tr_point t (tr_point t' s)) (vscale r (quat_vec (t_rot t) n))) (vadd (tr_point t' s) (vscale (depth - r) n))).
    { constructor.
      - exists s. split; [exact Hs|]. rewrite L1, shifted_eq. generalize (tr_point tc s), (quat_vec (t_rot tp) n). clear. intros. vring.
      - now apply prism_slide.
      - exists (vdot n (vsub v0 (vadd (tr_point t' s) (vscale (depth - r) n)))). split; [exists n, v0; auto|]. rewrite pen_id' by exact UU. rewrite (vdot_comm _ n) in K. lra.
      - rewrite move_on, wworld, L1, shifted_eq. generalize (tr_point tc s), (quat_vec (t_rot tp) n). clear. intros. vring. }
    destruct first; exact G.
Qed.
Lemma face_count f n : nth_error (so_normals p) f = Some n -> vlen n = 1.
Proof.
  intros En. destruct (nth_error (so_faces p) f) as [vs|] eqn:Ef; [exact (proj1 (ok_faces _ _ O f vs n Ef En))|]. exfalso. apply nth_error_None in Ef. destruct (ok_count _ _ O) as (C & _).
  assert (X : (f < length (so_normals p))%nat) by (apply nth_error_Some; congruence). lia.
Qed.
Lemma shallow_no_fuel fuel first c : (length (st_edges (so_edges p)) <= fuel)%nat -> forall fs, shallow_faces eps fuel first hh r p tc tp c fs <> Fuel.
Proof.
  intros L. induction fs as [|f fs IH]; cbn [shallow_faces]; [discriminate|]. unfold normal. destruct (nth_error (so_normals p) f) as [n|]; cbn [rd bind]; [|discriminate]. destruct (_ && _); [|exact IH].
  match goal with |- context [cap_face_contacts ?A ?B ?C ?D ?E ?F ?G ?H ?I ?J ?K] => pose proof (contacts_no_fuel eps big hh r p tc tp S A D E G H I J K L) as N; destruct (cap_face_contacts A B C D E F G H I J K) as [(found, cs)| |] end; cbn [bind]; [|discriminate|congruence].
  destruct found; [discriminate|]. destruct (shallow_faces eps fuel first hh r p tc tp c fs); cbn [bind]; congruence.
Qed.
(** Further contacts belong to one face that looks along the first contact. *)
Lemma shallow_ok fuel (first : bool) c : forall fs cs, shallow_faces eps fuel first hh r p tc tp c fs = Ok cs -> cs = [] \/
  exists f n, face_normal p tp f = Some n /\ (if first then vdot n (c_normal c) <= 0 else 0 < vdot n (c_normal c)) /\ vlen2 (vcross n (c_normal c)) < / 100000 /\
  forall k, In k cs -> c_normal k = (if first then vneg n else n) /\ c_depth k = c_depth c /\
    beside_contact hh r p tc tp f n (c_depth c) (if first then c_local1 k else c_local2 k) (if first then c_local2 k else c_local1 k).
Proof.
  induction fs as [|f fs IH]; intros cs H; cbn [shallow_faces] in H; [inversion H; now left|]. unfold normal in H. destruct (nth_error (so_normals p) f) as [n|] eqn:En; cbn [rd bind] in H; [|discriminate].
  destruct (_ && _) eqn:Eb in H; [|now apply IH]. apply andb_true_iff in Eb. destruct Eb as (Eb & Pa). apply andb_true_iff in Eb. destruct Eb as (To & _). unfold parallel_vectors in Pa. apply rlt_true in Pa.
  match goal with H : context [cap_face_contacts ?A ?B ?C ?D ?E ?F ?G ?H0 ?I ?J ?K] |- _ => destruct (cap_face_contacts A B C D E F G H0 I J K) as [(found, cs')| |] eqn:Ec end; cbn [bind] in H; try discriminate.
  destruct (beside_ok fuel f n (c_depth c) first _ found cs' En (face_count f n En) Ec) as (F & B). destruct found.
  - inversion H; subst cs'. right. exists f, (quat_vec (t_rot tp) n). split; [unfold face_normal; now rewrite En|]. split; [|split; [exact Pa|exact B]].
    destruct first; cbn [andb orb negb] in To.
    + rewrite orb_false_r in To. apply negb_true_iff, rlt_false in To. exact To.
    + now apply rlt_true in To.
  - assert (cs' = []) as -> by (destruct cs'; [reflexivity|exfalso; assert (X : false = true) by (apply F; discriminate); discriminate]).
    destruct (shallow_faces eps fuel first hh r p tc tp c fs) as [more| |] eqn:Em; cbn [bind] in H; try discriminate. cbn [app] in H. inversion H; subst cs. now apply IH.
Qed.
(** A plane between the polyhedron and the capsule keeps the inner segment away. *)
Lemma apart_far x y : apart (body_of p tp) (cap_body hh r tc) -> body_of p tp x -> cap_core hh tc y -> r <= dist y x.
Proof.
  intros (n & U & c & A1 & A2) Hx (s & Hs & ->). specialize (A1 x Hx). destruct S as (_ & _ & _ & Hr & _).
  set (m := quat_vec (quat_inverse (t_rot tc)) n).
  assert (Um : quat_vec (t_rot tc) m = n). { unfold m. now apply JointPositionAxisProofs.quat_vec_inverse_r. }
  assert (Lm : vlen m = 1). { unfold vlen in *. rewrite <- Um, vlen2_turned in U by exact Qc. exact U. }
  specialize (A2 (tr_point tc (vsub s (vscale r m)))). rewrite move_back, Um in A2.
  assert (B : cap_body hh r tc (vsub (tr_point tc s) (vscale r n))).
  { exists (vsub s (vscale r m)). split; [apply in_capsule; [exact Hs|lra|exact Lm]|]. now rewrite move_back, Um. }
  specialize (A2 B). rewrite vdot_vsub_r, vdot_vscale_r, (vlen_1 n U) in A2.
  pose proof (cauchy_schwarz n (vsub (tr_point tc s) x)) as CS. rewrite U, <- dist_vlen, Rmult_1_l in CS. rewrite vdot_vsub_r in CS. pose proof (Rle_abs (vdot n (tr_point tc s) - vdot n x)). lra.
Qed.
End Beside.
Lemma clip_short a b planes out : clip_segment a b planes = Ok out -> (length out <= 2)%nat.
Proof.
  unfold clip_segment. assert (L0 : (length (@nil vec3) <= 2)%nat) by (cbn; lia). revert L0. generalize [a; b] as i. generalize (@nil vec3) as o.
  induction planes as [|(pp, n) planes IH]; intros o i L H; cbn [clip_segment_loop] in H; [inversion H; now subst|]. destruct i as [|v1 [|v2 l]]; cbn [nth_error rd bind] in H; [inversion H; cbn; lia|discriminate|].
  apply (IH _ _) in H; [exact H|]. destruct (C39_one_plane v1 v2 (pp, n)) as (o' & E & L'). unfold clip_segment in E. cbn [clip_segment_loop nth_error rd bind] in E. inversion E as [E']. rewrite E'. exact L'.
Qed.
Lemma filter_short {A} (f : A -> bool) l : (length (filter f l) <= length l)%nat.
Proof. induction l as [|x l IH]; cbn; [lia|]. destruct (f x); cbn; lia. Qed.
Lemma face_contacts_short fuel r p f depth t nw nc a b first found cs : cap_face_contacts fuel r p f depth t nw nc a b first = Ok (found, cs) -> (length cs <= 2)%nat /\ (found = false -> cs = []).
Proof.
  intros H. unfold cap_face_contacts in H. destruct (nth_error _ f); cbn [rd bind] in H; [|discriminate]. destruct (normal p f) as [nf| |]; cbn [bind] in H; try discriminate.
  destruct (side_planes _ _ _ _ _) as [planes| |]; cbn [bind] in H; try discriminate. destruct (clip_segment a b planes) as [cl| |] eqn:Ec; cbn [bind] in H; try discriminate. destruct (nth_error planes 0); cbn [rd bind] in H; [|discriminate].
  inversion H; subst found cs. split; [|intros E; destruct (map _ _); [reflexivity|discriminate]]. rewrite map_length. apply clip_short in Ec. pose proof (filter_short (fun c => rlt (depth - r - / 1000) (vdot (vsub (fst p0) c) nf)) cl). lia.
Qed.
Lemma shallow_short eps fuel first hh r p tc tp c : forall fs cs, shallow_faces eps fuel first hh r p tc tp c fs = Ok cs -> (length cs <= 2)%nat.
Proof.
  induction fs as [|f fs IH]; intros cs H; cbn [shallow_faces] in H; [inversion H; cbn; lia|]. destruct (normal p f) as [n| |]; cbn [bind] in H; try discriminate. destruct (_ && _) in H; [|now apply IH].
  match goal with H : context [cap_face_contacts ?A ?B ?C ?D ?E ?F ?G ?H0 ?I ?J ?K] |- _ => destruct (cap_face_contacts A B C D E F G H0 I J K) as [(found, cs')| |] eqn:Ec end; cbn [bind] in H; try discriminate.
  apply face_contacts_short in Ec. destruct Ec as (L & N). destruct found; [inversion H; now subst|]. rewrite (N eq_refl) in H. destruct (shallow_faces _ _ _ _ _ _ _ _ _ fs) as [more| |]; cbn [bind app] in H; try discriminate. inversion H; subst. now apply IH.
Qed.
