(** Proofs about the separating axis test: the contacts of a face. *)
From Coq Require Import Reals Lra Psatz List Bool Arith Lia.
From Verif Require Import Base VecModel VecProofs GeomModel GeomSpec GeomProofs GeomProperties HalfEdgeModel ShapeModel ShapeSpec ShapeProofs ShapeMeshProofs GjkSpec NarrowModel NarrowSpec NarrowProofs NarrowCapsuleProofs GjkShapeProofs SatModel SatSpec SatProofs.
Import ListNotations.
Local Open Scope R_scope.

Lemma offset_dot pp n p : offset pp n p = vdot n (vsub p pp).
Proof. unfold offset, vdot, vsub. cbn. ring. Qed.
Lemma sublist_incl {A} (l l' : list A) : sublist l l' -> forall x, In x l -> In x l'.
Proof. induction 1; cbn; firstorder. Qed.
Lemma last_in_vec (l : list vec3) : l <> [] -> In (last l vzero) l.
Proof. intros H. destruct (exists_last H) as (l' & a & ->). rewrite last_last. apply in_or_app. right. now left. Qed.
Lemma edge_of_in poly s e : poly <> [] -> edge_of poly s e -> In s poly /\ In e poly.
Proof.
  intros NE (l1 & l2 & E). assert (I : forall x, In x (last poly vzero :: poly) -> In x poly) by (intros x [<-|H]; [now apply last_in_vec|exact H]).
  split; [apply I; rewrite E; apply in_or_app; right; now left|]. destruct l1 as [|y l1]; cbn in E; inversion E; subst.
  - now left.
  - apply in_or_app. right. right. now left.
Qed.
(** One plane. *)
Lemma clip_step poly pp n out : clip_polygon poly pp n = Ok out ->
  (forall q, In q out -> 0 <= vdot n (vsub q pp) /\ exists s e, In s poly /\ In e poly /\ on_segment s e q) /\
  (forall v, In v poly -> 0 <= vdot n (vsub v pp) -> In v out).
Proof.
  intros H. assert (NE : poly <> []) by (intros ->; discriminate). split.
  - intros q Hq. destruct (C38_in_front_on_boundary poly pp n out q H Hq) as (O & s & e & E & S). rewrite offset_dot in O. split; [exact O|].
    exists s, e. destruct (edge_of_in _ _ _ NE E). auto.
  - intros v Hv O. apply (sublist_incl _ _ (C38_keeps_front poly pp n out (fun p => rle 0 (offset pp n p)) H (fun p => rle_true 0 (offset pp n p)))).
    apply filter_In. split; [exact Hv|]. apply rle_true. now rewrite offset_dot.
Qed.
Lemma segment_front n A s e q : on_segment s e q -> 0 <= vdot n (vsub s A) -> 0 <= vdot n (vsub e A) -> 0 <= vdot n (vsub q A).
Proof.
  intros (t & Ht & ->) H1 H2. replace (vdot n (vsub (lerp s e t) A)) with ((1 - t) * vdot n (vsub s A) + t * vdot n (vsub e A)); [nra|].
  unfold vdot, vsub, lerp. cbn. ring.
Qed.
Definition front_of (axis A B x : vec3) : Prop := 0 <= vdot (vcross axis (vsub B A)) (vsub x A).
(** A half-edge with its two ends. *)
Definition side_ends (p : solid) (k : nat) (A B : vec3) : Prop := exists e j n, nth_error (st_edges (so_edges p)) k = Some e /\ e_next e = Some j /\
  nth_error (st_edges (so_edges p)) j = Some n /\ nth_error (so_verts p) (e_vertex e) = Some A /\ nth_error (so_verts p) (e_vertex n) = Some B.
Definition next_of (p : solid) (k j : nat) : Prop := exists e, nth_error (st_edges (so_edges p)) k = Some e /\ e_next e = Some j.
Lemma clip_loop_ok p axis first : forall fuel cur v1 poly out, clip_loop fuel p axis first cur v1 poly = Ok out ->
  (forall e, nth_error (st_edges (so_edges p)) cur = Some e -> nth_error (so_verts p) (e_vertex e) = Some v1) ->
  (forall q, In q out -> hull poly q) /\
  (forall x, In x poly -> around p first cur -> (forall k A B, around p first k -> side_ends p k A B -> front_of axis A B x) -> In x out) /\
  (forall q, In q out -> forall C D, (forall x, In x poly -> front_of axis C D x) -> front_of axis C D q) /\
  (out <> [] -> exists W, In cur W /\ (forall k, In k W -> exists j, next_of p k j /\ (In j W \/ j = first)) /\
     forall k A B q, In k W -> side_ends p k A B -> In q out -> front_of axis A B q).
Proof.
  induction fuel as [|fuel IH]; intros cur v1 poly out H Hv; [discriminate|]. cbn [clip_loop] in H. unfold half_edge, vert in H.
  destruct (nth_error (st_edges (so_edges p)) cur) as [e|] eqn:Ee; cbn [rd bind] in H; [|discriminate].
  destruct (e_next e) as [next|] eqn:En; cbn [rd bind] in H; [|discriminate].
  destruct (nth_error (st_edges (so_edges p)) next) as [ne|] eqn:Ene; cbn [rd bind] in H; [|discriminate].
  destruct (nth_error (so_verts p) (e_vertex ne)) as [v2|] eqn:Ev2; cbn [rd bind] in H; [|discriminate].
  destruct (clip_polygon poly v1 (vcross axis (vsub v2 v1))) as [o| |] eqn:Ec; cbn [bind] in H; try discriminate.
  specialize (Hv e eq_refl). destruct (clip_step _ _ _ _ Ec) as (S1 & S2).
  assert (SE : side_ends p cur v1 v2) by (exists e, next, ne; auto).
  assert (SF : forall A B, side_ends p cur A B -> A = v1 /\ B = v2) by (intros A B (e' & j & n & F1 & F2 & F3 & F4 & F5); split; congruence).
  assert (H1 : forall q, In q o -> hull poly q) by (intros q Hq; destruct (S1 q Hq) as (_ & s & t & I1 & I2 & I3); apply hull_between with s t; auto; now apply hull_vertex).
  assert (H3 : forall q, In q o -> forall C D, (forall x, In x poly -> front_of axis C D x) -> front_of axis C D q).
  { intros q Hq C D F. destruct (S1 q Hq) as (_ & s & t & I1 & I2 & I3). unfold front_of in *. eapply segment_front; eauto. }
  assert (H2 : forall x, In x poly -> around p first cur -> (forall k A B, around p first k -> side_ends p k A B -> front_of axis A B x) -> In x o).
  { intros x Hx Ha F. apply S2; [exact Hx|]. now apply (F cur v1 v2). }
  destruct ((next =? first)%nat || (length o =? 0)%nat) eqn:St.
  - inversion H; subst o; clear H. split; [exact H1|]. split; [exact H2|]. split; [exact H3|]. intros NE. exists [cur].
    split; [now left|]. split.
    + intros k [<-|[]]. exists next. split; [now exists e|]. right. apply orb_prop in St. destruct St as [St|St]; [now apply Nat.eqb_eq|]. apply Nat.eqb_eq in St. destruct out; [congruence|discriminate].
    + intros k A B q [<-|[]] Sk Hq. destruct (SF A B Sk) as (-> & ->). apply (S1 q Hq).
  - assert (Hv2 : forall e', nth_error (st_edges (so_edges p)) next = Some e' -> nth_error (so_verts p) (e_vertex e') = Some v2) by (intros e' E'; congruence).
    destruct (IH next v2 o out H Hv2) as (K1 & K2 & K3 & K4). split; [|split; [|split]].
    + intros q Hq. specialize (K1 q Hq). clear - K1 H1. induction K1 as [v I|x y m A IA B IB S]; [auto|now apply hull_between with x y].
    + intros x Hx Ha F. apply K2; [now apply H2| |exact F]. now apply ar_next with cur e.
    + intros q Hq C D F. apply K3; [exact Hq|]. intros x Hx. now apply H3.
    + intros NE. destruct (K4 NE) as (W & W1 & W2 & W3). exists (cur :: W). split; [now left|]. split.
      * intros k [<-|Hk]; [exists next; split; [now exists e|left; now right]|]. destruct (W2 k Hk) as (j & Hj & [I|I]); exists j; split; auto. left. now right.
      * intros k A B q [<-|Hk] Sk Hq; [|now apply (W3 k A B q)]. destruct (SF A B Sk) as (-> & ->). apply K3; [exact Hq|]. intros x Hx. apply (S1 x Hx).
Qed.
(** The loop comes to an end. *)
Lemma clip_loop_runs p axis first n cur : returns p first cur n -> (forall i e, nth_error (st_edges (so_edges p)) i = Some e -> exists j m v, e_next e = Some j /\ nth_error (st_edges (so_edges p)) j = Some m /\ nth_error (so_verts p) (e_vertex m) = Some v) ->
  forall fuel v1 poly, (n <= fuel)%nat -> poly <> [] -> exists out, clip_loop fuel p axis first cur v1 poly = Ok out.
Proof.
  intros RT OK. induction RT as [cur e E N|cur e k n E N D RT IH]; intros fuel v1 poly L NE.
  - destruct fuel as [|fuel]; [lia|]. destruct (OK _ _ E) as (j & m & v & F1 & F2 & F3). rewrite N in F1. inversion F1; subst j. cbn [clip_loop]. unfold half_edge, vert. rewrite E. cbn [rd bind]. rewrite N. cbn [rd bind]. rewrite F2. cbn [rd bind]. rewrite F3. cbn [rd bind].
    destruct (C38_safe poly v1 (vcross axis (vsub v v1)) NE) as (o & ->). cbn [bind]. rewrite Nat.eqb_refl. cbn [orb]. eauto.
  - destruct fuel as [|fuel]; [lia|]. destruct (OK _ _ E) as (j & m & v & F1 & F2 & F3). rewrite N in F1. inversion F1; subst j. cbn [clip_loop]. unfold half_edge, vert. rewrite E. cbn [rd bind]. rewrite N. cbn [rd bind]. rewrite F2. cbn [rd bind]. rewrite F3. cbn [rd bind].
    destruct (C38_safe poly v1 (vcross axis (vsub v v1)) NE) as (o & ->). cbn [bind]. destruct ((k =? first)%nat || (length o =? 0)%nat) eqn:St; [eauto|].
    apply IH; [lia|]. intros ->. cbn in St. now rewrite orb_true_r in St.
Qed.
(** The whole loop around a face. *)
Lemma around_runs big p start k A B : solid_ok big p -> around p start k -> side_ends p k A B -> exists a, runs p k a A B.
Proof.
  intros O _ (e & j & n & F1 & F2 & F3 & F4 & F5). destruct (ok_edges _ _ O k e F1) as (a & b & A' & B' & w & R1 & _). exists a.
  destruct R1 as (e' & n' & G1 & G2 & G3 & (j' & G4 & G5) & G6). rewrite F1 in G1. inversion G1; subst e'. exists e, n. repeat split; auto. now exists j.
Qed.
Lemma runs_side p k a A B : runs p k a A B -> side_ends p k A B.
Proof. intros (e & n & G1 & G2 & G3 & (j & G4 & G5) & G6). exists e, j, n. auto. Qed.
Lemma clip_face big p f start axis v e fuel poly out : solid_ok big p -> nth_error (st_faces (so_edges p)) f = Some start -> nth_error (so_normals p) f = Some axis ->
  nth_error (st_edges (so_edges p)) start = Some e -> nth_error (so_verts p) (e_vertex e) = Some v -> clip_loop fuel p axis start start v poly = Ok out ->
  (forall q, In q out -> hull poly q /\ in_prism p f q) /\ (forall x, In x poly -> in_prism p f x -> In x out).
Proof.
  intros O Es Ea Ee Ev H. destruct (clip_loop_ok p axis start fuel start v poly out H ltac:(intros; congruence)) as (K1 & K2 & K3 & K4). split.
  - intros q Hq. split; [auto|]. destruct K4 as (W & W1 & W2 & W3); [intros ->; destruct Hq|]. intros start' axis' k a A B E1 E2 Ha Rk. rewrite Es in E1. inversion E1; subst start'. rewrite Ea in E2. inversion E2; subst axis'.
    apply (W3 k A B q); [|now apply runs_side with a|exact Hq]. clear - Ha W1 W2. induction Ha as [|k e j Ha IH Ek En]; [exact W1|].
    destruct (W2 k IH) as (j' & (e' & F1 & F2) & [I|I]); rewrite Ek in F1; inversion F1; subst e'; rewrite En in F2; inversion F2; subst j'; [exact I|subst j; exact W1].
  - intros x Hx P. apply K2; [exact Hx|constructor|]. intros k A B Ha Sk. destruct (around_runs big p start k A B O Ha Sk) as (a & Rk). now apply (P start axis k a A B).
Qed.
(** ** The contacts *)
Lemma verts_corners p : forall vs out, verts p vs = Ok out -> out = flat_map (fun i => match nth_error (so_verts p) i with Some v => [v] | None => [] end) vs.
Proof.
  induction vs as [|i vs IH]; intros out H; cbn [verts] in H; [inversion H; reflexivity|]. unfold vert in H. cbn [flat_map].
  destruct (nth_error (so_verts p) i) as [v|]; cbn [rd bind] in H; [|discriminate]. destruct (verts p vs) as [r| |]; cbn [bind] in H; try discriminate. inversion H; subst. cbn. f_equal. now apply IH.
Qed.
Lemma corners_incl p g v : In v (corners p g) -> In v (so_verts p).
Proof. unfold corners. rewrite in_flat_map. intros (i & _ & Hi). destruct (nth_error (so_verts p) i) as [w|] eqn:E; [|destruct Hi]. destruct Hi as [<-|[]]. now apply nth_error_In in E. Qed.
Lemma hull_incl vs ws p : (forall v, In v vs -> In v ws) -> hull vs p -> hull ws p.
Proof. intros I H. induction H as [v Hv|x y m A IA B IB S]; [apply hull_vertex; auto|now apply hull_between with x y]. Qed.
Lemma start_plane big p f start e v axis : solid_ok big p -> nth_error (st_faces (so_edges p)) f = Some start -> nth_error (st_edges (so_edges p)) start = Some e ->
  nth_error (so_verts p) (e_vertex e) = Some v -> nth_error (so_normals p) f = Some axis -> vlen axis = 1 /\ In v (so_verts p) /\ forall x, In x (so_verts p) -> vdot axis (vsub x v) <= 0.
Proof.
  intros O Es Ee Ev Ea. destruct (ok_start _ _ O f start Es) as ((e' & E' & Ef) & _). rewrite Ee in E'. inversion E'; subst e'.
  destruct (ok_edges _ _ O start e Ee) as (a & b & A & B & k & R1 & _ & _ & BA & _). destruct R1 as (e' & n & F1 & F2 & F3 & _). rewrite Ee in F1. inversion F1; subst e'.
  rewrite Ef, Ea in F2. inversion F2; subst a. rewrite Ev in F3. inversion F3; subst A. split; [apply (bo_unit _ _ _ _ BA)|]. split; [now apply nth_error_In in Ev|]. apply (bo_behind _ _ _ _ BA).
Qed.
Lemma project_front axis v q A B : vlen axis = 1 -> front_of axis A B q -> front_of axis A B (project_on_plane q axis v).
Proof. unfold front_of, project_on_plane. intros _. replace (vdot (vcross axis (vsub B A)) (vsub (vsub q (vscale (vdot axis (vsub q v)) axis)) A)) with (vdot (vcross axis (vsub B A)) (vsub q A)); [auto|clear]. generalize (vdot axis (vsub q v)). intros k. vring. Qed.
Lemma project_plane axis v q : vlen axis = 1 -> vdot axis (vsub (project_on_plane q axis v) v) = 0.
Proof.
  intros U. apply vlen_1 in U. unfold project_on_plane. replace (vdot axis (vsub (vsub q (vscale (vdot axis (vsub q v)) axis)) v)) with (vdot axis (vsub q v) - vdot axis (vsub q v) * vdot axis axis) by (clear; generalize (vdot axis (vsub q v)) at 2 3; intros k; vring). rewrite U. ring.
Qed.
Lemma project_shift axis v q : project_on_plane q axis v = shifted q axis (vdot (vsub v q) axis).
Proof. unfold project_on_plane. rewrite shifted_eq. replace (vdot (vsub v q) axis) with (- vdot axis (vsub q v)) by (clear; vring). generalize (vdot axis (vsub q v)). intros k. clear. vring. Qed.
(** The contacts, for the polyhedron of the face [rp] and the other [ip], placed by [tr], [ti]. *)
Lemma face_points big fuel rp ip tr ti r2i i2r f axis start vs g poly e v out :
  solid_ok big rp -> quat_len2 (t_rot tr) = 1 -> quat_len2 (t_rot ti) = 1 ->
  (forall x, tr_point tr (tr_point i2r x) = tr_point ti x) -> (forall x, tr_point r2i (tr_point i2r x) = x) ->
  nth_error (so_normals rp) f = Some axis -> nth_error (st_faces (so_edges rp)) f = Some start -> nth_error (so_faces ip) g = Some vs -> verts ip vs = Ok poly ->
  nth_error (st_edges (so_edges rp)) start = Some e -> nth_error (so_verts rp) (e_vertex e) = Some v ->
  clip_loop fuel rp axis start start v (map (tr_point i2r) poly) = Ok out ->
  let depth q := vdot (vsub v q) axis in
  let below := filter (fun q => rlt 0 (depth q)) out in
  (forall q, In q below -> face_contact rp ip tr ti f g (quat_vec (t_rot tr) axis) (depth q) (project_on_plane q axis v) (tr_point r2i q) /\ exists x, In x (so_verts rp) /\ depth q = vdot (quat_vec (t_rot tr) axis) (vsub (tr_point tr x) (tr_point ti (tr_point r2i q)))) /\
  (below = [] -> forall x, In x (corners ip g) -> in_prism rp f (tr_point i2r x) -> ~ behind_face rp f (tr_point i2r x)).
Proof.
  intros O Qr Qi PT PB Ea Es Eg Ep Ee Ev H depth below. apply verts_corners in Ep. assert (Ec : poly = corners ip g) by (unfold corners; rewrite (nth_error_nth (so_faces ip) g [] Eg); exact Ep). clear Ep. subst poly.
  destruct (start_plane big rp f start e v axis O Es Ee Ev Ea) as (U & Iv & BH).
  destruct (clip_face big rp f start axis v e fuel _ out O Es Ea Ee Ev H) as (K1 & K2). split.
  - intros q Hq. apply filter_In in Hq. destruct Hq as (Hq & D). apply rlt_true in D. destruct (K1 q Hq) as (HQ & PR).
    destruct (hull_image _ _ _ HQ) as (y & Hy & Ey). subst q. rewrite PB. split.
    + constructor; [exact D|exact Hy| |].
      * split.
        -- exists axis, v. split; [exact Ea|]. split; [exact Iv|]. split; [now apply project_plane|]. intros z Hz. specialize (BH z Hz). pose proof (project_plane axis v (tr_point i2r y) U) as PP. rewrite !vdot_vsub_r in *. lra.
        -- intros start' axis' k a A B E1 E2 Ha Rk. pose proof (PR start' axis' k a A B E1 E2 Ha Rk) as F. rewrite Ea in E2. inversion E2; subst axis'. now apply project_front.
      * rewrite project_shift, tr_shifted, PT. reflexivity.
    + exists v. split; [exact Iv|]. rewrite <- PT, tr_diff, quat_vec_dot, Qr. unfold depth. rewrite (vdot_comm axis). ring.
  - intros BE x Hx P (n & y & En & Hy & L). assert (I : In (tr_point i2r x) out) by (apply K2; [now apply in_map|exact P]).
    rewrite Ea in En. inversion En; subst n. specialize (BH y Hy).
    assert (In (tr_point i2r x) below); [|rewrite BE in *; contradiction]. apply filter_In. split; [exact I|]. apply rlt_true. unfold depth. rewrite vdot_comm. rewrite !vdot_vsub_r in *. lra.
Qed.
