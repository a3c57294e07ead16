(** Proofs about the separating axis test of a capsule and a convex polyhedron: capsules on a small box. *)
From Coq Require Import Reals Lra Psatz List Bool Arith Lia.
From Verif Require Import Base VecModel VecProofs GeomModel GeomSpec GeomProofs HalfEdgeModel ShapeModel ShapeSpec ShapeProofs ShapeMeshProofs GjkSpec NarrowModel NarrowSpec NarrowProofs NarrowCapsuleProofs GjkShapeProofs SatModel SatSpec GeomProperties LinAlgProperties SatProofs SatEdgeProofs SatClipProofs CapSatModel CapSatSpec CapSatProofs CapSatContactProofs SatFullProofs SatRunProofs SatBoxProofs SatCaseProofs CapSatCaseProofs.
Import ListNotations.
Local Open Scope R_scope.

Lemma cap_low hh r t n k y : quat_len2 (t_rot t) = 1 -> vlen n = 1 -> cap_body hh r t y -> k <= vdot n (tr_point t (seg_a hh)) -> k <= vdot n (tr_point t (seg_b hh)) -> k - r <= vdot n y.
Proof.
  intros Q U (x & (q & Hq & D) & ->) Ka Kb.
  assert (K : k <= vdot n (tr_point t q)).
  { destruct Hq as (u & Hu & ->). rewrite tr_point_lerp. fold (seg_a hh). fold (seg_b hh). revert Ka Kb. generalize (tr_point t (seg_a hh)), (tr_point t (seg_b hh)). intros a b Ka Kb.
    replace (vdot n (lerp a b u)) with ((1 - u) * vdot n a + u * vdot n b) by (unfold lerp; vring). nra. }
  rewrite <- (tr_isometry t x q Q) in D. rewrite dist_vlen in D. pose proof (cauchy_schwarz n (vneg (vsub (tr_point t x) (tr_point t q)))) as C. rewrite U, vlen_pm in C.
  revert C D K. generalize (tr_point t x), (tr_point t q). intros X Y. replace (vdot n (vneg (vsub X Y))) with (vdot n Y - vdot n X) by vring. lra.
Qed.
Lemma cap_in hh r t q y : quat_len2 (t_rot t) = 1 -> 0 <= r -> on_segment (tr_point t (seg_a hh)) (tr_point t (seg_b hh)) q -> vlen2 (vsub y q) <= r * r -> cap_body hh r t y.
Proof.
  intros Q Hr Hq L. apply moved_segment in Hq. destruct Hq as (s & Hs & ->). exists (tr_point (tr_inverse t) y). split; [|symmetry; now apply tr_inverse_point].
  exists s. split; [exact Hs|]. rewrite <- (tr_isometry t _ s Q), tr_inverse_point by exact Q. rewrite dist_vlen. unfold vlen. rewrite <- (sqrt_square r Hr). now apply sqrt_le_1_alt.
Qed.

Lemma contacts_eq fuel r p f depth t nw nc a b first start n q planes cl : nth_error (st_faces (so_edges p)) f = Some start -> nth_error (so_normals p) f = Some n ->
  side_planes fuel p n start start = Ok (q :: planes) -> clip_segment a b (q :: planes) = Ok cl ->
  let l := filter (fun c => rlt (depth - r - / 1000) (vdot (vsub (fst q) c) n)) cl in
  exists k, cap_face_contacts fuel r p f depth t nw nc a b first = Ok (negb (length l =? 0)%nat, map k l).
Proof. intros E1 E2 E3 E4 l. unfold cap_face_contacts, normal. rewrite E1. cbn [rd bind]. rewrite E2. cbn [rd bind]. rewrite E3. cbn [bind]. rewrite E4. cbn [bind nth_error rd]. fold l. rewrite map_length. eexists. reflexivity. Qed.
Lemma contacts_ub fuel r p f depth t nw nc a b first start n planes : nth_error (st_faces (so_edges p)) f = Some start -> nth_error (so_normals p) f = Some n ->
  side_planes fuel p n start start = Ok planes -> clip_segment a b planes = Ub -> cap_face_contacts fuel r p f depth t nw nc a b first = Ub.
Proof. intros E1 E2 E3 E4. unfold cap_face_contacts, normal. rewrite E1. cbn [rd bind]. rewrite E2. cbn [rd bind]. rewrite E3. cbn [bind]. now rewrite E4. Qed.

(** ** A small box *)
Definition small : solid := the_box (V3 (/ 50) (/ 50) (/ 50)).
Lemma in_small p : body_of small stay p <-> cuboid (V3 (/ 50) (/ 50) (/ 50)) p.
Proof. unfold small. rewrite box_body by (cbn; lra). split; [intros (q & Hq & ->); now rewrite stay_point|intros H; exists p; now rewrite stay_point]. Qed.
Lemma small_setting eps big t : 0 < eps <= / 1000 -> 4 < big -> quat_len2 (t_rot t) = 1 -> cap_setting eps big (/ 50) (/ 50) small t stay.
Proof. intros He Hb Q. repeat (split; [first [lra|exact Q|apply stay_unit|apply box_ok; lra]|]). reflexivity. Qed.
Lemma small_sides x y : In x (so_verts small) -> In y (so_verts small) -> 4 * / 50 * / 50 * vlen2 (vsub y x) < / 100000.
Proof.
  intros Hx Hy. assert (Cx : body_of small stay x) by (exists x; split; [now apply hull_vertex|now rewrite stay_point]). assert (Cy : body_of small stay y) by (exists y; split; [now apply hull_vertex|now rewrite stay_point]).
  apply in_small in Cx, Cy. unfold vlen2, vsub, cuboid in *. cbn [vx vy vz] in *. assert (K : forall a, - / 25 <= a <= / 25 -> a * a <= / 625) by (intros; nra).
  match goal with |- _ * (?a * ?a + ?b * ?b + ?c * ?c) < _ => assert (a * a <= / 625) by (apply K; lra); assert (b * b <= / 625) by (apply K; lra); assert (c * c <= / 625) by (apply K; lra) end. lra.
Qed.
Lemma small_normal g m : face_normal small stay g = Some m -> nth_error (so_normals small) g = Some m.
Proof. unfold face_normal. destruct (nth_error (so_normals small) g) as [n|]; cbn; [rewrite stay_vec; auto|discriminate]. Qed.
Lemma inside_small x d : 0 < d -> - / 50 + d <= vx x <= / 50 - d -> - / 50 + d <= vy x <= / 50 - d -> - / 50 + d <= vz x <= / 50 - d -> interior (body_of small stay) x.
Proof. intros D X Y Z. exists d. split; [exact D|]. intros q Hq. apply in_small. apply coords in Hq. destruct Hq as (A & B & C). apply abs_lt in A, B, C. unfold cuboid. cbn [vx vy vz]. lra. Qed.
Lemma to_stay t x : quat_len2 (t_rot t) = 1 -> tr_point (tr_inverse (tr_mul (tr_inverse t) stay)) x = tr_point t x.
Proof. intros Q. rewrite <- (stay_point (tr_point (tr_inverse _) x)). apply to_world; [exact Q|apply stay_unit]. Qed.
Lemma clip_front a b pp n : 0 <= offset pp n a -> 0 <= offset pp n b -> clip_segment_plane a b pp n = [a; b].
Proof. intros A B. rewrite clip_segment_plane_eq. apply rle_true in B. rewrite B. apply rlt_false in A. now rewrite A. Qed.
Lemma clip_step a b pp n rest out a' b' : clip_segment_plane a b pp n = [a'; b'] -> clip_segment_loop ((pp, n) :: rest) [a; b] out = clip_segment_loop rest [a'; b'] [a'; b'].
Proof. intros E. cbn [clip_segment_loop nth_error rd bind]. now rewrite E. Qed.
Ltac offs := unfold offset, vcross, vsub, vdot; cbn [vx vy vz]; lra.
Definition c2 : vec3 := V3 (/ 50) (/ 50) (/ 50).
Definition c3 : vec3 := V3 (- / 50) (/ 50) (/ 50).
Definition c6 : vec3 := V3 (/ 50) (/ 50) (- / 50).
Definition c7 : vec3 := V3 (- / 50) (/ 50) (- / 50).
Lemma top_planes fuel : (24 <= fuel)%nat -> side_planes fuel small (V3 0 1 0) 23 23 =
  Ok [(c3, vcross (V3 0 1 0) (vsub c2 c3)); (c2, vcross (V3 0 1 0) (vsub c6 c2)); (c6, vcross (V3 0 1 0) (vsub c7 c6)); (c7, vcross (V3 0 1 0) (vsub c3 c7))].
Proof. intros L. do 4 (destruct fuel as [|fuel]; [lia|]). reflexivity. Qed.

(** ** A capsule across an edge of the top face: its deep end is beside the face *)
Definition leaning : transform := Tr (V3 (/ 50) (39 / 2500) 0) (Q4 0 0 (3 / 5) (4 / 5)).
Lemma leaning_unit : quat_len2 (t_rot leaning) = 1. Proof. unfold leaning, quat_len2. cbn. field. Qed.
Definition low_end : vec3 := V3 (/ 50 + 12 / 625) (/ 100) 0.
Definition high_end : vec3 := V3 (/ 1250) (53 / 2500) 0.
Lemma leaning_a : tr_point leaning (seg_a (/ 50)) = low_end.
Proof. unfold leaning, tr_point, quat_vec, seg_a, low_end, vadd. apply v3_eq; cbn; field. Qed.
Lemma leaning_b : tr_point leaning (seg_b (/ 50)) = high_end.
Proof. unfold leaning, tr_point, quat_vec, seg_b, high_end, vadd. apply v3_eq; cbn; field. Qed.
Lemma leaning_in u y : 0 <= u <= 1 -> vlen2 (vsub y (lerp low_end high_end u)) <= / 50 * / 50 -> cap_body (/ 50) (/ 50) leaning y.
Proof. intros Hu L. apply cap_in with (lerp low_end high_end u); [apply leaning_unit|lra| |exact L]. rewrite leaning_a, leaning_b. exists u. auto. Qed.
Ltac near := unfold vlen2, vsub, lerp, low_end, high_end; cbn [vx vy vz]; lra.
Lemma leaning_share : exists x d, 0 < d /\ forall y, dist x y < d -> body_of small stay y /\ cap_body (/ 50) (/ 50) leaning y.
Proof.
  exists (V3 (19 / 1000) (39 / 2500) 0), (/ 2000). split; [lra|]. intros y H. apply coords in H. destruct H as (X & Y & Z). apply abs_lt in X, Y, Z. cbn [vx vy vz] in X, Y, Z. split.
  - apply in_small. unfold cuboid. cbn [vx vy vz]. lra.
  - apply leaning_in with (/ 2); [lra|]. unfold vlen2, vsub, lerp, low_end, high_end. cbn [vx vy vz]. assert (K : forall a, - / 500 <= a <= / 500 -> a * a <= / 250000) by (intros; nra).
    match goal with |- ?a * ?a + ?b * ?b + ?c * ?c <= _ => assert (a * a <= / 250000) by (apply K; lra); assert (b * b <= / 250000) by (apply K; lra); assert (c * c <= / 250000) by (apply K; lra) end. lra.
Qed.
Lemma leaning_depth : depth_along (V3 0 1 0) (body_of small stay) (cap_body (/ 50) (/ 50) leaning) (3 / 100).
Proof.
  split; [apply unit_1; ring|]. split.
  - intros p q Hp Hq. apply in_small in Hp. apply (cap_low _ _ _ (V3 0 1 0) (/ 100)) in Hq; [|apply leaning_unit|apply unit_1; ring|rewrite leaning_a; unfold vdot, low_end; cbn [vx vy vz]; lra|rewrite leaning_b; unfold vdot, high_end; cbn [vx vy vz]; lra].
    unfold cuboid, vdot, vsub in *. cbn [vx vy vz] in *. lra.
  - exists (V3 0 (/ 50) 0), (V3 (/ 50 + 12 / 625) (- / 100) 0). split; [apply in_small; unfold cuboid; cbn; lra|]. split; [apply leaning_in with 0; [lra|near]|]. unfold vdot, vsub. cbn [vx vy vz]. lra.
Qed.
Lemma leaning_runs eps big fuel report first : 0 < eps <= / 1000 -> 4 < big -> (24 <= fuel)%nat -> sat_capsule eps big fuel report first (/ 50) (/ 50) small leaning stay = Ok (negb report, []).
Proof.
  intros He Hb Hf. rewrite (cap_top eps big (/ 50) (/ 50) small leaning stay (small_setting eps big leaning He Hb leaning_unit) 5 (V3 0 1 0) (3 / 100)); [|reflexivity| |rewrite stay_vec; exact leaning_depth|lra| |exact small_sides].
  - unfold answer. rewrite !to_stay, leaning_a, leaning_b by exact leaning_unit. destruct report; [|reflexivity]. set (mid := V3 (/ 50) (39 / 2500) 0). match goal with |- cap_face_contacts _ _ _ _ ?d ?t ?nw ?nc ?a ?b ?fi = _ => edestruct (contacts_eq fuel (/ 50) small 5 d t nw nc a b fi 23 (V3 0 1 0)) with (cl := [mid; high_end]) as (k & EK); [reflexivity|reflexivity|apply top_planes; exact Hf| |] end.
    { unfold clip_segment.
    rewrite (clip_step low_end high_end _ _ _ _ low_end high_end) by (apply clip_front; unfold c3, c2, low_end, high_end; offs).
    rewrite (clip_step low_end high_end _ _ _ _ mid high_end).
    2:{ rewrite clip_segment_plane_eq. assert (O1 : offset c2 (vcross (V3 0 1 0) (vsub c6 c2)) low_end = - (12 / 15625)) by (unfold c2, c6, low_end; unfold offset, vcross, vsub, vdot; cbn [vx vy vz]; field).
        assert (O2 : offset c2 (vcross (V3 0 1 0) (vsub c6 c2)) high_end = 12 / 15625) by (unfold c2, c6, high_end; unfold offset, vcross, vsub, vdot; cbn [vx vy vz]; field).
        unfold wide, crossing. rewrite O1, O2. assert (R1 : rle 0 (12 / 15625) = true) by (apply rle_true; lra). assert (R2 : rlt (- (12 / 15625)) 0 = true) by (apply rlt_true; lra). rewrite R1, R2.
        assert (R3 : rlt (/ 10000) (Rabs (12 / 15625 - - (12 / 15625))) = true) by (apply rlt_true; rewrite Rabs_pos_eq; lra). rewrite R3. cbn [app]. f_equal. unfold lerp, low_end, high_end, mid. apply v3_eq; cbn [vx vy vz]; field. }
    rewrite (clip_step mid high_end _ _ _ _ mid high_end) by (apply clip_front; unfold c6, c7, mid, high_end; offs). rewrite (clip_step mid high_end _ _ _ _ mid high_end) by (apply clip_front; unfold c3, c7, mid, high_end; offs). reflexivity. }
    rewrite EK. clear EK. cbn [fst filter].
    assert (F1 : rlt (3 / 100 - / 50 - / 1000) (vdot (vsub c3 mid) (V3 0 1 0)) = false) by (apply rlt_false; unfold c3, mid; unfold vdot, vsub; cbn [vx vy vz]; lra).
    assert (F2 : rlt (3 / 100 - / 50 - / 1000) (vdot (vsub c3 high_end) (V3 0 1 0)) = false) by (apply rlt_false; unfold c3, high_end; unfold vdot, vsub; cbn [vx vy vz]; lra). rewrite F1, F2. reflexivity.
  - destruct leaning_share as (x & d & D & K). exists x. split; [exists d; split; [exact D|]; intros y Hy; now apply K|]. apply K. unfold dist. rewrite !Rminus_diag_eq by reflexivity. replace (0 * 0 + 0 * 0 + 0 * 0) with 0 by ring. rewrite sqrt_0. exact D.
  - intros g m Ng Em. apply small_normal in Em. 
    assert (W : forall x y, cuboid (V3 (/ 50) (/ 50) (/ 50)) x -> (exists u, 0 <= u <= 1 /\ vlen2 (vsub y (lerp low_end high_end u)) <= / 50 * / 50) -> 3 / 100 < vdot m (vsub x y) -> exists x y, body_of small stay x /\ cap_body (/ 50) (/ 50) leaning y /\ 3 / 100 < vdot m (vsub x y)).
    { intros x y Hx (u & Hu & Hy) L. exists x, y. split; [now apply in_small|]. split; [now apply leaning_in with u|exact L]. }
    destruct g as [|[|[|[|[|[|g]]]]]]; [| | | | |congruence|destruct g; discriminate]; cbn in Em; inversion Em; subst m; clear Em.
    + apply (W (V3 0 0 (/ 50)) (V3 (/ 50) (39 / 2500) (- / 50))); [unfold cuboid; cbn; lra|exists (/ 2); split; [lra|near]|unfold vdot, vsub; cbn; lra].
    + apply (W (V3 (/ 50) 0 0) (V3 (/ 1250 - / 50) (53 / 2500) 0)); [unfold cuboid; cbn; lra|exists 1; split; [lra|near]|unfold vdot, vsub; cbn; lra].
    + apply (W (V3 0 0 (- / 50)) (V3 (/ 50) (39 / 2500) (/ 50))); [unfold cuboid; cbn; lra|exists (/ 2); split; [lra|near]|unfold vdot, vsub; cbn; lra].
    + apply (W (V3 (- / 50) 0 0) (V3 (/ 50) (39 / 2500) 0)); [unfold cuboid; cbn; lra|exists (/ 2); split; [lra|near]|unfold vdot, vsub; cbn; lra].
    + apply (W (V3 0 (- / 50) 0) (V3 (/ 50) (39 / 2500) 0)); [unfold cuboid; cbn; lra|exists (/ 2); split; [lra|near]|unfold vdot, vsub; cbn; lra].
Qed.

(** ** A capsule almost along a side of the front face *)
Definition grazing : transform := Tr (V3 (- / 50) 0 (/ 50)) (Q4 0 0 (200 / 10001) (9999 / 10001)).
Lemma grazing_unit : quat_len2 (t_rot grazing) = 1. Proof. unfold grazing, quat_len2. cbn. field. Qed.
Definition inner_end : vec3 := V3 (- / 50 + / 50 * (3999600 / 100020001)) (- / 50 * (99940001 / 100020001)) (/ 50).
Definition outer_end : vec3 := V3 (- / 50 - / 50 * (3999600 / 100020001)) (/ 50 * (99940001 / 100020001)) (/ 50).
Lemma grazing_a : tr_point grazing (seg_a (/ 50)) = inner_end.
Proof. unfold grazing, tr_point, quat_vec, seg_a, inner_end, vadd. apply v3_eq; cbn; field. Qed.
Lemma grazing_b : tr_point grazing (seg_b (/ 50)) = outer_end.
Proof. unfold grazing, tr_point, quat_vec, seg_b, outer_end, vadd. apply v3_eq; cbn; field. Qed.
Lemma grazing_in u y : 0 <= u <= 1 -> vlen2 (vsub y (lerp inner_end outer_end u)) <= / 50 * / 50 -> cap_body (/ 50) (/ 50) grazing y.
Proof. intros Hu L. apply cap_in with (lerp inner_end outer_end u); [apply grazing_unit|lra| |exact L]. rewrite grazing_a, grazing_b. exists u. auto. Qed.
Ltac near2 := unfold vlen2, vsub, lerp, inner_end, outer_end; cbn [vx vy vz]; lra.
Lemma grazing_depth : depth_along (V3 0 0 1) (body_of small stay) (cap_body (/ 50) (/ 50) grazing) (/ 50).
Proof.
  split; [apply unit_1; ring|]. split.
  - intros p q Hp Hq. apply in_small in Hp. apply (cap_low _ _ _ (V3 0 0 1) (/ 50)) in Hq; [|apply grazing_unit|apply unit_1; ring|rewrite grazing_a; unfold vdot, inner_end; cbn [vx vy vz]; lra|rewrite grazing_b; unfold vdot, outer_end; cbn [vx vy vz]; lra].
    unfold cuboid, vdot, vsub in *. cbn [vx vy vz] in *. lra.
  - exists (V3 0 0 (/ 50)), (V3 (- / 50) 0 0). split; [apply in_small; unfold cuboid; cbn; lra|]. split; [apply grazing_in with (/ 2); [lra|near2]|]. unfold vdot, vsub. cbn [vx vy vz]. lra.
Qed.
Lemma grazing_runs eps big fuel first : 0 < eps <= / 1000 -> 4 < big -> (24 <= fuel)%nat ->
  sat_capsule eps big fuel true first (/ 50) (/ 50) small grazing stay = Ub /\ sat_capsule eps big fuel false first (/ 50) (/ 50) small grazing stay = Ok (true, []).
Proof.
  intros He Hb Hf. pose proof (cap_top eps big (/ 50) (/ 50) small grazing stay (small_setting eps big grazing He Hb grazing_unit) 0 (V3 0 0 1) (/ 50)) as K.
  rewrite stay_vec in K. specialize (K eq_refl). assert (E : forall report first, sat_capsule eps big fuel report first (/ 50) (/ 50) small grazing stay = answer eps (/ 50) (/ 50) small grazing stay fuel report first (/ 50, CapFace 0, quat_vec (t_rot (tr_mul (tr_inverse grazing) stay)) (V3 0 0 1))).
  { intros rep fi. apply K; [|exact grazing_depth|lra| |exact small_sides].
    - exists (V3 (- / 50 + / 1000) 0 (/ 50 - / 1000)). split; [apply inside_small with (/ 1000); cbn; lra|]. apply grazing_in with (/ 2); [lra|near2].
    - intros g m Ng Em. apply small_normal in Em. 
      assert (W : forall x y, cuboid (V3 (/ 50) (/ 50) (/ 50)) x -> (exists u, 0 <= u <= 1 /\ vlen2 (vsub y (lerp inner_end outer_end u)) <= / 50 * / 50) -> / 50 < vdot m (vsub x y) -> exists x y, body_of small stay x /\ cap_body (/ 50) (/ 50) grazing y /\ / 50 < vdot m (vsub x y)).
      { intros x y Hx (u & Hu & Hy) L. exists x, y. split; [now apply in_small|]. split; [now apply grazing_in with u|exact L]. }
      destruct g as [|[|[|[|[|[|g]]]]]]; [congruence| | | | | |destruct g; discriminate]; cbn in Em; inversion Em; subst m; clear Em.
      + apply (W (V3 (/ 50) 0 0) (V3 (- / 50) 0 (/ 50))); [unfold cuboid; cbn; lra|exists (/ 2); split; [lra|near2]|unfold vdot, vsub; cbn; lra].
      + apply (W (V3 0 0 (- / 50)) (V3 (- / 50) 0 (/ 50))); [unfold cuboid; cbn; lra|exists (/ 2); split; [lra|near2]|unfold vdot, vsub; cbn; lra].
      + apply (W (V3 (- / 50) 0 0) (V3 (- / 50 + / 50 * (3999600 / 100020001) + / 50) (- / 50 * (99940001 / 100020001)) (/ 50))); [unfold cuboid; cbn; lra|exists 0; split; [lra|near2]|unfold vdot, vsub; cbn; lra].
      + apply (W (V3 0 (- / 50) 0) outer_end); [unfold cuboid; cbn; lra|exists 1; split; [lra|near2]|unfold vdot, vsub, outer_end; cbn; lra].
      + apply (W (V3 0 (/ 50) 0) inner_end); [unfold cuboid; cbn; lra|exists 0; split; [lra|near2]|unfold vdot, vsub, inner_end; cbn; lra]. }
  rewrite !E. split; [|reflexivity]. unfold answer. rewrite !to_stay, grazing_a, grazing_b by exact grazing_unit.
  destruct (sides_run eps big (/ 50) (/ 50) small grazing stay (small_setting eps big grazing He Hb grazing_unit) (V3 0 0 1) 4 4 4) with (fuel := fuel) as (planes & Ep); [|lia|].
  { eapply ret_more; [reflexivity|reflexivity|discriminate|]. eapply ret_more; [reflexivity|reflexivity|discriminate|]. eapply ret_more; [reflexivity|reflexivity|discriminate|]. eapply ret_end; reflexivity. }
  assert (EP : exists pl rest, planes = (c3, vcross (V3 0 0 1) (vsub (V3 (- / 50) (- / 50) (/ 50)) c3)) :: pl :: rest).
  { do 4 (destruct fuel as [|fuel]; [lia|]). cbn in Ep. inversion Ep. eauto. }
  destruct EP as ((pp, pn) & rest & ->). refine (contacts_ub fuel (/ 50) small 0 _ _ _ _ _ _ _ 4 (V3 0 0 1) _ eq_refl eq_refl Ep _). unfold clip_segment. cbn [clip_segment_loop nth_error rd bind]. rewrite clip_segment_plane_eq. set (n0 := vcross (V3 0 0 1) (vsub (V3 (- / 50) (- / 50) (/ 50)) c3)).
  assert (O1 : offset c3 n0 inner_end = / 25 * (/ 50 * (3999600 / 100020001))) by (unfold c3, n0, inner_end, c3; unfold offset, vcross, vsub, vdot; cbn [vx vy vz]; field).
  assert (O2 : offset c3 n0 outer_end = - (/ 25 * (/ 50 * (3999600 / 100020001)))) by (unfold c3, n0, outer_end, c3; unfold offset, vcross, vsub, vdot; cbn [vx vy vz]; field).
  unfold wide. rewrite O1, O2. assert (R1 : rle 0 (- (/ 25 * (/ 50 * (3999600 / 100020001)))) = false) by (apply rle_false; lra). assert (R2 : rle 0 (/ 25 * (/ 50 * (3999600 / 100020001))) = true) by (apply rle_true; lra). rewrite R1, R2.
  assert (R3 : rlt (/ 10000) (Rabs (- (/ 25 * (/ 50 * (3999600 / 100020001))) - / 25 * (/ 50 * (3999600 / 100020001)))) = false).
  { apply rlt_false. rewrite Rabs_left by lra. lra. } rewrite R3. reflexivity.
Qed.

(** ** A capsule standing on the box *)
Definition standing : transform := place (V3 0 (/ 20) 0).
Definition foot : vec3 := V3 0 (3 / 100) 0.
Definition head : vec3 := V3 0 (7 / 100) 0.
Lemma standing_a : tr_point standing (seg_a (/ 50)) = foot. Proof. unfold standing. rewrite place_point. unfold seg_a, foot. apply v3_eq; cbn; field. Qed.
Lemma standing_b : tr_point standing (seg_b (/ 50)) = head. Proof. unfold standing. rewrite place_point. unfold seg_b, head. apply v3_eq; cbn; field. Qed.
Lemma standing_in u y : 0 <= u <= 1 -> vlen2 (vsub y (lerp foot head u)) <= / 50 * / 50 -> cap_body (/ 50) (/ 50) standing y.
Proof. intros Hu L. apply cap_in with (lerp foot head u); [apply place_unit|lra| |exact L]. rewrite standing_a, standing_b. exists u. auto. Qed.
Ltac near3 := unfold vlen2, vsub, lerp, foot, head; cbn [vx vy vz]; lra.
Lemma standing_depth : depth_along (V3 0 1 0) (body_of small stay) (cap_body (/ 50) (/ 50) standing) (/ 100).
Proof.
  split; [apply unit_1; ring|]. split.
  - intros p q Hp Hq. apply in_small in Hp. apply (cap_low _ _ _ (V3 0 1 0) (3 / 100)) in Hq; [|apply place_unit|apply unit_1; ring|rewrite standing_a; unfold vdot, foot; cbn [vx vy vz]; lra|rewrite standing_b; unfold vdot, head; cbn [vx vy vz]; lra].
    unfold cuboid, vdot, vsub in *. cbn [vx vy vz] in *. lra.
  - exists (V3 0 (/ 50) 0), (V3 0 (/ 100) 0). split; [apply in_small; unfold cuboid; cbn; lra|]. split; [apply standing_in with 0; [lra|near3]|]. unfold vdot, vsub. cbn [vx vy vz]. lra.
Qed.
Lemma standing_runs eps big fuel first : 0 < eps <= / 1000 -> 4 < big -> (24 <= fuel)%nat -> exists c, sat_capsule eps big fuel true first (/ 50) (/ 50) small standing stay = Ok (true, [c]).
Proof.
  intros He Hb Hf. rewrite (cap_top eps big (/ 50) (/ 50) small standing stay (small_setting eps big standing He Hb (place_unit _)) 5 (V3 0 1 0) (/ 100)); [|reflexivity| |rewrite stay_vec; exact standing_depth|lra| |exact small_sides].
  - unfold answer. rewrite !to_stay, standing_a, standing_b by apply place_unit. match goal with |- exists c, cap_face_contacts _ _ _ _ ?d ?t ?nw ?nc ?a ?b ?fi = _ => edestruct (contacts_eq fuel (/ 50) small 5 d t nw nc a b fi 23 (V3 0 1 0)) with (cl := [foot; head]) as (k & EK); [reflexivity|reflexivity|apply top_planes; exact Hf| |] end.
    { unfold clip_segment.
    rewrite (clip_step foot head _ _ _ _ foot head) by (apply clip_front; unfold c3, c2, foot, head; offs). rewrite (clip_step foot head _ _ _ _ foot head) by (apply clip_front; unfold c6, c2, foot, head; offs).
    rewrite (clip_step foot head _ _ _ _ foot head) by (apply clip_front; unfold c6, c7, foot, head; offs). rewrite (clip_step foot head _ _ _ _ foot head) by (apply clip_front; unfold c3, c7, foot, head; offs). reflexivity. }
    rewrite EK. clear EK. cbn [fst filter].
    assert (F1 : rlt (/ 100 - / 50 - / 1000) (vdot (vsub c3 foot) (V3 0 1 0)) = true) by (apply rlt_true; unfold c3, foot; unfold vdot, vsub; cbn [vx vy vz]; lra).
    assert (F2 : rlt (/ 100 - / 50 - / 1000) (vdot (vsub c3 head) (V3 0 1 0)) = false) by (apply rlt_false; unfold c3, head; unfold vdot, vsub; cbn [vx vy vz]; lra). rewrite F1, F2. cbn [map length Nat.eqb negb]. eauto.
  - exists (V3 0 (/ 50 - / 200) 0). split; [apply inside_small with (/ 200); cbn; lra|]. apply standing_in with 0; [lra|near3].
  - intros g m Ng Em. apply small_normal in Em. 
    assert (W : forall x y, cuboid (V3 (/ 50) (/ 50) (/ 50)) x -> (exists u, 0 <= u <= 1 /\ vlen2 (vsub y (lerp foot head u)) <= / 50 * / 50) -> / 100 < vdot m (vsub x y) -> exists x y, body_of small stay x /\ cap_body (/ 50) (/ 50) standing y /\ / 100 < vdot m (vsub x y)).
    { intros x y Hx (u & Hu & Hy) L. exists x, y. split; [now apply in_small|]. split; [now apply standing_in with u|exact L]. }
    destruct g as [|[|[|[|[|[|g]]]]]]; [| | | | |congruence|destruct g; discriminate]; cbn in Em; inversion Em; subst m; clear Em.
    + apply (W (V3 0 0 (/ 50)) foot); [unfold cuboid; cbn; lra|exists 0; split; [lra|near3]|unfold vdot, vsub, foot; cbn; lra].
    + apply (W (V3 (/ 50) 0 0) foot); [unfold cuboid; cbn; lra|exists 0; split; [lra|near3]|unfold vdot, vsub, foot; cbn; lra].
    + apply (W (V3 0 0 (- / 50)) foot); [unfold cuboid; cbn; lra|exists 0; split; [lra|near3]|unfold vdot, vsub, foot; cbn; lra].
    + apply (W (V3 (- / 50) 0 0) foot); [unfold cuboid; cbn; lra|exists 0; split; [lra|near3]|unfold vdot, vsub, foot; cbn; lra].
    + apply (W (V3 0 (- / 50) 0) foot); [unfold cuboid; cbn; lra|exists 0; split; [lra|near3]|unfold vdot, vsub, foot; cbn; lra].
Qed.
