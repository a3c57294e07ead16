(** Which calls unsettle colliders, when shapes answer rays correctly, and some small worlds. *)
From Coq Require Import List Arith Lia Bool ZArith.
From Verif Require Import Base Decimal HashSpec TreeModel TreeSpec RayModel RaySpec ComponentsProofs TreeProofs TreeProofs2 TreeProofs3 TreeProofs4 TreeProofs5 TreeProofs6 RayProofs TreeProperties
  VecModel VecProofs GeomSpec ShapeModel ShapeSpec GeomProofs ShapeProofs ShapeMeshProofs ShapeProperties TriMeshModel TriMeshTreeProofs TriMeshRayProofs QueryModel QuerySpec QueryProofs QueryProofs2 QueryRayProofs.
Import ListNotations.
Local Open Scope R_scope.

(** ** Settled colliders *)
Definition quiet (w : qworld) (c : nat) : Prop := forall k, qw_colliders w c = Some k -> wc_resized k = false.
Definition quieter (w w' : qworld) : Prop := forall c, quiet w c -> quiet w' c.
Lemma quieter_refl w : quieter w w.
Proof. intros c H. exact H. Qed.
Lemma quieter_trans w1 w2 w3 : quieter w1 w2 -> quieter w2 w3 -> quieter w1 w3.
Proof. intros A B c H. auto. Qed.
Lemma quieter_same w w' : (forall c, qw_colliders w' c = qw_colliders w c) -> quieter w w'.
Proof. intros E c H k. rewrite E. apply H. Qed.
Lemma quieter_put c k w t : (forall k0, qw_colliders w c = Some k0 -> wc_resized k0 = false -> wc_resized k = false) -> (qw_colliders w c = None -> wc_resized k = false) ->
  quieter w (with_collider c (Some k) (with_tree t w)).
Proof.
  intros A B d H kd. cbn. destruct (Nat.eq_dec d c) as [->|N].
  - rewrite nupd_same. intros [= <-]. destruct (qw_colliders w c) as [k0|] eqn:K; [|auto]. apply (A k0 eq_refl). apply H. exact K.
  - rewrite nupd_other by exact N. apply H.
Qed.
Lemma quieter_put1 c k w : (forall k0, qw_colliders w c = Some k0 -> wc_resized k0 = false -> wc_resized k = false) -> (qw_colliders w c = None -> wc_resized k = false) ->
  quieter w (with_collider c (Some k) w).
Proof. intros A B. apply quieter_trans with (with_collider c (Some k) (with_tree (qw_tree w) w)); [now apply quieter_put|now apply quieter_same]. Qed.
Lemma into_tree_quiet pct c w w' : into_tree pct c w = Ok w' -> quieter w w'.
Proof.
  unfold into_tree. intros H. destruct (qw_colliders w c) as [k|] eqn:K; [|discriminate]. cbn [rd bind] in H. destruct (box_of w k) as [b| |]; cbn [bind] in H; try discriminate.
  destruct (add_object _ _ _ _ _) as [[t id]| |]; cbn [bind] in H; try discriminate. injection H as <-. apply quieter_put; [|congruence]. intros k0 E R. rewrite K in E. injection E as <-. exact R.
Qed.
Lemma out_of_tree_quiet c w w' : out_of_tree c w = Ok w' -> quieter w w'.
Proof.
  unfold out_of_tree. intros H. destruct (qw_colliders w c) as [k|] eqn:K; [|discriminate]. cbn [rd bind] in H. destruct (Z.eqb (wc_node k) (-1)); [injection H as <-; apply quieter_refl|].
  destruct (remove_object _ _ _) as [t| |]; cbn [bind] in H; try discriminate. injection H as <-. apply quieter_put; [|congruence]. intros k0 E R. rewrite K in E. injection E as <-. exact R.
Qed.
Lemma refresh_quiet pct c w w' : refresh pct c w = Ok w' -> quieter w w'.
Proof.
  unfold refresh. intros H. destruct (qw_colliders w c) as [k|] eqn:K; [|discriminate]. cbn [rd bind] in H. destruct (Z.eqb (wc_node k) (-1)); [injection H as <-; apply quieter_refl|].
  destruct (box_of w k) as [b| |]; cbn [bind] in H; try discriminate. destruct (update_object _ _ _ _ _ _) as [[t r]| |]; cbn [bind] in H; try discriminate. injection H as <-.
  apply quieter_put; [reflexivity|reflexivity].
Qed.
Lemma move_collider_quiet pct c w w' : move_collider pct c w = Ok w' -> quieter w w'.
Proof.
  unfold move_collider. intros H. destruct (qw_colliders w c) as [k|] eqn:K; [|discriminate]. cbn [rd bind] in H. destruct (place_of w k) as [t| |]; cbn [bind] in H; try discriminate.
  eapply quieter_trans; [|eapply refresh_quiet; exact H]. apply quieter_put1; [|congruence]. intros k0 E R. rewrite K in E. injection E as <-. exact R.
Qed.
Lemma set_sleeping_quiet b v w w' : set_sleeping b v w = Ok w' -> quieter w w'.
Proof. unfold set_sleeping. destruct (qw_bodies w b) as [x|]; [|discriminate]. cbn [rd bind]. intros [= <-]. apply quieter_same. now destruct (wb_active x). Qed.
Lemma remove_collider_quiet c w w' : remove_collider c w = Ok w' -> quieter w w'.
Proof.
  unfold remove_collider. intros H. destruct (out_of_tree c w) as [w1| |] eqn:E; cbn [bind] in H; try discriminate. destruct (qw_colliders w1 c) as [k|]; [|discriminate]. cbn [rd bind] in H.
  destruct (qw_bodies w1 (wc_body k)) as [x|]; [|discriminate]. cbn [rd bind] in H. injection H as <-. eapply quieter_trans; [eapply out_of_tree_quiet; exact E|].
  intros d Hd kd. cbn. unfold nupd. destruct (Nat.eqb d c); [discriminate|]. apply Hd.
Qed.
Lemma for_each_quiet f : (forall c w w', f c w = Ok w' -> quieter w w') -> forall cs w w', for_each f cs w = Ok w' -> quieter w w'.
Proof.
  intros F. induction cs as [|c cs IH]; intros w w' H; cbn [for_each] in H; [injection H as <-; apply quieter_refl|].
  destruct (f c w) as [w1| |] eqn:E; cbn [bind] in H; try discriminate. eapply quieter_trans; eauto.
Qed.
Lemma step_collider_quiet pct c w w' : step_collider pct c w = Ok w' -> quieter w w'.
Proof.
  unfold step_collider. destruct (qw_colliders w c) as [k|]; [|intros [= <-]; apply quieter_refl]. destruct (qw_bodies w (wc_body k)) as [x|]; [|discriminate]. cbn [rd bind].
  destruct (wb_asleep x); [intros [= <-]; apply quieter_refl|apply move_collider_quiet].
Qed.
Lemma run_quiet pct o w w' : run pct o w = Ok w' -> match o with OpResize s new => forall c k, qw_colliders w c = Some k -> wc_shape k <> s -> quiet w c -> quiet w' c | _ => quieter w w' end.
Proof.
  intros H. destruct o; cbn [run] in H.
  - injection H as <-. now apply quieter_same.
  - injection H as <-. now apply quieter_same.
  - unfold add_collider in H. destruct (qw_bodies w b) as [x|]; [|discriminate]. cbn [rd bind] in H. destruct (qw_shapes w s) as [sh|]; [|discriminate]. cbn [rd bind] in H.
    set (w1 := QWorld _ _ _ _ _) in H. assert (Q : quieter w w1).
    { intros d Hd kd. unfold w1. cbn. unfold nupd. destruct (Nat.eqb d (qw_next w)); [intros [= <-]; reflexivity|]. apply Hd. }
    destruct (wb_active x); [eapply quieter_trans; [exact Q|]; eapply into_tree_quiet; exact H|injection H as <-; exact Q].
  - eapply remove_collider_quiet. exact H.
  - unfold destroy_body in H. destruct (qw_bodies w b) as [x|]; [|discriminate]. cbn [rd bind] in H. destruct (for_each remove_collider (wb_colliders x) w) as [w1| |] eqn:E; cbn [bind] in H; try discriminate.
    injection H as <-. eapply quieter_trans; [eapply for_each_quiet; [|exact E]; apply remove_collider_quiet|]. now apply quieter_same.
  - unfold set_transform in H. destruct (set_sleeping b false w) as [w1| |] eqn:E; cbn [bind] in H; try discriminate. destruct (qw_bodies w1 b) as [x|]; [|discriminate]. cbn [rd bind] in H.
    eapply quieter_trans; [eapply set_sleeping_quiet; exact E|]. apply quieter_trans with (with_body b (Some (with_pose t x)) w1); [now apply quieter_same|]. eapply for_each_quiet; [|exact H]. apply move_collider_quiet.
  - unfold set_local in H. destruct (qw_colliders w c) as [k|] eqn:K; [|discriminate]. cbn [rd bind] in H. destruct (qw_bodies w (wc_body k)) as [x|]; [|discriminate]. cbn [rd bind] in H.
    set (k' := with_world _ _) in H. destruct (set_sleeping (wc_body k) false (with_collider c (Some k') w)) as [w1| |] eqn:E; cbn [bind] in H; try discriminate.
    apply quieter_trans with (with_collider c (Some k') w); [apply quieter_put1; [|congruence]; intros k0 E0 R; rewrite K in E0; injection E0 as <-; exact R|].
    eapply quieter_trans; [eapply set_sleeping_quiet; exact E|]. eapply refresh_quiet; exact H.
  - unfold set_active in H. destruct (qw_bodies w b) as [x|]; [|discriminate]. cbn [rd bind] in H. destruct (Bool.eqb (wb_active x) v); [injection H as <-; apply quieter_refl|].
    destruct (set_sleeping b (negb v) w) as [w1| |] eqn:E; cbn [bind] in H; try discriminate. destruct (qw_bodies w1 b) as [x1|]; [|discriminate]. cbn [rd bind] in H.
    eapply quieter_trans; [eapply set_sleeping_quiet; exact E|]. apply quieter_trans with (with_body b (Some (with_active v x1)) w1); [now apply quieter_same|].
    destruct v; eapply for_each_quiet; try exact H; [apply into_tree_quiet|apply out_of_tree_quiet].
  - eapply set_sleeping_quiet; exact H.
  - unfold set_bits in H. destruct (qw_colliders w c) as [k|] eqn:K; [|discriminate]. cbn [rd bind] in H. injection H as <-. apply quieter_put1; [|congruence]. intros k0 E R. rewrite K in E. injection E as <-. exact R.
  - unfold set_query in H. destruct (qw_colliders w c) as [k|] eqn:K; [|discriminate]. cbn [rd bind] in H. injection H as <-. apply quieter_put1; [|congruence]. intros k0 E R. rewrite K in E. injection E as <-. exact R.
  - unfold resize in H. destruct (qw_shapes w s) as [old|]; [|discriminate]. cbn [rd bind] in H. injection H as <-. intros c k K N Q k'. cbn. rewrite K. intros [= <-].
    destruct (Nat.eqb_spec (wc_shape k) s); [contradiction|]. apply Q. exact K.
  - unfold step in H. eapply quieter_trans; [|eapply for_each_quiet; [|exact H]; apply step_collider_quiet]. now apply quieter_same.
Qed.

(** ** Shapes that answer rays correctly *)
Lemma seen_len t y m : unit_pose t -> vlen2 (vsub (ray_p2 (seen_from t (cut y m))) (ray_p1 (seen_from t (cut y m)))) = vlen2 (vsub (ray_p2 y) (ray_p1 y)).
Proof.
  intros Ht. unfold seen_from. cbn [ray_p1 ray_p2 cut]. unfold tr_point, tr_inverse. cbn [t_pos t_rot].
  replace (vsub (vadd (quat_vec (quat_inverse (t_rot t)) (ray_p2 y)) (quat_vec (quat_inverse (t_rot t)) (vneg (t_pos t))))
                (vadd (quat_vec (quat_inverse (t_rot t)) (ray_p1 y)) (quat_vec (quat_inverse (t_rot t)) (vneg (t_pos t)))))
    with (quat_vec (quat_inverse (t_rot t)) (vsub (ray_p2 y) (ray_p1 y))).
  - rewrite vlen2_dot, quat_vec_dot, quat_len2_inverse, Ht, <- vlen2_dot. ring.
  - rewrite quat_vec_vsub. generalize (quat_vec (quat_inverse (t_rot t)) (ray_p2 y)) (quat_vec (quat_inverse (t_rot t)) (ray_p1 y)) (quat_vec (quat_inverse (t_rot t)) (vneg (t_pos t))).
    intros. vring.
Qed.
Lemma seen_start w c t s y m : unit_pose t -> stands w c t s -> ~ region w c (ray_p1 y) -> ~ shape_set s (ray_p1 (seen_from t (cut y m))).
Proof. intros U ST O X. apply O. exists t, s. split; [exact ST|]. exists (ray_p1 (seen_from t (cut y m))). split; [exact X|]. unfold seen_from. cbn [ray_p1 cut]. now rewrite tr_inverse_point. Qed.
Lemma sphere_right eps big r y : 0 < eps -> eps <= r -> eps <= vlen2 (vsub (ray_p2 y) (ray_p1 y)) -> ~ ball vzero r (ray_p1 y) -> right_answer eps big (WSphere r) y.
Proof.
  intros He Hr L O. pose proof (C43_exact eps r y He ltac:(lra) L O) as C. unfold right_answer. cbn [wshape_cast shape_set]. unfold sphere_cast in *.
  destruct (sphere_cast_at eps r vzero y) as [[f p]|]; [|exact C]. destruct C as (C1 & C2 & C3). cbn [hit_normal hit_point] in *. split; [exact C1|].
  rewrite dist_vlen in C3. replace (vsub p vzero) with p in C3 by (clear; vring). lra.
Qed.
Lemma vlen_axis i k : vlen (axis i k) = Rabs k.
Proof. destruct i as [|[|i]]; cbn [axis]; [apply vlen_axis_x|apply vlen_axis_y|apply vlen_axis_z]. Qed.
Lemma box_right eps big h y : 0 < eps -> 0 < big -> ray_max y <= big -> eps <= vx h /\ eps <= vy h /\ eps <= vz h ->
  (forall i, comp (vsub (ray_p2 y) (ray_p1 y)) i = 0 \/ eps <= Rabs (comp (vsub (ray_p2 y) (ray_p1 y)) i)) -> ~ cuboid h (ray_p1 y) -> right_answer eps big (WBox h) y.
Proof.
  intros He Hb Hm Hh Hd O. pose proof (C44_exact eps big h y He Hb Hm ltac:(lra) Hd) as C. unfold right_answer. cbn [wshape_cast shape_set].
  destruct (box_cast eps big h y) as [r|].
  - destruct C as (C1 & i & s & [-> | ->] & -> & _); (split; [exact C1|]); rewrite vlen_axis; assert (P : eps <= comp h i) by (destruct i as [|[|i]]; cbn; lra); unfold Rabs; destruct (Rcase_abs _); lra.
  - destruct C as [C|C]; [contradiction|]. intros u Hu. apply C. lra.
Qed.

(** The normals that a capsule gives are not too short. *)
Lemma cap_normal eps r ctr y h : 0 < eps -> eps <= r -> cap_cast eps r ctr y = Some h -> eps <= vlen (hit_normal h).
Proof.
  intros He Hr. unfold cap_cast. destruct (sphere_cast_at eps r ctr y) as [[t p]|] eqn:E; [|discriminate]. intros X. injection X as <-. cbn [hit_normal].
  apply sphere_cast_at_some in E as (_ & _ & L & _); [|lra..]. unfold vlen. rewrite L, sqrt_square by lra. exact Hr.
Qed.
Lemma capsule_normal eps hh r y h : 0 < eps <= 1 -> 0 < hh -> eps <= r -> first_hit (capsule hh r) y h -> capsule_cast eps hh r y = Some h -> eps <= vlen (hit_normal h).
Proof.
  intros He Hh Hr (_ & _ & _ & _ & NZ & OUT) E. unfold capsule_cast in E. cbv zeta in E.
  repeat match type of E with (if ?b then _ else _) = _ => destruct b; try discriminate; try (eapply cap_normal; [| |exact E]; lra) end.
  injection E as <-. cbn [hit_normal hit_point] in *. set (p := vadd (ray_p1 y) _) in *.
  assert (Ew : vsub p (vadd (V3 0 (- hh) 0) (vscale (vdot (vsub p (V3 0 (- hh) 0)) (vsub (V3 0 hh 0) (V3 0 (- hh) 0)) / vlen2 (vsub (V3 0 hh 0) (V3 0 (- hh) 0))) (vsub (V3 0 hh 0) (V3 0 (- hh) 0)))) = V3 (vx p) 0 (vz p)).
  { clearbody p. clear - Hh. destruct p as [px py pz]. unfold vdot, vsub, vadd, vscale, vlen2. cbn [vx vy vz]. f_equal; field; lra. }
  rewrite Ew in *. clear Ew. clearbody p. unfold vunit in *. destruct (rlt (vlen (V3 (vx p) 0 (vz p))) eps) eqn:L.
  - apply rlt_true in L. exfalso. set (v := V3 (vx p) 0 (vz p)) in *. set (l := vlen v) in *.
    assert (L2 : l * l = vx p * vx p + vz p * vz p). { unfold l, vlen. rewrite sqrt_sqrt by apply vlen2_nonneg. unfold v, vlen2. cbn. ring. }
    assert (LP : 0 < l). { apply vlen_pos. intros Z. apply NZ. apply vlen2_zero in Z. exact Z. }
    assert (Q : capsule hh r (V3 (r * (vx p / l)) 0 (r * (vz p / l)))).
    { apply capsule_iff; [lra|lra|]. exists 0. split; [lra|]. cbn [vx vy vz]. replace (r * (vx p / l) * (r * (vx p / l)) + r * (vz p / l) * (r * (vz p / l)) + (0 - 0) * (0 - 0)) with (r * r * ((vx p * vx p + vz p * vz p) / (l * l))) by (field; lra). rewrite <- L2. apply Req_le. field. lra. }
    apply OUT in Q. unfold offset, v in Q. cbn [vx vy vz] in Q.
    replace ((r * (vx p / l) - vx p) * vx p + (0 - vy p) * 0 + (r * (vz p / l) - vz p) * vz p) with (r * ((vx p * vx p + vz p * vz p) / l) - (vx p * vx p + vz p * vz p)) in Q by (field; lra).
    rewrite <- L2 in Q. replace (r * (l * l / l)) with (r * l) in Q by (field; lra). nra.
  - apply rlt_false in L. set (v := V3 (vx p) 0 (vz p)) in *. set (l := vlen v) in *. assert (L2 : l * l = vlen2 v) by (unfold l, vlen; apply sqrt_sqrt, vlen2_nonneg). clearbody l. clearbody v. clear - L L2 He.
    unfold vlen, vlen2 in *. cbn [vx vy vz]. replace (vx v * (1 / l) * (vx v * (1 / l)) + vy v * (1 / l) * (vy v * (1 / l)) + vz v * (1 / l) * (vz v * (1 / l))) with ((vx v * vx v + vy v * vy v + vz v * vz v) / (l * l)) by (field; lra).
    rewrite <- L2. replace (l * l / (l * l)) with 1 by (field; lra). rewrite sqrt_1. lra.
Qed.
Lemma capsule_right eps big hh r y : 0 < eps <= 1 -> 0 < hh -> eps <= r -> ~ capsule hh r (ray_p1 y) -> eps <= vlen2 (vsub (ray_p2 y) (ray_p1 y)) -> ray_max y <= 1 ->
  (let nx := vx (ray_p2 y) - vx (ray_p1 y) in let nz := vz (ray_p2 y) - vz (ray_p1 y) in nx * nx + nz * nz = 0 \/ / 100 <= 4 * (hh * hh) * (nx * nx + nz * nz)) ->
  right_answer eps big (WCapsule hh r) y.
Proof.
  intros He Hh Hr O L M A. pose proof (C45_exact_partial eps hh r y ltac:(lra) Hh ltac:(lra) O L M A) as C. unfold right_answer. cbn [wshape_cast shape_set].
  destruct (capsule_cast eps hh r y) as [h|] eqn:E; [|exact C]. split; [exact C|]. apply (capsule_normal eps hh r y h); assumption.
Qed.

(** ** Small worlds: a body at the origin with one or two balls of radius 1 *)
Definition at_place (p : vec3) : transform := Tr p quat_id.
Lemma unit_place p : unit_pose (at_place p).
Proof. unfold unit_pose, quat_len2, at_place, quat_id. cbn. ring. Qed.
Lemma place_mul p : tr_mul (at_place vzero) (at_place p) = at_place p.
Proof. destruct p as [x y z]. unfold tr_mul, at_place, quat_id, vzero. cbn. f_equal; [f_equal; ring|f_equal; ring]. Qed.
Lemma place_point p q : tr_point (at_place p) q = vadd q p.
Proof. destruct p as [x y z], q as [x' y' z']. unfold tr_point, at_place, quat_id. cbn. unfold vadd, quat_vec. cbn. f_equal; ring. Qed.
Definition ball_at (p : vec3) (id : Z) : wcollider := WCollider 1 0 (at_place p) (at_place p) 1 true id false.
Definition one_ball (p : vec3) : list wop := [OpShape (WSphere 1); OpBody (at_place vzero); OpAdd 1 0 (at_place p)].
Definition two_balls (p q : vec3) : list wop := one_ball p ++ [OpAdd 1 0 (at_place q)].
Lemma runs_app pct : forall a b w w1, runs pct a w = Ok w1 -> runs pct (a ++ b) w = runs pct b w1.
Proof.
  induction a as [|o a IH]; intros b w w1 H; cbn [runs app] in *; [injection H as <-; reflexivity|]. destruct (run pct o w) as [w2| |]; cbn [bind] in *; try discriminate. eauto.
Qed.
Lemma few_colliders w n : (forall c, qw_colliders w c <> None -> (c < n)%nat) -> forall l, NoDup l -> (forall c, In c l -> qw_colliders w c <> None) -> (length l <= n)%nat.
Proof.
  intros H l ND L. rewrite <- (seq_length n 0). apply NoDup_incl_length; [exact ND|]. intros c Hc. apply in_seq. specialize (H c (L c Hc)). lia.
Qed.
(** Adding a ball to the body 1. *)
Lemma add_ball pct w p x : reachable pct w -> qw_shapes w 0%nat = Some (WSphere 1) -> qw_bodies w 1%nat = Some x -> wb_pose x = at_place vzero -> wb_active x = true -> (qw_next w <= 100)%nat ->
  exists w' id, run pct (OpAdd 1 0 (at_place p)) w = Ok w' /\ reachable pct w' /\ qw_shapes w' 0%nat = Some (WSphere 1) /\
    qw_bodies w' 1%nat = Some (with_colliders (wb_colliders x ++ [qw_next w]) x) /\ qw_colliders w' (qw_next w) = Some (ball_at p id) /\
    (forall c, c <> qw_next w -> qw_colliders w' c = qw_colliders w c) /\ qw_next w' = S (qw_next w) /\ (forall b, b <> 1%nat -> qw_bodies w' b = qw_bodies w b).
Proof.
  intros R S B EP AC NX. pose proof (reachable_ok pct w R) as ((a & I) & A).
  assert (AL : allowed w (OpAdd 1 0 (at_place p))).
  { cbn. rewrite B, S. split; [discriminate|]. split; [discriminate|]. split; [apply unit_place|]. intros l ND L.
    assert (X := few_colliders w (qw_next w)). assert (length l <= qw_next w)%nat; [|lia]. apply X; auto. intros c Hc. destruct (qw_colliders w c) as [k|] eqn:K; [|congruence]. exact (proj1 (v_coll _ _ _ _ I c k K)). }
  destruct (run_ok pct _ w (reachable_ok pct w R) AL) as (w' & E & I'). assert (R' : reachable pct w') by (eapply reach_call; eauto).
  pose proof E as E0. cbn [run] in E. unfold add_collider in E. rewrite B, S in E. cbn [rd bind] in E. rewrite AC in E. unfold into_tree in E. cbn [qw_colliders] in E. rewrite nupd_same in E. cbn [rd bind] in E.
  destruct (box_of _ _) as [b| |]; cbn [bind] in E; try discriminate. destruct (add_object _ _ _ _ _) as [[t id]| |]; cbn [bind] in E; try discriminate. injection E as <-.
  eexists _, id. split; [exact E0|]. split; [exact R'|]. cbn. split; [exact S|]. split; [reflexivity|]. split; [|split; [|split; [reflexivity|]]].
  - rewrite nupd_same. unfold ball_at, with_node. cbn. rewrite EP, place_mul. reflexivity.
  - intros c N. rewrite !nupd_other by exact N. reflexivity.
  - intros b0 N. unfold nupd. destruct (Nat.eqb_spec b0 1); [contradiction|reflexivity].
Qed.
Lemma one_ball_world pct p : exists w id, runs pct (one_ball p) empty_world = Ok w /\ reachable pct w /\ qw_shapes w 0%nat = Some (WSphere 1) /\
  qw_bodies w 1%nat = Some (WBody (at_place vzero) true false [2%nat]) /\ qw_colliders w 2%nat = Some (ball_at p id) /\ (forall c, c <> 2%nat -> qw_colliders w c = None) /\ qw_next w = 3%nat /\
  (forall b, b <> 1%nat -> qw_bodies w b = None).
Proof.
  set (w0 := create_body (at_place vzero) (create_shape (WSphere 1) empty_world)).
  assert (R0 : reachable pct w0).
  { eapply reach_call with (o := OpBody (at_place vzero)); [|apply unit_place|reflexivity]. eapply reach_call with (o := OpShape (WSphere 1)); [apply reach_start|cbn; lra|reflexivity]. }
  destruct (add_ball pct w0 p (WBody (at_place vzero) true false []) R0) as (w & id & E & R & S & B & K & O & N & NB); [reflexivity|reflexivity|reflexivity|reflexivity|cbn; lia|].
  exists w, id. split; [unfold one_ball; cbn [runs run bind]; cbn [run] in E; fold w0; rewrite E; reflexivity|]. split; [exact R|]. split; [exact S|]. split; [exact B|]. split; [exact K|]. split; [intros c NC; now rewrite O|]. split; [exact N|].
  intros b N1. rewrite NB by exact N1. unfold w0. cbn. unfold nupd. destruct (Nat.eqb_spec b 1); [contradiction|reflexivity].
Qed.
Lemma two_ball_world pct p q : exists w i j, runs pct (two_balls p q) empty_world = Ok w /\ reachable pct w /\ qw_shapes w 0%nat = Some (WSphere 1) /\
  qw_bodies w 1%nat = Some (WBody (at_place vzero) true false [2%nat; 3%nat]) /\ qw_colliders w 2%nat = Some (ball_at p i) /\ qw_colliders w 3%nat = Some (ball_at q j) /\
  (forall c, c <> 2%nat -> c <> 3%nat -> qw_colliders w c = None).
Proof.
  destruct (one_ball_world pct p) as (w1 & i & E1 & R1 & S1 & B1 & K1 & O1 & N1 & _).
  destruct (add_ball pct w1 q _ R1 S1 B1 eq_refl eq_refl) as (w & j & E & R & S & B & K & O & N & _); [rewrite N1; lia|]. rewrite N1 in *.
  exists w, i, j. split; [unfold two_balls; rewrite (runs_app pct _ _ _ _ E1); cbn [runs]; rewrite E; reflexivity|]. split; [exact R|]. split; [exact S|]. split; [exact B|]. split; [rewrite O by lia; exact K1|].
  split; [exact K|]. intros c C2 C3. rewrite O by lia. now apply O1.
Qed.
(** The points of a ball of the body. *)
Lemma ball_region w c p id r x : qw_colliders w c = Some (ball_at p id) -> qw_bodies w 1%nat = Some x -> wb_pose x = at_place vzero -> qw_shapes w 0%nat = Some (WSphere r) -> 0 <= r ->
  forall q, region w c q <-> (vx q - vx p) * (vx q - vx p) + (vy q - vy p) * (vy q - vy p) + (vz q - vz p) * (vz q - vz p) <= r * r.
Proof.
  intros K B EP S Hr q. rewrite (region_iff w c (ball_at p id) x (WSphere r) K B S). cbn [wc_local ball_at shape_set]. rewrite EP, place_mul.
  assert (D : forall z, ball vzero r z <-> vx z * vx z + vy z * vy z + vz z * vz z <= r * r).
  { intros z. unfold ball. rewrite dist_vlen. replace (vsub z vzero) with z by (clear; vring). unfold vlen, vlen2. split; intros H.
    - apply (Rmult_le_compat _ _ _ _ (sqrt_pos _) (sqrt_pos _) H) in H. rewrite sqrt_sqrt in H; [lra|]. nra.
    - rewrite <- (sqrt_square r) by exact Hr. now apply sqrt_le_1_alt. }
  split.
  - intros (z & Hz & ->). apply D in Hz. rewrite place_point. unfold vadd. cbn. replace (vx z + vx p - vx p) with (vx z) by ring. replace (vy z + vy p - vy p) with (vy z) by ring. replace (vz z + vz p - vz p) with (vz z) by ring. exact Hz.
  - intros H. exists (V3 (vx q - vx p) (vy q - vy p) (vz q - vz p)). split; [apply D; exact H|]. rewrite place_point. destruct q as [a b c0]. unfold vadd. cbn. f_equal; ring.
Qed.
Lemma ball_stands w c p id r x t s : qw_colliders w c = Some (ball_at p id) -> qw_bodies w 1%nat = Some x -> wb_pose x = at_place vzero -> qw_shapes w 0%nat = Some (WSphere r) -> stands w c t s -> unit_pose t /\ s = WSphere r.
Proof.
  intros K B EP S ST. destruct (stands_one w c (ball_at p id) x (WSphere r) t s K B S ST) as (-> & ->). cbn [wc_local ball_at]. rewrite EP, place_mul. split; [apply unit_place|reflexivity].
Qed.
Lemma ball_dependable eps big w c p id r x y : 0 < eps -> eps <= r -> eps <= vlen2 (vsub (ray_p2 y) (ray_p1 y)) -> qw_colliders w c = Some (ball_at p id) -> qw_bodies w 1%nat = Some x ->
  wb_pose x = at_place vzero -> qw_shapes w 0%nat = Some (WSphere r) -> ~ region w c (ray_p1 y) -> dependable eps big w y c.
Proof.
  intros He Hr L K B EP S O t s ST m M. destruct (ball_stands w c p id r x t s K B EP S ST) as (U & ->). apply sphere_right; auto.
  - rewrite seen_len; assumption.
  - exact (seen_start w c t (WSphere r) y m U ST O).
Qed.
(** A ray along the first axis. *)
Lemma ray_x_clear y b : vx (ray_p2 y) <> vx (ray_p1 y) -> vy (ray_p2 y) = vy (ray_p1 y) -> vz (ray_p2 y) = vz (ray_p1 y) ->
  (vy (ray_p1 y) < vy (bmin b) \/ vy (bmin b) < vy (ray_p1 y)) -> (vy (ray_p1 y) < vy (bmax b) \/ vy (bmax b) < vy (ray_p1 y)) ->
  (vz (ray_p1 y) < vz (bmin b) \/ vz (bmin b) < vz (ray_p1 y)) -> (vz (ray_p1 y) < vz (bmax b) \/ vz (bmax b) < vz (ray_p1 y)) -> off_faces real_ops (world_ray y) (tree_box b).
Proof.
  intros X Y Z A1 A2 B1 B2. unfold off_faces, off_face, world_ray, tree_box, tree_vec. cbn [r_origin r_dir b_min b_max TreeModel.vx TreeModel.vy TreeModel.vz]. unfold vsub. cbn [vx vy vz].
  rewrite !real_nonzero. cbn [d_lt real_ops]. rewrite !rlt_iff. split; [left; lra|]. split; right; tauto.
Qed.
Lemma ray_x_over y b m : vx (ray_p2 y) <> vx (ray_p1 y) -> vy (ray_p2 y) = vy (ray_p1 y) -> off_faces real_ops (world_ray y) (tree_box b) -> vy (bmin b) <= vy (bmax b) -> vy (bmax b) < vy (ray_p1 y) ->
  test_ray real_ops Rinv (world_ray y) (tree_box b) m = false.
Proof.
  intros X Y OF V OV. destruct (test_ray real_ops Rinv (world_ray y) (tree_box b) m) eqn:T; [|reflexivity]. exfalso. pose proof OF as (FX & FY & FZ).
  pose proof (proj1 (test_ray_iff real_ops real_laws Rinv (world_ray y) (tree_box b) m ltac:(apply (slab_num real_ops Rinv real_ray_laws); exact FX) ltac:(apply (slab_num real_ops Rinv real_ray_laws); exact FY) ltac:(apply (slab_num real_ops Rinv real_ray_laws); exact FZ)) T) as A. clear T.
  assert (Z : d_eq0 real_ops (TreeModel.vy (r_dir (world_ray y))) = true) by (apply real_zero; cbn; unfold vsub; cbn; lra).
  destruct (slab_zero real_ops real_laws Rinv real_ray_laws _ _ _ _ (snd (fst (r_neg (world_ray y)))) Z FY) as [(P1 & P2 & _)|(_ & P2 & P3)]; [cbn; apply rle_iff; exact V| |].
  - cbn in P2. apply rlt_iff in P2. lra.
  - destruct P3 as [P3|P3].
    + assert (Q := A (Fin (d_zero real_ops)) NInf ltac:(cbn; tauto)). cbn in Q. discriminate Q. right. left. exact P3.
    + assert (Q := A PInf (Fin m)). cbn in Q. discriminate Q; [|tauto]. right. left. exact P3.
Qed.
