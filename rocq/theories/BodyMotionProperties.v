(** Properties of rigid bodies: composite mass properties, velocities of material points, poses, what contacts and joints see of
    static bodies, inactive bodies. *)
From Coq Require Import List Reals Lra Permutation Bool.
From Verif Require Import VecModel VecProofs BodyModel BodySpec BodyProofs BodyLawProofs.
Import ListNotations.
Local Open Scope R_scope.
Local Ltac splits := repeat match goal with |- _ /\ _ => split end.

Lemma after_snoc t l o : apply o (after t l) = after t (l ++ [o]).
Proof. unfold after, run. rewrite fold_left_app. reflexivity. Qed.
Lemma mass_properties_eq b : let b' := update_mass_properties b in let c := center_of_mass (b_cols b) in let t := tensor_sum c (b_cols b) in
  b_mass b' = rsum (map part_mass (b_cols b)) /\ b_com b' = c /\ b_comw b' = tr_point (b_tr b) c /\ b_inertia b' = V3 (m00 t) (m11 t) (m22 t) /\
  b_v b' = (match b_type b with Dynamic => vadd (b_v b) (vcross (b_w b) (vsub (tr_point (b_tr b) c) (b_comw b))) | _ => b_v b end) /\
  b_w b' = b_w b /\ b_cols b' = b_cols b.
Proof.
  intros b' c t. unfold b', update_mass_properties, is_dynamic. fold c.
  change (b_type (set_comw (tr_point (b_tr b) c) (set_com c b))) with (b_type b).
  destruct (b_type b) eqn:T; cbn [btype_eqb]; rewrite mass_inertia_eq; unfold set_mass_unchecked, set_inertia_of, shift_velocity, is_dynamic.
  all: change (b_com (set_comw (tr_point (b_tr b) c) (set_com c b))) with c; change (b_cols (set_comw (tr_point (b_tr b) c) (set_com c b))) with (b_cols b).
  all: unfold t; clear t; clearbody c; bs; repeat (rewrite T; bs); splits; reflexivity.
Qed.
(** * C57 *)
Theorem C57_mass : forall b, b_mass (apply UpdateMass b) = rsum (map part_mass (b_cols b)) /\
  b_mass (apply UpdateMassProperties b) = rsum (map part_mass (b_cols b)).
Proof.
  intros b. split.
  - cbn [apply]. unfold update_mass, set_mass_unchecked. rewrite total_eq. bs. bcase; reflexivity.
  - apply mass_properties_eq.
Qed.
(** The centre of mass is the mean of the centres weighted by the masses. *)
Theorem C57_center : forall b, 0 < rsum (map part_mass (b_cols b)) ->
  let mean := vscale (/ rsum (map part_mass (b_cols b))) (vsum (map (fun c => vscale (part_mass c) (t_pos (c_local c))) (b_cols b))) in
  b_com (apply UpdateCom b) = mean /\ b_com (apply UpdateMassProperties b) = mean.
Proof.
  intros b H mean.
  assert (E : center_of_mass (b_cols b) = mean).
  { rewrite center_eq. rewrite (proj2 (rlt_true _ _) H). unfold mean. change (map weighted (b_cols b)) with (map (fun c => vscale (part_mass c) (t_pos (c_local c))) (b_cols b)).
    generalize (vsum (map (fun c => vscale (part_mass c) (t_pos (c_local c))) (b_cols b))). intros [x y z].
    unfold vdiv, vscale. cbn [vx vy vz]. f_equal; field; lra. }
  clearbody mean. split.
  - cbn [apply]. unfold update_com, set_com_of, shift_velocity. bs. exact E.
  - rewrite <- E. apply mass_properties_eq.
Qed.
(** The order of the colliders does not matter. *)
Theorem C57_order : forall b l, Permutation (b_cols b) l ->
  let b1 := apply UpdateMassProperties b in let b2 := apply UpdateMassProperties (set_cols l b) in
  b_mass b1 = b_mass b2 /\ b_com b1 = b_com b2 /\ b_inertia b1 = b_inertia b2 /\ b_v b1 = b_v b2.
Proof.
  intros b l P b1 b2.
  assert (S : rsum (map part_mass (b_cols b)) = rsum (map part_mass l)) by (now apply rsum_perm, Permutation_map).
  assert (C : center_of_mass (b_cols b) = center_of_mass l).
  { rewrite !center_eq, S. assert (V : vsum (map weighted (b_cols b)) = vsum (map weighted l)) by (now apply vsum_perm, Permutation_map). now rewrite V. }
  destruct (mass_properties_eq b) as (A1 & A2 & _ & A4 & A5 & _). destruct (mass_properties_eq (set_cols l b)) as (B1 & B2 & _ & B4 & B5 & _).
  unfold b1, b2. cbn [apply]. rewrite A1, A2, A4, A5, B1, B2, B4, B5. clear A1 A2 A4 A5 B1 B2 B4 B5 b1 b2. cbn [b_cols set_cols b_type b_tr b_v b_w b_comw].
  rewrite S, C, (tensor_perm _ _ _ P). splits; reflexivity.
Qed.
(** The stored moments are those about the axes of the body through the centre of mass. *)
Theorem C57_inertia_partial : forall b, Forall (fun c => unit_rotation (c_local c)) (b_cols b) ->
  let i1 := b_inertia (apply UpdateInertia b) in let b2 := apply UpdateMassProperties b in
  (vx i1 = moment_about (b_cols b) (b_com b) (V3 1 0 0) /\ vy i1 = moment_about (b_cols b) (b_com b) (V3 0 1 0) /\
   vz i1 = moment_about (b_cols b) (b_com b) (V3 0 0 1)) /\
  (vx (b_inertia b2) = moment_about (b_cols b) (b_com b2) (V3 1 0 0) /\ vy (b_inertia b2) = moment_about (b_cols b) (b_com b2) (V3 0 1 0) /\
   vz (b_inertia b2) = moment_about (b_cols b) (b_com b2) (V3 0 0 1)).
Proof.
  intros b U i1 b2.
  assert (K : forall com, m00 (tensor_sum com (b_cols b)) = moment_about (b_cols b) com (V3 1 0 0) /\
     m11 (tensor_sum com (b_cols b)) = moment_about (b_cols b) com (V3 0 1 0) /\ m22 (tensor_sum com (b_cols b)) = moment_about (b_cols b) com (V3 0 0 1)).
  { intros com. destruct (form_diagonal (tensor_sum com (b_cols b))) as (E1 & E2 & E3). rewrite <- E1, <- E2, <- E3.
    splits; apply form_sum; try exact U; unfold vlen2; cbn [vx vy vz]; ring. }
  assert (I1 : i1 = V3 (m00 (tensor_sum (b_com b) (b_cols b))) (m11 (tensor_sum (b_com b) (b_cols b))) (m22 (tensor_sum (b_com b) (b_cols b)))).
  { unfold i1. cbn [apply]. unfold update_inertia. rewrite mass_inertia_eq. unfold set_inertia_of. bs. bcase; reflexivity. }
  assert (I2 : b_inertia b2 = V3 (m00 (tensor_sum (b_com b2) (b_cols b))) (m11 (tensor_sum (b_com b2) (b_cols b))) (m22 (tensor_sum (b_com b2) (b_cols b)))).
  { destruct (mass_properties_eq b) as (_ & A2 & _ & A4 & _). unfold b2. cbn [apply]. rewrite A4, A2. reflexivity. }
  rewrite I1, I2. cbn [vx vy vz]. split; apply K.
Qed.
(** About other axes the moments are wrong as the products of inertia are dropped: two small balls at (1,1,0) and (-1,-1,0). *)
Definition ball_at (x y : R) : collider :=
  Collider 1 1 (fun _ => V3 0 0 0) (Tr (V3 x y 0) quat_id) (Tr (V3 x y 0) quat_id).
Theorem C57_inertia_refuted : exists l u, let b := after tr_id (l ++ [UpdateMassProperties]) in
  vlen2 u = 1 /\ Forall (fun c => unit_rotation (c_local c)) (b_cols b) /\ b_com b = V3 0 0 0 /\
  stored_moment (b_inertia b) u <> moment_about (b_cols b) (b_com b) u.
Proof.
  exists [AddCollider 1 1 (fun _ => V3 0 0 0) (Tr (V3 1 1 0) quat_id); AddCollider 1 1 (fun _ => V3 0 0 0) (Tr (V3 (-1) (-1) 0) quat_id)],
    (V3 (3 / 5) (4 / 5) 0). intros b.
  set (c1 := after tr_id [AddCollider 1 1 (fun _ => V3 0 0 0) (Tr (V3 1 1 0) quat_id); AddCollider 1 1 (fun _ => V3 0 0 0) (Tr (V3 (-1) (-1) 0) quat_id)]).
  assert (E : b = apply UpdateMassProperties c1) by reflexivity.
  assert (Q : Forall (fun c => unit_rotation (c_local c)) (b_cols c1)).
  { unfold c1. ev. bs. repeat constructor; unfold unit_rotation, quat_len2; cbn; ring. }
  assert (C : exists w1 w2, b_cols c1 = [Collider 1 1 (fun _ => V3 0 0 0) (Tr (V3 1 1 0) quat_id) w1;
                                         Collider 1 1 (fun _ => V3 0 0 0) (Tr (V3 (-1) (-1) 0) quat_id) w2]).
  { unfold c1. ev. bs. do 2 eexists. reflexivity. }
  assert (K : b_cols b = b_cols c1).
  { rewrite E. apply mass_properties_eq. }
  destruct C as (w1 & w2 & C).
  assert (M : b_com b = V3 0 0 0).
  { destruct (C57_center c1) as [_ X].
    - rewrite C. cbn [map rsum part_mass c_volume c_density]. unfold part_mass. cbn [c_volume c_density]. lra.
    - rewrite <- E in X. rewrite X, C. cbn [map rsum vsum]. unfold part_mass. cbn [c_volume c_density c_local t_pos].
      unfold vscale, vadd. cbn [vx vy vz]. f_equal; field. }
  destruct (C57_inertia_partial c1 Q) as (_ & I1 & I2 & I3). rewrite <- E in I1, I2, I3.
  splits; [unfold vlen2; cbn [vx vy vz]; field | rewrite K; exact Q | exact M |].
  unfold stored_moment. rewrite I1, I2, I3, K, M, C. unfold moment_about, own_moment, axis_distance2, along, part_mass.
  cbn [map rsum c_volume c_density c_inertia c_local t_pos t_rot vx vy vz vsub]. unfold vsub. cbn [vx vy vz]. lra.
Qed.
Example C57_example : forall t, let b := after t [AddCollider 2 3 (fun m => V3 m m m) (Tr (V3 1 1 0) quat_id)] in
  rsum (map part_mass (b_cols b)) = 6 /\ Forall (fun c => unit_rotation (c_local c)) (b_cols b).
Proof.
  intros t b. unfold b. ev. bs. split; [cbn [map rsum]; unfold part_mass; cbn [c_volume c_density]; ring |].
  repeat constructor; unfold unit_rotation, quat_len2; cbn; ring.
Qed.

(** * C81 *)
(** Moving the centre of mass changes the velocity of no material point. *)
Lemma shifted v w p c c' : vadd (vadd v (vcross w (vsub c' c))) (vcross w (vsub p c')) = vadd v (vcross w (vsub p c)).
Proof. destruct v as [a1 a2 a3], w as [b1 b2 b3], p as [p1 p2 p3], c as [c1 c2 c3], c' as [d1 d2 d3]. unfold vadd, vcross, vsub. cbn [vx vy vz]. f_equal; ring. Qed.
Theorem C81_set_center_of_mass : forall b o p, (o = UpdateCom \/ exists c, o = SetCom c) -> point_velocity (apply o b) p = point_velocity b p.
Proof.
  intros b o p [-> | [c ->]]; cbn [apply]; unfold update_com, set_com_of, shift_velocity, point_velocity; bs; apply shifted.
Qed.
Theorem C81_mass_properties_partial : forall t l p, unit_rotation t -> Forall proper l -> b_type (after t l) <> Kinematic ->
  point_velocity (apply UpdateMassProperties (after t l)) p = point_velocity (after t l) p.
Proof.
  intros t l p U P N. destruct (body_ok_after t l U P) as [_ _ _ R _ _ _]. revert N R. generalize (after t l) as b. intros b N R.
  destruct (mass_properties_eq b) as (_ & _ & A3 & _ & A5 & A6 & _). unfold point_velocity. cbn [apply]. rewrite A3, A5, A6. clear A3 A5 A6.
  destruct (b_type b) eqn:T; [| congruence |].
  - destruct (R T) as (V & W & _). rewrite V, W, !vcross_zero. reflexivity.
  - apply shifted.
Qed.
Theorem C81_kinematic_refuted : exists l p, b_type (after tr_id l) = Kinematic /\
  point_velocity (after tr_id l) p = V3 0 0 0 /\ point_velocity (apply UpdateMassProperties (after tr_id l)) p = V3 0 (-1) 0.
Proof.
  exists [SetType Kinematic; SetAngularVelocity (V3 0 0 1); AddCollider 1 1 (fun _ => V3 0 0 0) (Tr (V3 1 0 0) quat_id)], (V3 0 0 0).
  set (b := after tr_id [SetType Kinematic; SetAngularVelocity (V3 0 0 1); AddCollider 1 1 (fun _ => V3 0 0 0) (Tr (V3 1 0 0) quat_id)]).
  assert (E : b_type b = Kinematic /\ b_v b = V3 0 0 0 /\ b_w b = V3 0 0 1 /\ b_comw b = V3 0 0 0 /\ b_tr b = tr_id /\
    exists w, b_cols b = [Collider 1 1 (fun _ => V3 0 0 0) (Tr (V3 1 0 0) quat_id) w]).
  { unfold b. ev. bs. splits; try reflexivity. eexists. reflexivity. }
  destruct E as (T & V & W & C & R & w & L). clearbody b. splits; [exact T | |].
  - unfold point_velocity. rewrite V, W, C. unfold vadd, vcross, vsub. cbn [vx vy vz]. f_equal; ring.
  - destruct (mass_properties_eq b) as (_ & _ & A3 & _ & A5 & A6 & _). unfold point_velocity. cbn [apply]. rewrite A3, A5, A6, T, V, W, R, L, center_eq. cbn [map rsum]. unfold part_mass. cbn [c_volume c_density].
    rewrite (proj2 (rlt_true 0 (1 * 1 + 0))) by lra. unfold weighted, part_mass. cbn [vsum c_local c_volume c_density t_pos].
    unfold tr_point, tr_id, quat_id, quat_vec, vdiv, vadd, vcross, vsub, vscale, vzero. cbn [vx vy vz t_pos t_rot qx qy qz qw]. f_equal; field.
Qed.
Example C81_example : let b := after tr_id [SetAngularVelocity (V3 0 0 1)] in
  b_v b = V3 0 0 0 /\ b_v (apply (SetCom (V3 1 0 0)) b) = V3 0 1 0 /\ point_velocity b (V3 1 0 0) = V3 0 1 0.
Proof.
  intros b. unfold b. ev. unfold point_velocity. cbn [apply]. unfold set_com_of, shift_velocity. bs. unfold tr_point, quat_vec, vcross, vsub, vadd. cbn [vx vy vz t_pos t_rot qx qy qz qw quat_id].
  splits; f_equal; ring.
Qed.

(** * C82 *)
Lemma vsub_self v : vsub v v = vzero. Proof. destruct v as [x y z]. unfold vsub, vzero. cbn [vx vy vz]. f_equal; ring. Qed.
Lemma vcross_zero_r v : vcross v vzero = vzero. Proof. destruct v as [x y z]. unfold vcross, vzero. cbn [vx vy vz]. f_equal; ring. Qed.
(** Placing a body elsewhere keeps its velocities if it does not spin or its centre of mass stays. *)
Theorem C82_velocities_partial : forall b t, let b' := apply (SetTransform t) b in
  b_w b' = b_w b /\ ((b_w b = V3 0 0 0 \/ tr_point t (b_com b) = b_comw b) -> b_v b' = b_v b).
Proof.
  intros b t b'. unfold b'. clear b'. cbn [apply]. unfold set_transform, shift_velocity, place_colliders, set_is_sleeping. bs. repeat (bcase; bs).
  all: split; [reflexivity |]; intros [W | C].
  all: match goal with
       | W : b_w _ = _ |- _ => rewrite W, vcross_zero; apply vadd_zero_r
       | C : tr_point _ _ = _ |- _ => rewrite C, vsub_self, vcross_zero_r; apply vadd_zero_r
       end.
Qed.
(** A spinning body that is moved gains a velocity: the angular velocity times the displacement. *)
Theorem C82_teleport_refuted : exists l t, unit_rotation t /\ b_v (after tr_id l) = V3 0 0 0 /\
  b_v (apply (SetTransform t) (after tr_id l)) = V3 0 100 0.
Proof.
  exists [SetAngularVelocity (V3 0 0 1)], (Tr (V3 100 0 0) quat_id). splits.
  - unfold unit_rotation, quat_len2. cbn. ring.
  - ev. reflexivity.
  - ev. cbn [apply]. unfold set_transform, shift_velocity, place_colliders, set_is_sleeping. bs.
    unfold tr_point, quat_vec, vcross, vsub, vadd, vzero. cbn [vx vy vz t_pos t_rot qx qy qz qw quat_id]. f_equal; ring.
Qed.

(** * C83 *)
Theorem C83_unit_orientation : forall t l, unit_rotation t -> Forall proper l -> unit_rotation (b_tr (after t l)).
Proof. intros t l U P. apply (body_ok_after t l U P). Qed.
Lemma turned n k dt q v : vlen2 n = 1 -> quat_len2 q = 1 ->
  quat_vec (quat_normalize (turn (vscale k n) dt q)) v = rotated n (2 * atan (k * dt / 2)) (quat_vec q v).
Proof.
  intros N Q. rewrite quat_vec_normalize by (now apply turn_pos). rewrite turn_len2, Q, quat_vec_turn. cbv zeta.
  generalize (quat_vec q v) as u. intros u.
  destruct (cos_sin_double (k * dt / 2)) as [C S]. unfold rotated. rewrite C, S. clear C S Q.
  replace (vlen2 (vscale k n)) with (k * k) by (replace (vlen2 (vscale k n)) with (k * k * vlen2 n) by (destruct n as [n1 n2 n3]; unfold vlen2, vscale; cbn [vx vy vz]; ring); rewrite N; ring).
  assert (D : 0 < 1 + k * dt / 2 * (k * dt / 2)) by nra.
  assert (E : 1 * (1 + dt * dt * / 4 * (k * k)) = 1 + k * dt / 2 * (k * dt / 2)) by field. rewrite E.
  replace (1 - dt * dt * / 4 * (k * k)) with (1 - k * dt / 2 * (k * dt / 2)) by field.
  set (h := k * dt / 2) in *. replace (vdot (vscale k n) u) with (k * along n u) by (destruct n as [n1 n2 n3], u as [u1 u2 u3]; unfold along, vdot, vscale; cbn [vx vy vz]; ring).
  set (y := along n u).
  assert (K : dt * k = 2 * h) by (unfold h; field). clearbody h y. clear E N.
  destruct n as [n1 n2 n3], u as [u1 u2 u3]. unfold vscale, vcross, vadd. cbn [vx vy vz].
  assert (X : forall g, dt * (k * g) = 2 * h * g) by (intros g; rewrite <- K; ring).
  assert (Y : forall g, dt * dt * / 2 * (k * y) * (k * g) = 2 * h * h * y * g).
  { intros g. replace (dt * dt * / 2 * (k * y) * (k * g)) with ((dt * k) * (dt * k) * / 2 * y * g) by ring. rewrite K. field. }
  f_equal; rewrite Y.
  - replace (dt * (k * n2 * u3 - k * n3 * u2)) with (2 * h * (n2 * u3 - n3 * u2)) by (rewrite <- K; ring). field. lra.
  - replace (dt * (k * n3 * u1 - k * n1 * u3)) with (2 * h * (n3 * u1 - n1 * u3)) by (rewrite <- K; ring). field. lra.
  - replace (dt * (k * n1 * u2 - k * n2 * u1)) with (2 * h * (n1 * u2 - n2 * u1)) by (rewrite <- K; ring). field. lra.
Qed.
(** An update moves the centre of mass by the time step times the new velocity and turns the body about the axis of its new angular
    velocity [vscale k n], through the centre of mass, by the angle 2 atan (k dt / 2): every material point [x] follows this rigid motion. *)
Theorem C83_motion : forall t l s n k, unit_rotation t -> Forall proper l -> uncorrected s ->
  let b := after t l in b_disabled b = false -> let b' := step s b in
  vlen2 n = 1 -> b_w b' = vscale k n ->
  b_comw b' = vadd (b_comw b) (vscale (s_dt s) (b_v b')) /\
  forall x, tr_point (b_tr b') x = vadd (b_comw b') (rotated n (2 * atan (k * s_dt s / 2)) (vsub (tr_point (b_tr b) x) (b_comw b))).
Proof.
  intros t l s n k U P (Z1 & Z2 & Z3 & Z4) b D b' N W. destruct (body_ok_after t l U P) as [_ CK RK _ _ _ _]. fold b in CK, RK.
  unfold com_ok, rot_ok, unit_rotation in *. subst b'. clearbody b.
  rewrite step_enabled in * by exact D. unfold settle, moved in *. rewrite Z4 in *. bs.
  assert (SV : step_sv s b = vzero) by (unfold step_sv, push_v; rewrite Z1; rewrite vmul_zero_r; apply vadd_zero_r).
  assert (SW : step_sw s b = vzero) by (unfold step_sw, push_w; rewrite Z2; rewrite mat_vec_zero, vmul_zero_r; apply vadd_zero_r).
  assert (PE : step_pose s b = (vadd (b_comw b) (vscale (s_dt s) (step_cv s b)), turn (vscale k n) (s_dt s) (t_rot (b_tr b)))).
  { unfold step_pose. rewrite Z3, SV, SW, <- W. cbn [fold_left]. rewrite !vscale_zero, !vadd_zero_r. reflexivity. }
  rewrite PE. cbn [fst snd]. split; [reflexivity |]. intros x. unfold new_transform, tr_point. cbn [t_pos t_rot].
  rewrite !(turned n k) by assumption. rewrite CK. unfold tr_point.
  set (a := 2 * atan (k * s_dt s / 2)).
  replace (vsub (vadd (quat_vec (t_rot (b_tr b)) x) (t_pos (b_tr b))) (vadd (quat_vec (t_rot (b_tr b)) (b_com b)) (t_pos (b_tr b))))
     with (vsub (quat_vec (t_rot (b_tr b)) x) (quat_vec (t_rot (b_tr b)) (b_com b)))
     by (generalize (quat_vec (t_rot (b_tr b)) x) (quat_vec (t_rot (b_tr b)) (b_com b)) (t_pos (b_tr b)); clear; intros [x1 x2 x3] [y1 y2 y3] [z1 z2 z3]; unfold vsub, vadd; cbn [vx vy vz]; f_equal; ring).
  set (c := vadd (vadd (quat_vec (t_rot (b_tr b)) (b_com b)) (t_pos (b_tr b))) (vscale (s_dt s) (step_cv s b))).
  generalize (quat_vec (t_rot (b_tr b)) x) (quat_vec (t_rot (b_tr b)) (b_com b)). clearbody c a. clear. intros x y.
  unfold rotated. generalize (cos a) (sin a). clear a. intros ca sa. destruct n as [n1 n2 n3], x as [x1 x2 x3], y as [y1 y2 y3], c as [c1 c2 c3].
  unfold along, vadd, vsub, vscale, vcross. cbn [vx vy vz]. f_equal; ring.
Qed.
Example C83_example : let b := after tr_id [SetAngularVelocity (V3 0 0 2); SetLinearVelocity (V3 1 0 0)] in let s := free_step 1 None in
  b_disabled b = false /\ uncorrected s /\ vlen2 (V3 0 0 1) = 1 /\ b_w (step s b) = vscale 2 (V3 0 0 1) /\ 2 * atan (2 * 1 / 2) = PI / 2.
Proof.
  intros b s.
  assert (E : b_disabled b = false /\ b_w b = V3 0 0 2 /\ b_adamp b = 0 /\ b_torque b = vzero /\ b_force b = vzero).
  { unfold b. ev. bs. splits; reflexivity. }
  destruct E as (D & W & A & Q & F). clearbody b. splits; [exact D | repeat split | unfold vlen2; cbn [vx vy vz]; ring | |].
  - rewrite step_enabled by exact D. unfold settle, moved. cbn [s_sleep free_step]. bs.
    destruct (undisturbed_velocities s b F Q) as [_ E]. cbn [s_sleep s free_step]. bs. change (undisturbed s) with s in E. rewrite E, W, A. unfold damped, vscale.
    cbn [vx vy vz s s_dt free_step]. f_equal; field.
  - replace (2 * 1 / 2) with 1 by field. rewrite atan_1. field.
Qed.

(** * C84 *)
(** What contacts and joints take as the velocity of a static body is zero if every update happened while it was static. *)
Definition no_solver_velocity (b : body) : Prop := b_cv b = V3 0 0 0 /\ b_cw b = V3 0 0 0 /\ b_sv b = V3 0 0 0 /\ b_sw b = V3 0 0 0.
Lemma no_velocity_apply o b : body_ok b -> (forall s, o = Update s -> b_type b = Static) -> no_solver_velocity b -> no_solver_velocity (apply o b).
Proof.
  intros B S H. unfold no_solver_velocity in *. destruct o.
  1: destruct t.
  all: try (crunch; assumption).
  specialize (S s eq_refl). destruct B as [M _ _ R _ _ _]. destruct (R S) as (_ & _ & D & _). unfold mass_ok in M. rewrite S in M. destruct M as (M1 & M2 & M3).
  cbn [apply]. rewrite step_disabled by exact D. destruct H as (H1 & H2 & H3 & H4).
  unfold settle, set_is_sleeping, touched. bs. rewrite S. bs. repeat (bcase; bs).
  all: unfold push_v, push_w; rewrite M1, M3, H1, H2, H3, H4, !mat_zero_vec, !vmul_zero_r, !vmul_zero_scale, !vadd_zero_r; splits; reflexivity.
Qed.
Theorem C84_static_velocity_partial : forall t l, unit_rotation t -> Forall proper l -> updates_while_static l (create t) ->
  no_solver_velocity (after t l).
Proof.
  intros t l U P S.
  assert (G : forall l b, Forall proper l -> updates_while_static l b -> body_ok b -> no_solver_velocity b -> no_solver_velocity (run l b)).
  { clear. induction l as [| o l IH]; intros b P S B H; [exact H |]. inversion P; subst. destruct S as [S S']. cbn [run fold_left].
    apply IH; [assumption | exact S' | now apply body_ok_apply |]. apply no_velocity_apply; [exact B | | exact H]. intros s ->. exact S. }
  apply G; [exact P | exact S | now apply body_ok_create | repeat split].
Qed.
Lemma static_keeps s b : body_ok b -> b_type b = Static -> b_cv (step s b) = b_cv b /\ b_cpos (step s b) = b_cpos b.
Proof.
  intros B T. destruct B as [M _ K R _ _ _]. destruct (R T) as (_ & _ & D & _ & O). unfold mass_ok in M. rewrite T in M. destruct M as (M1 & M2 & M3).
  unfold rot_ok, unit_rotation in K. rewrite <- O in K.
  rewrite step_disabled by exact D. unfold settle, set_is_sleeping, touched. bs. rewrite T. bs. repeat (bcase; bs).
  all: rewrite immovable_pose by assumption; unfold push_v; rewrite M1, vmul_zero_scale, vadd_zero_r; split; reflexivity.
Qed.
Lemma free_fields c dt : b_disabled c = false -> b_force c = vzero -> b_torque c = vzero ->
  let c' := step (free_step dt None) c in
  b_type c' = b_type c /\ b_sleeping c' = b_sleeping c /\ b_cv c' = damped (b_ldamp c) dt (b_v c).
Proof.
  intros D F Q c'. unfold c'. clear c'. rewrite step_enabled by exact D. unfold settle, moved. cbn [s_sleep free_step]. bs. splits; [reflexivity | reflexivity |].
  destruct (undisturbed_velocities (free_step dt None) c F Q) as [E _]. exact E.
Qed.
Lemma made_static b : b_type b <> Static -> b_sleeping b = false ->
  let b' := set_type_of Static b in b_type b' = Static /\ b_v b' = V3 0 0 0 /\ b_cv b' = b_cv b.
Proof.
  intros T S b'. unfold b', set_type_of, set_is_sleeping. clear b'. destruct (b_type b); [congruence | |]; bs; rewrite S; bs; splits; reflexivity.
Qed.
Lemma id_unit : unit_rotation tr_id. Proof. unfold unit_rotation, tr_id, quat_id, quat_len2; cbn [t_rot qx qy qz qw]; ring. Qed.
Definition stopped : list bop := [SetLinearVelocity (V3 1 0 0); Update (free_step 1 None); SetType Static].
Lemma stopped_proper : Forall proper stopped.
Proof. unfold stopped. repeat constructor. cbn. lra. Qed.
Lemma stopped_facts : b_type (after tr_id stopped) = Static /\ b_v (after tr_id stopped) = V3 0 0 0 /\ b_cv (after tr_id stopped) = V3 1 0 0.
Proof.
  assert (C : forall c, c = after tr_id [SetLinearVelocity (V3 1 0 0)] -> b_disabled c = false /\ b_type c = Dynamic /\ b_sleeping c = false /\ b_force c = vzero /\ b_torque c = vzero /\ b_v c = V3 1 0 0 /\ b_ldamp c = 0).
  { intros c ->. ev. bs. splits; reflexivity. }
  specialize (C _ eq_refl). revert C.
  replace (after tr_id stopped) with (set_type_of Static (step (free_step 1 None) (after tr_id [SetLinearVelocity (V3 1 0 0)])))
    by (change stopped with (([SetLinearVelocity (V3 1 0 0)] ++ [Update (free_step 1 None)]) ++ [SetType Static]); rewrite <- !after_snoc; cbn [apply]; reflexivity).
  generalize (after tr_id [SetLinearVelocity (V3 1 0 0)]). intros c (D & T & S & F & Q & V & L).
  destruct (free_fields c 1 D F Q) as (T' & S' & C'). revert T' S' C'. generalize (step (free_step 1 None) c). intros c' T' S' C'.
  destruct (made_static c') as (R1 & R2 & R3); [congruence | congruence |]. rewrite R1, R2, R3, C', V, L. splits; try reflexivity.
  unfold damped, vscale. cbn [vx vy vz]. f_equal; field.
Qed.
(** A moving body made static keeps the velocity of its last update for the contacts and joints, for ever. *)
Theorem C84_stale_velocity_refuted : exists l, Forall proper l /\ b_type (after tr_id l) = Static /\ b_v (after tr_id l) = V3 0 0 0 /\
  b_cv (after tr_id l) = V3 1 0 0 /\ forall s, b_cv (step s (after tr_id l)) = V3 1 0 0.
Proof.
  exists stopped. destruct stopped_facts as (T & V & C). pose proof (body_ok_after tr_id stopped id_unit stopped_proper) as B. splits; auto using stopped_proper.
  intros s. destruct (static_keeps s _ B T) as [E _]. now rewrite E.
Qed.
Example C84_example : forall t s, let l := [SetLinearVelocity (V3 1 0 0); SetType Static; Update s] in
  updates_while_static l (create t) /\ b_type (after t l) = Static.
Proof.
  intros t s l. split.
  - cbn [l updates_while_static]. splits; try exact I.
    change (b_type (after t [SetLinearVelocity (V3 1 0 0); SetType Static]) = Static). ev. reflexivity.
  - change (b_type (apply (Update s) (after t [SetLinearVelocity (V3 1 0 0); SetType Static])) = Static).
    assert (E : b_type (after t [SetLinearVelocity (V3 1 0 0); SetType Static]) = Static) by (ev; reflexivity).
    revert E. generalize (after t [SetLinearVelocity (V3 1 0 0); SetType Static]). intros b E.
    msteps; unfold set_is_sleeping, moved, touched; bs; repeat (bcase; bs); exact E.
Qed.

(** * C85 *)
(** Joints treat the constrained position of a body as its centre of mass and the constrained orientation as its orientation. *)
Theorem C85_orientation : forall t l, unit_rotation t -> Forall proper l -> b_type (after t l) = Static ->
  b_crot (after t l) = t_rot (b_tr (after t l)).
Proof. intros t l U P T. destruct (body_ok_after t l U P) as [_ _ _ R _ _ _]. apply (R T). Qed.
Theorem C85_position_partial : forall t l, unit_rotation t -> Forall proper l -> b_type (after t l) = Static -> b_com (after t l) = V3 0 0 0 ->
  b_cpos (after t l) = b_comw (after t l).
Proof.
  intros t l U P T C. destruct (body_ok_after t l U P) as [_ K _ R _ _ _]. destruct (R T) as (_ & _ & _ & E & _). unfold com_ok in K.
  rewrite E, K, C. unfold tr_point. destruct (b_tr (after t l)) as [[x y z] [q1 q2 q3 q4]]. unfold quat_vec, vadd. cbn [t_pos t_rot vx vy vz qx qy qz qw].
  f_equal; ring.
Qed.
Definition offset : list bop := [SetCom (V3 1 0 0); SetType Static].
Lemma offset_proper : Forall proper offset. Proof. repeat constructor. Qed.
Lemma offset_facts : b_type (after tr_id offset) = Static /\ b_comw (after tr_id offset) = V3 1 0 0 /\ b_cpos (after tr_id offset) = V3 0 0 0.
Proof.
  unfold offset. ev. bs. splits; try reflexivity. unfold tr_point, quat_vec, vadd. cbn [t_pos t_rot vx vy vz qx qy qz qw]. f_equal; ring.
Qed.
Theorem C85_position_refuted : exists l, Forall proper l /\ b_type (after tr_id l) = Static /\
  b_comw (after tr_id l) = V3 1 0 0 /\ b_cpos (after tr_id l) = V3 0 0 0 /\ forall s, b_cpos (step s (after tr_id l)) = V3 0 0 0.
Proof.
  exists offset. destruct offset_facts as (T & C & X). pose proof (body_ok_after tr_id offset id_unit offset_proper) as B. splits; auto using offset_proper.
  intros s. destruct (static_keeps s _ B T) as [_ E]. now rewrite E.
Qed.
Example C85_example : forall t, b_type (after t [SetType Static]) = Static /\ b_com (after t [SetType Static]) = V3 0 0 0.
Proof. intros t. split; ev; reflexivity. Qed.

(** * C86 *)
Theorem C86_colliders_follow : forall t l, unit_rotation t -> Forall proper l ->
  Forall (fun c => c_world c = tr_mul (b_tr (after t l)) (c_local c)) (b_cols (after t l)).
Proof. intros t l U P. apply (body_ok_after t l U P). Qed.
Example C86_example : forall t, length (b_cols (after t [AddCollider 1 1 (fun _ => V3 1 1 1) tr_id; SetTransform t])) = 1%nat.
Proof. intros t. ev. reflexivity. Qed.

(** * C64 *)
(** Inactive bodies whose type was only changed while they were active do not move. *)
Definition disabled_ok (b : body) : Prop := (b_active b = false \/ b_sleeping b = true \/ b_type b = Static) -> b_disabled b = true.
Lemma disabled_sleep v b : disabled_ok b -> disabled_ok (set_is_sleeping v b).
Proof.
  unfold disabled_ok. intros H. unfold set_is_sleeping, is_static. destruct (b_sleeping b) eqn:S, v, (b_type b) eqn:T, (b_active b) eqn:A; bs; rewrite ?S, ?T, ?A;
    intros X; try reflexivity; try (apply H; intuition congruence); intuition congruence.
Qed.
Lemma disabled_ok_apply o b : (forall t, o = SetType t -> b_active b = true) -> disabled_ok b -> disabled_ok (apply o b).
Proof.
  intros A H. destruct o.
  1: { specialize (A t eq_refl). unfold disabled_ok in *. cbn [apply]. unfold set_type_of, set_is_sleeping, is_static.
       destruct b as [bt mass im ine iine iw com comw tr v w f tq ld ad gr ll al sl ac di cv cw sv sw cp cr cols]. bs. subst ac.
       destruct bt, t, sl, di; bs; intros X; try reflexivity; try (apply H; tauto); intuition congruence. }
  all: try (unfold disabled_ok in *; crunch; assumption).
  all: clear A.
  all: try (cbn [apply]; unfold set_transform, set_linear_velocity, set_angular_velocity, place_colliders, local_force_at_com, local_force_at_world, local_force_at_local,
      local_torque, world_force_at_com, world_force_at_world, world_force_at_local, world_torque, awake, move_collider, change_collider, shift_velocity;
      repeat bcase; unfold disabled_ok in *; bs; try assumption; match goal with |- context [set_is_sleeping ?v ?c] =>
        let K := fresh in pose proof (disabled_sleep v c) as K; unfold disabled_ok in K; apply K; bs; assumption end).
  - cbn [apply]. unfold set_is_active. destruct (Bool.eqb (b_active b) a) eqn:E; [assumption |].
    destruct a; cbn [negb].
    + assert (K : set_is_sleeping false b = b).
      { unfold set_is_sleeping. destruct (b_active b); [discriminate |]. cbn [negb]. destruct (Bool.eqb (b_sleeping b) false), (is_static b); reflexivity. }
      rewrite K. unfold disabled_ok in *. bs. intros X. apply H. destruct (b_active b); [discriminate | tauto].
    + unfold disabled_ok in *. unfold set_is_sleeping, is_static. destruct (b_active b); [| discriminate].
      destruct (b_sleeping b) eqn:S, (b_type b) eqn:T; bs; rewrite ?S, ?T; intros _; try reflexivity; apply H; tauto.
  - cbn [apply]. unfold disabled_ok. destruct (b_disabled b) eqn:D; [rewrite (step_disabled s b D) | rewrite (step_enabled s b D)]; unfold settle.
    + destruct (s_sleep s); [| unfold touched; bs; exact H].
      assert (K : disabled_ok (set_is_sleeping true (touched s b))) by (apply disabled_sleep; unfold disabled_ok, touched; bs; exact H).
      unfold disabled_ok in K. bs. exact K.
    + destruct (s_sleep s); [| unfold moved; bs; exact H].
      assert (K : disabled_ok (set_is_sleeping true (moved s b))) by (apply disabled_sleep; unfold disabled_ok, moved; bs; exact H).
      unfold disabled_ok in K. bs. exact K.
Qed.
Theorem C64_inactive_not_moved_partial : forall t l s, types_while_active l (create t) -> b_active (after t l) = false ->
  b_tr (step s (after t l)) = b_tr (after t l) /\ b_comw (step s (after t l)) = b_comw (after t l).
Proof.
  intros t l s T A.
  assert (G : forall l b, types_while_active l b -> disabled_ok b -> disabled_ok (run l b)).
  { clear. induction l as [| o l IH]; intros b T H; [exact H |]. destruct T as [T T']. cbn [run fold_left]. apply IH; [exact T' |].
    apply disabled_ok_apply; [| exact H]. intros t ->. exact T. }
  assert (D : disabled_ok (after t l)).
  { apply G; [exact T |]. unfold disabled_ok, create. bs. intuition congruence. }
  specialize (D (or_introl A)). revert D. generalize (after t l). clear. intros b D. rewrite step_disabled by exact D.
  unfold settle, set_is_sleeping, touched. bs. repeat (bcase; bs); split; reflexivity.
Qed.
(** Changing the type of an inactive body puts it back into the simulation: it falls. *)
Definition revived : list bop := [SetIsActive false; SetType Kinematic; SetType Dynamic].
Lemma revived_facts c : c = after tr_id revived -> b_active c = false /\ b_disabled c = false /\ b_comw c = V3 0 0 0 /\
  b_v c = vzero /\ b_ldamp c = 0 /\ b_imass c = 1 / 1 /\ b_mass c = 1 /\ b_llock c = V3 1 1 1 /\ b_force c = vzero /\ b_grav c = true.
Proof. intros ->. unfold revived. ev. bs. splits; reflexivity. Qed.
Theorem C64_revived_refuted : exists l s, proper (Update s) /\ b_active (after tr_id l) = false /\ b_comw (after tr_id l) = V3 0 0 0 /\
  b_comw (step s (after tr_id l)) = V3 0 (-10) 0.
Proof.
  exists revived, (free_step 1 (Some (V3 0 (-10) 0))). destruct (revived_facts _ eq_refl) as (A & D & C & V & L & I & M & K & F & G).
  splits; [cbn; lra | exact A | exact C |]. revert D C V L I M K F G. generalize (after tr_id revived). clear. intros b D C V L I M K F G.
  rewrite step_enabled by exact D. unfold settle, moved. cbn [s_sleep free_step]. bs. unfold step_pose. cbn [i_corr s_imp free_step no_impulses fold_left fst s_dt].
  unfold step_cv, step_sv, push_v, free_v. cbn [s_imp s_g s_dt free_step i_p i_sp no_impulses split_factor s_split].
  rewrite C, V, L, I, M, K, F, G. unfold damped, vadd, vmul, vscale, vzero. cbn [vx vy vz]. f_equal; field.
Qed.
Example C64_inactive_example : forall t, types_while_active [SetType Kinematic; SetIsActive false; SetLinearVelocity (V3 1 0 0)] (create t) /\
  b_active (after t [SetType Kinematic; SetIsActive false; SetLinearVelocity (V3 1 0 0)]) = false.
Proof. intros t. split; [repeat split | ev; reflexivity]. Qed.

Print Assumptions C57_mass.
Print Assumptions C57_center.
Print Assumptions C57_order.
Print Assumptions C57_inertia_partial.
Print Assumptions C57_inertia_refuted.
Print Assumptions C81_set_center_of_mass.
Print Assumptions C81_mass_properties_partial.
Print Assumptions C81_kinematic_refuted.
Print Assumptions C82_velocities_partial.
Print Assumptions C82_teleport_refuted.
Print Assumptions C83_unit_orientation.
Print Assumptions C83_motion.
Print Assumptions C84_static_velocity_partial.
Print Assumptions C84_stale_velocity_refuted.
Print Assumptions C85_orientation.
Print Assumptions C85_position_partial.
Print Assumptions C85_position_refuted.
Print Assumptions C86_colliders_follow.
Print Assumptions C64_inactive_not_moved_partial.
Print Assumptions C64_revived_refuted.
