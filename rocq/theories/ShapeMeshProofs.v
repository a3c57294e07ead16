(** Proofs about triangles, convex meshes and the conversion between local and world space. *)
From Coq Require Import Reals Lra Lia Psatz List Bool.
From Verif Require Import Base VecModel VecProofs GeomModel GeomSpec GeomProofs ShapeModel ShapeSpec ShapeProofs ShapeCastProofs.
Import ListNotations.
Local Open Scope R_scope.

(** ** Triangles *)
Definition tU (b c p1 pq : vec3) : R := vdot (vsub b p1) (vcross pq (vsub c p1)).
Definition tV (a c p1 pq : vec3) : R := - vdot (vsub a p1) (vcross pq (vsub c p1)).
Definition tW (a b p1 pq : vec3) : R := vdot (vsub a p1) (vcross pq (vsub b p1)).
Definition tri_normal (a b c : vec3) : vec3 := vcross (vsub b a) (vsub c a).
Definition mix3 (a b c : vec3) (u v w : R) : vec3 := V3 (u * vx a + v * vx b + w * vx c) (u * vy a + v * vy b + w * vy c) (u * vz a + v * vz b + w * vz c).
Lemma tri_sum a b c p1 pq : tU b c p1 pq + tV a c p1 pq + tW a b p1 pq = - vdot pq (tri_normal a b c).
Proof. unfold tU, tV, tW, tri_normal. vring. Qed.
Lemma dot_cross_zero p q : vdot (vcross vzero p) q = 0.
Proof. vring. Qed.
Lemma tri_rel1 pa pb pc pq u v w k :
  u * vdot pa (vcross pq pb) - w * vdot pb (vcross pq pc) = vdot (vcross (vsub (vadd (vadd (vscale u pa) (vscale v pb)) (vscale w pc)) (vscale k pq)) pq) pb.
Proof. vring. Qed.
Lemma tri_rel2 pa pb pc pq u v w k :
  u * - vdot pa (vcross pq pc) - v * vdot pb (vcross pq pc) = - vdot (vcross (vsub (vadd (vadd (vscale u pa) (vscale v pb)) (vscale w pc)) (vscale k pq)) pq) pc.
Proof. vring. Qed.
Lemma tri_rel3 pa pb pc pq u v w k :
  v * vdot pa (vcross pq pb) - w * - vdot pa (vcross pq pc) = - vdot (vcross (vsub (vadd (vadd (vscale u pa) (vscale v pb)) (vscale w pc)) (vscale k pq)) pq) pa.
Proof. vring. Qed.
(** Barycentric coordinates of a point of the line are proportional to the three products. *)
Lemma tri_coordinates a b c p1 pq u v w k : u + v + w = 1 -> mix3 a b c u v w = vadd p1 (vscale k pq) ->
  let D := tU b c p1 pq + tV a c p1 pq + tW a b p1 pq in
  tU b c p1 pq = u * D /\ tV a c p1 pq = v * D /\ tW a b p1 pq = w * D.
Proof.
  intros Hs E.
  assert (E0 : vsub (vadd (vadd (vscale u (vsub a p1)) (vscale v (vsub b p1))) (vscale w (vsub c p1))) (vscale k pq) = vzero).
  { assert (H : vadd (vadd (vscale u (vsub a p1)) (vscale v (vsub b p1))) (vscale w (vsub c p1)) = vsub (mix3 a b c u v w) p1).
    { replace w with (1 - u - v) by lra. unfold mix3. vring. }
    rewrite H, E. vring. }
  pose proof (tri_rel1 (vsub a p1) (vsub b p1) (vsub c p1) pq u v w k) as F1.
  pose proof (tri_rel2 (vsub a p1) (vsub b p1) (vsub c p1) pq u v w k) as F2.
  pose proof (tri_rel3 (vsub a p1) (vsub b p1) (vsub c p1) pq u v w k) as F3.
  rewrite E0, dot_cross_zero in F1, F2, F3. fold (tU b c p1 pq) in *. fold (tV a c p1 pq) in *. fold (tW a b p1 pq) in *.
  generalize dependent (tU b c p1 pq). generalize dependent (tV a c p1 pq). generalize dependent (tW a b p1 pq). intros W V F3 U F1 F2.
  cbv zeta. assert (Eu : u = 1 - v - w) by lra. rewrite Eu in *. splits; lra.
Qed.
Lemma tri_cramer pa pb pc pq :
  vadd (vadd (vscale (vdot pb (vcross pq pc)) pa) (vscale (- vdot pa (vcross pq pc)) pb)) (vscale (vdot pa (vcross pq pb)) pc) =
  vscale (- vdot pa (vcross pb pc)) pq.
Proof. vring. Qed.
Lemma tri_point a b c D U V W : D <> 0 ->
  vadd (vadd (vscale (U * (1 / D)) a) (vscale (V * (1 / D)) b)) (vscale (W * (1 / D)) c) = mix3 a b c (U / D) (V / D) (W / D).
Proof. intros HD. unfold mix3. dv. unfold vadd, vscale. cbn [vx vy vz]. compw; field; exact HD. Qed.
Lemma tri_offset a b c p1 U V W : U + V + W <> 0 ->
  vsub (mix3 a b c (U / (U + V + W)) (V / (U + V + W)) (W / (U + V + W))) p1 =
  vscale (1 / (U + V + W)) (vadd (vadd (vscale U (vsub a p1)) (vscale V (vsub b p1))) (vscale W (vsub c p1))).
Proof. intros HD. unfold mix3. dv. unfold vsub, vadd, vscale. cbn [vx vy vz]. compw; field; exact HD. Qed.
Lemma vadd_vsub p q : vadd q (vsub p q) = p.
Proof. vring. Qed.
Lemma vscale_vscale x z p : vscale x (vscale z p) = vscale (x * z) p.
Proof. vring. Qed.
Lemma tri_on_line a b c p1 pq : let D := tU b c p1 pq + tV a c p1 pq + tW a b p1 pq in D <> 0 -> pq <> vzero ->
  let p := mix3 a b c (tU b c p1 pq / D) (tV a c p1 pq / D) (tW a b p1 pq / D) in
  p = vadd p1 (vscale (vdot (vsub p p1) pq / vlen2 pq) pq).
Proof.
  intros D HD Hq p.
  assert (L : vsub p p1 = vscale (1 / D * - vdot (vsub a p1) (vcross (vsub b p1) (vsub c p1))) pq).
  { unfold p, D. rewrite tri_offset by exact HD. unfold tU at 2, tV at 2, tW at 2. rewrite tri_cramer. apply vscale_vscale. }
  set (z := 1 / D * - vdot (vsub a p1) (vcross (vsub b p1) (vsub c p1))) in *. clearbody z.
  rewrite <- (vadd_vsub p p1) at 1. f_equal. rewrite L. f_equal. rewrite vdot_vscale_l, <- vlen2_dot. field.
  intros Z. now apply Hq, vlen2_zero.
Qed.
Lemma tri_plane a b c u v w : u + v + w = 1 -> vdot (vsub (mix3 a b c u v w) a) (tri_normal a b c) = 0.
Proof. intros H. replace w with (1 - u - v) by lra. unfold mix3, tri_normal. vring. Qed.
Lemma line_plane a p1 pq n k : vdot (vsub (vadd p1 (vscale k pq)) a) n = vdot (vsub p1 a) n + k * vdot pq n.
Proof. vring. Qed.
Lemma tri_param_unique a b c p1 pq k k' u v w u' v' w' : vdot pq (tri_normal a b c) <> 0 -> u + v + w = 1 -> u' + v' + w' = 1 ->
  mix3 a b c u v w = vadd p1 (vscale k pq) -> mix3 a b c u' v' w' = vadd p1 (vscale k' pq) -> k = k'.
Proof.
  intros HD H1 H2 E1 E2.
  pose proof (tri_plane a b c _ _ _ H1) as A1. pose proof (tri_plane a b c _ _ _ H2) as A2.
  rewrite E1, line_plane in A1. rewrite E2, line_plane in A2. assert (H : (k - k') * vdot pq (tri_normal a b c) = 0) by lra.
  apply Rmult_integral in H as [H|H]; [lra|contradiction].
Qed.
(** The signs accepted by the code. *)
Lemma tri_signs s U V W : let D := U + V + W in D <> 0 -> (s = Front -> 0 < D) -> (s = Back -> D < 0) ->
  (s = FrontAndBack -> U = 0 -> 0 <= W / D <= 1) ->
  side_rejects s U U = false -> side_rejects s U V = false -> side_rejects s U W = false -> 0 <= U / D /\ 0 <= V / D /\ 0 <= W / D.
Proof.
  intros D HD HF HB HE E1 E2 E3.
  assert (DD : 0 < D * D) by (destruct (Rtotal_order D 0) as [H|[H|H]]; [|contradiction|]; nra).
  assert (Q : forall x, x / D = x * D * / (D * D)) by (intros; field; exact HD).
  assert (PD : 0 < / (D * D)) by (now apply Rinv_0_lt_compat).
  assert (X : 0 <= U * D /\ 0 <= V * D /\ 0 <= W * D).
  { unfold side_rejects in *. destruct s.
    - specialize (HF eq_refl). apply rlt_false in E1, E2, E3. splits; apply Rmult_le_pos; lra.
    - specialize (HB eq_refl). apply rlt_false in E1, E2, E3. splits; nra.
    - apply negb_false_iff in E2, E3. unfold same_sign in *. apply rle_true in E2, E3.
      destruct (Req_dec U 0) as [Z|Z].
      + specialize (HE eq_refl Z). assert (EV : V / D = 1 - W / D) by (assert (V = D - W) by (unfold D; lra); rewrite H; field; exact HD).
        assert (V * D = V / D * (D * D)) by (field; exact HD). assert (W * D = W / D * (D * D)) by (field; exact HD).
        rewrite H, H0, Z. splits; [lra| |]; apply Rmult_le_pos; lra.
      + assert (UU : 0 < U * U) by nra. assert (UD : 0 <= U * D) by (unfold D; nra). splits; [exact UD| |].
        * apply (Rmult_le_reg_l (U * U)); [exact UU|]. replace (U * U * (V * D)) with (U * V * (U * D)) by ring. rewrite Rmult_0_r. now apply Rmult_le_pos.
        * apply (Rmult_le_reg_l (U * U)); [exact UU|]. replace (U * U * (W * D)) with (U * W * (U * D)) by ring. rewrite Rmult_0_r. now apply Rmult_le_pos. }
  rewrite !Q. splits; apply Rmult_le_pos; lra.
Qed.
(** Non-negative coordinates are never rejected. *)
Lemma side_ok s D x0 x : 0 <= x0 -> 0 <= x -> (s = Front -> 0 < D) -> (s = Back -> D < 0) -> side_rejects s (x0 * D) (x * D) = false.
Proof.
  intros H0 H1 HF HB. unfold side_rejects. destruct s.
  - specialize (HF eq_refl). apply rlt_false. nra.
  - specialize (HB eq_refl). apply rlt_false. nra.
  - apply negb_false_iff. unfold same_sign. apply rle_true.
    replace (x0 * D * (x * D)) with (x0 * x * (D * D)) by ring. apply Rmult_le_pos; [now apply Rmult_le_pos|apply Rle_0_sqr].
Qed.
Lemma approx_all eps U V W : (approx_equal eps U 0 && approx_equal eps V 0 && approx_equal eps W 0)%bool = true -> Rabs (U + V + W) < 3 * eps.
Proof.
  intros E. rewrite !andb_true_iff in E. destruct E as ((A1 & A2) & A3). unfold approx_equal in *.
  apply rlt_true in A1. apply rlt_true in A2. apply rlt_true in A3. rewrite Rminus_0_r in *.
  apply Rabs_def2 in A1. apply Rabs_def2 in A2. apply Rabs_def2 in A3. apply Rabs_def1; lra.
Qed.
Lemma triangle_cast_ok eps a b c y s : 0 < eps -> eps <= vlen (tri_normal a b c) -> triangle_exact eps a b c y s ->
  match triangle_cast eps s a b c y with Some h => triangle_hit a b c y h | None => misses_closed (triangle_set a b c) y end.
Proof.
  intros Heps Hbig Ha. unfold triangle_exact in Ha. unfold misses_closed, triangle_hit.
  assert (Hray : forall k, ray_at y k = vadd (ray_p1 y) (vscale k (vsub (ray_p2 y) (ray_p1 y)))) by (intros; apply ray_at_eq).
  unfold triangle_cast. generalize dependent (vsub (ray_p2 y) (ray_p1 y)). intros pq Ha Hray. generalize dependent (ray_p1 y). intros p1 Hray.
  cbv zeta. fold (tU b c p1 pq). fold (tV a c p1 pq). fold (tW a b p1 pq). fold (tri_normal a b c) in *.
  pose proof (tri_sum a b c p1 pq) as HS.
  assert (HD : vdot pq (tri_normal a b c) <> 0).
  { intros Z. rewrite Z in Ha. destruct s; [lra|lra|]. rewrite Rabs_R0 in Ha. lra. }
  assert (Hq : pq <> vzero) by (intros Z; apply HD; rewrite Z; generalize (tri_normal a b c); intros; vring).
  assert (Hmem : forall k, triangle_set a b c (ray_at y k) -> exists u v w, 0 <= u /\ 0 <= v /\ 0 <= w /\ u + v + w = 1 /\
    mix3 a b c u v w = vadd p1 (vscale k pq) /\ tU b c p1 pq = u * (tU b c p1 pq + tV a c p1 pq + tW a b p1 pq) /\
    tV a c p1 pq = v * (tU b c p1 pq + tV a c p1 pq + tW a b p1 pq) /\ tW a b p1 pq = w * (tU b c p1 pq + tV a c p1 pq + tW a b p1 pq)).
  { intros k (u & v & w & Hu & Hv & Hw & Hs & E). rewrite Hray in E.
    destruct (tri_coordinates a b c p1 pq u v w k Hs (eq_sym E)) as (A & B & C).
    exists u, v, w. splits; auto. }
  pose proof (tri_on_line a b c p1 pq) as El. cbv zeta in El.
  generalize dependent (tU b c p1 pq). generalize dependent (tV a c p1 pq). generalize dependent (tW a b p1 pq). intros W V U HS Hmem El.
  assert (HD' : U + V + W <> 0) by lra. specialize (El HD' Hq).
  assert (SF : s = Front -> 0 < U + V + W) by (intros ->; lra). assert (SB : s = Back -> U + V + W < 0) by (intros ->; lra).
  destruct (side_rejects s U U) eqn:E1.
  { intros k Hk X. destruct (Hmem k X) as (u & v & w & Hu & Hv & Hw & Hs & E & EU & EV & EW).
    pose proof (side_ok s _ u u Hu Hu SF SB) as Q. rewrite <- EU in Q. congruence. }
  destruct (side_rejects s U V) eqn:E2.
  { intros k Hk X. destruct (Hmem k X) as (u & v & w & Hu & Hv & Hw & Hs & E & EU & EV & EW).
    pose proof (side_ok s _ u v Hu Hv SF SB) as Q. rewrite <- EU, <- EV in Q. congruence. }
  destruct (side_rejects s U W) eqn:E3.
  { intros k Hk X. destruct (Hmem k X) as (u & v & w & Hu & Hv & Hw & Hs & E & EU & EV & EW).
    pose proof (side_ok s _ u w Hu Hw SF SB) as Q. rewrite <- EU, <- EW in Q. congruence. }
  destruct (approx_equal eps U 0 && approx_equal eps V 0 && approx_equal eps W 0)%bool eqn:E4.
  { exfalso. apply approx_all in E4. rewrite HS in E4. rewrite Rabs_Ropp in E4. destruct s.
    - pose proof (Rle_abs (- vdot pq (tri_normal a b c))) as Q. rewrite Rabs_Ropp in Q. lra.
    - pose proof (Rle_abs (vdot pq (tri_normal a b c))). lra.
    - lra. }
  rewrite !tri_point by exact HD'.
  set (p := mix3 a b c (U / (U + V + W)) (V / (U + V + W)) (W / (U + V + W))) in *.
  set (f := vdot (vsub p p1) pq / vlen2 pq) in *.
  assert (Hsum : U / (U + V + W) + V / (U + V + W) + W / (U + V + W) = 1) by (field; exact HD').
  assert (HE : s = FrontAndBack -> U = 0 -> 0 <= W / (U + V + W) <= 1).
  { intros -> Z. destruct Ha as [_ Hedge]. apply (Hedge f). rewrite Hray, <- El. unfold p.
    assert (Q : V / (U + V + W) = 1 - W / (U + V + W)) by (rewrite <- Hsum, Z; unfold Rdiv; ring). rewrite Q.
    assert (Q0 : U / (U + V + W) = 0) by (rewrite Z; unfold Rdiv; ring). rewrite Q0.
    rewrite lerp_eq. generalize (W / (U + V + W)). intros w0. unfold mix3. vring. }
  destruct (tri_signs s U V W HD' SF SB HE E1 E2 E3) as (S1 & S2 & S3).
  assert (Tp : triangle_set a b c p).
  { exists (U / (U + V + W)), (V / (U + V + W)), (W / (U + V + W)). splits; auto. }
  assert (Uniq : forall k, triangle_set a b c (ray_at y k) -> k = f).
  { intros k X. destruct (Hmem k X) as (u & v & w & Hu & Hv & Hw & Hs & E & _).
    apply (tri_param_unique a b c p1 pq k f u v w (U / (U + V + W)) (V / (U + V + W)) (W / (U + V + W))); auto. }
  clearbody f p.
  destruct (rlt f 0) eqn:E5; [apply rlt_true in E5 | apply rlt_false in E5]; cbn [orb].
  { intros k Hk X. apply Uniq in X. lra. }
  destruct (rlt (ray_max y) f) eqn:E6; [apply rlt_true in E6 | apply rlt_false in E6].
  { intros k Hk X. apply Uniq in X. lra. }
  assert (O1 : vdot (tri_normal a b c) (vsub b a) = 0) by (unfold tri_normal; vring).
  assert (O2 : vdot (tri_normal a b c) (vsub c a) = 0) by (unfold tri_normal; vring).
  rewrite vdot_comm in HD. generalize dependent (tri_normal a b c). intros n Hbig Ha HS HD O1 O2.
  assert (En : vnormalize eps n = vscale (1 / vlen n) n).
  { unfold vnormalize. destruct (rlt (vlen n) eps) eqn:C; [apply rlt_true in C; lra|]. unfold vdiv, vscale. compw; unfold Rdiv; ring. }
  assert (Hl : 0 < vlen n) by lra. assert (Hi : 0 < 1 / vlen n) by (apply Rdiv_lt_0_compat; lra).
  assert (HL : vlen (vscale (1 / vlen n) n) = 1) by (rewrite vlen_vscale, Rabs_pos_eq by lra; field; lra).
  cbn [hit_fraction hit_point hit_normal]. rewrite En, vdot_vscale_l.
  destruct (rlt 0 (1 / vlen n * vdot n pq)) eqn:E7; [apply rlt_true in E7 | apply rlt_false in E7].
  - splits; try assumption.
    + now rewrite Hray.
    + now rewrite vlen_vneg.
    + rewrite vdot_vneg_l, vdot_vscale_l, O1. ring.
    + rewrite vdot_vneg_l, vdot_vscale_l, O2. ring.
    + rewrite vdot_vneg_l, vdot_vscale_l. lra.
  - splits; try assumption.
    + now rewrite Hray.
    + rewrite vdot_vscale_l, O1. ring.
    + rewrite vdot_vscale_l, O2. ring.
    + rewrite vdot_vscale_l. assert (1 / vlen n * vdot n pq <> 0) by (apply Rmult_integral_contrapositive_currified; lra). lra.
Qed.
(** Rays that do not come from the side that is tested. *)
Lemma triangle_cast_wrong_side eps a b c y : 0 < eps ->
  let k := vdot (vsub (ray_p2 y) (ray_p1 y)) (tri_normal a b c) in
  (0 <= k -> triangle_cast eps Front a b c y = None) /\ (k <= 0 -> triangle_cast eps Back a b c y = None).
Proof.
  intros Heps. cbv zeta. unfold triangle_cast. generalize (vsub (ray_p2 y) (ray_p1 y)). intros pq. generalize (ray_p1 y). intros p1.
  cbv zeta. fold (tU b c p1 pq). fold (tV a c p1 pq). fold (tW a b p1 pq). cbn [side_rejects].
  pose proof (tri_sum a b c p1 pq) as HS.
  generalize dependent (tU b c p1 pq). generalize dependent (tV a c p1 pq). generalize dependent (tW a b p1 pq). intros W V U HS.
  assert (Z : forall x, x = 0 -> approx_equal eps x 0 = true).
  { intros x ->. unfold approx_equal. apply rlt_true. rewrite Rminus_0_r, Rabs_R0. exact Heps. }
  split; intros H.
  - destruct (rlt U 0) eqn:E1; [reflexivity|]. destruct (rlt V 0) eqn:E2; [reflexivity|]. destruct (rlt W 0) eqn:E3; [reflexivity|].
    apply rlt_false in E1, E2, E3. rewrite !Z by lra. reflexivity.
  - destruct (rlt 0 U) eqn:E1; [reflexivity|]. destruct (rlt 0 V) eqn:E2; [reflexivity|]. destruct (rlt 0 W) eqn:E3; [reflexivity|].
    apply rlt_false in E1, E2, E3. rewrite !Z by lra. reflexivity.
Qed.

(** ** Convex meshes *)
Lemma vdot_uniform d v k : vdot d (vmul v (V3 k k k)) = k * vdot d v.
Proof. vring. Qed.
(** The scan finds the first vertex of largest projection. *)
Lemma support_scan_max d all : forall vs done best mx, all = done ++ vs ->
  (done = [] /\ (forall v, In v all -> mx < vdot d v) \/
   (best < length done)%nat /\ vdot d (nth best all vzero) = mx /\ forall v, In v done -> vdot d v <= mx) ->
  all <> [] ->
  let r := support_scan d vs (length done) best mx in
  (r < length all)%nat /\ forall v, In v all -> vdot d v <= vdot d (nth r all vzero).
Proof.
  induction vs as [|v vs IH]; intros done best mx E H Hn; cbn [support_scan].
  - rewrite app_nil_r in E. subst done. destruct H as [[-> _]|(H1 & H2 & H3)]; [congruence|]. split; [exact H1|]. rewrite H2. exact H3.
  - assert (E' : all = (done ++ [v]) ++ vs) by now rewrite <- app_assoc.
    assert (Hlen : length (done ++ [v]) = S (length done)) by (rewrite app_length; cbn; lia).
    assert (Hv : nth (length done) all vzero = v) by (rewrite E, app_nth2 by lia; now rewrite Nat.sub_diag).
    destruct (rlt mx (vdot d v)) eqn:C; [apply rlt_true in C | apply rlt_false in C].
    + rewrite <- Hlen. apply IH; auto. right. rewrite Hv. splits; [lia|auto|].
      intros q Hq. apply in_app_iff in Hq as [Hq|[->|[]]]; [|lra].
      destruct H as [[-> _]|(_ & _ & H3)]; [destruct Hq|]. specialize (H3 q Hq). lra.
    + rewrite <- Hlen. apply IH; auto. right. destruct H as [[_ H]|(H1 & H2 & H3)].
      * exfalso. specialize (H v). rewrite E in H. rewrite in_app_iff in H. cbn in H. lra || (assert (mx < vdot d v) by auto; lra).
      * splits; [lia|auto|]. intros q Hq. apply in_app_iff in Hq as [Hq|[->|[]]]; auto.
Qed.
Lemma hull_bound vs d m : (forall v, In v vs -> vdot d v <= m) -> forall p, hull vs p -> vdot d p <= m.
Proof.
  intros H p Hp. induction Hp as [v Hv|p q r Hp IHp Hq IHq (t & Ht & ->)]; [auto|].
  replace (vdot d (lerp p q t)) with ((1 - t) * vdot d p + t * vdot d q) by (unfold lerp; vring). nra.
Qed.
Lemma cmesh_support_ok big m k d : 0 < k -> cm_vertices m <> [] -> (forall v, In v (cm_vertices m) -> - big < vdot d v) ->
  is_support (hull (map (fun v => V3 (vx v * k) (vy v * k) (vz v * k)) (cm_vertices m))) d (cmesh_support0 big m (V3 k k k) d).
Proof.
  intros Hk Hn Hb. unfold cmesh_support0, cm_vertex.
  destruct (support_scan_max d (cm_vertices m) (cm_vertices m) [] 0%nat (- big) eq_refl) as [Hr Hm]; [left; auto|exact Hn|].
  cbn [length] in *. set (r := support_scan d (cm_vertices m) 0 0 (- big)) in *. clearbody r.
  split.
  - apply hull_vertex. apply in_map_iff. exists (nth r (cm_vertices m) vzero). split; [reflexivity|now apply nth_In].
  - intros p Hp. set (mx := nth r (cm_vertices m) vzero) in *. clearbody mx.
    assert (B : vdot d p <= vdot d (vmul mx (V3 k k k))).
    { revert p Hp. apply hull_bound. intros v Hv. apply in_map_iff in Hv as (v' & <- & Hv'). specialize (Hm v' Hv').
      change (V3 (vx v' * k) (vy v' * k) (vz v' * k)) with (vmul v' (V3 k k k)). rewrite !vdot_uniform. nra. }
    rewrite (vdot_comm d p), (vdot_comm d) in B. exact B.
Qed.

Definition code_planes (m : cmesh) (scale : vec3) (fs : list (vec3 * nat)) : list (vec3 * vec3) :=
  map (fun f => (cm_vertex m (snd f), scaled_normal scale (fst f))) fs.
Lemma plane_param y fp n u : offset fp n (ray_at y u) = u * vdot n (vsub (ray_p2 y) (ray_p1 y)) - (vdot n fp - vdot n (ray_p1 y)).
Proof. rewrite ray_at_eq. generalize (ray_p1 y) (ray_p2 y). intros p1 p2. unfold offset. vring. Qed.
Lemma ray_at_0 y : ray_at y 0 = ray_p1 y.
Proof. rewrite ray_at_eq. generalize (ray_p1 y) (ray_p2 y). intros p1 p2. vring. Qed.
Section Mesh.
Variables (m : cmesh) (scale : vec3) (y : ray).
Definition mesh_inv (P : list (vec3 * vec3)) (st : R * R * option vec3) : Prop :=
  let '(tmin, tmax, found) := st in
  0 <= tmin <= tmax /\ tmax <= ray_max y /\
  (forall u, 0 <= u <= ray_max y -> (behind_all P (ray_at y u) <-> tmin <= u <= tmax)) /\
  match found with None => tmin = 0 | Some n => exists fp, In (fp, n) P /\ offset fp n (ray_at y tmin) = 0 end.
Lemma behind_all_app P Q p : behind_all (P ++ Q) p <-> behind_all P p /\ behind_all Q p.
Proof. unfold behind_all. apply Forall_app. Qed.
Lemma behind_one fp n p : behind_all [(fp, n)] p <-> offset fp n p <= 0.
Proof. unfold behind_all. split; [intros H; now inversion H|intros H; constructor; auto]. Qed.
Lemma cmesh_face_ok f P st : mesh_inv P st ->
  match cmesh_face m scale y f st with
  | Some st' => mesh_inv (P ++ code_planes m scale [f]) st'
  | None => forall u, 0 <= u <= ray_max y -> ~ behind_all (P ++ code_planes m scale [f]) (ray_at y u)
  end.
Proof.
  intros I. destruct st as [[tmin tmax] found]. unfold cmesh_face, code_planes. cbn [map].
  set (n := scaled_normal scale (fst f)). set (fp := cm_vertex m (snd f)). clearbody n fp.
  pose proof (plane_param y fp n) as PP.
  generalize dependent (vdot n (vsub (ray_p2 y) (ray_p1 y))). intros k PP. generalize dependent (vdot n fp - vdot n (ray_p1 y)). intros e PP.
  unfold mesh_inv in I. destruct I as (I1 & I2 & I3 & I4).
  assert (Step : forall u, 0 <= u <= ray_max y -> (behind_all (P ++ [(fp, n)]) (ray_at y u) <-> tmin <= u <= tmax /\ u * k <= e)).
  { intros u Hu. rewrite behind_all_app, behind_one, I3, PP by exact Hu. split; intros [A B]; split; lra. }
  assert (Old : match found with None => tmin = 0 | Some n0 => exists fp0, In (fp0, n0) (P ++ [(fp, n)]) /\ offset fp0 n0 (ray_at y tmin) = 0 end).
  { destruct found; [|exact I4]. destruct I4 as (fp0 & A & B). exists fp0. split; [apply in_app_iff; auto|auto]. }
  destruct (req k 0) eqn:C; [apply req_true in C | apply req_false in C].
  { destruct (rlt e 0) eqn:C2; [apply rlt_true in C2 | apply rlt_false in C2].
    - intros u Hu X. apply Step in X; [|exact Hu]. rewrite C in X. lra.
    - unfold mesh_inv. splits; try lra; [|exact Old]. intros u Hu. rewrite (Step u Hu), C. split; intros; [tauto|split; lra]. }
  assert (Et : e / k * k = e) by (field; exact C). set (t := e / k) in *. clearbody t.
  destruct (rlt k 0) eqn:C2; [apply rlt_true in C2 | apply rlt_false in C2].
  - assert (Q : forall u, u * k <= e <-> t <= u) by (intros u; rewrite <- Et; split; intros; nra).
    destruct (rlt tmin t) eqn:C3; [apply rlt_true in C3 | apply rlt_false in C3].
    + destruct (rlt tmax t) eqn:C4; [apply rlt_true in C4 | apply rlt_false in C4].
      * intros u Hu X. apply Step in X; [|exact Hu]. rewrite Q in X. lra.
      * unfold mesh_inv. splits; try lra.
        -- intros u Hu. rewrite (Step u Hu), Q. split; intros; [split; lra|split; [split; lra|lra]].
        -- exists fp. split; [apply in_app_iff; cbn; auto|]. rewrite PP. lra.
    + destruct (rlt tmax tmin) eqn:C4; [apply rlt_true in C4; lra | apply rlt_false in C4].
      unfold mesh_inv. splits; try lra; [|exact Old]. intros u Hu. rewrite (Step u Hu), Q. split; intros; [tauto|split; [tauto|lra]].
  - assert (Hk : 0 < k) by lra. assert (Q : forall u, u * k <= e <-> u <= t) by (intros u; rewrite <- Et; split; intros; nra).
    destruct (rlt t tmax) eqn:C3; [apply rlt_true in C3 | apply rlt_false in C3].
    + destruct (rlt t tmin) eqn:C4; [apply rlt_true in C4 | apply rlt_false in C4].
      * intros u Hu X. apply Step in X; [|exact Hu]. rewrite Q in X. lra.
      * unfold mesh_inv. splits; try lra; [|exact Old].
        intros u Hu. rewrite (Step u Hu), Q. split; intros; [split; lra|split; [split; lra|lra]].
    + destruct (rlt tmax tmin) eqn:C4; [apply rlt_true in C4; lra | apply rlt_false in C4].
      unfold mesh_inv. splits; try lra; [|exact Old]. intros u Hu. rewrite (Step u Hu), Q. split; intros; [tauto|split; [tauto|lra]].
Qed.
Lemma cmesh_faces_ok fs : forall P st, mesh_inv P st ->
  match cmesh_faces m scale y fs st with
  | Some st' => mesh_inv (P ++ code_planes m scale fs) st'
  | None => forall u, 0 <= u <= ray_max y -> ~ behind_all (P ++ code_planes m scale fs) (ray_at y u)
  end.
Proof.
  induction fs as [|f fs IH]; intros P st I; cbn [cmesh_faces].
  - unfold code_planes. cbn [map]. now rewrite app_nil_r.
  - pose proof (cmesh_face_ok f P st I) as F. destruct (cmesh_face m scale y f st) as [st'|]; cbn [obind].
    + specialize (IH _ _ F). unfold code_planes in *. cbn [map] in *. rewrite <- app_assoc in IH. exact IH.
    + intros u Hu X. apply (F u Hu). unfold code_planes in *. cbn [map] in *. 
      change ((cm_vertex m (snd f), scaled_normal scale (fst f)) :: map (fun f => (cm_vertex m (snd f), scaled_normal scale (fst f))) fs)
        with ([(cm_vertex m (snd f), scaled_normal scale (fst f))] ++ map (fun f => (cm_vertex m (snd f), scaled_normal scale (fst f))) fs) in X.
      rewrite app_assoc in X. apply behind_all_app in X. tauto.
Qed.
Lemma outward_plane P fp n p : n <> V3 0 0 0 -> In (fp, n) P -> offset fp n p = 0 -> outward (behind_all P) p n.
Proof.
  intros Hn Hin H0. split; [exact Hn|]. intros q Hq. unfold behind_all in Hq. rewrite Forall_forall in Hq. specialize (Hq _ Hin). cbn [fst snd] in Hq.
  unfold offset in *. lra.
Qed.
Lemma cmesh_cast_code : 0 <= ray_max y -> (forall f, In f (cm_faces m) -> scaled_normal scale (fst f) <> V3 0 0 0) ->
  let S := behind_all (code_planes m scale (cm_faces m)) in
  match cmesh_cast m scale y with
  | Some h => first_hit S y h /\ exists f, In f (cm_faces m) /\ hit_normal h = scaled_normal scale (fst f)
  | None => S (ray_p1 y) \/ misses_closed S y
  end.
Proof.
  intros Hmax Hn S. unfold cmesh_cast.
  assert (I0 : mesh_inv [] (0, ray_max y, None)).
  { unfold mesh_inv. splits; try lra. intros u Hu. split; [tauto|]. intros _. constructor. }
  pose proof (cmesh_faces_ok (cm_faces m) [] _ I0) as F. cbn [app] in F. fold S in F.
  destruct (cmesh_faces m scale y (cm_faces m) (0, ray_max y, None)) as [[[tmin tmax] found]|]; cbn [obind].
  - unfold mesh_inv in F. destruct F as (F1 & F2 & F3 & F4). destruct found as [n|].
    + destruct F4 as (fp & Hin & H0). assert (Hin' := Hin). unfold code_planes in Hin'. apply in_map_iff in Hin' as (f & Ef & Hf).
      injection Ef as E1 E2. split.
      * unfold first_hit. cbn [hit_fraction hit_point hit_normal]. rewrite <- ray_at_eq. splits; try lra; try reflexivity.
        -- apply F3; lra.
        -- intros u Hu X. apply F3 in X; lra.
        -- apply (outward_plane _ fp); auto. rewrite <- E2. now apply Hn.
      * exists f. cbn [hit_normal]. auto.
    + left. subst tmin. assert (X : S (ray_at y 0)) by (apply F3; lra). now rewrite ray_at_0 in X.
  - right. exact F.
Qed.
End Mesh.
Lemma vlen_pos' a : a <> vzero -> 0 < vlen a.
Proof. intros H. apply vlen_pos. intros Z. now apply H, vlen2_zero. Qed.
Lemma scaled_normal_one n : n <> vzero -> scaled_normal (V3 1 1 1) n = vscale (1 / vlen n) n.
Proof.
  intros Hn. unfold scaled_normal. cbn [vx vy vz]. replace (vmul (V3 (1 / 1) (1 / 1) (1 / 1)) n) with n.
  - unfold vdiv, vscale. compw; unfold Rdiv; ring.
  - unfold vmul. destruct n as [n1 n2 n3]. cbn [vx vy vz]. compw; field.
Qed.
Lemma scaled_normal_unit scale n : vx scale <> 0 -> vy scale <> 0 -> vz scale <> 0 -> n <> vzero -> vlen (scaled_normal scale n) = 1.
Proof.
  intros H1 H2 H3 Hn. unfold scaled_normal. set (w := vmul _ n).
  assert (Hw : w <> vzero).
  { intros Z. apply Hn. unfold w, vmul in Z. cbn [vx vy vz] in Z.
    pose proof (f_equal vx Z) as Zx. pose proof (f_equal vy Z) as Zy. pose proof (f_equal vz Z) as Zz. cbn [vx vy vz vzero] in Zx, Zy, Zz.
    apply Rmult_integral in Zx as [Zx|Zx]; [exfalso; unfold Rdiv in Zx; apply Rmult_integral in Zx as [Zx|Zx]; [lra|now apply (Rinv_neq_0_compat (vx scale))]|].
    apply Rmult_integral in Zy as [Zy|Zy]; [exfalso; unfold Rdiv in Zy; apply Rmult_integral in Zy as [Zy|Zy]; [lra|now apply (Rinv_neq_0_compat (vy scale))]|].
    apply Rmult_integral in Zz as [Zz|Zz]; [exfalso; unfold Rdiv in Zz; apply Rmult_integral in Zz as [Zz|Zz]; [lra|now apply (Rinv_neq_0_compat (vz scale))]|].
    destruct n as [n1 n2 n3]. cbn [vx vy vz] in *. now subst. }
  assert (Hl : 0 < vlen w) by now apply vlen_pos'.
  replace (vdiv w (vlen w)) with (vscale (1 / vlen w) w) by (unfold vdiv, vscale; compw; unfold Rdiv; ring).
  rewrite vlen_vscale, Rabs_pos_eq; [field; lra|]. apply Rlt_le, Rdiv_lt_0_compat; lra.
Qed.
Lemma unit_nonzero n : vlen n = 1 -> n <> V3 0 0 0.
Proof. intros H ->. change (V3 0 0 0) with vzero in H. assert (vlen2 vzero = 1) by (rewrite <- vlen_sq, H; ring). revert H0. vunf. cbn [VecModel.vx VecModel.vy VecModel.vz]. lra. Qed.
Lemma scaled_one S p : scaled (V3 1 1 1) S p <-> S p.
Proof.
  unfold scaled. cbn [vx vy vz]. split.
  - intros (q & Hq & ->). rewrite !Rmult_1_r. now destruct q.
  - intros Hp. exists p. rewrite !Rmult_1_r. split; [exact Hp|now destruct p].
Qed.
(** At scale one the planes the code uses bound the mesh. *)
Lemma mesh_planes_one m p : (forall f, In f (cm_faces m) -> fst f <> vzero) ->
  (behind_all (code_planes m (V3 1 1 1) (cm_faces m)) p <-> mesh_set m p).
Proof.
  intros Hn. unfold behind_all, code_planes, mesh_set, behind_all. rewrite !Forall_map, !Forall_forall. cbn [fst snd].
  split; intros H f Hf; specialize (H f Hf); specialize (Hn f Hf); rewrite (scaled_normal_one _ Hn) in * ;
    assert (Hl : 0 < 1 / vlen (fst f)) by (apply Rdiv_lt_0_compat; [lra|now apply vlen_pos']);
    assert (E : offset (cm_vertex m (snd f)) (vscale (1 / vlen (fst f)) (fst f)) p = 1 / vlen (fst f) * offset (cm_vertex m (snd f)) (fst f) p)
      by (unfold offset, vscale; cbn [vx vy vz]; ring); rewrite E in *; nra.
Qed.
Lemma first_hit_ext S T y h : (forall p, S p <-> T p) -> first_hit S y h -> first_hit T y h.
Proof.
  intros E (H1 & H2 & H3 & H4 & H5 & H6). unfold first_hit, outward. splits; auto; try lra.
  - now apply E.
  - intros u Hu X. apply (H4 u Hu). now apply E.
  - intros q Hq. apply H6. now apply E.
Qed.
Lemma cmesh_cast_ok m y : 0 <= ray_max y -> (forall f, In f (cm_faces m) -> fst f <> vzero) ->
  match cmesh_cast m (V3 1 1 1) y with
  | Some h => first_hit (mesh_set m) y h /\ vlen (hit_normal h) = 1
  | None => mesh_set m (ray_p1 y) \/ misses_closed (mesh_set m) y
  end.
Proof.
  intros Hm Hn.
  assert (HU : forall f, In f (cm_faces m) -> vlen (scaled_normal (V3 1 1 1) (fst f)) = 1) by (intros f Hf; apply scaled_normal_unit; cbn [vx vy vz]; try lra; auto).
  pose proof (cmesh_cast_code m (V3 1 1 1) y Hm (fun f Hf => unit_nonzero _ (HU f Hf))) as H. cbv zeta in H.
  destruct (cmesh_cast m (V3 1 1 1) y) as [h|].
  - destruct H as [H (f & Hf & E)]. split; [|rewrite E; auto]. eapply first_hit_ext; [|exact H]. intros p. now apply mesh_planes_one.
  - destruct H as [H|H]; [left; now apply (mesh_planes_one m _ Hn)|right].
    intros u Hu X. apply (H u Hu). now apply (mesh_planes_one m _ Hn).
Qed.
Lemma cmesh_inside_code m scale p : cmesh_inside m scale p = true <-> behind_all (code_planes m scale (cm_faces m)) p.
Proof.
  unfold cmesh_inside, behind_all, code_planes. rewrite forallb_forall, Forall_map, Forall_forall. cbn [fst snd].
  assert (E : forall n fp, vdot n (vsub p fp) = offset fp n p) by (intros; unfold offset; vring).
  split; intros H f Hf; specialize (H f Hf); cbv zeta in *; rewrite E in *.
  - apply negb_true_iff in H. apply rlt_false in H. lra.
  - apply negb_true_iff, rlt_false. lra.
Qed.
Lemma cmesh_inside_ok m p : (forall f, In f (cm_faces m) -> fst f <> vzero) -> (cmesh_inside m (V3 1 1 1) p = true <-> mesh_set m p).
Proof. intros Hn. rewrite cmesh_inside_code. now apply mesh_planes_one. Qed.

(** ** Colliders *)
Lemma tr_point_lerp t a b u : tr_point t (lerp a b u) = lerp (tr_point t a) (tr_point t b) u.
Proof. unfold tr_point. rewrite !lerp_eq. rewrite quat_vec_vadd, quat_vec_vscale, quat_vec_vsub. generalize (quat_vec (t_rot t) a) (quat_vec (t_rot t) b) (t_pos t). intros. vring. Qed.
Lemma ray_local t y u : quat_len2 (t_rot t) = 1 ->
  ray_at y u = tr_point t (ray_at (Ray (tr_point (tr_inverse t) (ray_p1 y)) (tr_point (tr_inverse t) (ray_p2 y)) (ray_max y)) u).
Proof. intros Ht. unfold ray_at. cbn [ray_p1 ray_p2]. now rewrite tr_point_lerp, !tr_inverse_point. Qed.
Lemma tr_point_inj t p q : quat_len2 (t_rot t) = 1 -> tr_point t p = tr_point t q -> p = q.
Proof. intros Ht E. rewrite <- (tr_point_inverse t p Ht), E. now apply tr_point_inverse. Qed.
Lemma moved_point t S p : quat_len2 (t_rot t) = 1 -> (moved t S (tr_point t p) <-> S p).
Proof.
  intros Ht. split; [intros (q & Hq & E)|intros H; now exists p].
  apply tr_point_inj in E; [now subst|exact Ht].
Qed.
Lemma offset_rotated t n p q : quat_len2 (t_rot t) = 1 -> offset (tr_point t p) (quat_vec (t_rot t) n) (tr_point t q) = offset p n q.
Proof.
  intros Ht. rewrite <- !offset_dot. unfold tr_point.
  replace (vsub (vadd (quat_vec (t_rot t) q) (t_pos t)) (vadd (quat_vec (t_rot t) p) (t_pos t))) with (quat_vec (t_rot t) (vsub q p)).
  - rewrite quat_vec_dot, Ht. ring.
  - rewrite quat_vec_vsub. generalize (quat_vec (t_rot t) q) (quat_vec (t_rot t) p) (t_pos t). intros. vring.
Qed.
Lemma vlen_rotated q n : quat_len2 q = 1 -> vlen (quat_vec q n) = vlen n.
Proof. intros Hq. unfold vlen. f_equal. rewrite !vlen2_dot, quat_vec_dot, Hq. ring. Qed.
Lemma normalize_long eps n : eps <= vlen n -> vnormalize eps n = vscale (1 / vlen n) n.
Proof. intros H. unfold vnormalize. destruct (rlt (vlen n) eps) eqn:C; [apply rlt_true in C; lra|]. unfold vdiv, vscale. compw; unfold Rdiv; ring. Qed.
Lemma vlen_normalized eps n : 0 < eps -> eps <= vlen n -> vlen (vnormalize eps n) = 1.
Proof.
  intros He H. rewrite normalize_long by exact H. rewrite vlen_vscale, Rabs_pos_eq; [field; lra|].
  apply Rlt_le, Rdiv_lt_0_compat; lra.
Qed.
Lemma collider_cast_hit eps cast t S y h' : 0 < eps -> quat_len2 (t_rot t) = 1 ->
  let y' := Ray (tr_point (tr_inverse t) (ray_p1 y)) (tr_point (tr_inverse t) (ray_p2 y)) (ray_max y) in
  cast y' = Some h' -> first_hit S y' h' -> eps <= vlen (hit_normal h') ->
  exists h, collider_cast eps cast t y = Some h /\ first_hit (moved t S) y h /\ vlen (hit_normal h) = 1.
Proof.
  intros He Ht y' Ec (H1 & H2 & H3 & H4 & H5 & H6) Hl. unfold collider_cast. fold y'. rewrite Ec. eexists. split; [reflexivity|].
  cbn [hit_normal]. rewrite <- (vlen_rotated (t_rot t)) in Hl by exact Ht. split; [|now apply vlen_normalized].
  unfold first_hit, outward. cbn [hit_fraction hit_point hit_normal]. cbn [ray_max y'] in H1. splits; try lra.
  - rewrite H2. symmetry. now apply ray_local.
  - now apply moved_point.
  - intros u Hu X. rewrite (ray_local t y u Ht), moved_point in X by exact Ht. exact (H4 u Hu X).
  - apply unit_nonzero. now apply vlen_normalized.
  - intros q (q0 & Hq & ->). rewrite normalize_long by exact Hl. set (n := quat_vec (t_rot t) (hit_normal h')) in *.
    assert (E : offset (tr_point t (hit_point h')) (vscale (1 / vlen n) n) (tr_point t q0) = 1 / vlen n * offset (tr_point t (hit_point h')) n (tr_point t q0))
      by (unfold offset, vscale; cbn [vx vy vz]; ring).
    rewrite E. unfold n at 2. rewrite offset_rotated by exact Ht. specialize (H6 q0 Hq).
    assert (0 < 1 / vlen n) by (apply Rdiv_lt_0_compat; lra). nra.
Qed.
Lemma collider_cast_none eps cast t S y : quat_len2 (t_rot t) = 1 ->
  let y' := Ray (tr_point (tr_inverse t) (ray_p1 y)) (tr_point (tr_inverse t) (ray_p2 y)) (ray_max y) in
  cast y' = None -> collider_cast eps cast t y = None /\
  (misses S y' -> misses (moved t S) y) /\ (misses_closed S y' -> misses_closed (moved t S) y).
Proof.
  intros Ht y' Ec. unfold collider_cast. fold y'. rewrite Ec. split; [reflexivity|]. split; intros H u Hu X.
  - rewrite (ray_local t y u Ht), moved_point in X by exact Ht. exact (H u Hu X).
  - rewrite (ray_local t y u Ht), moved_point in X by exact Ht. exact (H u Hu X).
Qed.
Lemma collider_inside_ok inside body local (T : vec3 -> Prop) p : quat_len2 (t_rot (tr_mul body local)) = 1 ->
  (forall q, inside q = true <-> T q) -> (collider_inside inside body local p = true <-> moved (tr_mul body local) T p).
Proof.
  intros Ht H. unfold collider_inside. rewrite H. rewrite <- (moved_point _ T) by exact Ht. now rewrite tr_inverse_point.
Qed.
