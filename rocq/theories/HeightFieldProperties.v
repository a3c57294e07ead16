(** Properties of height fields: their geometry, triangle queries and ray casts. *)
From Coq Require Import Reals Lra Lia ZArith List.
From Verif Require Import Base VecModel VecProofs GeomSpec ShapeModel ShapeSpec ShapeProofs ShapeMeshProofs WorldProofs5 HeightFieldModel HeightFieldSpec HeightFieldProofs HeightWalkProofs HeightSurfaceProofs.
Import ListNotations.
Open Scope R_scope.

(** The middle height of a field. *)
Definition middle (f : hfield) : R := (hf_min f + hf_max f) / 2.
Lemma created : forall cols rows d f, create_field cols rows d = Ok (Some f) -> field_of cols rows d f (hf_min f) (hf_max f).
Proof.
  intros cols rows d f H. destruct (create_inv _ _ _ _ H) as [mn [mx F]]. now rewrite (fo_min _ _ _ _ _ _ F), (fo_max _ _ _ _ _ _ F).
Qed.
(** A hill: three columns, two rows. *)
Definition hill : heights := Decimals [0; 1; 0; 1; 2; 1].
Ltac at_grid := unfold given, hill; repeat match goal with |- context [Z.to_nat ?z] => let n := eval vm_compute in (Z.to_nat z) in change (Z.to_nat z) with n end; cbn [nth]; lra.
Lemma hill_created : exists f, create_field 3 2 hill = Ok (Some f) /\ 0 <= middle f <= 2 /\ hf_max f - hf_min f <= 2.
Proof.
  destruct (create_ok 3 2 hill) as [f [mn [mx [E F]]]]; [lia|lia|unfold int_max; lia|cbn; lia|]. exists f. split; [exact E|].
  unfold middle. rewrite (fo_min _ _ _ _ _ _ F), (fo_max _ _ _ _ _ _ F).
  assert (G : forall x y, on_grid 3 2 x y -> 0 <= given hill 3 x y <= 2).
  { intros x y [Gx Gy]. assert (HX : (x = 0 \/ x = 1 \/ x = 2)%Z) by lia. assert (HY : (y = 0 \/ y = 1)%Z) by lia.
    destruct HX as [->|[->| ->]]; destruct HY as [->| ->]; at_grid. }
  destruct (fo_low _ _ _ _ _ _ F) as [[x0 [y0 [G0 <-]]] _]. destruct (fo_high _ _ _ _ _ _ F) as [[x1 [y1 [G1 <-]]] _].
  pose proof (G _ _ G0). pose proof (G _ _ G1). lra.
Qed.

(** ** C105: geometry *)
Theorem C105_field_partial : forall cols rows d, (2 <= cols)%Z -> (2 <= rows)%Z -> (cols * rows <= 2 ^ 31 - 1)%Z -> (Z.to_nat (cols * rows) <= how_many d)%nat ->
  exists f, create_field cols rows d = Ok (Some f) /\ lowest d cols rows (hf_min f) /\ highest d cols rows (hf_max f) /\
    (forall x y, on_grid cols rows x y -> height_at f x y = Ok (given d cols x y) /\ vertex_at f x y = Ok (grid_point d cols rows (middle f) x y)).
Proof.
  intros cols rows d A B C D. destruct (create_ok cols rows d A B C D) as [f [mn [mx [E F]]]]. exists f. split; [exact E|]. unfold middle.
  rewrite (fo_min _ _ _ _ _ _ F), (fo_max _ _ _ _ _ _ F). split; [exact (fo_low _ _ _ _ _ _ F)|]. split; [exact (fo_high _ _ _ _ _ _ F)|].
  intros x y G. split; [exact (fo_height _ _ _ _ _ _ F x y G)|exact (vertex_ok _ _ _ _ _ _ _ _ F G)].
Qed.
Print Assumptions C105_field_partial.
Theorem C105_null : forall cols rows d, (cols < 2 \/ rows < 2)%Z -> create_field cols rows d = Ok None.
Proof.
  intros cols rows d H. unfold create_field. replace (Z.ltb cols 2 || Z.ltb rows 2)%bool with true; [reflexivity|].
  symmetry. apply Bool.orb_true_iff. destruct H; [left|right]; now apply Z.ltb_lt.
Qed.
Print Assumptions C105_null.
Theorem C105_bounds : forall cols rows d f s, create_field cols rows d = Ok (Some f) -> positive s ->
  tight_bounds (on_surface d cols rows (middle f) s) (shape_bounds f s).
Proof. intros cols rows d f s H P. apply field_bounds; [now apply created|exact P]. Qed.
Print Assumptions C105_bounds.
Example C105_not_vacuous : exists f, create_field 3 2 hill = Ok (Some f) /\ positive (V3 2 3 1) /\ given hill 3 1 1 = 2.
Proof. destruct hill_created as [f [E _]]. exists f. split; [exact E|]. split; [unfold positive; cbn; lra|reflexivity]. Qed.
(** The number of heights is computed as an int. *)
Theorem C105_size_refuted : exists cols rows d, (2 <= cols)%Z /\ (2 <= rows)%Z /\ (Z.to_nat (cols * rows) <= how_many d)%nat /\ create_field cols rows d = Ub.
Proof.
  exists 46341%Z, 46341%Z, (Decimals (repeat 0 (Z.to_nat (46341 * 46341)))). split; [lia|]. split; [lia|].
  split; [cbn [how_many]; rewrite repeat_length; apply Nat.le_refl|]. generalize (repeat 0 (Z.to_nat (46341 * 46341))). intros l. reflexivity.
Qed.
Print Assumptions C105_size_refuted.

(** ** C56: queries *)
Theorem C56_query_partial : forall eps cols rows d f s b, create_field cols rows d = Ok (Some f) -> positive s -> 0 < eps <= vx s * vz s ->
  hf_max f - hf_min f <= 2147483646 ->
  exists l, shape_overlapping eps f s b = Ok l /\
    (forall i j k, is_cell cols rows i j -> cell_meets cols rows s b i j -> (k = 0 \/ k = 1)%Z -> exists q, In q l /\ answers d cols rows (middle f) s i j k q) /\
    (forall q, In q l -> (exists i j k, is_cell cols rows i j /\ (k = 0 \/ k = 1)%Z /\ answers d cols rows (middle f) s i j k q) /\
       upward_normal (q_a q) (q_b q) (q_c q) (q_normal q)) /\
    NoDup (map q_id l).
Proof.
  intros eps cols rows d f s b H P [E1 E2] T. pose proof (created _ _ _ _ H) as F. unfold middle, shape_overlapping.
  destruct (overlapping_ok eps cols rows d f _ _ s (Box3 (vmul (bmin b) (inv_scale s)) (vmul (bmax b) (inv_scale s))) F T) as [i0 [i1 [j0 [j1 [I0 [I1 [J0 [J1 [OE CV]]]]]]]]].
  set (mid := (hf_min f + hf_max f) / 2) in *. eexists. split; [exact OE|].
  assert (TA : forall i j k, answers d cols rows mid s i j k (tri_of eps d cols rows mid s i j k)).
  { intros i j k. unfold answers, tri_of. destruct (corners d cols rows mid s i j k) as [[x y] z]. split; reflexivity. }
  split; [|split].
  - intros i j k C M K. apply (meets_unscale _ _ _ _ _ _ P) in M. destruct (CV i j C M) as [Ri Rj]. exists (tri_of eps d cols rows mid s i j k).
    split; [|apply TA]. apply in_flat_map. exists i. split; [now apply zrange_in|]. apply in_flat_map. exists j. split; [now apply zrange_in|].
    destruct K as [->| ->]; [left|right; left]; reflexivity.
  - intros q Q. apply in_flat_map in Q. destruct Q as [i [Hi Q]]. apply in_flat_map in Q. destruct Q as [j [Hj Q]]. apply zrange_in in Hi. apply zrange_in in Hj.
    assert (K : exists k, (k = 0 \/ k = 1)%Z /\ q = tri_of eps d cols rows mid s i j k) by (destruct Q as [<-|[<-|[]]]; [exists 0%Z|exists 1%Z]; auto).
    destruct K as [k [K ->]]. split; [exists i, j, k; split; [split; lia|]; split; [exact K|apply TA]|].
    pose proof (corners_normal d cols rows mid s i j k) as N. unfold tri_of. destruct (corners d cols rows mid s i j k) as [[x y] z]. cbn [q_a q_b q_c q_normal tri_n] in *.
    set (n := vcross (vsub y x) (vsub z x)) in *. pose proof (vy_le_vlen n) as L. assert (L' : eps <= vlen n) by lra.
    unfold upward_normal. split; [|split; [|split]].
    + unfold vlen. rewrite vlen2_vunit by lra. apply sqrt_1.
    + rewrite vunit_scale by exact L'. unfold n, vcross, vsub, vdot, vscale. cbn [vx vy vz]. ring.
    + rewrite vunit_scale by exact L'. unfold n, vcross, vsub, vdot, vscale. cbn [vx vy vz]. ring.
    + rewrite vunit_scale by exact L'. unfold vscale. cbn [vx vy vz]. rewrite N. apply Rmult_lt_0_compat; [|lra]. apply Rdiv_lt_0_compat; lra.
  - rewrite map_flat_map. assert (ID : forall i j k, q_id (tri_of eps d cols rows mid s i j k) = ((j * (cols - 1) + i) * 2 + k)%Z).
    { intros. destruct (TA i j k) as [_ Q]. exact Q. }
    assert (UN : forall i j k i' j' k', (0 <= i < cols - 1)%Z -> (0 <= i' < cols - 1)%Z -> (k = 0 \/ k = 1)%Z -> (k' = 0 \/ k' = 1)%Z ->
      ((j * (cols - 1) + i) * 2 + k = (j' * (cols - 1) + i') * 2 + k')%Z -> i = i' /\ j = j').
    { intros i j k i' j' k' Hi Hi' K K' Q. assert (Q2 : (j * (cols - 1) + i = j' * (cols - 1) + i')%Z) by lia.
      assert (j = j') by nia. subst j'. split; [lia|reflexivity]. }
    apply NoDup_flat_map.
    + apply zrange_nodup.
    + intros i Hi. apply zrange_in in Hi. rewrite map_flat_map. apply NoDup_flat_map.
      * apply zrange_nodup.
      * intros j Hj. cbn [map]. rewrite !ID. constructor; [intros [Q|[]]; lia|]. constructor; [intros []|constructor].
      * intros j j' x Hj Hj' X X'. cbn [map In] in X, X'. rewrite !ID in X, X'.
        destruct X as [X|[X|[]]]; destruct X' as [X'|[X'|[]]]; subst x;
        match type of X' with (_ * 2 + ?k = _ * 2 + ?k')%Z => destruct (UN i j' k i j k'); [lia|lia|auto|auto|exact X'|congruence] end.
    + intros i i' x Hi Hi' X X'. apply zrange_in in Hi. apply zrange_in in Hi'. rewrite map_flat_map in X, X'. apply in_flat_map in X. apply in_flat_map in X'.
      destruct X as [j [Hj X]]. destruct X' as [j' [Hj' X']]. cbn [map In] in X, X'. rewrite !ID in X, X'.
      destruct X as [X|[X|[]]]; destruct X' as [X'|[X'|[]]]; subst x;
      match type of X' with (_ * 2 + ?k = _ * 2 + ?k')%Z => destruct (UN i' j' k i j k'); [lia|lia|auto|auto|exact X'|congruence] end.
Qed.
Print Assumptions C56_query_partial.
Example C56_not_vacuous : exists f, create_field 3 2 hill = Ok (Some f) /\ hf_max f - hf_min f <= 2147483646 /\
  cell_meets 3 2 (V3 2 1 1) (Box3 (V3 1 0 0) (V3 5 1 1)) 1 0 /\ ~ cell_meets 3 2 (V3 2 1 1) (Box3 (V3 1 0 0) (V3 5 1 1)) 0 0.
Proof.
  destruct hill_created as [f [E [_ B]]]. exists f. split; [exact E|]. split; [lra|]. unfold cell_meets. cbn [vx vy vz bmin bmax]. split.
  - split; [exists 1|exists 0]; cbn; lra.
  - intros [[x [A B']] _]. cbn in A. lra.
Qed.
(** The coordinate along the height, which is not used, is converted to int as well. *)
Theorem C56_tall_refuted : exists f b, create_field 2 2 (Decimals [0; 0; 0; 4294967296]) = Ok (Some f) /\ forall eps, shape_overlapping eps f (V3 1 1 1) b = Ub.
Proof.
  destruct (create_ok 2 2 (Decimals [0; 0; 0; 4294967296])) as [f [mn [mx [E F]]]]; [lia|lia|unfold int_max; lia|cbn; lia|].
  exists f, (Box3 (V3 0 0 0) (V3 1 1 1)). split; [exact E|]. intros eps. unfold shape_overlapping, overlapping. rewrite (fo_bmin _ _ _ _ _ _ F), (fo_bmax _ _ _ _ _ _ F).
  assert (MN : mn = 0 /\ mx = 4294967296).
  { destruct (fo_low _ _ _ _ _ _ F) as [[x0 [y0 [G0 E0]]] M0]. destruct (fo_high _ _ _ _ _ _ F) as [[x1 [y1 [G1 E1]]] M1].
    assert (G : forall x y, on_grid 2 2 x y -> given (Decimals [0; 0; 0; 4294967296]) 2 x y = 0 \/ given (Decimals [0; 0; 0; 4294967296]) 2 x y = 4294967296).
    { intros x y [Gx Gy]. assert (HX : (x = 0 \/ x = 1)%Z) by lia. assert (HY : (y = 0 \/ y = 1)%Z) by lia. destruct HX as [->| ->]; destruct HY as [->| ->]; at_grid. }
    assert (A : mn <= 0) by (apply (M0 0%Z 0%Z); split; lia). assert (B : 4294967296 <= mx) by (apply (M1 1%Z 1%Z); split; lia).
    pose proof (G _ _ G0). pose proof (G _ _ G1). lra. }
  destruct MN as [-> ->]. cbn [vx vy vz bmin bmax vmul inv_scale].
  destruct (grid_min_ok (0 * (1 / 1)) (IZR (2 - 1))) as [x0 [X0 _]]; [cbn; lra|cbn; lra|].
  replace (- (IZR (2 - 1) / 2)) with (- (IZR (2 - 1) / 2)) by reflexivity. rewrite X0. cbn [bind].
  assert (Y : grid_min (0 * (1 / 1)) (- ((4294967296 - 0) / 2)) ((4294967296 - 0) / 2) = Ub).
  { unfold grid_min. replace (Rmin (Rmax (0 * (1 / 1)) (- ((4294967296 - 0) / 2))) ((4294967296 - 0) / 2)) with 0.
    2: { rewrite Rmax_left by lra. rewrite Rmin_left by lra. field. }
    replace (0 + ((4294967296 - 0) / 2 - - ((4294967296 - 0) / 2)) * (1 / 2) + 1 / 2) with (2147483648 + 1 / 2) by field.
    unfold cast_int. assert (Q : (2147483648 <= trunc (2147483648 + 1 / 2))%Z).
    { destruct (trunc_nonneg (2147483648 + 1 / 2)) as [[_ Q] _]; [lra|]. assert (2147483647 < trunc (2147483648 + 1 / 2))%Z by (apply lt_IZR; lra). lia. }
    unfold int_of, fits_int. replace (Z.leb (trunc (2147483648 + 1 / 2)) int_max) with false by (symmetry; apply Z.leb_gt; unfold int_max; lia). now rewrite Bool.andb_false_r. }
  rewrite Y. reflexivity.
Qed.
Print Assumptions C56_tall_refuted.

(** ** C103: ray casts *)
Lemma shape_cast_eq : forall fuel eps eps2 big f s sd y, shape_field_cast fuel eps eps2 big f s sd y =
  let* o := field_cast fuel eps eps2 big f sd (unscaled_ray s y) in
  Ok (match o with Some h => Some (Hit (hit_fraction h) (vmul (hit_point h) s) (hit_normal h)) | None => None end).
Proof. intros. unfold shape_field_cast. now rewrite unscaled_ray_eq. Qed.
Lemma surface_ray : forall d cols rows mid s y u, positive s -> (on_surface d cols rows mid s (ray_at y u) <-> on_surface d cols rows mid unit3 (ray_at (unscaled_ray s y) u)).
Proof.
  intros d cols rows mid s y u P. rewrite ray_at_unscaled. split; intros H.
  - now apply surface_unscale.
  - apply (surface_scale d cols rows mid s) in H. now rewrite vmul_back in H.
Qed.
Theorem C103_first_hit_partial : forall fuel eps eps2 big cols rows d f s sd y, create_field cols rows d = Ok (Some f) -> positive s ->
  0 < eps <= 1 -> 0 < eps2 -> 0 <= big -> ray_max y <= big -> (Z.to_nat (cols + rows) <= fuel)%nat ->
  good_ray eps2 (unscaled_ray s y) -> off_border rows (unscaled_ray s y) ->
  (forall i j k, is_cell cols rows i j -> exact_at eps sd (unscaled_ray s y) (corners d cols rows (middle f) unit3 i j k)) ->
  exists o, shape_field_cast fuel eps eps2 big f s sd y = Ok o /\
    match o with
    | Some h => 0 <= hit_fraction h <= ray_max y /\ hit_point h = ray_at y (hit_fraction h) /\ on_surface d cols rows (middle f) s (hit_point h) /\
        forall u, 0 <= u < hit_fraction h -> ~ on_surface d cols rows (middle f) s (ray_at y u)
    | None => misses_closed (on_surface d cols rows (middle f) s) y
    end.
Proof.
  intros fuel eps eps2 big cols rows d f s sd y H P E1 E2 BG MB FU GR OB X. pose proof (created _ _ _ _ H) as F.
  destruct (field_cast_first fuel eps eps2 big cols rows d f _ _ sd (unscaled_ray s y) F E1 E2 MB GR OB FU X BG) as [o [EQ R]].
  fold (middle f) in R. rewrite shape_cast_eq, EQ. cbn [bind]. eexists. split; [reflexivity|]. destruct o as [h|].
  - destruct R as [[i [j [k [C [K HT]]]]] FI]. cbn [hit_fraction hit_point].
    assert (Q : 0 <= hit_fraction h <= ray_max y /\ hit_point h = ray_at (unscaled_ray s y) (hit_fraction h) /\ on_triangle (corners d cols rows (middle f) unit3 i j k) (hit_point h)).
    { destruct (corners d cols rows (middle f) unit3 i j k) as [[a b] c]. cbn [hit_at on_triangle] in *. unfold triangle_hit in HT. tauto. }
    destruct Q as [Q1 [Q2 Q3]]. split; [exact Q1|]. split; [rewrite Q2, ray_at_unscaled; now apply vmul_back|].
    split; [apply surface_scale; exists i, j, k; auto|]. intros u Hu S. apply surface_ray in S; [|exact P]. exact (FI u Hu S).
  - intros u Hu S. apply surface_ray in S; [|exact P]. exact (R u Hu S).
Qed.
Print Assumptions C103_first_hit_partial.
(** Without a condition on the other triangles: what the ray meets inside a cell is not missed. *)
Theorem C103_each_triangle_partial : forall fuel eps eps2 big cols rows d f s sd y, create_field cols rows d = Ok (Some f) -> positive s ->
  0 < eps <= 1 -> 0 < eps2 -> 0 <= big -> ray_max y <= big -> (Z.to_nat (cols + rows) <= fuel)%nat ->
  good_ray eps2 (unscaled_ray s y) -> off_border rows (unscaled_ray s y) ->
  exists o, shape_field_cast fuel eps eps2 big f s sd y = Ok o /\
    forall i j k u, is_cell cols rows i j -> (k = 0 \/ k = 1)%Z -> exact_at eps sd (unscaled_ray s y) (corners d cols rows (middle f) unit3 i j k) ->
      0 <= u <= ray_max y -> on_triangle (corners d cols rows (middle f) s i j k) (ray_at y u) ->
      (IZR i - IZR (cols - 1) / 2) * vx s < vx (ray_at y u) < (IZR i + 1 - IZR (cols - 1) / 2) * vx s ->
      (IZR j - IZR (rows - 1) / 2) * vz s < vz (ray_at y u) < (IZR j + 1 - IZR (rows - 1) / 2) * vz s ->
      exists h, o = Some h /\ hit_fraction h <= u.
Proof.
  intros fuel eps eps2 big cols rows d f s sd y H P E1 E2 BG MB FU GR OB. pose proof (created _ _ _ _ H) as F.
  destruct (field_cast_each fuel eps eps2 big cols rows d f _ _ sd (unscaled_ray s y) F E1 E2 MB GR OB FU BG) as [o [EQ [_ FE]]].
  fold (middle f) in FE. rewrite shape_cast_eq, EQ. cbn [bind]. eexists. split; [reflexivity|].
  intros i j k u C K X Hu HT Hx Hz. apply (on_triangle_unscale _ _ _ _ _ _ _ _ _ P) in HT. rewrite <- ray_at_unscaled in HT.
  pose proof (exact_cast eps sd (unscaled_ray s y) d cols rows (middle f) i j k (proj1 E1) (proj2 E1) X) as EC.
  destruct (tri_cast eps sd (unscaled_ray s y) (corners d cols rows (middle f) unit3 i j k)) as [h'|] eqn:TC; [|exfalso; exact (EC u Hu HT)].
  assert (Q : u = hit_fraction h' /\ hit_point h' = ray_at (unscaled_ray s y) u).
  { destruct (corners d cols rows (middle f) unit3 i j k) as [[a b] c]. cbn [hit_at on_triangle] in *. destruct EC as [_ [Q1 [_ [Q2 _]]]].
    specialize (Q2 u HT). subst u. split; [reflexivity|exact Q1]. }
  destruct Q as [Q1 Q2]. destruct P as [Px [Py Pz]].
  assert (D : forall a b c : R, 0 < c -> a * c < b -> a < b / c) by (intros a b c Hc Hb; apply (Rmult_lt_reg_r c); [exact Hc|]; replace (b / c * c) with b by (field; lra); exact Hb).
  assert (D' : forall a b c : R, 0 < c -> b < a * c -> b / c < a) by (intros a b c Hc Hb; apply (Rmult_lt_reg_r c); [exact Hc|]; replace (b / c * c) with b by (field; lra); exact Hb).
  destruct (FE i j k h' C K X TC) as [h [-> L]].
  - rewrite Q2, ray_at_unscaled, vmul_inv. cbn [vx]. split; [apply D; tauto|apply D'; tauto].
  - rewrite Q2, ray_at_unscaled, vmul_inv. cbn [vz]. split; [apply D; tauto|apply D'; tauto].
  - eexists. split; [reflexivity|]. cbn [hit_fraction]. lra.
Qed.
Print Assumptions C103_each_triangle_partial.
(** A vertical ray meets the hill. *)
Lemma down_exact : forall eps cols rows d mid x z i j k, 0 < eps <= 1 ->
  exact_at eps Front (Ray (V3 x 10 z) (V3 x (-10) z) 1) (corners d cols rows mid unit3 i j k).
Proof.
  intros eps cols rows d mid x z i j k E. pose proof (corners_normal d cols rows mid unit3 i j k) as N. destruct (corners d cols rows mid unit3 i j k) as [[a b] c].
  cbn [exact_at tri_n] in *. unfold triangle_exact. cbn zeta. unfold unit3 in N. cbn [vx vz] in N. set (n := vcross (vsub b a) (vsub c a)) in *. unfold vdot, vsub. cbn [ray_p1 ray_p2 vx vy vz]. rewrite N. lra.
Qed.
Lemma down_good : forall eps x z, eps <= 20 -> good_ray eps (Ray (V3 x 10 z) (V3 x (-10) z) 1).
Proof.
  intros eps x z E i. destruct i as [|[|i]]; unfold comp, vsub; cbn [ray_p1 ray_p2 vx vy vz]; [left; ring|right|left; ring].
  rewrite Rabs_left by lra. lra.
Qed.
Example C103_not_vacuous : forall eps eps2 big fuel, 0 < eps <= 1 -> 0 < eps2 <= 1 -> 1 <= big -> (5 <= fuel)%nat ->
  exists f h, create_field 3 2 hill = Ok (Some f) /\ shape_field_cast fuel eps eps2 big f (V3 2 1 2) Front (Ray (V3 (1/2) 10 (1/2)) (V3 (1/2) (-10) (1/2)) 1) = Ok (Some h).
Proof.
  intros eps eps2 big fuel E1 E2 BG FU. destruct hill_created as [f [E [M _]]]. exists f.
  set (y := Ray (V3 (1/2) 10 (1/2)) (V3 (1/2) (-10) (1/2)) 1).
  assert (PS : positive (V3 2 1 2)) by (unfold positive; cbn [vx vy vz]; lra).
  assert (UY : unscaled_ray (V3 2 1 2) y = Ray (V3 (1/4) 10 (1/4)) (V3 (1/4) (-10) (1/4)) 1).
  { unfold unscaled_ray, y. cbn [ray_p1 ray_p2 ray_max vx vy vz]. f_equal; f_equal; field. }
  destruct (C103_first_hit_partial fuel eps eps2 big 3 2 hill f (V3 2 1 2) Front y E PS E1) as [o [EQ R]].
  - lra.
  - lra.
  - exact BG.
  - exact FU.
  - rewrite UY. apply down_good. lra.
  - rewrite UY. intros _ Q. exfalso. apply Q. reflexivity.
  - intros i j k _. rewrite UY. now apply down_exact.
  - destruct o as [h|]; [exists h; split; [exact E|exact EQ]|]. exfalso.
    apply (R ((10 - (given hill 3 1 0 + (1/4) * (given hill 3 2 0 - given hill 3 1 0) + (3/4) * (given hill 3 1 1 - given hill 3 1 0) - middle f)) / 20)).
    + replace (given hill 3 1 0) with 1 by reflexivity. replace (given hill 3 2 0) with 0 by reflexivity. replace (given hill 3 1 1) with 2 by reflexivity. cbn [y ray_max]. lra.
    + apply surface_ray; [exact PS|]. rewrite UY. exists 1%Z, 0%Z, 0%Z. split; [split; lia|]. split; [auto|]. apply tri0.
      unfold ray_at, lerp. cbn [ray_p1 ray_p2 vx vy vz]. change (IZR (3 - 1)) with 2. change (IZR (2 - 1)) with 1.
      change (1 + 1)%Z with 2%Z. change (0 + 1)%Z with 1%Z.
      split; [lra|]. split; [lra|]. split; [lra|]. field.
Qed.

(** A ray along the far border never ends. *)
Theorem C103_far_border_stuck : forall eps eps2 big cols rows d f s sd y, create_field cols rows d = Ok (Some f) -> positive s -> 0 < eps2 -> 0 <= big ->
  good_ray eps2 (unscaled_ray s y) -> vz (ray_p1 y) = IZR (rows - 1) / 2 * vz s -> vz (ray_p2 y) = IZR (rows - 1) / 2 * vz s -> vx (ray_p1 y) <> vx (ray_p2 y) ->
  (exists u, 0 <= u <= big /\ in_bounds (shape_bounds f s) (ray_at y u)) -> forall fuel, shape_field_cast fuel eps eps2 big f s sd y = Fuel.
Proof.
  intros eps eps2 big cols rows d f s sd y H P E BG GR Z1 Z2 X [u [U B]] fuel. pose proof (created _ _ _ _ H) as F. rewrite shape_cast_eq. destruct P as [Px [Py Pz]].
  rewrite (far_border eps eps2 big cols rows d f _ _ sd (unscaled_ray s y) F E BG GR); [reflexivity| | | |].
  - unfold unscaled_ray. cbn [ray_p1 vz]. rewrite Z1. field. lra.
  - unfold unscaled_ray. cbn [ray_p2 vz]. rewrite Z2. field. lra.
  - unfold unscaled_ray. cbn [ray_p1 ray_p2 vx]. intros Q. apply X. apply (Rmult_eq_compat_r (vx s)) in Q.
    replace (vx (ray_p1 y) / vx s * vx s) with (vx (ray_p1 y)) in Q by (field; lra). replace (vx (ray_p2 y) / vx s * vx s) with (vx (ray_p2 y)) in Q by (field; lra). exact Q.
  - exists u. split; [exact U|]. rewrite ray_at_unscaled, vmul_inv. unfold in_bounds, shape_bounds, vmul in *. cbn [vx vy vz bmin bmax] in *.
    assert (D : forall a b c : R, 0 < c -> a * c <= b -> a <= b / c) by (intros a b c Hc Hb; apply (Rmult_le_reg_r c); [exact Hc|]; replace (b / c * c) with b by (field; lra); exact Hb).
    assert (D' : forall a b c : R, 0 < c -> b <= a * c -> b / c <= a) by (intros a b c Hc Hb; apply (Rmult_le_reg_r c); [exact Hc|]; replace (b / c * c) with b by (field; lra); exact Hb).
    destruct B as [[B1 B1'] [[B2 B2'] [B3 B3']]]. repeat split; auto.
Qed.
Print Assumptions C103_far_border_stuck.
Theorem C103_far_border_refuted : exists f y, create_field 3 2 hill = Ok (Some f) /\
  forall eps eps2 big sd, 0 < eps2 <= 1 -> 1 <= big -> forall fuel, shape_field_cast fuel eps eps2 big f (V3 1 1 1) sd y = Fuel.
Proof.
  destruct hill_created as [f [E _]]. exists f, (Ray (V3 (-3) 0 (1/2)) (V3 3 0 (1/2)) 1). split; [exact E|]. intros eps eps2 big sd E2 BG.
  apply (C103_far_border_stuck eps eps2 big 3 2 hill f); cbn [ray_p1 ray_p2 vx vy vz].
  - exact E.
  - unfold positive. cbn [vx vy vz]. lra.
  - lra.
  - lra.
  - intros i. unfold unscaled_ray. destruct i as [|[|i]]; unfold comp, vsub; cbn [ray_p1 ray_p2 vx vy vz]; [right|left; field|left; field].
    rewrite Rabs_right; lra.
  - change (IZR (2 - 1)) with 1. field.
  - change (IZR (2 - 1)) with 1. field.
  - lra.
  - exists (1/2). split; [lra|]. pose proof (created _ _ _ _ E) as F. unfold shape_bounds. rewrite (fo_bmin _ _ _ _ _ _ F), (fo_bmax _ _ _ _ _ _ F).
    change (IZR (3 - 1)) with 2. change (IZR (2 - 1)) with 1.
    unfold in_bounds, vmul, ray_at, lerp. cbn [ray_p1 ray_p2 vx vy vz bmin bmax].
    destruct (fo_low _ _ _ _ _ _ F) as [[x0 [y0 [G0 E0]]] _]. pose proof (proj2 (fo_high _ _ _ _ _ _ F) x0 y0 G0). lra.
Qed.
Print Assumptions C103_far_border_refuted.

(** ** C104: normals of ray casts *)
Theorem C104_uniform_partial : forall fuel eps eps2 big cols rows d f k sd y, create_field cols rows d = Ok (Some f) -> 0 < k ->
  0 < eps <= 1 -> 0 < eps2 -> 0 <= big -> ray_max y <= big -> (Z.to_nat (cols + rows) <= fuel)%nat ->
  good_ray eps2 (unscaled_ray (V3 k k k) y) -> off_border rows (unscaled_ray (V3 k k k) y) ->
  (forall i j t, is_cell cols rows i j -> exact_at eps sd (unscaled_ray (V3 k k k) y) (corners d cols rows (middle f) unit3 i j t)) ->
  forall h, shape_field_cast fuel eps eps2 big f (V3 k k k) sd y = Ok (Some h) ->
  vlen (hit_normal h) = 1 /\ vdot (hit_normal h) (vsub (ray_p2 y) (ray_p1 y)) < 0 /\
  exists i j t, is_cell cols rows i j /\ (t = 0 \/ t = 1)%Z /\ on_triangle (corners d cols rows (middle f) (V3 k k k) i j t) (hit_point h) /\
    orthogonal (hit_normal h) (corners d cols rows (middle f) (V3 k k k) i j t).
Proof.
  intros fuel eps eps2 big cols rows d f k sd y H P E1 E2 BG MB FU GR OB X h Q. pose proof (created _ _ _ _ H) as F.
  destruct (field_cast_first fuel eps eps2 big cols rows d f _ _ sd (unscaled_ray (V3 k k k) y) F E1 E2 MB GR OB FU X BG) as [o [EQ R]].
  fold (middle f) in R. rewrite shape_cast_eq, EQ in Q. cbn [bind] in Q. destruct o as [h'|]; [|discriminate]. injection Q as <-.
  destruct R as [[i [j [t [C [K HT]]]]] _]. cbn [hit_point hit_normal].
  set (n := hit_normal h') in *.
  assert (HN : vlen n = 1 /\ vdot n (vsub (ray_p2 (unscaled_ray (V3 k k k) y)) (ray_p1 (unscaled_ray (V3 k k k) y))) < 0 /\
    on_triangle (corners d cols rows (middle f) (V3 k k k) i j t) (vmul (hit_point h') (V3 k k k)) /\ orthogonal n (corners d cols rows (middle f) (V3 k k k) i j t)).
  { rewrite corners_scaled. destruct (corners d cols rows (middle f) unit3 i j t) as [[a b] c]. cbn [hit_at on_triangle orthogonal] in *.
    destruct HT as [_ [_ [T [_ [N1 [N2 [N3 N4]]]]]]]. fold n in N1, N2, N3, N4. split; [exact N1|]. split; [exact N4|]. split; [now apply triangle_scaled|].
    unfold vdot, vsub, vmul in *. cbn [vx vy vz] in *.
    split; [replace (vx n * (vx b * k - vx a * k) + vy n * (vy b * k - vy a * k) + vz n * (vz b * k - vz a * k)) with (k * (vx n * (vx b - vx a) + vy n * (vy b - vy a) + vz n * (vz b - vz a))) by ring; rewrite N2; ring|].
    replace (vx n * (vx c * k - vx a * k) + vy n * (vy c * k - vy a * k) + vz n * (vz c * k - vz a * k)) with (k * (vx n * (vx c - vx a) + vy n * (vy c - vy a) + vz n * (vz c - vz a))) by ring. rewrite N3. ring. }
  destruct HN as [N1 [N2 [N3 N4]]]. split; [exact N1|]. split.
  - unfold unscaled_ray, vdot, vsub in *. cbn [ray_p1 ray_p2 vx vy vz] in *.
    apply (Rmult_lt_compat_l k) in N2; [|exact P]. rewrite Rmult_0_r in N2. eapply Rle_lt_trans; [|exact N2]. right. field. lra.
  - exists i, j, t. auto.
Qed.
Print Assumptions C104_uniform_partial.
Example C104_not_vacuous : forall eps eps2 big fuel, 0 < eps <= 1 -> 0 < eps2 <= 1 -> 1 <= big -> (5 <= fuel)%nat ->
  exists f h, create_field 3 2 hill = Ok (Some f) /\ shape_field_cast fuel eps eps2 big f (V3 2 2 2) Front (Ray (V3 (1/2) 10 (1/2)) (V3 (1/2) (-10) (1/2)) 1) = Ok (Some h).
Proof.
  intros eps eps2 big fuel E1 E2 BG FU. destruct hill_created as [f [E [M _]]]. exists f.
  set (y := Ray (V3 (1/2) 10 (1/2)) (V3 (1/2) (-10) (1/2)) 1).
  assert (PS : positive (V3 2 2 2)) by (unfold positive; cbn [vx vy vz]; lra).
  assert (UY : unscaled_ray (V3 2 2 2) y = Ray (V3 (1/4) 5 (1/4)) (V3 (1/4) (-5) (1/4)) 1).
  { unfold unscaled_ray, y. cbn [ray_p1 ray_p2 ray_max vx vy vz]. f_equal; f_equal; field. }
  destruct (C103_first_hit_partial fuel eps eps2 big 3 2 hill f (V3 2 2 2) Front y E PS E1) as [o [EQ R]].
  - lra.
  - lra.
  - exact BG.
  - exact FU.
  - rewrite UY. intros i. destruct i as [|[|i]]; unfold comp, vsub; cbn [ray_p1 ray_p2 vx vy vz]; [left; ring|right|left; ring]. rewrite Rabs_left by lra. lra.
  - rewrite UY. intros _ Q. exfalso. apply Q. reflexivity.
  - intros i j k _. rewrite UY. pose proof (corners_normal hill 3 2 (middle f) unit3 i j k) as N. destruct (corners hill 3 2 (middle f) unit3 i j k) as [[a b] c].
    cbn [exact_at tri_n] in *. unfold triangle_exact. cbn zeta. unfold unit3 in N. cbn [vx vz] in N. set (n := vcross (vsub b a) (vsub c a)) in *. unfold vdot, vsub. cbn [ray_p1 ray_p2 vx vy vz]. rewrite N. lra.
  - destruct o as [h|]; [exists h; split; [exact E|exact EQ]|]. exfalso.
    apply (R ((5 - (given hill 3 1 0 + (1/4) * (given hill 3 2 0 - given hill 3 1 0) + (3/4) * (given hill 3 1 1 - given hill 3 1 0) - middle f)) / 10)).
    + replace (given hill 3 1 0) with 1 by reflexivity. replace (given hill 3 2 0) with 0 by reflexivity. replace (given hill 3 1 1) with 2 by reflexivity. cbn [y ray_max]. lra.
    + apply surface_ray; [exact PS|]. rewrite UY. exists 1%Z, 0%Z, 0%Z. split; [split; lia|]. split; [auto|]. apply tri0.
      unfold ray_at, lerp. cbn [ray_p1 ray_p2 vx vy vz]. change (IZR (3 - 1)) with 2. change (IZR (2 - 1)) with 1.
      change (1 + 1)%Z with 2%Z. change (0 + 1)%Z with 1%Z.
      split; [lra|]. split; [lra|]. split; [lra|]. field.
Qed.
(** With different scales the normal is that of the surface before scaling. *)
Definition slope : heights := Decimals [0; 1; 0; 1].
Theorem C104_normal_refuted : exists f s y, create_field 2 2 slope = Ok (Some f) /\ positive s /\
  forall eps eps2 big fuel, 0 < eps <= 1 -> 0 < eps2 <= 1 -> 1 <= big -> (4 <= fuel)%nat ->
  exists h, shape_field_cast fuel eps eps2 big f s Front y = Ok (Some h) /\
    forall i j k, is_cell 2 2 i j -> ~ orthogonal (hit_normal h) (corners slope 2 2 (middle f) s i j k).
Proof.
  destruct (create_ok 2 2 slope) as [f [mn [mx [E F]]]]; [lia|lia|unfold int_max; lia|cbn; lia|].
  set (y := Ray (V3 0 10 (1/4)) (V3 0 (-10) (1/4)) 1).
  assert (PS : positive (V3 3 1 1)) by (unfold positive; cbn [vx vy vz]; lra).
  assert (UY : unscaled_ray (V3 3 1 1) y = y).
  { unfold unscaled_ray, y. cbn [ray_p1 ray_p2 ray_max vx vy vz]. f_equal; f_equal; field. }
  exists f, (V3 3 1 1), y. split; [exact E|]. split; [exact PS|]. intros eps eps2 big fuel E1 E2 BG FU.
  assert (G00 : given slope 2 0 0 = 0) by reflexivity. assert (G10 : given slope 2 1 0 = 1) by reflexivity.
  assert (G01 : given slope 2 0 1 = 0) by reflexivity. assert (G11 : given slope 2 1 1 = 1) by reflexivity.
  assert (M : 0 <= (mn + mx) / 2 <= 1).
  { assert (G : forall x z, on_grid 2 2 x z -> 0 <= given slope 2 x z <= 1).
    { intros x z [Gx Gy]. assert (HX : (x = 0 \/ x = 1)%Z) by lia. assert (HY : (z = 0 \/ z = 1)%Z) by lia. destruct HX as [->| ->]; destruct HY as [->| ->]; lra. }
    destruct (fo_low _ _ _ _ _ _ F) as [[x0 [y0 [G0 <-]]] _]. destruct (fo_high _ _ _ _ _ _ F) as [[x1 [y1 [G1 <-]]] _]. pose proof (G _ _ G0). pose proof (G _ _ G1). lra. }
  unfold middle. rewrite (fo_min _ _ _ _ _ _ F), (fo_max _ _ _ _ _ _ F). set (mid := (mn + mx) / 2) in *.
  destruct (field_cast_first fuel eps eps2 big 2 2 slope f mn mx Front y F E1) as [o [EQ R]].
  - lra.
  - exact BG.
  - apply down_good. lra.
  - intros _ Q. exfalso. apply Q. reflexivity.
  - exact FU.
  - intros i j k _. now apply down_exact.
  - lra.
  - fold mid in R. rewrite shape_cast_eq, UY, EQ. cbn [bind]. destruct o as [h|].
    + eexists. split; [reflexivity|]. cbn [hit_normal]. destruct R as [[i [j [k [C [K HT]]]]] _].
      assert (Z : i = 0%Z /\ j = 0%Z) by (destruct C; lia). destruct Z as [-> ->].
      assert (N : vlen (hit_normal h) = 1 /\ vz (hit_normal h) = 0 /\ vx (hit_normal h) + vy (hit_normal h) = 0).
      { unfold corners in HT. rewrite !vmul_unit in HT. destruct K as [->| ->]; cbn [Z.eqb hit_at] in HT; destruct HT as [_ [_ [_ [_ [N1 [N2 [N3 _]]]]]]]; split; try exact N1;
        unfold vdot, vsub, grid_point in N2, N3; cbn [vx vy vz] in N2, N3; change (0 + 1)%Z with 1%Z in N2, N3; change (IZR (2 - 1)) with 1 in N2, N3; rewrite ?G00, ?G10, ?G01, ?G11 in N2; rewrite ?G00, ?G10, ?G01, ?G11 in N3; lra. }
      destruct N as [N1 [N2 N3]]. intros i j k' C' O. assert (Z : i = 0%Z /\ j = 0%Z) by (destruct C'; lia). destruct Z as [-> ->].
      assert (N4 : 3 * vx (hit_normal h) + vy (hit_normal h) = 0).
      { unfold corners in O. destruct (Z.eqb k' 0); cbn [orthogonal] in O; destruct O as [O1 O2];
        unfold vdot, vsub, vmul, grid_point in O1, O2; cbn [vx vy vz] in O1, O2; change (0 + 1)%Z with 1%Z in O1, O2; change (IZR (2 - 1)) with 1 in O1, O2; rewrite ?G00, ?G10, ?G01, ?G11 in O1; rewrite ?G00, ?G10, ?G01, ?G11 in O2; lra. }
      assert (N5 : vx (hit_normal h) = 0) by lra. assert (N6 : vy (hit_normal h) = 0) by lra.
      unfold vlen, vlen2 in N1. rewrite N2, N5, N6 in N1. replace (0 * 0 + 0 * 0 + 0 * 0) with 0 in N1 by ring. rewrite sqrt_0 in N1. lra.
    + exfalso. apply (R ((10 - (1/2 - mid)) / 20)); [cbn [y ray_max]; lra|]. exists 0%Z, 0%Z, 1%Z. split; [split; lia|]. split; [auto|]. apply tri1.
      unfold ray_at, lerp. cbn [y ray_p1 ray_p2 vx vy vz]. change (IZR (2 - 1)) with 1. change (0 + 1)%Z with 1%Z. rewrite G10, G01, G11.
      split; [lra|]. split; [lra|]. split; [lra|]. field.
Qed.
Print Assumptions C104_normal_refuted.
