(** The surface of a height field, and its ray casts. *)
From Coq Require Import Reals Lra Lia ZArith.
From Verif Require Import Base VecModel VecProofs GeomSpec ShapeModel ShapeSpec ShapeProofs ShapeMeshProofs HeightFieldModel HeightFieldSpec HeightFieldProofs HeightWalkProofs.
Open Scope R_scope.

(** The triangles in terms of the position in the cell. *)
Lemma tri0 : forall d cols rows mid i j p, let fx := vx p - (IZR i - IZR (cols - 1) / 2) in let fz := vz p - (IZR j - IZR (rows - 1) / 2) in
  on_triangle (corners d cols rows mid unit3 i j 0) p <-> 0 <= fx /\ 0 <= fz /\ fx + fz <= 1 /\
  vy p = given d cols i j + fx * (given d cols (i + 1) j - given d cols i j) + fz * (given d cols i (j + 1) - given d cols i j) - mid.
Proof.
  intros d cols rows mid i j p fx fz. unfold corners. cbn [Z.eqb]. rewrite !vmul_unit. unfold on_triangle, triangle_set, grid_point. cbn [vx vy vz].
  rewrite !plus_IZR. set (W := IZR (cols - 1)) in *. set (L := IZR (rows - 1)) in *. split.
  - intros [u [v [w [U [V [Wp [S ->]]]]]]]. cbn [vx vy vz] in *.
    assert (A : fx = w) by (unfold fx; replace u with (1 - v - w) by lra; ring). assert (B : fz = v) by (unfold fz; replace u with (1 - v - w) by lra; ring).
    rewrite A, B. split; [lra|]. split; [lra|]. split; [lra|]. replace u with (1 - v - w) by lra. ring.
  - intros [A [B [C D]]]. exists (1 - fx - fz), fz, fx. split; [lra|]. split; [lra|]. split; [lra|]. split; [lra|].
    destruct p as [px py pz]. cbn [vx vy vz] in *. f_equal; [unfold fx; field|rewrite D; ring|unfold fz; field].
Qed.
Lemma tri1 : forall d cols rows mid i j p, let fx := vx p - (IZR i - IZR (cols - 1) / 2) in let fz := vz p - (IZR j - IZR (rows - 1) / 2) in
  on_triangle (corners d cols rows mid unit3 i j 1) p <-> fx <= 1 /\ fz <= 1 /\ 1 <= fx + fz /\
  vy p = given d cols (i + 1) (j + 1) + (1 - fx) * (given d cols i (j + 1) - given d cols (i + 1) (j + 1)) + (1 - fz) * (given d cols (i + 1) j - given d cols (i + 1) (j + 1)) - mid.
Proof.
  intros d cols rows mid i j p fx fz. unfold corners. cbn [Z.eqb]. rewrite !vmul_unit. unfold on_triangle, triangle_set, grid_point. cbn [vx vy vz].
  rewrite !plus_IZR. set (W := IZR (cols - 1)) in *. set (L := IZR (rows - 1)) in *. split.
  - intros [u [v [w [U [V [Wp [S ->]]]]]]]. cbn [vx vy vz] in *.
    assert (A : fx = 1 - v) by (unfold fx; replace w with (1 - v - u) by lra; ring). assert (B : fz = 1 - u) by (unfold fz; replace w with (1 - v - u) by lra; ring).
    rewrite A, B. split; [lra|]. split; [lra|]. split; [lra|]. replace w with (1 - v - u) by lra. ring.
  - intros [A [B [C D]]]. exists (1 - fz), (1 - fx), (fx + fz - 1). split; [lra|]. split; [lra|]. split; [lra|]. split; [lra|].
    destruct p as [px py pz]. cbn [vx vy vz] in *. f_equal; [unfold fx; field|rewrite D; ring|unfold fz; field].
Qed.
Definition on_cell (d : heights) (cols rows : Z) (mid : R) (i j : Z) (p : vec3) : Prop :=
  exists k, (k = 0 \/ k = 1)%Z /\ on_triangle (corners d cols rows mid unit3 i j k) p.
Lemma on_cell_over : forall d cols rows mid i j p, on_cell d cols rows mid i j p -> over_cell cols rows (i, j) p.
Proof.
  intros d cols rows mid i j p [k [[->| ->] H]]; [apply tri0 in H|apply tri1 in H]; unfold over_cell; cbn [fst snd]; lra.
Qed.
Lemma same_or_next : forall a b x, IZR a <= x <= IZR a + 1 -> IZR b <= x <= IZR b + 1 -> a = b \/ (b = a + 1)%Z \/ (b = a - 1)%Z.
Proof.
  intros a b x A B. assert (a < b + 2)%Z by (apply lt_IZR; rewrite plus_IZR; lra). assert (b < a + 2)%Z by (apply lt_IZR; rewrite plus_IZR; lra). lia.
Qed.
Lemma shift_x : forall d cols rows mid i i' j p, on_cell d cols rows mid i j p -> over_cell cols rows (i', j) p -> on_cell d cols rows mid i' j p.
Proof.
  intros d cols rows mid i i' j p H O. pose proof (on_cell_over _ _ _ _ _ _ _ H) as O1. unfold over_cell in *. cbn [fst snd] in *.
  destruct (same_or_next i i' (vx p + IZR (cols - 1) / 2)) as [<-|[->| ->]]; [lra|lra|exact H| |].
  - rewrite (plus_IZR i 1) in O. exists 0%Z. split; [auto|]. apply tri0. rewrite (plus_IZR i 1).
    assert (X : vx p = IZR i + 1 - IZR (cols - 1) / 2) by lra.
    destruct H as [k [[->| ->] H]]; [apply tri0 in H|apply tri1 in H]; destruct H as [A [B [C D]]]; rewrite D; rewrite X in *.
    + assert (Z : vz p - (IZR j - IZR (rows - 1) / 2) = 0) by lra. rewrite Z. split; [lra|]. split; [lra|]. split; [lra|]. ring.
    + split; [lra|]. split; [lra|]. split; [lra|]. ring.
  - rewrite (minus_IZR i 1) in O. exists 1%Z. split; [auto|]. apply tri1. rewrite (minus_IZR i 1). replace (i - 1 + 1)%Z with i by lia.
    assert (X : vx p = IZR i - IZR (cols - 1) / 2) by lra.
    destruct H as [k [[->| ->] H]]; [apply tri0 in H|apply tri1 in H]; destruct H as [A [B [C D]]]; rewrite D; rewrite X in *.
    + split; [lra|]. split; [lra|]. split; [lra|]. ring.
    + assert (Z : vz p - (IZR j - IZR (rows - 1) / 2) = 1) by lra. rewrite Z. split; [lra|]. split; [lra|]. split; [lra|]. ring.
Qed.
Lemma shift_z : forall d cols rows mid i j j' p, on_cell d cols rows mid i j p -> over_cell cols rows (i, j') p -> on_cell d cols rows mid i j' p.
Proof.
  intros d cols rows mid i j j' p H O. pose proof (on_cell_over _ _ _ _ _ _ _ H) as O1. unfold over_cell in *. cbn [fst snd] in *.
  destruct (same_or_next j j' (vz p + IZR (rows - 1) / 2)) as [<-|[->| ->]]; [lra|lra|exact H| |].
  - rewrite (plus_IZR j 1) in O. exists 0%Z. split; [auto|]. apply tri0. rewrite (plus_IZR j 1).
    assert (X : vz p = IZR j + 1 - IZR (rows - 1) / 2) by lra.
    destruct H as [k [[->| ->] H]]; [apply tri0 in H|apply tri1 in H]; destruct H as [A [B [C D]]]; rewrite D; rewrite X in *.
    + assert (Z : vx p - (IZR i - IZR (cols - 1) / 2) = 0) by lra. rewrite Z. split; [lra|]. split; [lra|]. split; [lra|]. ring.
    + split; [lra|]. split; [lra|]. split; [lra|]. ring.
  - rewrite (minus_IZR j 1) in O. exists 1%Z. split; [auto|]. apply tri1. rewrite (minus_IZR j 1). replace (j - 1 + 1)%Z with j by lia.
    assert (X : vz p = IZR j - IZR (rows - 1) / 2) by lra.
    destruct H as [k [[->| ->] H]]; [apply tri0 in H|apply tri1 in H]; destruct H as [A [B [C D]]]; rewrite D; rewrite X in *.
    + split; [lra|]. split; [lra|]. split; [lra|]. ring.
    + assert (Z : vx p - (IZR i - IZR (cols - 1) / 2) = 1) by lra. rewrite Z. split; [lra|]. split; [lra|]. split; [lra|]. ring.
Qed.
(** Neighbouring cells agree where they meet. *)
Lemma surface_shift : forall d cols rows mid i j i' j' p, on_cell d cols rows mid i j p -> over_cell cols rows (i', j') p -> on_cell d cols rows mid i' j' p.
Proof.
  intros d cols rows mid i j i' j' p H O. pose proof (on_cell_over _ _ _ _ _ _ _ H) as O1.
  apply (shift_z d cols rows mid i' j j'); [|exact O]. apply (shift_x d cols rows mid i i' j); [exact H|].
  unfold over_cell in *. cbn [fst snd] in *. lra.
Qed.

Lemma vertex_bounds : forall cols rows d f mn mx x y, field_of cols rows d f mn mx -> on_grid cols rows x y ->
  in_bounds (hf_bounds f) (grid_point d cols rows ((mn + mx) / 2) x y).
Proof.
  intros cols rows d f mn mx x y F G. unfold in_bounds. rewrite (fo_bmin _ _ _ _ _ _ F), (fo_bmax _ _ _ _ _ _ F). unfold grid_point. cbn [vx vy vz].
  pose proof (proj2 (fo_low _ _ _ _ _ _ F) x y G). pose proof (proj2 (fo_high _ _ _ _ _ _ F) x y G). destruct G as [Gx Gy].
  assert (0 <= IZR x <= IZR (cols - 1)) by (split; apply IZR_le; lia). assert (0 <= IZR y <= IZR (rows - 1)) by (split; apply IZR_le; lia). lra.
Qed.
Lemma triangle_bounds : forall b p q r x, in_bounds b p -> in_bounds b q -> in_bounds b r -> triangle_set p q r x -> in_bounds b x.
Proof.
  intros b p q r x P Q R_ [u [v [w [U [V [W [S ->]]]]]]]. unfold in_bounds in *. cbn [vx vy vz].
  replace u with (1 - v - w) in * by lra. repeat split; nra.
Qed.
Lemma surface_bounds : forall cols rows d f mn mx i j p, field_of cols rows d f mn mx -> is_cell cols rows i j -> on_cell d cols rows ((mn + mx) / 2) i j p ->
  in_bounds (hf_bounds f) p.
Proof.
  intros cols rows d f mn mx i j p F [Ci Cj] [k [K H]]. unfold on_triangle, corners in H. rewrite !vmul_unit in H.
  destruct K as [->| ->]; cbn [Z.eqb] in H; (eapply triangle_bounds; [| | |exact H]; apply (vertex_bounds _ _ _ _ _ _ _ _ F); split; lia).
Qed.
Lemma surface_cells : forall d cols rows mid p, on_surface d cols rows mid unit3 p <-> exists i j, is_cell cols rows i j /\ on_cell d cols rows mid i j p.
Proof.
  intros. unfold on_surface, on_cell. split.
  - intros [i [j [k [C [K H]]]]]. exists i, j. split; [exact C|]. exists k. auto.
  - intros [i [j [C [k [K H]]]]]. exists i, j, k. auto.
Qed.
(** The normals. *)
Definition tri_n (t : vec3 * vec3 * vec3) : vec3 := let '(a, b, c) := t in vcross (vsub b a) (vsub c a).
Lemma corners_normal : forall d cols rows mid s i j k, vy (tri_n (corners d cols rows mid s i j k)) = vx s * vz s.
Proof.
  intros d cols rows mid s i j k. unfold corners. destruct (Z.eqb k 0); cbn [tri_n]; unfold vcross, vsub, vmul, grid_point; cbn [vx vy vz]; rewrite !plus_IZR; ring.
Qed.
Lemma vy_le_vlen : forall v, vy v <= vlen v.
Proof.
  intros v. destruct (Rle_lt_dec 0 (vy v)) as [P|P]; [|pose proof (sqrt_pos (vlen2 v)); unfold vlen; lra].
  unfold vlen. rewrite <- (sqrt_square (vy v) P) at 1. apply sqrt_le_1; [nra|apply vlen2_nonneg|]. unfold vlen2. nra.
Qed.

(** ** What a ray cast finds *)
Lemma in_cells : forall d cols rows mid t l, In t (flat_map (cell_pair d cols rows mid) l) <-> exists i j k, In (i, j) l /\ (k = 0 \/ k = 1)%Z /\ t = corners d cols rows mid unit3 i j k.
Proof.
  intros d cols rows mid t l. rewrite in_flat_map. split.
  - intros [[i j] [Hc H]]. unfold cell_pair in H. cbn [fst snd In] in H. exists i, j. destruct H as [<-|[<-|[]]]; [exists 0%Z|exists 1%Z]; auto.
  - intros [i [j [k [Hc [K ->]]]]]. exists (i, j). split; [exact Hc|]. unfold cell_pair. cbn [fst snd In]. destruct K as [->| ->]; auto.
Qed.
Lemma exact_cast : forall eps s y d cols rows mid i j k, 0 < eps -> eps <= 1 -> exact_at eps s y (corners d cols rows mid unit3 i j k) ->
  match tri_cast eps s y (corners d cols rows mid unit3 i j k) with
  | Some h => hit_at y h (corners d cols rows mid unit3 i j k)
  | None => misses_closed (on_triangle (corners d cols rows mid unit3 i j k)) y
  end.
Proof.
  intros eps s y d cols rows mid i j k E1 E2 X. pose proof (corners_normal d cols rows mid unit3 i j k) as N.
  destruct (corners d cols rows mid unit3 i j k) as [[a b] c]. cbn [exact_at tri_cast hit_at on_triangle tri_n] in *.
  apply (triangle_cast_ok eps a b c y s E1); [|exact X]. unfold tri_normal. pose proof (vy_le_vlen (vcross (vsub b a) (vsub c a))). unfold unit3 in N. cbn [vx vz] in N. lra.
Qed.
Lemma field_cast_first : forall fuel eps eps2 big cols rows d f mn mx s y, field_of cols rows d f mn mx -> 0 < eps <= 1 -> 0 < eps2 -> ray_max y <= big ->
  good_ray eps2 y -> off_border rows y -> (Z.to_nat (cols + rows) <= fuel)%nat ->
  (forall i j k, is_cell cols rows i j -> exact_at eps s y (corners d cols rows ((mn + mx) / 2) unit3 i j k)) -> 0 <= big ->
  exists o, field_cast fuel eps eps2 big f s y = Ok o /\
    match o with
    | Some h => (exists i j k, is_cell cols rows i j /\ (k = 0 \/ k = 1)%Z /\ hit_at y h (corners d cols rows ((mn + mx) / 2) unit3 i j k)) /\
        forall u, 0 <= u < hit_fraction h -> ~ on_surface d cols rows ((mn + mx) / 2) unit3 (ray_at y u)
    | None => forall u, 0 <= u <= ray_max y -> ~ on_surface d cols rows ((mn + mx) / 2) unit3 (ray_at y u)
    end.
Proof.
  intros fuel eps eps2 big cols rows d f mn mx s y F [E1 E1'] E2 MB GR OB FU X BG.
  destruct (field_cast_ok fuel eps eps2 big cols rows d f mn mx s y F E2 BG GR OB FU) as [o [l [EQ [IC [OE CV]]]]].
  exists o. split; [exact EQ|]. set (mid := (mn + mx) / 2) in *.
  pose proof (cast_fold eps s y (flat_map (cell_pair d cols rows mid) l) (None, ray_max y)) as CF. cbn zeta in CF.
  destruct (fold_left (cast_step eps s y) (flat_map (cell_pair d cols rows mid) l) (None, ray_max y)) as [o' m']. cbn [fst snd] in *. subst o'.
  destruct CF as [_ [CF1 CF2]].
  (* a point of the surface on the ray is found in a visited cell *)
  assert (K : forall u, 0 <= u <= ray_max y -> on_surface d cols rows mid unit3 (ray_at y u) ->
    exists t h, In t (flat_map (cell_pair d cols rows mid) l) /\ tri_cast eps s y t = Some h /\ hit_fraction h = u).
  { intros u Hu S. apply surface_cells in S. destruct S as [i [j [C S]]].
    destruct (CV u) as [[i' j'] [Hc O]]; [lra|exact (surface_bounds _ _ _ _ _ _ _ _ _ F C S)|].
    destruct (surface_shift _ _ _ _ _ _ i' j' _ S O) as [k [HK T]].
    pose proof (IC _ Hc) as C'. cbn [fst snd] in C'.
    pose proof (exact_cast eps s y d cols rows mid i' j' k E1 E1' (X _ _ _ C')) as EC.
    assert (IT : In (corners d cols rows mid unit3 i' j' k) (flat_map (cell_pair d cols rows mid) l)) by (apply in_cells; exists i', j', k; auto).
    destruct (tri_cast eps s y (corners d cols rows mid unit3 i' j' k)) as [h|] eqn:TC.
    - exists (corners d cols rows mid unit3 i' j' k), h. split; [exact IT|]. split; [exact TC|].
      destruct (corners d cols rows mid unit3 i' j' k) as [[a b] c]. cbn [hit_at on_triangle] in *. unfold triangle_hit in EC. symmetry. apply EC. exact T.
    - exfalso. exact (EC u Hu T). }
  destruct CF2 as [[CF2 CF3]|[t [h [CF2 [CF3 CF4]]]]].
  - injection CF2 as -> ->. intros u Hu S. destruct (K u Hu S) as [t [h [IT [TC HF]]]]. specialize (CF3 t h IT TC). lra.
  - injection CF4 as -> ->. pose proof CF2 as IT. apply in_cells in IT. destruct IT as [i [j [k [Hc [HK ->]]]]]. pose proof (IC _ Hc) as C. cbn [fst snd] in C.
    pose proof (exact_cast eps s y d cols rows mid i j k E1 E1' (X _ _ _ C)) as EC. rewrite CF3 in EC. split; [exists i, j, k; auto|].
    intros u Hu S. assert (HM : 0 <= hit_fraction h <= ray_max y).
    { destruct (corners d cols rows mid unit3 i j k) as [[a b] c]. exact (triangle_cast_max _ _ _ _ _ _ _ CF3). }
    destruct (K u) as [t [h' [IT [TC HF]]]]; [lra|exact S|]. specialize (CF1 t h' IT TC). lra.
Qed.
(** Each single triangle, without a condition on the others. *)
Lemma field_cast_each : forall fuel eps eps2 big cols rows d f mn mx s y, field_of cols rows d f mn mx -> 0 < eps <= 1 -> 0 < eps2 -> ray_max y <= big ->
  good_ray eps2 y -> off_border rows y -> (Z.to_nat (cols + rows) <= fuel)%nat -> 0 <= big ->
  exists o, field_cast fuel eps eps2 big f s y = Ok o /\
    (forall h, o = Some h -> exists i j k, is_cell cols rows i j /\ (k = 0 \/ k = 1)%Z /\ tri_cast eps s y (corners d cols rows ((mn + mx) / 2) unit3 i j k) = Some h) /\
    (forall i j k h', is_cell cols rows i j -> (k = 0 \/ k = 1)%Z -> exact_at eps s y (corners d cols rows ((mn + mx) / 2) unit3 i j k) ->
       tri_cast eps s y (corners d cols rows ((mn + mx) / 2) unit3 i j k) = Some h' ->
       IZR i - IZR (cols - 1) / 2 < vx (hit_point h') < IZR i + 1 - IZR (cols - 1) / 2 ->
       IZR j - IZR (rows - 1) / 2 < vz (hit_point h') < IZR j + 1 - IZR (rows - 1) / 2 ->
       exists h, o = Some h /\ hit_fraction h <= hit_fraction h').
Proof.
  intros fuel eps eps2 big cols rows d f mn mx s y F [E1 E1'] E2 MB GR OB FU BG.
  destruct (field_cast_ok fuel eps eps2 big cols rows d f mn mx s y F E2 BG GR OB FU) as [o [l [EQ [IC [OE CV]]]]].
  exists o. split; [exact EQ|]. set (mid := (mn + mx) / 2) in *.
  pose proof (cast_fold eps s y (flat_map (cell_pair d cols rows mid) l) (None, ray_max y)) as CF. cbn zeta in CF.
  destruct (fold_left (cast_step eps s y) (flat_map (cell_pair d cols rows mid) l) (None, ray_max y)) as [o' m']. cbn [fst snd] in *. subst o'.
  destruct CF as [_ [CF1 CF2]]. split.
  - intros h ->. destruct CF2 as [[CF2 _]|[t [h' [CF2 [CF3 CF4]]]]]; [discriminate|]. injection CF4 as -> ->.
    apply in_cells in CF2. destruct CF2 as [i [j [k [Hc [HK ->]]]]]. exists i, j, k. split; [exact (IC _ Hc)|]. auto.
  - intros i j k h' C HK X TC SX SZ. pose proof (exact_cast eps s y d cols rows mid i j k E1 E1' X) as EC. rewrite TC in EC.
    assert (P : hit_point h' = ray_at y (hit_fraction h') /\ on_triangle (corners d cols rows mid unit3 i j k) (hit_point h') /\ 0 <= hit_fraction h' <= ray_max y).
    { destruct (corners d cols rows mid unit3 i j k) as [[a b] c]. cbn [hit_at on_triangle] in *. unfold triangle_hit in EC. tauto. }
    destruct P as [P1 [P2 P3]].
    destruct (CV (hit_fraction h')) as [[i' j'] [Hc O]]; [lra|rewrite <- P1; apply (surface_bounds _ _ _ _ _ _ i j _ F C); exists k; auto|].
    rewrite <- P1 in O. unfold over_cell in O. cbn [fst snd] in O.
    assert (i' = i). { assert (i' < i + 1)%Z by (apply lt_IZR; rewrite plus_IZR; lra). assert (i < i' + 1)%Z by (apply lt_IZR; rewrite plus_IZR; lra). lia. }
    assert (j' = j). { assert (j' < j + 1)%Z by (apply lt_IZR; rewrite plus_IZR; lra). assert (j < j' + 1)%Z by (apply lt_IZR; rewrite plus_IZR; lra). lia. }
    subst i' j'. assert (IT : In (corners d cols rows mid unit3 i j k) (flat_map (cell_pair d cols rows mid) l)) by (apply in_cells; exists i, j, k; auto).
    destruct CF2 as [[CF2 CF3]|[t [h [CF2 [CF3 CF4]]]]].
    + exfalso. specialize (CF3 _ _ IT TC). lra.
    + injection CF4 as -> ->. exists h. split; [reflexivity|]. exact (CF1 _ _ IT TC).
Qed.

(** ** The far border *)
Lemma clamp_top : forall L : Z, (1 <= L)%Z -> clamp_int L 0 (L - 1) = (L - 1)%Z.
Proof. intros L H. unfold clamp_int. lia. Qed.
Lemma trunc_IZR : forall z, (0 <= z)%Z -> trunc (IZR z) = z.
Proof.
  intros z H. pose proof (IZR_le _ _ H) as P. destruct (trunc_nonneg (IZR z) P) as [[A B] _].
  apply le_IZR in A. assert (z < trunc (IZR z) + 1)%Z by (apply lt_IZR; rewrite plus_IZR; exact B). lia.
Qed.
Lemma walk_stuck : forall eps cols rows d f mn mx s y w i j, field_of cols rows d f mn mx -> w_ci w = (cols - 1)%Z -> w_cj w = (rows - 1)%Z ->
  w_si w <> 0%Z -> w_sj w = 0%Z -> is_cell cols rows i j -> forall fuel ti st, walk_loop fuel eps f s y w i j ti NaN st = Fuel.
Proof.
  intros eps cols rows d f mn mx s y w i j F Ci Cj Si Sj C. induction fuel as [|fuel IH]; intros ti st; cbn [walk_loop]; rewrite Ci, Cj; destruct C as [C1 C2];
  replace (Z.leb 0 i && Z.ltb i (cols - 1) && Z.leb 0 j && Z.ltb j (rows - 1))%bool with true
    by (symmetry; rewrite !Bool.andb_true_iff; repeat split; try apply Z.leb_le; try apply Z.ltb_lt; lia); [reflexivity|].
  rewrite (cast_cell_ok _ _ _ _ _ _ _ _ _ _ _ _ F (conj C1 C2)). cbn [bind]. apply Z.eqb_neq in Si. rewrite Si. cbn [andb].
  replace (xlt ti NaN) with false by (destruct ti; reflexivity). rewrite Sj, Z.add_0_r. cbn [xadd]. apply IH.
Qed.
Lemma far_border : forall eps eps2 big cols rows d f mn mx s y, field_of cols rows d f mn mx -> 0 < eps2 -> 0 <= big -> good_ray eps2 y ->
  vz (ray_p1 y) = IZR (rows - 1) / 2 -> vz (ray_p2 y) = IZR (rows - 1) / 2 -> vx (ray_p1 y) <> vx (ray_p2 y) ->
  (exists u, 0 <= u <= big /\ in_bounds (hf_bounds f) (ray_at y u)) -> forall fuel, field_cast fuel eps eps2 big f s y = Fuel.
Proof.
  intros eps eps2 big cols rows d f mn mx s y F E BG GR Z1 Z2 X [u0 [U0 B0]] fuel. unfold field_cast.
  pose proof (fo_int _ _ _ _ _ _ F) as I. pose proof (fo_2c _ _ _ _ _ _ F) as C2. pose proof (fo_2r _ _ _ _ _ _ F) as R2. unfold int_max in I.
  assert (WB : 1 <= IZR (cols - 1) <= 2147483646) by (split; [apply IZR_le|apply IZR_le]; nia).
  assert (LB : 1 <= IZR (rows - 1) <= 2147483646) by (split; [apply IZR_le|apply IZR_le]; nia).
  pose proof (fo_bmin _ _ _ _ _ _ F) as BN. pose proof (fo_bmax _ _ _ _ _ _ F) as BX.
  assert (OB : forall i, comp (bmin (hf_bounds f)) i <= comp (bmax (hf_bounds f)) i).
  { unfold in_bounds in B0. rewrite BN, BX in *. cbn [vx vy vz] in B0. intros [|[|i]]; unfold comp; cbn [vx vy vz]; lra. }
  pose proof (aabb_ok eps2 big (hf_bounds f) y E BG OB GR) as AO.
  destruct (aabb_cast eps2 big (hf_bounds f) y) as [p|]; [|exfalso; exact (AO u0 U0 B0)].
  destruct AO as [t [-> [T1 [T2 _]]]]. unfold in_bounds in T2. rewrite BN, BX in *. cbn [vx vy vz vsub] in *.
  rewrite (fo_cols _ _ _ _ _ _ F), (fo_rows _ _ _ _ _ _ F).
  set (W := IZR (cols - 1)) in *. set (L := IZR (rows - 1)) in *.
  assert (PZ : vz (ray_at y t) = L / 2). { unfold ray_at, lerp. cbn [vz vx vy]. rewrite Z1, Z2. field. }
  assert (EW : (W / 2 - - (W / 2)) / W = 1) by (field; lra). assert (EL : (L / 2 - - (L / 2)) / L = 1) by (field; lra).
  rewrite EW, EL, PZ.
  assert (CI : exists c, cast_int ((vx (ray_at y t) - - (W / 2)) / 1) = Ok c).
  { destruct (cast_ok ((vx (ray_at y t) - - (W / 2)) / 1)) as [c [Q _]]; [lra|change (IZR int_max) with 2147483647; lra|]. exists c. exact Q. }
  destruct CI as [c0 CI]. rewrite CI. cbn [bind].
  assert (CJ : cast_int ((L / 2 - - (L / 2)) / 1) = Ok (rows - 1)%Z).
  { unfold cast_int. replace ((L / 2 - - (L / 2)) / 1) with (IZR (rows - 1)) by (unfold L; field). rewrite trunc_IZR by lia.
    unfold int_of, fits_int. replace (Z.leb int_min (rows - 1)) with true by (symmetry; apply Z.leb_le; unfold int_min; lia).
    replace (Z.leb (rows - 1) int_max) with true by (symmetry; apply Z.leb_le; unfold int_max; nia). reflexivity. }
  rewrite CJ. cbn [bind]. rewrite clamp_top by lia.
  assert (SZ : sign_of (vz (ray_p2 y) - vz (ray_p1 y)) = 0%Z).
  { rewrite Z1, Z2. destruct (sign_cases (L / 2 - L / 2)) as [[Q _]|[[Q _]|[_ Q]]]; [lra|lra|exact Q]. }
  rewrite SZ. cbn [Z.leb Z.compare].
  assert (TJ : xdiv (IZR (rows - 1 - 1 + 1) * 1 - (L / 2 - - (L / 2))) (vz (ray_p2 y) - vz (ray_p1 y)) = NaN).
  { unfold xdiv. replace (vz (ray_p2 y) - vz (ray_p1 y)) with 0 by lra. replace (rows - 1 - 1 + 1)%Z with (rows - 1)%Z by lia. fold L.
    replace (L * 1 - (L / 2 - - (L / 2))) with 0 by field. destruct (req 0 0) eqn:Q; [reflexivity|apply req_false in Q; lra]. }
  rewrite TJ.
  rewrite (walk_stuck eps cols rows d f mn mx s y _ _ _ F); [reflexivity|reflexivity|reflexivity| |reflexivity|].
  - cbn [w_si]. destruct (sign_cases (vx (ray_p2 y) - vx (ray_p1 y))) as [[_ ->]|[[_ ->]|[Q _]]]; [lia|lia|lra].
  - split; [unfold clamp_int; lia|lia].
Qed.

(** ** The scaled shape *)
Lemma vmul_inv : forall s p, vmul p (inv_scale s) = V3 (vx p / vx s) (vy p / vy s) (vz p / vz s).
Proof. intros. unfold vmul, inv_scale. cbn [vx vy vz]. f_equal; unfold Rdiv; ring. Qed.
Lemma vmul_back : forall s p, positive s -> vmul (vmul p (inv_scale s)) s = p.
Proof. intros s [x y z] [A [B C]]. unfold vmul, inv_scale. cbn [vx vy vz]. f_equal; field; lra. Qed.
Lemma vmul_there : forall s p, positive s -> vmul (vmul p s) (inv_scale s) = p.
Proof. intros s [x y z] [A [B C]]. unfold vmul, inv_scale. cbn [vx vy vz]. f_equal; field; lra. Qed.
Lemma unscaled_ray_eq : forall s y, unscaled_ray s y = Ray (vmul (ray_p1 y) (inv_scale s)) (vmul (ray_p2 y) (inv_scale s)) (ray_max y).
Proof. intros. unfold unscaled_ray. now rewrite !vmul_inv. Qed.
Lemma ray_at_unscaled : forall s y u, ray_at (unscaled_ray s y) u = vmul (ray_at y u) (inv_scale s).
Proof. intros. rewrite unscaled_ray_eq. unfold ray_at, lerp, vmul, inv_scale. cbn [ray_p1 ray_p2 vx vy vz]. f_equal; ring. Qed.
Lemma corners_scaled : forall d cols rows mid s i j k, corners d cols rows mid s i j k =
  let '(a, b, c) := corners d cols rows mid unit3 i j k in (vmul a s, vmul b s, vmul c s).
Proof. intros. unfold corners. rewrite !vmul_unit. destruct (Z.eqb k 0); reflexivity. Qed.
Lemma triangle_scaled : forall a b c s p, triangle_set a b c p -> triangle_set (vmul a s) (vmul b s) (vmul c s) (vmul p s).
Proof.
  intros a b c s p [u [v [w [U [V [W [S ->]]]]]]]. exists u, v, w. split; [exact U|]. split; [exact V|]. split; [exact W|]. split; [exact S|].
  unfold vmul. cbn [vx vy vz]. f_equal; ring.
Qed.
Lemma surface_scale : forall d cols rows mid s p, on_surface d cols rows mid unit3 p -> on_surface d cols rows mid s (vmul p s).
Proof.
  intros d cols rows mid s p [i [j [k [C [K H]]]]]. exists i, j, k. split; [exact C|]. split; [exact K|]. rewrite corners_scaled.
  destruct (corners d cols rows mid unit3 i j k) as [[a b] c]. cbn [on_triangle] in *. now apply triangle_scaled.
Qed.
Lemma on_triangle_unscale : forall d cols rows mid s i j k p, positive s -> on_triangle (corners d cols rows mid s i j k) p ->
  on_triangle (corners d cols rows mid unit3 i j k) (vmul p (inv_scale s)).
Proof.
  intros d cols rows mid s i j k p P H. rewrite corners_scaled in H.
  destruct (corners d cols rows mid unit3 i j k) as [[a b] c]. cbn [on_triangle] in *. apply (triangle_scaled _ _ _ (inv_scale s)) in H. now rewrite !vmul_there in H.
Qed.
Lemma surface_unscale : forall d cols rows mid s p, positive s -> on_surface d cols rows mid s p -> on_surface d cols rows mid unit3 (vmul p (inv_scale s)).
Proof.
  intros d cols rows mid s p P [i [j [k [C [K H]]]]]. exists i, j, k. split; [exact C|]. split; [exact K|]. now apply on_triangle_unscale.
Qed.
Lemma vertex_on_surface : forall d cols rows mid s x y, (2 <= cols)%Z -> (2 <= rows)%Z -> on_grid cols rows x y -> on_surface d cols rows mid s (vmul (grid_point d cols rows mid x y) s).
Proof.
  intros d cols rows mid s x y C R_ [Gx Gy].
  assert (K1 : forall a b c, triangle_set a b c a) by (intros; exists 1, 0, 0; repeat split; try lra; destruct a as [ax ay az]; cbn [vx vy vz]; f_equal; ring).
  assert (K2 : forall a b c, triangle_set a b c b) by (intros; exists 0, 1, 0; repeat split; try lra; destruct b as [ax ay az]; cbn [vx vy vz]; f_equal; ring).
  assert (K3 : forall a b c, triangle_set a b c c) by (intros; exists 0, 0, 1; repeat split; try lra; destruct c as [ax ay az]; cbn [vx vy vz]; f_equal; ring).
  destruct (Z.eq_dec x (cols - 1)) as [Ex|Ex]; destruct (Z.eq_dec y (rows - 1)) as [Ey|Ey].
  - exists (x - 1)%Z, (y - 1)%Z, 1%Z. split; [split; lia|]. split; [auto|]. unfold corners. cbn [Z.eqb on_triangle].
    replace (x - 1 + 1)%Z with x by lia. replace (y - 1 + 1)%Z with y by lia. apply K3.
  - exists (x - 1)%Z, y, 0%Z. split; [split; lia|]. split; [auto|]. unfold corners. cbn [Z.eqb on_triangle]. replace (x - 1 + 1)%Z with x by lia. apply K3.
  - exists x, (y - 1)%Z, 0%Z. split; [split; lia|]. split; [auto|]. unfold corners. cbn [Z.eqb on_triangle]. replace (y - 1 + 1)%Z with y by lia. apply K2.
  - exists x, y, 0%Z. split; [split; lia|]. split; [auto|]. unfold corners. cbn [Z.eqb on_triangle]. apply K1.
Qed.
Lemma field_bounds : forall cols rows d f mn mx s, field_of cols rows d f mn mx -> positive s -> tight_bounds (on_surface d cols rows ((mn + mx) / 2) s) (shape_bounds f s).
Proof.
  intros cols rows d f mn mx s F [Sx [Sy Sz]]. set (mid := (mn + mx) / 2).
  pose proof (fo_2c _ _ _ _ _ _ F) as C2. pose proof (fo_2r _ _ _ _ _ _ F) as R2.
  assert (V : forall x y, on_grid cols rows x y -> on_surface d cols rows mid s (vmul (grid_point d cols rows mid x y) s)) by (intros; now apply vertex_on_surface).
  unfold shape_bounds. split.
  - intros p H. apply surface_unscale in H; [|split; [exact Sx|split; [exact Sy|exact Sz]]]. apply surface_cells in H. destruct H as [i [j [C H]]].
    pose proof (surface_bounds _ _ _ _ _ _ i j _ F C H) as B. rewrite vmul_inv in B. unfold in_bounds in *. unfold vmul. cbn [vx vy vz bmin bmax] in *.
    assert (Q : forall a b c : R, 0 < c -> a <= b / c -> a * c <= b) by (intros a b c Hc Hb; apply (Rmult_le_compat_r c) in Hb; [|lra]; replace (b / c * c) with b in Hb by (field; lra); exact Hb).
    assert (Q' : forall a b c : R, 0 < c -> b / c <= a -> b <= a * c) by (intros a b c Hc Hb; apply (Rmult_le_compat_r c) in Hb; [|lra]; replace (b / c * c) with b in Hb by (field; lra); exact Hb).
    destruct B as [[B1 B1'] [[B2 B2'] [B3 B3']]]. repeat split; auto.
  - rewrite (fo_bmin _ _ _ _ _ _ F), (fo_bmax _ _ _ _ _ _ F). unfold vmul at 1 3 5 7 9 11. cbn [bmin bmax vx vy vz].
    destruct (fo_low _ _ _ _ _ _ F) as [[x0 [y0 [G0 E0]]] _]. destruct (fo_high _ _ _ _ _ _ F) as [[x1 [y1 [G1 E1]]] _].
    assert (G00 : on_grid cols rows 0 0) by (split; lia). assert (G11 : on_grid cols rows (cols - 1) (rows - 1)) by (split; lia).
    split; [exists (vmul (grid_point d cols rows mid 0 0) s); split; [now apply V|unfold vmul, grid_point; cbn [vx vy vz]; field]|].
    split; [exists (vmul (grid_point d cols rows mid (cols - 1) (rows - 1)) s); split; [now apply V|unfold vmul, grid_point; cbn [vx vy vz]; field]|].
    split; [exists (vmul (grid_point d cols rows mid x0 y0) s); split; [now apply V|unfold vmul, grid_point; cbn [vx vy vz]; rewrite E0; unfold mid; field]|].
    split; [exists (vmul (grid_point d cols rows mid x1 y1) s); split; [now apply V|unfold vmul, grid_point; cbn [vx vy vz]; rewrite E1; unfold mid; field]|].
    split; [exists (vmul (grid_point d cols rows mid 0 0) s); split; [now apply V|unfold vmul, grid_point; cbn [vx vy vz]; field]|].
    exists (vmul (grid_point d cols rows mid (cols - 1) (rows - 1)) s); split; [now apply V|unfold vmul, grid_point; cbn [vx vy vz]; field].
Qed.

(** ** Queries of the scaled shape *)
Lemma map_flat_map : forall {A B C} (g : B -> C) (h : A -> list B) l, map g (flat_map h l) = flat_map (fun x => map g (h x)) l.
Proof. intros A B C g h l. induction l as [|a l IH]; cbn [flat_map map]; [reflexivity|]. now rewrite map_app, IH. Qed.
Lemma meets_unscale : forall cols rows s b i j, positive s -> cell_meets cols rows s b i j ->
  cell_meets cols rows (V3 1 1 1) (Box3 (vmul (bmin b) (inv_scale s)) (vmul (bmax b) (inv_scale s))) i j.
Proof.
  intros cols rows s b i j [Sx [Sy Sz]] [[x [X1 X2]] [z [Z1 Z2]]].
  assert (Q : forall a b c : R, 0 < c -> a * c <= b -> a * 1 <= b / c) by (intros a b0 c Hc Hb; apply (Rmult_le_reg_r c); [exact Hc|]; replace (b0 / c * c) with b0 by (field; lra); lra).
  assert (Q' : forall a b c : R, 0 < c -> b <= a * c -> b / c <= a * 1) by (intros a b0 c Hc Hb; apply (Rmult_le_reg_r c); [exact Hc|]; replace (b0 / c * c) with b0 by (field; lra); lra).
  assert (Q2 : forall a b c : R, 0 < c -> a <= b -> a / c <= b / c) by (intros a b0 c Hc Hb; apply Rmult_le_compat_r; [left; now apply Rinv_0_lt_compat|exact Hb]).
  split; [exists (x / vx s)|exists (z / vz s)]; cbn [bmin bmax]; rewrite !vmul_inv; cbn [vx vy vz]; split; split; first [apply Q; [assumption|lra] | apply Q'; [assumption|lra] | apply Q2; [assumption|lra]].
Qed.
