From Verif Require Import Base VecModel VecProofs ShapeModel ShapeSpec ShapeProofs ShapeMeshProofs MeshProofs HeightFieldModel HeightFieldSpec.
From Coq Require Import Reals Lra Lia ZArith.
Open Scope R_scope.

(** ** Creation *)
Lemma zseq_in : forall n k, In k (zseq n) <-> (0 <= k < n)%Z.
Proof.
  intros n k. unfold zseq. rewrite in_map_iff. split.
  - intros [m [<- H]]. apply in_seq in H. lia.
  - intros H. exists (Z.to_nat k). split; [lia|]. apply in_seq. lia.
Qed.
Lemma zrange_in : forall a b k, In k (zrange a b) <-> (a <= k < b)%Z.
Proof.
  intros a b k. unfold zrange. rewrite in_map_iff. split.
  - intros [m [<- H]]. apply in_seq in H. lia.
  - intros H. exists (Z.to_nat (k - a)). split; [lia|]. apply in_seq. lia.
Qed.
Lemma zrange_nodup : forall a b, NoDup (zrange a b).
Proof. intros a b. unfold zrange. apply FinFun.Injective_map_NoDup; [intros x y; lia|apply seq_NoDup]. Qed.

Definition hget (d : heights) (i : Z) : R :=
  match d with Decimals l => nth (Z.to_nat i) l 0 | Integers l k => IZR (nth (Z.to_nat i) l 0%Z) * k end.
Lemma height_in_ok : forall d i, (Z.to_nat i < how_many d)%nat -> height_in d i = Ok (hget d i).
Proof.
  intros [l|l k] i H; cbn in *.
  - rewrite (nth_error_nth' l 0 H). reflexivity.
  - rewrite (nth_error_nth' l 0%Z H). reflexivity.
Qed.
Lemma height_in_inv : forall d i h, height_in d i = Ok h -> (Z.to_nat i < how_many d)%nat /\ h = hget d i.
Proof.
  intros d i h H. destruct (lt_dec (Z.to_nat i) (how_many d)) as [L|L].
  - rewrite height_in_ok in H by exact L. injection H as <-. auto.
  - exfalso. destruct d as [l|l k]; cbn in *; rewrite (proj2 (nth_error_None _ _)) in H by lia; discriminate H.
Qed.
Lemma read_all_ok : forall d l, (forall i, In i l -> (Z.to_nat i < how_many d)%nat) -> read_all d l = Ok (map (hget d) l).
Proof.
  intros d. induction l as [|i l IH]; intros H; [reflexivity|]. cbn. rewrite height_in_ok by (apply H; left; reflexivity). cbn.
  rewrite IH by (intros; apply H; right; assumption). reflexivity.
Qed.
Lemma read_all_inv : forall d l r, read_all d l = Ok r -> (forall i, In i l -> (Z.to_nat i < how_many d)%nat).
Proof.
  intros d. induction l as [|i l IH]; intros r H j Hj; [contradiction|]. cbn in H. apply bind_ok in H. destruct H as [h [H1 H2]].
  apply bind_ok in H2. destruct H2 as [r' [H2 _]]. destruct Hj as [<-|Hj]; [apply height_in_inv in H1; tauto|eapply IH; eassumption].
Qed.
Definition mm (a : option (R * R)) (l : list R) : option (R * R) := fold_left min_max l a.
Lemma copy_data_ok : forall d l a, (forall i, In i l -> (Z.to_nat i < how_many d)%nat) -> copy_data d l a = Ok (mm a (map (hget d) l)).
Proof.
  intros d. induction l as [|i l IH]; intros a H; [reflexivity|]. cbn. rewrite height_in_ok by (apply H; left; reflexivity). cbn.
  rewrite IH by (intros; apply H; right; assumption). reflexivity.
Qed.
Lemma mm_some : forall l mn mx, mn <= mx -> exists mn' mx', mm (Some (mn, mx)) l = Some (mn', mx') /\ mn' <= mn /\ mx <= mx' /\
  (forall h, In h l -> mn' <= h <= mx') /\ (mn' = mn \/ In mn' l) /\ (mx' = mx \/ In mx' l).
Proof.
  induction l as [|h l IH]; intros mn mx L; cbn [mm fold_left].
  - exists mn, mx. split; [reflexivity|]. split; [lra|]. split; [lra|]. split; [intros h []|]. split; left; reflexivity.
  - set (mn1 := if rlt h mn then h else mn). set (mx1 := if rlt mx h then h else mx).
    assert (A : mn1 <= mn /\ mn1 <= h /\ (mn1 = mn \/ mn1 = h)).
    { unfold mn1. destruct (rlt h mn) eqn:E; [apply rlt_true in E|apply rlt_false in E]; repeat split; try lra; auto. }
    assert (B : mx <= mx1 /\ h <= mx1 /\ (mx1 = mx \/ mx1 = h)).
    { unfold mx1. destruct (rlt mx h) eqn:E; [apply rlt_true in E|apply rlt_false in E]; repeat split; try lra; auto. }
    destruct (IH mn1 mx1 ltac:(lra)) as [mn' [mx' [E [P1 [P2 [P3 [P4 P5]]]]]]].
    exists mn', mx'. split; [exact E|]. split; [lra|]. split; [lra|]. split; [|split].
    + intros k [<-|Hk]; [lra|auto].
    + destruct P4 as [P4|P4]; [|right; right; exact P4]. destruct A as [_ [_ [A|A]]]; [left; lra|right; left; lra].
    + destruct P5 as [P5|P5]; [|right; right; exact P5]. destruct B as [_ [_ [B|B]]]; [left; lra|right; left; lra].
Qed.
Lemma mm_none : forall l, l <> [] -> exists mn mx, mm None l = Some (mn, mx) /\ mn <= mx /\ (forall h, In h l -> mn <= h <= mx) /\ In mn l /\ In mx l.
Proof.
  intros [|h l] N; [congruence|]. cbn [mm fold_left].
  replace (min_max None h) with (Some (h, h)).
  2:{ cbn. destruct (rlt h h); reflexivity. }
  destruct (mm_some l h h ltac:(lra)) as [mn [mx [E [P1 [P2 [P3 [P4 P5]]]]]]]. exists mn, mx. split; [exact E|]. split; [lra|]. split; [|split].
  - intros k [<-|Hk]; [lra|auto].
  - destruct P4 as [->|P4]; [left; reflexivity|right; exact P4].
  - destruct P5 as [->|P5]; [left; reflexivity|right; exact P5].
Qed.
Lemma copy_order_in : forall cols rows i, In i (copy_order cols rows) <-> exists x y, on_grid cols rows x y /\ i = (y * cols + x)%Z.
Proof.
  intros cols rows i. unfold copy_order. rewrite in_flat_map. split.
  - intros [x [Hx H]]. apply in_map_iff in H. destruct H as [y [<- Hy]]. apply zseq_in in Hx, Hy. exists x, y. split; [split; assumption|reflexivity].
  - intros [x [y [[Hx Hy] ->]]]. exists x. split; [apply zseq_in; exact Hx|]. apply in_map_iff. exists y. split; [reflexivity|apply zseq_in; exact Hy].
Qed.
Lemma index_bound : forall cols rows x y, on_grid cols rows x y -> (0 <= y * cols + x < cols * rows)%Z.
Proof. intros cols rows x y [Hx Hy]. nia. Qed.

(** The field created from the heights [d]. *)
Record field_of (cols rows : Z) (d : heights) (f : hfield) (mn mx : R) : Prop := mk_field_of {
  fo_cols : hf_cols f = cols; fo_rows : hf_rows f = rows; fo_2c : (2 <= cols)%Z; fo_2r : (2 <= rows)%Z;
  fo_int : (cols * rows <= int_max)%Z;
  fo_min : hf_min f = mn; fo_max : hf_max f = mx; fo_low : lowest d cols rows mn; fo_high : highest d cols rows mx;
  fo_height : forall x y, on_grid cols rows x y -> height_at f x y = Ok (given d cols x y);
  fo_origin : hf_origin f = - ((mn + mx) / 2);
  fo_bmin : bmin (hf_bounds f) = V3 (- (IZR (cols - 1) / 2)) (- ((mx - mn) / 2)) (- (IZR (rows - 1) / 2));
  fo_bmax : bmax (hf_bounds f) = V3 (IZR (cols - 1) / 2) ((mx - mn) / 2) (IZR (rows - 1) / 2) }.
Lemma given_hget : forall d cols x y, given d cols x y = hget d (y * cols + x).
Proof. intros [l|l k] cols x y; reflexivity. Qed.

Lemma create_ok : forall cols rows d, (2 <= cols)%Z -> (2 <= rows)%Z -> (cols * rows <= int_max)%Z -> (Z.to_nat (cols * rows) <= how_many d)%nat ->
  exists f mn mx, create_field cols rows d = Ok (Some f) /\ field_of cols rows d f mn mx.
Proof.
  intros cols rows d C Rw I H. unfold create_field.
  destruct (Z.ltb_spec cols 2); [lia|]. destruct (Z.ltb_spec rows 2); [lia|]. cbn [orb].
  assert (P4 : (4 <= cols * rows)%Z) by nia.
  unfold int_of, fits_int. replace (Z.leb int_min (cols * rows)) with true by (symmetry; apply Z.leb_le; unfold int_min; lia).
  replace (Z.leb (cols * rows) int_max) with true by (symmetry; apply Z.leb_le; exact I). cbn [andb bind].
  assert (BD : forall i, (0 <= i < cols * rows)%Z -> (Z.to_nat i < how_many d)%nat) by (intros; lia).
  rewrite read_all_ok by (intros i Hi; apply zseq_in in Hi; apply BD; exact Hi). cbn [bind].
  rewrite copy_data_ok by (intros i Hi; apply copy_order_in in Hi; destruct Hi as [x [y [G ->]]]; apply BD; apply index_bound; exact G). cbn [bind].
  assert (NE : map (hget d) (copy_order cols rows) <> []).
  { intros Q. apply map_eq_nil in Q. assert (In 0%Z (copy_order cols rows)) by (apply copy_order_in; exists 0%Z, 0%Z; split; [split; lia|lia]). rewrite Q in H2. contradiction. }
  destruct (mm_none _ NE) as [mn [mx [E [L [B [M1 M2]]]]]]. rewrite E. cbn [bind]. eexists. exists mn, mx. split; [reflexivity|].
  assert (GI : forall x y, on_grid cols rows x y -> In (given d cols x y) (map (hget d) (copy_order cols rows))).
  { intros x y G. rewrite given_hget. apply in_map. apply copy_order_in. exists x, y. auto. }
  assert (IG : forall m, In m (map (hget d) (copy_order cols rows)) -> exists x y, on_grid cols rows x y /\ given d cols x y = m).
  { intros m Hm. apply in_map_iff in Hm. destruct Hm as [i [<- Hi]]. apply copy_order_in in Hi. destruct Hi as [x [y [G ->]]]. exists x, y. split; [exact G|apply given_hget]. }
  constructor; cbn [hf_cols hf_rows hf_min hf_max hf_origin hf_bounds bmin bmax]; try reflexivity; try assumption.
  - split; [apply IG; exact M1|]. intros x y G. apply B. apply GI. exact G.
  - split; [apply IG; exact M2|]. intros x y G. apply B. apply GI. exact G.
  - intros x y G. unfold height_at. cbn [hf_cols hf_data]. rewrite given_hget. pose proof (index_bound _ _ _ _ G) as IB.
    unfold zseq. rewrite map_map. set (k := (y * cols + x)%Z) in *.
    assert (Q : nth_error (map (fun n => hget d (Z.of_nat n)) (seq 0 (Z.to_nat (cols * rows)))) (Z.to_nat k) = Some (hget d (Z.of_nat (Z.to_nat k)))).
    { apply map_nth_error with (d := Z.to_nat k). rewrite nth_error_nth' with (d := O) by (rewrite seq_length; lia). f_equal. rewrite seq_nth by lia. reflexivity. }
    rewrite Q. rewrite Z2Nat.id by lia. reflexivity.
  - field.
  - f_equal; field.
  - f_equal; field.
Qed.
Lemma create_inv : forall cols rows d f, create_field cols rows d = Ok (Some f) -> exists mn mx, field_of cols rows d f mn mx.
Proof.
  intros cols rows d f H.
  assert (Q : (2 <= cols)%Z /\ (2 <= rows)%Z /\ (cols * rows <= int_max)%Z /\ (Z.to_nat (cols * rows) <= how_many d)%nat).
  { unfold create_field in H. destruct (Z.ltb_spec cols 2); [discriminate|]. destruct (Z.ltb_spec rows 2); [discriminate|]. cbn [orb] in H.
    apply bind_ok in H. destruct H as [n [N H]]. unfold int_of, fits_int in N.
    destruct (Z.leb int_min (cols * rows) && Z.leb (cols * rows) int_max)%bool eqn:E; [|discriminate]. injection N as <-.
    apply andb_prop in E. destruct E as [_ E]. apply Z.leb_le in E. apply bind_ok in H. destruct H as [r [Q H]].
    split; [lia|]. split; [lia|]. split; [exact E|]. pose proof (read_all_inv _ _ _ Q (cols * rows - 1)%Z) as B.
    assert (4 <= cols * rows)%Z by nia. specialize (B ltac:(apply zseq_in; lia)). lia. }
  destruct Q as [A [B [C D]]]. destruct (create_ok _ _ _ A B C D) as [f' [mn [mx [E F]]]]. rewrite H in E. injection E as <-. exists mn, mx. exact F.
Qed.

(** ** Queries *)
Lemma vertex_ok : forall cols rows d f mn mx x y, field_of cols rows d f mn mx -> on_grid cols rows x y ->
  vertex_at f x y = Ok (grid_point d cols rows ((mn + mx) / 2) x y).
Proof.
  intros cols rows d f mn mx x y F G. unfold vertex_at. rewrite (fo_height _ _ _ _ _ _ F x y G). cbn [bind]. unfold hf_width, hf_length.
  rewrite (fo_cols _ _ _ _ _ _ F), (fo_rows _ _ _ _ _ _ F), (fo_origin _ _ _ _ _ _ F). unfold grid_point. f_equal. f_equal; field.
Qed.
Lemma trunc_nonneg : forall r, 0 <= r -> IZR (trunc r) <= r < IZR (trunc r) + 1 /\ (0 <= trunc r)%Z.
Proof.
  intros r H. unfold trunc. destruct (rle 0 r) eqn:E; [|apply rle_false in E; lra].
  pose proof (base_Int_part r) as [A B]. split; [lra|]. apply le_IZR. cbn.
  destruct (Z.leb_spec 0 (Int_part r)) as [Q|Q]; [apply IZR_le in Q; exact Q|]. exfalso.
  assert (IZR (Int_part r) <= IZR (-1)) by (apply IZR_le; lia). cbn in H0. lra.
Qed.
Lemma int_of_ok : forall z, (int_min <= z <= int_max)%Z -> int_of z = Ok z.
Proof.
  intros z H. unfold int_of, fits_int. replace (Z.leb int_min z) with true by (symmetry; apply Z.leb_le; lia).
  replace (Z.leb z int_max) with true by (symmetry; apply Z.leb_le; lia). reflexivity.
Qed.
Lemma s32_u32 : forall z, (int_min <= z <= int_max)%Z -> s32 (u32 z) = z.
Proof.
  intros z H. unfold int_min, int_max in H. unfold s32, u32, int_max. destruct (Z.leb_spec 0 z).
  - rewrite Z.mod_small by lia. destruct (Z.leb_spec z (2 ^ 31 - 1)); lia.
  - replace (z mod 2 ^ 32)%Z with (z + 2 ^ 32)%Z.
    + destruct (Z.leb_spec (z + 2 ^ 32) (2 ^ 31 - 1)); lia.
    + apply Z.mod_unique with (q := (-1)%Z); lia.
Qed.
Lemma cast_ok : forall r, 0 <= r -> r < IZR int_max -> exists c, cast_int r = Ok c /\ IZR c <= r < IZR c + 1 /\ (0 <= c < int_max)%Z.
Proof.
  intros r H B. destruct (trunc_nonneg r H) as [T N]. exists (trunc r).
  assert (L : (trunc r < int_max)%Z) by (apply lt_IZR; lra).
  split; [apply int_of_ok; unfold int_min; lia|]. split; [exact T|lia].
Qed.
Lemma grid_min_ok : forall a W, 0 <= W -> W <= 2147483646 -> exists c, grid_min a (- (W / 2)) (W / 2) = Ok c /\
  (-1 <= s32 c)%Z /\ IZR (s32 c) <= Rmin (Rmax a (- (W / 2))) (W / 2) + W / 2 - 1 / 2.
Proof.
  intros a W P B. unfold grid_min. set (p := Rmin (Rmax a (- (W / 2))) (W / 2)).
  assert (Q : - (W / 2) <= p <= W / 2).
  { unfold p. split; [apply Rmin_glb; [apply Rmax_r|lra]|apply Rmin_r]. }
  destruct (cast_ok (p + (W / 2 - - (W / 2)) * (1 / 2) + 1 / 2)) as [c [E [T L]]]; [lra|unfold int_max; cbn; lra|].
  rewrite E. cbn [bind]. rewrite int_of_ok by (unfold int_min; lia). cbn [bind]. exists (u32 (c - 1)). split; [reflexivity|].
  rewrite s32_u32 by (unfold int_min; lia). split; [lia|]. rewrite minus_IZR. lra.
Qed.
Lemma grid_max_ok : forall b W, 0 <= W -> W <= 2147483646 -> exists c, grid_max b (- (W / 2)) (W / 2) = Ok c /\
  (1 <= s32 c)%Z /\ Rmax (Rmin b (W / 2)) (- (W / 2)) + W / 2 + 1 / 2 < IZR (s32 c).
Proof.
  intros b W P B. unfold grid_max. set (p := Rmax (Rmin b (W / 2)) (- (W / 2))).
  assert (Q : - (W / 2) <= p <= W / 2).
  { unfold p. split; [apply Rmax_r|apply Rmax_lub; [apply Rmin_r|lra]]. }
  destruct (cast_ok (p + (W / 2 - - (W / 2)) * (1 / 2) + 1 / 2)) as [c [E [T L]]]; [lra|unfold int_max; cbn; lra|].
  rewrite E. cbn [bind]. rewrite int_of_ok by (unfold int_min; lia). cbn [bind]. exists (u32 (c + 1)). split; [reflexivity|].
  rewrite s32_u32 by (unfold int_min; lia). split; [lia|]. rewrite plus_IZR. lra.
Qed.
Lemma rconcat_ok : forall A B (g : A -> res (list B)) h l, (forall x, In x l -> g x = Ok (h x)) -> rconcat g l = Ok (flat_map h l).
Proof.
  intros A B g h. induction l as [|x l IH]; intros H; [reflexivity|]. cbn. rewrite H by (left; reflexivity). cbn.
  rewrite IH by (intros; apply H; right; assumption). reflexivity.
Qed.
(** The two triangles of a cell as the query returns them. *)
Definition tri_of (eps : R) (d : heights) (cols rows : Z) (mid : R) (s : vec3) (i j k : Z) : qtriangle :=
  let '(a, b, c) := corners d cols rows mid s i j k in
  mk_qtriangle a b c (vunit eps (vcross (vsub b a) (vsub c a))) ((j * (cols - 1) + i) * 2 + k)%Z.
Lemma triangle_id_ok : forall cols rows d f mn mx i j k, field_of cols rows d f mn mx -> is_cell cols rows i j -> (k = 0 \/ k = 1)%Z ->
  triangle_id f i j k = ((j * (cols - 1) + i) * 2 + k)%Z.
Proof.
  intros cols rows d f mn mx i j k F [Hi Hj] K. unfold triangle_id. rewrite (fo_cols _ _ _ _ _ _ F).
  pose proof (fo_int _ _ _ _ _ _ F) as I. pose proof (fo_2c _ _ _ _ _ _ F). pose proof (fo_2r _ _ _ _ _ _ F). unfold int_max in I.
  assert (B : (j * (cols - 1) + i < (cols - 1) * (rows - 1))%Z) by nia.
  assert (B2 : ((cols - 1) * (rows - 1) <= cols * rows - 3)%Z) by nia.
  assert (0 <= j * (cols - 1))%Z by nia. assert (cols <= cols * rows)%Z by nia.
  unfold u32. rewrite (Z.mod_small (cols - 1)) by lia. rewrite (Z.mod_small (j * (cols - 1))) by lia.
  rewrite (Z.mod_small (j * (cols - 1) + i)) by lia. rewrite Z.mod_small by lia. reflexivity.
Qed.
Lemma cell_triangles_ok : forall eps cols rows d f mn mx s i j, field_of cols rows d f mn mx -> is_cell cols rows i j ->
  cell_triangles eps f s i j = Ok [tri_of eps d cols rows ((mn + mx) / 2) s i j 0; tri_of eps d cols rows ((mn + mx) / 2) s i j 1].
Proof.
  intros eps cols rows d f mn mx s i j F [Hi Hj]. unfold cell_triangles.
  rewrite !(vertex_ok cols rows d f mn mx) by (try exact F; split; lia). cbn [bind].
  rewrite !(triangle_id_ok cols rows d f mn mx) by (try exact F; try (split; assumption); auto). reflexivity.
Qed.
Lemma overlapping_ok : forall eps cols rows d f mn mx s b, field_of cols rows d f mn mx -> mx - mn <= 2147483646 ->
  exists i0 i1 j0 j1, (0 <= i0)%Z /\ (i1 <= cols - 1)%Z /\ (0 <= j0)%Z /\ (j1 <= rows - 1)%Z /\
    overlapping eps f s b = Ok (flat_map (fun i => flat_map (fun j => [tri_of eps d cols rows ((mn + mx) / 2) s i j 0; tri_of eps d cols rows ((mn + mx) / 2) s i j 1]) (zrange j0 j1)) (zrange i0 i1)) /\
    (forall i j, is_cell cols rows i j -> cell_meets cols rows (V3 1 1 1) b i j -> (i0 <= i < i1 /\ j0 <= j < j1)%Z).
Proof.
  intros eps cols rows d f mn mx s b F T. unfold overlapping.
  rewrite (fo_bmin _ _ _ _ _ _ F), (fo_bmax _ _ _ _ _ _ F). cbn [vx vy vz].
  pose proof (fo_int _ _ _ _ _ _ F) as I. pose proof (fo_2c _ _ _ _ _ _ F). pose proof (fo_2r _ _ _ _ _ _ F). unfold int_max in I.
  assert (WB : 0 <= IZR (cols - 1) <= 2147483646) by (split; [apply IZR_le|apply IZR_le]; nia).
  assert (LB : 0 <= IZR (rows - 1) <= 2147483646) by (split; [apply IZR_le|apply IZR_le]; nia).
  assert (HB : 0 <= mx - mn).
  { destruct (fo_low _ _ _ _ _ _ F) as [[x [y [G E]]] _]. destruct (fo_high _ _ _ _ _ _ F) as [_ M]. specialize (M x y G). lra. }
  destruct (grid_min_ok (vx (bmin b)) (IZR (cols - 1))) as [x0 [X0 [X0a X0b]]]; [lra|lra|].
  destruct (grid_min_ok (vy (bmin b)) (mx - mn)) as [y0 [Y0 [Y0a Y0b]]]; [lra|lra|].
  destruct (grid_min_ok (vz (bmin b)) (IZR (rows - 1))) as [z0 [Z0 [Z0a Z0b]]]; [lra|lra|].
  destruct (grid_max_ok (vx (bmax b)) (IZR (cols - 1))) as [x1 [X1 [X1a X1b]]]; [lra|lra|].
  destruct (grid_max_ok (vy (bmax b)) (mx - mn)) as [y1 [Y1 [Y1a Y1b]]]; [lra|lra|].
  destruct (grid_max_ok (vz (bmax b)) (IZR (rows - 1))) as [z1 [Z1 [Z1a Z1b]]]; [lra|lra|].
  rewrite X0, Y0, Z0, X1, Y1, Z1. cbn [bind]. rewrite (fo_cols _ _ _ _ _ _ F), (fo_rows _ _ _ _ _ _ F).
  exists (clamp_int (s32 x0) 0 (cols - 1)), (clamp_int (s32 x1) 0 (cols - 1)), (clamp_int (s32 z0) 0 (rows - 1)), (clamp_int (s32 z1) 0 (rows - 1)).
  split; [unfold clamp_int; lia|]. split; [unfold clamp_int; lia|]. split; [unfold clamp_int; lia|]. split; [unfold clamp_int; lia|]. split.
  - apply rconcat_ok. intros i Hi. apply zrange_in in Hi. apply rconcat_ok. intros j Hj. apply zrange_in in Hj.
    apply cell_triangles_ok with (mn := mn) (mx := mx); [exact F|]. unfold clamp_int in *. split; lia.
  - intros i j [Ci Cj] [[x [Ax Bx]] [z [Az Bz]]]. cbn [vx vz] in *. rewrite plus_IZR in Ax, Az.
    assert (Ii : 0 <= IZR i /\ IZR i + 1 <= IZR (cols - 1)) by (split; [apply IZR_le; lia|rewrite <- (plus_IZR i 1); apply IZR_le; lia]).
    assert (Ij : 0 <= IZR j /\ IZR j + 1 <= IZR (rows - 1)) by (split; [apply IZR_le; lia|rewrite <- (plus_IZR j 1); apply IZR_le; lia]).
    assert (P1 : Rmin (Rmax (vx (bmin b)) (- (IZR (cols - 1) / 2))) (IZR (cols - 1) / 2) <= IZR i + 1 - IZR (cols - 1) / 2).
    { eapply Rle_trans; [apply Rmin_l|]. apply Rmax_lub; lra. }
    assert (P2 : Rmin (Rmax (vz (bmin b)) (- (IZR (rows - 1) / 2))) (IZR (rows - 1) / 2) <= IZR j + 1 - IZR (rows - 1) / 2).
    { eapply Rle_trans; [apply Rmin_l|]. apply Rmax_lub; lra. }
    assert (P3 : IZR i - IZR (cols - 1) / 2 <= Rmax (Rmin (vx (bmax b)) (IZR (cols - 1) / 2)) (- (IZR (cols - 1) / 2))).
    { eapply Rle_trans; [|apply Rmax_l]. apply Rmin_glb; lra. }
    assert (P4 : IZR j - IZR (rows - 1) / 2 <= Rmax (Rmin (vz (bmax b)) (IZR (rows - 1) / 2)) (- (IZR (rows - 1) / 2))).
    { eapply Rle_trans; [|apply Rmax_l]. apply Rmin_glb; lra. }
    assert (I1 : (s32 x0 < i + 1)%Z) by (apply lt_IZR; rewrite plus_IZR; lra).
    assert (I2 : (s32 z0 < j + 1)%Z) by (apply lt_IZR; rewrite plus_IZR; lra).
    assert (I3 : (i < s32 x1)%Z) by (apply lt_IZR; lra).
    assert (I4 : (j < s32 z1)%Z) by (apply lt_IZR; lra).
    unfold clamp_int. lia.
Qed.
