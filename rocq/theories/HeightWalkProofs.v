(** The walk of a ray over the cells of a height field. *)
From Coq Require Import Reals Lra Lia ZArith.
From Verif Require Import Base VecModel VecProofs GeomSpec ShapeModel ShapeSpec ShapeProofs HeightFieldModel HeightFieldSpec HeightFieldProofs.
Open Scope R_scope.

(** ** The first point of a ray in a box *)
Definition pos (y : ray) (i : nat) (u : R) : R := comp (ray_p1 y) i + u * comp (vsub (ray_p2 y) (ray_p1 y)) i.
Definition in_slab (b : box3) (y : ray) (i : nat) (u : R) : Prop := comp (bmin b) i <= pos y i u <= comp (bmax b) i.
Lemma slab_ok : forall eps b y i tmin tmax, 0 < eps -> comp (bmin b) i <= comp (bmax b) i ->
  comp (vsub (ray_p2 y) (ray_p1 y)) i = 0 \/ eps <= Rabs (comp (vsub (ray_p2 y) (ray_p1 y)) i) -> tmin <= tmax ->
  match aabb_slab eps b y i (tmin, tmax) with
  | Some (a, c) => a <= c /\ forall u, a <= u <= c <-> tmin <= u <= tmax /\ in_slab b y i u
  | None => forall u, tmin <= u <= tmax -> ~ in_slab b y i u
  end.
Proof.
  intros eps b y i tmin tmax E B D T. unfold aabb_slab, in_slab, pos.
  set (d := comp (vsub (ray_p2 y) (ray_p1 y)) i) in *. set (p := comp (ray_p1 y) i) in *.
  set (lo := comp (bmin b) i) in *. set (hi := comp (bmax b) i) in *.
  destruct (rlt (Rabs d) eps) eqn:Q.
  - apply rlt_true in Q. destruct D as [D|D]; [|lra]. rewrite D in *.
    destruct (rlt p lo) eqn:Q1; [apply rlt_true in Q1|apply rlt_false in Q1]; cbn [orb].
    + intros u _ H. lra.
    + destruct (rlt hi p) eqn:Q2; [apply rlt_true in Q2|apply rlt_false in Q2].
      * intros u _ H. lra.
      * split; [exact T|]. intros u. split; intros H; [split; [exact H|lra]|apply H].
  - apply rlt_false in Q. assert (N : d <> 0) by (intros Z; rewrite Z, Rabs_R0 in Q; lra).
    set (t1 := (lo - p) * (1 / d)). set (t2 := (hi - p) * (1 / d)).
    assert (E1 : lo = p + t1 * d) by (unfold t1; field; exact N).
    assert (E2 : hi = p + t2 * d) by (unfold t2; field; exact N).
    clearbody t1 t2.
    assert (S : exists a c, (if rlt t2 t1 then (t2, t1) else (t1, t2)) = (a, c) /\ a <= c /\ forall u, lo <= p + u * d <= hi <-> a <= u <= c).
    { destruct (rlt t2 t1) eqn:Q2; [apply rlt_true in Q2|apply rlt_false in Q2].
      - exists t2, t1. split; [reflexivity|]. split; [lra|]. intros u. assert (d < 0) by nra. split; intros H2; split; nra.
      - exists t1, t2. split; [reflexivity|]. split; [lra|]. intros u. destruct (Rtotal_order d 0) as [X|[X|X]].
        + assert (t1 = t2) by nra. subst t2. split; intros H2; split; nra.
        + contradiction.
        + split; intros H2; split; nra. }
    destruct S as [a [c [-> [AC S]]]].
    destruct (rlt (Rmin tmax c) (Rmax tmin a)) eqn:Q3; [apply rlt_true in Q3|apply rlt_false in Q3].
    + intros u H1 H2. apply S in H2. assert (Rmax tmin a <= u) by (apply Rmax_lub; lra). assert (u <= Rmin tmax c) by (apply Rmin_glb; lra). lra.
    + split; [exact Q3|]. intros u. rewrite S. split.
      * intros [H1 H2]. pose proof (Rmax_l tmin a). pose proof (Rmax_r tmin a). pose proof (Rmin_l tmax c). pose proof (Rmin_r tmax c). lra.
      * intros [H1 H2]. split; [apply Rmax_lub; lra|apply Rmin_glb; lra].
Qed.
Lemma ray_at_pos : forall y u, ray_at y u = V3 (pos y 0 u) (pos y 1 u) (pos y 2 u).
Proof. intros [p1 p2 m] u. unfold ray_at, lerp, pos, comp, vsub. cbn. f_equal; ring. Qed.
Lemma aabb_ok : forall eps big b y, 0 < eps -> 0 <= big -> (forall i, comp (bmin b) i <= comp (bmax b) i) -> good_ray eps y ->
  match aabb_cast eps big b y with
  | Some p => exists t, p = ray_at y t /\ 0 <= t <= big /\ in_bounds b (ray_at y t) /\ forall u, 0 <= u <= big -> in_bounds b (ray_at y u) -> t <= u
  | None => forall u, 0 <= u <= big -> ~ in_bounds b (ray_at y u)
  end.
Proof.
  intros eps big b y E BG B G. unfold aabb_cast.
  assert (IB : forall u, in_bounds b (ray_at y u) <-> in_slab b y 0 u /\ in_slab b y 1 u /\ in_slab b y 2 u).
  { intros u. rewrite ray_at_pos. unfold in_bounds, in_slab. cbn [vx vy vz comp]. tauto. }
  pose proof (slab_ok eps b y 0 0 big E (B 0%nat) (G 0%nat) BG) as S0.
  destruct (aabb_slab eps b y 0 (0, big)) as [[a c]|]; cbn [obind].
  2:{ intros u H I. apply (proj1 (IB u)) in I. apply (S0 u H). tauto. }
  destruct S0 as [L0 S0].
  pose proof (slab_ok eps b y 1 a c E (B 1%nat) (G 1%nat) L0) as S1.
  destruct (aabb_slab eps b y 1 (a, c)) as [[a1 c1]|]; cbn [obind].
  2:{ intros u H I. apply (proj1 (IB u)) in I. apply (S1 u); [apply S0; tauto|tauto]. }
  destruct S1 as [L1 S1].
  pose proof (slab_ok eps b y 2 a1 c1 E (B 2%nat) (G 2%nat) L1) as S2.
  destruct (aabb_slab eps b y 2 (a1, c1)) as [[a2 c2]|]; cbn [obind fst].
  2:{ intros u H I. apply (proj1 (IB u)) in I. apply (S2 u); [apply S1; split; [apply S0; tauto|tauto]|tauto]. }
  destruct S2 as [L2 S2]. exists a2.
  assert (M : a2 <= a2 <= c2) by lra. apply S2 in M. destruct M as [M M2]. apply S1 in M. destruct M as [M M1]. apply S0 in M. destruct M as [M M0].
  split; [|split; [exact M|split; [apply IB; tauto|]]].
  - rewrite ray_at_pos. unfold vadd, vscale, pos, comp. cbn. reflexivity.
  - intros u H I. apply (proj1 (IB u)) in I. assert (Q : a2 <= u <= c2) by (apply S2; split; [apply S1; split; [apply S0; tauto|tauto]|tauto]). lra.
Qed.

(** ** The walk in one dimension *)
Definition T (g d : R) (i : Z) : xreal := xdiv (IZR (if Z.leb 0 (sign_of d) then i + 1 else i)%Z - g) d.
Definition in1 (g d : R) (i : Z) (t : R) : Prop := IZR i <= g + d * t <= IZR i + 1.
Lemma sign_cases : forall d, (0 < d /\ sign_of d = 1%Z) \/ (d < 0 /\ sign_of d = (-1)%Z) \/ (d = 0 /\ sign_of d = 0%Z).
Proof.
  intros d. unfold sign_of. destruct (rlt 0 d) eqn:A; [left; apply rlt_true in A; auto|]. apply rlt_false in A.
  destruct (rlt d 0) eqn:B; [right; left; apply rlt_true in B; auto|]. apply rlt_false in B. right. right. split; [lra|reflexivity].
Qed.
Lemma T_pos : forall g d i, 0 < d -> T g d i = Fin ((IZR i + 1 - g) / d).
Proof.
  intros g d i H. unfold T. destruct (sign_cases d) as [[_ ->]|[[? _]|[? _]]]; try lra. cbn [Z.leb Z.compare]. unfold xdiv.
  destruct (req d 0) eqn:E; [apply req_true in E; lra|]. rewrite plus_IZR. reflexivity.
Qed.
Lemma T_neg : forall g d i, d < 0 -> T g d i = Fin ((IZR i - g) / d).
Proof.
  intros g d i H. unfold T. destruct (sign_cases d) as [[? _]|[[_ ->]|[? _]]]; try lra. cbn [Z.leb Z.compare]. unfold xdiv.
  destruct (req d 0) eqn:E; [apply req_true in E; lra|]. reflexivity.
Qed.
Lemma T_zero : forall g i t, in1 g 0 i t -> T g 0 i = if req g (IZR i + 1) then NaN else PInf.
Proof.
  intros g i t H. unfold T, in1 in *. destruct (sign_cases 0) as [[? _]|[[? _]|[_ ->]]]; try lra. cbn [Z.leb Z.compare]. unfold xdiv.
  destruct (req 0 0) eqn:E; [|apply req_false in E; congruence]. rewrite plus_IZR.
  destruct (req g (IZR i + 1)) eqn:Q; [apply req_true in Q|apply req_false in Q].
  - destruct (req (IZR i + 1 - g) 0) eqn:Q2; [reflexivity|apply req_false in Q2; lra].
  - destruct (req (IZR i + 1 - g) 0) eqn:Q2; [apply req_true in Q2; lra|]. destruct (rlt 0 (IZR i + 1 - g)) eqn:Q3; [reflexivity|apply rlt_false in Q3; lra].
Qed.
(** The time at which the ray leaves the cell, for a ray that moves. *)
Lemma T_fin : forall g d i t, d <> 0 -> in1 g d i t -> exists a, T g d i = Fin a /\ t <= a /\ (forall u, t <= u <= a -> in1 g d i u) /\
  in1 g d (i + sign_of d) a /\ xadd (T g d i) (xdiv 1 (Rabs d)) = T g d (i + sign_of d).
Proof.
  intros g d i t N H. unfold in1 in *. destruct (sign_cases d) as [[P S]|[[P S]|[P _]]]; [| |contradiction]; rewrite S.
  - rewrite !T_pos by exact P. set (a := (IZR i + 1 - g) / d). assert (E : d * a = IZR i + 1 - g) by (unfold a; field; lra).
    exists a. split; [reflexivity|]. split; [nra|]. split; [intros u Hu; split; nra|]. rewrite plus_IZR. split; [lra|].
    unfold xdiv. rewrite Rabs_right by lra. destruct (req d 0) eqn:Q; [apply req_true in Q; lra|]. cbn [xadd]. f_equal. unfold a. field. lra.
  - rewrite !T_neg by exact P. set (a := (IZR i - g) / d). assert (E : d * a = IZR i - g) by (unfold a; field; lra).
    exists a. split; [reflexivity|]. split; [nra|]. split; [intros u Hu; split; nra|]. rewrite plus_IZR. cbn [IZR IPR]. split; [lra|].
    unfold xdiv. rewrite Rabs_left by lra. destruct (req (- d) 0) eqn:Q; [apply req_true in Q; lra|]. cbn [xadd]. f_equal. unfold a. field. lra.
Qed.

(** ** The walk over the cells *)
Fixpoint walk_cells (fuel : nat) (w : walk) (i j : Z) (ti tj : xreal) : option (list (Z * Z)) :=
  if (Z.leb 0 i && Z.ltb i (w_ci w) && Z.leb 0 j && Z.ltb j (w_cj w))%bool then
    match fuel with
    | O => None
    | S fuel =>
        option_map (cons (i, j))
          (if (Z.eqb (w_si w) 0 && Z.eqb (w_sj w) 0)%bool then Some []
           else if xlt ti tj then walk_cells fuel w (i + w_si w) j (xadd ti (w_di w)) tj
           else walk_cells fuel w i (j + w_sj w) ti (xadd tj (w_dj w)))
    end
  else Some [].
Definition walk_of (n m : Z) (dx dz : R) : walk := mk_walk n m (sign_of dx) (sign_of dz) (xdiv 1 (Rabs dx)) (xdiv 1 (Rabs dz)).
(** A cell the walk can be in: it is beyond the border only on the side to which the ray moves. *)
Definition dir_ok (d : R) (n i : Z) : Prop := (0 < d -> (0 <= i)%Z) /\ (d < 0 -> (i < n)%Z) /\ (d = 0 -> (0 <= i < n)%Z).
Definition togo (d : R) (n i : Z) : nat := if rlt 0 d then Z.to_nat (n - i) else if rlt d 0 then Z.to_nat (i + 1) else O.
Definition covered (l : list (Z * Z)) (gx dx gz dz t : R) : Prop := exists c, In c l /\ in1 gx dx (fst c) t /\ in1 gz dz (snd c) t.
Lemma dir_step : forall d n i, d <> 0 -> (0 <= i < n)%Z -> dir_ok d n (i + sign_of d).
Proof.
  intros d n i N H. unfold dir_ok. destruct (sign_cases d) as [[P ->]|[[P ->]|[P _]]]; [| |contradiction]; repeat split; intros; try lra; lia.
Qed.
Lemma togo_step : forall d n i, d <> 0 -> (0 <= i < n)%Z -> (togo d n (i + sign_of d) < togo d n i)%nat.
Proof.
  intros d n i N H. unfold togo. destruct (sign_cases d) as [[P ->]|[[P ->]|[P _]]]; [| |contradiction].
  - destruct (rlt 0 d) eqn:E; [lia|apply rlt_false in E; lra].
  - destruct (rlt 0 d) eqn:E; [apply rlt_true in E; lra|]. destruct (rlt d 0) eqn:E2; [lia|apply rlt_false in E2; lra].
Qed.
(** Outside of the grid the ray has left it. *)
Lemma outside_1 : forall g d n i tau t, in1 g d i tau -> dir_ok d n i -> ~ (0 <= i < n)%Z -> tau < t -> ~ 0 <= g + d * t <= IZR n.
Proof.
  intros g d n i tau t H [D1 [D2 D3]] O L B. unfold in1 in H. destruct (Rtotal_order d 0) as [P|[P|P]].
  - specialize (D2 P). assert (i + 1 <= 0)%Z by lia. apply IZR_le in H0. rewrite plus_IZR in H0. nra.
  - specialize (D3 P). lia.
  - specialize (D1 P). assert (n <= i)%Z by lia. apply IZR_le in H0. nra.
Qed.
Lemma walk_covers : forall n m gx dx gz dz fuel i j tau, 0 <= tau -> in1 gx dx i tau -> in1 gz dz j tau -> dir_ok dx n i -> dir_ok dz m j ->
  (dz = 0 -> dx <> 0 -> gz <> IZR j + 1) -> (togo dx n i + togo dz m j < fuel)%nat ->
  exists l, walk_cells fuel (walk_of n m dx dz) i j (T gx dx i) (T gz dz j) = Some l /\
    (forall c, In c l -> (0 <= fst c < n /\ 0 <= snd c < m)%Z) /\
    forall t, tau <= t -> 0 <= gx + dx * t <= IZR n -> 0 <= gz + dz * t <= IZR m ->
      covered l gx dx gz dz t \/ (t = tau /\ ~ (0 <= i < n /\ 0 <= j < m)%Z).
Proof.
  intros n m gx dx gz dz. induction fuel as [|fuel IH]; intros i j tau TA Hx Hz Dx Dz ST MU; [lia|].
  cbn [walk_cells]. cbn [w_ci w_cj w_si w_sj w_di w_dj walk_of].
  destruct (Z.leb 0 i && Z.ltb i n && Z.leb 0 j && Z.ltb j m)%bool eqn:G.
  2:{ exists []. split; [reflexivity|]. split; [intros c []|]. intros t Ht Bx Bz. right.
      assert (O : ~ (0 <= i < n /\ 0 <= j < m)%Z).
      { intros [[A1 A2] [A3 A4]]. apply Z.leb_le in A1, A3. apply Z.ltb_lt in A2, A4. rewrite A1, A2, A3, A4 in G. discriminate. }
      split; [|exact O]. destruct (Rle_lt_or_eq_dec _ _ Ht) as [L|L]; [|lra]. exfalso.
      destruct (Z_le_dec 0 i) as [Q1|Q1]; [destruct (Z_lt_dec i n) as [Q2|Q2]|].
      - assert (O2 : ~ (0 <= j < m)%Z) by (intros Q3; apply O; split; [lia|exact Q3]). exact (outside_1 _ _ _ _ _ _ Hz Dz O2 L Bz).
      - assert (O2 : ~ (0 <= i < n)%Z) by lia. exact (outside_1 _ _ _ _ _ _ Hx Dx O2 L Bx).
      - assert (O2 : ~ (0 <= i < n)%Z) by lia. exact (outside_1 _ _ _ _ _ _ Hx Dx O2 L Bx). }
  apply andb_prop in G. destruct G as [G G4]. apply andb_prop in G. destruct G as [G G3]. apply andb_prop in G. destruct G as [G1 G2].
  apply Z.leb_le in G1, G3. apply Z.ltb_lt in G2, G4.
  assert (FIN : forall tau' i' j' l', tau <= tau' -> (forall u, tau <= u <= tau' -> in1 gx dx i u /\ in1 gz dz j u) ->
    (forall t, tau' <= t -> 0 <= gx + dx * t <= IZR n -> 0 <= gz + dz * t <= IZR m -> covered l' gx dx gz dz t \/ (t = tau' /\ ~ (0 <= i' < n /\ 0 <= j' < m)%Z)) ->
    forall t, tau <= t -> 0 <= gx + dx * t <= IZR n -> 0 <= gz + dz * t <= IZR m -> covered ((i, j) :: l') gx dx gz dz t).
  { intros tau' i' j' l' L C K t Ht Bx Bz. destruct (Rle_lt_dec t tau') as [Q|Q].
    - exists (i, j). split; [left; reflexivity|]. apply C. lra.
    - destruct (K t ltac:(lra) Bx Bz) as [[c [Hc W]]|[E _]]; [|lra]. exists c. split; [right; exact Hc|exact W]. }
  assert (INC : forall l' c, (forall c, In c l' -> (0 <= fst c < n /\ 0 <= snd c < m)%Z) -> In c ((i, j) :: l') -> (0 <= fst c < n /\ 0 <= snd c < m)%Z).
  { intros l' c K [<-|Hc]; [cbn; lia|auto]. }
  (* the ray does not move horizontally *)
  destruct (Z.eqb (sign_of dx) 0 && Z.eqb (sign_of dz) 0)%bool eqn:ZZ.
  { apply andb_prop in ZZ. destruct ZZ as [Z1 Z2]. apply Z.eqb_eq in Z1, Z2.
    destruct (sign_cases dx) as [[_ Q]|[[_ Q]|[X0 _]]]; [rewrite Q in Z1; discriminate|rewrite Q in Z1; discriminate|].
    destruct (sign_cases dz) as [[_ Q]|[[_ Q]|[X1 _]]]; [rewrite Q in Z2; discriminate|rewrite Q in Z2; discriminate|].
    exists [(i, j)]. split; [reflexivity|]. split; [intros c Hc; apply (INC [] c); [intros ? []|exact Hc]|].
    intros t _ _ _. left. exists (i, j). split; [left; reflexivity|]. subst dx dz. unfold in1 in *. cbn. rewrite Rmult_0_l in *. split; assumption. }
  destruct (Req_dec dx 0) as [X0|X0].
  - (* only j changes *)
    assert (Z0 : dz <> 0).
    { intros Q. subst dx dz.
      unfold sign_of in ZZ. destruct (rlt 0 0) eqn:Q; [apply rlt_true in Q; lra|]. discriminate ZZ. }
    destruct (T_fin gz dz j tau Z0 Hz) as [a [Ea [La [Ca [Na Xa]]]]].
    assert (LT : xlt (T gx dx i) (T gz dz j) = false).
    { rewrite X0 in *. rewrite (T_zero _ _ _ Hx), Ea. destruct (req gx (IZR i + 1)); reflexivity. }
    rewrite LT, Xa.
    assert (Hx' : in1 gx dx i a) by (unfold in1 in *; rewrite X0 in *; lra).
    destruct (IH i (j + sign_of dz)%Z a ltac:(lra) Hx' Na Dx (dir_step _ _ _ Z0 (conj G3 G4))) as [l [El [Il Kl]]].
    + intros Q; congruence.
    + pose proof (togo_step dz m j Z0 (conj G3 G4)). lia.
    + rewrite El. exists ((i, j) :: l). split; [reflexivity|]. split; [intros c; apply INC; exact Il|]. intros t Ht Bx Bz. left.
      apply (FIN a i (j + sign_of dz)%Z l La); auto. intros u Hu. split; [unfold in1 in *; rewrite X0 in *; lra|apply Ca; exact Hu].
  - destruct (T_fin gx dx i tau X0 Hx) as [a [Ea [La [Ca [Na Xa]]]]].
    destruct (Req_dec dz 0) as [Z0|Z0].
    + (* only i changes *)
      assert (LT : xlt (T gx dx i) (T gz dz j) = true).
      { specialize (ST Z0 X0). rewrite Z0 in *. rewrite (T_zero _ _ _ Hz), Ea. destruct (req gz (IZR j + 1)) eqn:Q; [apply req_true in Q; contradiction|reflexivity]. }
      rewrite LT, Xa. assert (Hz' : in1 gz dz j a) by (unfold in1 in *; rewrite Z0 in *; lra).
      destruct (IH (i + sign_of dx)%Z j a ltac:(lra) Na Hz' (dir_step _ _ _ X0 (conj G1 G2)) Dz ST) as [l [El [Il Kl]]].
      * pose proof (togo_step dx n i X0 (conj G1 G2)). lia.
      * rewrite El. exists ((i, j) :: l). split; [reflexivity|]. split; [intros c; apply INC; exact Il|]. intros t Ht Bx Bz. left.
        apply (FIN a (i + sign_of dx)%Z j l La); auto. intros u Hu. split; [apply Ca; exact Hu|unfold in1 in *; rewrite Z0 in *; lra].
    + destruct (T_fin gz dz j tau Z0 Hz) as [b [Eb [Lb [Cb [Nb Xb]]]]].
      destruct (xlt (T gx dx i) (T gz dz j)) eqn:LT; rewrite Ea, Eb in LT; cbn [xlt] in LT.
      * apply rlt_true in LT. rewrite Xa.
        destruct (IH (i + sign_of dx)%Z j a ltac:(lra) Na (Cb a ltac:(lra)) (dir_step _ _ _ X0 (conj G1 G2)) Dz ltac:(intros Q; contradiction)) as [l [El [Il Kl]]].
        -- pose proof (togo_step dx n i X0 (conj G1 G2)). lia.
        -- rewrite El. exists ((i, j) :: l). split; [reflexivity|]. split; [intros c; apply INC; exact Il|]. intros t Ht Bx Bz. left.
           apply (FIN a (i + sign_of dx)%Z j l La); auto. intros u Hu. split; [apply Ca; exact Hu|apply Cb; lra].
      * apply rlt_false in LT. rewrite Xb.
        destruct (IH i (j + sign_of dz)%Z b ltac:(lra) (Ca b ltac:(lra)) Nb Dx (dir_step _ _ _ Z0 (conj G3 G4)) ltac:(intros Q; contradiction)) as [l [El [Il Kl]]].
        -- pose proof (togo_step dz m j Z0 (conj G3 G4)). lia.
        -- rewrite El. exists ((i, j) :: l). split; [reflexivity|]. split; [intros c; apply INC; exact Il|]. intros t Ht Bx Bz. left.
           apply (FIN b i (j + sign_of dz)%Z l Lb); auto. intros u Hu. split; [apply Ca; lra|apply Cb; exact Hu].
Qed.

(** ** Ray casts *)
Definition tri_cast (eps : R) (s : side) (y : ray) (t : vec3 * vec3 * vec3) : option hit := let '(a, b, c) := t in triangle_cast eps s a b c y.
Definition cast_step (eps : R) (s : side) (y : ray) (st : cast_state) (t : vec3 * vec3 * vec3) : cast_state :=
  let '(a, b, c) := t in cast_one eps s y a b c st.
Lemma cast_fold : forall eps s y ts st, let r := fold_left (cast_step eps s y) ts st in
  snd r <= snd st /\
  (forall t h, In t ts -> tri_cast eps s y t = Some h -> snd r <= hit_fraction h) /\
  ((r = st /\ forall t h, In t ts -> tri_cast eps s y t = Some h -> snd st < hit_fraction h) \/
   exists t h, In t ts /\ tri_cast eps s y t = Some h /\ r = (Some h, hit_fraction h)).
Proof.
  intros eps s y. induction ts as [|t ts IH]; intros st; cbn [fold_left].
  - split; [lra|]. split; [intros t h []|]. left. split; [reflexivity|intros t h []].
  - specialize (IH (cast_step eps s y st t)). cbn zeta in *. destruct IH as [A [B C]].
    assert (S : (tri_cast eps s y t = None /\ cast_step eps s y st t = st) \/ (exists h, tri_cast eps s y t = Some h /\
       ((hit_fraction h <= snd st /\ cast_step eps s y st t = (Some h, hit_fraction h)) \/ (snd st < hit_fraction h /\ cast_step eps s y st t = st)))).
    { destruct t as [[a b] c]. unfold tri_cast, cast_step, cast_one. destruct (triangle_cast eps s a b c y) as [h|]; [|left; auto]. right. exists h. split; [reflexivity|].
      destruct (rle (hit_fraction h) (snd st)) eqn:Q; [apply rle_true in Q; left; auto|apply rle_false in Q; right; split; [lra|reflexivity]]. }
    destruct S as [[S1 S2]|[h [S1 [[S2 S3]|[S2 S3]]]]].
    + rewrite S2 in *. split; [exact A|]. split.
      * intros t' h' [<-|Ht] E; [congruence|eauto].
      * destruct C as [[C1 C2]|[t' [h' [C1 C2]]]].
        -- left. split; [exact C1|]. intros t' h' [<-|Ht] E; [congruence|eauto].
        -- right. exists t', h'. split; [right; exact C1|exact C2].
    + rewrite S3 in *. cbn [snd] in *. split; [lra|]. split.
      * intros t' h' [<-|Ht] E; [rewrite S1 in E; injection E as <-; exact A|eauto].
      * right. destruct C as [[C1 C2]|[t' [h' [C1 C2]]]].
        -- exists t, h. split; [left; reflexivity|]. split; [exact S1|exact C1].
        -- exists t', h'. split; [right; exact C1|exact C2].
    + rewrite S3 in *. split; [exact A|]. split.
      * intros t' h' [<-|Ht] E; [rewrite S1 in E; injection E as <-; lra|eauto].
      * destruct C as [[C1 C2]|[t' [h' [C1 C2]]]].
        -- left. split; [exact C1|]. intros t' h' [<-|Ht] E; [rewrite S1 in E; injection E as <-; lra|eauto].
        -- right. exists t', h'. split; [right; exact C1|exact C2].
Qed.
Lemma triangle_cast_max : forall eps s a b c y h, triangle_cast eps s a b c y = Some h -> 0 <= hit_fraction h <= ray_max y.
Proof.
  intros eps s a b c y h H. unfold triangle_cast in H. cbv zeta in H.
  repeat match type of H with (if ?c then None else _) = _ => let E := fresh "E" in destruct c eqn:E; [discriminate H|] end.
  injection H as <-. cbn [hit_fraction]. match goal with E : (rlt _ 0 || rlt _ _)%bool = false |- _ => apply orb_false_elim in E; destruct E as [E1' E2'] end.
  apply rlt_false in E1', E2'. lra.
Qed.

Definition unit3 : vec3 := V3 1 1 1.
Lemma vmul_unit : forall v, vmul v unit3 = v.
Proof. intros [x y z]. unfold vmul, unit3. cbn. f_equal; ring. Qed.
Definition cell_pair (d : heights) (cols rows : Z) (mid : R) (c : Z * Z) : list (vec3 * vec3 * vec3) :=
  [corners d cols rows mid unit3 (fst c) (snd c) 0; corners d cols rows mid unit3 (fst c) (snd c) 1].
Lemma cast_cell_ok : forall eps cols rows d f mn mx s y i j st, field_of cols rows d f mn mx -> is_cell cols rows i j ->
  cast_cell eps f s y i j st = Ok (fold_left (cast_step eps s y) (cell_pair d cols rows ((mn + mx) / 2) (i, j)) st).
Proof.
  intros eps cols rows d f mn mx s y i j st F [Hi Hj]. unfold cast_cell.
  rewrite !(vertex_ok cols rows d f mn mx) by (try exact F; split; lia). cbn [bind]. unfold cell_pair, corners. cbn [Z.eqb fst snd fold_left].
  rewrite !vmul_unit. reflexivity.
Qed.
Lemma walk_loop_cells : forall eps cols rows d f mn mx s y w, field_of cols rows d f mn mx -> w_ci w = (cols - 1)%Z -> w_cj w = (rows - 1)%Z ->
  forall fuel i j ti tj st, walk_loop fuel eps f s y w i j ti tj st =
    match walk_cells fuel w i j ti tj with
    | Some l => Ok (fold_left (cast_step eps s y) (flat_map (cell_pair d cols rows ((mn + mx) / 2)) l) st)
    | None => Fuel
    end.
Proof.
  intros eps cols rows d f mn mx s y w F CI CJ. induction fuel as [|fuel IH]; intros i j ti tj st; cbn [walk_loop walk_cells].
  - destruct (Z.leb 0 i && Z.ltb i (w_ci w) && Z.leb 0 j && Z.ltb j (w_cj w))%bool; reflexivity.
  - destruct (Z.leb 0 i && Z.ltb i (w_ci w) && Z.leb 0 j && Z.ltb j (w_cj w))%bool eqn:G; [|reflexivity].
    apply andb_prop in G. destruct G as [G G4]. apply andb_prop in G. destruct G as [G G3]. apply andb_prop in G. destruct G as [G1 G2].
    apply Z.leb_le in G1, G3. apply Z.ltb_lt in G2, G4. rewrite CI in G2. rewrite CJ in G4.
    rewrite (cast_cell_ok eps cols rows d f mn mx) by (try exact F; split; lia). cbn [bind].
    destruct (Z.eqb (w_si w) 0 && Z.eqb (w_sj w) 0)%bool; [cbn [option_map flat_map]; rewrite app_nil_r; reflexivity|].
    destruct (xlt ti tj); rewrite IH; match goal with |- context [walk_cells ?a ?b ?c ?d ?e ?g] => destruct (walk_cells a b c d e g) end; cbn [option_map flat_map]; try reflexivity;
      rewrite fold_left_app; reflexivity.
Qed.

Definition over_cell (cols rows : Z) (c : Z * Z) (p : vec3) : Prop :=
  IZR (fst c) - IZR (cols - 1) / 2 <= vx p <= IZR (fst c) + 1 - IZR (cols - 1) / 2 /\
  IZR (snd c) - IZR (rows - 1) / 2 <= vz p <= IZR (snd c) + 1 - IZR (rows - 1) / 2.
Lemma field_cast_ok : forall fuel eps eps2 big cols rows d f mn mx s y, field_of cols rows d f mn mx -> 0 < eps2 -> 0 <= big -> good_ray eps2 y -> off_border rows y ->
  (Z.to_nat (cols + rows) <= fuel)%nat ->
  exists o l, field_cast fuel eps eps2 big f s y = Ok o /\ (forall c, In c l -> is_cell cols rows (fst c) (snd c)) /\
    o = fst (fold_left (cast_step eps s y) (flat_map (cell_pair d cols rows ((mn + mx) / 2)) l) (None, ray_max y)) /\
    forall u, 0 <= u <= big -> in_bounds (hf_bounds f) (ray_at y u) -> exists c, In c l /\ over_cell cols rows c (ray_at y u).
Proof.
  intros fuel eps eps2 big cols rows d f mn mx s y F E BG GR OB FU. unfold field_cast.
  pose proof (fo_int _ _ _ _ _ _ F) as I. pose proof (fo_2c _ _ _ _ _ _ F) as C2. pose proof (fo_2r _ _ _ _ _ _ F) as R2. unfold int_max in I.
  assert (WB : 1 <= IZR (cols - 1) <= 2147483646) by (split; [apply IZR_le|apply IZR_le]; nia).
  assert (LB : 1 <= IZR (rows - 1) <= 2147483646) by (split; [apply IZR_le|apply IZR_le]; nia).
  assert (HB : 0 <= mx - mn).
  { destruct (fo_low _ _ _ _ _ _ F) as [[x [z [G EQ]]] _]. destruct (fo_high _ _ _ _ _ _ F) as [_ M]. specialize (M x z G). lra. }
  assert (BD : forall i, comp (bmin (hf_bounds f)) i <= comp (bmax (hf_bounds f)) i).
  { intros i. rewrite (fo_bmin _ _ _ _ _ _ F), (fo_bmax _ _ _ _ _ _ F). destruct i as [|[|i]]; cbn [comp vx vy vz]; lra. }
  pose proof (aabb_ok eps2 big (hf_bounds f) y E BG BD GR) as A. destruct (aabb_cast eps2 big (hf_bounds f) y) as [p|].
  2:{ exists None, []. split; [reflexivity|]. split; [intros c []|]. split; [reflexivity|]. intros u Hu Hb. exfalso. exact (A u Hu Hb). }
  destruct A as [t [-> [Tt [IB FI]]]].
  assert (IB' := IB). unfold in_bounds in IB'. rewrite (fo_bmin _ _ _ _ _ _ F), (fo_bmax _ _ _ _ _ _ F) in IB'. cbn [vx vy vz] in IB'.
  rewrite (fo_bmin _ _ _ _ _ _ F), (fo_bmax _ _ _ _ _ _ F), (fo_cols _ _ _ _ _ _ F), (fo_rows _ _ _ _ _ _ F).
  set (g := vsub (ray_at y t) (V3 (- (IZR (cols - 1) / 2)) (- ((mx - mn) / 2)) (- (IZR (rows - 1) / 2)))).
  assert (Gx : vx g = vx (ray_at y t) + IZR (cols - 1) / 2) by (unfold g, vsub; cbn [vx]; ring).
  assert (Gz : vz g = vz (ray_at y t) + IZR (rows - 1) / 2) by (unfold g, vsub; cbn [vz]; ring).
  cbn [vx vy vz vsub]. clearbody g.
  replace ((IZR (cols - 1) / 2 - - (IZR (cols - 1) / 2)) / IZR (cols - 1)) with 1 by (field; lra).
  replace ((IZR (rows - 1) / 2 - - (IZR (rows - 1) / 2)) / IZR (rows - 1)) with 1 by (field; lra).
  replace (vx g / 1) with (vx g) by field. replace (vz g / 1) with (vz g) by field.
  destruct (cast_ok (vx g)) as [i0 [Ei [Bi Ni]]]; [lra|unfold int_max; cbn; lra|].
  destruct (cast_ok (vz g)) as [j0 [Ej [Bj Nj]]]; [lra|unfold int_max; cbn; lra|].
  rewrite Ei, Ej. cbn [bind]. rewrite !Rmult_1_r.
  set (i := clamp_int i0 0 (cols - 1 - 1)). set (j := clamp_int j0 0 (rows - 1 - 1)).
  assert (CX : (0 <= i < cols - 1)%Z /\ IZR i <= vx g <= IZR i + 1).
  { unfold i, clamp_int. destruct (Z_lt_dec i0 (cols - 1)) as [Q|Q].
    - replace (Z.min (Z.max i0 0) (cols - 1 - 1)) with i0 by lia. split; [lia|lra].
    - replace (Z.min (Z.max i0 0) (cols - 1 - 1)) with (cols - 1 - 1)%Z by lia. split; [lia|].
      assert (IZR (cols - 1) <= IZR i0) by (apply IZR_le; lia). rewrite (minus_IZR (cols - 1) 1). lra. }
  assert (CZ : (0 <= j < rows - 1)%Z /\ IZR j <= vz g <= IZR j + 1 /\ (vz g = IZR j + 1 -> vz g = IZR (rows - 1))).
  { unfold j, clamp_int. destruct (Z_lt_dec j0 (rows - 1)) as [Q|Q].
    - replace (Z.min (Z.max j0 0) (rows - 1 - 1)) with j0 by lia. split; [lia|]. split; [lra|]. intros; lra.
    - replace (Z.min (Z.max j0 0) (rows - 1 - 1)) with (rows - 1 - 1)%Z by lia. split; [lia|].
      assert (IZR (rows - 1) <= IZR j0) by (apply IZR_le; lia). rewrite (minus_IZR (rows - 1) 1). split; [lra|]. intros; lra. }
  destruct CX as [CX1 CX2]. destruct CZ as [CZ1 [CZ2 CZ3]]. clearbody i j.
  set (dx := vx (vsub (ray_p2 y) (ray_p1 y))). set (dz := vz (vsub (ray_p2 y) (ray_p1 y))).
  assert (Px : forall u, vx (ray_at y u) = vx (ray_p1 y) + u * dx) by (intros u; rewrite ray_at_pos; reflexivity).
  assert (Pz : forall u, vz (ray_at y u) = vz (ray_p1 y) + u * dz) by (intros u; rewrite ray_at_pos; reflexivity).
  change (vx (ray_p2 y) - vx (ray_p1 y)) with dx. change (vz (ray_p2 y) - vz (ray_p1 y)) with dz.
  destruct (walk_covers (cols - 1) (rows - 1) (vx g) dx (vz g) dz fuel i j 0) as [l [El [Il Kl]]].
  - lra.
  - unfold in1. lra.
  - unfold in1. lra.
  - split; [|split]; intros _; lia.
  - split; [|split]; intros _; lia.
  - intros Z0 X0 Q. apply CZ3 in Q. rewrite Gz, Pz, Z0 in Q. apply OB.
    + unfold dz, vsub in Z0. cbn [vz] in Z0. lra.
    + intros Z1. apply X0. unfold dx, vsub. cbn [vx]. lra.
    + lra.
  - unfold togo. destruct (rlt 0 dx), (rlt 0 dz), (rlt dx 0), (rlt dz 0); lia.
  - fold (walk_of (cols - 1) (rows - 1) dx dz) in *.
    rewrite (walk_loop_cells eps cols rows d f mn mx) by (try exact F; reflexivity).
    match goal with |- context [walk_cells _ ?w ?a ?b ?c ?e] => change (walk_cells fuel w a b c e) with (walk_cells fuel (walk_of (cols - 1) (rows - 1) dx dz) i j (T (vx g) dx i) (T (vz g) dz j)) end.
    rewrite El. cbn [bind]. eexists. exists l. split; [reflexivity|]. split.
    { intros c Hc. apply Il in Hc. destruct Hc. split; assumption. }
    split; [reflexivity|]. intros u Hu Hb. specialize (FI u Hu Hb).
    unfold in_bounds in Hb. rewrite (fo_bmin _ _ _ _ _ _ F), (fo_bmax _ _ _ _ _ _ F) in Hb. cbn [vx vy vz] in Hb.
    assert (X1 : vx g + dx * (u - t) = vx (ray_at y u) + IZR (cols - 1) / 2) by (rewrite Gx, !Px; ring).
    assert (Z1 : vz g + dz * (u - t) = vz (ray_at y u) + IZR (rows - 1) / 2) by (rewrite Gz, !Pz; ring).
    destruct (Kl (u - t)) as [[c [Hc [Q1 Q2]]]|[_ Q]]; [lra|rewrite X1; lra|rewrite Z1; lra| |exfalso; apply Q; split; lia].
    exists c. split; [exact Hc|]. unfold in1 in Q1, Q2. rewrite X1 in Q1. rewrite Z1 in Q2. unfold over_cell. lra.
Qed.
