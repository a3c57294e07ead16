(** Proofs about the ray casts of boxes, capsules, triangles and convex meshes. *)
From Coq Require Import Reals Lra Psatz List Bool.
From Verif Require Import Base VecModel VecProofs GeomModel GeomSpec GeomProofs ShapeModel ShapeSpec ShapeProofs.
Import ListNotations.
Local Open Scope R_scope.

(** ** Boxes *)
Section Box.
Variables (eps big : R) (h : vec3) (y : ray).
Hypothesis Heps : 0 < eps.
Hypothesis Hbig : 0 < big.
Hypothesis Hmax : ray_max y <= big.
Hypothesis Hh : 0 < vx h /\ 0 < vy h /\ 0 < vz h.
Hypothesis Hd : forall i, comp (vsub (ray_p2 y) (ray_p1 y)) i = 0 \/ eps <= Rabs (comp (vsub (ray_p2 y) (ray_p1 y)) i).
Let dd (i : nat) : R := comp (vsub (ray_p2 y) (ray_p1 y)) i.
Let pp (i : nat) : R := comp (ray_p1 y) i.
Definition slab_ok (i : nat) (u : R) : Prop := - comp h i <= pp i + u * dd i <= comp h i.
Definition slab_inv (L : list nat) (st : R * R * vec3) : Prop :=
  let '(tmin, tmax, n) := st in
  tmin <= tmax /\
  (forall u, - big <= u <= big -> ((forall i, In i L -> slab_ok i u) <-> tmin <= u <= tmax)) /\
  (0 <= tmin -> exists i s, In i L /\ (s = 1 \/ s = -1) /\ n = axis i (s * comp h i) /\ pp i + tmin * dd i = s * comp h i /\ s * dd i < 0).
Lemma comp_h_pos i : 0 < comp h i.
Proof. unfold comp. destruct i as [|[|i]]; tauto. Qed.
Lemma slab_range i u : dd i <> 0 ->
  let t1 := (- comp h i - pp i) * (1 / dd i) in let t2 := (comp h i - pp i) * (1 / dd i) in
  slab_ok i u <-> Rmin t1 t2 <= u <= Rmax t1 t2.
Proof.
  intros H t1 t2. unfold slab_ok.
  assert (E1 : t1 * dd i = - comp h i - pp i) by (unfold t1; field; easy).
  assert (E2 : t2 * dd i = comp h i - pp i) by (unfold t2; field; easy).
  pose proof (comp_h_pos i) as Hp. destruct (Rlt_dec 0 (dd i)) as [P|P].
  - assert (t1 < t2) by (apply (Rmult_lt_reg_r (dd i)); lra). rewrite Rmin_left, Rmax_right by lra. split.
    + intros X. split; apply (Rmult_le_reg_r (dd i)); lra.
    + intros X. pose proof (Rmult_le_compat_r (dd i) t1 u). pose proof (Rmult_le_compat_r (dd i) u t2). lra.
  - assert (Q : 0 < - dd i) by lra. assert (t2 < t1) by (apply (Rmult_lt_reg_r (- dd i)); lra). rewrite Rmin_right, Rmax_left by lra. split.
    + intros X. split; apply (Rmult_le_reg_r (- dd i)); lra.
    + intros X. pose proof (Rmult_le_compat_r (- dd i) t2 u). pose proof (Rmult_le_compat_r (- dd i) u t1). lra.
Qed.
Lemma box_slab_step L i st : slab_inv L st ->
  match box_slab eps h y i st with
  | Some st' => slab_inv (i :: L) st'
  | None => forall u, 0 <= u <= ray_max y -> ~ (forall j, In j (i :: L) -> slab_ok j u)
  end.
Proof.
  destruct st as [[tmin tmax] n]. intros (I1 & I2 & I3). unfold box_slab. fold (dd i) (pp i).
  pose proof (comp_h_pos i) as Hp.
  destruct (rlt (Rabs (dd i)) eps) eqn:Ep; [apply rlt_true in Ep | apply rlt_false in Ep].
  - assert (Z : dd i = 0) by (destruct (Hd i) as [A|A]; [exact A | fold (dd i) in A; lra]).
    destruct (rlt (comp h i) (pp i) || rlt (pp i) (- comp h i))%bool eqn:Eo.
    + intros u _ F. specialize (F i (or_introl eq_refl)). unfold slab_ok in F. rewrite Z in F.
      apply orb_true_iff in Eo as [X|X]; apply rlt_true in X; lra.
    + apply orb_false_iff in Eo as [X1 X2]. apply rlt_false in X1. apply rlt_false in X2.
      assert (T : forall u, slab_ok i u) by (intros u; unfold slab_ok; rewrite Z; lra).
      unfold slab_inv. splits; [easy|..].
      * intros u Hu. rewrite <- (I2 u Hu). split; [auto with datatypes|]. intros F j [<-|Hj]; [apply T|now apply F].
      * intros H0. destruct (I3 H0) as (j & s & Hj & R). exists j, s. split; [now right|exact R].
  - assert (Nz : dd i <> 0). { intros Z. rewrite Z, Rabs_R0 in Ep. lra. }
    pose proof (slab_range i) as SR. specialize (fun u => SR u Nz). cbv zeta in SR.
    set (t1 := (- comp h i - pp i) * (1 / dd i)) in *. set (t2 := (comp h i - pp i) * (1 / dd i)) in *.
    assert (E1 : t1 * dd i = - comp h i - pp i) by (unfold t1; field; easy).
    assert (E2 : t2 * dd i = comp h i - pp i) by (unfold t2; field; easy).
    (* near and far plane *)
    assert (X : exists lo hi s, (if rlt t2 t1 then (t2, t1, vneg (axis i (- comp h i))) else (t1, t2, axis i (- comp h i))) =
      (lo, hi, axis i (s * comp h i)) /\ (s = 1 \/ s = -1) /\ Rmin t1 t2 = lo /\ Rmax t1 t2 = hi /\ pp i + lo * dd i = s * comp h i /\ s * dd i < 0).
    { destruct (rlt t2 t1) eqn:Et; [apply rlt_true in Et | apply rlt_false in Et].
      - exists t2, t1, 1. splits; [|lra|now rewrite Rmin_right by lra|now rewrite Rmax_left by lra|lra|nra].
        do 2 f_equal. destruct i as [|[|]]; unfold axis, vneg; cbn [vx vy vz]; f_equal; ring.
      - exists t1, t2, (-1). splits; [|lra|now rewrite Rmin_left by lra|now rewrite Rmax_right by lra|lra|].
        + do 2 f_equal. ring.
        + assert (0 < dd i); [|lra]. apply Rnot_le_lt. intros Q. assert (dd i < 0) by lra. nra. }
    destruct X as (lo & hi & s & Ex & Hs & Elo & Ehi & Hlo & Hsd). rewrite Ex. rewrite Elo, Ehi in SR.
    set (tmin' := Rmax tmin lo). set (tmax' := Rmin tmax hi).
    set (n' := if rlt tmin lo then axis i (s * comp h i) else n).
    replace (if rlt tmin lo then (lo, axis i (s * comp h i)) else (tmin, n)) with (tmin', n').
    2:{ unfold tmin', n'. rcase; [rewrite Rmax_right by lra|rewrite Rmax_left by lra]; reflexivity. }
    assert (J2 : forall u, - big <= u <= big -> ((forall j, In j (i :: L) -> slab_ok j u) <-> tmin' <= u <= tmax')).
    { intros u Hu. unfold tmin', tmax'. split.
      - intros F. assert (A : tmin <= u <= tmax) by (apply I2; auto with datatypes).
        assert (B : lo <= u <= hi) by (apply SR; auto with datatypes). split; [apply Rmax_lub|apply Rmin_glb]; lra.
      - intros F. pose proof (Rmax_l tmin lo). pose proof (Rmax_r tmin lo). pose proof (Rmin_l tmax hi). pose proof (Rmin_r tmax hi).
        intros j [<-|Hj]; [apply SR; lra|]. apply (proj2 (I2 u Hu)); [lra|easy]. }
    destruct (rlt (ray_max y) tmin') eqn:Em; [apply rlt_true in Em | apply rlt_false in Em].
    { intros u Hu F. apply (J2 u) in F; lra. }
    destruct (rlt tmax' tmin') eqn:Ee; [apply rlt_true in Ee | apply rlt_false in Ee].
    { intros u Hu F. apply (J2 u) in F; lra. }
    unfold slab_inv. splits; [easy|exact J2|].
    intros H0. unfold tmin', n' in *. destruct (rlt tmin lo) eqn:Et; [apply rlt_true in Et | apply rlt_false in Et].
    + rewrite Rmax_right by lra. exists i, s. splits; [now left|easy|reflexivity|easy|easy].
    + rewrite Rmax_left in * by lra. destruct (I3 H0) as (j & s' & Hj & R). exists j, s'. split; [now right|exact R].
Qed.
Lemma slabs_cuboid u : (forall i, In i [2; 1; 0]%nat -> slab_ok i u) <-> cuboid h (ray_at y u).
Proof.
  unfold slab_ok, cuboid, ray_at, lerp, pp, dd. cbn [vx vy vz In]. split.
  - intros F. pose proof (F 0%nat) as F0. pose proof (F 1%nat) as F1. pose proof (F 2%nat) as F2. unfold comp, vsub in *. cbn [vx vy vz] in *.
    splits; [apply F0|apply F0|apply F1|apply F1|apply F2|apply F2]; tauto.
  - intros F i [<-|[<-|[<-|[]]]]; unfold comp, vsub; cbn [vx vy vz]; tauto.
Qed.
Lemma slab_inv_init : slab_inv [] (- big, big, V3 0 0 0).
Proof. unfold slab_inv. splits; [lra| |lra]. intros u Hu. split; [easy|]. intros _ i []. Qed.
Lemma box_cast_ok : match box_cast eps big h y with
  | Some r => first_hit (cuboid h) y r /\
      (exists i s, (s = 1 \/ s = -1) /\ hit_normal r = axis i (s * comp h i) /\ comp (hit_point r) i = s * comp h i /\
                   s * comp (vsub (ray_p2 y) (ray_p1 y)) i < 0)
  | None => cuboid h (ray_p1 y) \/ misses_closed (cuboid h) y
  end.
Proof.
  unfold box_cast.
  pose proof (box_slab_step [] 0 _ slab_inv_init) as S0. destruct (box_slab eps h y 0 _) as [st0|]; cbn [obind].
  2:{ right. intros u Hu F. apply (S0 u Hu). intros j [<-|[]]. apply slabs_cuboid; auto with datatypes. }
  pose proof (box_slab_step _ 1 _ S0) as S1. destruct (box_slab eps h y 1 st0) as [st1|]; cbn [obind].
  2:{ right. intros u Hu F. apply (S1 u Hu). intros j [<-|[<-|[]]]; apply slabs_cuboid; auto with datatypes. }
  pose proof (box_slab_step _ 2 _ S1) as S2. destruct (box_slab eps h y 2 st1) as [[[tmin tmax] n]|]; cbn [obind].
  2:{ right. intros u Hu F. apply (S2 u Hu). now apply slabs_cuboid. }
  destruct S2 as (I1 & I2 & I3).
  assert (J : forall u, - big <= u <= big -> cuboid h (ray_at y u) <-> tmin <= u <= tmax).
  { intros u Hu. rewrite <- slabs_cuboid. now apply I2. }
  destruct (rlt tmin 0) eqn:E0; [apply rlt_true in E0 | apply rlt_false in E0]; cbn [orb].
  { destruct (Rle_dec 0 tmax) as [L|L].
    - left. replace (ray_p1 y) with (ray_at y 0) by apply lerp_0. apply J; lra.
    - right. intros u Hu F. apply J in F; lra. }
  destruct (rlt (ray_max y) tmin) eqn:E1; [apply rlt_true in E1 | apply rlt_false in E1].
  { right. intros u Hu F. apply J in F; lra. }
  rewrite <- ray_at_eq. destruct (I3 E0) as (i & s & _ & Hs & En & Hp & Hf).
  assert (Hc : comp (ray_at y tmin) i = s * comp h i).
  { rewrite <- Hp. unfold pp, dd, ray_at, lerp, comp, vsub. destruct i as [|[|]]; cbn [vx vy vz]; reflexivity. }
  split.
  - unfold first_hit, outward. cbn [hit_fraction hit_point hit_normal]. splits; try lra; try reflexivity.
    + apply J; lra.
    + intros u Hu F. apply J in F; lra.
    + rewrite En. intros Z. pose proof (comp_h_pos i). assert (s * comp h i = 0); [|nra].
      unfold axis in Z. destruct i as [|[|]]; injection Z; intros; assumption.
    + rewrite En. intros q (Qx & Qy & Qz). unfold offset, axis, comp in *. pose proof (comp_h_pos i). unfold comp in *.
      destruct i as [|[|]]; cbn [vx vy vz]; destruct Hs as [-> | ->]; nra.
  - exists i, s. cbn [hit_normal hit_point]. auto.
Qed.
End Box.

(** ** Capsules *)
Lemma dist_ray y s t : dist (ray_at y s) (ray_at y t) = Rabs (s - t) * vlen (vsub (ray_p2 y) (ray_p1 y)).
Proof.
  rewrite dist_vlen, !ray_at_eq, <- vlen_vscale. f_equal. destruct (ray_p1 y), (ray_p2 y). vring.
Qed.
Lemma interior_earlier S y t : interior S (ray_at y t) -> 0 < t -> exists u, 0 <= u < t /\ S (ray_at y u).
Proof.
  intros (e & He & H) Ht. set (L := vlen (vsub (ray_p2 y) (ray_p1 y))). assert (HL : 0 <= L) by apply vlen_nonneg.
  set (k := e / (2 * (L + 1))). assert (Hk : 0 < k) by (unfold k; apply Rdiv_lt_0_compat; lra).
  assert (Ek : k * (L + 1) = e / 2) by (unfold k; field; lra).
  assert (X : forall u, 0 <= t - u <= k -> S (ray_at y u)).
  { intros u Hu. apply H. rewrite dist_ray. fold L. rewrite Rabs_pos_eq by lra. nra. }
  destruct (Rle_dec t k).
  - exists 0. split; [lra|]. apply X. lra.
  - exists (t - k). split; [lra|]. apply X. lra.
Qed.
Lemma vlen2_mix a b t k : 0 <= t <= 1 -> vlen2 a <= k -> vlen2 b <= k -> vlen2 (lerp a b t) <= k.
Proof.
  intros Ht Ha Hb.
  assert (E : vlen2 (lerp a b t) = (1 - t) * vlen2 a + t * vlen2 b - t * (1 - t) * vlen2 (vsub a b)).
  { unfold lerp. dv. vunf. cbn [VecModel.vx VecModel.vy VecModel.vz]. ring. }
  rewrite E. pose proof (vlen2_nonneg (vsub a b)). assert (0 <= t * (1 - t)) by nra.
  assert (0 <= t * (1 - t) * vlen2 (vsub a b)) by now apply Rmult_le_pos. nra.
Qed.
Section Capsule.
Variables (eps hh r : R) (y : ray).
Hypothesis Heps : 0 < eps.
Hypothesis Hhh : 0 < hh.
Hypothesis Hr : 0 < r.
Let rho (u : R) : R := vx (ray_at y u) * vx (ray_at y u) + vz (ray_at y u) * vz (ray_at y u).
Let yy (u : R) : R := vy (ray_at y u).
Let cap (s : R) : vec3 := V3 0 (s * hh) 0.
Lemma ball_cap s p : ball (cap s) r p <-> vx p * vx p + vz p * vz p + (vy p - s * hh) * (vy p - s * hh) <= r * r.
Proof.
  unfold ball, cap. rewrite dist_le_sq by lra. destruct p. vunf. cbn [VecModel.vx VecModel.vy VecModel.vz]. split; intros; lra.
Qed.
Lemma cap_iff p : capsule hh r p <-> exists y0, - hh <= y0 <= hh /\ vx p * vx p + vz p * vz p + (vy p - y0) * (vy p - y0) <= r * r.
Proof. apply capsule_iff; lra. Qed.
Lemma ball_in_capsule s p : s = 1 \/ s = -1 -> ball (cap s) r p -> capsule hh r p.
Proof. intros Hs H. apply ball_cap in H. apply cap_iff. exists (s * hh). split; [destruct Hs as [-> | ->]; lra|exact H]. Qed.
Lemma capsule_rho p : capsule hh r p -> vx p * vx p + vz p * vz p <= r * r.
Proof. intros H. apply cap_iff in H as (y0 & _ & H). pose proof (Rle_0_sqr (vy p - y0)) as Q. unfold Rsqr in Q. lra. Qed.
Lemma capsule_beyond s p : s = 1 \/ s = -1 -> capsule hh r p -> hh <= s * vy p -> ball (cap s) r p.
Proof.
  intros Hs H Hy. apply cap_iff in H as (y0 & H0 & H). apply ball_cap.
  assert ((vy p - s * hh) * (vy p - s * hh) <= (vy p - y0) * (vy p - y0)); [|lra]. destruct Hs as [-> | ->]; nra.
Qed.
Lemma disc_in_capsule p : vx p * vx p + vz p * vz p <= r * r -> - hh <= vy p <= hh -> capsule hh r p.
Proof. intros H Hy. apply cap_iff. exists (vy p). split; [easy|]. lra. Qed.
Lemma capsule_convex p q t : 0 <= t <= 1 -> capsule hh r p -> capsule hh r q -> capsule hh r (lerp p q t).
Proof.
  intros Ht (p' & Sp & Dp) (q' & Sq & Dq). exists (lerp p' q' t). split.
  - apply segment_capsule in Sp as (A1 & A2 & A3); [|lra]. apply segment_capsule in Sq as (B1 & B2 & B3); [|lra]. apply segment_capsule; [lra|].
    unfold lerp. cbn [vx vy vz]. rewrite A1, A2, B1, B2. splits; try ring; nra.
  - apply dist_le_sq in Dp; [|lra]. apply dist_le_sq in Dq; [|lra]. apply dist_le_sq; [lra|].
    replace (vsub (lerp p q t) (lerp p' q' t)) with (lerp (vsub p p') (vsub q q') t); [now apply vlen2_mix|].
    unfold lerp. dv. vunf. cbn [VecModel.vx VecModel.vy VecModel.vz]. compw; ring.
Qed.
Lemma rho_mix s u w : 0 <= w <= 1 -> rho s <= r * r -> rho u <= r * r -> rho (s + w * (u - s)) <= r * r.
Proof.
  intros Hw Hs Hu. pose proof (vlen2_mix (V3 (vx (ray_at y s)) 0 (vz (ray_at y s))) (V3 (vx (ray_at y u)) 0 (vz (ray_at y u))) w (r * r) Hw) as M.
  unfold vlen2 in M. cbn [vx vy vz] in M. unfold rho in *.
  assert (E : ray_at y (s + w * (u - s)) = lerp (ray_at y s) (ray_at y u) w) by (unfold ray_at; now rewrite lerp_lerp).
  rewrite E. unfold lerp in *. cbn [vx vy vz] in *. lapply M; [intros M'; lapply M'; lra|lra].
Qed.
Hypothesis Hout : ~ capsule hh r (ray_p1 y).
Lemma not_between s u : s <= 0 <= u -> capsule hh r (ray_at y s) -> capsule hh r (ray_at y u) -> False.
Proof.
  intros Hsu Hs Hu. apply Hout. destruct (Req_dec s 0) as [-> |N].
  { now replace (ray_p1 y) with (ray_at y 0) by apply lerp_0. }
  replace (ray_p1 y) with (lerp (ray_at y s) (ray_at y u) (- s / (u - s))).
  - apply capsule_convex; [|easy|easy]. split.
    + apply Rmult_le_pos; [lra|]. apply Rlt_le, Rinv_0_lt_compat. lra.
    + apply (Rmult_le_reg_r (u - s)); [lra|]. unfold Rdiv. rewrite Rmult_assoc, Rinv_l; lra.
  - unfold ray_at. rewrite lerp_lerp. replace (s + - s / (u - s) * (u - s)) with 0 by (field; lra). apply lerp_0.
Qed.
(** Every point of the capsule on the ray comes after a point of the end cap [s]. *)
Definition cap_first (s : R) : Prop :=
  forall u, 0 <= u -> capsule hh r (ray_at y u) -> exists v, 0 <= v <= u /\ ball (cap s) r (ray_at y v).
Lemma yy_mix s u w : yy (s + w * (u - s)) = yy s + w * (yy u - yy s).
Proof. unfold yy, ray_at, lerp. cbn [vy]. ring. Qed.
Lemma cap_first_entering s t : s = 1 \/ s = -1 -> rho t <= r * r -> (forall u, rho u <= r * r -> t <= u) -> hh < s * yy t -> cap_first s.
Proof.
  intros Hs Ht Hf Hy u Hu Hc. destruct (Rle_dec hh (s * yy u)) as [L|L].
  { exists u. split; [lra|]. now apply capsule_beyond. }
  apply Rnot_le_lt in L. assert (Ru : rho u <= r * r) by now apply capsule_rho. pose proof (Hf u Ru) as Htu.
  set (w := (s * yy t - hh) / (s * yy t - s * yy u)).
  assert (Hw : 0 <= w <= 1).
  { unfold w. split.
    - apply Rmult_le_pos; [lra|]. apply Rlt_le, Rinv_0_lt_compat. lra.
    - apply (Rmult_le_reg_r (s * yy t - s * yy u)); [lra|]. unfold Rdiv. rewrite Rmult_assoc, Rinv_l; lra. }
  set (v := t + w * (u - t)).
  assert (Ev : s * yy v = hh).
  { unfold v. rewrite yy_mix. unfold w. field. lra. }
  assert (Ev' : yy v = s * hh) by (destruct Hs as [-> | ->]; lra).
  assert (Bv : ball (cap s) r (ray_at y v)).
  { apply ball_cap. fold (yy v). rewrite Ev'. pose proof (rho_mix t u w Hw Ht Ru) as M. fold v in M. unfold rho in M. lra. }
  exists v. assert (v <= u) by (unfold v; nra). split; [|easy]. split; [|easy].
  apply Rnot_lt_le. intros N. apply (not_between v u); [lra| |easy]. now apply (ball_in_capsule s).
Qed.
Lemma cap_first_along s : s = 1 \/ s = -1 -> (forall u, rho u = rho 0) -> rho 0 <= r * r -> hh < s * yy 0 -> cap_first s.
Proof.
  intros Hs Hc H0 Hy u Hu Hcu. destruct (Rle_dec hh (s * yy u)) as [L|L].
  { exists u. split; [lra|]. now apply capsule_beyond. }
  apply Rnot_le_lt in L. set (w := (s * yy 0 - hh) / (s * yy 0 - s * yy u)).
  assert (Hw : 0 <= w <= 1).
  { unfold w. split.
    - apply Rmult_le_pos; [lra|]. apply Rlt_le, Rinv_0_lt_compat. lra.
    - apply (Rmult_le_reg_r (s * yy 0 - s * yy u)); [lra|]. unfold Rdiv. rewrite Rmult_assoc, Rinv_l; lra. }
  set (v := 0 + w * (u - 0)).
  assert (Ev : s * yy v = hh) by (unfold v; rewrite yy_mix; unfold w; field; lra).
  assert (Ev' : yy v = s * hh) by (destruct Hs as [-> | ->]; lra).
  exists v. split; [unfold v; nra|]. apply ball_cap. fold (yy v). rewrite Ev'. pose proof (Hc v) as M. unfold rho in M, H0. lra.
Qed.
Hypothesis Hlong : eps <= vlen2 (vsub (ray_p2 y) (ray_p1 y)).
Lemma cap_cast_ok s : s = 1 \/ s = -1 -> cap_first s ->
  match cap_cast eps r (cap s) y with Some h => first_hit (capsule hh r) y h | None => misses (capsule hh r) y end.
Proof.
  intros Hs Hc. unfold cap_cast. destruct (sphere_cast_at eps r (cap s) y) as [[t p]|] eqn:E.
  - apply sphere_cast_at_some in E as (Ht & -> & Hp & Hf); [|lra..].
    assert (Fp : forall u, 0 <= u < t -> ~ capsule hh r (ray_at y u)).
    { intros u Hu X. destruct (Hc u (proj1 Hu) X) as (v & Hv & Bv). apply (Hf v); [lra|easy]. }
    assert (Ps : vx (ray_at y t) * vx (ray_at y t) + vz (ray_at y t) * vz (ray_at y t)
                 + (vy (ray_at y t) - s * hh) * (vy (ray_at y t) - s * hh) = r * r).
    { rewrite <- Hp. unfold cap. generalize (ray_at y t). intros q. destruct q. vunf. cbn [VecModel.vx VecModel.vy VecModel.vz]. ring. }
    assert (Hy : hh <= s * vy (ray_at y t)).
    { apply Rnot_lt_le. intros N.
      assert (I : interior (capsule hh r) (ray_at y t)).
      { destruct (Rle_dec (- hh) (s * vy (ray_at y t))) as [L|L].
        - apply (capsule_open_interior hh r _ (vy (ray_at y t))); [lra|lra|destruct Hs as [-> | ->]; lra|].
          assert (0 < (vy (ray_at y t) - s * hh) * (vy (ray_at y t) - s * hh)) by (destruct Hs as [-> | ->]; nra).
          replace (vy (ray_at y t) - vy (ray_at y t)) with 0 by ring. lra.
        - apply (capsule_open_interior hh r _ (- s * hh)); [lra|lra|destruct Hs as [-> | ->]; lra|].
          assert ((vy (ray_at y t) - - s * hh) * (vy (ray_at y t) - - s * hh) < (vy (ray_at y t) - s * hh) * (vy (ray_at y t) - s * hh))
            by (destruct Hs as [-> | ->]; nra). lra. }
      assert (0 < t).
      { apply Rnot_le_lt. intros Z. assert (t = 0) by lra. subst t. apply Hout. rewrite <- (lerp_0 (ray_p1 y) (ray_p2 y)).
        apply (ball_in_capsule s); [exact Hs|]. apply ball_cap. unfold ray_at in Ps. lra. }
      destruct (interior_earlier _ _ _ I H) as (u & Hu & X). now apply (Fp u). }
    unfold first_hit, outward. cbn [hit_fraction hit_point hit_normal]. splits; try lra; try reflexivity; try assumption.
    + apply (ball_in_capsule s); [exact Hs|]. apply ball_cap. lra.
    + intros Z. rewrite Z in Hp. unfold vlen2 in Hp. cbn [vx vy vz] in Hp. nra.
    + intros q Hq. apply cap_iff in Hq as (y1 & H1 & Hq). revert Ps Hy. generalize (ray_at y t). intros p Ps Hy. unfold offset, cap, vsub. cbn [vx vy vz].
      destruct p as [px py pz], q as [qx qy qz]. cbn [vx vy vz] in *.
      pose proof (cauchy_schwarz2 (V3 qx (qy - y1) qz) (V3 px (py - s * hh) pz)) as C. unfold vdot, vlen2 in C. cbn [vx vy vz] in C.
      assert (D : qx * px + (qy - y1) * (py - s * hh) + qz * pz <= r * r).
      { apply sq_le_le; [nra|]. eapply Rle_trans; [exact C|]. apply Rmult_le_compat; try lra.
        - pose proof (Rle_0_sqr qx); pose proof (Rle_0_sqr (qy - y1)); pose proof (Rle_0_sqr qz). unfold Rsqr in *. lra.
        - pose proof (Rle_0_sqr px); pose proof (Rle_0_sqr (py - s * hh)); pose proof (Rle_0_sqr pz). unfold Rsqr in *. lra. }
      assert ((y1 - s * hh) * (py - s * hh) <= 0) by (destruct Hs as [-> | ->]; nra). nra.
  - intros u Hu X. destruct (Hc u (proj1 Hu) X) as (v & Hv & Bv).
    assert (M : misses (ball (cap s) r) y).
    { apply (sphere_cast_at_none eps); [lra|easy|easy| |easy]. intros B. apply Hout. now apply (ball_in_capsule s). }
    apply (M v); [lra|easy].
Qed.
Hypothesis Hmax : ray_max y <= 1.
Let nx : R := vx (ray_p2 y) - vx (ray_p1 y).
Let nz : R := vz (ray_p2 y) - vz (ray_p1 y).
Hypothesis Hang : nx * nx + nz * nz = 0 \/ / 100 <= 4 * (hh * hh) * (nx * nx + nz * nz).
Lemma yy_range u : 0 <= u <= 1 -> forall a, (a <= yy 0 -> a <= yy 1 -> a <= yy u) /\ (yy 0 <= a -> yy 1 <= a -> yy u <= a).
Proof.
  intros Hu a. replace u with (0 + u * (1 - 0)) by ring. rewrite yy_mix. split; intros; nra.
Qed.
Lemma capsule_y p : capsule hh r p -> - hh - r <= vy p <= hh + r.
Proof. intros H. apply capsule_in_bounds in H; [|lra..]. destruct H as (_ & H & _). unfold capsule_bounds in H. cbn [bmin bmax vy] in H. exact H. Qed.
Lemma vunit_positive e v : v <> vzero -> exists k, 0 < k /\ vunit e v = vscale k v.
Proof.
  intros Hv. unfold vunit. rcase.
  - exists 1. split; [lra|]. now rewrite vscale_1.
  - exists (1 / vlen v). split.
    + unfold Rdiv. rewrite Rmult_1_l. apply Rinv_0_lt_compat. apply vlen_pos. intros Z. now apply Hv, vlen2_zero.
    + destruct v. unfold vscale. cbn [VecModel.vx VecModel.vy VecModel.vz]. compw; ring.
Qed.
Lemma capsule_cast_ok :
  match capsule_cast eps hh r y with Some h => first_hit (capsule hh r) y h | None => misses (capsule hh r) y end.
Proof.
  assert (P0 : ray_at y 0 = ray_p1 y) by apply lerp_0. assert (P1 : ray_at y 1 = ray_p2 y) by apply lerp_1.
  assert (Y0 : yy 0 = vy (ray_p1 y)) by (unfold yy; now rewrite P0). assert (Y1 : yy 1 = vy (ray_p2 y)) by (unfold yy; now rewrite P1).
  unfold capsule_cast.
  set (d := vsub (V3 0 hh 0) (V3 0 (- hh) 0)). set (m := vsub (ray_p1 y) (V3 0 (- hh) 0)). set (n := vsub (ray_p2 y) (ray_p1 y)).
  assert (EmD : vdot m d = 2 * hh * (yy 0 + hh)) by (rewrite Y0; unfold m, d, vdot, vsub; cbn [vx vy vz]; ring).
  assert (EnD : vdot n d = 2 * hh * (yy 1 - yy 0)) by (rewrite Y0, Y1; unfold n, d, vdot, vsub; cbn [vx vy vz]; ring).
  assert (EdD : vdot d d = 4 * (hh * hh)) by (unfold d, vdot, vsub; cbn [vx vy vz]; ring).
  set (v1 := vdot (vsub (ray_p1 y) (V3 0 (- hh - r) 0)) d).
  assert (Ev1 : v1 = 2 * hh * (yy 0 + hh + r)) by (rewrite Y0; unfold v1, d, vdot, vsub; cbn [vx vy vz]; ring).
  destruct (rlt v1 0 && rlt (v1 + vdot n d) 0)%bool eqn:E1.
  { apply andb_true_iff in E1 as [A B]. apply rlt_true in A. apply rlt_true in B. rewrite EnD, Ev1 in *.
    assert (yy 0 < - hh - r) by nra. assert (yy 1 < - hh - r) by nra.
    set (k := Rmax (yy 0) (yy 1)). assert (k < - hh - r) by (unfold k; apply Rmax_lub_lt; easy).
    intros u Hu X. apply capsule_y in X. fold (yy u) in X.
    destruct (yy_range u ltac:(lra) k) as [_ Q]. specialize (Q (Rmax_l _ _) (Rmax_r _ _)). lra. }
  assert (Edy : vy d = 2 * hh) by (unfold d, vsub; cbn [vx vy vz]; ring).
  destruct (rlt (vdot d d + 2 * r * vy d) v1 && rlt (vdot d d + 2 * r * vy d) (v1 + vdot n d))%bool eqn:E2.
  { apply andb_true_iff in E2 as [A B]. apply rlt_true in A. apply rlt_true in B. rewrite EnD, Ev1, EdD, Edy in *.
    assert (hh + r < yy 0) by nra. assert (hh + r < yy 1) by nra.
    set (k := Rmin (yy 0) (yy 1)). assert (hh + r < k) by (unfold k; apply Rmin_glb_lt; easy).
    intros u Hu X. apply capsule_y in X. fold (yy u) in X.
    destruct (yy_range u ltac:(lra) k) as [Q _]. specialize (Q (Rmin_l _ _) (Rmin_r _ _)). lra. }
  clear E1 E2 v1 Ev1.
  set (x := vx (ray_p1 y)). set (z := vz (ray_p1 y)).
  set (A := 4 * (hh * hh) * (nx * nx + nz * nz)). set (B := 4 * (hh * hh) * (x * nx + z * nz)). set (C := 4 * (hh * hh) * (x * x + z * z - r * r)).
  assert (EA : vdot d d * vdot n n - vdot n d * vdot n d = A).
  { rewrite EdD, EnD, Y0, Y1. unfold A, nx, nz, n, vdot, vsub. cbn [vx vy vz]. ring. }
  assert (EC : vdot d d * (vdot m m - r * r) - vdot m d * vdot m d = C).
  { rewrite EdD, EmD, Y0. unfold C, x, z, m, vdot, vsub. cbn [vx vy vz]. ring. }
  assert (EB : vdot d d * vdot m n - vdot n d * vdot m d = B).
  { rewrite EdD, EmD, EnD, Y0, Y1. unfold B, x, z, nx, nz, m, n, vdot, vsub. cbn [vx vy vz]. ring. }
  rewrite EA, EB, EC.
  assert (Hrho : forall u, 4 * (hh * hh) * (rho u - r * r) = A * u * u + 2 * B * u + C).
  { intros u. unfold rho, A, B, C, x, z, nx, nz, ray_at, lerp. cbn [vx vy vz]. ring. }
  assert (Hq : 0 < 4 * (hh * hh)) by nra.
  replace (V3 0 (- hh) 0) with (cap (-1)) by (unfold cap; f_equal; ring).
  replace (V3 0 hh 0) with (cap 1) by (unfold cap; f_equal; ring).
  rewrite EmD, EdD, EnD.
  destruct (rlt (Rabs A) (/ 100)) eqn:E3; [apply rlt_true in E3 | apply rlt_false in E3].
  - assert (ZA : nx * nx + nz * nz = 0).
    { destruct Hang as [H|H]; [easy|]. fold A in H. rewrite Rabs_pos_eq in E3 by lra. lra. }
    assert (Zx : nx = 0) by nra. assert (Zz : nz = 0) by nra.
    assert (Hconst : forall u, rho u = rho 0).
    { intros u. apply (Rmult_eq_reg_l (4 * (hh * hh))); [|lra]. pose proof (Hrho u) as Ru. pose proof (Hrho 0) as R0.
      unfold A, B in *. rewrite Zx, Zz in *. lra. }
    assert (H0 : 4 * (hh * hh) * (rho 0 - r * r) = C) by (rewrite Hrho; ring).
    destruct (rlt 0 C) eqn:E4; [apply rlt_true in E4 | apply rlt_false in E4].
    { intros u Hu X. apply capsule_rho in X. fold (rho u) in X. rewrite Hconst in X. nra. }
    assert (Hin : rho 0 <= r * r) by nra.
    destruct (rlt (2 * hh * (yy 0 + hh)) 0) eqn:E5; [apply rlt_true in E5 | apply rlt_false in E5].
    { apply cap_cast_ok; [now right|]. apply cap_first_along; [now right|easy|easy|nra]. }
    destruct (rlt (4 * (hh * hh)) (2 * hh * (yy 0 + hh))) eqn:E6; [apply rlt_true in E6 | apply rlt_false in E6].
    { apply cap_cast_ok; [now left|]. apply cap_first_along; [now left|easy|easy|nra]. }
    exfalso. apply Hout. rewrite <- P0. apply disc_in_capsule; [exact Hin|]. fold (yy 0). nra.
  - assert (HA : 0 < A).
    { destruct Hang as [H|H]; [|fold A in H; lra]. exfalso. unfold A in E3. rewrite H, Rmult_0_r, Rabs_R0 in E3. lra. }
    destruct (rlt (B * B - A * C) 0) eqn:E4; [apply rlt_true in E4 | apply rlt_false in E4].
    { intros u Hu X. apply capsule_rho in X. fold (rho u) in X. pose proof (quadratic_never A B C HA u E4) as N. rewrite <- Hrho in N. nra. }
    set (disc := B * B - A * C) in *. set (t := (- B - sqrt disc) / A).
    assert (Et : A * t = - B - sqrt disc) by (unfold t; field; lra).
    assert (Rt : rho t = r * r).
    { pose proof (quadratic_root A B C HA disc eq_refl E4) as Q. cbv zeta in Q. fold t in Q. rewrite <- Hrho in Q.
      apply Rmult_integral in Q as [Q|Q]; lra. }
    assert (Ft : forall u, rho u <= r * r -> t <= u).
    { intros u Hu. apply Rnot_lt_le. intros N. pose proof (quadratic_before A B C HA u disc eq_refl E4) as Q.
      rewrite <- Hrho in Q. lapply Q; [nra|]. rewrite <- Et. now apply Rmult_lt_compat_l. }
    assert (Eval : 2 * hh * (yy 0 + hh) + t * (2 * hh * (yy 1 - yy 0)) = 2 * hh * (yy t + hh)).
    { replace (yy t) with (yy (0 + t * (1 - 0))) by (f_equal; ring). rewrite yy_mix. ring. }
    rewrite Eval.
    destruct (rlt (2 * hh * (yy t + hh)) 0) eqn:E5; [apply rlt_true in E5 | apply rlt_false in E5].
    { apply cap_cast_ok; [now right|]. apply (cap_first_entering (-1) t); [now right|lra|easy|nra]. }
    destruct (rlt (4 * (hh * hh)) (2 * hh * (yy t + hh))) eqn:E6; [apply rlt_true in E6 | apply rlt_false in E6].
    { apply cap_cast_ok; [now left|]. apply (cap_first_entering 1 t); [now left|lra|easy|nra]. }
    assert (Ct : capsule hh r (ray_at y t)).
    { apply disc_in_capsule; [apply Req_le; exact Rt|]. fold (yy t). nra. }
    destruct (rlt t 0) eqn:E7; [apply rlt_true in E7 | apply rlt_false in E7]; cbn [orb].
    { intros u Hu X. apply (not_between t u); [lra|easy|easy]. }
    destruct (rlt (ray_max y) t) eqn:E8; [apply rlt_true in E8 | apply rlt_false in E8].
    { intros u Hu X. apply capsule_rho in X. apply Ft in X. lra. }
    unfold n. rewrite <- ray_at_eq.
    set (p := ray_at y t) in *.
    assert (Ew : vsub p (vadd (cap (-1)) (vscale (vdot (vsub p (cap (-1))) d / vlen2 d) d)) = V3 (vx p) 0 (vz p)).
    { rewrite (vlen2_dot d), EdD. destruct p as [px py pz]. unfold cap, d, vdot, vsub, vadd, vscale. cbn [vx vy vz]. compw; field; lra. }
    rewrite Ew. assert (Er : vx p * vx p + vz p * vz p = r * r) by exact Rt.
    destruct (vunit_positive eps (V3 (vx p) 0 (vz p))) as (k & Hk & Eu).
    { intros Z. pose proof (f_equal vx Z) as Z1. pose proof (f_equal vz Z) as Z2. cbn [vx vz vzero] in Z1, Z2. rewrite Z1, Z2 in Er. nra. }
    unfold first_hit, outward. cbn [hit_fraction hit_point hit_normal]. rewrite Eu. splits; try lra; try reflexivity; try assumption.
    + intros u Hu X. apply capsule_rho in X. apply Ft in X. lra.
    + unfold vscale. cbn [vx vy vz]. intros Z. pose proof (f_equal vx Z) as Z1. pose proof (f_equal vz Z) as Z2. cbn [vx vz] in Z1, Z2.
      apply Rmult_integral in Z1 as [Z1|Z1]; [lra|]. apply Rmult_integral in Z2 as [Z2|Z2]; [lra|]. rewrite Z1, Z2 in Er. nra.
    + intros q Hc. apply capsule_rho in Hc. unfold offset, vscale. cbn [vx vy vz].
      assert (D : vx q * vx p + vz q * vz p <= r * r).
      { pose proof (Rle_0_sqr (vx q - vx p)). pose proof (Rle_0_sqr (vz q - vz p)). unfold Rsqr in *. lra. }
      assert (k * (vx q * vx p + vz q * vz p - r * r) <= 0) by nra. nra.
Qed.
End Capsule.
