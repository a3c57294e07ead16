(** Proofs about the GJK algorithm. *)
From Coq Require Import List Bool Arith Lia Lra Psatz.
From Verif Require Import Base VecModel VecProofs GeomSpec GeomProofs ShapeModel ShapeSpec ShapeProofs NarrowModel NarrowSpec NarrowProofs GjkModel VoronoiProofs.
Import ListNotations.
Local Open Scope R_scope.

(** ** The closest point of the simplex *)

Definition difference (p : spoint) : Prop := sp_w p = vsub (sp_a p) (sp_b p).
Definition close_ok (s : simplex) (u : list (R * spoint)) : Prop :=
  convex_weights (sx_points s) u /\ sx_close s = weigh sp_w u /\ sx_a s = weigh sp_a u /\ sx_b s = weigh sp_b u /\
  forall p, In p (sx_points s) -> vdot (sx_close s) (sp_w p) = vlen2 (sx_close s).
Definition best_of (l : list spoint) (c : vec3) : Prop := forall u, convex_weights l u -> vlen2 c <= vlen2 (weigh sp_w u).
Definition recomputed (l : list spoint) (s : simplex) : Prop :=
  sx_valid s = true /\ incl (sx_points s) l /\
  ((length l = 4%nat /\ sx_points s = l /\ sx_close s = vzero /\ sx_a s = vzero /\ sx_b s = vzero /\
    exists u, convex_weights l u /\ weigh sp_w u = vzero) \/
   ((1 <= length (sx_points s) <= 3)%nat /\ (exists u, close_ok s u) /\ best_of l (sx_close s))).

Lemma best_by_dots l c : (forall p, In p l -> vlen2 c <= vdot c (sp_w p)) -> best_of l c.
Proof.
  intros H u U. pose proof (weigh_ge sp_w l u c (vlen2 c) U H) as G. set (y := weigh sp_w u) in *. clearbody y.
  assert (E : vlen2 (vsub c y) = vlen2 c - 2 * vdot c y + vlen2 y) by (generalize c, y; clear; vring).
  pose proof (vlen2_nonneg (vsub c y)). lra.
Qed.
Lemma reduced_incl bits l u0 u : reduced bits l u0 u -> incl (reduce bits l) l.
Proof. intros (_ & _ & _ & _ & H & _) m M. destruct (H m M) as (i & E & _). eapply nth_error_In; exact E. Qed.

Lemma reduced_ok bits l u0 u v : reduced bits l u0 u -> (length u <= 3)%nat -> Forall (fun x => 0 <= fst x) u0 -> total u0 = 1 ->
  Forall difference l -> map snd u0 = l ->
  (forall m, (exists i, nth_error l i = Some m /\ Nat.testbit bits i = true) -> vdot (weigh sp_w u0) (sp_w m) = vlen2 (weigh sp_w u0)) ->
  let s := Simplex (reduce bits l) (vsub (weigh sp_a u0) (weigh sp_b u0)) (weigh sp_a u0) (weigh sp_b u0) v in
  incl (sx_points s) l /\ (1 <= length (sx_points s) <= 3)%nat /\ (exists u, close_ok s u) /\ sx_close s = weigh sp_w u0.
Proof.
  intros R L P T D M H s. pose proof (reduced_incl _ _ _ _ R) as I. destruct R as (R1 & R2 & R3 & R4 & R5 & R6).
  assert (E : sx_close s = weigh sp_w u0).
  { unfold s; cbn [sx_close]. symmetry. apply weigh_sub. rewrite M. intros p Hp. rewrite Forall_forall in D. exact (D p Hp). }
  split; [exact I|]. split; [unfold s; cbn [sx_points]; rewrite <- R1, map_length; lia|]. split; [|exact E].
  exists u. split; [split; [exact R1|split; [now apply R3|lra]]|].
  rewrite E. unfold s; cbn [sx_a sx_b sx_points]. rewrite !R4. do 3 (split; [reflexivity|]).
  intros p Hp. apply H. now apply R5.
Qed.

Definition in_range (big : R) (l : list spoint) : Prop := Forall (fun p => vlen2 (sp_w p) < big) l.

Lemma check_valid_true x y z k : 0 <= x -> 0 <= y -> 0 <= z -> 0 <= k -> check_valid (x, y, z, k) = true.
Proof. intros. unfold check_valid. rewrite !andb_true_iff, !rle_true. tauto. Qed.

Lemma recompute_spec big s : (1 <= length (sx_points s) <= 4)%nat -> Forall difference (sx_points s) -> dependent s = false ->
  in_range big (sx_points s) -> recomputed (sx_points s) (recompute big s).
Proof.
  intros L D N I. unfold recompute, dependent in *. destruct (sx_points s) as [|p [|q [|r [|t [|? ?]]]]] eqn:E; cbn [length] in L; try lia; cbn [map] in N.
  - split; [apply check_valid_true; lra|]. split; [intros x Hx; exact Hx|]. right. cbn [sx_points length]. split; [lia|].
    split.
    + exists [(1, p)]. split; [split; [reflexivity|split; [repeat constructor; cbn; lra|cbn; ring]]|]. cbn [sx_close sx_a sx_b weigh sx_points].
      assert (W : forall x, x = vadd (vscale 1 x) vzero) by (clear; intros; vring). split; [apply W|]. split; [apply W|]. split; [apply W|].
      intros x [<-|[]]. reflexivity.
    + apply best_by_dots. intros x [<-|[]]. apply Rle_refl.
  - rewrite rle_false in N. assert (P : 0 < vlen2 (vsub (sp_w q) (sp_w p))) by (unfold voronoi_eps in N; lra).
    pose proof (seg_spec _ _ P) as S. destruct (closest_seg (sp_w p) (sp_w q)) as [bits k]. cbv zeta in S. destruct S as (K & B & S1 & S2 & S3 & S4).
    set (u0 := [(1 - k, p); (k, q)]).
    assert (W : forall f : spoint -> vec3, vadd (f p) (vscale k (vsub (f q) (f p))) = weigh f u0).
    { intros f. unfold u0; cbn [weigh]. generalize (f p), (f q); clear; vring. }
    rewrite (W sp_a), (W sp_b). rewrite (W sp_w) in S1, S2, S3, S4.
    assert (B1 : (0 < bits < 4)%nat) by (destruct B as [->|[(-> & _)|(-> & _)]]; lia).
    assert (B2 : Nat.testbit bits 0 = false -> 1 - k = 0) by (destruct B as [->|[(-> & ->)|(-> & ->)]]; cbn; intros; try discriminate; lra).
    assert (B3 : Nat.testbit bits 1 = false -> k = 0) by (destruct B as [->|[(-> & ->)|(-> & ->)]]; cbn; intros; try discriminate; lra).
    destruct (reduce2 bits p q (1 - k) k B1 B2 B3) as (u & RU & LU).
    destruct (reduced_ok bits [p; q] u0 u (check_valid (1 - k, k, 0, 0)) RU LU) as (O1 & O2 & O3 & O4).
    + repeat (apply Forall_cons; [cbn [fst]; lra|]). constructor.
    + unfold u0; cbn; ring.
    + exact D.
    + reflexivity.
    + intros m (i & Hi & Hb). destruct i as [|[|i]]; cbn [nth_error] in Hi; [injection Hi as <-; now apply S3|injection Hi as <-; now apply S4|destruct i; discriminate].
    + split; [apply check_valid_true; lra|]. split; [exact O1|]. right. split; [exact O2|]. split; [exact O3|].
      rewrite O4. apply best_by_dots. intros x [<-|[<-|[]]]; assumption.
  - rewrite rle_false in N. assert (P : 0 < vlen2 (vcross (vsub (sp_w q) (sp_w p)) (vsub (sp_w r) (sp_w p)))) by (unfold voronoi_eps in N; lra).
    pose proof (tri_spec _ _ _ P) as S. destruct (closest_tri (sp_w p) (sp_w q) (sp_w r)) as [bits [[x y] z]]. cbv zeta in S.
    destruct S as (K & B & (X1 & X2 & X3 & X4) & (Y1 & Y2 & Y3 & Y4) & (Z1 & Z2 & Z3 & Z4)).
    set (u0 := [(x, p); (y, q); (z, r)]).
    assert (W : forall f : spoint -> vec3, combine3 (x, y, z) (f p) (f q) (f r) = weigh f u0).
    { intros f. unfold u0, combine3; cbn [weigh]. generalize (f p), (f q), (f r); clear; vring. }
    rewrite (W sp_a), (W sp_b). rewrite (W sp_w) in X2, X4, Y2, Y4, Z2, Z4.
    destruct (reduce3 bits p q r x y z B X3 Y3 Z3) as (u & RU & LU).
    destruct (reduced_ok bits [p; q; r] u0 u (check_valid (x, y, z, 0)) RU LU) as (O1 & O2 & O3 & O4).
    + repeat (apply Forall_cons; [cbn [fst]; lra|]). constructor.
    + unfold u0; cbn; lra.
    + exact D.
    + reflexivity.
    + intros m (i & Hi & Hb). destruct i as [|[|[|i]]]; cbn [nth_error] in Hi; [injection Hi as <-; now apply X4|injection Hi as <-; now apply Y4|injection Hi as <-; now apply Z4|destruct i; discriminate].
    + split; [apply check_valid_true; lra|]. split; [exact O1|]. right. split; [exact O2|]. split; [exact O3|].
      rewrite O4. apply best_by_dots. intros m [<-|[<-|[<-|[]]]]; assumption.
  - rewrite rle_false in N. unfold in_range in I. rewrite !Forall_cons_iff in I. destruct I as (I1 & I2 & I3 & I4 & _).
    destruct (tetra_spec big (sp_w p) (sp_w q) (sp_w r) (sp_w t) N I1 I2 I3 I4) as (bits & u1 & -> & C).
    destruct C as [(-> & -> & x & y & z & k & X & Y & Z & K & S & O)|(d & C & O)].
    + split; [apply check_valid_true; lra|]. split; [intros m Hm; exact Hm|]. left. split; [reflexivity|]. split; [reflexivity|]. cbn [sx_close sx_a sx_b].
      assert (W : forall a b c e, vadd (vadd (vadd (vscale 0 a) (vscale 0 b)) (vscale 0 c)) (vscale 0 e) = vzero) by (clear; intros; vring).
      rewrite !W. split; [clear; vring|]. split; [reflexivity|]. split; [reflexivity|].
      exists [(x, p); (y, q); (z, r); (k, t)]. split.
      * split; [reflexivity|]. split; [repeat (apply Forall_cons; [cbn [fst]; lra|]); constructor|cbn; lra].
      * rewrite <- O. unfold combine4; cbn [weigh]. generalize (sp_w p), (sp_w q), (sp_w r), (sp_w t); clear; vring.
    + destruct u1 as [[[x y] z] k]. unfold tetra_ok in C. cbv zeta in C. destruct C as (Q & K & B & (X1 & X3 & X4) & (Y1 & Y3 & Y4) & (Z1 & Z3 & Z4) & (K1 & K3 & K4)).
      set (u0 := [(x, p); (y, q); (z, r); (k, t)]).
      assert (W : forall f : spoint -> vec3, vadd (vadd (vadd (vscale x (f p)) (vscale y (f q))) (vscale z (f r))) (vscale k (f t)) = weigh f u0).
      { intros f. unfold u0; cbn [weigh]. generalize (f p), (f q), (f r), (f t); clear; vring. }
      unfold combine4 in *. rewrite (W sp_a), (W sp_b). rewrite (W sp_w) in X4, Y4, Z4, K4, Q.
      destruct (reduce4 bits p q r t x y z k B X3 Y3 Z3 K3) as (u & RU & LU).
      destruct (reduced_ok bits [p; q; r; t] u0 u (check_valid (x, y, z, k)) RU LU) as (O1 & O2 & O3 & O4).
      * repeat (apply Forall_cons; [cbn [fst]; lra|]). constructor.
      * unfold u0; cbn; lra.
      * exact D.
      * reflexivity.
      * intros m (i & Hi & Hb). destruct i as [|[|[|[|i]]]]; cbn [nth_error] in Hi; [injection Hi as <-; now apply X4|injection Hi as <-; now apply Y4|injection Hi as <-; now apply Z4|injection Hi as <-; now apply K4|destruct i; discriminate].
      * split; [apply check_valid_true; lra|]. split; [exact O1|]. right. split; [exact O2|]. split; [exact O3|].
        rewrite O4. intros v (V1 & V2 & V3). rewrite <- Q.
        destruct v as [|[x' ?] [|[y' ?] [|[z' ?] [|[k' ?] [|? ?]]]]]; try discriminate V1. injection V1 as -> -> -> ->. rewrite !Forall_cons_iff in V2. cbn [fst] in V2. cbn [total] in V3.
        destruct V2 as (? & ? & ? & ? & _). specialize (O x' y' z' k'). cbn [weigh].
        replace (vadd (vscale x' (sp_w p)) (vadd (vscale y' (sp_w q)) (vadd (vscale z' (sp_w r)) (vadd (vscale k' (sp_w t)) vzero))))
          with (vadd (vadd (vadd (vscale x' (sp_w p)) (vscale y' (sp_w q))) (vscale z' (sp_w r))) (vscale k' (sp_w t)))
          by (generalize (sp_w p), (sp_w q), (sp_w r), (sp_w t); clear; vring).
        apply O; lra.
Qed.

(** ** The points of the simplex are in general position *)

Definition independent (l : list spoint) : Prop :=
  match map sp_w l with
  | [a; b] => 0 < vlen2 (vsub b a)
  | [a; b; c] => 0 < vlen2 (vcross (vsub b a) (vsub c a))
  | _ => True
  end.
Lemma side_nonzero u x w : vdot w (vcross u x) <> 0 -> 0 < vlen2 u.
Proof.
  intros H. destruct (Rle_lt_or_eq_dec 0 (vlen2 u) (vlen2_nonneg u)) as [L|E]; [exact L|]. exfalso. apply H.
  symmetry in E. apply vlen2_zero in E. subst u. generalize w, x; clear; unfold vzero; vring.
Qed.
Lemma triple_independent p q r t bits : triple (sp_w p) (sp_w q) (sp_w r) (sp_w t) <> 0 -> (bits < 15)%nat -> independent (reduce bits [p; q; r; t]).
Proof.
  intros N B.
  assert (C : (bits = 0 \/ bits = 1 \/ bits = 2 \/ bits = 3 \/ bits = 4 \/ bits = 5 \/ bits = 6 \/ bits = 7 \/ bits = 8 \/ bits = 9 \/ bits = 10 \/ bits = 11 \/ bits = 12 \/ bits = 13 \/ bits = 14)%nat) by lia.
  destruct p as [p pa pb], q as [q qa qb], r as [r ra rb], t as [t ta tb]. cbn [sp_w] in N. unfold triple in N.
  assert (F : forall l, l = vdot (vsub q p) (vcross (vsub r p) (vsub t p)) \/ l = - vdot (vsub q p) (vcross (vsub r p) (vsub t p)) -> l <> 0)
    by (intros l [->| ->]; lra).
  repeat destruct C as [->|C]; try subst bits; unfold independent;
    (match goal with |- context [reduce ?b ?l] => let v := eval cbv in (reduce b l) in change (reduce b l) with v end; cbn [map sp_w]; try exact I; clear N;
    first
    [ apply (cross_nonzero _ _ (vsub p t)); apply F; clear F; first [left; vring|right; vring]
    | apply (cross_nonzero _ _ (vsub q t)); apply F; clear F; first [left; vring|right; vring]
    | apply (cross_nonzero _ _ (vsub r t)); apply F; clear F; first [left; vring|right; vring]
    | apply (cross_nonzero _ _ (vsub t p)); apply F; clear F; first [left; vring|right; vring]
    | apply (side_nonzero _ (vsub r p) (vsub t p)); apply F; clear F; first [left; vring|right; vring]
    | apply (side_nonzero _ (vsub q p) (vsub t p)); apply F; clear F; first [left; vring|right; vring]
    | apply (side_nonzero _ (vsub q p) (vsub r p)); apply F; clear F; first [left; vring|right; vring]
    | apply (side_nonzero _ (vsub p q) (vsub t q)); apply F; clear F; first [left; vring|right; vring]
    | apply (side_nonzero _ (vsub p q) (vsub r q)); apply F; clear F; first [left; vring|right; vring]
    | apply (side_nonzero _ (vsub p r) (vsub q r)); apply F; clear F; first [left; vring|right; vring] ]).
Qed.
Lemma triangle_independent p q r bits : 0 < vlen2 (vcross (vsub (sp_w q) (sp_w p)) (vsub (sp_w r) (sp_w p))) -> (bits < 8)%nat -> independent (reduce bits [p; q; r]).
Proof.
  intros N B.
  assert (C : (bits = 0 \/ bits = 1 \/ bits = 2 \/ bits = 3 \/ bits = 4 \/ bits = 5 \/ bits = 6 \/ bits = 7)%nat) by lia.
  destruct p as [p pa pb], q as [q qa qb], r as [r ra rb]. cbn [sp_w] in N.
  assert (M : vdot (vcross (vsub q p) (vsub r p)) (vcross (vsub q p) (vsub r p)) <> 0) by (change (vdot (vcross (vsub q p) (vsub r p)) (vcross (vsub q p) (vsub r p))) with (vlen2 (vcross (vsub q p) (vsub r p))); lra).
  assert (F : forall l, l = vdot (vcross (vsub q p) (vsub r p)) (vcross (vsub q p) (vsub r p)) \/ l = - vdot (vcross (vsub q p) (vsub r p)) (vcross (vsub q p) (vsub r p)) -> l <> 0)
    by (intros l [->| ->]; lra).
  repeat destruct C as [->|C]; try subst bits; unfold independent;
    (match goal with |- context [reduce ?b ?l] => let v := eval cbv in (reduce b l) in change (reduce b l) with v end; cbn [map sp_w]; try exact I; try exact N; clear N M;
    first
    [ apply (side_nonzero _ (vsub r p) (vcross (vsub q p) (vsub r p))); apply F; clear F; first [left; vring|right; vring]
    | apply (side_nonzero _ (vsub q p) (vcross (vsub q p) (vsub r p))); apply F; clear F; first [left; vring|right; vring]
    | apply (side_nonzero _ (vsub p q) (vcross (vsub q p) (vsub r p))); apply F; clear F; first [left; vring|right; vring] ]).
Qed.
Lemma recompute_independent big s : (1 <= length (sx_points s) <= 4)%nat -> dependent s = false -> in_range big (sx_points s) ->
  independent (sx_points (recompute big s)).
Proof.
  intros L N I. unfold recompute, dependent in *. destruct (sx_points s) as [|p [|q [|r [|t [|? ?]]]]] eqn:E; cbn [length] in L; try lia; cbn [map] in N.
  - exact Logic.I.
  - rewrite rle_false in N. assert (P : 0 < vlen2 (vsub (sp_w q) (sp_w p))) by (unfold voronoi_eps in N; lra).
    unfold closest_seg. destruct (rlt 0 _); [destruct (rlt _ _)|]; cbn [sx_points]; unfold independent; cbn; try exact Logic.I. exact P.
  - rewrite rle_false in N. assert (P : 0 < vlen2 (vcross (vsub (sp_w q) (sp_w p)) (vsub (sp_w r) (sp_w p)))) by (unfold voronoi_eps in N; lra).
    pose proof (tri_spec _ _ _ P) as S. destruct (closest_tri (sp_w p) (sp_w q) (sp_w r)) as [bits [[x y] z]]. cbv zeta in S. destruct S as (_ & B & _).
    cbn [sx_points]. apply triangle_independent; [exact P|lia].
  - rewrite rle_false in N. unfold in_range in I. rewrite !Forall_cons_iff in I. destruct I as (I1 & I2 & I3 & I4 & _).
    destruct (tetra_spec big (sp_w p) (sp_w q) (sp_w r) (sp_w t) N I1 I2 I3 I4) as (bits & [[[x y] z] k] & -> & C). cbn [sx_points].
    destruct C as [(-> & _)|(d & C & _)]; [exact Logic.I|].
    destruct C as (_ & _ & B & _). apply triple_independent; [|lia]. intros Z. fold (triple (sp_w p) (sp_w q) (sp_w r) (sp_w t)) in N. rewrite Z, Rabs_R0 in N. unfold voronoi_eps in N. lra.
Qed.

(** ** The loop *)

(** The two functions give vertices with the smallest difference along the direction. *)
Definition supports (big : R) (supp : vec3 -> vec3 * vec3) (LA LB : list vec3) : Prop :=
  forall v, 4 * vlen2 v < big -> In (fst (supp v)) LA /\ In (snd (supp v)) LB /\
  forall x y, In x LA -> In y LB -> vdot v (vsub (fst (supp v)) (snd (supp v))) <= vdot v (vsub x y).
Definition from (LA LB : list vec3) (p : spoint) : Prop := difference p /\ In (sp_a p) LA /\ In (sp_b p) LB.
Definition steady (LA LB : list vec3) (s : simplex) (v : vec3) (d2 : R) : Prop :=
  Forall (from LA LB) (sx_points s) /\ (1 <= length (sx_points s) <= 3)%nat /\ (exists u, close_ok s u) /\ independent (sx_points s) /\
  v = sx_close s /\ d2 = vlen2 v /\ 0 < d2.
(** No three or four differences are nearly, but not exactly, dependent. *)
Definition shaped (LA LB : list vec3) : Prop :=
  (forall p q r, from LA LB p -> from LA LB q -> from LA LB r ->
     vlen2 (vcross (vsub (sp_w q) (sp_w p)) (vsub (sp_w r) (sp_w p))) <= voronoi_eps -> vcross (vsub (sp_w q) (sp_w p)) (vsub (sp_w r) (sp_w p)) = vzero) /\
  (forall p q r t, from LA LB p -> from LA LB q -> from LA LB r -> from LA LB t ->
     Rabs (triple (sp_w p) (sp_w q) (sp_w r) (sp_w t)) <= voronoi_eps -> triple (sp_w p) (sp_w q) (sp_w r) (sp_w t) = 0).
Definition gjk_slack (eps D : R) : R := Rmax (/ 100) (Rmax (rel_error2 * D) (5 * sqrt eps * D)).
Definition outcome (eps margin D : R) (LA LB : list vec3) (e : gjk_end) : Prop :=
  match e with
  | Apart v => exists m, 0 < m /\ vlen2 v * (margin * margin) < m * m /\ forall x y, In x LA -> In y LB -> m <= vdot v (vsub x y)
  | Found s v d2 => 0 < d2 /\ d2 = vlen2 v /\
      (exists l u, Forall (from LA LB) l /\ convex_weights l u /\ v = weigh sp_w u /\ sx_a s = weigh sp_a u /\ sx_b s = weigh sp_b u) /\
      (shaped LA LB -> forall x y, In x LA -> In y LB -> d2 - sqrt d2 * gjk_slack eps D <= vdot v (vsub x y))
  | Ended s v d2 => exists l u, Forall (from LA LB) l /\ convex_weights l u /\ vlen2 (weigh sp_w u) <= eps * (D * D)
  end.

Lemma weigh_app {A} (f : A -> vec3) u v : weigh f (u ++ v) = vadd (weigh f u) (weigh f v).
Proof. induction u as [|[k p] u IH]; cbn [weigh app]; [generalize (weigh f v); clear; vring|]. rewrite IH. generalize (f p), (weigh f u), (weigh f v); clear; vring. Qed.
Lemma total_app {A} (u v : list (R * A)) : total (u ++ v) = total u + total v.
Proof. induction u as [|[k p] u IH]; cbn [total app]; [ring|]. rewrite IH. ring. Qed.
Definition thin {A} (k : R) (u : list (R * A)) : list (R * A) := map (fun x => (k * fst x, snd x)) u.
Lemma weigh_thin {A} (f : A -> vec3) k u : weigh f (thin k u) = vscale k (weigh f u).
Proof. induction u as [|[j p] u IH]; cbn [weigh thin map fst snd]; [clear; vring|]. unfold thin in IH. rewrite IH. generalize (f p), (weigh f u); clear; vring. Qed.
Lemma total_thin {A} k (u : list (R * A)) : total (thin k u) = k * total u.
Proof. induction u as [|[j p] u IH]; cbn [total thin map fst snd]; [ring|]. unfold thin in IH. rewrite IH. ring. Qed.
Lemma convex_add {A} (l : list A) u p t : convex_weights l u -> 0 <= t <= 1 -> convex_weights (l ++ [p]) (thin (1 - t) u ++ [(t, p)]).
Proof.
  intros (M & P & T) H. split; [|split].
  - rewrite map_app. unfold thin. rewrite map_map. cbn [snd map]. change (map (fun x : R * A => snd x) u) with (map snd u). now rewrite M.
  - apply Forall_app. split; [|apply Forall_cons; [cbn; lra|constructor]]. apply Forall_forall. intros x Hx. unfold thin in Hx. apply in_map_iff in Hx as (y & <- & Hy). cbn [fst].
    rewrite Forall_forall in P. specialize (P y Hy). nra.
  - rewrite total_app, total_thin, T. cbn. ring.
Qed.
Lemma max_len2_le M s : 0 <= M -> (forall p, In p (sx_points s) -> vlen2 (sp_w p) <= M) -> max_len2 s <= M.
Proof.
  intros H P. unfold max_len2. enough (G : forall l m, m <= M -> (forall p, In p l -> vlen2 (sp_w p) <= M) ->
    fold_left (fun m p => if rlt m (vlen2 (sp_w p)) then vlen2 (sp_w p) else m) l m <= M) by (apply G; assumption).
  clear. induction l as [|p l IH]; intros m H P; cbn [fold_left]; [exact H|]. apply IH; [|intros; apply P; now right].
  destruct (rlt m (vlen2 (sp_w p))); [apply P; now left|exact H].
Qed.
Lemma max_len2_nonneg s : 0 <= max_len2 s.
Proof.
  unfold max_len2. enough (G : forall l m, 0 <= m -> 0 <= fold_left (fun m p => if rlt m (vlen2 (sp_w p)) then vlen2 (sp_w p) else m) l m) by (apply G; lra).
  clear. induction l as [|p l IH]; intros m H; cbn [fold_left]; [exact H|]. apply IH. destruct (rlt _ _); [apply vlen2_nonneg|exact H].
Qed.
Lemma dot_bound a b : vdot a b <= sqrt (vlen2 a) * sqrt (vlen2 b).
Proof. exact (cauchy_schwarz a b). Qed.
Lemma weigh_short l u D : 0 <= D -> convex_weights l u -> (forall p, In p l -> vlen2 (sp_w p) <= D * D) -> vlen2 (weigh sp_w u) <= D * D.
Proof.
  intros HD U H. set (v := weigh sp_w u).
  assert (G : - (sqrt (vlen2 v) * D) <= vdot (vneg v) (weigh sp_w u)).
  { apply (weigh_ge sp_w l u); [exact U|]. intros p Hp. pose proof (dot_bound v (sp_w p)) as B.
    assert (S : sqrt (vlen2 (sp_w p)) <= D) by (rewrite <- (sqrt_square D) by exact HD; apply sqrt_le_1_alt; now apply H).
    pose proof (sqrt_pos (vlen2 v)). replace (vdot (vneg v) (sp_w p)) with (- vdot v (sp_w p)) by (generalize v, (sp_w p); clear; vring). nra. }
  fold v in G. replace (vdot (vneg v) v) with (- vlen2 v) in G by (generalize v; clear; vring).
  pose proof (sqrt_sqrt (vlen2 v) (vlen2_nonneg v)) as Q. pose proof (sqrt_pos (vlen2 v)) as P. set (x := sqrt (vlen2 v)) in *. clearbody x.
  destruct (Rle_dec x D); nra.
Qed.

(** *** What dependence of the points means for the direction *)

Lemma in_plane v a b c d : 0 < vlen2 (vcross (vsub b a) (vsub c a)) -> vdot v b = vdot v a -> vdot v c = vdot v a -> triple a b c d = 0 -> vdot v d = vdot v a.
Proof.
  intros N B C T. set (n := vcross (vsub b a) (vsub c a)) in *.
  assert (E : vlen2 n * vdot v (vsub d a) = vdot v n * triple a b c d + vdot v (vsub b a) * vdot (vcross (vsub c a) n) (vsub d a) + vdot v (vsub c a) * vdot (vcross n (vsub b a)) (vsub d a)).
  { unfold n, triple. clear. generalize a, b, c, d, v. vring. }
  assert (F : forall x, vdot v (vsub x a) = vdot v x - vdot v a) by (intros x; generalize x, a, v; clear; vring).
  rewrite T, !F, B, C in E. clearbody n. apply Rmult_eq_reg_l with (vlen2 n); lra.
Qed.
Lemma on_line v a b c : 0 < vlen2 (vsub b a) -> vdot v b = vdot v a -> vcross (vsub b a) (vsub c a) = vzero -> vdot v c = vdot v a.
Proof.
  intros N B T.
  assert (E : vlen2 (vsub b a) * vdot v (vsub c a) = vdot v (vsub b a) * vdot (vsub b a) (vsub c a) + vdot v (vcross (vcross (vsub b a) (vsub c a)) (vsub b a))).
  { clear. generalize a, b, c, v. vring. }
  assert (F : forall x, vdot v (vsub x a) = vdot v x - vdot v a) by (intros x; generalize x, a, v; clear; vring).
  rewrite T, !F, B in E. replace (vdot v (vcross vzero (vsub b a))) with 0 in E by (generalize v, a, b; clear; vring).
  apply Rmult_eq_reg_l with (vlen2 (vsub b a)); lra.
Qed.
Lemma dependent_dot LA LB s v d2 p : shaped LA LB -> steady LA LB s v d2 -> from LA LB p -> in_simplex s (sp_w p) = false ->
  dependent (simplex_add s p) = true -> vdot v (sp_w p) = d2.
Proof.
  intros (SH3 & SH4) (F & L & (u & _ & _ & _ & _ & O) & I & -> & -> & P) Fp N D. unfold dependent, simplex_add, in_simplex, independent in *. cbn [sx_points] in *.
  destruct (sx_points s) as [|a [|b [|c [|? ?]]]]; cbn [length] in L; try lia; cbn [map app existsb] in *; rewrite rle_true in D; rewrite !Forall_cons_iff in F.
  - rewrite orb_false_r, rle_false in N. replace (vlen2 (vsub (sp_w p) (sp_w a))) with (vlen2 (vsub (sp_w a) (sp_w p))) in D by (generalize (sp_w a), (sp_w p); clear; vring). lra.
  - assert (A : vdot (sx_close s) (sp_w a) = vlen2 (sx_close s)) by (apply O; now left).
    assert (B : vdot (sx_close s) (sp_w b) = vlen2 (sx_close s)) by (apply O; right; now left).
    rewrite <- A at 1. apply (on_line _ _ (sp_w b)); [exact I|lra|]. apply SH3; tauto.
  - assert (A : vdot (sx_close s) (sp_w a) = vlen2 (sx_close s)) by (apply O; now left).
    assert (B : vdot (sx_close s) (sp_w b) = vlen2 (sx_close s)) by (apply O; right; now left).
    assert (C : vdot (sx_close s) (sp_w c) = vlen2 (sx_close s)) by (apply O; right; right; now left).
    rewrite <- A at 1. apply (in_plane _ _ (sp_w b) (sp_w c)); [exact I|lra|lra|]. apply SH4; tauto.
Qed.

(** *** One turn *)

Definition short (D : R) (LA LB : list vec3) : Prop := forall x y, In x LA -> In y LB -> vlen2 (vsub x y) <= D * D.

Lemma steady_weights LA LB s v d2 : steady LA LB s v d2 ->
  exists l u, Forall (from LA LB) l /\ convex_weights l u /\ v = weigh sp_w u /\ sx_a s = weigh sp_a u /\ sx_b s = weigh sp_b u.
Proof. intros (F & _ & (u & U & C & A & B & _) & _ & -> & _). exists (sx_points s), u. tauto. Qed.
Lemma from_short D LA LB p : short D LA LB -> from LA LB p -> vlen2 (sp_w p) <= D * D.
Proof. intros S (E & A & B). rewrite E. now apply S. Qed.

Lemma slack_gap eps D d2 g : 0 <= eps -> 0 <= D -> 0 <= d2 ->
  g <= sqrt d2 * / 100 \/ g <= sqrt d2 * (rel_error2 * D) \/ g <= sqrt d2 * (5 * sqrt eps * D) -> g <= sqrt d2 * gjk_slack eps D.
Proof.
  intros E HD P H. unfold gjk_slack. pose proof (sqrt_pos d2).
  assert (A : / 100 <= Rmax (/ 100) (Rmax (rel_error2 * D) (5 * sqrt eps * D))) by apply Rmax_l.
  assert (B : Rmax (rel_error2 * D) (5 * sqrt eps * D) <= Rmax (/ 100) (Rmax (rel_error2 * D) (5 * sqrt eps * D))) by apply Rmax_r.
  pose proof (Rmax_l (rel_error2 * D) (5 * sqrt eps * D)). pose proof (Rmax_r (rel_error2 * D) (5 * sqrt eps * D)).
  set (m := Rmax (/ 100) _) in *. clearbody m. destruct H as [H|[H|H]]; nra.
Qed.
(** The progress is small only if the direction is nearly the best one. *)
Lemma progress_gap eps D d2 g L2 n2 : 0 < eps <= 1 -> 0 < D -> 0 < d2 <= D * D -> L2 <= 4 * (D * D) -> d2 - n2 <= eps * d2 ->
  (forall t, 0 <= t <= 1 -> n2 <= d2 - 2 * t * g + t * t * L2) -> g <= sqrt d2 * (2 * sqrt eps * D).
Proof.
  intros E HD P L H T. pose proof (sqrt_sqrt d2 ltac:(lra)) as Qd. pose proof (sqrt_sqrt eps ltac:(lra)) as Qe.
  assert (Hd : 0 < sqrt d2) by (apply sqrt_lt_R0; lra). assert (He : 0 < sqrt eps) by (apply sqrt_lt_R0; lra).
  set (d := sqrt d2) in *. set (e := sqrt eps) in *. clearbody d e.
  assert (d <= D) by nra. assert (e <= 1) by nra.
  set (t := e * d / (2 * D)). assert (Ht : t * (2 * D) = e * d) by (unfold t; field; lra).
  assert (t0 : 0 < t) by (unfold t; apply Rdiv_lt_0_compat; nra).
  assert (t1 : t <= 1) by nra.
  specialize (T t ltac:(lra)).
  assert (t * t * L2 <= eps * d2).
  { assert (t * t * L2 <= t * t * (4 * (D * D))) by nra. assert (t * t * (4 * (D * D)) = (e * d) * (e * d)) by (rewrite <- Ht; ring). nra. }
  assert (G : t * g <= eps * d2) by lra.
  apply (Rmult_le_reg_l t); [exact t0|]. replace (t * (d * (2 * e * D))) with ((t * (2 * D)) * (e * d)) by ring. rewrite Ht. nra.
Qed.

Lemma zero_weights {A} (l : list A) : exists u, map snd u = l /\ Forall (fun x => 0 <= fst x) u /\ total u = 0 /\ forall f, weigh f u = vzero.
Proof.
  induction l as [|q l (u & M & P & T & W)]; [exists []; repeat split; constructor|].
  exists ((0, q) :: u). cbn [map snd total weigh]. rewrite M, T. split; [reflexivity|]. split; [constructor; [cbn; lra|exact P]|]. split; [ring|].
  intros f. rewrite W. generalize (f q); clear; vring.
Qed.
Lemma scaled_weight {A} k (p : A) l : 0 <= k -> In p l -> exists u, map snd u = l /\ Forall (fun x => 0 <= fst x) u /\ total u = k /\ forall f, weigh f u = vscale k (f p).
Proof.
  intros K. induction l as [|q l IH]; intros H; [elim H|]. destruct H as [->|H].
  - destruct (zero_weights l) as (u & M & P & T & W). exists ((k, p) :: u). cbn [map snd total weigh]. rewrite M, T.
    split; [reflexivity|]. split; [constructor; [exact K|exact P]|]. split; [ring|]. intros f. rewrite W. generalize (f p); clear; vring.
  - destruct (IH H) as (u & M & P & T & W). exists ((0, q) :: u). cbn [map snd total weigh]. rewrite M, T.
    split; [reflexivity|]. split; [constructor; [cbn; lra|exact P]|]. split; [ring|]. intros f. rewrite W. generalize (f p), (f q); clear; vring.
Qed.
Lemma sum_weights {A} (u v : list (R * A)) : map snd u = map snd v -> Forall (fun x => 0 <= fst x) u -> Forall (fun x => 0 <= fst x) v ->
  exists w, map snd w = map snd u /\ Forall (fun x => 0 <= fst x) w /\ total w = total u + total v /\ forall f, weigh f w = vadd (weigh f u) (weigh f v).
Proof.
  revert v. induction u as [|[j p] u IH]; intros [|[k q] v] M P Q; try discriminate M.
  - exists []. cbn. split; [reflexivity|]. split; [constructor|]. split; [ring|]. intros _. clear; vring.
  - cbn [map snd] in M. injection M as -> M. rewrite Forall_cons_iff in P, Q. destruct P as (P0 & P), Q as (Q0 & Q). cbn [fst] in *.
    destruct (IH v M P Q) as (w & W1 & W2 & W3 & W4). exists ((j + k, q) :: w). cbn [map snd total weigh]. rewrite W1, W3.
    split; [reflexivity|]. split; [constructor; [cbn; lra|exact W2]|]. split; [ring|]. intros f. rewrite W4. generalize (f q), (weigh f u), (weigh f v); clear; vring.
Qed.
Lemma lift_weights {A} (l : list A) u' : incl (map snd u') l -> Forall (fun x => 0 <= fst x) u' ->
  exists u, map snd u = l /\ Forall (fun x => 0 <= fst x) u /\ total u = total u' /\ forall f, weigh f u = weigh f u'.
Proof.
  induction u' as [|[k p] u' IH]; intros I P; [apply zero_weights|].
  rewrite Forall_cons_iff in P. destruct P as (P0 & P). cbn [fst] in P0.
  destruct IH as (u & M & Q & T & W); [intros x Hx; apply I; now right|exact P|].
  destruct (scaled_weight k p l P0) as (v & Mv & Qv & Tv & Wv); [apply I; now left|].
  destruct (sum_weights v u) as (w & Mw & Qw & Tw & Ww); [congruence|exact Qv|exact Q|].
  exists w. cbn [total weigh]. rewrite Mw, Tw, Tv, T. split; [exact Mv|]. split; [exact Qw|]. split; [reflexivity|]. intros f. now rewrite Ww, Wv, W.
Qed.
Lemma best_incl l l' c : best_of l c -> incl l' l -> best_of l' c.
Proof.
  intros B I u' (M & P & T). destruct (lift_weights l u') as (u & M2 & P2 & T2 & W); [now rewrite M|exact P|].
  rewrite <- W. apply B. split; [exact M2|]. split; [exact P2|lra].
Qed.
Lemma best_dots l l' u : incl l' l -> convex_weights l' u -> best_of l (weigh sp_w u) -> forall p, In p l -> vlen2 (weigh sp_w u) <= vdot (weigh sp_w u) (sp_w p).
Proof.
  intros I U B p Hp. set (c := weigh sp_w u).
  enough (vdot c (vsub c (sp_w p)) <= 0) as G.
  { replace (vdot c (vsub c (sp_w p))) with (vlen2 c - vdot c (sp_w p)) in G by (generalize c, (sp_w p); clear; vring). lra. }
  apply (small_quadratic (vlen2 (vsub (sp_w p) c))). intros t Ht.
  assert (B2 : best_of (l' ++ [p]) c) by (apply (best_incl l); [exact B|]; intros x Hx; apply in_app_iff in Hx as [Hx|[<-|[]]]; auto).
  specialize (B2 _ (convex_add l' u p t U Ht)). rewrite weigh_app, weigh_thin in B2. cbn [weigh] in B2. fold c in B2.
  replace (vlen2 (vadd (vscale (1 - t) c) (vadd (vscale t (sp_w p)) vzero)))
    with (vlen2 c - 2 * t * vdot c (vsub c (sp_w p)) + t * t * vlen2 (vsub (sp_w p) c)) in B2 by (generalize c, (sp_w p), t; clear; vring).
  lra.
Qed.

Lemma turned_gap eps D v v2 d2 n2 z g : 0 < eps <= / 2 -> 0 < D -> d2 = vlen2 v -> n2 = vlen2 v2 -> 0 < d2 -> n2 <= vdot v2 v -> d2 - n2 <= eps * d2 -> n2 <= d2 ->
  vlen2 z <= D * D -> d2 - g <= vdot v z -> g <= sqrt d2 * (2 * sqrt eps * D) -> n2 - vdot v2 z <= sqrt n2 * (5 * sqrt eps * D).
Proof.
  intros E HD -> -> P V N M Z G H.
  assert (Q : vlen2 (vsub v2 v) <= eps * vlen2 v).
  { replace (vlen2 (vsub v2 v)) with (vlen2 v + vlen2 v2 - 2 * vdot v2 v) by (generalize v, v2; clear; vring). lra. }
  pose proof (dot_bound (vsub v v2) z) as B. replace (vlen2 (vsub v v2)) with (vlen2 (vsub v2 v)) in B by (generalize v, v2; clear; vring).
  assert (Q2 : sqrt (vlen2 (vsub v2 v)) <= sqrt eps * sqrt (vlen2 v)) by (rewrite <- sqrt_mult by lra; now apply sqrt_le_1_alt).
  assert (Q3 : sqrt (vlen2 z) <= D) by (rewrite <- (sqrt_square D) by lra; now apply sqrt_le_1_alt).
  replace (vdot (vsub v v2) z) with (vdot v z - vdot v2 z) in B by (generalize v, v2, z; clear; vring).
  pose proof (sqrt_pos (vlen2 (vsub v2 v))). pose proof (sqrt_pos (vlen2 z)). pose proof (sqrt_pos eps). pose proof (sqrt_pos (vlen2 v)). pose proof (sqrt_pos (vlen2 v2)).
  assert (B2 : sqrt (vlen2 (vsub v2 v)) * sqrt (vlen2 z) <= sqrt eps * sqrt (vlen2 v) * D) by (apply Rmult_le_compat; assumption).
  assert (R1 : 3 / 5 * sqrt (vlen2 v) <= sqrt (vlen2 v2)).
  { rewrite <- (sqrt_square (3 / 5)) by lra. rewrite <- sqrt_mult by lra. apply sqrt_le_1_alt. nra. }
  assert (R2 : 3 / 5 * sqrt (vlen2 v) * (5 * sqrt eps * D) <= sqrt (vlen2 v2) * (5 * sqrt eps * D)) by (apply Rmult_le_compat_r; [|exact R1]; apply Rmult_le_pos; lra).
  lra.
Qed.

Lemma turn eps big margin D supp LA LB fuel s v d2 : 0 < eps <= / 2 -> 0 < D -> supports big supp LA LB -> short D LA LB ->
  4 * (D * D) < big -> steady LA LB s v d2 ->
  (exists e, gjk_loop eps big margin supp (S fuel) s v d2 = Ok e /\ outcome eps margin D LA LB e) \/
  (exists s2 n2, steady LA LB s2 (sx_close s2) n2 /\ n2 < d2 /\ gjk_loop eps big margin supp (S fuel) s v d2 = gjk_loop eps big margin supp fuel s2 (sx_close s2) n2).
Proof.
  intros HE HD SUP SH RG ST. cbn [gjk_loop].
  pose proof (steady_weights _ _ _ _ _ ST) as SW. pose proof ST as (F & L & (u & CU) & I & EV & ED & P).
  assert (SD : d2 <= D * D).
  { destruct SW as (l & u' & Fl & Cl & -> & _). rewrite ED. apply (weigh_short l); [lra|exact Cl|]. intros q Hq. apply (from_short D LA LB); [exact SH|]. rewrite Forall_forall in Fl. now apply Fl. }
  destruct (SUP v ltac:(lra)) as (Ia & Ib & Low). destruct (supp v) as [a b]. cbn [fst snd] in *.
  set (w := vsub a b) in *. set (p := SP w a b). assert (Fp : from LA LB p) by (split; [reflexivity|split; [exact Ia|exact Ib]]).
  pose proof (sqrt_pos d2) as Sp. pose proof (sqrt_sqrt d2 ltac:(lra)) as Sq.
  assert (SL : sqrt d2 <= D) by (rewrite <- (sqrt_square D) by lra; now apply sqrt_le_1_alt).
  assert (Gap : forall g, d2 - vdot v w <= g -> g <= sqrt d2 * gjk_slack eps D -> forall x y, In x LA -> In y LB -> d2 - sqrt d2 * gjk_slack eps D <= vdot v (vsub x y)).
  { intros g G1 G2 x y Hx Hy. specialize (Low x y Hx Hy). lra. }
  destruct (rlt 0 (vdot v w) && rlt (d2 * (margin * margin)) (vdot v w * vdot v w)) eqn:E1.
  { left. eexists. split; [reflexivity|]. apply andb_true_iff in E1 as (A & B). rewrite rlt_true in A, B. exists (vdot v w). split; [exact A|]. split; [rewrite <- ED; exact B|exact Low]. }
  clear E1. destruct (in_simplex s w || rle (d2 - vdot v w) (d2 * rel_error2)) eqn:E2.
  { left. eexists. split; [reflexivity|]. split; [exact P|]. split; [exact ED|]. split; [exact SW|]. intros _.
    apply orb_true_iff in E2 as [E2|E2].
    - apply (Gap (sqrt d2 * / 100)); [|apply slack_gap; try lra; now left].
      unfold in_simplex in E2. apply existsb_exists in E2 as (q & Hq & Eq). rewrite rle_true in Eq.
      destruct CU as (_ & _ & _ & _ & O). specialize (O q Hq). rewrite <- EV, <- ED in O.
      pose proof (dot_bound v (vsub (sp_w q) w)) as B. replace (vdot v (vsub (sp_w q) w)) with (vdot v (sp_w q) - vdot v w) in B by (generalize v, w, (sp_w q); clear; vring).
      rewrite <- ED in B. assert (sqrt (vlen2 (vsub (sp_w q) w)) <= / 100).
      { rewrite <- (sqrt_square (/ 100)) by lra. apply sqrt_le_1_alt. unfold voronoi_eps in Eq. lra. }
      nra.
    - rewrite rle_true in E2. apply (Gap (d2 * rel_error2)); [exact E2|]. apply slack_gap; try lra. right; left. unfold rel_error2. nra. }
  apply orb_false_iff in E2 as (E2 & E3). rewrite rle_false in E3.
  destruct (dependent (simplex_add s p)) eqn:E4.
  { left. eexists. split; [reflexivity|]. split; [exact P|]. split; [exact ED|]. split; [exact SW|]. intros SHP.
    pose proof (dependent_dot LA LB s v d2 p SHP ST Fp E2 E4) as K. exfalso. cbn [sp_w p] in K. unfold rel_error2 in E3. nra. }
  set (s1 := simplex_add s p) in *.
  assert (L1 : (1 <= length (sx_points s1) <= 4)%nat) by (unfold s1, simplex_add; cbn [sx_points]; rewrite app_length; cbn [length]; lia).
  assert (F1 : Forall (from LA LB) (sx_points s1)) by (unfold s1, simplex_add; cbn [sx_points]; apply Forall_app; split; [exact F|constructor; [exact Fp|constructor]]).
  assert (D1 : Forall difference (sx_points s1)) by (eapply Forall_impl; [|exact F1]; intros q (Q & _); exact Q).
  assert (R1 : in_range big (sx_points s1)) by (eapply Forall_impl; [|exact F1]; intros q (Q & Q1 & Q2); rewrite Q; specialize (SH _ _ Q1 Q2); pose proof (vlen2_nonneg (vsub (sp_a q) (sp_b q))); lra).
  pose proof (recompute_spec big s1 L1 D1 E4 R1) as (V2 & I2 & C2). pose proof (recompute_independent big s1 L1 E4 R1) as N2.
  set (s2 := recompute big s1) in *. rewrite V2. cbn [negb].
  assert (F2 : Forall (from LA LB) (sx_points s2)) by (apply Forall_forall; intros q Hq; rewrite Forall_forall in F1; apply F1, I2, Hq).
  destruct C2 as [(K4 & KP & KC & KA & KB & u2 & U2 & Z2)|(K3 & (u2 & U2) & B2)].
  - rewrite KC. replace (vlen2 vzero) with 0 by (clear; vring).
    destruct (rle (d2 - 0) (eps * d2)) eqn:E5; [rewrite rle_true in E5; exfalso; nra|].
    assert (FU : full s2 = true) by (unfold full; rewrite KP, K4; reflexivity). rewrite FU. cbn [negb andb].
    left. eexists. split; [reflexivity|]. exists (sx_points s1), u2. split; [exact F1|]. split; [exact U2|]. rewrite Z2. replace (vlen2 vzero) with 0 by (clear; vring). nra.
  - pose proof U2 as (U2a & U2b & U2c & U2d & U2e).
    assert (ND : 0 <= vlen2 (sx_close s2)) by apply vlen2_nonneg.
    assert (CUa : convex_weights (sx_points s) u) by apply CU. assert (CUb : v = weigh sp_w u) by (rewrite EV; apply CU).
    assert (Seg : forall t, 0 <= t <= 1 -> vlen2 (sx_close s2) <= d2 - 2 * t * (d2 - vdot v w) + t * t * vlen2 (vsub w v)).
    { intros t Ht. specialize (B2 _ (convex_add _ _ p t CUa Ht)). rewrite weigh_app, weigh_thin in B2. cbn [weigh sp_w p] in B2. rewrite <- CUb in B2.
      replace (vlen2 (vadd (vscale (1 - t) v) (vadd (vscale t w) vzero))) with (vlen2 v - 2 * t * (vlen2 v - vdot v w) + t * t * vlen2 (vsub w v)) in B2 by (generalize v, w, t; clear; vring).
      rewrite ED. exact B2. }
    assert (LE : vlen2 (sx_close s2) <= d2) by (specialize (Seg 0 ltac:(lra)); lra).
    destruct (rle (d2 - vlen2 (sx_close s2)) (eps * d2)) eqn:E5.
    + rewrite rle_true in E5. left. eexists. split; [reflexivity|]. split; [nra|]. split; [reflexivity|]. split; [exists (sx_points s2), u2; tauto|].
      intros _ x y Hx Hy.
      assert (GV : d2 - vdot v w <= sqrt d2 * (2 * sqrt eps * D)).
      { apply (progress_gap eps D d2 _ (vlen2 (vsub w v)) (vlen2 (sx_close s2))); [lra|exact HD|lra| |exact E5|exact Seg].
        assert (W : vlen2 w <= D * D) by (now apply SH).
        replace (vlen2 (vsub w v)) with (2 * vlen2 w + 2 * vlen2 v - vlen2 (vadd w v)) by (generalize w, v; clear; vring). pose proof (vlen2_nonneg (vadd w v)). rewrite <- ED. lra. }
      assert (VD : vlen2 (sx_close s2) <= vdot (sx_close s2) v).
      { rewrite CUb. apply (weigh_ge sp_w (sx_points s)); [exact CUa|]. intros q Hq. rewrite U2b.
        apply (best_dots (sx_points s1) (sx_points s2)); [exact I2|exact U2a|rewrite <- U2b; exact B2|]. unfold s1, simplex_add; cbn [sx_points]. apply in_app_iff. now left. }
      assert (TG : vlen2 (sx_close s2) - vdot (sx_close s2) (vsub x y) <= sqrt (vlen2 (sx_close s2)) * (5 * sqrt eps * D)).
      { apply (turned_gap eps D v (sx_close s2) d2 (vlen2 (sx_close s2)) (vsub x y) (d2 - vdot v w)); try assumption; try reflexivity; [now apply SH|]. specialize (Low x y Hx Hy). lra. }
      pose proof (slack_gap eps D (vlen2 (sx_close s2)) (vlen2 (sx_close s2) - vdot (sx_close s2) (vsub x y)) ltac:(lra) ltac:(lra) ND ltac:(right; right; exact TG)). lra.
    + rewrite rle_false in E5.
      destruct (negb (full s2) && rlt (eps * max_len2 s2) (vlen2 (sx_close s2))) eqn:E6.
      * right. apply andb_true_iff in E6 as (_ & E6). rewrite rlt_true in E6. exists s2, (vlen2 (sx_close s2)). split; [|split; [nra|reflexivity]].
        split; [exact F2|]. split; [exact K3|]. split; [exists u2; exact U2|]. split; [exact N2|]. split; [reflexivity|]. split; [reflexivity|].
        pose proof (max_len2_nonneg s2). nra.
      * left. eexists. split; [reflexivity|]. exists (sx_points s2), u2. split; [exact F2|]. split; [exact U2a|]. rewrite <- U2b.
        assert (FU : full s2 = false) by (unfold full; apply Nat.eqb_neq; lia). rewrite FU in E6. cbn [negb andb] in E6. rewrite rlt_false in E6.
        assert (max_len2 s2 <= D * D) by (apply max_len2_le; [nra|]; intros q Hq; apply (from_short D LA LB); [exact SH|]; rewrite Forall_forall in F2; now apply F2).
        nra.
Qed.
