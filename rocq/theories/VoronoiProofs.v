(** The closest point of a simplex to the origin. *)
From Coq Require Import List Bool Arith Lia Lra Psatz.
From Verif Require Import Base VecModel VecProofs GjkModel.
Import ListNotations.
Local Open Scope R_scope.

(** ** Weighted points *)

Fixpoint weigh {A : Type} (f : A -> vec3) (u : list (R * A)) : vec3 :=
  match u with [] => vzero | (k, p) :: rest => vadd (vscale k (f p)) (weigh f rest) end.
Fixpoint total {A : Type} (u : list (R * A)) : R := match u with [] => 0 | (k, _) :: rest => k + total rest end.
Definition convex_weights {A : Type} (l : list A) (u : list (R * A)) : Prop :=
  map snd u = l /\ Forall (fun x => 0 <= fst x) u /\ total u = 1.

Lemma weigh_dot {A} (f : A -> vec3) u n : vdot n (weigh f u) = fold_right (fun x s => fst x * vdot n (f (snd x)) + s) 0 u.
Proof.
  induction u as [|[k p] u IH]; cbn [weigh fold_right fst snd]; [generalize n; clear; vring|].
  rewrite vdot_vadd_r, vdot_vscale_r, IH. reflexivity.
Qed.
Lemma weigh_ge {A} (f : A -> vec3) l u n m : convex_weights l u -> (forall p, In p l -> m <= vdot n (f p)) -> m <= vdot n (weigh f u).
Proof.
  intros (E & P & T) H. subst l.
  enough (m * total u <= vdot n (weigh f u)) by (rewrite T in *; lra).
  clear T. induction u as [|[k p] u IH]; cbn [weigh total]; [rewrite Rmult_0_r; right; generalize n; clear; vring|].
  inversion P; subst; cbn [fst] in *. rewrite vdot_vadd_r, vdot_vscale_r.
  assert (m * total u <= vdot n (weigh f u)) by (apply IH; [assumption|intros; apply H; now right]).
  assert (m <= vdot n (f p)) by (apply H; now left). nra.
Qed.
Lemma weigh_eq {A} (f : A -> vec3) l u n m : convex_weights l u -> (forall p, In p l -> vdot n (f p) = m) -> vdot n (weigh f u) = m.
Proof.
  intros (E & P & T) H. subst l.
  enough (vdot n (weigh f u) = m * total u) by (rewrite T in *; lra).
  clear T. induction u as [|[k p] u IH]; cbn [weigh total]; [rewrite Rmult_0_r; generalize n; clear; vring|].
  inversion P; subst; cbn [fst] in *. rewrite vdot_vadd_r, vdot_vscale_r.
  rewrite IH; [|assumption|intros; apply H; now right]. rewrite (H p) by now left. ring.
Qed.
Lemma weigh_sub {A} (f g h : A -> vec3) u : (forall p, In p (map snd u) -> f p = vsub (g p) (h p)) -> weigh f u = vsub (weigh g u) (weigh h u).
Proof.
  induction u as [|[k p] u IH]; cbn [weigh map snd]; intros H; [clear; vring|].
  rewrite IH by (intros; apply H; now right). rewrite (H p) by now left.
  generalize (g p), (h p), (weigh g u), (weigh h u); clear; vring.
Qed.

(** ** Segments *)

Lemma seg_spec a b : 0 < vlen2 (vsub b a) -> let '(bits, t) := closest_seg a b in let p := vadd a (vscale t (vsub b a)) in
  0 <= t <= 1 /\ (bits = 3%nat \/ bits = 2%nat /\ t = 1 \/ bits = 1%nat /\ t = 0) /\
  vlen2 p <= vdot p a /\ vlen2 p <= vdot p b /\
  (Nat.testbit bits 0 = true -> vdot p a = vlen2 p) /\ (Nat.testbit bits 1 = true -> vdot p b = vlen2 p).
Proof.
  intros L. unfold closest_seg.
  assert (E : forall t, vlen2 (vadd a (vscale t (vsub b a))) = vdot (vadd a (vscale t (vsub b a))) a + t * (t * vlen2 (vsub b a) - vdot (vneg a) (vsub b a))).
  { intros t. generalize a, b, t; clear; vring. }
  assert (F : forall t, vdot (vadd a (vscale t (vsub b a))) b = vdot (vadd a (vscale t (vsub b a))) a + (t * vlen2 (vsub b a) - vdot (vneg a) (vsub b a))).
  { intros t. generalize a, b, t; clear; vring. }
  set (d := vdot (vneg a) (vsub b a)) in *. set (l := vlen2 (vsub b a)) in *. clearbody d l.
  destruct (rlt 0 d) eqn:E1; [destruct (rlt d l) eqn:E2|]; rewrite ?rlt_true, ?rlt_false in *.
  - assert (K : d / l * l - d = 0) by (field; lra).
    assert (0 <= d / l <= 1) by (split; [apply Rmult_le_pos; [lra|left; now apply Rinv_0_lt_compat]|apply (Rmult_le_reg_r l); [lra|]; lra]).
    cbn [Nat.testbit Nat.odd Nat.even negb Nat.div2]. rewrite E, F, K. repeat split; intros; try lra. now left.
  - assert (E' := E 1). assert (F' := F 1). cbn [Nat.testbit Nat.odd Nat.even negb Nat.div2].
    rewrite E', F'. repeat split; intros; try lra; try congruence. auto.
  - assert (E' := E 0). assert (F' := F 0). cbn [Nat.testbit Nat.odd Nat.even negb Nat.div2].
    rewrite E', F'. repeat split; intros; try lra; try congruence. auto.
Qed.

(** ** Triangles *)

(** The same computation from the products of the edges: [p], [q], [r] are the products of the two edges at the first corner, [d1] and [d2] those with
    the way from this corner to the origin. *)
Lemma region_side p q r d1 d2 : 0 < p -> 0 < r -> q * q < p * r -> ~ (d1 <= 0 /\ d2 <= 0) ->
  ~ (0 <= d2 - r /\ d1 - q <= d2 - r) -> ~ (r * d1 - q * d2 <= 0 /\ 0 <= d2 /\ d2 - r <= 0) ->
  p * d2 - q * d1 <= 0 -> d1 < 0 -> False.
Proof.
  intros Hp Hr Hd N1 N4 N5 Hc H1.
  assert (D2 : 0 < d2) by (destruct (Rle_lt_dec d2 0); [elim N1; lra|lra]).
  assert (Q : q < 0). { destruct (Rlt_le_dec q 0); [assumption|]. assert (0 < p * d2) by nra. assert (q * d1 <= 0) by nra. lra. }
  assert (B : r * d1 - q * d2 < 0).
  { assert (p * (r * d1 - q * d2) < 0); [|nra].
    assert (- q * (p * d2) <= - q * (q * d1)) by (apply Rmult_le_compat_l; lra). assert ((p * r - q * q) * d1 < 0) by nra. nra. }
  assert (R1 : r < d2). { destruct (Rlt_le_dec r d2); [assumption|]. elim N5. lra. }
  assert (R2 : d2 - r < d1 - q). { destruct (Rlt_le_dec (d2 - r) (d1 - q)); [assumption|]. elim N4. lra. }
  assert (q * q < q * d1). { apply Rlt_le_trans with (p * r); [lra|]. apply Rle_trans with (p * d2); [nra|lra]. }
  nra.
Qed.
Definition vc_ p q d1 d2 : R := p * d2 - q * d1.
Definition vb_ q r d1 d2 : R := r * d1 - q * d2.
Definition va_ p q r d1 d2 : R := p * r - q * q - vc_ p q d1 d2 - vb_ q r d1 d2.
(** Outside the other six regions the origin is over the inside of the triangle. *)
Lemma region_face p q r d1 d2 : 0 < p -> 0 < r -> q * q < p * r ->
  ~ (d1 <= 0 /\ d2 <= 0) -> ~ (0 <= d1 - p /\ d2 - q <= d1 - p) -> ~ (vc_ p q d1 d2 <= 0 /\ 0 <= d1 /\ d1 - p <= 0) ->
  ~ (0 <= d2 - r /\ d1 - q <= d2 - r) -> ~ (vb_ q r d1 d2 <= 0 /\ 0 <= d2 /\ d2 - r <= 0) ->
  ~ (va_ p q r d1 d2 <= 0 /\ 0 <= (d2 - q) - (d1 - p) /\ 0 <= (d1 - q) - (d2 - r)) ->
  0 < va_ p q r d1 d2 /\ 0 < vb_ q r d1 d2 /\ 0 < vc_ p q d1 d2.
Proof.
  unfold va_, vb_, vc_. intros Hp Hr Hd N1 N2 N3 N4 N5 N6.
  assert (S : 0 < p - 2 * q + r). { destruct (Rlt_le_dec 0 (p - 2 * q + r)); [assumption|]. exfalso.
    assert ((p + r) * (p + r) <= (2 * q) * (2 * q)) by (apply Rmult_le_compat; lra). assert (0 <= (p - r) * (p - r)) by apply Rle_0_sqr. lra. }
  assert (C : 0 < p * d2 - q * d1).
  { destruct (Rlt_le_dec 0 (p * d2 - q * d1)) as [|C]; [assumption|exfalso].
    destruct (Rlt_le_dec d1 0) as [H1|H1]; [now apply (region_side p q r d1 d2)|].
    assert (H3 : p < d1). { destruct (Rlt_le_dec p d1); [assumption|]. elim N3. lra. }
    apply (region_side p (p - q) (p - 2 * q + r) (p - d1) (d2 - q - (d1 - p))); try nra. }
  assert (B : 0 < r * d1 - q * d2).
  { destruct (Rlt_le_dec 0 (r * d1 - q * d2)) as [|B]; [assumption|exfalso].
    destruct (Rlt_le_dec d2 0) as [H1|H1]; [apply (region_side r q p d2 d1); lra|].
    assert (H3 : r < d2). { destruct (Rlt_le_dec r d2); [assumption|]. elim N5. lra. }
    apply (region_side r (r - q) (p - 2 * q + r) (r - d2) (d1 - q - (d2 - r))); try nra. }
  assert (A : 0 < p * r - q * q - (p * d2 - q * d1) - (r * d1 - q * d2)).
  { destruct (Rlt_le_dec 0 (p * r - q * q - (p * d2 - q * d1) - (r * d1 - q * d2))) as [|A]; [assumption|exfalso].
    assert (K : ~ (0 <= (d2 - q) - (d1 - p) /\ 0 <= (d1 - q) - (d2 - r))) by (intros [? ?]; apply N6; lra).
    destruct (Rlt_le_dec ((d2 - q) - (d1 - p)) 0) as [H1|H1].
    - (* seen from the second corner, with the edge to the third first *)
      apply (region_side (p - 2 * q + r) (p - q) p (d2 - q - (d1 - p)) (p - d1)); try nra.
    - assert (H2 : (d1 - q) - (d2 - r) < 0) by (destruct (Rlt_le_dec ((d1 - q) - (d2 - r)) 0); [assumption|elim K; lra]).
      apply (region_side (p - 2 * q + r) (r - q) r (d1 - q - (d2 - r)) (r - d2)); try nra. }
  auto.
Qed.

(** What the closest point of a triangle or a tetrahedron satisfies, coordinate by coordinate. *)
Definition used_ok (bits i : nat) (x : R) (p a : vec3) : Prop :=
  0 <= x /\ vlen2 p <= vdot p a /\ (Nat.testbit bits i = false -> x = 0) /\ (Nat.testbit bits i = true -> vdot p a = vlen2 p).
Lemma tri_parts a b c x y z : x + y + z = 1 -> let p := combine3 (x, y, z) a b c in
  let g1 := y * vlen2 (vsub b a) + z * vdot (vsub b a) (vsub c a) - vdot (vsub b a) (vneg a) in
  let g2 := y * vdot (vsub b a) (vsub c a) + z * vlen2 (vsub c a) - vdot (vsub c a) (vneg a) in
  vlen2 p = vdot p a + (y * g1 + z * g2) /\ vdot p b = vdot p a + g1 /\ vdot p c = vdot p a + g2.
Proof.
  intros H. assert (E : x = 1 - y - z) by lra. subst x. clear H. cbn [combine3].
  generalize a, b, c, y, z; clear; intros; repeat split; vring.
Qed.
Lemma tri_spec a b c : 0 < vlen2 (vcross (vsub b a) (vsub c a)) ->
  let '(bits, (x, y, z)) := closest_tri a b c in let p := combine3 (x, y, z) a b c in
  x + y + z = 1 /\ (0 < bits < 8)%nat /\ used_ok bits 0 x p a /\ used_ok bits 1 y p b /\ used_ok bits 2 z p c.
Proof.
  intros G. rewrite lagrange in G. unfold closest_tri.
  assert (E3 : vdot (vsub b a) (vneg b) = vdot (vsub b a) (vneg a) - vlen2 (vsub b a)) by (generalize a, b; clear; vring).
  assert (E4 : vdot (vsub c a) (vneg b) = vdot (vsub c a) (vneg a) - vdot (vsub b a) (vsub c a)) by (generalize a, b, c; clear; vring).
  assert (E5 : vdot (vsub b a) (vneg c) = vdot (vsub b a) (vneg a) - vdot (vsub b a) (vsub c a)) by (generalize a, b, c; clear; vring).
  assert (E6 : vdot (vsub c a) (vneg c) = vdot (vsub c a) (vneg a) - vlen2 (vsub c a)) by (generalize a, c; clear; vring).
  rewrite E3, E4, E5, E6. clear E3 E4 E5 E6.
  pose proof (tri_parts a b c) as T. cbv zeta in T.
  pose proof (vlen2_nonneg (vsub b a)) as P0. pose proof (vlen2_nonneg (vsub c a)) as R0.
  set (p := vlen2 (vsub b a)) in *. set (q := vdot (vsub b a) (vsub c a)) in *. set (r := vlen2 (vsub c a)) in *.
  set (d1 := vdot (vsub b a) (vneg a)) in *. set (d2 := vdot (vsub c a) (vneg a)) in *. clearbody p q r d1 d2.
  assert (Hp : 0 < p) by nra. assert (Hr : 0 < r) by nra. assert (S : 0 < p - 2 * q + r).
  { destruct (Rlt_le_dec 0 (p - 2 * q + r)); [assumption|]. exfalso.
    assert ((p + r) * (p + r) <= (2 * q) * (2 * q)) by (apply Rmult_le_compat; lra). assert (0 <= (p - r) * (p - r)) by apply Rle_0_sqr. lra. }
  assert (V : d1 * (d2 - q) - (d1 - p) * d2 = vc_ p q d1 d2) by (unfold vc_; ring).
  assert (W : (d1 - q) * d2 - d1 * (d2 - r) = vb_ q r d1 d2) by (unfold vb_; ring).
  assert (U : (d1 - p) * (d2 - r) - (d1 - q) * (d2 - q) = va_ p q r d1 d2) by (unfold va_, vb_, vc_; ring).
  rewrite U, V, W. clear U V W.
  Ltac rr := rewrite ?andb_true_iff, ?andb_false_iff, ?rle_true, ?rle_false in *.
  Ltac fin T x y z := destruct (T x y z) as (T1 & T2 & T3); [lra|]; split; [lra|]; split; [lia|]; unfold used_ok; rewrite T1, T2, T3;
    cbn [Nat.testbit Nat.odd Nat.even negb Nat.div2].
  destruct (rle d1 0 && rle d2 0) eqn:N1; rr.
  { fin T 1 0 0. repeat split; intros; try congruence; lra. }
  destruct (rle 0 (d1 - p) && rle (d2 - q) (d1 - p)) eqn:N2; rr.
  { fin T 0 1 0. repeat split; intros; try congruence; lra. }
  destruct (rle (vc_ p q d1 d2) 0 && rle 0 d1 && rle (d1 - p) 0) eqn:N3; rr.
  { replace (d1 - (d1 - p)) with p by ring. assert (K : d1 / p * p = d1) by (field; lra).
    assert (0 <= d1 / p <= 1) by (split; apply (Rmult_le_reg_r p); lra).
    assert (K2 : 0 <= d1 / p * q - d2). { unfold vc_ in N3. apply (Rmult_le_reg_r p); [lra|]. replace ((d1 / p * q - d2) * p) with (d1 / p * p * q - d2 * p) by ring. rewrite K. lra. }
    set (t := d1 / p) in *. clearbody t. fin T (1 - t) t 0. rewrite K. repeat split; intros; try congruence; lra. }
  destruct (rle 0 (d2 - r) && rle (d1 - q) (d2 - r)) eqn:N4; rr.
  { fin T 0 0 1. repeat split; intros; try congruence; lra. }
  destruct (rle (vb_ q r d1 d2) 0 && rle 0 d2 && rle (d2 - r) 0) eqn:N5; rr.
  { replace (d2 - (d2 - r)) with r by ring. assert (K : d2 / r * r = d2) by (field; lra).
    assert (0 <= d2 / r <= 1) by (split; apply (Rmult_le_reg_r r); lra).
    assert (K2 : 0 <= d2 / r * q - d1). { unfold vb_ in N5. apply (Rmult_le_reg_r r); [lra|]. replace ((d2 / r * q - d1) * r) with (d2 / r * r * q - d1 * r) by ring. rewrite K. lra. }
    set (t := d2 / r) in *. clearbody t. fin T (1 - t) 0 t. rewrite K. repeat split; intros; try congruence; lra. }
  destruct (rle (va_ p q r d1 d2) 0 && rle 0 (d2 - q - (d1 - p)) && rle 0 (d1 - q - (d2 - r))) eqn:N6; rr.
  { replace (d2 - q - (d1 - p) + (d1 - q - (d2 - r))) with (p - 2 * q + r) by ring. set (m := p - 2 * q + r) in *.
    set (n := d2 - q - (d1 - p)) in *. assert (K : n / m * m = n) by (field; lra).
    assert (M : n <= m) by (unfold n, m; lra).
    assert (0 <= n / m <= 1) by (split; apply (Rmult_le_reg_r m); lra).
    set (t := n / m) in *. clearbody t. 
    assert (K1 : (1 - t) * p + t * q - d1 = (1 - t) * q + t * r - d2) by (unfold m, n in K; lra).
    assert (K2 : (1 - t) * p + t * q - d1 <= 0).
    { apply (Rmult_le_reg_r m); [lra|]. replace (((1 - t) * p + t * q - d1) * m) with ((p - d1) * m + (t * m) * (q - p)) by ring. rewrite K.
      destruct N6 as [[N6 _] _]. unfold va_, vb_, vc_ in N6. unfold m, n. lra. }
    fin T 0 (1 - t) t. rewrite <- K1. repeat split; intros; try congruence; lra. }
  destruct (region_face p q r d1 d2) as (A & B & C); try lra.
  assert (D : va_ p q r d1 d2 + vb_ q r d1 d2 + vc_ p q d1 d2 = p * r - q * q) by (unfold va_; ring). rewrite D.
  set (m := p * r - q * q) in *.
  assert (KB : vb_ q r d1 d2 * (1 / m) * m = vb_ q r d1 d2) by (field; lra).
  assert (KC : vc_ p q d1 d2 * (1 / m) * m = vc_ p q d1 d2) by (field; lra).
  set (y := vb_ q r d1 d2 * (1 / m)) in *. set (z := vc_ p q d1 d2 * (1 / m)) in *.
  assert (0 < y) by (apply (Rmult_lt_reg_r m); lra). assert (0 < z) by (apply (Rmult_lt_reg_r m); lra).
  assert (0 < 1 - y - z) by (apply (Rmult_lt_reg_r m); [lra|]; rewrite !Rmult_minus_distr_r, KB, KC; lra).
  clearbody y z.
  assert (K1 : y * p + z * q - d1 = 0).
  { apply (Rmult_eq_reg_r m); [|lra]. replace ((y * p + z * q - d1) * m) with (y * m * p + z * m * q - d1 * m) by ring. rewrite KB, KC. unfold vb_, vc_, m. ring. }
  assert (K2 : y * q + z * r - d2 = 0).
  { apply (Rmult_eq_reg_r m); [|lra]. replace ((y * q + z * r - d2) * m) with (y * m * q + z * m * r - d2 * m) by ring. rewrite KB, KC. unfold vb_, vc_, m. ring. }
  fin T (1 - y - z) y z. rewrite K1, K2. repeat split; intros; try congruence; lra.
Qed.

(** ** Tetrahedra *)

(** Moving from non-negative numbers towards others of which one is negative, one of the negative ones is met first. *)
Lemma first_exit (l : list (R * R)) : Forall (fun x => 0 <= fst x) l -> Forall (fun x => 0 <= snd x) l \/
  exists t, 0 <= t <= 1 /\ Forall (fun x => 0 <= (1 - t) * fst x + t * snd x) l /\ Exists (fun x => snd x < 0 /\ (1 - t) * fst x + t * snd x = 0) l.
Proof.
  induction l as [|[a b] l IH]; intros H; [left; constructor|]. inversion H; subst; cbn [fst] in *.
  destruct (IH ltac:(assumption)) as [A|(t & T & A & X)].
  - destruct (Rlt_le_dec b 0) as [B|B]; [right|left; constructor; assumption].
    assert (K : a / (a - b) * (a - b) = a) by (field; lra).
    assert (0 <= a / (a - b) <= 1) by (split; apply (Rmult_le_reg_r (a - b)); lra).
    set (t := a / (a - b)) in *. clearbody t. exists t. split; [assumption|].
    assert (Z : (1 - t) * a + t * b = 0) by lra. split.
    + constructor; [cbn [fst snd]; lra|]. rewrite Forall_forall in *. intros [x y] I. cbn [fst snd]. specialize (A _ I). specialize (H3 _ I).
      cbn [fst snd] in *. nra.
    + left. cbn [fst snd]. lra.
  - right. destruct (Rle_lt_dec 0 ((1 - t) * a + t * b)) as [B|B].
    + exists t. repeat split; try lra; [constructor; assumption|now right].
    + assert (b < 0) by nra. assert (K : a / (a - b) * (a - b) = a) by (field; lra).
      assert (0 <= a / (a - b) <= 1) by (split; apply (Rmult_le_reg_r (a - b)); lra).
      set (t0 := a / (a - b)) in *. clearbody t0. assert (t0 < t) by (apply (Rmult_lt_reg_r (a - b)); lra).
      exists t0. split; [assumption|]. assert (Z : (1 - t0) * a + t0 * b = 0) by lra. split.
      * constructor; [cbn [fst snd]; lra|]. rewrite Forall_forall in *. intros [x y] I. cbn [fst snd]. specialize (A _ I). specialize (H3 _ I).
        cbn [fst snd] in *. assert (0 <= t0 * ((1 - t) * x + t * y)) by nra. assert (0 <= (t - t0) * x) by nra.
        apply (Rmult_le_reg_l t); [lra|]. nra.
      * left. cbn [fst snd]. lra.
Qed.

Definition combine4 (x y z k : R) (a b c d : vec3) : vec3 := vadd (vadd (vadd (vscale x a) (vscale y b)) (vscale z c)) (vscale k d).
Definition triple (a b c d : vec3) : R := vdot (vsub b a) (vcross (vsub c a) (vsub d a)).
Definition side_of (a b c : vec3) : R := vdot (vneg a) (vcross (vsub b a) (vsub c a)).

Lemma outside_plane_eq a b c d s : vdot (vsub d a) (vcross (vsub b a) (vsub c a)) = s -> voronoi_eps < Rabs s ->
  outside_plane a b c d = Some (rlt (side_of a b c * s) 0).
Proof.
  intros E H. unfold outside_plane. rewrite E. fold (side_of a b c).
  destruct (rlt (s * s) (voronoi_eps * voronoi_eps)) eqn:F; [|reflexivity]. apply rlt_true in F. exfalso.
  assert (P : 0 < voronoi_eps) by (unfold voronoi_eps; lra).
  assert (voronoi_eps * voronoi_eps < Rabs s * Rabs s) by nra. rewrite <- Rabs_mult, Rabs_right in H0 by (apply Rle_ge, Rle_0_sqr). lra.
Qed.
Lemma origin_weights a b c d : let D := triple a b c d in
  combine4 (side_of b d c) (side_of a c d) (side_of a d b) (side_of a b c) a b c d = vzero /\
  side_of b d c + side_of a c d + side_of a d b + side_of a b c = D.
Proof. unfold combine4, side_of, triple. cbv zeta. split; generalize a, b, c, d; clear; vring. Qed.

Definition used4 (bits i : nat) (x : R) (p a : vec3) : Prop :=
  0 <= x /\ (Nat.testbit bits i = false -> x = 0) /\ (Nat.testbit bits i = true -> vdot p a = vlen2 p).
Definition tetra_ok (a b c d : vec3) (q : R) (bits : nat) (u : R * R * R * R) : Prop :=
  let '(x, y, z, k) := u in let p := combine4 x y z k a b c d in
  q = vlen2 p /\ x + y + z + k = 1 /\ (bits = 7 \/ bits < 15 /\ bits <> 7 /\ bits <> 0)%nat /\
  used4 bits 0 x p a /\ used4 bits 1 y p b /\ used4 bits 2 z p c /\ used4 bits 3 k p d.

Lemma tri_bound a b c x y z : let p := combine3 (x, y, z) a b c in x + y + z = 1 ->
  vlen2 p <= vdot p a -> vlen2 p <= vdot p b -> vlen2 p <= vdot p c ->
  forall x' y' z', 0 <= x' -> 0 <= y' -> 0 <= z' -> x' + y' + z' = 1 -> vlen2 p <= vlen2 (combine3 (x', y', z') a b c).
Proof.
  intros p S A B C x' y' z' X Y Z S'.
  assert (E : vdot p (combine3 (x', y', z') a b c) = x' * vdot p a + y' * vdot p b + z' * vdot p c).
  { cbn [combine3]. generalize p, a, b, c; clear; intros; vring. }
  assert (F : vlen2 p <= vdot p (combine3 (x', y', z') a b c)) by (rewrite E; nra).
  pose proof (vlen2_nonneg (vsub p (combine3 (x', y', z') a b c))) as G.
  assert (K : vlen2 (vsub p (combine3 (x', y', z') a b c)) = vlen2 p - 2 * vdot p (combine3 (x', y', z') a b c) + vlen2 (combine3 (x', y', z') a b c)).
  { generalize p, (combine3 (x', y', z') a b c); clear; vring. } lra.
Qed.

(** One face. *)
Lemma try_face_out a b c i j k place st : 0 < vlen2 (vcross (vsub b a) (vsub c a)) -> let r := try_face true a b c i j k place st in
  fst (fst r) <= fst (fst st) /\
  (forall x y z, 0 <= x -> 0 <= y -> 0 <= z -> x + y + z = 1 -> fst (fst r) <= vlen2 (combine3 (x, y, z) a b c)) /\
  (r = st \/ exists bits x y z, let p := combine3 (x, y, z) a b c in
     r = (vlen2 p, map_bits bits i j k, place (x, y, z)) /\
     x + y + z = 1 /\ (0 < bits < 8)%nat /\ used_ok bits 0 x p a /\ used_ok bits 1 y p b /\ used_ok bits 2 z p c).
Proof.
  intros G. unfold try_face. pose proof (tri_spec a b c G) as T. destruct (closest_tri a b c) as [bits [[x y] z]]. cbv zeta.
  destruct T as (S & B & (X & XA & X0 & X1) & (Y & YA & Y0 & Y1) & (Z & ZA & Z0 & Z1)).
  pose proof (tri_bound a b c x y z S XA YA ZA) as M.
  destruct (rlt _ _) eqn:E; cbn [fst snd]; [apply rlt_true in E|apply rlt_false in E].
  - split; [lra|]. split; [exact M|]. right. exists bits, x, y, z. unfold used_ok. repeat split; auto; lia.
  - split; [lra|]. split; [|now left]. intros x' y' z' ? ? ? ?. specialize (M x' y' z'). lra.
Qed.

Lemma used_map bits i j k : (0 < bits < 8)%nat -> (i < 4)%nat -> (j < 4)%nat -> (k < 4)%nat -> i <> j -> i <> k -> j <> k ->
  let m := map_bits bits i j k in
  (m = 7 \/ m < 15 /\ m <> 7 /\ m <> 0)%nat /\ Nat.testbit m i = Nat.testbit bits 0 /\ Nat.testbit m j = Nat.testbit bits 1 /\ Nat.testbit m k = Nat.testbit bits 2 /\
  (forall h, h <> i -> h <> j -> h <> k -> Nat.testbit m h = false).
Proof.
  intros [B0 B] I J K IJ IK JK m.
  assert (T : forall h, Nat.testbit m h = ((h =? i) && Nat.testbit bits 0) || ((h =? j) && Nat.testbit bits 1) || ((h =? k) && Nat.testbit bits 2)).
  { intros h. unfold m, map_bits. rewrite !Nat.lor_spec. f_equal; [f_equal|].
    - destruct (Nat.testbit bits 0); rewrite ?Nat.bits_0, ?Nat.shiftl_1_l, ?Nat.pow2_bits_eqb, ?andb_false_r, ?andb_true_r; [apply Nat.eqb_sym|reflexivity].
    - destruct (Nat.testbit bits 1); rewrite ?Nat.bits_0, ?Nat.shiftl_1_l, ?Nat.pow2_bits_eqb, ?andb_false_r, ?andb_true_r; [apply Nat.eqb_sym|reflexivity].
    - destruct (Nat.testbit bits 2); rewrite ?Nat.bits_0, ?Nat.shiftl_1_l, ?Nat.pow2_bits_eqb, ?andb_false_r, ?andb_true_r; [apply Nat.eqb_sym|reflexivity]. }
  split.
  { unfold m. clear T m.
    assert (HI : (i = 0 \/ i = 1 \/ i = 2 \/ i = 3)%nat) by lia. assert (HJ : (j = 0 \/ j = 1 \/ j = 2 \/ j = 3)%nat) by lia.
    assert (HK : (k = 0 \/ k = 1 \/ k = 2 \/ k = 3)%nat) by lia.
    assert (HB : (bits = 1 \/ bits = 2 \/ bits = 3 \/ bits = 4 \/ bits = 5 \/ bits = 6 \/ bits = 7)%nat) by lia.
    destruct HI as [->|[->|[->| ->]]]; destruct HJ as [->|[->|[->| ->]]]; try congruence; destruct HK as [->|[->|[->| ->]]]; try congruence;
      destruct HB as [->|[->|[->|[->|[->|[->| ->]]]]]]; vm_compute; intuition (try discriminate; repeat constructor). }
  rewrite !T, !Nat.eqb_refl.
  replace (i =? j) with false by (symmetry; apply Nat.eqb_neq; lia). replace (i =? k) with false by (symmetry; apply Nat.eqb_neq; lia).
  replace (j =? i) with false by (symmetry; apply Nat.eqb_neq; lia). replace (j =? k) with false by (symmetry; apply Nat.eqb_neq; lia).
  replace (k =? i) with false by (symmetry; apply Nat.eqb_neq; lia). replace (k =? j) with false by (symmetry; apply Nat.eqb_neq; lia).
  cbn [andb orb]. rewrite ?orb_false_r. repeat split. intros h H1 H2 H3. rewrite T.
  replace (h =? i) with false by (symmetry; apply Nat.eqb_neq; lia). replace (h =? j) with false by (symmetry; apply Nat.eqb_neq; lia).
  replace (h =? k) with false by (symmetry; apply Nat.eqb_neq; lia). reflexivity.
Qed.

(** The four faces, one after the other. *)
Definition st_ok (big : R) (a b c d : vec3) (st : R * nat * (R * R * R * R)) : Prop :=
  st = (big, 15%nat, (0, 0, 0, 0)) \/ tetra_ok a b c d (fst (fst st)) (snd (fst st)) (snd st).
Lemma face_step big a b c d out p q r i j k (place : R * R * R -> R * R * R * R) st :
  0 < vlen2 (vcross (vsub q p) (vsub r p)) -> st_ok big a b c d st ->
  (forall bits x y z, let m := combine3 (x, y, z) p q r in x + y + z = 1 -> (0 < bits < 8)%nat -> used_ok bits 0 x m p -> used_ok bits 1 y m q -> used_ok bits 2 z m r ->
     tetra_ok a b c d (vlen2 m) (map_bits bits i j k) (place (x, y, z))) ->
  let st' := try_face out p q r i j k place st in
  st_ok big a b c d st' /\ fst (fst st') <= fst (fst st) /\
  (out = true -> forall x y z, 0 <= x -> 0 <= y -> 0 <= z -> x + y + z = 1 -> fst (fst st') <= vlen2 (combine3 (x, y, z) p q r)).
Proof.
  intros G S F. destruct out.
  - destruct (try_face_out p q r i j k place st G) as (L & M & [E|(bits & x & y & z & E & T1 & T2 & T3 & T4 & T5)]); cbv zeta in *.
    + rewrite E in *. repeat split; [exact S|lra|intros _; exact M].
    + split; [right; rewrite E; cbn [fst snd]; now apply F|]. split; [exact L|intros _; exact M].
  - cbn [try_face]. repeat split; [exact S|lra|discriminate].
Qed.
Lemma cross_nonzero u v w : vdot w (vcross u v) <> 0 -> 0 < vlen2 (vcross u v).
Proof.
  intros H. pose proof (vlen2_nonneg (vcross u v)) as P. destruct (Req_dec (vlen2 (vcross u v)) 0) as [E|]; [|lra].
  apply vlen2_zero in E. rewrite E in H. elim H. generalize w; clear; vring.
Qed.
Lemma face_place bits i j k l x y z m p q r s : (0 < bits < 8)%nat -> (i < 4)%nat -> (j < 4)%nat -> (k < 4)%nat ->
  i <> j -> i <> k -> j <> k -> l <> i -> l <> j -> l <> k -> used_ok bits 0 x m p -> used_ok bits 1 y m q -> used_ok bits 2 z m r ->
  let b := map_bits bits i j k in
  (b = 7 \/ b < 15 /\ b <> 7 /\ b <> 0)%nat /\ used4 b i x m p /\ used4 b j y m q /\ used4 b k z m r /\ used4 b l 0 m s.
Proof.
  intros B I J K ? ? ? ? ? ? (A1 & _ & A2 & A3) (B1 & _ & B2 & B3) (C1 & _ & C2 & C3).
  destruct (used_map bits i j k B I J K) as (M & Ei & Ej & Ek & El); try assumption. cbv zeta. split; [exact M|].
  unfold used4. rewrite Ei, Ej, Ek, (El l) by assumption. repeat split; auto; try lra; try discriminate.
Qed.
Lemma tetra_spec big a b c d : voronoi_eps < Rabs (triple a b c d) ->
  vlen2 a < big -> vlen2 b < big -> vlen2 c < big -> vlen2 d < big ->
  exists bits u, closest_tetra big a b c d = Some (bits, u) /\
  ((bits = 15%nat /\ u = (0, 0, 0, 0) /\ exists x y z k, 0 <= x /\ 0 <= y /\ 0 <= z /\ 0 <= k /\ x + y + z + k = 1 /\ combine4 x y z k a b c d = vzero) \/
   (exists q, tetra_ok a b c d q bits u /\ forall x y z k, 0 <= x -> 0 <= y -> 0 <= z -> 0 <= k -> x + y + z + k = 1 -> q <= vlen2 (combine4 x y z k a b c d))).
Proof.
  intros HD Ba Bb Bc Bd. unfold closest_tetra.
  assert (D0 : triple a b c d <> 0) by (intros E; rewrite E, Rabs_R0 in HD; unfold voronoi_eps in HD; lra).
  assert (E1 : vdot (vsub d a) (vcross (vsub b a) (vsub c a)) = triple a b c d) by (unfold triple; generalize a, b, c, d; clear; vring).
  assert (E2 : vdot (vsub b a) (vcross (vsub c a) (vsub d a)) = triple a b c d) by reflexivity.
  assert (E3 : vdot (vsub c a) (vcross (vsub d a) (vsub b a)) = triple a b c d) by (unfold triple; generalize a, b, c, d; clear; vring).
  assert (E4 : vdot (vsub a b) (vcross (vsub d b) (vsub c b)) = triple a b c d) by (unfold triple; generalize a, b, c, d; clear; vring).
  rewrite (outside_plane_eq a b c d _ E1 HD), (outside_plane_eq a c d b _ E2 HD), (outside_plane_eq a d b c _ E3 HD), (outside_plane_eq b d c a _ E4 HD).
  assert (G1 : 0 < vlen2 (vcross (vsub b a) (vsub c a))) by (apply (cross_nonzero _ _ (vsub d a)); rewrite E1; assumption).
  assert (G2 : 0 < vlen2 (vcross (vsub c a) (vsub d a))) by (apply (cross_nonzero _ _ (vsub b a)); rewrite E2; assumption).
  assert (G3 : 0 < vlen2 (vcross (vsub d a) (vsub b a))) by (apply (cross_nonzero _ _ (vsub c a)); rewrite E3; assumption).
  assert (G4 : 0 < vlen2 (vcross (vsub d b) (vsub c b))) by (apply (cross_nonzero _ _ (vsub a b)); rewrite E4; assumption).
  destruct (origin_weights a b c d) as [O1 O2]. cbv zeta in O2.
  set (D := triple a b c d) in *. clearbody D.
  set (sd := side_of a b c) in *. set (sb := side_of a c d) in *. set (sc := side_of a d b) in *. set (sa := side_of b d c) in *.
  clearbody sa sb sc sd. clear E1 E2 E3 E4.
  destruct (face_step big a b c d (rlt (sd * D) 0) a b c 0 1 2 (fun '(x, y, z) => (x, y, z, 0)) (big, 15%nat, (0, 0, 0, 0)) G1) as (S1 & L1 & M1).
  { now left. }
  { intros bits x y z m S B X Y Z. destruct (face_place bits 0 1 2 3 x y z m a b c d) as (M & U1 & U2 & U3 & U4); try lia; try assumption.
    cbn [tetra_ok]. replace (combine4 x y z 0 a b c d) with m by (unfold m, combine4; cbn [combine3]; generalize a, b, c, d; clear; vring).
    split; [reflexivity|]. split; [lra|]. split; [exact M|]. split; [assumption|]. split; [assumption|]. split; assumption. }
  set (st1 := try_face (rlt (sd * D) 0) a b c 0 1 2 (fun '(x, y, z) => (x, y, z, 0)) (big, 15%nat, (0, 0, 0, 0))) in *. cbn [fst] in L1.
  destruct (face_step big a b c d (rlt (sb * D) 0) a c d 0 2 3 (fun '(x, y, z) => (x, 0, y, z)) st1 G2 S1) as (S2 & L2 & M2).
  { intros bits x y z m S B X Y Z. destruct (face_place bits 0 2 3 1 x y z m a c d b) as (M & U1 & U2 & U3 & U4); try lia; try assumption.
    cbn [tetra_ok]. replace (combine4 x 0 y z a b c d) with m by (unfold m, combine4; cbn [combine3]; generalize a, b, c, d; clear; vring).
    split; [reflexivity|]. split; [lra|]. split; [exact M|]. split; [assumption|]. split; [assumption|]. split; assumption. }
  set (st2 := try_face (rlt (sb * D) 0) a c d 0 2 3 (fun '(x, y, z) => (x, 0, y, z)) st1) in *.
  destruct (face_step big a b c d (rlt (sc * D) 0) a d b 0 3 1 (fun '(x, y, z) => (x, z, 0, y)) st2 G3 S2) as (S3 & L3 & M3).
  { intros bits x y z m S B X Y Z. destruct (face_place bits 0 3 1 2 x y z m a d b c) as (M & U1 & U2 & U3 & U4); try lia; try assumption.
    cbn [tetra_ok]. replace (combine4 x z 0 y a b c d) with m by (unfold m, combine4; cbn [combine3]; generalize a, b, c, d; clear; vring).
    split; [reflexivity|]. split; [lra|]. split; [exact M|]. split; [assumption|]. split; [assumption|]. split; assumption. }
  set (st3 := try_face (rlt (sc * D) 0) a d b 0 3 1 (fun '(x, y, z) => (x, z, 0, y)) st2) in *.
  destruct (face_step big a b c d (rlt (sa * D) 0) b d c 1 3 2 (fun '(x, y, z) => (0, x, z, y)) st3 G4 S3) as (S4 & L4 & M4).
  { intros bits x y z m S B X Y Z. destruct (face_place bits 1 3 2 0 x y z m b d c a) as (M & U1 & U2 & U3 & U4); try lia; try assumption.
    cbn [tetra_ok]. replace (combine4 0 x z y a b c d) with m by (unfold m, combine4; cbn [combine3]; generalize a, b, c, d; clear; vring).
    split; [reflexivity|]. split; [lra|]. split; [exact M|]. split; [assumption|]. split; [assumption|]. split; assumption. }
  set (st4 := try_face (rlt (sa * D) 0) b d c 1 3 2 (fun '(x, y, z) => (0, x, z, y)) st3) in *.
  exists (snd (fst st4)), (snd st4). split; [reflexivity|].
  (* the coordinates of the origin *)
  assert (DP : 0 < D * D) by (apply Rsqr_pos_lt; assumption).
  assert (W : forall s, s / D < 0 -> rlt (s * D) 0 = true).
  { intros s H. apply rlt_true. replace (s * D) with (s / D * (D * D)) by (field; assumption). nra. }
  assert (WS : sa / D + sb / D + sc / D + sd / D = 1) by (replace (sa / D + sb / D + sc / D + sd / D) with ((sa + sb + sc + sd) / D) by (field; assumption); rewrite O2; field; assumption).
  assert (WO : combine4 (sa / D) (sb / D) (sc / D) (sd / D) a b c d = vzero).
  { replace (combine4 (sa / D) (sb / D) (sc / D) (sd / D) a b c d) with (vscale (/ D) (combine4 sa sb sc sd a b c d)).
    - rewrite O1. generalize D; clear; vring.
    - unfold Rdiv, combine4. generalize a, b, c, d, (/ D); clear; vring. }
  assert (MIN : forall x y z k, 0 <= x -> 0 <= y -> 0 <= z -> 0 <= k -> x + y + z + k = 1 ->
     (0 <= sa / D /\ 0 <= sb / D /\ 0 <= sc / D /\ 0 <= sd / D) \/ fst (fst st4) <= vlen2 (combine4 x y z k a b c d)).
  { intros x y z k X Y Z K S.
    destruct (first_exit [(x, sa / D); (y, sb / D); (z, sc / D); (k, sd / D)]) as [A|(t & T & A & E)].
    { constructor; [exact X|]. constructor; [exact Y|]. constructor; [exact Z|]. constructor; [exact K|constructor]. }
    { left. rewrite !Forall_cons_iff in A. cbn [snd] in A. tauto. }
    right. rewrite !Forall_cons_iff in A. cbn [fst snd] in A. destruct A as (A1 & A2 & A3 & A4 & _).
    rewrite !Exists_cons, Exists_nil in E. cbn [fst snd] in E.
    set (x' := (1 - t) * x + t * (sa / D)) in *. set (y' := (1 - t) * y + t * (sb / D)) in *.
    set (z' := (1 - t) * z + t * (sc / D)) in *. set (k' := (1 - t) * k + t * (sd / D)) in *.
    assert (Q : combine4 x' y' z' k' a b c d = vscale (1 - t) (combine4 x y z k a b c d)).
    { transitivity (vadd (vscale (1 - t) (combine4 x y z k a b c d)) (vscale t (combine4 (sa / D) (sb / D) (sc / D) (sd / D) a b c d))).
      - unfold x', y', z', k', combine4. generalize a, b, c, d, (sa / D), (sb / D), (sc / D), (sd / D); clear; vring.
      - rewrite WO. generalize (vscale (1 - t) (combine4 x y z k a b c d)), t; clear; vring. }
    assert (S' : x' + y' + z' + k' = 1). { unfold x', y', z', k'. nra. }
    assert (B : vlen2 (combine4 x' y' z' k' a b c d) <= vlen2 (combine4 x y z k a b c d)).
    { rewrite Q, vlen2_vscale. pose proof (vlen2_nonneg (combine4 x y z k a b c d)). assert ((1 - t) * (1 - t) <= 1) by nra. nra. }
    apply Rle_trans with (2 := B). clear Q B. clearbody x' y' z' k'.
    destruct E as [[N Z0]|[[N Z0]|[[N Z0]|[[N Z0]|[]]]]].
    - subst x'. specialize (M4 (W _ N) y' k' z' ltac:(assumption) ltac:(assumption) ltac:(assumption) ltac:(lra)).
      replace (combine4 0 y' z' k' a b c d) with (combine3 (y', k', z') b d c) by (unfold combine4; cbn [combine3]; generalize a, b, c, d; clear; vring). lra.
    - subst y'. specialize (M2 (W _ N) x' z' k' ltac:(assumption) ltac:(assumption) ltac:(assumption) ltac:(lra)).
      replace (combine4 x' 0 z' k' a b c d) with (combine3 (x', z', k') a c d) by (unfold combine4; cbn [combine3]; generalize a, b, c, d; clear; vring). lra.
    - subst z'. specialize (M3 (W _ N) x' k' y' ltac:(assumption) ltac:(assumption) ltac:(assumption) ltac:(lra)).
      replace (combine4 x' y' 0 k' a b c d) with (combine3 (x', k', y') a d b) by (unfold combine4; cbn [combine3]; generalize a, b, c, d; clear; vring). lra.
    - subst k'. specialize (M1 (W _ N) x' y' z' ltac:(assumption) ltac:(assumption) ltac:(assumption) ltac:(lra)).
      replace (combine4 x' y' z' 0 a b c d) with (combine3 (x', y', z') a b c) by (unfold combine4; cbn [combine3]; generalize a, b, c, d; clear; vring). lra. }
  destruct (MIN 1 0 0 0) as [(A1 & A2 & A3 & A4)|L]; try lra.
  - left. assert (NO : forall s, 0 <= s / D -> rlt (s * D) 0 = false).
    { intros s H. apply rlt_false. replace (s * D) with (s / D * (D * D)) by (field; assumption). nra. }
    unfold st4, st3, st2, st1. rewrite !NO by assumption. cbn [try_face fst snd]. repeat split. exists (sa / D), (sb / D), (sc / D), (sd / D). auto 8.
  - right. exists (fst (fst st4)). destruct S4 as [S4|S4].
    + exfalso. rewrite S4 in L. cbn [fst] in L. replace (combine4 1 0 0 0 a b c d) with a in L by (unfold combine4; generalize a, b, c, d; clear; vring). lra.
    + split; [exact S4|]. intros x y z k X Y Z K S. destruct (MIN x y z k X Y Z K S) as [(A1 & A2 & A3 & A4)|]; [|assumption].
      (* the origin is inside: the state would be the first one *)
      exfalso. assert (NO : forall s, 0 <= s / D -> rlt (s * D) 0 = false).
      { intros s H. apply rlt_false. replace (s * D) with (s / D * (D * D)) by (field; assumption). nra. }
      unfold st4, st3, st2, st1 in L. rewrite !NO in L by assumption. cbn [try_face fst snd] in L.
      replace (combine4 1 0 0 0 a b c d) with a in L by (unfold combine4; generalize a, b, c, d; clear; vring). lra.
Qed.

(** ** Removing the unused points *)

Definition reduced (bits : nat) (l : list spoint) (u0 u : list (R * spoint)) : Prop :=
  map snd u = reduce bits l /\ total u = total u0 /\ (Forall (fun x => 0 <= fst x) u0 -> Forall (fun x => 0 <= fst x) u) /\
  (forall f, weigh f u = weigh f u0) /\
  (forall m, In m (reduce bits l) -> exists i, nth_error l i = Some m /\ Nat.testbit bits i = true) /\ (1 <= length u)%nat.
Ltac weights l pairs :=
  lazymatch l with
  | nil => constr:(@nil (R * spoint))
  | ?h :: ?tl =>
      let rest := weights tl pairs in
      lazymatch pairs with context [(?k, h)] => constr:((k, h) :: rest) end
  end.
Ltac reduced_tac pairs :=
  unfold reduced; match goal with |- context [reduce ?b ?l] => let v := eval cbv in (reduce b l) in change (reduce b l) with v; let w := weights v pairs in exists w end;
  cbn [map snd total weigh length];
  split; [reflexivity|]; split; [subst; ring|];
  split; [rewrite !Forall_cons_iff; cbn [fst]; intuition|];
  split; [intros f; subst; clear; repeat match goal with |- context [f ?p] => generalize (f p); intros end; vring|];
  split; [intros m M; cbn [In] in M; repeat (destruct M as [M|M]; [subst m; first [exists 0%nat; split; reflexivity|exists 1%nat; split; reflexivity|exists 2%nat; split; reflexivity|exists 3%nat; split; reflexivity]|]); elim M|lia].
Ltac zero_tac H := try (assert (H' := H eq_refl); clear H; rename H' into H).
Lemma reduce2 bits p q x y : (0 < bits < 4)%nat -> (Nat.testbit bits 0 = false -> x = 0) -> (Nat.testbit bits 1 = false -> y = 0) ->
  exists u, reduced bits [p; q] [(x, p); (y, q)] u /\ (length u <= 3)%nat.
Proof.
  intros B X Y. enough (exists u, reduced bits [p; q] [(x, p); (y, q)] u) as (u & H).
  { exists u. split; [exact H|]. destruct H as (H & _). apply (f_equal (@length _)) in H. rewrite map_length in H. rewrite H.
    assert (C : (bits = 1 \/ bits = 2 \/ bits = 3)%nat) by lia. destruct C as [->|[->| ->]]; cbv; lia. }
  assert (C : (bits = 1 \/ bits = 2 \/ bits = 3)%nat) by lia.
  destruct C as [->|[->| ->]]; zero_tac X; zero_tac Y; reduced_tac [(x, p); (y, q)].
Qed.
Lemma reduce3 bits p q r x y z : (0 < bits < 8)%nat -> (Nat.testbit bits 0 = false -> x = 0) -> (Nat.testbit bits 1 = false -> y = 0) ->
  (Nat.testbit bits 2 = false -> z = 0) ->
  exists u, reduced bits [p; q; r] [(x, p); (y, q); (z, r)] u /\ (length u <= 3)%nat.
Proof.
  intros B X Y Z. enough (exists u, reduced bits [p; q; r] [(x, p); (y, q); (z, r)] u) as (u & H).
  { exists u. split; [exact H|]. destruct H as (H & _). apply (f_equal (@length _)) in H. rewrite map_length in H. rewrite H.
    assert (C : (bits = 1 \/ bits = 2 \/ bits = 3 \/ bits = 4 \/ bits = 5 \/ bits = 6 \/ bits = 7)%nat) by lia.
    destruct C as [->|[->|[->|[->|[->|[->| ->]]]]]]; cbv; lia. }
  assert (C : (bits = 1 \/ bits = 2 \/ bits = 3 \/ bits = 4 \/ bits = 5 \/ bits = 6 \/ bits = 7)%nat) by lia.
  destruct C as [->|[->|[->|[->|[->|[->| ->]]]]]]; zero_tac X; zero_tac Y; zero_tac Z; reduced_tac [(x, p); (y, q); (z, r)].
Qed.
Lemma reduce4 bits p q r t x y z k : (bits = 7 \/ bits < 15 /\ bits <> 7 /\ bits <> 0)%nat -> (Nat.testbit bits 0 = false -> x = 0) ->
  (Nat.testbit bits 1 = false -> y = 0) -> (Nat.testbit bits 2 = false -> z = 0) -> (Nat.testbit bits 3 = false -> k = 0) ->
  exists u, reduced bits [p; q; r; t] [(x, p); (y, q); (z, r); (k, t)] u /\ (length u <= 3)%nat.
Proof.
  intros B X Y Z K. 
  assert (C : (bits = 1 \/ bits = 2 \/ bits = 3 \/ bits = 4 \/ bits = 5 \/ bits = 6 \/ bits = 7 \/ bits = 8 \/ bits = 9 \/ bits = 10 \/ bits = 11 \/ bits = 12 \/ bits = 13 \/ bits = 14)%nat) by lia.
  enough (exists u, reduced bits [p; q; r; t] [(x, p); (y, q); (z, r); (k, t)] u) as (u & H).
  { exists u. split; [exact H|]. destruct H as (H & _). apply (f_equal (@length _)) in H. rewrite map_length in H. rewrite H.
    destruct C as [->|[->|[->|[->|[->|[->|[->|[->|[->|[->|[->|[->|[->| ->]]]]]]]]]]]]]; cbv; lia. }
  destruct C as [->|[->|[->|[->|[->|[->|[->|[->|[->|[->|[->|[->|[->| ->]]]]]]]]]]]]]; zero_tac X; zero_tac Y; zero_tac Z; zero_tac K; reduced_tac [(x, p); (y, q); (z, r); (k, t)].
Qed.
