(** The loop of the GJK algorithm: its answers, and that it ends. *)
From Coq Require Import List Bool Arith Lia Lra Psatz.
From Verif Require Import Base VecModel VecProofs GjkModel VoronoiProofs GjkProofs.
Import ListNotations.
Local Open Scope R_scope.

Lemma loop_outcome eps big margin D supp LA LB fuel : 0 < eps <= / 2 -> 0 < D -> supports big supp LA LB -> short D LA LB ->
  4 * (D * D) < big -> forall s v d2 e, steady LA LB s v d2 ->
  gjk_loop eps big margin supp fuel s v d2 = Ok e -> outcome eps margin D LA LB e.
Proof.
  intros HE HD SUP SH RG. induction fuel as [|fuel IH]; intros s v d2 e ST H; [discriminate|].
  destruct (turn eps big margin D supp LA LB fuel s v d2 HE HD SUP SH RG ST) as [(e' & E & O)|(s2 & n2 & ST2 & _ & E)]; rewrite E in H.
  - injection H as <-. exact O.
  - exact (IH _ _ _ _ ST2 H).
Qed.

(** ** The first turn *)

Lemma first_turn eps big margin D supp LA LB fuel v : 0 < eps <= / 2 -> 0 < D -> supports big supp LA LB -> short D LA LB ->
  4 * (D * D) < big -> 4 * vlen2 v < big ->
  (exists e, gjk_loop eps big margin supp (S fuel) simplex_empty v big = Ok e /\ outcome eps margin D LA LB e) \/
  (exists s2 n2, steady LA LB s2 (sx_close s2) n2 /\
     gjk_loop eps big margin supp (S fuel) simplex_empty v big = gjk_loop eps big margin supp fuel s2 (sx_close s2) n2).
Proof.
  intros HE HD SUP SH RG HV. cbn [gjk_loop]. destruct (SUP v HV) as (Ia & Ib & Low). destruct (supp v) as [a b]. cbn [fst snd] in *.
  assert (HB : 0 < big) by (pose proof (vlen2_nonneg v); lra). assert (W4 := SH a b Ia Ib). set (w := vsub a b) in *. set (p := SP w a b). assert (Fp : from LA LB p) by (split; [reflexivity|split; [exact Ia|exact Ib]]).
  assert (VW : vdot v w <= / 4 * big).
  { assert (0 <= vlen2 (vsub v w)) by apply vlen2_nonneg. replace (vlen2 (vsub v w)) with (vlen2 v + vlen2 w - 2 * vdot v w) in H by (generalize v, w; clear; vring). lra. }
  destruct (rlt 0 (vdot v w) && rlt (big * (margin * margin)) (vdot v w * vdot v w)) eqn:E1.
  { left. eexists. split; [reflexivity|]. apply andb_true_iff in E1 as (A & B). rewrite rlt_true in A, B. exists (vdot v w). split; [exact A|]. split; [|exact Low].
    pose proof (vlen2_nonneg v). assert (0 <= margin * margin) by nra. nra. }
  assert (E2 : in_simplex simplex_empty w || rle (big - vdot v w) (big * rel_error2) = false).
  { cbn [in_simplex simplex_empty sx_points existsb orb]. apply rle_false. unfold rel_error2. lra. }
  rewrite E2. change (dependent (simplex_add simplex_empty p)) with false. cbv iota.
  assert (R : recompute big (simplex_add simplex_empty p) = Simplex [p] w a b true).
  { unfold recompute, simplex_add, simplex_empty. cbn [sx_points app]. rewrite check_valid_true by lra. reflexivity. }
  rewrite R. cbn [sx_close sx_valid negb].
  destruct (rle (big - vlen2 w) (eps * big)) eqn:E3; [rewrite rle_true in E3; exfalso; nra|].
  destruct (negb (full (Simplex [p] w a b true)) && rlt (eps * max_len2 (Simplex [p] w a b true)) (vlen2 w)) eqn:E4.
  - right. exists (Simplex [p] w a b true), (vlen2 w). split; [|reflexivity].
    apply andb_true_iff in E4 as (_ & E4). rewrite rlt_true in E4. pose proof (max_len2_nonneg (Simplex [p] w a b true)).
    split; [constructor; [exact Fp|constructor]|]. cbn [sx_points length sx_close]. split; [lia|]. split.
    + exists [(1, p)]. split; [split; [reflexivity|split; [constructor; [cbn; lra|constructor]|cbn; ring]]|]. cbn [sx_close sx_a sx_b weigh sx_points sp_w sp_a sp_b p].
      assert (W : forall x, x = vadd (vscale 1 x) vzero) by (clear; intros; vring). split; [apply W|]. split; [apply W|]. split; [apply W|].
      intros x [<-|[]]. reflexivity.
    + split; [exact I|]. split; [reflexivity|]. split; [reflexivity|]. nra.
  - left. eexists. split; [reflexivity|]. exists [p], [(1, p)]. split; [constructor; [exact Fp|constructor]|]. split; [split; [reflexivity|split; [constructor; [cbn; lra|constructor]|cbn; ring]]|].
    cbn [weigh sp_w p]. replace (vadd (vscale 1 w) vzero) with w by (generalize w; clear; vring). 
    cbn [full sx_points length Nat.eqb negb andb] in E4. change (full (Simplex [p] w a b true)) with false in E4. cbn [negb andb] in E4. rewrite rlt_false in E4.
    assert (max_len2 (Simplex [p] w a b true) <= D * D).
    { apply max_len2_le; [nra|]. cbn [sx_points]. intros q [<-|[]]. cbn [sp_w p]. now apply SH. }
    nra.
Qed.
Lemma gjk_outcome eps big margin D supp LA LB fuel v e : 0 < eps <= / 2 -> 0 < D -> supports big supp LA LB -> short D LA LB ->
  4 * (D * D) < big -> 4 * vlen2 v < big ->
  gjk_loop eps big margin supp fuel simplex_empty v big = Ok e -> outcome eps margin D LA LB e.
Proof.
  intros HE HD SUP SH RG HV H. destruct fuel as [|fuel]; [discriminate|].
  destruct (first_turn eps big margin D supp LA LB fuel v HE HD SUP SH RG HV) as [(e' & E & O)|(s2 & n2 & ST2 & E)]; rewrite E in H.
  - injection H as <-. exact O.
  - exact (loop_outcome eps big margin D supp LA LB fuel HE HD SUP SH RG _ _ _ _ ST2 H).
Qed.

(** ** The end of the loop *)

Fixpoint lists_of {A} (n : nat) (l : list A) : list (list A) :=
  match n with O => [[]] | S n => [] :: flat_map (fun x => map (cons x) (lists_of n l)) l end.
Lemma lists_of_in {A} n (l k : list A) : (length k <= n)%nat -> incl k l -> In k (lists_of n l).
Proof.
  revert k. induction n as [|n IH]; intros [|x k] L I; cbn [lists_of length] in *; try lia; try (now left).
  right. apply in_flat_map. exists x. split; [apply I; now left|]. apply in_map, IH; [lia|]. intros y Hy. apply I. now right.
Qed.
Lemma lists_of_length {A} n (l : list A) : length (lists_of (S n) l) = S (length l * length (lists_of n l)).
Proof. cbn [lists_of length]. f_equal. generalize (lists_of n l). intros m. induction l as [|x l IH]; cbn; [reflexivity|]. rewrite app_length, map_length, IH. reflexivity. Qed.

Definition pairs_of (LA LB : list vec3) : list spoint := map (fun ab => SP (vsub (fst ab) (snd ab)) (fst ab) (snd ab)) (list_prod LA LB).
Lemma from_pairs LA LB p : from LA LB p -> In p (pairs_of LA LB).
Proof.
  intros (E & A & B). unfold pairs_of. apply in_map_iff. exists (sp_a p, sp_b p). cbn [fst snd]. split; [|now apply in_prod].
  rewrite <- E. now destruct p.
Qed.
(** The bound on the number of turns. *)
Definition turns (LA LB : list vec3) : nat := length (lists_of 3 (pairs_of LA LB)).

Lemma close_unique s1 s2 u1 u2 : close_ok s1 u1 -> close_ok s2 u2 -> sx_points s1 = sx_points s2 -> vlen2 (sx_close s1) = vlen2 (sx_close s2).
Proof.
  intros (C1 & E1 & _ & _ & O1) (C2 & E2 & _ & _ & O2) E.
  assert (A : vdot (sx_close s1) (sx_close s2) = vlen2 (sx_close s1)) by (rewrite E2 at 1; apply (weigh_eq sp_w (sx_points s2)); [exact C2|]; intros p Hp; apply O1; now rewrite E).
  assert (B : vdot (sx_close s2) (sx_close s1) = vlen2 (sx_close s2)) by (rewrite E1 at 1; apply (weigh_eq sp_w (sx_points s1)); [exact C1|]; intros p Hp; apply O2; now rewrite <- E).
  rewrite <- A, <- B. generalize (sx_close s1), (sx_close s2); clear; vring.
Qed.
Lemma loop_ends eps big margin D supp LA LB fuel : 0 < eps <= / 2 -> 0 < D -> supports big supp LA LB -> short D LA LB ->
  4 * (D * D) < big -> forall s v d2 past, steady LA LB s v d2 -> NoDup past ->
  (forall l, In l past -> In l (lists_of 3 (pairs_of LA LB)) /\ exists s' u', sx_points s' = l /\ close_ok s' u' /\ d2 < vlen2 (sx_close s')) ->
  (turns LA LB < length past + fuel)%nat -> exists e, gjk_loop eps big margin supp fuel s v d2 = Ok e.
Proof.
  intros HE HD SUP SH RG. induction fuel as [|fuel IH]; intros s v d2 past ST ND OK L.
  - exfalso. assert (length past <= turns LA LB)%nat by (apply NoDup_incl_length; [exact ND|]; intros l Hl; now apply OK). lia.
  - destruct (turn eps big margin D supp LA LB fuel s v d2 HE HD SUP SH RG ST) as [(e' & E & _)|(s2 & n2 & ST2 & N2 & E)]; rewrite E; [now exists e'|].
    destruct ST as (F & Ls & (u & CU) & _ & -> & -> & _).
    apply (IH _ _ _ (sx_points s :: past) ST2).
    + constructor; [|exact ND]. intros Hin. destruct (OK _ Hin) as (_ & s' & u' & Es & Cs & Ds). pose proof (close_unique _ _ _ _ Cs CU Es). lra.
    + intros l [<-|Hl].
      * split; [apply lists_of_in; [lia|]; intros p Hp; apply from_pairs; rewrite Forall_forall in F; now apply F|]. exists s, u. tauto.
      * destruct (OK l Hl) as (A & s' & u' & Es & Cs & Ds). split; [exact A|]. exists s', u'. split; [exact Es|]. split; [exact Cs|lra].
    + cbn [length]. lia.
Qed.
Lemma gjk_ends eps big margin D supp LA LB fuel v : 0 < eps <= / 2 -> 0 < D -> supports big supp LA LB -> short D LA LB ->
  4 * (D * D) < big -> 4 * vlen2 v < big -> (turns LA LB + 1 < fuel)%nat ->
  exists e, gjk_loop eps big margin supp fuel simplex_empty v big = Ok e.
Proof.
  intros HE HD SUP SH RG HV L. destruct fuel as [|fuel]; [lia|].
  destruct (first_turn eps big margin D supp LA LB fuel v HE HD SUP SH RG HV) as [(e' & E & O)|(s2 & n2 & ST2 & E)]; rewrite E; [now exists e'|].
  apply (loop_ends eps big margin D supp LA LB fuel HE HD SUP SH) with (past := []); [exact RG|exact ST2|constructor|intros l []|cbn [length]; lia].
Qed.
Lemma turns_eq LA LB : let m := (length LA * length LB)%nat in turns LA LB = (1 + m + m * m + m * m * m)%nat.
Proof.
  intros m. unfold turns. rewrite !lists_of_length. cbn [lists_of length]. unfold pairs_of. rewrite map_length, prod_length. fold m. lia.
Qed.
