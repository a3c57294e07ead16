From Coq Require Import List ZArith Reals Lra Lia Permutation Bool Arith.
From Verif Require Import Base VecModel VecProofs ManifoldModel ManifoldSpec.
Import ListNotations.
Local Open Scope R_scope.

(** * Arrays *)
Lemma get_ok : forall A (l : list A) i d, (i < length l)%nat -> get l i = Ok (nth i l d).
Proof. intros A l i d H. unfold get, rd. rewrite (nth_error_nth' l d H). reflexivity. Qed.

Lemma get_mid : forall A (a : list A) x b, get (a ++ x :: b) (length a) = Ok x.
Proof. intros. unfold get, rd. rewrite nth_error_app2, Nat.sub_diag by lia. reflexivity. Qed.

Lemma put_mid : forall A (a : list A) x b y, put (a ++ x :: b) (length a) y = a ++ y :: b.
Proof. induction a as [|z a IH]; intros; cbn; [reflexivity|]. now rewrite IH. Qed.

Lemma put_length : forall A (l : list A) i y, length (put l i y) = length l.
Proof. induction l as [|a l IH]; intros [|i] y; cbn; auto. Qed.

Lemma remove_at_last : forall A (a : list A) x, remove_at (a ++ [x]) (length a) = Ok a.
Proof.
  intros A a x. unfold remove_at. rewrite app_length. cbn [length]. destruct (Nat.ltb_spec (length a) (length a + 1)) as [_|C]; [|lia].
  cbn [check bind]. replace (length a + 1 - 1)%nat with (length a) by lia. rewrite get_mid. cbn [bind]. rewrite put_mid. now rewrite removelast_last.
Qed.

Lemma remove_at_mid : forall A (a : list A) x b y, remove_at (a ++ x :: b ++ [y]) (length a) = Ok (a ++ y :: b).
Proof.
  intros A a x b y. unfold remove_at. rewrite app_length. cbn [length]. rewrite app_length. cbn [length].
  destruct (Nat.ltb_spec (length a) (length a + S (length b + 1))) as [_|C]; [|lia]. cbn [check bind].
  replace (a ++ x :: b ++ [y]) with ((a ++ x :: b) ++ [y]) at 1 by (rewrite <- app_assoc; reflexivity).
  replace (length a + S (length b + 1) - 1)%nat with (length (a ++ x :: b)) by (rewrite app_length; cbn [length]; lia).
  rewrite get_mid. cbn [bind]. rewrite put_mid.
  replace (a ++ y :: b ++ [y]) with ((a ++ y :: b) ++ [y]) by (rewrite <- app_assoc; reflexivity). now rewrite removelast_last.
Qed.

Lemma split_nth : forall A (l : list A) i d, (i < length l)%nat -> exists a b, l = a ++ nth i l d :: b /\ length a = i.
Proof.
  intros A l i d H. exists (firstn i l), (skipn (S i) l). split.
  - revert i H. induction l as [|x l IH]; intros [|i] H; cbn in *; try lia; [reflexivity|]. f_equal. apply IH. lia.
  - rewrite firstn_length. lia.
Qed.

Lemma exists_last_or_nil : forall A (l : list A), l = [] \/ exists l' x, l = l' ++ [x].
Proof. intros A l. destruct l as [|a l]; [now left|]. right. destruct (exists_last (l := a :: l)) as (l' & x & ->); [discriminate|]. eauto. Qed.

Lemma remove_at_spec : forall A (l : list A) i d, (i < length l)%nat ->
  exists l', remove_at l i = Ok l' /\ Permutation (nth i l d :: l') l.
Proof.
  intros A l i d H. destruct (split_nth A l i d H) as (a & b & E & La). set (x := nth i l d) in *. clearbody x. subst l i.
  destruct (exists_last_or_nil A b) as [->|(b' & y & ->)].
  - rewrite remove_at_last. eexists; split; [reflexivity|]. apply Permutation_cons_append.
  - rewrite remove_at_mid. eexists; split; [reflexivity|].
    rewrite Permutation_middle. apply Permutation_app_head. apply perm_skip. apply Permutation_cons_append.
Qed.

Lemma remove_at_parts : forall A (a : list A) x b, exists b', remove_at (a ++ x :: b) (length a) = Ok (a ++ b') /\ Permutation b' b.
Proof.
  intros A a x b. destruct (exists_last_or_nil A b) as [->|(b' & y & ->)].
  - exists []. rewrite remove_at_last, app_nil_r. split; [reflexivity|constructor].
  - exists (y :: b'). rewrite remove_at_mid. split; [reflexivity|]. apply Permutation_cons_append.
Qed.

(** * Choosing four points *)
Lemma get_pt : forall pts k, (k < length pts)%nat -> get pts k = Ok (pt pts k).
Proof. intros. now apply get_ok. Qed.

Lemma farthest_along_ok : forall pts cands i best keep, valid pts cands ->
  exists r, farthest_along pts cands i best keep = Ok r /\
    ((r = keep /\ Forall (fun c => vdot (V3 1 1 1) (pos pts c) <= best) cands) \/
     ((i <= r < i + length cands)%nat /\ best < vdot (V3 1 1 1) (pos pts (nth (r - i) cands 0%nat)) /\
      Forall (fun c => vdot (V3 1 1 1) (pos pts c) <= vdot (V3 1 1 1) (pos pts (nth (r - i) cands 0%nat))) cands)).
Proof.
  induction cands as [|c rest IH]; intros i best keep V; cbn [farthest_along].
  - exists keep. split; [reflexivity|]. left. split; auto.
  - inversion V as [|? ? Hc Vr]; subst. rewrite (get_pt pts c Hc). cbn [bind]. fold (pos pts c).
    destruct (rlt best (vdot (V3 1 1 1) (pos pts c))) eqn:E.
    + apply rlt_true in E. destruct (IH (S i) (vdot (V3 1 1 1) (pos pts c)) i Vr) as (r & Hr & H). exists r. split; [exact Hr|]. right.
      destruct H as [(-> & F)|(B & L & F)].
      * rewrite Nat.sub_diag. cbn [nth length]. repeat split; try lia; [exact E|]. constructor; [lra|exact F].
      * replace (r - i)%nat with (S (r - S i)) by lia. cbn [nth length]. repeat split; try lia; [lra|].
        constructor; [lra|exact F].
    + apply rlt_false in E. destruct (IH (S i) best keep Vr) as (r & Hr & H). exists r. split; [exact Hr|].
      destruct H as [(-> & F)|(B & L & F)].
      * left. split; [reflexivity|]. constructor; assumption.
      * right. replace (r - i)%nat with (S (r - S i)) by lia. cbn [nth length]. repeat split; try lia; [lra|].
        constructor; [lra|exact F].
Qed.

Lemma farthest_from_ok : forall pts p cands i best keep, valid pts cands ->
  exists r, farthest_from pts p cands i best keep = Ok r /\
    ((r = keep /\ Forall (fun c => vlen2 (vsub p (pos pts c)) < best) cands) \/
     ((i <= r < i + length cands)%nat /\ best <= vlen2 (vsub p (pos pts (nth (r - i) cands 0%nat))) /\
      Forall (fun c => vlen2 (vsub p (pos pts c)) <= vlen2 (vsub p (pos pts (nth (r - i) cands 0%nat)))) cands)).
Proof.
  induction cands as [|c rest IH]; intros i best keep V; cbn [farthest_from].
  - exists keep. split; [reflexivity|]. left. split; auto.
  - inversion V as [|? ? Hc Vr]; subst. rewrite (get_pt pts c Hc). cbn [bind]. fold (pos pts c).
    destruct (rle best (vlen2 (vsub p (pos pts c)))) eqn:E.
    + apply rle_true in E. destruct (IH (S i) (vlen2 (vsub p (pos pts c))) i Vr) as (r & Hr & H). exists r. split; [exact Hr|]. right.
      destruct H as [(-> & F)|(B & L & F)].
      * rewrite Nat.sub_diag. cbn [nth length]. repeat split; try lia; [exact E|]. constructor; [lra|].
        eapply Forall_impl; [|exact F]. cbn. intros; lra.
      * replace (r - i)%nat with (S (r - S i)) by lia. cbn [nth length]. repeat split; try lia; [lra|].
        constructor; [lra|exact F].
    + apply rle_false in E. destruct (IH (S i) best keep Vr) as (r & Hr & H). exists r. split; [exact Hr|].
      destruct H as [(-> & F)|(B & L & F)].
      * left. split; [reflexivity|]. constructor; assumption.
      * right. replace (r - i)%nat with (S (r - S i)) by lia. cbn [nth length]. repeat split; try lia; [lra|].
        constructor; [lra|exact F].
Qed.

(** [best] is the value of the candidate kept, or the initial value zero when nothing was kept yet. *)
Lemma extreme_areas_ok : forall pts n a b cands i amax kmax amin kmin, valid pts cands ->
  exists amax' kmax' amin' kmin', extreme_areas pts n a b cands i amax kmax amin kmin = Ok (amax', kmax', amin', kmin') /\
    amax <= amax' /\ amin' <= amin /\
    Forall (fun c => amin' <= area_of n a b (pos pts c) <= amax') cands /\
    ((amax' = amax /\ kmax' = kmax) \/ ((i <= kmax' < i + length cands)%nat /\ area_of n a b (pos pts (nth (kmax' - i) cands 0%nat)) = amax')) /\
    ((amin' = amin /\ kmin' = kmin) \/ ((i <= kmin' < i + length cands)%nat /\ area_of n a b (pos pts (nth (kmin' - i) cands 0%nat)) = amin')).
Proof.
  induction cands as [|c rest IH]; intros i amax kmax amin kmin V; cbn [extreme_areas].
  - exists amax, kmax, amin, kmin. repeat split; auto; lra.
  - inversion V as [|? ? Hc Vr]; subst. rewrite (get_pt pts c Hc). cbn [bind]. fold (pos pts c). set (s := area_of n a b (pos pts c)).
    destruct (rle amax s) eqn:E1; destruct (rle s amin) eqn:E2;
      (destruct (rle_true amax s) as [T1 _]; destruct (rle_false amax s) as [F1 _]; destruct (rle_true s amin) as [T2 _]; destruct (rle_false s amin) as [F2 _]);
      try specialize (T1 E1); try specialize (F1 E1); try specialize (T2 E2); try specialize (F2 E2);
      match goal with |- context [extreme_areas _ _ _ _ rest (S i) ?x ?kx ?y ?ky] =>
        destruct (IH (S i) x kx y ky Vr) as (ax & kx' & an & kn & Hr & L1 & L2 & F & H1 & H2) end;
      exists ax, kx', an, kn; (split; [exact Hr|]); (split; [lra|]); (split; [lra|]); (split; [constructor; [split; fold s; lra|exact F]|]);
      (split; [destruct H1 as [(-> & ->)|(B & V1)] | destruct H2 as [(-> & ->)|(B & V1)]]);
      first [left; split; [reflexivity|reflexivity]
            |right; split; [cbn [length]; lia|]; rewrite Nat.sub_diag; reflexivity
            |right; split; [cbn [length]; lia|]; match goal with B : (S i <= ?k < _)%nat |- _ => replace (k - i)%nat with (S (k - S i)) by lia end; exact V1].
Qed.

(** Area of opposite winding, made positive. *)
Definition opp (positive : bool) (n : vec3) (edge : vec3 * vec3) (p : vec3) : R :=
  if positive then - area_of n (fst edge) (snd edge) p else area_of n (fst edge) (snd edge) p.
Definition signed (positive : bool) (x : R) : R := if positive then - x else x.

Lemma edge_step_eq : forall positive n p i st edge,
  edge_step positive n p i st edge =
    if rle (signed positive (fst st)) (opp positive n edge p) then (area_of n (fst edge) (snd edge) p, i) else st.
Proof.
  intros [|] n p i st edge; unfold edge_step, signed, opp; cbn [andb orb negb].
  - rewrite orb_false_r. destruct (rle (area_of n (fst edge) (snd edge) p) (fst st)) eqn:E.
    + apply rle_true in E. replace (rle (- fst st) _) with true; [reflexivity|]. symmetry. apply rle_true. lra.
    + apply rle_false in E. replace (rle (- fst st) _) with false; [reflexivity|]. symmetry. apply rle_false. lra.
  - reflexivity.
Qed.

Lemma edges_ok : forall positive n p i edges st,
  let st' := fold_left (edge_step positive n p i) edges st in
  signed positive (fst st) <= signed positive (fst st') /\
  Forall (fun e => opp positive n e p <= signed positive (fst st')) edges /\
  (st' = st \/ (snd st' = i /\ exists e, In e edges /\ opp positive n e p = signed positive (fst st'))).
Proof.
  induction edges as [|e edges IH]; intros st; cbn [fold_left].
  - split; [lra|]. split; [constructor|]. now left.
  - rewrite edge_step_eq. destruct (rle (signed positive (fst st)) (opp positive n e p)) eqn:E.
    + apply rle_true in E. destruct (IH (area_of n (fst e) (snd e) p, i)) as (L & F & H).
      assert (S0 : signed positive (fst (area_of n (fst e) (snd e) p, i)) = opp positive n e p) by (destruct positive; reflexivity).
      rewrite S0 in L. split; [lra|]. split; [constructor; assumption|].
      destruct H as [H|(H1 & e' & I & H2)].
      * right. rewrite H. split; [reflexivity|]. exists e. split; [now left|]. symmetry. exact S0.
      * right. split; [exact H1|]. exists e'. split; [now right|exact H2].
    + apply rle_false in E. destruct (IH st) as (L & F & H). split; [exact L|]. split; [constructor; [lra|exact F]|].
      destruct H as [H|(H1 & e' & I & H2)]; [now left|]. right. split; [exact H1|]. exists e'. split; [now right|exact H2].
Qed.

Lemma opposite_area_ok : forall pts positive n edges cands i st, valid pts cands ->
  exists r v, opposite_area pts positive n edges cands i st = Ok r /\
    signed positive (fst st) <= v /\
    Forall (fun c => Forall (fun e => opp positive n e (pos pts c) <= v) edges) cands /\
    ((r = snd st /\ v = signed positive (fst st)) \/
     ((i <= r < i + length cands)%nat /\ exists e, In e edges /\ opp positive n e (pos pts (nth (r - i) cands 0%nat)) = v)).
Proof.
  induction cands as [|c rest IH]; intros i st V; cbn [opposite_area].
  - exists (snd st), (signed positive (fst st)). repeat split; auto; lra.
  - inversion V as [|? ? Hc Vr]; subst. rewrite (get_pt pts c Hc). cbn [bind]. fold (pos pts c).
    destruct (edges_ok positive n (pos pts c) i edges st) as (L & F & H). set (st' := fold_left _ edges st) in *. clearbody st'.
    destruct (IH (S i) st' Vr) as (r & v & Hr & Lv & Fv & Hv). exists r, v. split; [exact Hr|]. split; [lra|]. split.
    { constructor; [|exact Fv]. eapply Forall_impl; [|exact F]. cbn. intros; lra. }
    destruct Hv as [(-> & ->)|(B & e & I & Ev)].
    + destruct H as [->|(-> & e & I & Ev)]; [now left|]. right. split; [cbn [length]; lia|]. exists e. split; [exact I|].
      rewrite Nat.sub_diag. exact Ev.
    + right. split; [cbn [length]; lia|]. exists e. split; [exact I|]. replace (r - i)%nat with (S (r - S i)) by lia. exact Ev.
Qed.

(** The four points chosen, in order, and what remains after each choice. *)
Lemma reduce_points_ok : forall top rot pts m, valid pts m -> (4 < length m)%nat ->
  exists k1 k2 k3 k4 m1 m2 m3 m4, reduce_points top rot pts m = Ok [k1; k2; k3; k4] /\
    Permutation (k1 :: m1) m /\ Permutation (k2 :: m2) m1 /\ Permutation (k3 :: m3) m2 /\ Permutation (k4 :: m4) m3 /\
    ((forall k, In k m -> - top < vdot (V3 1 1 1) (pos pts k)) ->
       forall k, In k m -> vdot (V3 1 1 1) (pos pts k) <= vdot (V3 1 1 1) (pos pts k1)) /\
    (forall k, In k m1 -> gap pts k k1 <= gap pts k2 k1) /\
    (let n := quat_vec (quat_inverse rot) (i_n (pt pts (nth 0 m 0%nat))) in
     let area k := area_of n (pos pts k1) (pos pts k2) (pos pts k) in
     (forall k, In k m2 -> Rabs (area k) <= Rabs (area k3)) /\
     (let edges := [(pos pts k1, pos pts k2); (pos pts k2, pos pts k3); (pos pts k3, pos pts k1)] in
      let side k e := if rlt 0 (area k3) then - area_of n (fst e) (snd e) (pos pts k) else area_of n (fst e) (snd e) (pos pts k) in
      forall k e, In k m3 -> In e edges -> 0 < side k e -> exists e', In e' edges /\ side k e <= side k4 e')).
Proof.
  intros top rot pts m V L. unfold reduce_points.
  assert (VP : forall a b, Permutation a b -> valid pts b -> valid pts a) by (intros a b P W; eapply Permutation_Forall; [symmetry; exact P|exact W]).
  rewrite (get_ok _ m 0 0%nat) by lia. cbn [bind].
  assert (N : forall l i, valid pts l -> (i < length l)%nat -> (nth i l 0 < length pts)%nat).
  { intros l i W B. unfold valid in W. rewrite Forall_forall in W. apply W. now apply nth_In. }
  rewrite get_pt by (apply N; [exact V|lia]). cbn [bind]. set (n := quat_vec _ _).
  destruct (farthest_along_ok pts m 0 (- top) 0 V) as (i1 & -> & H1). cbn [bind].
  assert (B1 : (i1 < length m)%nat) by (destruct H1 as [(-> & _)|(B & _)]; lia).
  rewrite (get_ok _ m i1 0%nat B1). cbn [bind]. set (k1 := nth i1 m 0%nat) in *.
  destruct (remove_at_spec _ m i1 0%nat B1) as (m1 & -> & P1). cbn [bind]. fold k1 in P1.
  assert (V1 : valid pts (k1 :: m1)) by (eapply VP; eassumption). assert (Vk1 : (k1 < length pts)%nat) by (inversion V1; assumption).
  assert (V1' : valid pts m1) by (inversion V1; assumption). pose proof (Permutation_length P1) as L1. cbn [length] in L1.
  rewrite get_pt by exact Vk1. cbn [bind]. fold (pos pts k1).
  destruct (farthest_from_ok pts (pos pts k1) m1 0 0 0 V1') as (i2 & -> & H2). cbn [bind].
  assert (B2 : (i2 < length m1)%nat) by (destruct H2 as [(-> & _)|(B & _)]; lia).
  rewrite (get_ok _ m1 i2 0%nat B2). cbn [bind]. set (k2 := nth i2 m1 0%nat) in *.
  destruct (remove_at_spec _ m1 i2 0%nat B2) as (m2 & -> & P2). cbn [bind]. fold k2 in P2.
  assert (V2 : valid pts (k2 :: m2)) by (eapply VP; eassumption). assert (Vk2 : (k2 < length pts)%nat) by (inversion V2; assumption).
  assert (V2' : valid pts m2) by (inversion V2; assumption). pose proof (Permutation_length P2) as L2. cbn [length] in L2.
  rewrite get_pt by exact Vk2. cbn [bind]. fold (pos pts k2).
  destruct (extreme_areas_ok pts n (pos pts k1) (pos pts k2) m2 0 0 0 0 0 V2') as (ax & kx & an & kn & -> & Lx & Ln & FA & HX & HN).
  cbn [bind].
  set (i3 := if rlt (- an) ax then kx else kn).
  assert (B3 : (i3 < length m2)%nat).
  { unfold i3. destruct (rlt (- an) ax); [destruct HX as [(_ & ->)|(B & _)]|destruct HN as [(_ & ->)|(B & _)]]; lia. }
  rewrite (get_ok _ m2 i3 0%nat B3). cbn [bind]. set (k3 := nth i3 m2 0%nat) in *.
  destruct (remove_at_spec _ m2 i3 0%nat B3) as (m3 & -> & P3). cbn [bind]. fold k3 in P3.
  assert (V3' : valid pts (k3 :: m3)) by (eapply VP; eassumption). assert (Vk3 : (k3 < length pts)%nat) by (inversion V3'; assumption).
  assert (V3'' : valid pts m3) by (inversion V3'; assumption). pose proof (Permutation_length P3) as L3. cbn [length] in L3.
  rewrite get_pt by exact Vk3. cbn [bind]. fold (pos pts k3).
  set (positive := rlt (- an) ax) in *. set (edges := [(pos pts k1, pos pts k2); (pos pts k2, pos pts k3); (pos pts k3, pos pts k1)]).
  destruct (opposite_area_ok pts positive n edges m3 0 (0, 0%nat) V3'') as (i4 & v & -> & Lv & FV & HV). cbn [bind].
  assert (B4 : (i4 < length m3)%nat) by (destruct HV as [(-> & _)|(B & _)]; cbn; lia).
  rewrite (get_ok _ m3 i4 0%nat B4). cbn [bind]. set (k4 := nth i4 m3 0%nat) in *.
  destruct (remove_at_spec _ m3 i4 0%nat B4) as (m4 & _ & P4). fold k4 in P4.
  exists k1, k2, k3, k4, m1, m2, m3, m4. do 5 (split; [first [reflexivity|assumption]|]).
  split.
  { intros T k I. destruct H1 as [(_ & F)|(_ & _ & F)]; rewrite Forall_forall in F.
    - specialize (T k I). specialize (F k I). lra.
    - specialize (F k I). rewrite Nat.sub_0_r in F. exact F. }
  split.
  { intros k I. unfold gap. destruct H2 as [(_ & F)|(_ & _ & F)]; rewrite Forall_forall in F; specialize (F k I).
    - pose proof (vlen2_nonneg (vsub (pos pts k1) (pos pts k))). lra.
    - rewrite Nat.sub_0_r in F. fold k2 in F. unfold vlen. now apply sqrt_le_1_alt. }
  rewrite Forall_forall in FA.
  assert (A3 : (positive = true /\ area_of n (pos pts k1) (pos pts k2) (pos pts k3) = ax /\ - an < ax) \/
               (positive = false /\ area_of n (pos pts k1) (pos pts k2) (pos pts k3) = an /\ ax <= - an) \/
               (positive = false /\ ax = 0 /\ an = 0)).
  { unfold k3, i3. fold positive. destruct positive eqn:Ep; unfold positive in Ep.
    - apply rlt_true in Ep. left. split; [reflexivity|]. split; [|exact Ep]. destruct HX as [(-> & ->)|(B & E)]; [lra|].
      rewrite Nat.sub_0_r in E. exact E.
    - apply rlt_false in Ep. destruct HN as [(E1 & ->)|(B & E)].
      + right. right. repeat split; lra.
      + right. left. rewrite Nat.sub_0_r in E. repeat split; auto. }
  split.
  { intros k I. specialize (FA k I). destruct A3 as [(_ & -> & C)|[(_ & -> & C)|(_ & C1 & C2)]].
    - rewrite (Rabs_right ax) by lra. apply Rabs_le. lra.
    - rewrite (Rabs_left1 an) by lra. apply Rabs_le. lra.
    - subst ax an. assert (E : area_of n (pos pts k1) (pos pts k2) (pos pts k) = 0) by lra. rewrite E, Rabs_R0. apply Rabs_pos. }
  intros k e Ik Ie Hpos.
  assert (EP : rlt 0 (area_of n (pos pts k1) (pos pts k2) (pos pts k3)) = positive).
  { destruct A3 as [(-> & -> & C)|[(-> & -> & C)|(-> & C1 & C2)]].
    - apply rlt_true. lra.
    - apply rlt_false. lra.
    - apply rlt_false. assert (I3 : In k3 m2) by (unfold k3; now apply nth_In). specialize (FA k3 I3). lra. }
  assert (SE : forall k e, (if rlt 0 (area_of n (pos pts k1) (pos pts k2) (pos pts k3))
                            then - area_of n (fst e) (snd e) (pos pts k) else area_of n (fst e) (snd e) (pos pts k)) = opp positive n e (pos pts k)).
  { intros k' e'. rewrite EP. reflexivity. }
  fold edges in Ie |- *. rewrite SE in Hpos.
  rewrite Forall_forall in FV. specialize (FV k Ik). rewrite Forall_forall in FV. specialize (FV e Ie).
  destruct HV as [(_ & Ev)|(_ & e' & I' & Ev)].
  - exfalso. cbn [fst] in Ev. destruct positive; cbn [signed] in Ev; lra.
  - exists e'. split; [exact I'|]. rewrite !SE. rewrite Nat.sub_0_r in Ev. fold k4 in Ev. lra.
Qed.

(** * The choice looks at positions and at one normal only *)
Definition alike (a b : cinfo) : Prop := i_n a = i_n b /\ i_p1 a = i_p1 b.

Lemma get_alike : forall l l' k, Forall2 alike l l' ->
  (exists a b, get l k = Ok a /\ get l' k = Ok b /\ alike a b) \/ (get l k = Ub /\ get l' k = Ub).
Proof.
  intros l l' k F. revert k. induction F as [|a b l l' H F IH]; intros [|k].
  - now right.
  - now right.
  - left. exists a, b. repeat split; apply H.
  - exact (IH k).
Qed.

Ltac same_get F k :=
  let a := fresh "a" in let b := fresh "b" in let N := fresh "N" in let P := fresh "P" in
  destruct (get_alike _ _ k F) as [(a & b & -> & -> & (N & P))|(-> & ->)]; [|reflexivity]; cbn [bind]; rewrite <- ?N, <- ?P.

Lemma reduce_points_blind : forall top rot pts pts' m, Forall2 alike pts pts' -> reduce_points top rot pts m = reduce_points top rot pts' m.
Proof.
  intros top rot pts pts' m F.
  assert (E1 : forall c i best keep, farthest_along pts c i best keep = farthest_along pts' c i best keep).
  { induction c as [|c rest IH]; intros; cbn [farthest_along]; [reflexivity|]. same_get F c. destruct (rlt _ _); apply IH. }
  assert (E2 : forall c p i best keep, farthest_from pts p c i best keep = farthest_from pts' p c i best keep).
  { induction c as [|c rest IH]; intros; cbn [farthest_from]; [reflexivity|]. same_get F c. destruct (rle _ _); apply IH. }
  assert (E3 : forall c n a b i x kx y ky, extreme_areas pts n a b c i x kx y ky = extreme_areas pts' n a b c i x kx y ky).
  { induction c as [|c rest IH]; intros; cbn [extreme_areas]; [reflexivity|]. same_get F c. destruct (rle x _), (rle _ y); apply IH. }
  assert (E4 : forall c b n e i st, opposite_area pts b n e c i st = opposite_area pts' b n e c i st).
  { induction c as [|c rest IH]; intros; cbn [opposite_area]; [reflexivity|]. same_get F c. apply IH. }
  unfold reduce_points. destruct (get m 0) as [c0| |]; cbn [bind]; [|reflexivity|reflexivity]. same_get F c0.
  rewrite E1. destruct (farthest_along pts' m 0 (- top) 0) as [i1| |]; cbn [bind]; [|reflexivity|reflexivity].
  destruct (get m i1) as [k1| |]; cbn [bind]; [|reflexivity|reflexivity].
  destruct (remove_at m i1) as [m1| |]; cbn [bind]; [|reflexivity|reflexivity]. same_get F k1.
  rewrite E2. destruct (farthest_from pts' _ m1 0 0 0) as [i2| |]; cbn [bind]; [|reflexivity|reflexivity].
  destruct (get m1 i2) as [k2| |]; cbn [bind]; [|reflexivity|reflexivity].
  destruct (remove_at m1 i2) as [m2| |]; cbn [bind]; [|reflexivity|reflexivity]. same_get F k2.
  rewrite E3. destruct (extreme_areas pts' _ _ _ m2 0 0 0 0 0) as [[[[ax kx] an] kn]| |]; cbn [bind]; [|reflexivity|reflexivity].
  destruct (get m2 _) as [k3| |]; cbn [bind]; [|reflexivity|reflexivity].
  destruct (remove_at m2 _) as [m3| |]; cbn [bind]; [|reflexivity|reflexivity]. same_get F k3.
  rewrite E4. reflexivity.
Qed.

(** * Duplicates *)
Definition near (pts : list cinfo) (a b : nat) : Prop := gap pts a b < same_distance.
Definition apart (pts : list cinfo) (a b : nat) : Prop := same_distance <= gap pts a b.

Lemma valid_app : forall pts a b, valid pts (a ++ b) <-> valid pts a /\ valid pts b.
Proof. intros. unfold valid. apply Forall_app. Qed.

Lemma dedupe_from_ok : forall fuel pts a x b c, valid pts (a ++ x :: b ++ c) -> (length c <= fuel)%nat ->
  exists c' rem, dedupe_from fuel (same_distance * same_distance) pts (a ++ x :: b ++ c) (length a) (S (length a) + length b)
      = Ok (a ++ x :: b ++ c') /\ Permutation (c' ++ rem) c /\ Forall (apart pts x) c' /\ Forall (near pts x) rem.
Proof.
  assert (S0 : 0 <= same_distance) by (unfold same_distance; lra).
  induction fuel as [|fuel IH]; intros pts a x b c V LF.
  - assert (c = []) by (destruct c; [reflexivity|cbn in LF; lia]). subst c. exists [], []. cbn [dedupe_from].
    rewrite !app_nil_r. rewrite app_length. cbn [length]. destruct (Nat.ltb_spec (S (length a) + length b) (length a + S (length b))); [lia|]. auto.
  - destruct c as [|y c].
    + exists [], []. cbn [dedupe_from]. rewrite !app_nil_r. rewrite app_length. cbn [length].
      destruct (Nat.ltb_spec (S (length a) + length b) (length a + S (length b))); [lia|]. auto.
    + cbn [dedupe_from].
      assert (GX : get (a ++ x :: b ++ y :: c) (length a) = Ok x) by apply get_mid.
      assert (EL : (S (length a) + length b = length (a ++ x :: b))%nat) by (rewrite app_length; cbn [length]; lia).
      assert (ES : a ++ x :: b ++ y :: c = (a ++ x :: b) ++ y :: c) by (rewrite <- app_assoc; reflexivity).
      assert (GY : get (a ++ x :: b ++ y :: c) (S (length a) + length b) = Ok y) by (rewrite EL, ES; apply get_mid).
      rewrite GX, GY. cbn [bind].
      destruct (Nat.ltb_spec (S (length a) + length b) (length (a ++ x :: b ++ y :: c))) as [_|C]; [|rewrite ES, app_length in C; cbn [length] in C; lia].
      assert (VX : (x < length pts)%nat) by (unfold valid in V; rewrite Forall_forall in V; apply V; apply in_or_app; right; now left).
      assert (VY : (y < length pts)%nat) by (unfold valid in V; rewrite Forall_forall in V; apply V; rewrite ES; apply in_or_app; right; now left).
      rewrite (get_pt pts x VX), (get_pt pts y VY). cbn [bind]. fold (pos pts x) (pos pts y).
      destruct (rlt (vlen2 (vsub (pos pts y) (pos pts x))) (same_distance * same_distance)) eqn:E.
      * apply rlt_true in E. rewrite EL, ES. destruct (remove_at_parts _ (a ++ x :: b) y c) as (c1 & -> & P1). cbn [bind].
        rewrite <- app_assoc. cbn [app]. rewrite <- EL. destruct (IH pts a x b c1) as (c' & rem & -> & P & F1 & F2).
        { rewrite ES in V. apply valid_app in V as [Va Vc]. replace (a ++ x :: b ++ c1) with ((a ++ x :: b) ++ c1) by (rewrite <- app_assoc; reflexivity).
          apply valid_app. split; [exact Va|]. inversion Vc; subst. eapply Permutation_Forall; [symmetry; exact P1|assumption]. }
        { rewrite (Permutation_length P1). cbn in LF. lia. }
        exists c', (y :: rem). split; [reflexivity|]. split.
        { rewrite <- Permutation_middle. apply perm_skip. now rewrite P. }
        split; [exact F1|]. constructor; [|exact F2]. unfold near, gap. now apply vlen_lt_iff.
      * apply rlt_false in E. destruct (IH pts a x (b ++ [y]) c) as (c' & rem & H & P & F1 & F2).
        { rewrite <- app_assoc. exact V. }
        { cbn in LF. lia. }
        rewrite <- app_assoc in H. cbn [app] in H. rewrite app_length in H. cbn [length] in H.
        replace (S (length a) + (length b + 1))%nat with (S (S (length a) + length b)) in H by lia. rewrite H.
        exists (y :: c'), rem. split; [rewrite <- app_assoc; reflexivity|]. split; [cbn [app]; now apply perm_skip|].
        split; [|exact F2]. constructor; [|exact F1]. unfold apart, gap.
        destruct (Rle_or_lt same_distance (vlen (vsub (pos pts y) (pos pts x)))) as [K|K]; [exact K|]. apply (proj1 (vlen_lt_iff _ _ S0)) in K. lra.
Qed.

Lemma dedupe_ok : forall fuel pts a r, valid pts (a ++ r) -> (length r <= fuel)%nat ->
  exists r' rem, dedupe fuel (same_distance * same_distance) pts (a ++ r) (length a) = Ok (a ++ r') /\ Permutation (r' ++ rem) r /\
    ForallOrdPairs (apart pts) r' /\ Forall (fun k => Exists (fun x => near pts x k) r') rem.
Proof.
  induction fuel as [|fuel IH]; intros pts a r V LF.
  - assert (r = []) by (destruct r; [reflexivity|cbn in LF; lia]). subst r. exists [], []. cbn [dedupe]. rewrite app_nil_r.
    destruct (Nat.ltb_spec (length a) (length a)); [lia|]. repeat split; constructor.
  - destruct r as [|x c].
    + exists [], []. cbn [dedupe]. rewrite app_nil_r. destruct (Nat.ltb_spec (length a) (length a)); [lia|]. repeat split; constructor.
    + cbn [dedupe]. destruct (Nat.ltb_spec (length a) (length (a ++ x :: c))) as [_|C]; [|rewrite app_length in C; cbn [length] in C; lia].
      destruct (dedupe_from_ok (length (a ++ x :: c)) pts a x [] c V) as (c' & rem & H & P & F1 & F2); [rewrite app_length; cbn [length]; lia|].
      cbn [app length] in H. rewrite Nat.add_0_r in H. rewrite H. cbn [bind].
      destruct (IH pts (a ++ [x]) c') as (r' & rem' & H' & P' & F1' & F2').
      { apply valid_app in V as [Va Vc]. rewrite <- app_assoc. apply valid_app. split; [exact Va|]. inversion Vc; subst. constructor; [assumption|].
        assert (W : valid pts (c' ++ rem)) by (eapply Permutation_Forall; [symmetry; exact P|assumption]). now apply valid_app in W. }
      { pose proof (Permutation_length P) as LP. rewrite app_length in LP. cbn in LF. lia. }
      rewrite <- app_assoc in H'. cbn [app] in H'. rewrite app_length in H'. cbn [length] in H'.
      replace (length a + 1)%nat with (S (length a)) in H' by lia. rewrite H'.
      exists (x :: r'), (rem' ++ rem). split; [rewrite <- app_assoc; reflexivity|]. split.
      { cbn [app]. apply perm_skip. rewrite app_assoc. rewrite P'. exact P. }
      split.
      { constructor; [|exact F1']. assert (W : Forall (apart pts x) (r' ++ rem')) by (eapply Permutation_Forall; [symmetry; exact P'|exact F1]).
        now apply Forall_app in W. }
      apply Forall_app. split.
      * eapply Forall_impl; [|exact F2']. cbn. intros k K. now right.
      * eapply Forall_impl; [|exact F2]. cbn. intros k K. now left.
Qed.

Lemma remove_duplicates_ok : forall pts m, valid pts m ->
  exists m' rem, remove_duplicates pts m = Ok m' /\ Permutation (m' ++ rem) m /\
    ForallOrdPairs (apart pts) m' /\ Forall (fun k => Exists (fun x => near pts x k) m') rem.
Proof. intros pts m V. exact (dedupe_ok (length m) pts [] m V (Nat.le_refl _)). Qed.

(** * Dropping manifolds *)
Definition deepest (pts : list cinfo) (m : list nat) : R := fold_left (fun d k => Rmax d (depth pts k)) m 0.

Lemma largest_depth_ok : forall pts m best, valid pts m -> largest_depth pts m best = Ok (fold_left (fun d k => Rmax d (depth pts k)) m best).
Proof.
  induction m as [|c m IH]; intros best V; cbn [largest_depth fold_left]; [reflexivity|]. inversion V; subst. rewrite get_pt by assumption. cbn [bind].
  rewrite IH by assumption. do 2 f_equal. fold (depth pts c). destruct (rlt best (depth pts c)) eqn:E.
  - apply rlt_true in E. rewrite Rmax_right; lra.
  - apply rlt_false in E. rewrite Rmax_left; lra.
Qed.

Lemma deepest_from : forall pts m best, best <= fold_left (fun d k => Rmax d (depth pts k)) m best /\
  (forall k, In k m -> depth pts k <= fold_left (fun d k => Rmax d (depth pts k)) m best) /\
  (fold_left (fun d k => Rmax d (depth pts k)) m best = best \/ exists k, In k m /\ fold_left (fun d k => Rmax d (depth pts k)) m best = depth pts k).
Proof.
  induction m as [|c m IH]; intros best; cbn [fold_left].
  - repeat split; [lra|intros k []|now left].
  - destruct (IH (Rmax best (depth pts c))) as (A & B & C). pose proof (Rmax_l best (depth pts c)). pose proof (Rmax_r best (depth pts c)).
    split; [lra|]. split.
    + intros k [<-|I]; [lra|auto].
    + destruct C as [C|(k & I & C)]; [|right; exists k; split; [now right|exact C]].
      rewrite C. unfold Rmax. destruct (Rle_dec best (depth pts c)); [right; exists c; split; [now left|reflexivity]|now left].
Qed.

Lemma deepest_spec : forall pts m, m <> [] -> (forall k, In k m -> 0 < depth pts k) ->
  (forall k, In k m -> depth pts k <= deepest pts m) /\ exists k, In k m /\ deepest pts m = depth pts k.
Proof.
  intros pts m N P. destruct (deepest_from pts m 0) as (A & B & C). split; [exact B|]. destruct C as [C|C]; [|exact C].
  exfalso. destruct m as [|c m]; [congruence|]. specialize (B c (or_introl eq_refl)). specialize (P c (or_introl eq_refl)). lra.
Qed.

Definition mvalid (pts : list cinfo) (mans : list (list nat)) (ids : list nat) : Prop :=
  Forall (fun k => (k < length mans)%nat /\ valid pts (man mans k)) ids.

Lemma get_man : forall mans k, (k < length mans)%nat -> get mans k = Ok (man mans k).
Proof. intros. now apply get_ok. Qed.

Lemma shallowest_ok : forall pts mans ids j best keep, mvalid pts mans ids ->
  exists r, shallowest pts mans ids j best keep = Ok r /\
    ((r = keep /\ Forall (fun k => best <= deepest pts (man mans k)) ids) \/
     exists i, r = Some (j + i)%nat /\ (i < length ids)%nat /\ deepest pts (man mans (nth i ids 0%nat)) < best /\
       Forall (fun k => deepest pts (man mans (nth i ids 0%nat)) <= deepest pts (man mans k)) ids).
Proof.
  induction ids as [|k ids IH]; intros j best keep V; cbn [shallowest].
  - exists keep. split; [reflexivity|]. left. auto.
  - inversion V as [|? ? (H1 & H2) Vr]; subst. rewrite get_man by assumption. cbn [bind]. rewrite largest_depth_ok by assumption. cbn [bind].
    fold (deepest pts (man mans k)). destruct (rlt (deepest pts (man mans k)) best) eqn:E.
    + apply rlt_true in E. destruct (IH (S j) (deepest pts (man mans k)) (Some j) Vr) as (r & Hr & H). exists r. split; [exact Hr|]. right.
      destruct H as [(-> & F)|(i & -> & B & L & F)].
      * exists 0%nat. cbn [nth length]. repeat split; [f_equal; lia|lia|exact E|]. constructor; [lra|exact F].
      * exists (S i). cbn [nth length]. repeat split; [f_equal; lia|lia|lra|]. constructor; [lra|exact F].
    + apply rlt_false in E. destruct (IH (S j) best keep Vr) as (r & Hr & H). exists r. split; [exact Hr|].
      destruct H as [(-> & F)|(i & -> & B & L & F)].
      * left. split; [reflexivity|]. constructor; assumption.
      * right. exists (S i). cbn [nth length]. repeat split; [f_equal; lia|lia|lra|]. constructor; [lra|exact F].
Qed.

Lemma drop_ok : forall fuel top pts mans ids, mvalid pts mans ids -> Forall (fun k => deepest pts (man mans k) < top) ids ->
  (length ids <= fuel + 4)%nat ->
  exists ids' rem, drop_manifolds fuel top pts mans ids = Ok ids' /\ Permutation (ids' ++ rem) ids /\ (length ids' <= 4)%nat /\
    (rem <> [] -> length ids' = 4%nat) /\
    Forall (fun d => Forall (fun k => deepest pts (man mans d) <= deepest pts (man mans k)) ids') rem.
Proof.
  induction fuel as [|fuel IH]; intros top pts mans ids V T LF; cbn [drop_manifolds]; unfold max_manifolds.
  - destruct (Nat.ltb_spec 4 (length ids)); [cbn in LF; lia|]. exists ids, []. rewrite app_nil_r. repeat split; auto; congruence.
  - destruct (Nat.ltb_spec 4 (length ids)) as [C|C].
    + destruct (shallowest_ok pts mans ids 0 top None V) as (r & -> & H). cbn [bind].
      destruct H as [(-> & F)|(i & -> & B & L & F)].
      { exfalso. destruct ids as [|k ids]; [cbn in C; lia|]. inversion F; subst. inversion T; subst. lra. }
      cbn [Nat.add]. destruct (remove_at_spec _ ids i 0%nat B) as (ids1 & -> & P). cbn [bind]. set (k0 := nth i ids 0%nat) in *.
      assert (W : forall Q, Forall Q ids -> Forall Q ids1).
      { intros Q HQ. assert (Forall Q (k0 :: ids1)) as HQ' by (eapply Permutation_Forall; [symmetry; exact P|exact HQ]). now inversion HQ'. }
      pose proof (Permutation_length P) as LP. cbn [length] in LP.
      destruct (IH top pts mans ids1) as (ids' & rem & -> & P' & L' & L4 & F'); [now apply W|now apply W|lia|].
      exists ids', (k0 :: rem). split; [reflexivity|]. split.
      { rewrite <- Permutation_middle. rewrite <- P. apply perm_skip. exact P'. }
      split; [exact L'|]. split.
      { intros _. destruct rem as [|d rem]; [|now apply L4]. rewrite app_nil_r in P'. apply Permutation_length in P'. lia. }
      constructor; [|exact F'].
      assert (F1 : Forall (fun k => deepest pts (man mans k0) <= deepest pts (man mans k)) (ids' ++ rem)).
      { eapply Permutation_Forall; [symmetry; exact P'|]. now apply W. }
      now apply Forall_app in F1.
    + exists ids, []. rewrite app_nil_r. repeat split; auto; congruence.
Qed.
