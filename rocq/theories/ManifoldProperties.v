(** Properties C52 to C54 and C95 to C97: contact manifolds, reported contacts and the impulses they inherit. *)
From Coq Require Import List ZArith Reals Lra Lia Permutation Bool Arith.
From Verif Require Import Base VecModel VecProofs ManifoldModel ManifoldSpec ManifoldProofs ManifoldFrameProofs ManifoldCreateProofs ManifoldInheritProofs.
From Verif Require Import GeomSpec GeomProofs.
Import ListNotations.
Local Open Scope R_scope.

(** * Evaluation on concrete points *)
Local Arguments IZR : simpl never.
Local Arguments rlt : simpl never.
Local Arguments rle : simpl never.
Ltac nums := cbv [vlen2 vdot vsub vcross vx vy vz i_p1 i_n i_depth d_info same_distance area_of quat_vec quat_inverse qx qy qz qw fst snd]; lra.
Ltac decide_one :=
  match goal with
  | |- context [rlt ?a ?b] => let H := fresh in
      first [assert (H : rlt a b = true) by (apply rlt_true; nums) | assert (H : rlt a b = false) by (apply rlt_false; nums)]; rewrite H; clear H
  | |- context [rle ?a ?b] => let H := fresh in
      first [assert (H : rle a b = true) by (apply rle_true; nums) | assert (H : rle a b = false) by (apply rle_false; nums)]; rewrite H; clear H
  end.
Ltac edge_one :=
  match goal with
  | |- context [edge_step ?p ?n ?q ?i (?a, ?k) ?e] =>
      let r := eval cbv [edge_step fst snd negb andb orb] in (edge_step p n q i (a, k) e) in change (edge_step p n q i (a, k) e) with r
  end.
Ltac mev := repeat (progress (cbn; try edge_one; try decide_one)).

Definition flat (x y d : R) : cinfo := CInfo (V3 0 0 1) (V3 x y 0) (V3 x y 0) d.
Definition square : list cinfo := [flat 1 1 (1 / 10); flat (-1) (-1) (1 / 10); flat 1 (-1) (1 / 10); flat (-1) 1 (1 / 10); flat 0 0 5].

Theorem C52_deepest_kept_refuted :
  exists top rot pts m k kept, valid pts m /\ (4 < length m)%nat /\ NoDup m /\ (forall j, In j m -> 0 < depth pts j < top) /\ In k m /\
    (forall j, In j m -> j <> k -> depth pts j < depth pts k) /\ reduce_points top rot pts m = Ok kept /\ ~ In k kept.
Proof.
  exists 100, (Q4 0 0 0 1), square, [0; 1; 2; 3; 4]%nat, 4%nat, [0; 1; 3; 2]%nat.
  split; [repeat constructor; cbn; lia|]. split; [cbn; lia|]. split; [repeat constructor; cbn; intuition lia|].
  split; [intros j [<-|[<-|[<-|[<-|[<-|[]]]]]]; cbv; lra|]. split; [cbn; auto 6|].
  split; [intros j [<-|[<-|[<-|[<-|[<-|[]]]]]] D; try congruence; cbv; lra|].
  split; [|cbn; intuition lia]. unfold reduce_points, square. mev. reflexivity.
Qed.
Print Assumptions C52_deepest_kept_refuted.

(** Two arrays of points that differ in penetration depths (and in positions on the second shape) only are reduced alike. *)
Theorem C52_depth_ignored_refuted : forall top rot pts pts' m,
  Forall2 (fun p q => i_n p = i_n q /\ i_p1 p = i_p1 q) pts pts' -> reduce_points top rot pts m = reduce_points top rot pts' m.
Proof. intros top rot pts pts' m F. apply reduce_points_blind. exact F. Qed.
Print Assumptions C52_depth_ignored_refuted.

(** Missing from C52: that a deepest point is among the four. *)
Theorem C52_four_points_partial : forall top rot pts m, valid pts m -> NoDup m ->
  ((4 < length m)%nat -> exists kept rest, reduce_points top rot pts m = Ok kept /\ length kept = 4%nat /\ NoDup kept /\ Permutation (kept ++ rest) m /\
     exists a b c d, kept = [a; b; c; d] /\
       ((forall k, In k m -> - top < vdot (V3 1 1 1) (pos pts k)) -> forall k, In k m -> vdot (V3 1 1 1) (pos pts k) <= vdot (V3 1 1 1) (pos pts a)) /\
       (forall k, In k m -> gap pts k a <= gap pts b a) /\
       (let n := quat_vec (quat_inverse rot) (i_n (pt pts (nth 0 m 0%nat))) in
        (forall k, In k m -> k <> a -> k <> b -> Rabs (twice_area n (pos pts a) (pos pts b) (pos pts k)) <= Rabs (twice_area n (pos pts a) (pos pts b) (pos pts c))) /\
        (** The fourth point: no other candidate is farther outside an edge of the triangle of the first three. *)
        (let outside k e := (if Rlt_dec 0 (twice_area n (pos pts a) (pos pts b) (pos pts c)) then -1 else 1) * twice_area n (fst e) (snd e) (pos pts k) in
         let edges := [(pos pts a, pos pts b); (pos pts b, pos pts c); (pos pts c, pos pts a)] in
         forall k e, In k m -> k <> a -> k <> b -> k <> c -> In e edges -> 0 < outside k e -> exists e', In e' edges /\ outside k e <= outside d e'))) /\
  ((length m <= 4)%nat -> reduce_manifold top rot pts m = remove_duplicates pts m).
Proof.
  intros top rot pts m V N. split.
  - intros L. destruct (reduce_points_ok top rot pts m V L) as (k1 & k2 & k3 & k4 & m1 & m2 & m3 & m4 & E & P1 & P2 & P3 & P4 & H1 & H2 & H3).
    cbv zeta in H3. destruct H3 as (H3 & H4).
    assert (P : Permutation ([k1; k2; k3; k4] ++ m4) m).
    { cbn [app]. rewrite <- P1. apply perm_skip. rewrite <- P2. apply perm_skip. rewrite <- P3. apply perm_skip. exact P4. }
    exists [k1; k2; k3; k4], m4. split; [exact E|]. split; [reflexivity|]. split.
    { assert (Q : NoDup ([k1; k2; k3; k4] ++ m4)) by (eapply Permutation_NoDup; [symmetry; exact P|exact N]). now apply nodup_parts in Q. }
    split; [exact P|]. exists k1, k2, k3, k4. split; [reflexivity|]. split; [exact H1|].
    assert (IN1 : forall k, In k m -> k <> k1 -> In k m1).
    { intros k I D. apply (Permutation_in _ (Permutation_sym P1)) in I as [I|I]; [congruence|exact I]. }
    split.
    + intros k I. destruct (Nat.eq_dec k k1) as [->|D]; [|apply H2; now apply IN1].
      assert (Z : gap pts k1 k1 = 0). { unfold gap, vlen. replace (vlen2 _) with 0; [apply sqrt_0|]. clear. unfold vlen2. vring. }
      rewrite Z. apply sqrt_pos.
    + assert (IN2 : forall k, In k m -> k <> k1 -> k <> k2 -> In k m2).
      { intros k I Da Db. apply IN1 in I; [|exact Da]. apply (Permutation_in _ (Permutation_sym P2)) in I as [I|I]; [congruence|exact I]. }
      split; [intros k I Da Db; apply (H3 k); now apply IN2|].
      cbv zeta in *. intros k e I Da Db Dc Ie.
      assert (I3 : In k m3). { apply IN2 in I; try assumption. apply (Permutation_in _ (Permutation_sym P3)) in I as [I|I]; [congruence|exact I]. }
      specialize (H4 k e I3 Ie). unfold rlt in H4. change area_of with twice_area in H4. destruct (Rlt_dec 0 _) as [S|S]; intros O.
      * destruct H4 as (e' & Ie' & K); [lra|]. exists e'. split; [exact Ie'|lra].
      * destruct H4 as (e' & Ie' & K); [lra|]. exists e'. split; [exact Ie'|lra].
  - intros L. unfold reduce_manifold, max_points. destruct (Nat.ltb_spec 4 (length m)); [lia|]. reflexivity.
Qed.
Print Assumptions C52_four_points_partial.
Example C52_not_vacuous : valid square [0; 1; 2; 3; 4]%nat /\ NoDup [0; 1; 2; 3; 4]%nat /\ (4 < length [0; 1; 2; 3; 4])%nat /\
  forall k, In k [0; 1; 2; 3; 4]%nat -> - 100 < vdot (V3 1 1 1) (pos square k).
Proof.
  split; [repeat constructor; cbn; lia|]. split; [repeat constructor; cbn; intuition lia|]. split; [cbn; lia|].
  intros k [<-|[<-|[<-|[<-|[<-|[]]]]]]; cbv; lra.
Qed.

Theorem C53_duplicates_removed : forall pts m, valid pts m ->
  exists kept gone, remove_duplicates pts m = Ok kept /\ Permutation (kept ++ gone) m /\
    ForallOrdPairs (fun a b => 1 / 100 <= gap pts a b) kept /\ (forall k, In k gone -> exists x, In x kept /\ gap pts x k < 1 / 100).
Proof.
  intros pts m V. destruct (remove_duplicates_ok pts m V) as (kept & gone & E & P & F & G). exists kept, gone. split; [exact E|]. split; [exact P|].
  split; [exact F|]. intros k I. rewrite Forall_forall in G. specialize (G k I). now apply Exists_exists in G.
Qed.
Print Assumptions C53_duplicates_removed.
Definition crowd : list cinfo := [flat 0 0 1; flat (1 / 200) 0 2; flat 1 0 1; flat (1 / 300) 0 1].
Example C53_not_vacuous : valid crowd [0; 1; 2; 3]%nat /\ remove_duplicates crowd [0; 1; 2; 3]%nat = Ok [0; 2]%nat.
Proof. split; [repeat constructor; cbn; lia|]. unfold remove_duplicates, crowd. mev. reflexivity. Qed.

Theorem C54_four_deepest_manifolds : forall top pts mans ids,
  (forall k, In k ids -> (k < length mans)%nat /\ valid pts (man mans k) /\ man mans k <> []) -> (forall k, (k < length pts)%nat -> 0 < depth pts k < top) ->
  exists kept gone, drop_manifolds (length ids) top pts mans ids = Ok kept /\ Permutation (kept ++ gone) ids /\ (length kept <= 4)%nat /\
    (gone <> [] -> length kept = 4%nat) /\ forall d k, In d gone -> In k kept -> no_deeper pts (man mans d) (man mans k).
Proof.
  intros top pts mans ids H D.
  assert (HD : forall k, In k ids -> (forall j, In j (man mans k) -> depth pts j <= deepest pts (man mans k)) /\
                 exists j, In j (man mans k) /\ deepest pts (man mans k) = depth pts j).
  { intros k K. destruct (H k K) as (B & V & M). apply deepest_spec; [exact M|].
    intros j J. unfold valid in V. rewrite Forall_forall in V. apply D. now apply V. }
  destruct (drop_ok (length ids) top pts mans ids) as (kept & gone & E & P & L & L4 & F).
  { unfold mvalid. rewrite Forall_forall. intros k K. destruct (H k K) as (B & V & M). auto. }
  { rewrite Forall_forall. intros k K. destruct (HD k K) as (_ & j & J & ->). destruct (H k K) as (B & V & M).
    unfold valid in V. rewrite Forall_forall in V. apply D. now apply V. }
  { lia. }
  exists kept, gone. split; [exact E|]. split; [exact P|]. split; [exact L|]. split; [exact L4|]. intros d k Id Ik j J.
  assert (Kd : In d ids) by (eapply Permutation_in; [exact P|apply in_or_app; now right]).
  assert (Kk : In k ids) by (eapply Permutation_in; [exact P|apply in_or_app; now left]).
  destruct (HD k Kk) as (_ & j' & J' & E'). exists j'. split; [exact J'|]. rewrite <- E'. destruct (HD d Kd) as (U & _). specialize (U j J).
  rewrite Forall_forall in F. specialize (F d Id). rewrite Forall_forall in F. specialize (F k Ik). lra.
Qed.
Print Assumptions C54_four_deepest_manifolds.
Definition six : list (list nat) := [[0]; [1]; [2]; [3]; [4]; [0; 4]]%nat.
Example C54_not_vacuous : (forall k, In k [0; 1; 2; 3; 4; 5]%nat -> (k < length six)%nat /\ valid square (man six k) /\ man six k <> []) /\
  (forall k, (k < length square)%nat -> 0 < depth square k < 100).
Proof.
  split.
  - intros k [<-|[<-|[<-|[<-|[<-|[<-|[]]]]]]]; cbn; (split; [lia|]); (split; [repeat constructor; cbn; lia|discriminate]).
  - intros k K. cbn in K. destruct k as [|[|[|[|[|k]]]]]; try lia; cbv; lra.
Qed.

(** * Reported contacts *)
Theorem C95_reported_contacts : forall top cosmin rot infos order, well_formed top infos -> good_order infos order ->
  exists f, contacts top cosmin rot infos order = Ok f /\
    NoDup (map c_id (f_pairs f)) /\ (forall id, In id (map c_id (f_pairs f)) <-> met infos id) /\
    (forall x c, nth_error (f_pairs f) x = Some c -> ~ In x order -> points_of f c = [] /\ manifolds_of f c = []) /\
    (forall x c, nth_error (f_pairs f) x = Some c -> In x order ->
       (exists rest, Permutation (map d_info (points_of f c) ++ rest) (candidates infos (c_id c))) /\
       (candidates infos (c_id c) <> [] -> points_of f c <> []) /\
       (length (manifolds_of f c) <= 4)%nat /\
       points_of f c = concat (map (points_in f) (manifolds_of f c)) /\
       (forall q, In q (points_of f c) -> d_imp q = 0 /\ d_rest q = false) /\
       (forall m, In m (manifolds_of f c) -> y_k1 m = c_k1 c /\ y_k2 m = c_k2 c /\ y_f1 m = 0 /\ y_f2 m = 0 /\ y_tw m = 0 /\
          (1 <= length (points_in f m) <= 4)%nat /\
          ForallOrdPairs (fun p q => 1 / 100 <= vlen (vsub (i_p1 (d_info q)) (i_p1 (d_info p)))) (points_in f m) /\
          ((exists i, In i infos /\ n_pair i = c_id c /\ n_convex i = false) ->
             exists q, In q (candidates infos (c_id c)) /\ forall p, In p (points_in f m) -> d_info p = q \/ cosmin <= vdot (i_n q) (i_n (d_info p))))) /\
    (forall c, In c (f_pairs f) -> exists i, In i infos /\ n_colliding i = true /\ c_id c = n_pair i /\ c_k1 c = n_k1 i /\ c_k2 c = n_k2 i /\
       c_prev c = n_prev i /\ c_trigger c = n_trigger i).
Proof.
  intros top cosmin rot infos order W G. destruct (contacts_frame top cosmin rot infos order W G) as (f & o & E & RI & SF & DJ & IDS & OUT & INO & FL).
  exists f. split; [exact E|]. rewrite IDS. split; [exact (R_ids _ _ _ RI)|]. split; [exact (R_met _ _ _ RI)|]. split; [exact OUT|]. split.
  - intros x c' X I. destruct (INO x c' X I) as (c & Ic & ((B1 & B2 & SP & SM) & (m0 & nm & p0 & np & K))).
    assert (Ei : c_id c' = c_id c) by (rewrite K; reflexivity). assert (Epots : c_pots c' = c_pots c) by (rewrite K; reflexivity). rewrite Epots in SP, SM.
    assert (DI : map d_info (points_of f c') = map (pt (o_points o)) (man_points o c)).
    { rewrite SP. unfold all_fresh, man_points. rewrite !concat_map, !map_map. f_equal. apply map_ext. intro k. unfold fresh. rewrite map_map. reflexivity. }
    split; [|split; [|split; [|split; [|split]]]].
    + rewrite DI, Ei. exact (R_pts _ _ _ RI c Ic).
    + intros NE. rewrite Ei in NE. pose proof (R_some _ _ _ RI c Ic NE) as PN. rewrite SP. destruct (c_pots c) as [|k ks] eqn:EP; [congruence|].
      destruct (R_mans _ _ _ RI c k Ic) as (_ & _ & MN & _); [rewrite EP; now left|]. unfold all_fresh. cbn [map concat]. unfold fresh at 1.
      destruct (man (o_mans o) k); [congruence|discriminate].
    + rewrite <- (Forall2_len _ _ _ _ _ SM). exact (R_four _ _ _ RI c Ic).
    + rewrite SP. unfold all_fresh. f_equal. revert SM. clear. induction 1 as [|k m ks ms (_ & _ & _ & A & _) F IH]; [reflexivity|]. cbn [map]. f_equal; [|exact IH].
      unfold points_in. now symmetry.
    + intros q Iq. rewrite SP in Iq. unfold all_fresh in Iq. apply in_concat in Iq as (l & Il & Iq). apply in_map_iff in Il as (k & <- & _).
      unfold fresh in Iq. apply in_map_iff in Iq as (j & <- & _). split; reflexivity.
    + intros m Im. destruct (Forall2_in_r _ _ _ _ _ _ SM Im) as (k & Ik & (A1 & A2 & A3 & A4 & A5)). fold (points_in f m) in A4.
      destruct (R_mans _ _ _ RI c k Ic Ik) as (M1 & M2 & M3 & M4 & M5). split; [exact A1|]. split; [exact A2|].
      split; [rewrite A5; reflexivity|]. split; [rewrite A5; reflexivity|]. split; [rewrite A5; reflexivity|]. rewrite A4. split.
      { unfold fresh. rewrite map_length. destruct (man (o_mans o) k); [congruence|cbn in *; lia]. }
      split.
      * unfold fresh. revert M5. clear. induction 1 as [|a l F M IH]; cbn [map]; [constructor|]. constructor; [|exact IH].
        rewrite Forall_forall in *. intros q Iq. apply in_map_iff in Iq as (j & <- & J). exact (F j J).
      * intros C. rewrite Ei in C |- *. destruct (R_sim _ _ _ RI c k Ic C Ik) as (q & Q & S). exists q. split; [exact Q|]. intros p Ip. unfold fresh in Ip.
        apply in_map_iff in Ip as (j & <- & J). exact (S j J).
  - intros c' I. destruct (FL c' I) as (c & m0 & nm & p0 & np & Ic & ->). destruct (R_flags _ _ _ RI c Ic) as (i & I1 & I2 & I3). exists i.
    unfold with_pots, new_pair in I3. injection I3 as K1 K2 K3 K4 K5 _ _ _ _. cbn. auto 10.
Qed.
Print Assumptions C95_reported_contacts.
(** A pair of convex shapes with five candidates and a pair with a concave shape met twice, in another order than found. *)
Definition two_pairs : list ninfo :=
  [NInfo 7 0 1 true false false true square; NInfo 9 2 3 false true false true [flat 0 0 1]; NInfo 9 2 3 false true false true [flat 3 0 1; flat 3 4 2];
   NInfo 11 4 5 true false false false []].
Example C95_not_vacuous : well_formed 100 two_pairs /\ good_order two_pairs [1; 0]%nat.
Proof.
  split.
  - split; [|split].
    + intros i p [<-|[<-|[<-|[<-|[]]]]] I; cbn in I; intuition subst; cbn; lra.
    + intros i j [<-|[<-|[<-|[<-|[]]]]] [<-|[<-|[<-|[<-|[]]]]]; cbn; intros; try reflexivity; discriminate.
    + intros a b i E C j J. unfold two_pairs in E. destruct a as [|a1 [|a2 [|a3 [|a4 a]]]]; cbn in E; inversion E; subst; cbn in C; try discriminate;
        try (destruct a; discriminate); cbn in J; repeat (destruct J as [<-|J]; [discriminate|]); contradiction.
  - split; [repeat constructor; cbn; intuition lia|]. intros x [<-|[<-|[]]]; cbn; lia.
Qed.

(** * Inherited impulses *)
Theorem C96_impulses_inherited : forall top per cosmin rot infos order old, 0 <= per -> well_formed top infos -> good_order infos order ->
  reachable top per cosmin old ->
  exists f f', contacts top cosmin rot infos order = Ok f /\ update_contacts top per cosmin rot infos order old = Ok f' /\
    f_pairs f' = f_pairs f /\ map d_info (f_points f') = map d_info (f_points f) /\
    forall c, In c (f_pairs f) ->
      Forall2 (fun q q' => (exists r, first_match (close per q) (points_for old (c_id c)) r /\ q' = DPoint (d_info q) (d_imp r) (d_rest r)) \/
                           ((forall r, In r (points_for old (c_id c)) -> ~ close per q r) /\ q' = q)) (points_of f c) (points_of f' c) /\
      Forall2 (fun m m' => (exists r, first_match (fun r => cosmin <= vdot (first_normal old r) (first_normal f m)) (manifolds_for old (c_id c)) r /\
                              m' = DMan (y_k1 m) (y_k2 m) (y_p0 m) (y_np m) (y_v1 r) (y_v2 r) (y_f1 r) (y_f2 r) (y_tw r)) \/
                           ((forall r, In r (manifolds_for old (c_id c)) -> vdot (first_normal old r) (first_normal f m) < cosmin) /\ m' = m))
        (manifolds_of f c) (manifolds_of f' c).
Proof.
  intros top per cosmin rot infos order old Hp W G R. apply reachable_sound in R; [|exact Hp].
  destruct (update_ok top per cosmin rot infos order old Hp W G R) as (f & f' & E & E' & _ & (G1 & G2 & _) & H). exists f, f'.
  split; [exact E|]. split; [exact E'|]. split; [exact G1|]. split; [exact G2|]. intros c I. destruct (H c I) as (H1 & H2). split.
  - revert H1. apply Forall2_weaken. intros q q' [K|(K & ->)]; [now left|]. right. split; [|reflexivity]. now rewrite Forall_forall in K.
  - revert H2. apply Forall2_weaken. intros m m' [K|(K & ->)]; [now left|]. right. split; [|reflexivity]. rewrite Forall_forall in K. intros r Ir. specialize (K r Ir). lra.
Qed.
Print Assumptions C96_impulses_inherited.

(** One contact point, and two contact points one update later. *)
Definition one_point : list ninfo := [NInfo 7 0 1 true false false true [flat (1 / 100) 0 1]].
Definition two_points : list ninfo := [NInfo 7 0 1 true true false true [flat 0 0 1; flat (2 / 100) 0 1]].
Definition solved : frame :=
  Frame [CPair 7 0 1 false false [0%nat] 0 1 0 1] [DMan 0 1 0 1 vzero vzero 0 0 0] [DPoint (flat (1 / 100) 0 1) 5 false].

Lemma one_good : well_formed 100 one_point /\ good_order one_point [0]%nat.
Proof.
  split.
  - split; [|split].
    + intros i p [<-|[]] I; cbn in I; intuition subst; cbn; lra.
    + intros i j [<-|[]] [<-|[]]; reflexivity.
    + intros a b i E C j J. destruct a as [|a1 a]; cbn in E; inversion E; subst; [contradiction|destruct a; discriminate].
  - split; [repeat constructor; cbn; intuition lia|]. intros x [<-|[]]; cbn; lia.
Qed.
Lemma two_good : well_formed 100 two_points /\ good_order two_points [0]%nat.
Proof.
  split.
  - split; [|split].
    + intros i p [<-|[]] I; cbn in I; intuition subst; cbn; lra.
    + intros i j [<-|[]] [<-|[]]; reflexivity.
    + intros a b i E C j J. destruct a as [|a1 a]; cbn in E; inversion E; subst; [contradiction|destruct a; discriminate].
  - split; [repeat constructor; cbn; intuition lia|]. intros x [<-|[]]; cbn; lia.
Qed.
Lemma solved_reachable : reachable 100 (3 / 100) (95 / 100) solved.
Proof.
  destruct one_good as (W & G).
  eapply (reach_update 100 (3 / 100) (95 / 100) (fun _ => Q4 0 0 0 1) one_point [0]%nat (Frame [] [] [])
    (Frame [CPair 7 0 1 false false [0%nat] 0 1 0 1] [DMan 0 1 0 1 vzero vzero 0 0 0] [DPoint (flat (1 / 100) 0 1) 0 false]));
    [apply reach_start|exact W|exact G| |].
  - unfold update_contacts, contacts, one_point. mev. reflexivity.
  - split; [reflexivity|]. split; reflexivity.
Qed.
Example C96_not_vacuous : 0 <= 3 / 100 /\ well_formed 100 two_points /\ good_order two_points [0]%nat /\ reachable 100 (3 / 100) (95 / 100) solved.
Proof. split; [lra|]. split; [apply two_good|]. split; [apply two_good|exact solved_reachable]. Qed.

(** Both new points start with the impulse of the only old point. *)
Theorem C97_impulse_passed_on_twice_refuted :
  exists top per cosmin rot infos order old f' c r q1 q2, 0 < per /\ well_formed top infos /\ good_order infos order /\ reachable top per cosmin old /\
    update_contacts top per cosmin rot infos order old = Ok f' /\ In c (f_pairs f') /\
    points_for old (c_id c) = [r] /\ d_imp r = 5 /\ points_of f' c = [q1; q2] /\ d_imp q1 = 5 /\ d_imp q2 = 5.
Proof.
  exists 100, (3 / 100), (95 / 100), (fun _ => Q4 0 0 0 1), two_points, [0]%nat, solved.
  exists (Frame [CPair 7 0 1 true false [0%nat] 0 1 0 2] [DMan 0 1 0 2 vzero vzero 0 0 0] [DPoint (flat 0 0 1) 5 false; DPoint (flat (2 / 100) 0 1) 5 false]).
  exists (CPair 7 0 1 true false [0%nat] 0 1 0 2), (DPoint (flat (1 / 100) 0 1) 5 false), (DPoint (flat 0 0 1) 5 false), (DPoint (flat (2 / 100) 0 1) 5 false).
  split; [lra|]. split; [apply two_good|]. split; [apply two_good|]. split; [exact solved_reachable|].
  split; [|repeat split; now left]. unfold update_contacts, contacts, two_points, solved. mev. reflexivity.
Qed.
Print Assumptions C97_impulse_passed_on_twice_refuted.

Lemma close_sym : forall per p q r, close per p r -> close per q r -> vlen (vsub (i_p1 (d_info q)) (i_p1 (d_info p))) <= 2 * per.
Proof.
  unfold close. intros per p q r A B. pose proof (triangle (i_p1 (d_info q)) (i_p1 (d_info r)) (i_p1 (d_info p))) as T. rewrite !dist_vlen in T.
  rewrite <- dist_vlen, dist_sym, dist_vlen in A. lra.
Qed.

(** Missing from C97: contact points of a pair that are closer to each other than twice the threshold. *)
Theorem C97_passed_on_once_partial : forall top per cosmin rot infos order old, 0 <= per -> well_formed top infos -> good_order infos order ->
  reachable top per cosmin old ->
  exists f f', contacts top cosmin rot infos order = Ok f /\ update_contacts top per cosmin rot infos order old = Ok f' /\
    forall c, In c (f_pairs f') ->
      Forall2 (fun q q' => (exists r, first_match (close per q) (points_for old (c_id c)) r /\ d_imp q' = d_imp r) \/ d_imp q' = 0) (points_of f c) (points_of f' c) /\
      (ForallOrdPairs (fun p q => 2 * per < vlen (vsub (i_p1 (d_info q)) (i_p1 (d_info p)))) (points_of f c) ->
       forall r, ForallOrdPairs (fun p q => ~ (first_match (close per p) (points_for old (c_id c)) r /\ first_match (close per q) (points_for old (c_id c)) r)) (points_of f c)).
Proof.
  intros top per cosmin rot infos order old Hp W G R. apply reachable_sound in R; [|exact Hp].
  destruct (update_ok top per cosmin rot infos order old Hp W G R) as (f & f' & E & E' & _ & (G1 & G2 & _) & H). exists f, f'.
  split; [exact E|]. split; [exact E'|]. intros c I. rewrite G1 in I. destruct (H c I) as (H1 & _). split.
  - assert (Z : forall q, In q (points_of f c) -> d_imp q = 0).
    { destruct (C95_reported_contacts top cosmin rot infos order W G) as (f2 & E2 & _ & _ & OUT & INO & _). assert (f2 = f) by congruence. subst f2.
      apply In_nth_error in I as (x & X). destruct (in_dec Nat.eq_dec x order) as [J|J].
      - destruct (INO x c X J) as (_ & _ & _ & _ & K & _). intros q Q. now destruct (K q Q).
      - destruct (OUT x c X J) as (-> & _). intros q []. }
    revert Z H1. generalize (points_of f c) (points_of f' c). intros l l' Z F. induction F as [|q q' l l' K F IH]; constructor; [|apply IH; intros; apply Z; now right].
    destruct K as [(r & F1 & ->)|(_ & ->)]; [left; eauto|]. right. apply Z. now left.
  - generalize (points_of f c). intros l. clear. intros D r. induction D as [|p l F D IH]; constructor; [|exact IH].
    rewrite Forall_forall in *. intros q Q ((a & b & _ & A & _) & (a' & b' & _ & B & _)). specialize (F q Q). pose proof (close_sym per p q r A B). lra.
Qed.
Print Assumptions C97_passed_on_once_partial.
Example C97_not_vacuous : 0 <= 3 / 100 /\ well_formed 100 two_points /\ good_order two_points [0]%nat /\ reachable 100 (3 / 100) (95 / 100) solved /\
  ForallOrdPairs (fun p q => 2 * (3 / 100) < vlen (vsub (i_p1 (d_info q)) (i_p1 (d_info p)))) [DPoint (flat 0 0 1) 0 false; DPoint (flat 1 0 1) 0 false].
Proof.
  split; [lra|]. split; [apply two_good|]. split; [apply two_good|]. split; [exact solved_reachable|].
  constructor; [|repeat constructor]. constructor; [|constructor]. apply Rnot_le_lt. intros K. apply vlen_le_iff in K; [|lra]. cbv in K. lra.
Qed.
