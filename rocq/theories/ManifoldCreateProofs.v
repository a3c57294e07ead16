From Coq Require Import List ZArith Reals Lra Lia Permutation Bool Arith.
From Verif Require Import Base VecModel VecProofs ManifoldModel ManifoldSpec ManifoldProofs ManifoldFrameProofs.
Import ListNotations.
Local Open Scope R_scope.

(** * Parts of a multiset *)
Definition sub {A : Type} (a b : list A) : Prop := exists rest, Permutation (a ++ rest) b.

Lemma sub_refl : forall A (a : list A), sub a a.
Proof. intros. exists []. now rewrite app_nil_r. Qed.

Lemma sub_trans : forall A (a b c : list A), sub a b -> sub b c -> sub a c.
Proof. intros A a b c (r & P) (s & Q). exists (r ++ s). rewrite app_assoc. rewrite P. exact Q. Qed.

Lemma sub_map : forall A B (f : A -> B) a b, sub a b -> sub (map f a) (map f b).
Proof. intros A B f a b (r & P). exists (map f r). rewrite <- map_app. now apply Permutation_map. Qed.

Lemma sub_in : forall A (a b : list A) x, sub a b -> In x a -> In x b.
Proof. intros A a b x (r & P) I. eapply Permutation_in; [exact P|]. apply in_or_app. now left. Qed.

Lemma sub_concat : forall A (f : nat -> list A) a b, sub a b -> sub (concat (map f a)) (concat (map f b)).
Proof. intros A f a b (r & P). exists (concat (map f r)). rewrite <- concat_app, <- map_app. rewrite <- !flat_map_concat_map. now apply Permutation_flat_map. Qed.

Lemma sub_pointwise : forall A (f g : nat -> list A) l, (forall k, In k l -> sub (f k) (g k)) -> sub (concat (map f l)) (concat (map g l)).
Proof.
  intros A f g l H. induction l as [|k l IH]; [apply sub_refl|]. cbn [map concat].
  destruct (H k (or_introl eq_refl)) as (r & P). destruct IH as (s & Q); [intros j J; apply H; now right|]. exists (r ++ s).
  rewrite <- P, <- Q. rewrite <- !app_assoc. apply Permutation_app_head. rewrite !app_assoc. apply Permutation_app_tail. apply Permutation_app_comm.
Qed.

Lemma sub_nodup : forall A (a b : list A), sub a b -> NoDup b -> NoDup a.
Proof. intros A a b (r & P) N. assert (NoDup (a ++ r)) as H by (eapply Permutation_NoDup; [symmetry; exact P|exact N]). now apply nodup_parts in H. Qed.

(** * Reducing one manifold *)
Definition reduced (pts : list cinfo) (m m' : list nat) : Prop :=
  sub m' m /\ m' <> [] /\ (length m' <= 4)%nat /\ ForallOrdPairs (apart pts) m'.

Lemma reduce_manifold_ok : forall top rot pts m, valid pts m -> m <> [] -> exists m', reduce_manifold top rot pts m = Ok m' /\ reduced pts m m'.
Proof.
  intros top rot pts m V N. unfold reduce_manifold, max_points.
  assert (K : exists m1, (if Nat.ltb 4 (length m) then reduce_points top rot pts m else Ok m) = Ok m1 /\ sub m1 m /\ m1 <> [] /\ (length m1 <= 4)%nat).
  { destruct (Nat.ltb_spec 4 (length m)) as [C|C].
    - destruct (reduce_points_ok top rot pts m V C) as (k1 & k2 & k3 & k4 & m1 & m2 & m3 & m4 & -> & P1 & P2 & P3 & P4 & _).
      exists [k1; k2; k3; k4]. split; [reflexivity|]. split; [|split; [discriminate|cbn; lia]]. exists m4. cbn [app].
      rewrite <- P1. apply perm_skip. rewrite <- P2. apply perm_skip. rewrite <- P3. apply perm_skip. exact P4.
    - exists m. repeat split; auto. apply sub_refl. }
  destruct K as (m1 & -> & S1 & N1 & L1). cbn [bind].
  assert (V1 : valid pts m1) by (unfold valid in *; rewrite Forall_forall in *; intros k I; apply V; eapply sub_in; eassumption).
  destruct (remove_duplicates_ok pts m1 V1) as (m' & rem & -> & P & F1 & F2). exists m'. split; [reflexivity|].
  assert (S2 : sub m' m1) by (exists rem; exact P). split; [eapply sub_trans; eassumption|]. split; [|split; [|exact F1]].
  - intros ->. cbn [app] in P. apply Permutation_length in P. destruct rem as [|r rem]; [destruct m1; [congruence|discriminate]|].
    inversion F2 as [|? ? H _]; subst. inversion H.
  - apply Permutation_length in P. rewrite app_length in P. lia.
Qed.

Lemma reduce_ids_ok : forall top rot pts ids mans, NoDup ids -> (forall k, In k ids -> (k < length mans)%nat /\ valid pts (man mans k) /\ man mans k <> []) ->
  exists mans', reduce_ids top rot pts ids mans = Ok mans' /\ length mans' = length mans /\
    (forall k, ~ In k ids -> man mans' k = man mans k) /\ (forall k, In k ids -> reduced pts (man mans k) (man mans' k)).
Proof.
  intros top rot pts. induction ids as [|k ids IH]; intros mans N H; cbn [reduce_ids].
  - exists mans. repeat split; auto; contradiction.
  - inversion N as [|? ? Nk Nl]; subst. destruct (H k (or_introl eq_refl)) as (B & V & M). rewrite get_man by exact B. cbn [bind].
    destruct (reduce_manifold_ok top rot pts (man mans k) V M) as (m' & -> & R'). cbn [bind].
    assert (MP : forall j, man (put mans k m') j = if Nat.eqb j k then m' else man mans j) by (intro; now apply man_put).
    destruct (IH (put mans k m') Nl) as (mans' & -> & L & O & F).
    { intros j J. rewrite put_length, MP. destruct (Nat.eqb_spec j k) as [->|D]; [contradiction|]. apply H. now right. }
    exists mans'. split; [reflexivity|]. rewrite put_length in L. split; [exact L|]. split.
    + intros j J. rewrite O by (intro; apply J; now right). rewrite MP. destruct (Nat.eqb_spec j k) as [->|D]; [exfalso; apply J; now left|reflexivity].
    + intros j [<-|J].
      * rewrite O by exact Nk. rewrite MP, Nat.eqb_refl. exact R'.
      * specialize (F j J). rewrite MP in F. destruct (Nat.eqb_spec j k) as [Ejk|D]; [exfalso; apply Nk; rewrite <- Ejk; exact J|exact F].
Qed.

Lemma reduce_all_ok : forall top rot pts l mans, NoDup (concat (map c_pots l)) ->
  (forall k, In k (concat (map c_pots l)) -> (k < length mans)%nat /\ valid pts (man mans k) /\ man mans k <> []) ->
  exists mans', reduce_all top rot pts l mans = Ok mans' /\ length mans' = length mans /\
    (forall k, ~ In k (concat (map c_pots l)) -> man mans' k = man mans k) /\
    (forall k, In k (concat (map c_pots l)) -> reduced pts (man mans k) (man mans' k)).
Proof.
  intros top rot pts. induction l as [|c l IH]; intros mans N H; cbn [reduce_all map concat].
  - exists mans. repeat split; auto; contradiction.
  - cbn [map concat] in N, H. apply nodup_parts in N as (N1 & N2 & D).
    destruct (reduce_ids_ok top (rot (c_k1 c)) pts (c_pots c) mans N1) as (m1 & -> & L1 & O1 & F1); [intros k K; apply H; apply in_or_app; now left|].
    cbn [bind]. destruct (IH m1 N2) as (m2 & -> & L2 & O2 & F2).
    { intros k K. rewrite L1. rewrite O1 by (intro J; exact (D k J K)). apply H. apply in_or_app. now right. }
    exists m2. split; [reflexivity|]. split; [congruence|]. split.
    + intros k K. rewrite O2 by (intro; apply K; apply in_or_app; now right). apply O1. intro; apply K; apply in_or_app; now left.
    + intros k K. apply in_app_or in K as [K|K].
      * rewrite O2 by (intro J; exact (D k K J)). now apply F1.
      * specialize (F2 k K). rewrite O1 in F2 by (intro J; exact (D k J K)). exact F2.
Qed.

Definition dropped (pts : list cinfo) (mans : list (list nat)) (c c' : cpair) : Prop :=
  c' = with_pots (c_pots c') c /\ (length (c_pots c') <= 4)%nat /\ (c_pots c <> [] -> c_pots c' <> []) /\
  exists rem, Permutation (c_pots c' ++ rem) (c_pots c) /\
    Forall (fun d => Forall (fun k => no_deeper pts (man mans d) (man mans k)) (c_pots c')) rem.

Lemma drop_all_ok : forall top pts mans l,
  (forall c k, In c l -> In k (c_pots c) -> (k < length mans)%nat /\ valid pts (man mans k) /\ man mans k <> []) ->
  (forall k, (k < length pts)%nat -> 0 < depth pts k < top) ->
  exists l', drop_all top pts mans l = Ok l' /\ Forall2 (dropped pts mans) l l'.
Proof.
  intros top pts mans l H D. induction l as [|c l IH]; cbn [drop_all].
  - exists []. split; [reflexivity|constructor].
  - assert (HD : forall k, In k (c_pots c) -> (forall j, In j (man mans k) -> depth pts j <= deepest pts (man mans k)) /\
                   exists j, In j (man mans k) /\ deepest pts (man mans k) = depth pts j).
    { intros k K. destruct (H c k (or_introl eq_refl) K) as (B & V & M). apply deepest_spec; [exact M|].
      intros j J. unfold valid in V. rewrite Forall_forall in V. apply D. now apply V. }
    destruct (drop_ok (length (c_pots c)) top pts mans (c_pots c)) as (ids & rem & -> & P & L & L4 & F).
    { unfold mvalid. rewrite Forall_forall. intros k K. destruct (H c k (or_introl eq_refl) K) as (B & V & M). auto. }
    { rewrite Forall_forall. intros k K. destruct (HD k K) as (_ & j & J & ->). destruct (H c k (or_introl eq_refl) K) as (B & V & M).
      unfold valid in V. rewrite Forall_forall in V. apply D. now apply V. }
    { lia. }
    cbn [bind]. destruct IH as (l' & -> & F2); [intros; eapply H; [right; eassumption|assumption]|]. cbn [bind].
    eexists. split; [reflexivity|]. constructor; [|exact F2]. split; [reflexivity|]. cbn [with_pots c_pots]. split; [exact L|]. split.
    + intros N E. subst ids. cbn [app] in P. destruct rem as [|r rem]; [|specialize (L4 ltac:(discriminate)); discriminate].
      apply Permutation_length in P. destruct (c_pots c); [congruence|discriminate].
    + exists rem. split; [exact P|]. rewrite Forall_forall in F |- *. intros d Id. specialize (F d Id). rewrite Forall_forall in F |- *. intros k Ik.
      intros j J. assert (Kd : In d (c_pots c)) by (eapply Permutation_in; [exact P|apply in_or_app; now right]).
      assert (Kk : In k (c_pots c)) by (eapply Permutation_in; [exact P|apply in_or_app; now left]).
      destruct (HD k Kk) as (_ & j' & J' & E'). exists j'. split; [exact J'|]. rewrite <- E'. destruct (HD d Kd) as (U & _).
      specialize (U j J). specialize (F k Ik). lra.
Qed.

(** * After the reduction *)
Record RInv (cosmin : R) (infos : list ninfo) (o : potential) : Prop := {
  R_mans : forall c k, In c (o_pairs o) -> In k (c_pots c) -> (k < length (o_mans o))%nat /\ valid (o_points o) (man (o_mans o) k) /\
             man (o_mans o) k <> [] /\ (length (man (o_mans o) k) <= 4)%nat /\ ForallOrdPairs (apart (o_points o)) (man (o_mans o) k);
  R_four : forall c, In c (o_pairs o) -> (length (c_pots c) <= 4)%nat;
  R_ids : NoDup (map c_id (o_pairs o));
  R_met : forall id, In id (map c_id (o_pairs o)) <-> met infos id;
  R_pts : forall c, In c (o_pairs o) -> sub (map (pt (o_points o)) (man_points o c)) (candidates infos (c_id c));
  R_some : forall c, In c (o_pairs o) -> candidates infos (c_id c) <> [] -> c_pots c <> [];
  R_np : forall c, In c (o_pairs o) -> c_np c = 0%nat;
  R_flags : forall c, In c (o_pairs o) -> exists i, In i infos /\ n_colliding i = true /\ with_pots [] c = new_pair i [];
  R_sim : forall c k, In c (o_pairs o) -> (exists i, In i infos /\ n_pair i = c_id c /\ n_convex i = false) -> In k (c_pots c) ->
            exists q, In q (candidates infos (c_id c)) /\ forall j, In j (man (o_mans o) k) -> pt (o_points o) j = q \/ cosmin <= vdot (i_n q) (i_n (pt (o_points o) j))
}.

Lemma Forall2_in_r : forall A B (P : A -> B -> Prop) l l' b, Forall2 P l l' -> In b l' -> exists a, In a l /\ P a b.
Proof. intros A B P l l' b F. induction F; intros I; [contradiction|]. destruct I as [->|I]; [exists x; split; [now left|assumption]|]. destruct (IHF I) as (a & J & K). exists a. split; [now right|exact K]. Qed.

Lemma Forall2_weaken : forall A B (P Q : A -> B -> Prop), (forall a b, P a b -> Q a b) -> forall l l', Forall2 P l l' -> Forall2 Q l l'.
Proof. intros A B P Q H l l' F. induction F; constructor; auto. Qed.

Lemma Forall2_len : forall A B (P : A -> B -> Prop) l l', Forall2 P l l' -> length l = length l'.
Proof. intros A B P l l' F. induction F; cbn; auto. Qed.

Lemma dropped_sub : forall pts mans l l', Forall2 (dropped pts mans) l l' -> sub (concat (map c_pots l')) (concat (map c_pots l)).
Proof.
  intros pts mans l l' F. induction F as [|c c' l l' (E & L & N & rem & P & _) F IH]; [apply sub_refl|]. cbn [map concat].
  destruct IH as (s & Q). exists (rem ++ s). rewrite <- P, <- Q. rewrite <- !app_assoc. apply Permutation_app_head. rewrite !app_assoc.
  apply Permutation_app_tail. apply Permutation_app_comm.
Qed.

Lemma dropped_ids : forall pts mans l l', Forall2 (dropped pts mans) l l' -> map c_id l' = map c_id l.
Proof. intros pts mans l l' F. induction F as [|c c' l l' (E & _) F IH]; [reflexivity|]. cbn [map]. rewrite IH. f_equal. rewrite E. reflexivity. Qed.

Lemma reduce_ok : forall cosmin top rot infos o, QInv cosmin top infos infos o -> exists o', reduce top rot o = Ok o' /\ RInv cosmin infos o' /\
  o_points o' = o_points o /\ length (o_pairs o') = length (o_pairs o).
Proof.
  intros cosmin top rot infos o Q. destruct Q as [[Pp Pm Pi Pt Ps Pn Pd Psim] Qd Qm Qc Qf]. unfold reduce.
  assert (LT : forall d k, In d (o_pairs o) -> In k (c_pots d) -> (k < length (o_mans o))%nat) by (intros; eapply pots_lt; eassumption).
  assert (N : NoDup (concat (map c_pots (o_pairs o)))) by (eapply Permutation_NoDup; [symmetry; exact Pp|apply seq_NoDup]).
  destruct (drop_all_ok top (o_points o) (o_mans o) (o_pairs o)) as (l' & -> & F).
  { intros c k Ic Ik. pose proof (LT c k Ic Ik) as B. destruct (Pm k B) as (A1 & A2 & A3). auto. }
  { intros k B. apply Pd. unfold pt. now apply nth_In. }
  cbn [bind]. pose proof (dropped_sub _ _ _ _ F) as SD. pose proof (dropped_ids _ _ _ _ F) as ED.
  destruct (reduce_all_ok top rot (o_points o) l' (o_mans o)) as (mans' & -> & L' & O' & F').
  { eapply sub_nodup; eassumption. }
  { intros k K. apply (sub_in _ _ _ k SD) in K. assert (B : In k (seq 0 (length (o_mans o)))) by (eapply Permutation_in; [exact Pp|exact K]).
    apply in_seq in B. destruct (Pm k) as (A1 & A2 & A3); [lia|]. repeat split; auto; lia. }
  cbn [bind]. eexists. split; [reflexivity|]. split; [|split; [reflexivity|]; cbn [o_pairs]; rewrite <- (map_length c_id l'), ED, map_length; reflexivity].
  assert (RED : forall c' k, In c' l' -> In k (c_pots c') -> exists c, In c (o_pairs o) /\ dropped (o_points o) (o_mans o) c c' /\ In k (c_pots c) /\
            (k < length (o_mans o))%nat /\ reduced (o_points o) (man (o_mans o) k) (man mans' k)).
  { intros c' k Ic' Ik. destruct (Forall2_in_r _ _ _ _ _ _ F Ic') as (c & Ic & D). exists c.
    assert (J : In k (c_pots c)). { destruct D as (_ & _ & _ & rem & P & _). eapply Permutation_in; [exact P|]. apply in_or_app. now left. }
    split; [exact Ic|]. split; [exact D|]. split; [exact J|]. split; [eauto|]. apply F'. apply in_concat. exists (c_pots c'). split; [now apply in_map|exact Ik]. }
  constructor; cbn [o_points o_mans o_pairs].
  - intros c' k Ic' Ik. destruct (RED c' k Ic' Ik) as (c & Ic & D & J & B & (S1 & S2 & S3 & S4)). rewrite L'. destruct (Pm k B) as (A1 & A2 & A3).
    split; [exact B|]. split; [|auto]. unfold valid in *. rewrite Forall_forall in *. intros j Jj. apply A3. eapply sub_in; eassumption.
  - intros c' Ic'. destruct (Forall2_in_r _ _ _ _ _ _ F Ic') as (c & Ic & (_ & L & _)). exact L.
  - rewrite ED. exact Pi.
  - intro id. rewrite ED. apply Qd.
  - intros c' Ic'. destruct (Forall2_in_r _ _ _ _ _ _ F Ic') as (c & Ic & (E & _ & _ & rem & P & _)).
    assert (Ei : c_id c' = c_id c) by (rewrite E; reflexivity). rewrite Ei. apply (sub_trans _ _ (map (pt (o_points o)) (man_points o c))); [|exact (Pt c Ic)].
    apply sub_map. unfold man_points. cbn [o_mans]. apply (sub_trans _ _ (concat (map (man (o_mans o)) (c_pots c')))).
    + apply sub_pointwise. intros k Ik. destruct (RED c' k Ic' Ik) as (d & _ & _ & _ & _ & (S1 & _)). exact S1.
    + apply sub_concat. exists rem. exact P.
  - intros c' Ic'. destruct (Forall2_in_r _ _ _ _ _ _ F Ic') as (c & Ic & (E & _ & NE & _)). assert (Ei : c_id c' = c_id c) by (rewrite E; reflexivity).
    rewrite Ei. intros H. apply NE. exact (Ps c Ic H).
  - intros c' Ic'. destruct (Forall2_in_r _ _ _ _ _ _ F Ic') as (c & Ic & (E & _)). rewrite E. exact (Pn c Ic).
  - intros c' Ic'. destruct (Forall2_in_r _ _ _ _ _ _ F Ic') as (c & Ic & (E & _)). destruct (Qf c Ic) as (i & I1 & I2 & I3). exists i.
    split; [exact I1|]. split; [exact I2|]. rewrite E. exact I3.
  - intros c' k Ic' Cc Ik. destruct (RED c' k Ic' Ik) as (c & Ic & (E & _) & J & B & (S1 & S2 & S3 & S4)).
    assert (Ei : c_id c' = c_id c) by (rewrite E; reflexivity). rewrite Ei in Cc |- *. destruct (Pm k B) as (A1 & A2 & A3).
    exists (pt (o_points o) (hd 0%nat (man (o_mans o) k))). split.
    + apply (sub_in _ _ _ _ (Pt c Ic)). apply in_map. unfold man_points. apply in_concat. exists (man (o_mans o) k). split; [now apply in_map|].
      destruct (man (o_mans o) k); [congruence|now left].
    + intros j Jj. destruct (Psim c Ic Cc k J j) as [->|H]; [eapply sub_in; eassumption|now left|now right].
Qed.

(** * Creating the contacts *)
Lemma window_grow : forall A (l x : list A) p n, (p + n <= length l)%nat -> firstn n (skipn p (l ++ x)) = firstn n (skipn p l).
Proof.
  intros A l x p n H. rewrite skipn_app, firstn_app, skipn_length. replace (n - (length l - p))%nat with 0%nat by lia. now rewrite firstn_O, app_nil_r.
Qed.

Lemma window_mid : forall A (a b c : list A), firstn (length b) (skipn (length a) (a ++ b ++ c)) = b.
Proof. intros. rewrite skipn_app, skipn_all, Nat.sub_diag. cbn [app skipn]. rewrite firstn_app, firstn_all, Nat.sub_diag. cbn. apply app_nil_r. Qed.

Lemma get_all_ok : forall pts m, valid pts m -> get_all pts m = Ok (map (pt pts) m).
Proof.
  intros pts. induction m as [|k m IH]; intros V; [reflexivity|]. inversion V; subst. cbn [get_all map]. rewrite (get_ok _ pts k (CInfo vzero vzero vzero 0)) by assumption.
  cbn [bind]. rewrite IH by assumption. reflexivity.
Qed.

Definition fresh (pts : list cinfo) (m : list nat) : list dpoint := map (fun j => new_point (pt pts j)) m.
Definition man_shown (o : potential) (k1 k2 : nat) (pts : list dpoint) (k : nat) (m : dman) : Prop :=
  y_k1 m = k1 /\ y_k2 m = k2 /\ (y_p0 m + y_np m <= length pts)%nat /\ firstn (y_np m) (skipn (y_p0 m) pts) = fresh (o_points o) (man (o_mans o) k) /\
  m = DMan k1 k2 (y_p0 m) (y_np m) vzero vzero 0 0 0.

Lemma man_shown_grow : forall o k1 k2 pts x k m, man_shown o k1 k2 pts k m -> man_shown o k1 k2 (pts ++ x) k m.
Proof. intros o k1 k2 pts x k m (A1 & A2 & A3 & A4 & A5). repeat split; auto; [rewrite app_length; lia|]. rewrite window_grow by exact A3. exact A4. Qed.

Definition all_fresh (o : potential) (ids : list nat) : list dpoint := concat (map (fun k => fresh (o_points o) (man (o_mans o) k)) ids).

Lemma create_manifolds_ok : forall o k1 k2 ids mans pts np,
  (forall k, In k ids -> (k < length (o_mans o))%nat /\ valid (o_points o) (man (o_mans o) k)) ->
  exists M, create_manifolds o k1 k2 ids mans pts np = Ok (mans ++ M, pts ++ all_fresh o ids, (np + length (all_fresh o ids))%nat) /\
    Forall2 (man_shown o k1 k2 (pts ++ all_fresh o ids)) ids M.
Proof.
  intros o k1 k2. induction ids as [|k ids IH]; intros mans pts np H; cbn [create_manifolds].
  - exists []. cbn. rewrite !app_nil_r, Nat.add_0_r. split; [reflexivity|constructor].
  - destruct (H k (or_introl eq_refl)) as (B & V). rewrite get_man by exact B. cbn [bind]. rewrite get_all_ok by exact V. cbn [bind].
    destruct (IH (mans ++ [DMan k1 k2 (length pts) (length (man (o_mans o) k)) vzero vzero 0 0 0]) (pts ++ map new_point (map (pt (o_points o)) (man (o_mans o) k)))
               (np + length (man (o_mans o) k))%nat) as (M & -> & F); [intros j J; apply H; now right|].
    rewrite map_map in *. change (map (fun x => new_point (pt (o_points o) x)) (man (o_mans o) k)) with (fresh (o_points o) (man (o_mans o) k)) in *.
    assert (LF : length (fresh (o_points o) (man (o_mans o) k)) = length (man (o_mans o) k)) by (unfold fresh; apply map_length).
    exists (DMan k1 k2 (length pts) (length (man (o_mans o) k)) vzero vzero 0 0 0 :: M).
    unfold all_fresh in *. cbn [map concat]. rewrite <- !app_assoc in *. cbn [app]. rewrite app_length, LF. split; [now rewrite Nat.add_assoc|].
    constructor; [|exact F]. unfold man_shown. cbn [y_k1 y_k2 y_p0 y_np]. repeat split.
    + rewrite !app_length. lia.
    + rewrite <- LF at 1. apply window_mid.
Qed.

Definition shown (o : potential) (f : frame) (c : cpair) : Prop :=
  (c_m0 c + c_nm c <= length (f_mans f))%nat /\ (c_p0 c + c_np c <= length (f_points f))%nat /\
  points_of f c = all_fresh o (c_pots c) /\ Forall2 (man_shown o (c_k1 c) (c_k2 c) (f_points f)) (c_pots c) (manifolds_of f c).

Lemma shown_grow : forall o f c P M pairs, shown o f c -> shown o (Frame pairs (f_mans f ++ M) (f_points f ++ P)) c.
Proof.
  intros o f c P M pairs (A1 & A2 & A3 & A4). unfold shown, points_of, manifolds_of in *. cbn [f_mans f_points].
  rewrite !window_grow by assumption. rewrite !app_length. repeat split; [lia|lia|exact A3|].
  revert A4. apply Forall2_weaken. intros k m S. now apply man_shown_grow.
Qed.

Definition placed (o : potential) (f : frame) (c c' : cpair) : Prop := shown o f c' /\ exists m0 nm p0 np, c' = with_ranges m0 nm p0 np c.

Definition disjoint (c d : cpair) : Prop :=
  (c_m0 c + c_nm c <= c_m0 d \/ c_m0 d + c_nm d <= c_m0 c)%nat /\ (c_p0 c + c_np c <= c_p0 d \/ c_p0 d + c_np d <= c_p0 c)%nat.
Definition man_in (n : nat) (m : dman) : Prop := (0 < y_np m /\ y_p0 m + y_np m <= n)%nat.

Lemma man_in_grow : forall n k l, (n <= k)%nat -> Forall (man_in n) l -> Forall (man_in k) l.
Proof. intros n k l H. apply Forall_impl. unfold man_in. intros m M. lia. Qed.

Lemma create_ok : forall o order f, NoDup order ->
  (forall x, In x order -> exists c, nth_error (f_pairs f) x = Some c /\ c_np c = 0%nat /\
     forall k, In k (c_pots c) -> (k < length (o_mans o))%nat /\ valid (o_points o) (man (o_mans o) k) /\ man (o_mans o) k <> []) ->
  Forall (man_in (length (f_points f))) (f_mans f) ->
  exists f', create o order f = Ok f' /\ length (f_pairs f') = length (f_pairs f) /\
    (exists M P, f_mans f' = f_mans f ++ M /\ f_points f' = f_points f ++ P) /\
    (forall x, ~ In x order -> nth_error (f_pairs f') x = nth_error (f_pairs f) x) /\
    (forall x c, In x order -> nth_error (f_pairs f) x = Some c -> exists c', nth_error (f_pairs f') x = Some c' /\ placed o f' c c' /\
       (length (f_mans f) <= c_m0 c')%nat /\ (length (f_points f) <= c_p0 c')%nat) /\
    (forall x y c d, In x order -> In y order -> x <> y -> nth_error (f_pairs f') x = Some c -> nth_error (f_pairs f') y = Some d -> disjoint c d) /\
    Forall (man_in (length (f_points f'))) (f_mans f').
Proof.
  intros o. induction order as [|x order IH]; intros f N H FM; cbn [create].
  - exists f. split; [reflexivity|]. split; [reflexivity|]. split; [exists [], []; now rewrite !app_nil_r|]. split; [reflexivity|]. split; [contradiction|]. split; [contradiction|exact FM].
  - inversion N as [|? ? Nx Nl]; subst. destruct (H x (or_introl eq_refl)) as (c & X & NP & V).
    assert (Bx : (x < length (f_pairs f))%nat) by (apply nth_error_Some; rewrite X; discriminate).
    assert (G : get (f_pairs f) x = Ok c) by (unfold get, rd; now rewrite X). rewrite G. cbn [bind].
    destruct (create_manifolds_ok o (c_k1 c) (c_k2 c) (c_pots c) (f_mans f) (f_points f) (c_np c)) as (M & -> & F); [intros k K; destruct (V k K) as (? & ? & _); auto|].
    cbn [bind]. rewrite NP. cbn [Nat.add].
    set (c1 := with_ranges (length (f_mans f)) (length (c_pots c)) (length (f_points f)) (length (all_fresh o (c_pots c))) c).
    set (f1 := Frame (put (f_pairs f) x c1) (f_mans f ++ M) (f_points f ++ all_fresh o (c_pots c))).
    pose proof (Forall2_len _ _ _ _ _ F) as LM.
    assert (S1 : shown o f1 c1).
    { unfold shown, points_of, manifolds_of, f1, c1. cbn [f_mans f_points with_ranges c_m0 c_nm c_p0 c_np c_pots c_k1 c_k2]. rewrite !app_length.
      repeat split; [lia|lia| |].
      - pose proof (window_mid _ (f_points f) (all_fresh o (c_pots c)) []) as W. now rewrite app_nil_r in W.
      - rewrite LM. pose proof (window_mid _ (f_mans f) M []) as W. rewrite app_nil_r in W. rewrite W. exact F. }
    assert (FM1 : Forall (man_in (length (f_points f1))) (f_mans f1)).
    { unfold f1. cbn [f_points f_mans]. apply Forall_app. split; [apply (man_in_grow (length (f_points f))); [rewrite app_length; lia|exact FM]|].
      rewrite Forall_forall. intros m Im. destruct (Forall2_in_r _ _ _ _ _ _ F Im) as (k & Ik & (A1 & A2 & A3 & A4 & _)). split; [|exact A3].
      destruct (V k Ik) as (_ & _ & NE). destruct (y_np m) eqn:Ey; [|lia]. exfalso. cbn [firstn] in A4. unfold fresh in A4. symmetry in A4. apply map_eq_nil in A4. contradiction. }
    destruct (IH f1 Nl) as (f' & E & L & (M2 & P2 & EM & EP) & O & S & DJ & FM').
    { intros y Y. destruct (H y (or_intror Y)) as (d & Yd & R). exists d. split; [|exact R]. unfold f1. cbn [f_pairs].
      rewrite nth_error_put by exact Bx. destruct (Nat.eqb_spec y x) as [Eyx|D]; [exfalso; apply Nx; now rewrite <- Eyx|exact Yd]. }
    { exact FM1. }
    assert (OLD : forall y, y <> x -> nth_error (f_pairs f1) y = nth_error (f_pairs f) y).
    { intros y D. unfold f1. cbn [f_pairs]. rewrite nth_error_put by exact Bx. destruct (Nat.eqb_spec y x); [congruence|reflexivity]. }
    assert (NEW : nth_error (f_pairs f') x = Some c1).
    { rewrite O by exact Nx. unfold f1. cbn [f_pairs]. rewrite nth_error_put by exact Bx. now rewrite Nat.eqb_refl. }
    assert (LATER : forall y d, In y order -> nth_error (f_pairs f') y = Some d -> (length (f_mans f1) <= c_m0 d)%nat /\ (length (f_points f1) <= c_p0 d)%nat).
    { intros y d Y Yd. assert (D : y <> x) by (intros ->; contradiction). destruct (H y (or_intror Y)) as (d0 & Y0 & _).
      destruct (S y d0 Y) as (d' & Yd' & _ & B1 & B2); [rewrite OLD by exact D; exact Y0|]. assert (d' = d) by congruence. subst d'. auto. }
    exists f'. split; [exact E|]. split; [rewrite L; unfold f1; cbn [f_pairs]; apply put_length|]. split; [|split; [|split; [|split]]].
    + exists (M ++ M2), (all_fresh o (c_pots c) ++ P2). rewrite EM, EP. unfold f1. cbn [f_mans f_points]. now rewrite !app_assoc.
    + intros y Y. rewrite O by (intro; apply Y; now right). apply OLD. intros ->. apply Y. now left.
    + intros y d Y Yd. destruct (Nat.eq_dec y x) as [->|D].
      * assert (d = c) by congruence. subst d. exists c1. split; [exact NEW|].
        split; [|unfold c1; cbn; lia]. split; [|unfold c1; eauto 6]. destruct f' as [fp fm ft]. cbn [f_mans f_points] in EM, EP. subst fm ft. now apply shown_grow.
      * destruct Y as [Y|Y]; [congruence|]. destruct (S y d Y) as (d' & A1 & A2 & A3 & A4); [rewrite OLD by exact D; exact Yd|].
        exists d'. split; [exact A1|]. split; [exact A2|]. unfold f1 in A3, A4. cbn [f_mans f_points] in A3, A4. rewrite app_length in A3, A4. lia.
    + destruct S1 as (B1 & B2 & _). intros y z d e Y Z D Yd Ze. destruct (Nat.eq_dec y x) as [->|Dy]; destruct (Nat.eq_dec z x) as [->|Dz]; [congruence| | |].
      * assert (d = c1) by congruence. subst d. destruct Z as [Z|Z]; [congruence|]. destruct (LATER z e Z Ze). split; left; lia.
      * assert (e = c1) by congruence. subst e. destruct Y as [Y|Y]; [congruence|]. destruct (LATER y d Y Yd). split; right; lia.
      * destruct Y as [Y|Y]; [congruence|]. destruct Z as [Z|Z]; [congruence|]. exact (DJ y z d e Y Z D Yd Ze).
    + exact FM'.
Qed.

(** * All together *)
Lemma contacts_ok : forall top cosmin rot infos order, well_formed top infos -> NoDup order ->
  (forall x, In x order -> (x < length (nodup Z.eq_dec (map n_pair (filter n_colliding infos))))%nat) ->
  exists f o, contacts top cosmin rot infos order = Ok f /\ RInv cosmin infos o /\ length (f_pairs f) = length (o_pairs o) /\
    (forall x, ~ In x order -> nth_error (f_pairs f) x = nth_error (o_pairs o) x) /\
    (forall x c, In x order -> nth_error (o_pairs o) x = Some c -> exists c', nth_error (f_pairs f) x = Some c' /\ placed o f c c') /\
    (forall x y c d, In x order -> In y order -> x <> y -> nth_error (f_pairs f) x = Some c -> nth_error (f_pairs f) y = Some d -> disjoint c d) /\
    Forall (man_in (length (f_points f))) (f_mans f).
Proof.
  intros top cosmin rot infos order W N B. unfold contacts. destruct (process_all cosmin top infos W) as (o & -> & Q). cbn [bind].
  destruct (reduce_ok cosmin top rot infos o Q) as (o' & -> & RI & _). cbn [bind].
  assert (LEN : length (nodup Z.eq_dec (map n_pair (filter n_colliding infos))) = length (map c_id (o_pairs o'))).
  { apply Permutation_length. apply NoDup_Permutation; [apply NoDup_nodup|exact (R_ids _ _ _ RI)|]. intro id. rewrite nodup_In, (R_met _ _ _ RI id), in_map_iff. unfold met. split.
    - intros (i & E & I). apply filter_In in I as (I & C). eauto.
    - intros (i & I & C & E). exists i. split; [exact E|]. now apply filter_In. }
  rewrite map_length in LEN. destruct (create_ok o' order (Frame (o_pairs o') [] []) N) as (f & E & L & _ & O & S & DF).
  { intros x X. specialize (B x X). rewrite LEN in B. cbn [f_pairs]. destruct (nth_error (o_pairs o') x) as [c|] eqn:Ec; [|apply nth_error_None in Ec; lia].
    exists c. split; [reflexivity|]. apply nth_error_In in Ec. split; [exact (R_np _ _ _ RI c Ec)|]. intros k K. destruct (R_mans _ _ _ RI c k Ec K) as (A1 & A2 & A3 & _). auto. }
  { constructor. }
  exists f, o'. cbn [f_pairs] in *. split; [exact E|]. split; [exact RI|]. split; [exact L|]. split; [exact O|]. split; [|exact DF].
  intros x c X Xc. destruct (S x c X Xc) as (c' & A1 & A2 & _). eauto.
Qed.
