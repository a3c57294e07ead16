From Coq Require Import List ZArith Reals Lra Lia Permutation Bool Arith.
From Verif Require Import Base VecModel VecProofs ManifoldModel ManifoldSpec ManifoldProofs.
Import ListNotations.
Local Open Scope R_scope.

(** * Points and manifolds under growth *)
Lemma pt_old : forall pts l k, (k < length pts)%nat -> pt (pts ++ l) k = pt pts k.
Proof. intros. unfold pt. now apply app_nth1. Qed.

Lemma pt_new : forall pts e l, pt (pts ++ e :: l) (length pts) = e.
Proof. intros. unfold pt. rewrite app_nth2, Nat.sub_diag by lia. reflexivity. Qed.

Lemma valid_grow : forall pts l m, valid pts m -> valid (pts ++ l) m.
Proof. intros pts l m V. eapply Forall_impl; [|exact V]. cbn. intros k K. rewrite app_length. lia. Qed.

Lemma map_pt_old : forall pts l m, valid pts m -> map (pt (pts ++ l)) m = map (pt pts) m.
Proof. intros pts l m V. apply map_ext_in. intros k I. apply pt_old. unfold valid in V. rewrite Forall_forall in V. now apply V. Qed.

Lemma man_old : forall mans l k, (k < length mans)%nat -> man (mans ++ l) k = man mans k.
Proof. intros. unfold man. now apply app_nth1. Qed.

Lemma man_new : forall mans m l, man (mans ++ m :: l) (length mans) = m.
Proof. intros. unfold man. rewrite app_nth2, Nat.sub_diag by lia. reflexivity. Qed.

Lemma man_put : forall mans j m k, (j < length mans)%nat -> man (put mans j m) k = if Nat.eqb k j then m else man mans k.
Proof.
  unfold man. induction mans as [|a mans IH]; intros [|j] m [|k] H; cbn in *; try lia; try reflexivity.
  apply IH. lia.
Qed.

Lemma nth_error_put : forall A (l : list A) j x k, (j < length l)%nat -> nth_error (put l j x) k = if Nat.eqb k j then Some x else nth_error l k.
Proof.
  induction l as [|a l IH]; intros [|j] x [|k] H; cbn in *; try lia; try reflexivity.
  apply IH. lia.
Qed.

Lemma nodup_parts : forall A (l m : list A), NoDup (l ++ m) -> NoDup l /\ NoDup m /\ (forall k, In k l -> In k m -> False).
Proof.
  induction l as [|a l IH]; intros m N; cbn in N.
  - repeat split; [constructor|exact N|intros k []].
  - inversion N as [|? ? Na Nl]; subst. destruct (IH m Nl) as (A1 & A2 & A3). split; [|split; [exact A2|]].
    + constructor; [|exact A1]. intros I. apply Na. apply in_or_app. now left.
    + intros k [->|I] I2; [apply Na; apply in_or_app; now right|eauto].
Qed.

Lemma NoDup_concat_place : forall A (f : A -> list nat) l x y a b k, NoDup (concat (map f l)) -> nth_error l x = Some a -> nth_error l y = Some b ->
  In k (f a) -> In k (f b) -> x = y.
Proof.
  intros A f. induction l as [|c l IH]; intros x y a b k N X Y Ia Ib; [destruct x; discriminate|].
  cbn [map concat] in N.
  assert (D : forall j z d, nth_error l z = Some d -> In j (f d) -> ~ In j (f c)).
  { intros j z d Z I I'. apply nodup_parts in N as (_ & _ & N). apply (N j I'). apply in_concat. exists (f d). split; [|exact I].
    apply in_map. eapply nth_error_In; eassumption. }
  destruct x as [|x], y as [|y]; cbn [nth_error] in X, Y; auto.
  - inversion X; subst. exfalso. exact (D k y b Y Ib Ia).
  - inversion Y; subst. exfalso. exact (D k x a X Ia Ib).
  - f_equal. eapply IH; eauto. now apply nodup_parts in N as (_ & N & _).
Qed.

Lemma concat_map_grow : forall (f f' : nat -> list nat) l j k, NoDup l -> In j l -> (forall i, i <> j -> f' i = f i) -> f' j = f j ++ [k] ->
  Permutation (concat (map f' l)) (k :: concat (map f l)).
Proof.
  intros f f' l j k N I O E. induction l as [|a l IH]; [contradiction|]. inversion N as [|? ? Na Nl]; subst. cbn [map concat].
  destruct (Nat.eq_dec a j) as [->|D].
  - rewrite E. assert (M : map f' l = map f l) by (apply map_ext_in; intros i Ii; apply O; intros ->; contradiction). rewrite M.
    rewrite <- app_assoc. symmetry. apply Permutation_middle.
  - rewrite (O a D). destruct I as [I|I]; [contradiction|]. rewrite (IH Nl I). symmetry. apply Permutation_middle.
Qed.

(** * The invariant of the grouping; [cand] lists the contact points met so far for every pair, [conc] tells the pairs with a concave shape *)
Definition man_points (o : potential) (c : cpair) : list nat := concat (map (man (o_mans o)) (c_pots c)).
Definition alike_in (cosmin : R) (pts : list cinfo) (m : list nat) : Prop :=
  forall k, In k m -> k = hd 0%nat m \/ cosmin <= vdot (i_n (pt pts (hd 0%nat m))) (i_n (pt pts k)).

Record PInv (cosmin top : R) (conc : Z -> Prop) (cand : Z -> list cinfo) (o : potential) : Prop := {
  P_perm : Permutation (concat (map c_pots (o_pairs o))) (seq 0 (length (o_mans o)));
  P_mans : forall k, (k < length (o_mans o))%nat -> man (o_mans o) k <> [] /\ (length (man (o_mans o) k) <= 255)%nat /\ valid (o_points o) (man (o_mans o) k);
  P_ids : NoDup (map c_id (o_pairs o));
  P_pts : forall c, In c (o_pairs o) -> exists rest, Permutation (map (pt (o_points o)) (man_points o c) ++ rest) (cand (c_id c));
  P_some : forall c, In c (o_pairs o) -> cand (c_id c) <> [] -> c_pots c <> [];
  P_np : forall c, In c (o_pairs o) -> c_np c = 0%nat;
  P_depth : forall p, In p (o_points o) -> 0 < i_depth p < top;
  P_sim : forall c, In c (o_pairs o) -> conc (c_id c) -> forall k, In k (c_pots c) -> alike_in cosmin (o_points o) (man (o_mans o) k)
}.

Lemma pots_lt : forall o c k, Permutation (concat (map c_pots (o_pairs o))) (seq 0 (length (o_mans o))) -> In c (o_pairs o) -> In k (c_pots c) ->
  (k < length (o_mans o))%nat.
Proof.
  intros o c k P I K. assert (In k (seq 0 (length (o_mans o)))) as H.
  { eapply Permutation_in; [exact P|]. apply in_concat. exists (c_pots c). split; [now apply in_map|exact K]. }
  apply in_seq in H. lia.
Qed.

Lemma pots_nodup : forall (l : list cpair) c, NoDup (concat (map c_pots l)) -> In c l -> NoDup (c_pots c).
Proof.
  induction l as [|a l IH]; intros c N I; [contradiction|]. cbn [map concat] in N. apply nodup_parts in N as (N1 & N2 & _).
  destruct I as [->|I]; auto.
Qed.

Lemma similar_ok : forall cosmin pts mans ids n, (forall k, In k ids -> (k < length mans)%nat /\ man mans k <> [] /\ valid pts (man mans k)) ->
  exists r, similar_manifold cosmin pts mans ids n = Ok r /\
    match r with
    | Some k => In k ids /\ (length (man mans k) < 255)%nat /\ cosmin <= vdot (i_n (pt pts (hd 0%nat (man mans k)))) n
    | None => True
    end.
Proof.
  induction ids as [|k ids IH]; intros n V; cbn [similar_manifold].
  - exists None. auto.
  - destruct (V k (or_introl eq_refl)) as (V1 & V2 & V3). rewrite get_man by assumption. cbn [bind].
    destruct (IH n) as (r & Hr & Sr); [intros j J; apply V; now right|].
    assert (K : exists r0, similar_manifold cosmin pts mans ids n = Ok r0 /\ match r0 with Some k0 => In k0 (k :: ids) /\ (length (man mans k0) < 255)%nat /\
       cosmin <= vdot (i_n (pt pts (hd 0%nat (man mans k0)))) n | None => True end).
    { exists r. split; [exact Hr|]. destruct r; [|exact I]. destruct Sr as (S1 & S2 & S3). split; [now right|]. auto. }
    unfold max_potential_points. destruct (Nat.ltb_spec (length (man mans k)) 255) as [C|C]; [|exact K].
    assert (HG : get (man mans k) 0 = Ok (hd 0%nat (man mans k))) by (destruct (man mans k); [congruence|reflexivity]).
    rewrite HG. cbn [bind]. assert (HV : (hd 0 (man mans k) < length pts)%nat) by (destruct (man mans k); [congruence|]; inversion V3; assumption).
    rewrite (get_pt pts _ HV). cbn [bind]. destruct (rle cosmin _) eqn:E; [|exact K].
    apply rle_true in E. exists (Some k). split; [reflexivity|]. split; [now left|]. split; [exact C|exact E].
Qed.

Definition cand_add (id : Z) (l : list cinfo) (cand : Z -> list cinfo) : Z -> list cinfo :=
  fun i => if Z.eqb i id then cand i ++ l else cand i.

Lemma ids_unique : forall (l : list cpair) a b, NoDup (map c_id l) -> In a l -> In b l -> c_id a = c_id b -> a = b.
Proof.
  induction l as [|c l IH]; intros a b N Ia Ib E; [contradiction|]. cbn in N. inversion N as [|? ? Nc Nl]; subst.
  destruct Ia as [->|Ia], Ib as [->|Ib]; auto.
  - exfalso. apply Nc. rewrite E. now apply in_map.
  - exfalso. apply Nc. rewrite <- E. now apply in_map.
Qed.

Lemma man_points_valid : forall o c, (forall k, In k (c_pots c) -> valid (o_points o) (man (o_mans o) k)) -> valid (o_points o) (man_points o c).
Proof.
  intros o c H. unfold man_points. unfold valid. rewrite Forall_forall. intros k I. apply in_concat in I as (m & Im & Ik).
  apply in_map_iff in Im as (j & <- & Ij). specialize (H j Ij). unfold valid in H. rewrite Forall_forall in H. now apply H.
Qed.

Lemma alike_grow : forall cosmin pts l m, valid pts m -> m <> [] -> alike_in cosmin pts m -> alike_in cosmin (pts ++ l) m.
Proof.
  intros cosmin pts l m V N A k I. unfold valid in V. rewrite Forall_forall in V. rewrite !pt_old; [apply A; exact I|now apply V|].
  apply V. destruct m; [congruence|now left].
Qed.

Lemma add_point_ok : forall cosmin top conc cand o x c e, PInv cosmin top conc cand o -> nth_error (o_pairs o) x = Some c -> 0 < i_depth e < top ->
  exists o' c', add_point cosmin x o e = Ok o' /\ PInv cosmin top conc (cand_add (c_id c) [e] cand) o' /\ nth_error (o_pairs o') x = Some c' /\
    c' = with_pots (c_pots c') c /\ map (fun d => with_pots [] d) (o_pairs o') = map (fun d => with_pots [] d) (o_pairs o) /\ o_map o' = o_map o.
Proof.
  intros cosmin top conc cand o x c e I X D. destruct I as [Pp Pm Pi Pt Ps Pn Pd Psim]. unfold add_point.
  assert (Ic : In c (o_pairs o)) by (eapply nth_error_In; eassumption).
  assert (N : NoDup (concat (map c_pots (o_pairs o)))) by (eapply Permutation_NoDup; [symmetry; exact Pp|apply seq_NoDup]).
  assert (LT : forall d k, In d (o_pairs o) -> In k (c_pots d) -> (k < length (o_mans o))%nat) by (intros; eapply pots_lt; eassumption).
  unfold get at 1, rd. rewrite X. cbn [bind]. set (pts := o_points o) in *. set (k := length pts).
  assert (D' : forall p, In p (pts ++ [e]) -> 0 < i_depth p < top) by (intros p Ip; apply in_app_or in Ip as [Ip|[<-|[]]]; auto).
  destruct (similar_ok cosmin (pts ++ [e]) (o_mans o) (c_pots c) (i_n e)) as (r & -> & Sr).
  { intros j Ij. destruct (Pm j (LT c j Ic Ij)) as (A1 & A2 & A3). split; [eauto|]. split; [exact A1|]. now apply valid_grow. }
  cbn [bind]. destruct r as [j|].
  - destruct Sr as (Ij & Lj & Sj). pose proof (LT c j Ic Ij) as Bj. rewrite get_man by exact Bj. cbn [bind].
    destruct (Pm j Bj) as (A1 & A2 & A3).
    eexists _, c. split; [reflexivity|]. split; [|cbn [o_pairs o_map]; repeat split; auto; destruct c; reflexivity].
    set (mans' := put (o_mans o) j (man (o_mans o) j ++ [k])).
    assert (MP : forall i, man mans' i = if Nat.eqb i j then man (o_mans o) j ++ [k] else man (o_mans o) i) by (intro; unfold mans'; now apply man_put).
    constructor; cbn [o_points o_mans o_pairs].
    + unfold mans'. rewrite put_length. exact Pp.
    + intros i Bi. rewrite MP. unfold mans' in Bi. rewrite put_length in Bi. destruct (Nat.eqb_spec i j) as [->|Dj].
      * repeat split; [intro Z; apply app_eq_nil in Z as [_ Z]; discriminate|rewrite app_length; cbn [length]; lia|].
        apply valid_app. split; [now apply valid_grow|]. constructor; [|constructor]. unfold k. rewrite app_length. cbn [length]. lia.
      * destruct (Pm i Bi) as (B1 & B2 & B3). repeat split; auto. now apply valid_grow.
    + exact Pi.
    + intros d Id. destruct (Pt d Id) as (rest & Pr). unfold cand_add. destruct (Z.eqb_spec (c_id d) (c_id c)) as [E|E].
      * assert (d = c) by (eapply ids_unique; eassumption). subst d. exists rest. unfold man_points. cbn [o_mans].
        assert (PG : Permutation (concat (map (man mans') (c_pots c))) (k :: concat (map (man (o_mans o)) (c_pots c)))).
        { apply (concat_map_grow (man (o_mans o)) (man mans') (c_pots c) j k); [eapply pots_nodup; eassumption|exact Ij| |].
          - intros i Di. rewrite MP. destruct (Nat.eqb_spec i j); [contradiction|reflexivity].
          - rewrite MP, Nat.eqb_refl. reflexivity. }
        rewrite PG. cbn [map]. unfold k at 1. fold pts. rewrite pt_new.
        rewrite map_pt_old; [|apply (man_points_valid o c); intros i Ii; destruct (Pm i (LT c i Ic Ii)) as (_ & _ & Q); exact Q].
        cbn [app]. rewrite <- (Permutation_cons_append (cand (c_id c)) e). apply perm_skip. exact Pr.
      * exists rest. assert (NJ : ~ In j (c_pots d)).
        { intro Ij'. apply E. apply In_nth_error in Id as (y & Y). assert (x = y) by (eapply (NoDup_concat_place _ c_pots (o_pairs o)); eassumption).
          subst y. congruence. }
        unfold man_points. cbn [o_mans]. assert (ME : map (man mans') (c_pots d) = map (man (o_mans o)) (c_pots d)).
        { apply map_ext_in. intros i Ii. rewrite MP. destruct (Nat.eqb_spec i j) as [->|]; [contradiction|reflexivity]. }
        rewrite ME. fold pts. rewrite map_pt_old; [exact Pr|]. apply (man_points_valid o d). intros i Ii. destruct (Pm i (LT d i Id Ii)) as (_ & _ & Q). exact Q.
    + intros d Id H. unfold cand_add in H. destruct (Z.eqb_spec (c_id d) (c_id c)) as [E|E]; [|now apply Ps].
      assert (d = c) by (eapply ids_unique; eassumption). subst d. intros Z. rewrite Z in Ij. contradiction.
    + exact Pn.
    + exact D'.
    + intros d Id Cd i Ii. rewrite MP. destruct (Nat.eqb_spec i j) as [->|Dj].
      * assert (d = c).
        { apply In_nth_error in Id as (y & Y). assert (x = y) by (eapply (NoDup_concat_place _ c_pots (o_pairs o)); eassumption). subst y. congruence. }
        subst d. assert (HH : hd 0%nat (man (o_mans o) j ++ [k]) = hd 0%nat (man (o_mans o) j)) by (destruct (man (o_mans o) j); [congruence|reflexivity]).
        intros q Iq. rewrite HH. apply in_app_or in Iq as [Iq|[<-|[]]].
        -- apply (alike_grow cosmin pts [e] _ A3 A1 (Psim c Id Cd j Ij) q Iq).
        -- right. unfold k. rewrite pt_new. exact Sj.
      * destruct (Pm i (LT d i Id Ii)) as (B1 & B2 & B3). apply alike_grow; auto. exact (Psim d Id Cd i Ii).
  - unfold max_potential_manifolds. destruct (Nat.ltb_spec (length (c_pots c)) 64) as [C|C].
    + apply nth_error_split in X as (A & B & EP & LA). set (c' := with_pots (c_pots c ++ [length (o_mans o)]) c).
      assert (PE : put (o_pairs o) x c' = A ++ c' :: B) by (rewrite EP, <- LA; apply put_mid). rewrite PE.
      eexists _, c'. split; [reflexivity|]. cbn [o_pairs o_map o_points o_mans].
      split; [|split; [rewrite <- LA, nth_error_app2, Nat.sub_diag by lia; reflexivity|]; split; [reflexivity|]; split; [|reflexivity];
               rewrite EP, !map_app; reflexivity].
      assert (IN : forall d, In d (A ++ c' :: B) -> d = c' \/ (In d (o_pairs o) /\ c_id d <> c_id c)).
      { intros d Id. rewrite EP, map_app in Pi. cbn [map] in Pi. apply NoDup_remove_2 in Pi.
        assert (In d A \/ In d B -> In d (o_pairs o) /\ c_id d <> c_id c).
        { intros H. split; [rewrite EP; apply in_or_app; destruct H; [now left|right; now right]|]. intros E. apply Pi. rewrite <- E. apply in_or_app.
          destruct H; [left|right]; now apply in_map. }
        apply in_app_or in Id as [Id|[Id|Id]]; auto. }
      assert (MN : forall i, (i < length (o_mans o))%nat -> man (o_mans o ++ [[k]]) i = man (o_mans o) i) by (intros; now apply man_old).
      constructor; cbn [o_points o_mans o_pairs].
      * rewrite EP in Pp. rewrite !map_app, !concat_app in *. cbn [map concat] in *. rewrite app_length. cbn [length]. rewrite Nat.add_1_r, seq_S.
        cbn [Nat.add c' with_pots c_pots]. rewrite <- app_assoc. cbn [app]. rewrite app_assoc. rewrite <- Permutation_middle. rewrite <- app_assoc.
        rewrite Pp. apply Permutation_cons_append.
      * intros i Bi. rewrite app_length in Bi. cbn [length] in Bi. destruct (Nat.eq_dec i (length (o_mans o))) as [->|Di].
        { rewrite man_new. repeat split; [discriminate|cbn [length]; lia|]. constructor; [|constructor]. unfold k. rewrite app_length. cbn [length]. lia. }
        rewrite MN by lia. destruct (Pm i) as (B1 & B2 & B3); [lia|]. repeat split; auto. now apply valid_grow.
      * rewrite EP in Pi. rewrite map_app in *. exact Pi.
      * intros d Id. destruct (IN d Id) as [->|(Id' & E)].
        { destruct (Pt c Ic) as (rest & Pr). exists rest. unfold cand_add. cbn [c' with_pots c_id]. rewrite Z.eqb_refl. unfold man_points. cbn [o_mans c_pots].
          change (c_pots c') with (c_pots c ++ [length (o_mans o)]). rewrite map_app, concat_app. cbn [map concat]. rewrite man_new. rewrite app_nil_r.
          assert (ME : map (man (o_mans o ++ [[k]])) (c_pots c) = map (man (o_mans o)) (c_pots c)) by (apply map_ext_in; intros i Ii; apply MN; eauto).
          rewrite ME. rewrite map_app. cbn [map]. unfold k. fold pts. rewrite pt_new.
          rewrite map_pt_old; [|apply (man_points_valid o c); intros i Ii; destruct (Pm i (LT c i Ic Ii)) as (_ & _ & Q); exact Q].
          fold (man_points o c). rewrite <- app_assoc. cbn [app]. rewrite <- Permutation_middle. rewrite <- (Permutation_cons_append (cand (c_id c)) e).
          apply perm_skip. exact Pr. }
        destruct (Pt d Id') as (rest & Pr). exists rest. unfold cand_add. destruct (Z.eqb_spec (c_id d) (c_id c)); [contradiction|].
        unfold man_points. cbn [o_mans].
        assert (ME : map (man (o_mans o ++ [[k]])) (c_pots d) = map (man (o_mans o)) (c_pots d)) by (apply map_ext_in; intros i Ii; apply MN; eauto).
        rewrite ME. fold pts. rewrite map_pt_old; [exact Pr|]. apply (man_points_valid o d). intros i Ii. destruct (Pm i (LT d i Id' Ii)) as (_ & _ & Q). exact Q.
      * intros d Id H. destruct (IN d Id) as [->|(Id' & E)]; [cbn; intro Z; apply app_eq_nil in Z as [_ Z]; discriminate|].
        unfold cand_add in H. destruct (Z.eqb_spec (c_id d) (c_id c)); [contradiction|]. now apply Ps.
      * intros d Id. destruct (IN d Id) as [->|(Id' & E)]; [exact (Pn c Ic)|now apply Pn].
      * exact D'.
      * intros d Id Cd i Ii. destruct (IN d Id) as [->|(Id' & E)].
        { cbn [c' with_pots c_pots] in Ii. apply in_app_or in Ii as [Ii|[<-|[]]].
          - rewrite MN by eauto. destruct (Pm i (LT c i Ic Ii)) as (B1 & B2 & B3). apply alike_grow; auto. apply (Psim c Ic Cd i Ii).
          - rewrite man_new. intros q [<-|[]]. now left. }
        rewrite MN by eauto. destruct (Pm i (LT d i Id' Ii)) as (B1 & B2 & B3). apply alike_grow; auto. apply (Psim d Id' Cd i Ii).
    + eexists _, c. split; [reflexivity|]. cbn [o_pairs o_map o_points o_mans]. split; [|repeat split; auto; destruct c; reflexivity].
      constructor; cbn [o_points o_mans o_pairs]; auto.
      * intros i Bi. destruct (Pm i Bi) as (B1 & B2 & B3). repeat split; auto. now apply valid_grow.
      * intros d Id. destruct (Pt d Id) as (rest & Pr). unfold cand_add.
        assert (ME : map (pt (pts ++ [e])) (man_points (Potential (pts ++ [e]) (o_mans o) (o_pairs o) (o_map o)) d) = map (pt pts) (man_points o d)).
        { unfold man_points at 1. cbn [o_mans]. fold (man_points o d). apply map_pt_old. apply (man_points_valid o d). intros i Ii.
          destruct (Pm i (LT d i Id Ii)) as (_ & _ & Q). exact Q. }
        rewrite ME. destruct (Z.eqb_spec (c_id d) (c_id c)); [|exists rest; exact Pr]. exists (rest ++ [e]). rewrite app_assoc. now apply Permutation_app_tail.
      * intros d Id H. unfold cand_add in H. destruct (Z.eqb_spec (c_id d) (c_id c)) as [E|E]; [|now apply Ps].
        assert (d = c) by (eapply ids_unique; eassumption). subst d. intros Z. rewrite Z in C. cbn in C. lia.
      * intros d Id Cd i Ii. destruct (Pm i (LT d i Id Ii)) as (B1 & B2 & B3). apply alike_grow; auto. apply (Psim d Id Cd i Ii).
Qed.

Lemma PInv_ext : forall cosmin top conc cand cand' o, PInv cosmin top conc cand o -> (forall id, cand id = cand' id) -> PInv cosmin top conc cand' o.
Proof.
  intros cosmin top conc cand cand' o I E. destruct I as [Pp Pm Pi Pt Ps Pn Pd Psim]. constructor; auto.
  - intros c Ic. destruct (Pt c Ic) as (rest & Pr). exists rest. now rewrite <- E.
  - intros c Ic H. apply Ps; auto. now rewrite E.
Qed.

Definition skeleton (o : potential) : list cpair := map (fun d => with_pots [] d) (o_pairs o).

Lemma skeleton_ids : forall o, map c_id (o_pairs o) = map c_id (skeleton o).
Proof. intros. unfold skeleton. rewrite map_map. reflexivity. Qed.

Lemma add_points_ok : forall cosmin top conc l cand o x c, PInv cosmin top conc cand o -> nth_error (o_pairs o) x = Some c ->
  Forall (fun e => 0 < i_depth e < top) l ->
  exists o', add_points cosmin x l o = Ok o' /\ PInv cosmin top conc (cand_add (c_id c) l cand) o' /\ skeleton o' = skeleton o /\ o_map o' = o_map o.
Proof.
  induction l as [|e l IH]; intros cand o x c I X D; cbn [add_points].
  - exists o. split; [reflexivity|]. split; [|split; reflexivity]. eapply PInv_ext; [exact I|]. intro id. unfold cand_add. destruct (Z.eqb id (c_id c)); [now rewrite app_nil_r|reflexivity].
  - inversion D as [|? ? De Dl]; subst. destruct (add_point_ok _ _ _ _ _ _ _ _ I X De) as (o1 & c1 & -> & I1 & X1 & E1 & S1 & M1). cbn [bind].
    assert (Eid : c_id c1 = c_id c) by (rewrite E1; reflexivity).
    destruct (IH _ o1 x c1 I1 X1 Dl) as (o2 & -> & I2 & S2 & M2). exists o2. split; [reflexivity|]. split; [|split].
    + eapply PInv_ext; [exact I2|]. intro id. unfold cand_add. rewrite Eid. destruct (Z.eqb id (c_id c)); [now rewrite <- app_assoc|reflexivity].
    + rewrite S2. exact S1.
    + now rewrite M2.
Qed.

Lemma new_pair_ok : forall cosmin top conc cand o i mp, PInv cosmin top conc cand o -> ~ In (n_pair i) (map c_id (o_pairs o)) -> cand (n_pair i) = [] ->
  PInv cosmin top conc cand (Potential (o_points o) (o_mans o) (o_pairs o ++ [new_pair i []]) mp).
Proof.
  intros cosmin top conc cand o i mp I N C. destruct I as [Pp Pm Pi Pt Ps Pn Pd Psim].
  assert (IN : forall c, In c (o_pairs o ++ [new_pair i []]) -> In c (o_pairs o) \/ c = new_pair i []).
  { intros c Ic. apply in_app_or in Ic as [Ic|[Ic|[]]]; auto. }
  constructor; cbn [o_points o_mans o_pairs]; auto.
  - rewrite map_app, concat_app. cbn [map concat new_pair c_pots]. now rewrite !app_nil_r.
  - rewrite map_app. cbn [map new_pair c_id]. eapply Permutation_NoDup; [apply Permutation_cons_append|]. constructor; assumption.
  - intros c Ic. destruct (IN c Ic) as [Jc| ->]; [exact (Pt c Jc)|]. exists []. cbn. rewrite C. constructor.
  - intros c Ic H. destruct (IN c Ic) as [Jc| ->]; [now apply Ps|]. cbn [new_pair c_id] in H. congruence.
  - intros c Ic. destruct (IN c Ic) as [Jc| ->]; [now apply Pn|reflexivity].
  - intros c Ic Cc k Ik. destruct (IN c Ic) as [Jc| ->]; [now apply (Psim c)|]. contradiction.
Qed.

Lemma map_pt_seq : forall pts l, map (pt (pts ++ l)) (seq (length pts) (length l)) = l.
Proof.
  intros pts l. apply nth_ext with (d := CInfo vzero vzero vzero 0) (d' := CInfo vzero vzero vzero 0).
  - now rewrite map_length, seq_length.
  - intros n B. rewrite map_length, seq_length in B. rewrite (nth_indep _ _ (pt (pts ++ l) 0%nat)) by (now rewrite map_length, seq_length).
    rewrite map_nth. rewrite seq_nth by exact B. unfold pt. rewrite app_nth2 by lia. f_equal. lia.
Qed.

Lemma add_convex_ok : forall cosmin top conc cand o i, PInv cosmin top conc cand o -> ~ In (n_pair i) (map c_id (o_pairs o)) -> cand (n_pair i) = [] ->
  ~ conc (n_pair i) -> Forall (fun e => 0 < i_depth e < top) (n_points i) ->
  PInv cosmin top conc (cand_add (n_pair i) (n_points i) cand) (add_convex i o) /\ skeleton (add_convex i o) = skeleton o ++ [new_pair i []] /\
  o_map (add_convex i o) = o_map o.
Proof.
  intros cosmin top conc cand o i I N C NC D. unfold add_convex. set (kept := firstn max_potential_points (n_points i)).
  assert (KD : Forall (fun e => 0 < i_depth e < top) kept).
  { unfold kept. rewrite <- (firstn_skipn max_potential_points (n_points i)) in D. now apply Forall_app in D. }
  assert (LK : (length kept <= 255)%nat) by (unfold kept, max_potential_points; rewrite firstn_length; lia).
  destruct kept as [|e0 kept0] eqn:EK.
  - assert (n_points i = []) as EN.
    { destruct (n_points i) as [|p l] eqn:El; [reflexivity|]. unfold kept, max_potential_points in EK. cbn [firstn] in EK. discriminate. }
    split; [|split; [unfold skeleton; cbn [o_pairs]; now rewrite map_app|reflexivity]].
    eapply PInv_ext; [apply new_pair_ok; eassumption|]. intro id. unfold cand_add. rewrite EN, app_nil_r. now destruct (Z.eqb _ _).
  - rewrite <- EK in KD, LK |- *. assert (NK : kept <> []) by (rewrite EK; discriminate). clear EK e0 kept0.
    assert (EKS : kept ++ skipn max_potential_points (n_points i) = n_points i) by apply firstn_skipn. clearbody kept.
    split; [|split; [unfold skeleton; cbn [o_pairs]; now rewrite map_app|reflexivity]].
    pose proof I as I0. destruct I as [Pp Pm Pi Pt Ps Pn Pd Psim]. set (c' := new_pair i [length (o_mans o)]).
    assert (IN : forall c, In c (o_pairs o ++ [c']) -> (In c (o_pairs o) /\ c_id c <> n_pair i) \/ c = c').
    { intros c Ic. apply in_app_or in Ic as [Ic|[Ic|[]]]; auto. left. split; [exact Ic|]. intros E. apply N. rewrite <- E. now apply in_map. }
    assert (LT : forall d k, In d (o_pairs o) -> In k (c_pots d) -> (k < length (o_mans o))%nat) by (intros; eapply pots_lt; eassumption).
    set (m := seq (length (o_points o)) (length kept)).
    assert (Vm : valid (o_points o ++ kept) m).
    { unfold valid, m. rewrite Forall_forall. intros k K. apply in_seq in K. rewrite app_length. lia. }
    assert (MN : forall k, (k < length (o_mans o))%nat -> man (o_mans o ++ [m]) k = man (o_mans o) k) by (intros; now apply man_old).
    constructor; cbn [o_points o_mans o_pairs].
    + rewrite map_app, concat_app. cbn [map concat c' new_pair c_pots app]. rewrite app_length. cbn [length]. rewrite Nat.add_1_r, seq_S. cbn [Nat.add].
      now apply Permutation_app_tail.
    + intros k Bk. rewrite app_length in Bk. cbn [length] in Bk. destruct (Nat.eq_dec k (length (o_mans o))) as [->|Dk].
      * rewrite man_new. repeat split; [|unfold m; rewrite seq_length; lia|exact Vm]. unfold m. destruct kept; [congruence|discriminate].
      * rewrite MN by lia. destruct (Pm k) as (B1 & B2 & B3); [lia|]. repeat split; auto. now apply valid_grow.
    + rewrite map_app. cbn [map c' new_pair c_id]. eapply Permutation_NoDup; [apply Permutation_cons_append|]. constructor; assumption.
    + intros c Ic. destruct (IN c Ic) as [(Jc & Ec)| ->].
      * destruct (Pt c Jc) as (rest & Pr). exists rest. unfold cand_add. destruct (Z.eqb_spec (c_id c) (n_pair i)); [contradiction|].
        unfold man_points. cbn [o_mans].
        assert (ME : map (man (o_mans o ++ [m])) (c_pots c) = map (man (o_mans o)) (c_pots c)) by (apply map_ext_in; intros k Ik; apply MN; eauto).
        rewrite ME. rewrite map_pt_old; [exact Pr|]. apply (man_points_valid o c). intros k Ik. destruct (Pm k (LT c k Jc Ik)) as (_ & _ & Q). exact Q.
      * exists (skipn max_potential_points (n_points i)). unfold cand_add. cbn [c' new_pair c_id]. rewrite Z.eqb_refl, C. cbn [app].
        unfold man_points. cbn [o_mans c_pots c' new_pair map concat]. rewrite man_new, app_nil_r. unfold m. rewrite map_pt_seq. now rewrite EKS.
    + intros c Ic H. destruct (IN c Ic) as [(Jc & Ec)| ->]; [|discriminate]. apply Ps; auto. unfold cand_add in H.
      destruct (Z.eqb_spec (c_id c) (n_pair i)); [contradiction|exact H].
    + intros c Ic. destruct (IN c Ic) as [(Jc & Ec)| ->]; [now apply Pn|reflexivity].
    + intros p Ip. apply in_app_or in Ip as [Ip|Ip]; [now apply Pd|]. rewrite Forall_forall in KD. now apply KD.
    + intros c Ic Cc k Ik. destruct (IN c Ic) as [(Jc & Ec)| ->]; [|exfalso; exact (NC Cc)].
      rewrite MN by eauto. destruct (Pm k (LT c k Jc Ik)) as (B1 & B2 & B3). apply alike_grow; auto. exact (Psim c Jc Cc k Ik).
Qed.

(** * All narrow-phase results *)
(** A pair is always tested as a pair of convex shapes (then only once) or always as a pair with a concave shape. *)
Record QInv (cosmin top : R) (infos done : list ninfo) (o : potential) : Prop := {
  Q_inv : PInv cosmin top (fun id => exists i, In i infos /\ n_pair i = id /\ n_convex i = false) (candidates done) o;
  Q_ids : forall id, In id (map c_id (o_pairs o)) <-> met done id;
  Q_map : forall id x, lookup id (o_map o) = Some x -> exists c, nth_error (o_pairs o) x = Some c /\ c_id c = id;
  Q_conc : forall i, In i done -> n_colliding i = true -> n_convex i = false -> lookup (n_pair i) (o_map o) <> None;
  Q_flags : forall c, In c (o_pairs o) -> exists i, In i done /\ n_colliding i = true /\ with_pots [] c = new_pair i []
}.

Lemma candidates_app : forall a i id, candidates (a ++ [i]) id = candidates a id ++ (if (n_colliding i && Z.eqb (n_pair i) id)%bool then n_points i else []).
Proof.
  intros. unfold candidates. rewrite filter_app, map_app, concat_app. f_equal. cbn [filter]. destruct (n_colliding i && Z.eqb (n_pair i) id)%bool; cbn; [now rewrite app_nil_r|reflexivity].
Qed.

Lemma candidates_none : forall l id, ~ met l id -> candidates l id = [].
Proof.
  intros l id N. unfold candidates. replace (filter _ l) with (@nil ninfo); [reflexivity|]. symmetry.
  induction l as [|i l IH]; [reflexivity|]. cbn [filter]. destruct (n_colliding i && Z.eqb (n_pair i) id)%bool eqn:E.
  - exfalso. apply andb_true_iff in E as [E1 E2]. apply Z.eqb_eq in E2. apply N. exists i. repeat split; auto. now left.
  - apply IH. intros (j & J & K). apply N. exists j. split; [now right|exact K].
Qed.

Lemma met_app : forall l i id, met (l ++ [i]) id <-> met l id \/ (n_colliding i = true /\ n_pair i = id).
Proof.
  intros l i id. unfold met. split.
  - intros (j & J & K). apply in_app_or in J as [J|[<-|[]]]; [left; eauto|right; exact K].
  - intros [(j & J & K)|K]; [exists j|exists i]; (split; [apply in_or_app|exact K]); [now left|right; now left].
Qed.

Lemma skeleton_nth : forall o o' x c, skeleton o' = skeleton o -> nth_error (o_pairs o) x = Some c -> exists c', nth_error (o_pairs o') x = Some c' /\ c_id c' = c_id c.
Proof.
  intros o o' x c S X. unfold skeleton in S. apply (map_nth_error (fun d => with_pots [] d)) in X. rewrite <- S in X.
  rewrite nth_error_map in X. destruct (nth_error (o_pairs o') x) as [c'|]; cbn in X; [|discriminate]. exists c'. split; [reflexivity|].
  injection X. intros. assumption.
Qed.

Lemma skeleton_in : forall o o' c, skeleton o' = skeleton o -> In c (o_pairs o') -> exists d, In d (o_pairs o) /\ with_pots [] d = with_pots [] c.
Proof.
  intros o o' c S I. apply (in_map (fun d => with_pots [] d)) in I. unfold skeleton in S. rewrite S in I. apply in_map_iff in I as (d & E & J). eauto.
Qed.

Lemma process_one_ok : forall cosmin top infos done i todo o, well_formed top infos -> infos = done ++ i :: todo -> QInv cosmin top infos done o ->
  exists o', process_one cosmin i o = Ok o' /\ QInv cosmin top infos (done ++ [i]) o'.
Proof.
  intros cosmin top infos done i todo o W EI Q. pose proof Q as Q0. destruct Q as [Qi Qd Qm Qc Qf]. destruct W as (W1 & W2 & W3). unfold process_one.
  assert (Ii : In i infos) by (rewrite EI; apply in_or_app; right; now left).
  destruct (n_colliding i) eqn:EC.
  2:{ exists o. split; [reflexivity|]. constructor; auto.
      - eapply PInv_ext; [exact Qi|]. intro id. rewrite candidates_app, EC. cbn. now rewrite app_nil_r.
      - intro id. rewrite Qd, met_app. split; [auto|]. intros [H|[H _]]; [exact H|congruence].
      - intros j J. apply in_app_or in J as [J|[<-|[]]]; [auto|congruence].
      - intros c Ic. destruct (Qf c Ic) as (j & J & K). exists j. split; [apply in_or_app; now left|exact K]. }
  assert (CA : forall id, cand_add (n_pair i) (n_points i) (candidates done) id = candidates (done ++ [i]) id).
  { intro id. unfold cand_add. rewrite candidates_app, EC. cbn [andb]. rewrite (Z.eqb_sym id). destruct (Z.eqb (n_pair i) id); [reflexivity|now rewrite app_nil_r]. }
  assert (DP : Forall (fun e => 0 < i_depth e < top) (n_points i)) by (rewrite Forall_forall; intros p Ip; eapply W1; eassumption).
  destruct (n_convex i) eqn:EV.
  - assert (NM : ~ met done (n_pair i)).
    { intros (j & J & K1 & K2). apply (W3 done todo i EI EV j); [apply in_or_app; now left|exact K2]. }
    assert (NI : ~ In (n_pair i) (map c_id (o_pairs o))) by (rewrite Qd; exact NM).
    destruct (add_convex_ok _ _ _ _ _ i Qi NI (candidates_none _ _ NM)) as (I1 & S1 & M1).
    { intros (j & J1 & J2 & J3). rewrite (W2 j i J1 Ii J2) in J3. congruence. }
    { exact DP. }
    eexists. split; [reflexivity|]. constructor.
    + eapply PInv_ext; [exact I1|exact CA].
    + intro id. rewrite skeleton_ids, S1, map_app, met_app, in_app_iff, <- skeleton_ids, Qd. cbn [map new_pair c_id In]. intuition.
    + intros id x L. rewrite M1 in L. destruct (Qm id x L) as (c & X & E). exists c. split; [|exact E].
      unfold add_convex. destruct (firstn _ _); cbn [o_pairs]; (rewrite nth_error_app1; [exact X|]; apply nth_error_Some; congruence).
    + intros j J C V. rewrite M1. apply in_app_or in J as [J|[<-|[]]]; [auto|congruence].
    + intros c Ic. apply (in_map (fun d => with_pots [] d)) in Ic. fold (skeleton (add_convex i o)) in Ic. rewrite S1 in Ic. apply in_app_or in Ic as [Ic|[Ic|[]]].
      * unfold skeleton in Ic. apply in_map_iff in Ic as (d & E & Id). destruct (Qf d Id) as (j & J & K1 & K2). exists j.
        split; [apply in_or_app; now left|]. split; [exact K1|]. congruence.
      * exists i. split; [apply in_or_app; right; now left|]. split; [exact EC|]. now symmetry.
  - unfold add_concave. destruct (lookup (n_pair i) (o_map o)) as [x|] eqn:EL.
    + destruct (Qm _ _ EL) as (c & X & Ec). destruct (add_points_ok cosmin top _ (n_points i) _ o x c Qi X DP) as (o' & H & I1 & S1 & M1).
      exists o'. split; [exact H|]. rewrite Ec in I1. constructor.
      * eapply PInv_ext; [exact I1|exact CA].
      * intro id. rewrite skeleton_ids, S1, <- skeleton_ids, Qd, met_app. split; [auto|]. intros [K|[_ <-]]; [exact K|].
        apply Qd. rewrite <- Ec. apply in_map. eapply nth_error_In; eassumption.
      * intros id y L. rewrite M1 in L. destruct (Qm id y L) as (d & Y & E). destruct (skeleton_nth o o' y d S1 Y) as (d' & Y' & E'). exists d'. split; [exact Y'|congruence].
      * intros j J C V. rewrite M1. apply in_app_or in J as [J|[<-|[]]]; [auto|congruence].
      * intros d Id. destruct (skeleton_in o o' d S1 Id) as (d0 & Id0 & E0). destruct (Qf d0 Id0) as (j & J & K1 & K2). exists j.
        split; [apply in_or_app; now left|]. split; [exact K1|]. congruence.
    + assert (NM : ~ met done (n_pair i)).
      { intros (j & J & K1 & K2). apply (Qc j J K1); [|now rewrite K2]. rewrite (W2 j i); auto. rewrite EI. apply in_or_app. now left. }
      assert (NI : ~ In (n_pair i) (map c_id (o_pairs o))) by (rewrite Qd; exact NM).
      set (o1 := Potential (o_points o) (o_mans o) (o_pairs o ++ [new_pair i []]) ((n_pair i, length (o_pairs o)) :: o_map o)).
      assert (I0 : PInv cosmin top (fun id => exists j, In j infos /\ n_pair j = id /\ n_convex j = false) (candidates done) o1).
      { apply new_pair_ok; auto. now apply candidates_none. }
      assert (X : nth_error (o_pairs o1) (length (o_pairs o)) = Some (new_pair i [])) by (cbn [o1 o_pairs]; rewrite nth_error_app2, Nat.sub_diag by lia; reflexivity).
      destruct (add_points_ok cosmin top _ (n_points i) _ o1 _ _ I0 X DP) as (o' & H & I1 & S1 & M1).
      exists o'. split; [exact H|]. cbn [new_pair c_id] in I1. constructor.
      * eapply PInv_ext; [exact I1|exact CA].
      * intro id. rewrite skeleton_ids, S1, <- skeleton_ids. cbn [o1 o_pairs]. rewrite map_app, met_app, in_app_iff, Qd. cbn [map new_pair c_id In]. intuition.
      * intros id y L. rewrite M1 in L. cbn [o1 o_map lookup] in L.
        assert (K : exists c, nth_error (o_pairs o1) y = Some c /\ c_id c = id).
        { destruct (Z.eqb_spec (n_pair i) id) as [<-|D]; [injection L as <-; exists (new_pair i []); split; [exact X|reflexivity]|].
          destruct (Qm id y L) as (c & Y & E). exists c. split; [|exact E]. cbn [o1 o_pairs]. rewrite nth_error_app1; [exact Y|]. apply nth_error_Some. congruence. }
        destruct K as (c & Y & E). destruct (skeleton_nth o1 o' y c S1 Y) as (d' & Y' & E'). exists d'. split; [exact Y'|congruence].
      * intros j J C V. rewrite M1. cbn [o1 o_map lookup]. destruct (Z.eqb_spec (n_pair i) (n_pair j)); [discriminate|].
        apply in_app_or in J as [J|[<-|[]]]; [auto|congruence].
      * intros d Id. destruct (skeleton_in o1 o' d S1 Id) as (d0 & Id0 & E0). cbn [o1 o_pairs] in Id0. apply in_app_or in Id0 as [Id0|[<-|[]]].
        -- destruct (Qf d0 Id0) as (j & J & K1 & K2). exists j. split; [apply in_or_app; now left|]. split; [exact K1|]. congruence.
        -- exists i. split; [apply in_or_app; right; now left|]. split; [exact EC|]. rewrite <- E0. reflexivity.
Qed.

Lemma process_ok : forall cosmin top infos todo done o, well_formed top infos -> infos = done ++ todo -> QInv cosmin top infos done o ->
  exists o', process cosmin todo o = Ok o' /\ QInv cosmin top infos infos o'.
Proof.
  intros cosmin top infos. induction todo as [|i todo IH]; intros done o W EI Q; cbn [process].
  - exists o. split; [reflexivity|]. rewrite app_nil_r in EI. now subst done.
  - destruct (process_one_ok cosmin top infos done i todo o W EI Q) as (o1 & -> & Q1). cbn [bind]. apply (IH (done ++ [i]) o1 W); [|exact Q1].
    now rewrite <- app_assoc.
Qed.

Lemma process_all : forall cosmin top infos, well_formed top infos ->
  exists o, process cosmin infos no_potential = Ok o /\ QInv cosmin top infos infos o.
Proof.
  intros cosmin top infos W. apply (process_ok cosmin top infos infos [] no_potential W eq_refl). constructor.
  - constructor; cbn; try (intros; contradiction); [constructor|intros; lia|constructor].
  - intro id. split; [contradiction|]. intros (i & I & _). contradiction.
  - discriminate.
  - contradiction.
  - contradiction.
Qed.
