From Coq Require Import List ZArith Reals Lra Lia Permutation Bool Arith.
From Verif Require Import Base VecModel VecProofs ManifoldModel ManifoldSpec ManifoldProofs ManifoldFrameProofs ManifoldCreateProofs.
Import ListNotations.
Local Open Scope R_scope.

Lemma find_first : forall A (p : A -> bool) (P : A -> Prop) l, (forall a, p a = true <-> P a) ->
  (exists r, find p l = Some r /\ first_match P l r) \/ (find p l = None /\ Forall (fun r => ~ P r) l).
Proof.
  intros A p P l H. induction l as [|a l IH]; [right; split; [reflexivity|constructor]|]. cbn [find]. destruct (p a) eqn:E.
  - left. exists a. split; [reflexivity|]. exists [], l. split; [reflexivity|]. split; [now apply H|constructor].
  - assert (~ P a) by (intro K; apply H in K; congruence). destruct IH as [(r & F & (x & y & -> & R & N))|(F & N)].
    + left. exists r. split; [exact F|]. exists (a :: x), y. split; [reflexivity|]. split; [exact R|now constructor].
    + right. split; [exact F|now constructor].
Qed.

Lemma window_S : forall A (l : list A) s n, (S s + n <= length l)%nat -> exists a, nth_error l s = Some a /\ firstn (S n) (skipn s l) = a :: firstn n (skipn (S s) l).
Proof.
  intros A l. induction l as [|b l IH]; intros s n H; [cbn in H; lia|]. destruct s as [|s].
  - exists b. split; reflexivity.
  - cbn [length] in H. destruct (IH s n) as (a & E & F); [lia|]. exists a. split; [exact E|exact F].
Qed.

Lemma nth_error_window : forall A n (l : list A) s i, nth_error (firstn n (skipn s l)) i = if (i <? n)%nat then nth_error l (s + i) else None.
Proof.
  intros A. induction n as [|n IH]; intros l s i; [destruct i; reflexivity|]. destruct (le_lt_dec (length l) s) as [C|C].
  - rewrite skipn_all2 by exact C. cbn [firstn]. destruct (i <? S n)%nat; destruct i; try reflexivity; symmetry; apply nth_error_None; lia.
  - assert (W : skipn s l = match nth_error l s with Some a => a :: skipn (S s) l | None => [] end).
    { clear IH. revert l C. induction s as [|s IHs]; intros [|b l] C; cbn in *; try lia; try reflexivity. apply IHs. lia. }
    destruct (nth_error l s) as [a|] eqn:E; [|apply nth_error_None in E; lia]. rewrite W. cbn [firstn]. destruct i as [|i]; cbn [nth_error].
    + rewrite Nat.add_0_r. cbn. now symmetry.
    + rewrite IH. replace (s + S i)%nat with (S s + i)%nat by lia. reflexivity.
Qed.

Lemma list_ext : forall A (l m : list A), (forall i, nth_error l i = nth_error m i) -> l = m.
Proof.
  intros A. induction l as [|a l IH]; intros [|b m] H; [reflexivity|specialize (H 0%nat); discriminate|specialize (H 0%nat); discriminate|].
  pose proof (H 0%nat) as H0. cbn in H0. inversion H0; subst. f_equal. apply IH. intro i. exact (H (S i)).
Qed.

(** A list changed by [g] at the positions [s] to [s + n - 1]. *)
Definition upd {A : Type} (g : A -> A) (s n : nat) (l l' : list A) : Prop :=
  forall i, nth_error l' i = if ((s <=? i) && (i <? s + n))%nat%bool then option_map g (nth_error l i) else nth_error l i.

Lemma upd_length : forall A (g : A -> A) s n l l', upd g s n l l' -> length l' = length l.
Proof.
  intros A g s n l l' U. assert (K : forall i, nth_error l' i = None <-> nth_error l i = None).
  { intro i. rewrite (U i). destruct (_ && _)%bool; [|tauto]. destruct (nth_error l i); cbn; split; congruence. }
  assert (length l' <= length l)%nat by (apply nth_error_None, K, nth_error_None; lia).
  assert (length l <= length l')%nat by (apply nth_error_None, K, nth_error_None; lia). lia.
Qed.

Lemma upd_none : forall A (g : A -> A) s l, upd g s 0 l l.
Proof. intros A g s l i. rewrite Nat.add_0_r. destruct (Nat.leb_spec s i), (Nat.ltb_spec i s); try lia; reflexivity. Qed.

Lemma upd_id : forall A (g : A -> A) s n l, (forall a, g a = a) -> upd g s n l l.
Proof. intros A g s n l H i. destruct (_ && _)%bool; [|reflexivity]. destruct (nth_error l i); cbn; [now rewrite H|reflexivity]. Qed.

Lemma upd_step : forall A (g : A -> A) s n l l' a, nth_error l s = Some a -> upd g (S s) n (put l s (g a)) l' -> upd g s (S n) l l'.
Proof.
  intros A g s n l l' a E U i. assert (B : (s < length l)%nat) by (apply nth_error_Some; congruence). rewrite (U i), nth_error_put by exact B.
  destruct (Nat.eqb_spec i s) as [->|D].
  - destruct (Nat.leb_spec (S s) s), (Nat.leb_spec s s), (Nat.ltb_spec s (s + S n)); cbn [andb]; try lia. now rewrite E.
  - replace (S s + n)%nat with (s + S n)%nat by lia. destruct (Nat.leb_spec (S s) i), (Nat.leb_spec s i); cbn [andb]; try lia; reflexivity.
Qed.

Lemma upd_window : forall A (g : A -> A) s n l l', upd g s n l l' -> firstn n (skipn s l') = map g (firstn n (skipn s l)).
Proof.
  intros A g s n l l' U. apply list_ext. intro i. rewrite nth_error_map, !nth_error_window. destruct (Nat.ltb_spec i n); [|reflexivity].
  rewrite (U (s + i)%nat). destruct (Nat.leb_spec s (s + i)), (Nat.ltb_spec (s + i) (s + n)); cbn [andb]; try lia. reflexivity.
Qed.

(** * Points *)
Definition give_point (per2 : R) (l : list dpoint) (q : dpoint) : dpoint :=
  match find (fun b => rle (vlen2 (vsub (i_p1 (d_info q)) (i_p1 (d_info b)))) per2) l with
  | Some b => DPoint (d_info q) (d_imp b) (d_rest b)
  | None => q
  end.

Lemma give_point_info : forall per2 l q, d_info (give_point per2 l q) = d_info q.
Proof. intros. unfold give_point. destruct (find _ _); reflexivity. Qed.

Lemma matching_point_ok : forall per2 old p nb start, (start + nb <= length (f_points old))%nat ->
  matching_point per2 old p start nb = Ok (find (fun b => rle (vlen2 (vsub p (i_p1 (d_info b)))) per2) (firstn nb (skipn start (f_points old)))).
Proof.
  intros per2 old p. induction nb as [|nb IH]; intros start H; [reflexivity|]. cbn [matching_point].
  destruct (window_S _ (f_points old) start nb) as (a & E & ->); [lia|]. unfold get, rd. rewrite E. cbn [bind find]. destruct (rle _ per2); [reflexivity|]. apply IH. lia.
Qed.

Lemma inherit_points_ok : forall per2 old oc nb start f, (c_p0 oc + c_np oc <= length (f_points old))%nat -> (start + nb <= length (f_points f))%nat ->
  exists P, inherit_points per2 old oc start nb f = Ok (Frame (f_pairs f) (f_mans f) P) /\ upd (give_point per2 (points_of old oc)) start nb (f_points f) P.
Proof.
  intros per2 old oc. induction nb as [|nb IH]; intros start f O H; cbn [inherit_points].
  - exists (f_points f). split; [now destruct f|apply upd_none].
  - destruct (nth_error (f_points f) start) as [q|] eqn:E; [|apply nth_error_None in E; lia].
    assert (G : get (f_points f) start = Ok q) by (unfold get, rd; now rewrite E). rewrite G. cbn [bind].
    rewrite matching_point_ok by exact O. cbn [bind]. fold (points_of old oc). fold (give_point per2 (points_of old oc) q).
    destruct (IH (S start) (Frame (f_pairs f) (f_mans f) (put (f_points f) start (give_point per2 (points_of old oc) q))) O) as (P & EP & U).
    { cbn [f_points]. rewrite put_length. lia. }
    exists P. split; [exact EP|]. cbn [f_points] in U. eapply upd_step; eassumption.
Qed.

(** * Manifolds *)
Definition norm_at (pts : list dpoint) (m : dman) : vec3 := i_n (d_info (nth (y_p0 m) pts (DPoint (CInfo vzero vzero vzero 0) 0 false))).
Definition give_man (cosmin : R) (old : list dpoint) (l : list dman) (pts : list dpoint) (m : dman) : dman :=
  match find (fun r => rle cosmin (vdot (norm_at old r) (norm_at pts m))) l with
  | Some b => DMan (y_k1 m) (y_k2 m) (y_p0 m) (y_np m) (y_v1 b) (y_v2 b) (y_f1 b) (y_f2 b) (y_tw b)
  | None => m
  end.

Lemma matching_manifold_ok : forall cosmin old n nb start, (start + nb <= length (f_mans old))%nat -> Forall (man_in (length (f_points old))) (f_mans old) ->
  matching_manifold cosmin old n start nb = Ok (find (fun r => rle cosmin (vdot (norm_at (f_points old) r) n)) (firstn nb (skipn start (f_mans old)))).
Proof.
  intros cosmin old n. induction nb as [|nb IH]; intros start H F; [reflexivity|]. cbn [matching_manifold].
  destruct (window_S _ (f_mans old) start nb) as (a & E & ->); [lia|]. unfold get at 1. unfold rd. rewrite E. cbn [bind find].
  assert (I : In a (f_mans old)) by (eapply nth_error_In; exact E). rewrite Forall_forall in F. destruct (F a I) as (A1 & A2).
  rewrite (get_ok _ _ _ (DPoint (CInfo vzero vzero vzero 0) 0 false)) by lia. cbn [bind]. unfold norm_at at 1. destruct (rle cosmin _); [reflexivity|].
  apply IH; [lia|]. now rewrite Forall_forall.
Qed.

Lemma put_in : forall A (l : list A) s x y, In y (put l s x) -> y = x \/ In y l.
Proof. induction l as [|a l IH]; intros [|s] x y I; cbn in *; try contradiction; destruct I as [->|I]; auto. destruct (IH _ _ _ I); auto. Qed.

Lemma inherit_manifolds_ok : forall cosmin old oc nb start f, (c_m0 oc + c_nm oc <= length (f_mans old))%nat -> Forall (man_in (length (f_points old))) (f_mans old) ->
  (start + nb <= length (f_mans f))%nat -> Forall (man_in (length (f_points f))) (f_mans f) ->
  exists M, inherit_manifolds cosmin old oc start nb f = Ok (Frame (f_pairs f) M (f_points f)) /\
    upd (give_man cosmin (f_points old) (manifolds_of old oc) (f_points f)) start nb (f_mans f) M.
Proof.
  intros cosmin old oc. induction nb as [|nb IH]; intros start f O FO H F; cbn [inherit_manifolds].
  - exists (f_mans f). split; [now destruct f|apply upd_none].
  - destruct (nth_error (f_mans f) start) as [m|] eqn:E; [|apply nth_error_None in E; lia].
    assert (G : get (f_mans f) start = Ok m) by (unfold get, rd; now rewrite E). rewrite G. cbn [bind].
    assert (I : In m (f_mans f)) by (eapply nth_error_In; exact E). pose proof F as F'. rewrite Forall_forall in F'. destruct (F' m I) as (A1 & A2).
    rewrite (get_ok _ _ _ (DPoint (CInfo vzero vzero vzero 0) 0 false)) by lia. cbn [bind]. rewrite matching_manifold_ok by assumption. cbn [bind].
    fold (manifolds_of old oc). fold (norm_at (f_points f) m). fold (give_man cosmin (f_points old) (manifolds_of old oc) (f_points f) m).
    destruct (IH (S start) (Frame (f_pairs f) (put (f_mans f) start (give_man cosmin (f_points old) (manifolds_of old oc) (f_points f) m)) (f_points f)) O FO) as (M & EM & U).
    { cbn [f_mans]. rewrite put_length. lia. }
    { cbn [f_mans f_points]. rewrite Forall_forall. intros y Y. apply put_in in Y as [->|Y]; [|now apply F']. unfold give_man, man_in. destruct (find _ _); cbn; auto. }
    exists M. split; [exact EM|]. cbn [f_mans f_points] in U. eapply upd_step; eassumption.
Qed.

(** * All pairs *)
Definition own_point (per : R) (old : frame) (id : Z) : dpoint -> dpoint := give_point (per * per) (points_for old id).
Definition own_man (cosmin : R) (old : frame) (id : Z) (pts : list dpoint) : dman -> dman := give_man cosmin (f_points old) (manifolds_for old id) pts.
Definition in_range (s n i : nat) : Prop := (s <= i < s + n)%nat.

Lemma own_man_info : forall cosmin old id pts pts' m, map d_info pts = map d_info pts' -> own_man cosmin old id pts m = own_man cosmin old id pts' m.
Proof.
  intros cosmin old id pts pts' m E. assert (N : norm_at pts m = norm_at pts' m).
  { unfold norm_at. f_equal. rewrite <- !(map_nth d_info). now rewrite E. }
  unfold own_man, give_man. now rewrite N.
Qed.

Lemma upd_info : forall (g : dpoint -> dpoint) s n l l', (forall q, d_info (g q) = d_info q) -> upd g s n l l' -> map d_info l' = map d_info l.
Proof.
  intros g s n l l' H U. apply list_ext. intro i. rewrite !nth_error_map, (U i). destruct (_ && _)%bool; [|reflexivity].
  destruct (nth_error l i); cbn; [now rewrite H|reflexivity].
Qed.

Lemma upd_man_in : forall k g s n l l', (forall m, y_p0 (g m) = y_p0 m /\ y_np (g m) = y_np m) -> upd g s n l l' -> Forall (man_in k) l -> Forall (man_in k) l'.
Proof.
  intros k g s n l l' H U F. rewrite Forall_forall in *. intros m I. apply In_nth_error in I as (i & E). rewrite (U i) in E. destruct (_ && _)%bool.
  - destruct (nth_error l i) as [a|] eqn:Ea; [|discriminate]. cbn in E. inversion E; subst. apply nth_error_In in Ea. specialize (F a Ea). unfold man_in in *.
    destruct (H a) as (-> & ->). exact F.
  - apply F. eapply nth_error_In; exact E.
Qed.

Lemma own_man_range : forall cosmin old id pts m, y_p0 (own_man cosmin old id pts m) = y_p0 m /\ y_np (own_man cosmin old id pts m) = y_np m.
Proof. intros. unfold own_man, give_man. destruct (find _ _); split; reflexivity. Qed.

Lemma inherit_step : forall per cosmin old c f, sound old -> sound f -> In c (f_pairs f) ->
  exists f', (match previous_pair old (c_id c) with
     | None => Ok f
     | Some oc => let* f1 := inherit_manifolds cosmin old oc (c_m0 c) (c_nm c) f in inherit_points (per * per) old oc (c_p0 c) (c_np c) f1
     end) = Ok f' /\ f_pairs f' = f_pairs f /\ upd (own_point per old (c_id c)) (c_p0 c) (c_np c) (f_points f) (f_points f') /\
    upd (own_man cosmin old (c_id c) (f_points f)) (c_m0 c) (c_nm c) (f_mans f) (f_mans f').
Proof.
  intros per cosmin old c f (SO1 & SO2) (SF1 & SF2) I. unfold own_point, own_man, points_for, manifolds_for. fold (previous_pair old (c_id c)).
  destruct (previous_pair old (c_id c)) as [oc|] eqn:E.
  - assert (Io : In oc (f_pairs old)) by (unfold previous_pair in E; now apply find_some in E). destruct (SO1 oc Io) as (B1 & B2). destruct (SF1 c I) as (B3 & B4).
    destruct (inherit_manifolds_ok cosmin old oc (c_nm c) (c_m0 c) f B1) as (M & -> & U); [now apply Forall_forall|exact B3|now apply Forall_forall|]. cbn [bind].
    destruct (inherit_points_ok (per * per) old oc (c_np c) (c_p0 c) (Frame (f_pairs f) M (f_points f)) B2 B4) as (P & -> & V).
    eexists. split; [reflexivity|]. cbn [f_pairs f_points f_mans] in *. auto.
  - exists f. split; [reflexivity|]. split; [reflexivity|]. split; apply upd_id; reflexivity.
Qed.

Lemma sound_step : forall per cosmin old c f f', sound f -> f_pairs f' = f_pairs f ->
  upd (own_point per old (c_id c)) (c_p0 c) (c_np c) (f_points f) (f_points f') -> upd (own_man cosmin old (c_id c) (f_points f)) (c_m0 c) (c_nm c) (f_mans f) (f_mans f') -> sound f'.
Proof.
  intros per cosmin old c f f' (S1 & S2) E UP UM. pose proof (upd_length _ _ _ _ _ _ UP) as LP. pose proof (upd_length _ _ _ _ _ _ UM) as LM.
  split; [rewrite E, LP, LM; exact S1|]. rewrite LP. apply Forall_forall. eapply (upd_man_in _ _ _ _ _ _ (own_man_range cosmin old (c_id c) (f_points f)) UM). now apply Forall_forall.
Qed.

Lemma inherit_ok : forall per cosmin old l f, sound old -> sound f -> (forall c, In c l -> In c (f_pairs f)) -> ForallOrdPairs disjoint l ->
  exists f', inherit per cosmin old l f = Ok f' /\ sound f' /\ f_pairs f' = f_pairs f /\ map d_info (f_points f') = map d_info (f_points f) /\
    (forall i, (forall c, In c l -> ~ in_range (c_p0 c) (c_np c) i) -> nth_error (f_points f') i = nth_error (f_points f) i) /\
    (forall i, (forall c, In c l -> ~ in_range (c_m0 c) (c_nm c) i) -> nth_error (f_mans f') i = nth_error (f_mans f) i) /\
    (forall c i, In c l -> in_range (c_p0 c) (c_np c) i -> nth_error (f_points f') i = option_map (own_point per old (c_id c)) (nth_error (f_points f) i)) /\
    (forall c i, In c l -> in_range (c_m0 c) (c_nm c) i -> nth_error (f_mans f') i = option_map (own_man cosmin old (c_id c) (f_points f)) (nth_error (f_mans f) i)).
Proof.
  intros per cosmin old. induction l as [|c l IH]; intros f SO SF IN D.
  - cbn [inherit]. exists f. repeat (split; [first [reflexivity|exact SF]|]). split; intros ? ? [].
  - inversion D as [|? ? Dc Dl]; subst. rewrite Forall_forall in Dc. destruct (inherit_step per cosmin old c f SO SF (IN c (or_introl eq_refl))) as (f1 & E1 & EP & UP & UM).
    assert (S1 : sound f1) by (eapply sound_step; eassumption).
    destruct (IH f1 SO S1) as (f' & E & S' & EP' & EI & A1 & A2 & A3 & A4); [intros d Id; rewrite EP; apply IN; now right|exact Dl|].
    assert (EI1 : map d_info (f_points f1) = map d_info (f_points f)) by (eapply upd_info; [|exact UP]; intro; apply give_point_info).
    assert (inp : forall i, nth_error (f_points f1) i = nth_error (f_points f) i \/ in_range (c_p0 c) (c_np c) i).
    { intro i. rewrite (UP i). destruct (Nat.leb_spec (c_p0 c) i), (Nat.ltb_spec i (c_p0 c + c_np c)); cbn [andb]; auto. right. split; assumption. }
    assert (inm : forall i, nth_error (f_mans f1) i = nth_error (f_mans f) i \/ in_range (c_m0 c) (c_nm c) i).
    { intro i. rewrite (UM i). destruct (Nat.leb_spec (c_m0 c) i), (Nat.ltb_spec i (c_m0 c + c_nm c)); cbn [andb]; auto. right. split; assumption. }
    exists f'. split; [|split; [exact S'|split; [congruence|split; [congruence|split; [|split; [|split]]]]]].
    + cbn [inherit]. destruct (previous_pair old (c_id c)) as [oc|]; [|inversion E1; subst; exact E].
      destruct (inherit_manifolds cosmin old oc (c_m0 c) (c_nm c) f) as [g| |]; cbn [bind] in E1 |- *; try discriminate. rewrite E1. cbn [bind]. exact E.
    + intros i H. rewrite A1 by (intros d Id; apply H; now right). destruct (inp i) as [K|K]; [exact K|]. exfalso. exact (H c (or_introl eq_refl) K).
    + intros i H. rewrite A2 by (intros d Id; apply H; now right). destruct (inm i) as [K|K]; [exact K|]. exfalso. exact (H c (or_introl eq_refl) K).
    + intros d i [<-|Id] R.
      * rewrite A1. { rewrite (UP i). unfold in_range in R. destruct (Nat.leb_spec (c_p0 c) i), (Nat.ltb_spec i (c_p0 c + c_np c)); cbn [andb]; try lia. reflexivity. }
        intros d Id R'. destruct (Dc d Id) as (_ & K). unfold in_range in *. lia.
      * rewrite (A3 d i Id R). destruct (inp i) as [K|K]; [now rewrite K|]. exfalso. destruct (Dc d Id) as (_ & J). unfold in_range in *. lia.
    + intros d i [<-|Id] R.
      * rewrite A2. { rewrite (UM i). unfold in_range in R. destruct (Nat.leb_spec (c_m0 c) i), (Nat.ltb_spec i (c_m0 c + c_nm c)); cbn [andb]; try lia. reflexivity. }
        intros d Id R'. destruct (Dc d Id) as (K & _). unfold in_range in *. lia.
      * rewrite (A4 d i Id R). destruct (inm i) as [K|K].
        -- rewrite K. destruct (nth_error (f_mans f) i); cbn; [|reflexivity]. f_equal. now apply own_man_info.
        -- exfalso. destruct (Dc d Id) as (J & _). unfold in_range in *. lia.
Qed.

Lemma window_map : forall A (g : A -> A) s n l l', (forall i, in_range s n i -> nth_error l' i = option_map g (nth_error l i)) ->
  firstn n (skipn s l') = map g (firstn n (skipn s l)).
Proof.
  intros A g s n l l' H. apply list_ext. intro i. rewrite nth_error_map, !nth_error_window. destruct (Nat.ltb_spec i n); [|reflexivity].
  apply H. unfold in_range. lia.
Qed.

(** * The statements of the specification *)
Lemma close_iff : forall per p q, 0 <= per -> (rle (vlen2 (vsub (i_p1 (d_info p)) (i_p1 (d_info q)))) (per * per) = true <-> close per p q).
Proof.
  intros per p q H. rewrite rle_true. unfold close, vlen. set (v := vlen2 _). assert (0 <= v) by apply vlen2_nonneg. split; intros K.
  - apply sqrt_le_1_alt in K. rewrite sqrt_square in K by exact H. exact K.
  - rewrite <- (sqrt_sqrt v) by assumption. apply Rmult_le_compat; auto using sqrt_pos.
Qed.

Lemma give_point_inherits : forall per l q, 0 <= per -> point_inherits per l q (give_point (per * per) l q).
Proof.
  intros per l q H. unfold give_point. destruct (find_first _ _ (close per q) l (fun b => close_iff per q b H)) as [(r & -> & F)|(-> & F)].
  - left. exists r. split; [exact F|reflexivity].
  - right. split; [exact F|reflexivity].
Qed.

Lemma first_normal_at : forall f m, man_in (length (f_points f)) m -> first_normal f m = norm_at (f_points f) m.
Proof.
  intros f m (A1 & A2). unfold first_normal, points_in, norm_at. destruct (y_np m) as [|n]; [lia|].
  destruct (window_S _ (f_points f) (y_p0 m) n) as (a & E & ->); [lia|]. erewrite nth_error_nth by exact E. reflexivity.
Qed.

Lemma Forall2_map_r : forall A (P : A -> A -> Prop) (g : A -> A) l, (forall a, In a l -> P a (g a)) -> Forall2 P l (map g l).
Proof. intros A P g l H. induction l as [|a l IH]; [constructor|]. cbn. constructor; [apply H; now left|]. apply IH. intros b B. apply H. now right. Qed.

Lemma window_in : forall A n s (l : list A) x, In x (firstn n (skipn s l)) -> In x l.
Proof. intros A n s l x I. apply In_nth_error in I as (i & E). rewrite nth_error_window in E. destruct (i <? n)%nat; [|discriminate]. eapply nth_error_In; exact E. Qed.

Lemma inherit_shown : forall per cosmin old f f', 0 <= per -> sound old -> sound f ->
  (forall c i, In c (f_pairs f) -> in_range (c_p0 c) (c_np c) i -> nth_error (f_points f') i = option_map (own_point per old (c_id c)) (nth_error (f_points f) i)) ->
  (forall c i, In c (f_pairs f) -> in_range (c_m0 c) (c_nm c) i -> nth_error (f_mans f') i = option_map (own_man cosmin old (c_id c) (f_points f)) (nth_error (f_mans f) i)) ->
  forall c, In c (f_pairs f) -> Forall2 (point_inherits per (points_for old (c_id c))) (points_of f c) (points_of f' c) /\
    Forall2 (fun m m' => man_inherits cosmin old (manifolds_for old (c_id c)) (first_normal f m) m m') (manifolds_of f c) (manifolds_of f' c).
Proof.
  intros per cosmin old f f' Hp (SO1 & SO2) (SF1 & SF2) A B c I. split.
  - unfold points_of at 2. rewrite (window_map _ _ _ _ _ _ (fun i => A c i I)). fold (points_of f c). apply Forall2_map_r. intros q _. now apply give_point_inherits.
  - unfold manifolds_of at 2. rewrite (window_map _ _ _ _ _ _ (fun i => B c i I)). fold (manifolds_of f c). apply Forall2_map_r. intros m Im.
    assert (Jm : In m (f_mans f)) by (eapply window_in; exact Im). rewrite first_normal_at by (exact (SF2 m Jm)). unfold own_man, give_man, man_inherits.
    set (n := norm_at (f_points f) m).
    assert (SO : forall r, In r (manifolds_for old (c_id c)) -> first_normal old r = norm_at (f_points old) r).
    { intros r Ir. apply first_normal_at. unfold manifolds_for in Ir. destruct (find _ (f_pairs old)); [|contradiction]. apply SO2. eapply window_in; exact Ir. }
    destruct (find_first _ (fun r => rle cosmin (vdot (norm_at (f_points old) r) n)) (fun r => cosmin <= vdot (norm_at (f_points old) r) n) (manifolds_for old (c_id c)))
      as [(r & -> & (a & b & E & R & N))|(-> & N)]; [intro; apply rle_true| |].
    + left. exists r. split; [|reflexivity]. exists a, b. split; [exact E|]. split.
      * rewrite SO by (rewrite E; apply in_or_app; right; now left). exact R.
      * rewrite Forall_forall in *. intros x X. rewrite SO by (rewrite E; apply in_or_app; now left). now apply N.
    + right. split; [|reflexivity]. rewrite Forall_forall in *. intros x X. rewrite SO by exact X. now apply N.
Qed.

(** * Histories *)
Lemma nth_disjoint : forall l, (forall x y c d, x <> y -> nth_error l x = Some c -> nth_error l y = Some d -> disjoint c d) -> ForallOrdPairs disjoint l.
Proof.
  induction l as [|c l IH]; intros H; constructor.
  - rewrite Forall_forall. intros d I. apply In_nth_error in I as (i & E). apply (H 0%nat (S i) c d); [discriminate|reflexivity|exact E].
  - apply IH. intros x y a b D X Y. apply (H (S x) (S y) a b); [congruence|exact X|exact Y].
Qed.

Lemma contacts_frame : forall top cosmin rot infos order, well_formed top infos -> good_order infos order ->
  exists f o, contacts top cosmin rot infos order = Ok f /\ RInv cosmin infos o /\ sound f /\ ForallOrdPairs disjoint (f_pairs f) /\
    map c_id (f_pairs f) = map c_id (o_pairs o) /\
    (forall x c, nth_error (f_pairs f) x = Some c -> ~ In x order -> points_of f c = [] /\ manifolds_of f c = []) /\
    (forall x c', nth_error (f_pairs f) x = Some c' -> In x order -> exists c, In c (o_pairs o) /\ placed o f c c') /\
    (forall c', In c' (f_pairs f) -> exists c m0 nm p0 np, In c (o_pairs o) /\ c' = with_ranges m0 nm p0 np c).
Proof.
  intros top cosmin rot infos order W (N & B). destruct (contacts_ok top cosmin rot infos order W N B) as (f & o & E & RI & L & O & S & DJ & FM).
  exists f, o. split; [exact E|]. split; [exact RI|].
  assert (Z0 : forall x c, nth_error (f_pairs f) x = Some c -> ~ In x order -> c_m0 c = 0%nat /\ c_nm c = 0%nat /\ c_p0 c = 0%nat /\ c_np c = 0%nat).
  { intros x c X NI. rewrite O in X by exact NI. apply nth_error_In in X. destruct (R_flags _ _ _ RI c X) as (i & _ & _ & K).
    unfold with_pots, new_pair in K. inversion K. auto. }
  assert (PL : forall x c', nth_error (f_pairs f) x = Some c' -> In x order -> exists c, nth_error (o_pairs o) x = Some c /\ placed o f c c').
  { intros x c' X I. destruct (nth_error (o_pairs o) x) as [c|] eqn:Ex; [|exfalso; apply nth_error_None in Ex; rewrite <- L in Ex; apply nth_error_None in Ex; congruence].
    destruct (S x c I Ex) as (c2 & X2 & P). assert (c2 = c') by congruence. subst c2. eauto. }
  split; [|split; [|split; [|split; [|split]]]].
  - split; [|now apply Forall_forall]. intros c I. apply In_nth_error in I as (x & X). destruct (in_dec Nat.eq_dec x order) as [J|J].
    + destruct (PL x c X J) as (c0 & _ & (B1 & B2 & _) & _). auto.
    + destruct (Z0 x c X J) as (-> & -> & -> & ->). cbn. lia.
  - apply nth_disjoint. intros x y c d D X Y. destruct (in_dec Nat.eq_dec x order) as [I|I].
    + destruct (in_dec Nat.eq_dec y order) as [J|J]; [exact (DJ x y c d I J D X Y)|]. destruct (Z0 y d Y J) as (E1 & E2 & E3 & E4). unfold disjoint. lia.
    + destruct (Z0 x c X I) as (E1 & E2 & E3 & E4). unfold disjoint. lia.
  - apply list_ext. intro x. rewrite !nth_error_map. destruct (in_dec Nat.eq_dec x order) as [I|I]; [|now rewrite O].
    destruct (nth_error (f_pairs f) x) as [c'|] eqn:X.
    + destruct (PL x c' X I) as (c & -> & (_ & m0 & nm & p0 & np & ->)). reflexivity.
    + apply nth_error_None in X. rewrite L in X. apply nth_error_None in X. now rewrite X.
  - intros x c X I. destruct (Z0 x c X I) as (E1 & E2 & E3 & E4). unfold points_of, manifolds_of. now rewrite E2, E4.
  - intros x c' X I. destruct (PL x c' X I) as (c & Xc & P). exists c. split; [eapply nth_error_In; exact Xc|exact P].
  - intros c' I. apply In_nth_error in I as (x & X). destruct (in_dec Nat.eq_dec x order) as [J|J].
    + destruct (PL x c' X J) as (c & Xc & (_ & m0 & nm & p0 & np & K)). exists c, m0, nm, p0, np. split; [eapply nth_error_In; exact Xc|exact K].
    + rewrite O in X by exact J. exists c', (c_m0 c'), (c_nm c'), (c_p0 c'), (c_np c'). split; [eapply nth_error_In; exact X|now destruct c'].
Qed.

Lemma sound_geometry : forall f g, same_geometry f g -> sound f -> sound g.
Proof.
  intros f g (E1 & E2 & E3) (S1 & S2). assert (L : length (f_points g) = length (f_points f)) by (rewrite <- (map_length d_info), E2, map_length; reflexivity).
  assert (M : length (f_mans g) = length (f_mans f)) by (rewrite <- (map_length (fun m => (y_k1 m, y_k2 m, y_p0 m, y_np m))), E3, map_length; reflexivity).
  split; [rewrite E1, L, M; exact S1|]. rewrite L. intros m I. apply (in_map (fun m => (y_k1 m, y_k2 m, y_p0 m, y_np m))) in I. rewrite E3 in I.
  apply in_map_iff in I as (m0 & K & I0). injection K as _ _ K3 K4. destruct (S2 m0 I0). lia.
Qed.

Lemma update_ok : forall top per cosmin rot infos order old, 0 <= per -> well_formed top infos -> good_order infos order -> sound old ->
  exists f f', contacts top cosmin rot infos order = Ok f /\ update_contacts top per cosmin rot infos order old = Ok f' /\ sound f' /\ same_geometry f f' /\
    forall c, In c (f_pairs f) -> Forall2 (point_inherits per (points_for old (c_id c))) (points_of f c) (points_of f' c) /\
      Forall2 (fun m m' => man_inherits cosmin old (manifolds_for old (c_id c)) (first_normal f m) m m') (manifolds_of f c) (manifolds_of f' c).
Proof.
  intros top per cosmin rot infos order old Hp W G SO. destruct (contacts_frame top cosmin rot infos order W G) as (f & o & E & RI & SF & DJ & _).
  destruct (inherit_ok per cosmin old (f_pairs f) f SO SF (fun c I => I) DJ) as (f' & E' & S' & EP & EI & A1 & A2 & A3 & A4).
  exists f, f'. split; [exact E|]. split; [unfold update_contacts; rewrite E; exact E'|]. split; [exact S'|]. split.
  - split; [exact EP|]. split; [exact EI|]. apply list_ext. intro i. rewrite !nth_error_map.
    assert (K : (exists c, In c (f_pairs f) /\ in_range (c_m0 c) (c_nm c) i) \/ forall c, In c (f_pairs f) -> ~ in_range (c_m0 c) (c_nm c) i).
    { clear. induction (f_pairs f) as [|c l IH]; [right; intros c []|]. destruct (Nat.leb_spec (c_m0 c) i), (Nat.ltb_spec i (c_m0 c + c_nm c));
        [left; exists c; split; [now left|split; assumption]| | |]; (destruct IH as [(d & I & R)|H']; [left; exists d; split; [now right|exact R]|right; intros d [<-|I]; [unfold in_range; lia|now apply H']]). }
    destruct K as [(c & I & R)|H].
    + rewrite (A4 c i I R). destruct (nth_error (f_mans f) i) as [m|]; cbn; [|reflexivity]. unfold own_man, give_man. destruct (find _ _); reflexivity.
    + now rewrite A2.
  - intros c I. exact (inherit_shown per cosmin old f f' Hp SO SF A3 A4 c I).
Qed.

Lemma reachable_sound : forall top per cosmin f, 0 <= per -> reachable top per cosmin f -> sound f.
Proof.
  intros top per cosmin f Hp H. induction H as [|rot infos order f f' g R IH W G E S].
  - split; intros ? [].
  - destruct (update_ok top per cosmin rot infos order f Hp W G IH) as (f0 & f1 & _ & E1 & S1 & _). assert (f1 = f') by congruence. subst f1.
    eapply sound_geometry; eassumption.
Qed.
