(** Proofs about the heap allocator: headers form two linked lists, the units tile the chunks. *)
From Coq Require Import Permutation.
From Verif Require Import Base HeapModel.
Open Scope Z_scope.

Lemma HDR48 : HDR = 48.
Proof. reflexivity. Qed.
#[global] Opaque HDR.

(** ** Doubly linked lists in a field-separated memory *)

Fixpoint dl (pv nx : Z -> Z) (p : Z) (l : list Z) (n : Z) : Prop :=
  match l with
  | [] => True
  | a :: l' => pv a = p /\ nx a = hd n l' /\ dl pv nx a l' n
  end.

Lemma last_cons : forall (l : list Z) a d, last (a :: l) d = last l a.
Proof. induction l as [|b l IH]; intros; [reflexivity|]. change (last (a :: b :: l) d) with (last (b :: l) d). rewrite !IH. reflexivity. Qed.

Lemma last_app1 : forall (l1 l2 : list Z) d, last (l1 ++ l2) d = last l2 (last l1 d).
Proof. induction l1 as [|b l IH]; intros; [reflexivity|]. rewrite <- app_comm_cons, !last_cons, IH. reflexivity. Qed.

Lemma hd_app : forall (l1 l2 : list Z) d, hd d (l1 ++ l2) = hd (hd d l2) l1.
Proof. destruct l1; reflexivity. Qed.

Lemma dl_app : forall pv nx l1 l2 p n,
  dl pv nx p (l1 ++ l2) n <-> dl pv nx p l1 (hd n l2) /\ dl pv nx (last l1 p) l2 n.
Proof.
  induction l1 as [|a l1 IH]; intros l2 p n; [cbn; tauto|].
  rewrite last_cons. cbn [app dl]. rewrite IH, hd_app. tauto.
Qed.

Lemma dl_ext : forall pv nx pv' nx' l p n,
  (forall a, In a l -> pv' a = pv a /\ nx' a = nx a) ->
  dl pv nx p l n -> dl pv' nx' p l n.
Proof.
  induction l as [|a l IH]; intros p n H D; [exact I|].
  destruct D as (D1 & D2 & D3).
  destruct (H a (or_introl eq_refl)) as [E1 E2].
  cbn [dl]; splits; [congruence|congruence|].
  apply IH; [|exact D3]. intros b Hb; apply H; right; exact Hb.
Qed.

(** Changing the next pointer of the last element. *)
Lemma dl_set_next : forall pv nx l p n n',
  NoDup l -> dl pv nx p l n ->
  dl pv (match l with [] => nx | _ => upd nx (last l 0) n' end) p l n'.
Proof.
  intros pv nx l. destruct l as [|a l] using rev_ind; intros p n n' ND D; [exact I|].
  clear IHl.
  replace (match l ++ [a] with [] => nx | _ => upd nx (last (l ++ [a]) 0) n' end)
    with (upd nx a n').
  2:{ rewrite last_app1. cbn [last]. destruct l; reflexivity. }
  rewrite dl_app in D |- *. destruct D as [D1 D2].
  cbn in D2. destruct D2 as (E1 & E2 & _).
  assert (Hn : ~ In a l).
  { apply NoDup_remove_2 in ND. rewrite app_nil_r in ND. exact ND. }
  split.
  - cbn [hd] in *. eapply dl_ext; [|exact D1].
    intros b Hb. split; [reflexivity|]. apply upd_other. intro; subst; contradiction.
  - cbn. rewrite upd_same. tauto.
Qed.

(** Changing the previous pointer of the first element. *)
Lemma dl_set_prev : forall pv nx l p p' n,
  NoDup l -> dl pv nx p l n ->
  dl (match l with [] => pv | b :: _ => upd pv b p' end) nx p' l n.
Proof.
  intros pv nx [|b l] p p' n ND D; [exact I|].
  destruct D as (D1 & D2 & D3). inversion ND; subst.
  cbn [dl]. rewrite upd_same. splits; [reflexivity|exact D2|].
  eapply dl_ext; [|exact D3].
  intros x Hx. split; [|reflexivity]. apply upd_other. intro; subst; contradiction.
Qed.

Lemma dl_nx_upd_notin : forall pv nx l p n a v, ~ In a l -> dl pv nx p l n -> dl pv (upd nx a v) p l n.
Proof.
  intros. eapply dl_ext; [|eassumption]. intros b Hb; split; [reflexivity|].
  apply upd_other; intro; subst; contradiction.
Qed.
Lemma dl_pv_upd_notin : forall pv nx l p n a v, ~ In a l -> dl pv nx p l n -> dl (upd pv a v) nx p l n.
Proof.
  intros. eapply dl_ext; [|eassumption]. intros b Hb; split; [|reflexivity].
  apply upd_other; intro; subst; contradiction.
Qed.

(** ** Units *)

Record unit_ : Type := U { ua : Z; us : Z; uc : bool; ual : bool }.

Definition addrs (l : list unit_) : list Z := map ua l.
Definition ext (u : unit_) : Z * Z := (ua u, HDR + us u).
Definition disj (x y : Z * Z) : Prop := fst x + snd x <= fst y \/ fst y + snd y <= fst x.

(** [tiled l cs]: the units of [l], in order, exactly fill the chunks [cs] (start, length); the
    first chunk may be the remainder of a chunk. *)
Fixpoint tiled (l : list unit_) (cs : list (Z * Z)) : Prop :=
  match l with
  | [] => cs = []
  | u :: l' =>
      0 < us u /\
      exists cs',
        if uc u
        then exists n, 0 < n /\ cs = (ua u, HDR + us u + n) :: cs' /\
                       tiled l' ((ua u + HDR + us u, n) :: cs')
        else cs = (ua u, HDR + us u) :: cs' /\ tiled l' cs'
  end.

Lemma tiled_in : forall l cs u, tiled l cs -> In u l ->
  exists c, In c cs /\ fst c <= ua u /\ ua u + HDR + us u <= fst c + snd c /\ 0 < us u.
Proof.
  induction l as [|v l IH]; intros cs u T H; [contradiction|].
  destruct T as (P & cs' & T).
  destruct H as [<-|H].
  - destruct (uc v).
    + destruct T as (n & Hn & -> & T). eexists; split; [left; reflexivity|]. cbn [fst snd]. lia.
    + destruct T as (-> & T). eexists; split; [left; reflexivity|]. cbn [fst snd]. lia.
  - destruct (uc v).
    + destruct T as (n & Hn & -> & T). destruct (IH _ _ T H) as (c & [<-|Hc] & B).
      * eexists; split; [left; reflexivity|]. cbn [fst snd] in *. pose proof HDR48. lia.
      * exists c; split; [right; exact Hc|exact B].
    + destruct T as (-> & T). destruct (IH _ _ T H) as (c & Hc & B).
      exists c; split; [right; exact Hc|exact B].
Qed.

Lemma tiled_disj : forall l cs, tiled l cs -> ForallOrdPairs disj cs ->
  ForallOrdPairs disj (map ext l).
Proof.
  induction l as [|v l IH]; intros cs T D; [constructor|].
  pose proof T as T0.
  destruct T as (P & cs' & T). cbn [map].
  destruct (uc v).
  - destruct T as (n & Hn & -> & T).
    inversion D as [|? ? D1 D2]; subst.
    assert (D' : ForallOrdPairs disj ((ua v + HDR + us v, n) :: cs')).
    { constructor; [|exact D2]. rewrite Forall_forall in *. intros c Hc.
      specialize (D1 c Hc). unfold disj in *. cbn [fst snd] in *. pose proof HDR48. lia. }
    constructor; [|exact (IH _ T D')].
    rewrite Forall_forall. intros e He. apply in_map_iff in He. destruct He as (w & <- & Hw).
    destruct (tiled_in _ _ _ T Hw) as (c & [<-|Hc] & B).
    + unfold disj, ext in *. cbn [fst snd] in *. lia.
    + rewrite Forall_forall in D1. specialize (D1 c Hc).
      unfold disj, ext in *. cbn [fst snd] in *. pose proof HDR48. lia.
  - destruct T as (-> & T).
    inversion D as [|? ? D1 D2]; subst.
    constructor; [|exact (IH _ T D2)].
    rewrite Forall_forall. intros e He. apply in_map_iff in He. destruct He as (w & <- & Hw).
    destruct (tiled_in _ _ _ T Hw) as (c & Hc & B).
    rewrite Forall_forall in D1. specialize (D1 c Hc).
    unfold disj, ext in *. cbn [fst snd] in *. pose proof HDR48. lia.
Qed.

Lemma disj_nodup : forall l, Forall (fun u => 0 < us u) l -> ForallOrdPairs disj (map ext l) -> NoDup (addrs l).
Proof.
  induction l as [|v l IH]; intros P D; [constructor|].
  inversion D as [|? ? D1 D2]; subst. inversion P; subst.
  cbn. constructor; [|auto].
  intro H. apply in_map_iff in H. destruct H as (w & E & Hw).
  rewrite Forall_forall in D1. specialize (D1 (ext w) (in_map _ _ _ Hw)).
  rewrite Forall_forall in H2. specialize (H2 _ Hw).
  unfold disj, ext in D1. cbn in D1. pose proof HDR48. lia.
Qed.

Lemma tiled_flag : forall l1 u l2 cs b, tiled (l1 ++ u :: l2) cs ->
  tiled (l1 ++ U (ua u) (us u) (uc u) b :: l2) cs.
Proof.
  induction l1 as [|v l1 IH]; intros u l2 cs b T.
  - exact T.
  - cbn [app tiled] in *. destruct T as (P & cs' & T). split; [exact P|]. exists cs'.
    destruct (uc v).
    + destruct T as (n & Hn & E & T). exists n; splits; auto.
    + destruct T as (E & T). split; auto.
Qed.

Lemma tiled_split : forall l1 u l2 cs s b b', tiled (l1 ++ u :: l2) cs -> 0 < s -> s + HDR < us u ->
  tiled (l1 ++ U (ua u) s true b :: U (ua u + HDR + s) (us u - HDR - s) (uc u) b' :: l2) cs.
Proof.
  induction l1 as [|v l1 IH]; intros u l2 cs s b b' T Hs Hu.
  - cbn [app tiled ua us uc] in *. destruct T as (P & cs' & T). split; [exact Hs|].
    exists cs'.
    destruct (uc u) eqn:EC.
    + destruct T as (n & Hn & -> & T).
      exists (us u - s + n). splits; [pose proof HDR48; lia|f_equal; f_equal; lia|lia|].
      exists cs', n. splits; [exact Hn|f_equal; f_equal; lia|].
      replace (ua u + HDR + s + HDR + (us u - HDR - s)) with (ua u + HDR + us u) by lia. exact T.
    + destruct T as (-> & T).
      exists (us u - s). splits; [pose proof HDR48; lia|f_equal; f_equal; lia|lia|].
      exists cs'. split; [f_equal; f_equal; lia|exact T].
  - cbn [app tiled] in *. destruct T as (P & cs' & T). split; [exact P|]. exists cs'.
    destruct (uc v).
    + destruct T as (n & Hn & E & T). exists n; splits; auto.
    + destruct T as (E & T). split; auto.
Qed.

Lemma tiled_next : forall l1 u v l2 cs, tiled (l1 ++ u :: v :: l2) cs -> uc u = true ->
  ua v = ua u + HDR + us u.
Proof.
  induction l1 as [|w l1 IH]; intros u v l2 cs T C.
  - cbn [app tiled] in T. rewrite C in T.
    destruct T as (P & cs' & n & Hn & E & Pv & cs'' & T).
    destruct (uc v).
    + destruct T as (m & Hm & E2 & T). inversion E2. lia.
    + destruct T as (E2 & T). inversion E2. lia.
  - cbn [app tiled] in T. destruct T as (P & cs' & T). destruct (uc w).
    + destruct T as (n & Hn & E & T). eauto.
    + destruct T as (E & T). eauto.
Qed.

Lemma tiled_last : forall l1 u cs, tiled (l1 ++ [u]) cs -> uc u = false.
Proof.
  induction l1 as [|w l1 IH]; intros u cs T.
  - cbn [app tiled] in T. destruct (uc u); [|reflexivity].
    destruct T as (P & cs' & n & Hn & E & T). discriminate.
  - cbn [app tiled] in T. destruct T as (P & cs' & T). destruct (uc w).
    + destruct T as (n & Hn & E & T). eauto.
    + destruct T as (E & T). eauto.
Qed.

Lemma tiled_merge : forall l1 u v l2 cs b, tiled (l1 ++ u :: v :: l2) cs -> uc u = true ->
  tiled (l1 ++ U (ua u) (us u + (us v + HDR)) (uc v) b :: l2) cs.
Proof.
  induction l1 as [|w l1 IH]; intros u v l2 cs b T C.
  - pose proof (tiled_next [] u v l2 cs T C) as EA.
    cbn [app tiled ua us uc] in *. rewrite C in T.
    destruct T as (P & cs' & n & Hn & -> & Pv & cs'' & T).
    split; [pose proof HDR48; lia|].
    destruct (uc v).
    + destruct T as (m & Hm & E2 & T). inversion E2; subst.
      exists cs''. exists m. splits; [exact Hm|f_equal; f_equal; lia|].
      replace (ua u + HDR + (us u + (us v + HDR))) with (ua v + HDR + us v) by lia. exact T.
    + destruct T as (E2 & T). inversion E2; subst.
      exists cs''. split; [f_equal; f_equal; lia|exact T].
  - cbn [app tiled] in *. destruct T as (P & cs' & T). split; [exact P|]. exists cs'.
    destruct (uc w).
    + destruct T as (n & Hn & E & T). exists n; splits; auto.
    + destruct T as (E & T). split; auto.
Qed.

(** ** The structural invariant *)

Definition chunks_ok (cs : list (Z * Z)) : Prop :=
  ForallOrdPairs disj cs /\ Forall (fun c => 0 < fst c) cs.

Record Core (h : heap) (l : list unit_) (fs : list Z) : Prop := mk_core {
  c_tiled : tiled l (h_log h);
  c_chunks : chunks_ok (h_log h);
  c_dlU : dl (h_pU h) (h_nU h) 0 (addrs l) 0;
  c_units : h_units h = hd 0 (addrs l);
  c_dlF : dl (h_pF h) (h_nF h) 0 fs 0;
  c_free : h_free h = hd 0 fs;
  c_ndF : NoDup fs;
  c_inc : incl fs (addrs l);
  c_fields : Forall (fun u => h_sz h (ua u) = us u /\ h_ct h (ua u) = uc u /\ h_al h (ua u) = ual u) l;
  c_null : forall a, In a (addrs l) -> ~ In a fs -> h_pF h a = 0 /\ h_nF h a = 0;
  c_dom : forall a, h_dom h a = true <-> In a (addrs l);
  c_cnt : (length l <= h_cnt h)%nat
}.

Definition frame (h h' : heap) : Prop :=
  h_off h' = h_off h /\ h_log h' = h_log h /\ h_total h' = h_total h.

Lemma core_pos : forall h l fs a, Core h l fs -> In a (addrs l) -> 0 < a.
Proof.
  intros h l fs a C H. apply in_map_iff in H. destruct H as (u & <- & Hu).
  destruct (tiled_in _ _ _ (c_tiled _ _ _ C) Hu) as (c & Hc & B1 & _).
  destruct (c_chunks _ _ _ C) as [_ P]. rewrite Forall_forall in P. specialize (P c Hc). cbn in P. lia.
Qed.

Lemma core_nodup : forall h l fs, Core h l fs -> NoDup (addrs l).
Proof.
  intros h l fs C. apply disj_nodup.
  - rewrite Forall_forall; intros u Hu.
    destruct (tiled_in _ _ _ (c_tiled _ _ _ C) Hu) as (c & _ & _ & _ & P); exact P.
  - eapply tiled_disj; [exact (c_tiled _ _ _ C)|exact (proj1 (c_chunks _ _ _ C))].
Qed.

Lemma core_live : forall h l fs a, Core h l fs -> In a (addrs l) -> live_hdr h a = Ok tt.
Proof. intros h l fs a C H. unfold live_hdr. rewrite (proj2 (c_dom _ _ _ C a) H). reflexivity. Qed.

Lemma addrs_app : forall l1 l2, addrs (l1 ++ l2) = addrs l1 ++ addrs l2.
Proof. intros; apply map_app. Qed.
Lemma addrs_cons : forall u l, addrs (u :: l) = ua u :: addrs l.
Proof. reflexivity. Qed.

Lemma addrs_In : forall u l, In u l -> In (ua u) (addrs l).
Proof. intros; apply in_map; assumption. Qed.

Lemma core_fields : forall h l fs u, Core h l fs -> In u l ->
  h_sz h (ua u) = us u /\ h_ct h (ua u) = uc u /\ h_al h (ua u) = ual u.
Proof. intros h l fs u C H. pose proof (c_fields _ _ _ C) as F. rewrite Forall_forall in F. auto. Qed.

Lemma hd_In : forall (l : list Z), hd 0 l <> 0 -> In (hd 0 l) l.
Proof. destruct l; cbn; [congruence|auto]. Qed.
Lemma last_In : forall (l : list Z), last l 0 <> 0 -> In (last l 0) l.
Proof.
  intros l. destruct l as [|a l] using rev_ind; cbn; [congruence|].
  intros _. rewrite last_app1. cbn. apply in_or_app; right; left; reflexivity.
Qed.

(** ** removeFromFreeUnits *)
Lemma remove_free_core : forall h l f1 a f2,
  Core h l (f1 ++ a :: f2) ->
  exists h', remove_free a h = Ok h' /\ Core h' l (f1 ++ f2) /\ frame h h' /\
    h_pU h' = h_pU h /\ h_nU h' = h_nU h /\ h_pF h' a = 0 /\ h_nF h' a = 0 /\
    h_sz h' = h_sz h /\ h_ct h' = h_ct h /\ h_al h' = h_al h.
Proof.
  intros h l f1 a f2 C.
  pose proof (c_dlF _ _ _ C) as D. pose proof (c_ndF _ _ _ C) as ND.
  pose proof (c_inc _ _ _ C) as INC.
  assert (Pos : forall x, In x (f1 ++ a :: f2) -> 0 < x) by (intros; eapply core_pos; eauto).
  assert (Lv : forall x, In x (f1 ++ a :: f2) -> h_dom h x = true) by (intros; apply (c_dom _ _ _ C); auto).
  rewrite dl_app in D. cbn [hd dl] in D. destruct D as (D1 & Ep & En & D2).
  pose proof (NoDup_remove_1 _ _ _ ND) as ND'.
  pose proof (NoDup_remove_2 _ _ _ ND) as NI.
  assert (NI1 : ~ In a f1) by (intro; apply NI, in_or_app; auto).
  assert (NI2 : ~ In a f2) by (intro; apply NI, in_or_app; auto).
  assert (ND1 : NoDup f1 /\ NoDup f2 /\ forall x, In x f1 -> In x f2 -> False).
  { clear - ND'. induction f1 as [|x f1 IH]; cbn in *; [splits; [constructor|auto|tauto]|].
    inversion ND'; subst. destruct IH as (A & B & Cc); [assumption|].
    splits; [constructor; [intro; apply H1, in_or_app; auto|auto]|auto|].
    intros y [<-|Hy] Hy2; [apply H1, in_or_app; auto|eauto]. }
  destruct ND1 as (ND1 & ND2 & DJ).
  assert (Hmid : In a (f1 ++ a :: f2)) by (apply in_or_app; right; left; reflexivity).
  unfold remove_free.
  unfold live_hdr at 1. rewrite (Lv a Hmid). cbn [bind].
  rewrite Ep, En.
  set (nF1 := match f1 with [] => h_nF h | _ => upd (h_nF h) (last f1 0) (hd 0 f2) end).
  assert (S1 : set_nF (last f1 0) (hd 0 f2) h = Ok (with_nF nF1 h)).
  { unfold set_nF, nF1. destruct f1 as [|x f1'].
    - cbn. destruct h; reflexivity.
    - assert (Hin : In (last (x :: f1') 0) (x :: f1')).
      { destruct (exists_last (l:=x :: f1')) as (m & z & E); [discriminate|]. rewrite E, last_app1. cbn. apply in_or_app; right; left; reflexivity. }
      assert (Hin' : In (last (x :: f1') 0) ((x :: f1') ++ a :: f2)) by (apply in_or_app; left; exact Hin).
      pose proof (Pos _ Hin'). destruct (Z.eqb_spec (last (x :: f1') 0) 0); [lia|].
      unfold live_hdr. rewrite (Lv _ Hin'). reflexivity. }
  rewrite S1. cbn [bind with_nF h_nF h_pF].
  assert (E2 : nF1 a = hd 0 f2).
  { unfold nF1. destruct f1 as [|x f1']; [exact En|]. rewrite upd_other; [exact En|].
    intro E. apply NI1. rewrite E.
    destruct (exists_last (l:=x :: f1')) as (m & z & E'); [discriminate|]. rewrite E', last_app1. cbn. apply in_or_app; right; left; reflexivity. }
  rewrite E2, Ep.
  set (pF1 := match f2 with [] => h_pF h | b :: _ => upd (h_pF h) b (last f1 0) end).
  assert (S2 : set_pF (hd 0 f2) (last f1 0) (with_nF nF1 h) = Ok (with_pF pF1 (with_nF nF1 h))).
  { unfold set_pF, pF1. destruct f2 as [|b f2'].
    - cbn. destruct h; reflexivity.
    - cbn [hd]. assert (Hb : In b (f1 ++ a :: b :: f2')) by (apply in_or_app; right; right; left; reflexivity).
      pose proof (Pos _ Hb). destruct (Z.eqb_spec b 0); [lia|].
      unfold live_hdr. cbn [with_nF h_dom]. rewrite (Lv _ Hb). reflexivity. }
  rewrite S2. cbn [bind].
  cbn [with_nF with_pF h_nF h_pF h_free]. rewrite E2.
  eexists. split; [reflexivity|].
  set (h3 := if a =? h_free h then _ else _).
  assert (F3 : h_free h3 = hd 0 (f1 ++ f2) /\ h_pF h3 = pF1 /\ h_nF h3 = nF1 /\ h_pU h3 = h_pU h /\ h_nU h3 = h_nU h
    /\ h_sz h3 = h_sz h /\ h_ct h3 = h_ct h /\ h_al h3 = h_al h /\ h_dom h3 = h_dom h /\ h_cnt h3 = h_cnt h
    /\ h_units h3 = h_units h /\ frame h h3).
  { unfold h3, frame. rewrite (c_free _ _ _ C).
    destruct (Z.eqb_spec a (hd 0 (f1 ++ a :: f2))) as [E|E].
    - assert (f1 = []). { destruct f1 as [|x f1']; [reflexivity|]. cbn in E. exfalso; apply NI1; left; congruence. }
      subst f1. cbn. splits; reflexivity.
    - destruct f1 as [|x f1']; [cbn in E; congruence|]. cbn. rewrite (c_free _ _ _ C). splits; reflexivity. }
  clearbody h3. destruct F3 as (G1 & G2 & G3 & G4 & G5 & G6 & G7 & G8 & G9 & G10 & G11 & (G12 & G13 & G14)).
  cbn [with_pF with_nF h_nF h_pF].
  rewrite G2, G3.
  split; [|splits].
  - constructor; cbn [with_pF with_nF h_dom h_pU h_nU h_pF h_nF h_sz h_ct h_al h_off h_units h_free h_total h_log h_cnt];
      rewrite ?G2, ?G3, ?G4, ?G5, ?G6, ?G7, ?G8, ?G9, ?G10, ?G11, ?G12, ?G13, ?G14.
    + apply (c_tiled _ _ _ C).
    + apply (c_chunks _ _ _ C).
    + apply (c_dlU _ _ _ C).
    + apply (c_units _ _ _ C).
    + apply dl_nx_upd_notin; [exact NI|]. apply dl_pv_upd_notin; [exact NI|].
      rewrite dl_app. split.
      * assert (Q : dl (h_pF h) nF1 0 f1 (hd 0 f2)) by (unfold nF1; eapply dl_set_next; eauto).
        unfold pF1. destruct f2 as [|b f2']; [exact Q|]. apply dl_pv_upd_notin; [|exact Q].
        intro Hb; apply (DJ b Hb); left; reflexivity.
      * assert (Q : dl pF1 (h_nF h) (last f1 0) f2 0) by (unfold pF1; eapply dl_set_prev; eauto).
        unfold nF1. destruct f1 as [|x f1']; [exact Q|]. apply dl_nx_upd_notin; [|exact Q].
        intro Hb. apply (DJ (last (x :: f1') 0)); [|exact Hb].
        destruct (exists_last (l:=x :: f1')) as (m & z & E'); [discriminate|]. rewrite E', last_app1. cbn. apply in_or_app; right; left; reflexivity.
    + exact G1.
    + exact ND'.
    + intros x Hx. apply INC. apply in_app_or in Hx. apply in_or_app. cbn; tauto.
    + apply (c_fields _ _ _ C).
    + intros x Hx Hn. destruct (Z.eq_dec x a) as [->|Hxa].
      * rewrite !upd_same. split; reflexivity.
      * rewrite !upd_other by exact Hxa.
        destruct (c_null _ _ _ C x Hx) as [N1 N2].
        { intro Hf. apply Hn. apply in_app_or in Hf. apply in_or_app. cbn in Hf. destruct Hf as [|[|]]; [tauto|congruence|tauto]. }
        unfold pF1, nF1. split.
        -- destruct f2 as [|b f2']; [exact N1|]. rewrite upd_other; [exact N1|]. intro; subst. apply Hn, in_or_app; right; left; reflexivity.
        -- destruct f1 as [|y f1']; [exact N2|]. rewrite upd_other; [exact N2|]. intro; subst. apply Hn, in_or_app; left.
           destruct (exists_last (l:=y :: f1')) as (m & z & E'); [discriminate|]. rewrite E', last_app1. cbn. apply in_or_app; right; left; reflexivity.
    + apply (c_dom _ _ _ C).
    + apply (c_cnt _ _ _ C).
  - unfold frame; cbn. rewrite G12, G13, G14. splits; reflexivity.
  - cbn. exact G4.
  - cbn. exact G5.
  - cbn. apply upd_same.
  - cbn. apply upd_same.
  - exact G6.
  - exact G7.
  - exact G8.
Qed.

(** ** addToFreeUnits *)
Lemma add_free_core : forall h l fs a,
  Core h l fs -> In a (addrs l) -> ~ In a fs ->
  exists h', add_free a h = Ok h' /\ Core h' l (a :: fs) /\ frame h h'.
Proof.
  intros h l fs a C Ha Hn.
  pose proof (c_ndF _ _ _ C) as ND.
  set (pF1 := match fs with [] => h_pF h | b :: _ => upd (h_pF h) b a end).
  assert (S1 : set_pF (h_free h) a h = Ok (with_pF pF1 h)).
  { unfold set_pF, pF1. rewrite (c_free _ _ _ C). destruct fs as [|b fs']; cbn [hd].
    - destruct h; reflexivity.
    - assert (Hb : In b (addrs l)) by (apply (c_inc _ _ _ C); left; reflexivity).
      pose proof (core_pos _ _ _ _ C Hb). destruct (Z.eqb_spec b 0); [lia|].
      rewrite (core_live _ _ _ _ C Hb). reflexivity. }
  unfold add_free. rewrite S1. cbn [bind].
  unfold live_hdr. cbn [with_pF h_dom]. rewrite (proj2 (c_dom _ _ _ C a) Ha). cbn [bind].
  eexists; split; [reflexivity|]. split; [|unfold frame; cbn; splits; reflexivity].
  destruct (c_null _ _ _ C a Ha Hn) as [N1 N2].
  constructor; cbn [with_free with_pF with_nF h_dom h_pU h_nU h_pF h_nF h_sz h_ct h_al h_off h_units h_free h_total h_log h_cnt].
  - apply (c_tiled _ _ _ C).
  - apply (c_chunks _ _ _ C).
  - apply (c_dlU _ _ _ C).
  - apply (c_units _ _ _ C).
  - cbn [dl]. rewrite upd_same. splits.
    + unfold pF1. destruct fs as [|b fs']; [exact N1|]. rewrite upd_other; [exact N1|]. intro; subst; apply Hn; left; reflexivity.
    + apply (c_free _ _ _ C).
    + apply dl_nx_upd_notin; [exact Hn|]. unfold pF1. eapply dl_set_prev; [exact ND|]. apply (c_dlF _ _ _ C).
  - reflexivity.
  - constructor; assumption.
  - intros x [<-|Hx]; [exact Ha|]. apply (c_inc _ _ _ C); exact Hx.
  - apply (c_fields _ _ _ C).
  - intros x Hx Hnx. cbn in Hnx.
    destruct (c_null _ _ _ C x Hx) as [M1 M2]; [tauto|].
    rewrite upd_other by (intro; subst; tauto). split; [|exact M2].
    unfold pF1. destruct fs as [|b fs']; [exact M1|]. rewrite upd_other; [exact M1|]. intro; subst; cbn in Hnx; tauto.
  - apply (c_dom _ _ _ C).
  - apply (c_cnt _ _ _ C).
Qed.

(** ** Changing the allocation flag *)
Lemma set_al_core : forall h l1 u l2 fs b,
  Core h (l1 ++ u :: l2) fs ->
  Core (with_al (upd (h_al h) (ua u) b) h) (l1 ++ U (ua u) (us u) (uc u) b :: l2) fs.
Proof.
  intros h l1 u l2 fs b C.
  assert (EA : addrs (l1 ++ U (ua u) (us u) (uc u) b :: l2) = addrs (l1 ++ u :: l2)).
  { rewrite !addrs_app. reflexivity. }
  pose proof (core_nodup _ _ _ C) as ND.
  constructor; cbn [with_al h_dom h_pU h_nU h_pF h_nF h_sz h_ct h_al h_off h_units h_free h_total h_log h_cnt]; rewrite ?EA.
  - apply tiled_flag. apply (c_tiled _ _ _ C).
  - apply (c_chunks _ _ _ C).
  - apply (c_dlU _ _ _ C).
  - apply (c_units _ _ _ C).
  - apply (c_dlF _ _ _ C).
  - apply (c_free _ _ _ C).
  - apply (c_ndF _ _ _ C).
  - apply (c_inc _ _ _ C).
  - pose proof (c_fields _ _ _ C) as F. rewrite addrs_app in ND. cbn in ND. apply NoDup_remove_2 in ND.
    rewrite Forall_app in *. destruct F as [F1 F2]. inversion F2 as [|? ? F3 F4]; subst.
    split.
    + rewrite Forall_forall in *. intros w Hw. specialize (F1 w Hw). rewrite upd_other; [exact F1|].
      intro E. apply ND, in_or_app. left. rewrite <- E. apply addrs_In; exact Hw.
    + constructor; cbn [ua us uc ual].
      * rewrite upd_same. tauto.
      * rewrite Forall_forall in *. intros w Hw. specialize (F4 w Hw). rewrite upd_other; [exact F4|].
        intro E. apply ND, in_or_app. right. rewrite <- E. apply addrs_In; exact Hw.
  - apply (c_null _ _ _ C).
  - apply (c_dom _ _ _ C).
  - pose proof (c_cnt _ _ _ C) as N. rewrite app_length in *. exact N.
Qed.

(** ** reserve *)
Definition fresh_chunk (cs : list (Z * Z)) (base n : Z) : Prop :=
  0 < base /\ Forall (disj (base, n)) cs.

Lemma reserve_core : forall h l fs size base,
  Core h l fs -> 0 < size -> fresh_chunk (h_log h) base (size + HDR) ->
  exists h', heap_reserve size base h = Ok h' /\
    Core h' (U base size false false :: l) (base :: fs) /\
    h_log h' = (base, size + HDR) :: h_log h /\ h_off h' = h_off h /\ h_total h' = h_total h + size.
Proof.
  intros h l fs size base C Hs [Hb FR].
  assert (NI : ~ In base (addrs l)).
  { intro H. apply in_map_iff in H. destruct H as (u & E & Hu).
    destruct (tiled_in _ _ _ (c_tiled _ _ _ C) Hu) as (c & Hc & B1 & B2 & B3).
    rewrite Forall_forall in FR. specialize (FR c Hc). unfold disj in FR. cbn [fst snd] in FR.
    pose proof HDR48. lia. }
  assert (NIf : ~ In base fs) by (intro; apply NI, (c_inc _ _ _ C); assumption).
  pose proof (core_nodup _ _ _ C) as ND.
  unfold heap_reserve.
  set (h1 := new_hdr base size 0 (h_units h) 0 (h_free h) false h).
  assert (DM : forall a, In a (addrs l) -> h_dom h1 a = true).
  { intros a Ha. unfold h1; cbn. rewrite upd_other by (intro; subst; contradiction). apply (c_dom _ _ _ C); exact Ha. }
  set (pF1 := match fs with [] => h_pF h1 | b :: _ => upd (h_pF h1) b base end).
  assert (S1 : set_pF (h_free h) base h1 = Ok (with_pF pF1 h1)).
  { unfold set_pF, pF1. rewrite (c_free _ _ _ C). destruct fs as [|b fs']; cbn [hd].
    - reflexivity.
    - assert (Hb' : In b (addrs l)) by (apply (c_inc _ _ _ C); left; reflexivity).
      pose proof (core_pos _ _ _ _ C Hb'). destruct (Z.eqb_spec b 0); [lia|].
      unfold live_hdr. rewrite (DM _ Hb'). reflexivity. }
  rewrite S1. cbn [bind].
  set (pU1 := match addrs l with [] => h_pU h1 | b :: _ => upd (h_pU h1) b base end).
  assert (S2 : set_pU (h_units h) base (with_pF pF1 h1) = Ok (with_pU pU1 (with_pF pF1 h1))).
  { unfold set_pU, pU1. rewrite (c_units _ _ _ C). destruct (addrs l) as [|b l'] eqn:EL; cbn [hd].
    - reflexivity.
    - assert (Hb' : In b (addrs l)) by (rewrite EL; left; reflexivity).
      pose proof (core_pos _ _ _ _ C Hb'). destruct (Z.eqb_spec b 0); [lia|].
      unfold live_hdr. cbn [with_pF h_dom]. rewrite <- EL in DM. rewrite (DM _ Hb'). reflexivity. }
  rewrite S2. cbn [bind].
  eexists; split; [reflexivity|]. split; [|cbn; splits; reflexivity].
  unfold pU1, pF1, h1.
  constructor; cbn [new_hdr with_pU with_pF h_dom h_pU h_nU h_pF h_nF h_sz h_ct h_al h_off h_units h_free h_total h_log h_cnt]; rewrite ?addrs_cons; cbn [ua us uc ual].
  - cbn [tiled ua us uc]. split; [exact Hs|]. exists (h_log h). split; [f_equal; f_equal; lia|]. apply (c_tiled _ _ _ C).
  - destruct (c_chunks _ _ _ C) as [P1 P2]. split; [constructor; assumption|constructor; assumption].
  - cbn [dl]. rewrite upd_same. splits.
    + destruct (addrs l) as [|b l'] eqn:EL; [apply upd_same|]. rewrite upd_other; [apply upd_same|]. intro; subst; apply NI; left; reflexivity.
    + apply (c_units _ _ _ C).
    + apply dl_nx_upd_notin; [exact NI|].
      eapply (dl_set_prev (upd (h_pU h) base 0)); [exact ND|]. apply dl_pv_upd_notin; [exact NI|]. apply (c_dlU _ _ _ C).
  - reflexivity.
  - cbn [dl]. rewrite upd_same. splits.
    + destruct fs as [|b fs']; [apply upd_same|]. rewrite upd_other; [apply upd_same|]. intro; subst; apply NIf; left; reflexivity.
    + apply (c_free _ _ _ C).
    + apply dl_nx_upd_notin; [exact NIf|].
      eapply (dl_set_prev (upd (h_pF h) base 0)); [apply (c_ndF _ _ _ C)|]. apply dl_pv_upd_notin; [exact NIf|]. apply (c_dlF _ _ _ C).
  - reflexivity.
  - constructor; [exact NIf|apply (c_ndF _ _ _ C)].
  - intros x [<-|Hx]; [left; reflexivity|right; apply (c_inc _ _ _ C); exact Hx].
  - constructor; cbn [ua us uc ual]; [rewrite !upd_same; splits; reflexivity|].
    pose proof (c_fields _ _ _ C) as F. rewrite Forall_forall in *. intros w Hw.
    rewrite !upd_other by (intro; subst; apply NI, addrs_In; exact Hw). auto.
  - intros x Hx Hn. cbn in Hx, Hn.
    assert (x <> base) by (intro; subst; tauto).
    destruct Hx as [|Hx]; [congruence|].
    destruct (c_null _ _ _ C x Hx) as [N1 N2]; [tauto|].
    rewrite (upd_other _ (h_nF h)) by assumption. split; [|exact N2].
    destruct fs as [|b fs']; [rewrite upd_other by assumption; exact N1|].
    rewrite upd_other by (intro; subst; cbn in Hn; tauto).
    rewrite upd_other by assumption. exact N1.
  - intros a. cbn [In]. destruct (Z.eq_dec a base) as [->|Ha].
    + rewrite upd_same. tauto.
    + rewrite upd_other by exact Ha. rewrite (c_dom _ _ _ C a). split; [tauto|]. intros [|]; [congruence|assumption].
  - cbn. pose proof (c_cnt _ _ _ C). lia.
Qed.

Lemma NoDup_app_inv : forall (A : Type) (l1 l2 : list A), NoDup (l1 ++ l2) ->
  NoDup l1 /\ NoDup l2 /\ forall x, In x l1 -> In x l2 -> False.
Proof.
  induction l1 as [|x f1 IH]; intros l2 H; cbn in *; [splits; [constructor|auto|tauto]|].
  inversion H; subst. destruct (IH _ H3) as (A1 & B & Cc).
  splits; [constructor; [intro; apply H2, in_or_app; auto|auto]|auto|].
  intros y [<-|Hy] Hy2; [apply H2, in_or_app; auto|eauto].
Qed.

(** Inserting [b] after [a] in a doubly linked list. *)
Lemma dl_insert : forall pv nx l1 a l2 b,
  NoDup (l1 ++ a :: l2) -> ~ In b (l1 ++ a :: l2) -> dl pv nx 0 (l1 ++ a :: l2) 0 ->
  dl (match l2 with [] => upd pv b a | c :: _ => upd (upd pv b a) c b end)
     (upd (upd nx b (hd 0 l2)) a b) 0 (l1 ++ a :: b :: l2) 0.
Proof.
  intros pv nx l1 a l2 b ND NI D.
  destruct (NoDup_app_inv _ _ _ ND) as (ND1 & ND2 & DJ).
  inversion ND2 as [|? ? NIa ND3]; subst.
  assert (Nb1 : ~ In b l1) by (intro; apply NI, in_or_app; auto).
  assert (Nb2 : ~ In b l2) by (intro; apply NI, in_or_app; cbn; auto).
  assert (Nba : b <> a) by (intro; subst; apply NI, in_or_app; cbn; auto).
  assert (Na1 : ~ In a l1) by (intro; apply (DJ a); cbn; auto).
  rewrite dl_app in D |- *. cbn [hd dl] in *. destruct D as (D1 & Ep & En & D2).
  splits.
  - apply dl_nx_upd_notin; [exact Na1|]. apply dl_nx_upd_notin; [exact Nb1|].
    destruct l2 as [|c l2']; [apply dl_pv_upd_notin; assumption|].
    apply dl_pv_upd_notin; [intro; apply (DJ c); cbn; auto|]. apply dl_pv_upd_notin; assumption.
  - destruct l2 as [|c l2']; [rewrite upd_other by congruence; exact Ep|].
    rewrite upd_other by (intro; subst; apply NIa; left; reflexivity).
    rewrite upd_other by congruence; exact Ep.
  - apply upd_same.
  - destruct l2 as [|c l2']; [apply upd_same|].
    rewrite upd_other by (intro; subst; apply Nb2; left; reflexivity). apply upd_same.
  - rewrite upd_other by exact Nba. apply upd_same.
  - apply dl_nx_upd_notin; [exact NIa|]. apply dl_nx_upd_notin; [exact Nb2|].
    destruct l2 as [|c l2']; [exact I|].
    eapply (dl_set_prev (upd pv b a) nx (c :: l2')); [exact ND3|]. apply dl_pv_upd_notin; [exact Nb2|exact D2].
Qed.

(** Unlinking [b] after [a]. *)
Lemma dl_unlink : forall pv nx l1 a b l2,
  NoDup (l1 ++ a :: b :: l2) -> dl pv nx 0 (l1 ++ a :: b :: l2) 0 ->
  dl (match l2 with [] => pv | c :: _ => upd pv c a end)
     (upd nx a (hd 0 l2)) 0 (l1 ++ a :: l2) 0.
Proof.
  intros pv nx l1 a b l2 ND D.
  destruct (NoDup_app_inv _ _ _ ND) as (ND1 & ND2 & DJ).
  inversion ND2 as [|? ? NIa ND3]; subst. inversion ND3 as [|? ? NIb ND4]; subst.
  assert (Na1 : ~ In a l1) by (intro; apply (DJ a); cbn; auto).
  rewrite dl_app in D |- *. cbn [hd dl] in *. destruct D as (D1 & Ep & En & Ebp & Ebn & D2).
  splits.
  - apply dl_nx_upd_notin; [exact Na1|].
    destruct l2 as [|c l2']; [exact D1|]. apply dl_pv_upd_notin; [intro; apply (DJ c); cbn; auto|exact D1].
  - destruct l2 as [|c l2']; [exact Ep|]. rewrite upd_other; [exact Ep|]. intro; subst; apply NIa; cbn; auto.
  - apply upd_same.
  - apply dl_nx_upd_notin; [intro; apply NIa; right; assumption|].
    eapply dl_set_prev; [exact ND4|exact D2].
Qed.

(** The pointers of a neighbour in the list of units. *)
Lemma dl_nx_at : forall pv nx l1 a l2 p n, dl pv nx p (l1 ++ a :: l2) n -> nx a = hd n l2.
Proof. intros. rewrite dl_app in H. cbn in H. tauto. Qed.
Lemma dl_pv_at : forall pv nx l1 a l2 p n, dl pv nx p (l1 ++ a :: l2) n -> pv a = last l1 p.
Proof. intros. rewrite dl_app in H. cbn in H. tauto. Qed.

Lemma hd_addrs_neq : forall h l fs u l', Core h l fs -> In u l' -> incl l' l -> hd 0 (addrs l') <> 0.
Proof.
  intros h l fs u [|v l'] C Hu Hi; [contradiction|]. cbn.
  assert (0 < ua v); [|lia]. eapply core_pos; [exact C|]. apply addrs_In, Hi; left; reflexivity.
Qed.

(** ** splitMemoryUnit *)
Lemma split_core : forall h l1 u l2 f1 f2 size,
  Core h (l1 ++ u :: l2) (f1 ++ ua u :: f2) -> 0 < size -> size + HDR < us u ->
  exists h', split_unit (ua u) size h = Ok h' /\
    Core h' (l1 ++ U (ua u) size true (ual u) :: U (ua u + HDR + size) (us u - HDR - size) (uc u) false :: l2)
            (f1 ++ ua u :: (ua u + HDR + size) :: f2) /\ frame h h'.
Proof.
  intros h l1 u l2 f1 f2 size C Hs Hu.
  set (a := ua u) in *. set (nu := a + HDR + size) in *.
  pose proof (core_nodup _ _ _ C) as ND.
  pose proof (c_ndF _ _ _ C) as NDF.
  assert (Hin : In u (l1 ++ u :: l2)) by (apply in_or_app; right; left; reflexivity).
  destruct (core_fields _ _ _ _ C Hin) as (Fs & Fc & Fa). fold a in Fs, Fc, Fa.
  (* the new address is inside the unit, hence fresh *)
  pose proof (tiled_disj _ _ (c_tiled _ _ _ (C)) (proj1 (c_chunks _ _ _ C))) as DJ.
  assert (NI : ~ In nu (addrs (l1 ++ u :: l2))).
  { intro H. apply in_map_iff in H. destruct H as (w & Ew & Hw).
    assert (Pw : 0 < us w) by (destruct (tiled_in _ _ _ (c_tiled _ _ _ C) Hw) as (? & _ & _ & _ & P); exact P).
    assert (Hd : disj (ext u) (ext w) \/ u = w).
    { clear - DJ Hw. revert DJ Hw. induction l1 as [|v l1 IH]; cbn; intros DJ Hw.
      - inversion DJ as [|? ? D1 D2]; subst. destruct Hw as [->|Hw]; [right; reflexivity|].
        left. rewrite Forall_forall in D1. apply D1, in_map; exact Hw.
      - inversion DJ as [|? ? D1 D2]; subst. destruct Hw as [->|Hw]; [|auto].
        left. rewrite Forall_forall in D1. assert (D3 : disj (ext w) (ext u)) by (apply D1, in_map, in_or_app; right; left; reflexivity).
        unfold disj in *. tauto. }
    destruct Hd as [Hd| ->].
    - unfold disj, ext in Hd. cbn [fst snd] in Hd. unfold nu, a in *. pose proof HDR48. lia.
    - unfold nu, a in *. pose proof HDR48. lia. }
  assert (NIf : ~ In nu (f1 ++ a :: f2)) by (intro; apply NI, (c_inc _ _ _ C); assumption).
  assert (Na : nu <> a) by (unfold nu; pose proof HDR48; lia).
  pose proof (dl_nx_at _ _ _ _ _ _ _ (c_dlF _ _ _ C)) as EnF.
  assert (EnU : h_nU h a = hd 0 (addrs l2)).
  { pose proof (c_dlU _ _ _ C) as D. rewrite addrs_app, addrs_cons in D. exact (dl_nx_at _ _ _ _ _ _ _ D). }
  unfold split_unit. rewrite (core_live _ _ _ a C (addrs_In _ _ Hin)). cbn [bind].
  rewrite Fs. destruct (Z.ltb_spec (size + HDR) (us u)); [|lia].
  fold nu. rewrite EnU, EnF.
  set (h1 := new_hdr nu (us u - HDR - size) a (hd 0 (addrs l2)) a (hd 0 f2) (h_ct h a) h).
  set (h3 := with_nF _ _).
  assert (DM : forall x, In x (addrs (l1 ++ u :: l2)) -> h_dom h3 x = true).
  { intros x Hx. unfold h3, h1; cbn. rewrite upd_other by (intro; subst; contradiction). apply (c_dom _ _ _ C); exact Hx. }
  assert (E1 : h_nU h3 nu = hd 0 (addrs l2)).
  { unfold h3, h1; cbn. rewrite upd_other by exact Na. apply upd_same. }
  rewrite E1.
  set (pU1 := match addrs l2 with [] => upd (h_pU h) nu a | c :: _ => upd (upd (h_pU h) nu a) c nu end).
  assert (S1 : set_pU (hd 0 (addrs l2)) nu h3 = Ok (with_pU pU1 h3)).
  { unfold set_pU, pU1. destruct l2 as [|b l2']; cbn [hd addrs map].
    - reflexivity.
    - assert (Hb' : In (ua b) (addrs (l1 ++ u :: b :: l2'))) by (apply addrs_In, in_or_app; cbn; auto).
      pose proof (core_pos _ _ _ _ C Hb'). destruct (Z.eqb_spec (ua b) 0); [lia|].
      unfold live_hdr. rewrite (DM _ Hb'). reflexivity. }
  rewrite S1. cbn [bind].
  assert (E2 : h_nF (with_pU pU1 h3) nu = hd 0 f2).
  { unfold h3, h1; cbn. rewrite upd_other by exact Na. apply upd_same. }
  rewrite E2.
  set (pF1 := match f2 with [] => upd (h_pF h) nu a | c :: _ => upd (upd (h_pF h) nu a) c nu end).
  assert (S2 : set_pF (hd 0 f2) nu (with_pU pU1 h3) = Ok (with_pF pF1 (with_pU pU1 h3))).
  { unfold set_pF, pF1. destruct f2 as [|b f2']; cbn [hd].
    - reflexivity.
    - assert (Hb' : In b (addrs (l1 ++ u :: l2))) by (apply (c_inc _ _ _ C), in_or_app; cbn; auto).
      pose proof (core_pos _ _ _ _ C Hb'). destruct (Z.eqb_spec b 0); [lia|].
      unfold live_hdr. change (h_dom (with_pU pU1 h3)) with (h_dom h3). rewrite (DM _ Hb'). reflexivity. }
  rewrite S2. cbn [bind].
  eexists; split; [reflexivity|]. split; [|unfold frame; cbn; splits; reflexivity].
  assert (EA : addrs (l1 ++ U a size true (ual u) :: U nu (us u - HDR - size) (uc u) false :: l2)
             = addrs l1 ++ a :: nu :: addrs l2) by (rewrite addrs_app; reflexivity).
  assert (EB : addrs (l1 ++ u :: l2) = addrs l1 ++ a :: addrs l2) by (rewrite addrs_app; reflexivity).
  unfold h3, h1, pU1, pF1.
  constructor; cbn [new_hdr with_pU with_pF with_nU with_nF with_ct with_sz h_dom h_pU h_nU h_pF h_nF h_sz h_ct h_al h_off h_units h_free h_total h_log h_cnt];
    rewrite ?EA.
  - apply tiled_split; [exact (c_tiled _ _ _ C)|exact Hs|exact Hu].
  - apply (c_chunks _ _ _ C).
  - apply (dl_insert (h_pU h) (h_nU h) (addrs l1) a (addrs l2) nu).
    + rewrite <- EB; exact ND.
    + rewrite <- EB; exact NI.
    + rewrite <- EB; apply (c_dlU _ _ _ C).
  - rewrite (c_units _ _ _ C), EB. rewrite !hd_app. reflexivity.
  - apply (dl_insert (h_pF h) (h_nF h) f1 a f2 nu); [exact NDF|exact NIf|apply (c_dlF _ _ _ C)].
  - rewrite (c_free _ _ _ C), !hd_app. reflexivity.
  - apply (Permutation_NoDup (l := nu :: f1 ++ a :: f2)).
    + etransitivity; [apply (Permutation_middle f1 (a :: f2) nu)|].
      apply Permutation_app_head. apply perm_swap.
    + constructor; assumption.
  - intros x Hx. pose proof (c_inc _ _ _ C x) as I0. rewrite EB in I0.
    rewrite in_app_iff in *. cbn [In] in *. rewrite ?in_app_iff in *. cbn [In] in *. intuition.
  - pose proof (c_fields _ _ _ C) as F.
    rewrite EB in ND. apply NoDup_remove_2 in ND. rewrite EB in NI.
    rewrite Forall_app in *. destruct F as [F1 F2]. inversion F2 as [|? ? F3 F4]; subst.
    assert (Rest : forall w, In w l1 \/ In w l2 -> ua w <> a /\ ua w <> nu).
    { intros w Hw. split; intro E.
      - apply ND. apply in_or_app. rewrite <- E. destruct Hw; [left|right]; apply addrs_In; assumption.
      - apply NI. apply in_or_app. rewrite <- E. destruct Hw; [left|right; right]; apply addrs_In; assumption. }
    split; [|constructor; [|constructor]]; cbn [ua us uc ual].
    + rewrite Forall_forall in *. intros w Hw. destruct (Rest w (or_introl Hw)) as [R1 R2].
      rewrite !upd_other by assumption. auto.
    + rewrite !upd_same. rewrite (upd_other _ (h_al h)) by congruence. tauto.
    + rewrite !(upd_other _ _ a nu) by exact Na. rewrite !upd_same. splits; [reflexivity|exact Fc|reflexivity].
    + rewrite Forall_forall in *. intros w Hw. destruct (Rest w (or_intror Hw)) as [R1 R2].
      rewrite !upd_other by assumption. auto.
  - intros x Hx Hn.
    assert (x <> a /\ x <> nu) as [Xa Xn] by (split; intro; subst; apply Hn, in_or_app; cbn; auto).
    assert (In x (addrs (l1 ++ u :: l2))).
    { rewrite EB. rewrite in_app_iff in *. cbn [In] in *. intuition congruence. }
    destruct (c_null _ _ _ C x H0) as [N1 N2].
    { intro Hf. apply Hn. rewrite in_app_iff in *. cbn [In] in *. intuition. }
    rewrite !(upd_other _ _ _ x) by assumption. split; [|exact N2].
    destruct f2 as [|c f2']; [rewrite upd_other by assumption; exact N1|].
    rewrite upd_other by (intro; subst; apply Hn, in_or_app; cbn; auto).
    rewrite upd_other by assumption. exact N1.
  - intros x. pose proof (c_dom _ _ _ C x) as Dx. rewrite EB in Dx.
    destruct (Z.eq_dec x nu) as [->|Hx].
    + rewrite upd_same. split; [intros _; apply in_or_app; cbn; auto|reflexivity].
    + rewrite upd_other by exact Hx. rewrite Dx. rewrite !in_app_iff. cbn [In]. intuition congruence.
  - pose proof (c_cnt _ _ _ C) as Nn. rewrite app_length in *. cbn [length] in *. lia.
Qed.

(** ** mergeUnits *)
Lemma merge_core : forall h l1 u v l2 fs,
  Core h (l1 ++ u :: v :: l2) fs -> uc u = true -> ~ In (ua v) fs ->
  exists h', merge_units (ua u) (ua v) h = Ok h' /\
    Core h' (l1 ++ U (ua u) (us u + (us v + HDR)) (uc v) (ual u) :: l2) fs /\ frame h h' /\
    h_nU h' (ua v) = hd 0 (addrs l2).
Proof.
  intros h l1 u v l2 fs C HC NIf.
  pose proof (core_nodup _ _ _ C) as ND.
  set (a := ua u) in *. set (b := ua v) in *.
  assert (EB : addrs (l1 ++ u :: v :: l2) = addrs l1 ++ a :: b :: addrs l2) by (rewrite addrs_app; reflexivity).
  assert (Hu : In u (l1 ++ u :: v :: l2)) by (apply in_or_app; cbn; auto).
  assert (Hv : In v (l1 ++ u :: v :: l2)) by (apply in_or_app; cbn; auto).
  destruct (core_fields _ _ _ _ C Hu) as (Fs & Fc & Fa). fold a in Fs, Fc, Fa.
  destruct (core_fields _ _ _ _ C Hv) as (Gs & Gc & Ga). fold b in Gs, Gc, Ga.
  pose proof (c_dlU _ _ _ C) as D. rewrite EB in D, ND.
  assert (EnV : h_nU h b = hd 0 (addrs l2)).
  { replace (addrs l1 ++ a :: b :: addrs l2) with ((addrs l1 ++ [a]) ++ b :: addrs l2) in D by (rewrite <- app_assoc; reflexivity).
    exact (dl_nx_at _ _ _ _ _ _ _ D). }
  assert (Nab : b <> a).
  { destruct (NoDup_app_inv _ _ _ ND) as (_ & N2 & _). inversion N2; subst. cbn in *. intuition. }
  assert (Nb2 : ~ In b (addrs l1 ++ a :: addrs l2)).
  { replace (addrs l1 ++ a :: b :: addrs l2) with ((addrs l1 ++ [a]) ++ b :: addrs l2) in ND by (rewrite <- app_assoc; reflexivity).
    apply NoDup_remove_2 in ND. rewrite <- app_assoc in ND. exact ND. }
  unfold merge_units.
  rewrite (core_live _ _ _ a C (addrs_In _ _ Hu)). cbn [bind].
  rewrite (core_live _ _ _ b C (addrs_In _ _ Hv)). cbn [bind].
  rewrite Fs, Gs.
  set (h2 := with_nU _ _).
  assert (E1 : h_nU h2 b = hd 0 (addrs l2)) by (unfold h2; cbn; rewrite upd_other by congruence; exact EnV).
  rewrite E1.
  set (pU1 := match addrs l2 with [] => h_pU h | c :: _ => upd (h_pU h) c a end).
  assert (S1 : set_pU (hd 0 (addrs l2)) a h2 = Ok (with_pU pU1 h2)).
  { unfold set_pU, pU1. destruct l2 as [|w l2']; cbn [hd addrs map].
    - reflexivity.
    - assert (Hb' : In (ua w) (addrs (l1 ++ u :: v :: w :: l2'))) by (apply addrs_In, in_or_app; cbn; auto).
      pose proof (core_pos _ _ _ _ C Hb'). destruct (Z.eqb_spec (ua w) 0); [lia|].
      unfold live_hdr. change (h_dom h2) with (h_dom h). rewrite (proj2 (c_dom _ _ _ C _) Hb'). reflexivity. }
  rewrite S1. cbn [bind].
  eexists; split; [reflexivity|]. split; [|split; [unfold frame; cbn; splits; reflexivity|exact E1]].
  assert (EA : addrs (l1 ++ U a (us u + (us v + HDR)) (uc v) (ual u) :: l2) = addrs l1 ++ a :: addrs l2) by (rewrite addrs_app; reflexivity).
  unfold h2, pU1.
  constructor; cbn [new_hdr with_dom with_pU with_pF with_nU with_nF with_ct with_sz h_dom h_pU h_nU h_pF h_nF h_sz h_ct h_al h_off h_units h_free h_total h_log h_cnt];
    rewrite ?EA.
  - apply tiled_merge; [exact (c_tiled _ _ _ C)|exact HC].
  - apply (c_chunks _ _ _ C).
  - rewrite EnV. eapply dl_unlink; [exact ND|exact D].
  - rewrite (c_units _ _ _ C), EB. rewrite !hd_app. reflexivity.
  - apply (c_dlF _ _ _ C).
  - apply (c_free _ _ _ C).
  - apply (c_ndF _ _ _ C).
  - intros x Hx. pose proof (c_inc _ _ _ C x Hx) as I0. rewrite EB in I0.
    assert (x <> b) by (intro; subst; contradiction).
    rewrite in_app_iff in *. cbn [In] in *. intuition congruence.
  - pose proof (c_fields _ _ _ C) as F.
    assert (Na : ~ In a (addrs l1 ++ addrs l2)).
    { apply NoDup_remove_2 in ND. intro H. apply ND. rewrite in_app_iff in *. cbn [In]. tauto. }
    rewrite Forall_app in *. destruct F as [F1 F2]. inversion F2 as [|? ? F3 F4]; subst. inversion F4 as [|? ? F5 F6]; subst.
    assert (Rest : forall w, In w l1 \/ In w l2 -> ua w <> a).
    { intros w Hw E. apply Na. apply in_or_app. rewrite <- E. destruct Hw; [left|right]; apply addrs_In; assumption. }
    split; [|constructor]; cbn [ua us uc ual].
    + rewrite Forall_forall in *. intros w Hw. pose proof (Rest w (or_introl Hw)).
      rewrite !upd_other by assumption. auto.
    + rewrite !upd_same. tauto.
    + rewrite Forall_forall in *. intros w Hw. pose proof (Rest w (or_intror Hw)).
      rewrite !upd_other by assumption. auto.
  - intros x Hx Hn. apply (c_null _ _ _ C x); [|exact Hn]. rewrite EB. rewrite in_app_iff in *. cbn [In] in *. tauto.
  - intros x. pose proof (c_dom _ _ _ C x) as Dx. rewrite EB in Dx.
    destruct (Z.eq_dec x b) as [->|Hx].
    + rewrite upd_same. split; [discriminate|intro; contradiction].
    + rewrite upd_other by exact Hx. rewrite Dx. rewrite !in_app_iff. cbn [In]. intuition congruence.
  - pose proof (c_cnt _ _ _ C) as Nn. rewrite app_length in *. cbn [length] in *. lia.
Qed.

(** ** First-fit search *)
Lemma find_unit_core : forall h l fs size, Core h l fs ->
  forall f2 f1 fuel, fs = f1 ++ f2 -> (length f2 < fuel)%nat ->
  (exists a f3 f4, find_unit fuel h size (hd 0 f2) = Ok a /\ f2 = f3 ++ a :: f4 /\ size <= h_sz h a) \/
  (find_unit fuel h size (hd 0 f2) = Ok 0 /\ Forall (fun a => h_sz h a < size) f2).
Proof.
  intros h l fs size C. induction f2 as [|a f2 IH]; intros f1 fuel E Hf.
  - destruct fuel; [cbn in Hf; lia|]. right. cbn. split; [reflexivity|constructor].
  - destruct fuel; [cbn in Hf; lia|]. cbn [find_unit hd].
    assert (Ha : In a (addrs l)) by (apply (c_inc _ _ _ C); rewrite E; apply in_or_app; cbn; auto).
    pose proof (core_pos _ _ _ _ C Ha). destruct (Z.eqb_spec a 0); [lia|].
    rewrite (core_live _ _ _ _ C Ha). cbn [bind].
    destruct (Z.leb_spec size (h_sz h a)).
    + left. exists a, [], f2. splits; [reflexivity|reflexivity|assumption].
    + pose proof (c_dlF _ _ _ C) as D. rewrite E in D. rewrite (dl_nx_at _ _ _ _ _ _ _ D).
      destruct (IH (f1 ++ [a]) fuel) as [(b & f3 & f4 & R & E2 & Hb)|[R FA]].
      * rewrite <- app_assoc; exact E.
      * cbn in Hf; lia.
      * left. exists b, (a :: f3), f4. splits; [exact R|rewrite E2; reflexivity|exact Hb].
      * right. split; [exact R|constructor; assumption].
Qed.
