(** Proofs about the links around faces. *)
From Verif Require Import Base QhModel QhProofs QrModel QrSpec.
From Coq Require Import Lia.

Lemma loop_ok : forall n e p s, (forall q, p = Some q -> (q < e)%nat) ->
  let s' := ring_loop n e p s in
  (forall x, (x < e)%nat -> r_live s' x = r_live s x /\ r_prev s' x = r_prev s x /\
     (p <> Some x -> r_next s' x = r_next s x) /\ (p = Some x -> n <> O -> r_next s' x = Some e)) /\
  (forall x, (e <= x < e + n)%nat -> r_live s' x = true /\
     r_prev s' x = (if Nat.eqb x e then p else Some (x - 1)%nat) /\
     (S x <> e + n -> r_next s' x = Some (S x))%nat) /\
  (forall x, (e + n <= x)%nat -> r_live s' x = r_live s x) /\
  r_edge s' = r_edge s /\ r_newf s' = r_newf s /\ (n <> O -> r_newe s' = (e + n)%nat).
Proof.
  induction n as [|n IH]; intros e p s P; cbn [ring_loop].
  - cbv zeta. split; [|split; [|split; [|split; [reflexivity|split; [reflexivity|congruence]]]]].
    + intros x Hx. repeat split; auto. congruence.
    + intros x Hx. lia.
    + auto.
  - match goal with |- context [ring_loop n (S e) (Some e) ?t] => set (s1 := t) end.
    assert (P1 : forall q, Some e = Some q -> (q < S e)%nat) by (intros q E; inversion E; lia).
    destruct (IH (S e) (Some e) s1 P1) as (A & B & C & D & E & F). cbv zeta. split; [|split; [|split; [|split; [|split]]]].
    + intros x Hx. destruct (A x) as (A1 & A2 & A3 & A4); [lia|]. rewrite A1, A2. subst s1. cbn [r_live r_prev r_next] in *.
      rewrite !setn_ne by lia. split; [reflexivity|split; [reflexivity|]].
      rewrite A3 by (intros G; inversion G; lia). split.
      * intros G. destruct p as [q|]; [|apply setn_ne; lia].
        rewrite setn_ne by congruence. apply setn_ne. lia.
      * intros -> _. apply setn_eq.
    + intros x Hx. destruct (Nat.eqb_spec x e) as [->|ne].
      * destruct (A e) as (A1 & A2 & A3 & A4); [lia|]. rewrite A1, A2. subst s1. cbn [r_live r_prev r_next] in *.
        rewrite !setn_eq. split; [reflexivity|split; [reflexivity|]]. intros G. apply A4; [reflexivity|lia].
      * destruct (B x) as (B1 & B2 & B3); [lia|]. split; [exact B1|split].
        -- rewrite B2. destruct (Nat.eqb_spec x (S e)) as [->|]; [f_equal; lia|reflexivity].
        -- intros G. apply B3. lia.
    + intros x Hx. rewrite C by lia. subst s1. cbn [r_live]. apply setn_ne. lia.
    + rewrite D. reflexivity.
    + rewrite E. reflexivity.
    + intros _. destruct n as [|n]; [cbn [ring_loop]; subst s1; cbn [r_newe]; lia|]. rewrite F by lia. lia.
Qed.

Definition covers (g : rface) (x : nat) : Prop := (f_first g <= x < f_first g + f_len g)%nat.
Definition nexte (g : rface) (x : nat) : nat := if Nat.eqb (S x) (f_first g + f_len g) then f_first g else S x.
Definition preve (g : rface) (x : nat) : nat := if Nat.eqb x (f_first g) then (f_first g + f_len g - 1)%nat else (x - 1)%nat.

Record rinv (s : rings) (l : list rface) : Prop := {
  k_face : forall g, In g l -> r_edge s (f_id g) = Some (f_first g) /\ (3 <= f_len g)%nat /\
             (f_first g + f_len g <= r_newe s)%nat /\ (f_id g < r_newf s)%nat;
  k_none : forall f, (forall g, In g l -> f_id g <> f) -> r_edge s f = None;
  k_id : forall g h, In g l -> In h l -> f_id g = f_id h -> g = h;
  k_dis : forall g h x, In g l -> In h l -> covers g x -> covers h x -> g = h;
  k_link : forall g x, In g l -> covers g x -> r_next s x = Some (nexte g x) /\ r_prev s x = Some (preve g x);
  k_live : forall x, r_live s x = true <-> exists g, In g l /\ covers g x }.

Lemma rinv_empty : rinv r_empty [].
Proof.
  constructor; cbn; try contradiction; auto.
  intros x. split; [discriminate|intros (g & [] & _)].
Qed.

Lemma radd_ok : forall n s l, rinv s l -> (3 <= n)%nat ->
  exists s', ring_add n s = Ok s' /\ rinv s' (mk_rface (r_newf s) (r_newe s) n :: l) /\
    r_newe s' = (r_newe s + n)%nat /\ r_newf s' = S (r_newf s).
Proof.
  intros n s l I N. unfold ring_add. rewrite (proj2 (Nat.leb_le 3 n) N).
  set (b := r_newe s). set (f := r_newf s).
  destruct (loop_ok n b None s) as (A & B & C & D & E & F); [discriminate|].
  set (s1 := ring_loop n b None s) in *.
  eexists. split; [reflexivity|]. cbn [r_newe r_newf]. split; [|split; [apply F; lia|reflexivity]].
  assert (old : forall g x, In g l -> covers g x -> (x < b)%nat).
  { intros g x Hg Hx. destruct (k_face _ _ I g Hg) as (_ & _ & Q & _). unfold covers in Hx. fold b in Q. lia. }
  constructor; cbn [r_live r_next r_prev r_edge r_newe r_newf].
  - intros g [<-|Hg]; cbn [f_id f_first f_len].
    + rewrite setn_eq, F by lia. repeat split; lia.
    + destruct (k_face _ _ I g Hg) as (Q1 & Q2 & Q3 & Q4). fold b f in Q3, Q4.
      rewrite setn_ne by lia. rewrite D, F by lia. repeat split; [exact Q1|lia|lia|lia].
  - intros f0 Hf. assert (f0 <> f) by (intros ->; apply (Hf _ (or_introl eq_refl)); reflexivity).
    rewrite setn_ne by assumption. rewrite D. apply (k_none _ _ I). intros g Hg. apply Hf. right. exact Hg.
  - intros g h [<-|Hg] [<-|Hh] Q; cbn [f_id] in Q; auto.
    + destruct (k_face _ _ I h Hh) as (_ & _ & _ & Q4). fold f in Q4. lia.
    + destruct (k_face _ _ I g Hg) as (_ & _ & _ & Q4). fold f in Q4. lia.
    + apply (k_id _ _ I); assumption.
  - intros g h x [<-|Hg] [<-|Hh] Q1 Q2; auto.
    + pose proof (old h x Hh Q2). unfold covers in Q1. cbn [f_first f_len] in Q1. lia.
    + pose proof (old g x Hg Q1). unfold covers in Q2. cbn [f_first f_len] in Q2. lia.
    + eapply (k_dis _ _ I); eassumption.
  - intros g x [<-|Hg] Q.
    + unfold covers in Q. unfold nexte, preve. cbn [f_first f_len] in *. destruct (B x Q) as (_ & B2 & B3). split.
      * destruct (Nat.eqb_spec (S x) (b + n)) as [G|G].
        -- replace (b + n - 1)%nat with x by lia. apply setn_eq.
        -- rewrite setn_ne by lia. apply B3. exact G.
      * destruct (Nat.eqb_spec x b) as [->|G]; [apply setn_eq|]. rewrite setn_ne by exact G. exact B2.
    + pose proof (old g x Hg Q). destruct (A x H) as (_ & A2 & A3 & _).
      rewrite !setn_ne by lia. rewrite A2, A3 by discriminate. apply (k_link _ _ I); assumption.
  - intros x. destruct (Nat.lt_ge_cases x b) as [Q|Q]; [|destruct (Nat.lt_ge_cases x (b + n)) as [Q'|Q']].
    + destruct (A x Q) as (-> & _). rewrite (k_live _ _ I). split.
      * intros (g & Hg & G). exists g. split; [right; exact Hg|exact G].
      * intros (g & [<-|Hg] & G); [unfold covers in G; cbn [f_first f_len] in G; lia|exists g; auto].
    + destruct (B x (conj Q Q')) as (-> & _). split; [intros _|reflexivity].
      exists (mk_rface f b n). split; [left; reflexivity|]. unfold covers. cbn [f_first f_len]. lia.
    + rewrite (C x Q'). rewrite (k_live _ _ I). split.
      * intros (g & Hg & G). pose proof (old g x Hg G). lia.
      * intros (g & [<-|Hg] & G); [unfold covers in G; cbn [f_first f_len] in G; lia|exists g; auto].
Qed.

Lemma walk_face : forall s l g, rinv s l -> In g l -> ring_edges (f_id g) s = Ok (f_edges g).
Proof.
  intros s l g I Hg. destruct (k_face _ _ I g Hg) as (E & N & B & _). unfold ring_edges. rewrite E. cbn [rd bind].
  assert (W : forall m c fu, (c + m = f_first g + f_len g)%nat -> (0 < m <= f_len g)%nat -> (m <= fu)%nat ->
    ring_walk fu c (f_first g) s = Ok (seq c m)).
  { induction m as [|m IH]; intros c fu Q M F; [lia|]. destruct fu as [|fu]; [lia|]. cbn [ring_walk seq].
    assert (Cv : covers g c) by (unfold covers; lia).
    rewrite (proj2 (k_live _ _ I c)) by (exists g; auto).
    rewrite (proj1 (k_link _ _ I g c Hg Cv)). unfold nexte. destruct (Nat.eqb_spec (S c) (f_first g + f_len g)) as [G|G].
    - rewrite Nat.eqb_refl. replace m with O by lia. reflexivity.
    - destruct (Nat.eqb_spec (S c) (f_first g)) as [G'|_]; [lia|]. rewrite IH by lia. reflexivity. }
  apply W; lia.
Qed.

Lemma free_face : forall g m c fu s, (c + m = f_first g + f_len g)%nat -> (0 < m <= f_len g)%nat -> (m <= fu)%nat ->
  (forall x, (c <= x < c + m)%nat -> r_live s x = true /\ r_next s x = Some (nexte g x)) ->
  exists lv, ring_free fu c (f_first g) s = Ok (mk_rings lv (r_next s) (r_prev s) (r_edge s) (r_newe s) (r_newf s)) /\
    forall x, lv x = if (c <=? x)%nat && (x <? c + m)%nat then false else r_live s x.
Proof.
  intros g. induction m as [|m IH]; intros c fu s Q M F H; [lia|]. destruct fu as [|fu]; [lia|]. cbn [ring_free].
  destruct (H c) as [L N]; [lia|]. rewrite L, N. unfold nexte. destruct (Nat.eqb_spec (S c) (f_first g + f_len g)) as [G|G].
  - rewrite Nat.eqb_refl. eexists. split; [reflexivity|]. intros x. unfold setn.
    replace m with O by lia. destruct (Nat.eqb_spec x c), (Nat.leb_spec c x), (Nat.ltb_spec x (c + 1)); cbn; auto; lia.
  - destruct (Nat.eqb_spec (S c) (f_first g)) as [G'|_]; [lia|].
    match goal with |- context [ring_free fu (S c) _ ?t] => destruct (IH (S c) fu t) as (lv & R & V) end; [lia|lia|lia| |].
    + intros x Hx. cbn [r_live r_next]. rewrite setn_ne by lia. apply H. lia.
    + exists lv. split; [exact R|]. intros x. rewrite V. cbn [r_live]. unfold setn.
      destruct (Nat.eqb_spec x c), (Nat.leb_spec c x), (Nat.leb_spec (S c) x), (Nat.ltb_spec x (S c + m)), (Nat.ltb_spec x (c + S m));
        cbn; auto; lia.
Qed.

Lemma rdel_ok : forall f s l, rinv s l ->
  if existsb (fun g => Nat.eqb (f_id g) f) l
  then exists s', ring_del f s = Ok s' /\ rinv s' (filter (fun g => negb (Nat.eqb (f_id g) f)) l) /\
    r_newe s' = r_newe s /\ r_newf s' = r_newf s
  else ring_del f s = Ub.
Proof.
  intros f s l I. destruct (existsb (fun g => Nat.eqb (f_id g) f) l) eqn:E.
  2:{ unfold ring_del. rewrite (k_none _ _ I f); [reflexivity|]. intros g Hg G.
      assert (existsb (fun g => Nat.eqb (f_id g) f) l = true); [|congruence].
      apply existsb_exists. exists g. split; [exact Hg|]. apply Nat.eqb_eq. exact G. }
  apply existsb_exists in E. destruct E as (g & Hg & E). apply Nat.eqb_eq in E. subst f.
  destruct (k_face _ _ I g Hg) as (Eg & N & B & _).
  destruct (free_face g (f_len g) (f_first g) (r_newe s) s) as (lv & R & V); [lia|lia|lia| |].
  { intros x Hx. split; [apply (k_live _ _ I); exists g; auto|apply (k_link _ _ I g x Hg Hx)]. }
  unfold ring_del. rewrite Eg. cbn [rd bind]. rewrite R. cbn [bind r_live r_next r_prev r_edge r_newe r_newf].
  eexists. split; [reflexivity|]. split; [|split; reflexivity].
  assert (Fi : forall h, In h (filter (fun g0 => negb (Nat.eqb (f_id g0) (f_id g))) l) <-> In h l /\ f_id h <> f_id g).
  { intros h. rewrite filter_In, Bool.negb_true_iff, Nat.eqb_neq. tauto. }
  constructor; cbn [r_live r_next r_prev r_edge r_newe r_newf].
  - intros h Hh. apply Fi in Hh. destruct Hh as [Hh ne]. rewrite setn_ne by exact ne. apply (k_face _ _ I). exact Hh.
  - intros f0 Hf. unfold setn. destruct (Nat.eqb_spec f0 (f_id g)) as [_|ne]; [reflexivity|].
    apply (k_none _ _ I). intros h Hh G. apply (Hf h); [|exact G]. apply Fi. split; [exact Hh|congruence].
  - intros h1 h2 H1 H2. apply Fi in H1. apply Fi in H2. apply (k_id _ _ I); tauto.
  - intros h1 h2 x H1 H2. apply Fi in H1. apply Fi in H2. apply (k_dis _ _ I); tauto.
  - intros h x Hh. apply Fi in Hh. apply (k_link _ _ I). tauto.
  - intros x. rewrite V. destruct (Nat.leb_spec (f_first g) x), (Nat.ltb_spec x (f_first g + f_len g)); cbn [andb].
    1:{ split; [discriminate|]. intros (h & Hh & Q). apply Fi in Hh. destruct Hh as [Hh ne]. exfalso. apply ne.
        rewrite (k_dis _ _ I h g x Hh Hg Q); [reflexivity|]. unfold covers. lia. }
    all: rewrite (k_live _ _ I); split; intros (h & Hh & Q); exists h; (split; [|exact Q]);
      [apply Fi; split; [exact Hh|]; intros G; rewrite (k_id _ _ I h g Hh Hg G) in Q; unfold covers in Q; lia|apply Fi in Hh; tauto].
Qed.

Lemma rrun_ok : forall os s l, rinv s l ->
  match rs_run os (l, r_newe s, r_newf s) with
  | Ok (l', _, _) => exists s', r_run os s = Ok s' /\ rinv s' l'
  | Ub => r_run os s = Ub
  | Fuel => False
  end.
Proof.
  induction os as [|o os IH]; intros s l I; [cbn; exists s; auto|].
  cbn [rs_run r_run]. destruct o as [n|f]; cbn [rs_step r_step].
  - destruct (3 <=? n)%nat eqn:N.
    + apply Nat.leb_le in N. destruct (radd_ok n s l I N) as (s' & -> & I' & <- & <-). cbn [bind]. apply IH. exact I'.
    + unfold ring_add. rewrite N. reflexivity.
  - pose proof (rdel_ok f s l I) as G. destruct (existsb (fun g => Nat.eqb (f_id g) f) l).
    + destruct G as (s' & -> & I' & <- & <-). cbn [bind]. apply IH. exact I'.
    + rewrite G. reflexivity.
Qed.
