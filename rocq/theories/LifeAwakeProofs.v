From Coq Require Import Permutation.
From Verif Require Import Base LifeModel LifeSpec LifeProofs LifeWorldProofs.

(** [x] is in a disabled slot other than [i] *)
Definition off_but {A} (i : nat) (p : packed A) (x : A) : Prop :=
  exists k, enabled p <= k /\ k <> i /\ nth_error (slots p) k = Some x.
Definition off {A} (p : packed A) (x : A) : Prop :=
  exists k, enabled p <= k /\ nth_error (slots p) k = Some x.

Lemma off_but_off : forall A i (p : packed A) x, off_but i p x -> off p x.
Proof. intros A i p x (k & H & _ & N). exists k. auto. Qed.

Lemma nth_lt : forall A (l : list A) k x, nth_error l k = Some x -> k < length l.
Proof. intros. apply nth_error_Some. congruence. Qed.

Lemma nth_removelast : forall A (l : list A) k x, nth_error (removelast l) k = Some x ->
  nth_error l k = Some x /\ k < length l - 1.
Proof.
  intros A l k x H. destruct l as [|a l]; [destruct k; discriminate|].
  destruct (exists_last (l := a :: l)) as (l0 & z & E); [discriminate|]. rewrite E in *.
  rewrite removelast_last in H. pose proof (nth_lt _ _ _ _ H). rewrite nth_error_app1 by auto.
  rewrite app_length. cbn. split; [auto|lia].
Qed.

Lemma nth_set_nth : forall A i k (x y : A) l, nth_error (set_nth i x l) k = Some y ->
  (k = i /\ y = x /\ i < length l) \/ (k <> i /\ nth_error l k = Some y).
Proof.
  intros A i k x y l H. destruct (Nat.eq_dec k i) as [->|N].
  - left. pose proof (nth_lt _ _ _ _ H) as Hl. rewrite set_nth_length in Hl. rewrite set_nth_eq in H by auto. split; auto. split; [congruence|auto].
  - right. rewrite set_nth_neq in H by auto. auto.
Qed.

Lemma off_add : forall A (x z : A) p, enabled p <= length (slots p) -> off (packed_add false x p) z -> off p z.
Proof.
  intros A x z p B (k & Hk & N). unfold packed_add in Hk, N.
  destruct (nth_error (slots p) (enabled p)) as [y|] eqn:E; cbn [slots enabled] in Hk, N.
  - assert (LL : length (set_nth (enabled p) x (slots p)) = length (slots p)) by apply set_nth_length.
    destruct (Nat.lt_ge_cases k (length (slots p))) as [L|L].
    + rewrite nth_error_app1 in N by lia. rewrite set_nth_neq in N by lia. exists k. split; [lia|auto].
    + rewrite nth_error_app2 in N by lia. rewrite LL in N. destruct (k - length (slots p)) as [|r]; cbn in N; [|destruct r; discriminate].
      injection N as <-. exists (enabled p). auto.
  - apply nth_error_None in E. rewrite nth_error_app2 in N by lia.
    destruct (k - length (slots p)) as [|r] eqn:Er; [lia|]. cbn in N. destruct r; discriminate.
Qed.

Lemma off_remove : forall A i (p p' : packed A) z, packed_remove i p = Ok p' -> off p' z -> off p z.
Proof.
  intros A i p p' z H (k & Hk & N). unfold packed_remove, move_slot in H.
  destruct (Nat.leb_spec (enabled p) i) as [L|L].
  - destruct (nth_error (slots p) (length (slots p) - 1)) as [y|] eqn:Ey; [|discriminate]. cbn [rd bind] in H. injection H as <-.
    cbn [slots enabled] in Hk, N. apply nth_removelast in N. destruct N as (N & Lk). rewrite set_nth_length in Lk.
    apply nth_set_nth in N. destruct N as [(-> & -> & _)|(Nk & N)].
    + exists (length (slots p) - 1). split; [lia|auto].
    + exists k. auto.
  - destruct (nth_error (slots p) (enabled p - 1)) as [y|] eqn:Ey; [|discriminate]. cbn [rd bind] in H.
    destruct (nth_error (set_nth i y (slots p)) (length (slots p) - 1)) as [y1|] eqn:Ey1; [|discriminate]. cbn [rd bind] in H. injection H as <-.
    cbn [slots enabled] in Hk, N. apply nth_removelast in N. destruct N as (N & Lk). rewrite !set_nth_length in Lk.
    apply nth_set_nth in N. destruct N as [(-> & -> & _)|(Nk & N)].
    + rewrite set_nth_neq in Ey1 by lia. exists (length (slots p) - 1). split; [lia|auto].
    + rewrite set_nth_neq in N by lia. exists k. split; [lia|auto].
Qed.

Lemma off_disable : forall A i (p p' : packed A) z, packed_disable i true p = Ok p' -> off p' z ->
  off p z \/ nth_error (slots p) i = Some z.
Proof.
  intros A i p p' z H (k & Hk & N). unfold packed_disable in H. cbn [negb andb] in H.
  destruct (Nat.ltb_spec i (enabled p)) as [L|L].
  - unfold swap_slots in H. destruct (nth_error (slots p) i) as [x|] eqn:Ex; [|discriminate].
    destruct (nth_error (slots p) (enabled p - 1)) as [y|] eqn:Ey; [|discriminate]. cbn [rd bind] in H. injection H as <-.
    cbn [slots enabled] in Hk, N. apply nth_set_nth in N. destruct N as [(-> & -> & _)|(Nk & N)]; [now right|].
    rewrite set_nth_neq in N by lia. left. exists k. split; [lia|auto].
  - injection H as <-. left. exists k. auto.
Qed.

Lemma off_enable : forall A i (p p' : packed A) z, packed_disable i false p = Ok p' -> off p' z -> off_but i p z.
Proof.
  intros A i p p' z H (k & Hk & N). unfold packed_disable in H. cbn [negb andb] in H.
  destruct (Nat.leb_spec (enabled p) i) as [L|L].
  - unfold swap_slots in H. destruct (nth_error (slots p) i) as [x|] eqn:Ex; [|discriminate].
    destruct (nth_error (slots p) (enabled p)) as [y|] eqn:Ey; [|discriminate]. cbn [rd bind] in H. injection H as <-.
    cbn [slots enabled] in Hk, N. rewrite set_nth_neq in N by lia.
    apply nth_set_nth in N. destruct N as [(-> & -> & _)|(Nk & N)].
    + exists (enabled p). split; [lia|]. split; [lia|auto].
    + exists k. split; [lia|]. auto.
  - injection H as <-. exists k. split; [lia|]. split; [lia|auto].
Qed.

(** every disabled body is static or asleep *)
Definition sound (w : world) : Prop := forall x, off (w_bodies w) x -> b_static x = true \/ b_asleep x = true.

Lemma slot_of_ids : forall b l, slot_of (is_body b) l = slot_of (fun n => Nat.eqb n b) (map b_id l).
Proof. intros b l. induction l as [|x l IH]; cbn; auto. unfold is_body at 1. destruct (Nat.eqb (b_id x) b); auto. now rewrite IH. Qed.

Lemma slot_of_nth : forall A (f : A -> bool) l i, slot_of f l = Some i -> exists x, nth_error l i = Some x /\ f x = true.
Proof.
  intros A f l. induction l as [|z l IH]; intros i H; cbn in *; [discriminate|].
  destruct (f z) eqn:F; [injection H as <-; exists z; auto|]. destruct (slot_of f l) as [k|]; cbn in H; [|discriminate].
  injection H as <-. destruct (IH k eq_refl) as (x & Hx & Fx). exists x. auto.
Qed.

Lemma get_body_inv : forall b w x, get_body b w = Ok x ->
  exists i, body_slot b w = Ok i /\ nth_error (slots (w_bodies w)) i = Some x /\ b_id x = b.
Proof.
  intros b w x H. unfold get_body in H. destruct (body_slot b w) as [i| |] eqn:E; try discriminate. cbn [bind] in H.
  unfold body_slot in E. destruct (slot_of _ _) as [k|] eqn:S; [|discriminate]. cbn in E. injection E as ->.
  apply slot_of_nth in S. destruct S as (y & N & F). rewrite N in H. cbn in H. injection H as ->.
  exists i. unfold is_body in F. apply Nat.eqb_eq in F. auto.
Qed.

(** writing a component: the slots keep their bodies *)
Lemma put_inv : forall b w i x x' w', body_slot b w = Ok i -> nth_error (slots (w_bodies w)) i = Some x -> b_id x = b -> b_id x' = b ->
  put_body x' w = Ok w' ->
  body_slot b w' = Ok i /\ nth_error (slots (w_bodies w')) i = Some x' /\ enabled (w_bodies w') = enabled (w_bodies w) /\
  (forall z, off_but i (w_bodies w') z -> off (w_bodies w) z).
Proof.
  intros b w i x x' w' E N I I' H. unfold put_body in H. rewrite I', E in H. cbn [bind] in H. injection H as <-.
  cbn [set_bodies w_bodies slots enabled]. split.
  - unfold body_slot in *. cbn [set_bodies w_bodies slots]. rewrite slot_of_ids in *. rewrite set_nth_map, I', <- I.
    rewrite set_nth_same; [now rewrite I|]. now apply map_nth_error.
  - split; [apply set_nth_eq; eapply nth_lt; eauto|]. split; [auto|].
    intros z (k & Hk & Nk & Hz). cbn [slots enabled] in *. rewrite set_nth_neq in Hz by auto. exists k. auto.
Qed.

Lemma off_cases : forall A i (p : packed A) z, off p z -> nth_error (slots p) i = Some z \/ off_but i p z.
Proof. intros A i p z (k & H & N). destruct (Nat.eq_dec k i) as [->|Nk]; [auto|]. right. exists k. auto. Qed.

(** writing a component that is static or asleep if it was *)
Lemma put_sound : forall b w x x' w', sound w -> get_body b w = Ok x -> b_id x' = b ->
  (b_static x = true \/ b_asleep x = true -> b_static x' = true \/ b_asleep x' = true) ->
  put_body x' w = Ok w' -> sound w'.
Proof.
  intros b w x x' w' S G I' HS P. destruct (get_body_inv b w x G) as (i & E & N & I).
  destruct (put_inv b w i x x' w' E N I I' P) as (E' & N' & En & O).
  intros z Hz. assert (Hz0 := Hz). apply (off_cases _ i) in Hz. destruct Hz as [Hz|Hz]; [|now apply S, O].
  destruct Hz0 as (k & Hk & Nk). rewrite N' in Hz. injection Hz as <-.
  destruct (Nat.eq_dec k i) as [->|Nki].
  - apply HS, S. exists i. split; [lia|auto].
  - apply S, O. exists k. auto.
Qed.

Lemma disable_sound : forall b w x w', sound w -> get_body b w = Ok x -> (b_static x = true \/ b_asleep x = true) ->
  disable_body b true w = Ok w' -> sound w'.
Proof.
  intros b w x w' S G HS D. destruct (get_body_inv b w x G) as (i & E & N & I).
  unfold disable_body in D. rewrite E in D. cbn [bind] in D.
  destruct (packed_disable i true (w_bodies w)) as [p| |] eqn:Ep; try discriminate. cbn [bind] in D. injection D as <-.
  intros z Hz. apply (off_disable _ _ _ _ _ Ep) in Hz. destruct Hz as [Hz|Hz]; [now apply S|]. congruence.
Qed.

(** enabling after a write: the written component is enabled *)
Lemma put_enable_sound : forall b w x x' w1 w', sound w -> get_body b w = Ok x -> b_id x' = b ->
  put_body x' w = Ok w1 -> disable_body b false w1 = Ok w' -> sound w'.
Proof.
  intros b w x x' w1 w' S G I' P D. destruct (get_body_inv b w x G) as (i & E & N & I).
  destruct (put_inv b w i x x' w1 E N I I' P) as (E' & N' & En & O).
  unfold disable_body in D. rewrite E' in D. cbn [bind] in D.
  destruct (packed_disable i false (w_bodies w1)) as [p| |] eqn:Ep; try discriminate. cbn [bind] in D. injection D as <-.
  intros z Hz. apply S, O. exact (off_enable _ _ _ _ _ Ep Hz).
Qed.

Lemma put_get : forall b w x x' w', get_body b w = Ok x -> b_id x' = b -> put_body x' w = Ok w' -> get_body b w' = Ok x'.
Proof.
  intros b w x x' w' G I' P. destruct (get_body_inv b w x G) as (i & E & N & I).
  destruct (put_inv b w i x x' w' E N I I' P) as (E' & N' & _). unfold get_body. rewrite E'. cbn [bind]. rewrite N'. reflexivity.
Qed.

Ltac step H := match type of H with
  | bind ?m _ = Ok _ => let E := fresh "E" in destruct m as [?| |] eqn:E; try discriminate; cbn [bind] in H
  end.

Lemma sleeping_sound : forall b v w w', sound w -> set_sleeping b v w = Ok w' -> sound w'.
Proof.
  intros b v w w' S H. unfold set_sleeping in H. step H. rename a into x. rename E into G.
  destruct (get_body_inv b w x G) as (i & _ & _ & I).
  destruct (Bool.eqb (b_asleep x) v) eqn:Ev; [injection H as <-; auto|].
  destruct (b_static x) eqn:Es; [injection H as <-; auto|].
  destruct (negb (b_active x)) eqn:Ea; [injection H as <-; auto|].
  step H. destruct v.
  - assert (S1 : sound a) by (eapply put_sound with (x' := with_asleep true x); eauto; cbn; auto).
    eapply disable_sound with (x := with_asleep true x); [exact S1|exact (put_get b w x (with_asleep true x) a G I E)|cbn; auto|exact H].
  - eapply put_enable_sound with (x' := with_asleep false x); eauto.
Qed.

Lemma static_sound : forall b v w w', sound w -> set_static b v w = Ok w' -> sound w'.
Proof.
  intros b v w w' S H. unfold set_static in H. step H. rename a into x. rename E into G.
  destruct (get_body_inv b w x G) as (i & _ & _ & I).
  destruct (Bool.eqb (b_static x) v) eqn:Ev; [injection H as <-; auto|].
  step H. step H. eapply sleeping_sound; [|exact H]. destruct v.
  - assert (S1 : sound a) by (eapply put_sound with (x' := with_static true x); eauto; cbn; auto).
    eapply disable_sound with (x := with_static true x); [exact S1|exact (put_get b w x (with_static true x) a G I E)|cbn; auto|eassumption].
  - eapply put_enable_sound with (x' := with_static false x); eauto.
Qed.

Lemma active_sound : forall b v w w', sound w -> set_active b v w = Ok w' -> sound w'.
Proof.
  intros b v w w' S H. unfold set_active in H. step H. destruct (Bool.eqb (b_active a) v); [injection H as <-; auto|].
  step H. step H. destruct (get_body_inv _ _ _ E1) as (i & _ & _ & I).
  apply (put_sound b a0 a1 (with_active v a1) w'); auto. eapply sleeping_sound; eauto.
Qed.

Lemma add_joint_sound : forall b j w w', sound w -> add_joint_to b j w = Ok w' -> sound w'.
Proof.
  intros b j w w' S H. unfold add_joint_to in H. step H. destruct (get_body_inv _ _ _ E) as (i & _ & _ & I).
  eapply put_sound with (x := a) (x' := with_joints (b_joints a ++ [j]) a); eauto.
Qed.
Lemma remove_joint_sound : forall b j w w', sound w -> remove_joint_from b j w = Ok w' -> sound w'.
Proof.
  intros b j w w' S H. unfold remove_joint_from in H. step H. step H. destruct (get_body_inv _ _ _ E) as (i & _ & _ & I).
  eapply put_sound with (x := a) (x' := with_joints a0 a); eauto.
Qed.

Lemma destroy_joint_sound : forall j w w', sound w -> destroy_joint j w = Ok w' -> sound w'.
Proof.
  intros j w w' S H. unfold destroy_joint in H. do 9 step H. injection H as <-.
  assert (sound a5). { repeat first [eapply remove_joint_sound; [|eassumption]|eapply sleeping_sound; [|eassumption]|exact S]. }
  exact H.
Qed.

Lemma destroy_joints_sound : forall fuel i w w', sound w -> destroy_joints_at fuel i w = Ok w' -> sound w'.
Proof.
  induction fuel as [|fuel IH]; intros i w w' S H; [discriminate|]. cbn [destroy_joints_at] in H. step H.
  destruct (b_joints a); [injection H as <-; auto|]. step H. eapply IH; [|exact H]. eapply destroy_joint_sound; eauto.
Qed.

Lemma life_step_sound : forall o w w', sound w -> enabled (w_bodies w) <= length (slots (w_bodies w)) ->
  life_step o w = Ok w' -> sound w'.
Proof.
  intros o w w' S B H. destruct o as [|b1 b2|j|b|b v|b v|b v|j]; cbn [life_step] in H.
  - unfold create_body in H. injection H as <-. intros z Hz. apply S. eapply off_add; eauto.
  - unfold create_joint in H. do 3 step H.
    eapply add_joint_sound; [|exact H]. eapply add_joint_sound; [|eassumption]. exact S.
  - eapply destroy_joint_sound; eauto.
  - unfold destroy_body in H. do 5 step H. injection H as <-. intros z Hz.
    assert (S1 : sound a0) by (eapply destroy_joints_sound; eauto). apply S1. eapply off_remove; [eassumption|exact Hz].
  - eapply sleeping_sound; eauto.
  - eapply static_sound; eauto.
  - eapply active_sound; eauto.
  - unfold update_joint in H. do 5 step H. injection H as <-. exact S.
Qed.

Lemma empty_sound : sound empty_world.
Proof. intros x (k & _ & N). destruct k; discriminate. Qed.

Lemma awake_enabled : forall w x, sound w -> In x (slots (w_bodies w)) -> b_asleep x = false -> b_static x = false ->
  body_enabled (b_id x) w.
Proof.
  intros w x S Hx A T. apply In_nth_error in Hx. destruct Hx as (i & N). exists i. split.
  - unfold bodies. rewrite nth_error_map, N. reflexivity.
  - destruct (Nat.lt_ge_cases i (enabled (w_bodies w))) as [L|L]; auto. exfalso.
    destruct (S x) as [H|H]; try congruence. exists i. auto.
Qed.

Lemma undisturbed_steady : forall b w, sound w -> undisturbed b w -> steady b w.
Proof.
  intros b w S [(x & Hx & <- & A & T)|AW]; [left|right; auto]. now apply awake_enabled.
Qed.

Lemma life_run_linked : forall os w w', linked w -> sound w -> careful os w -> life_run os w = Ok w' -> linked w' /\ sound w'.
Proof.
  induction os as [|o os IH]; intros w w' L S C R; cbn [life_run careful] in *.
  - injection R as <-. auto.
  - destruct C as (C1 & C2). destruct (life_step o w) as [w1| |] eqn:E; try discriminate. cbn [bind] in R.
    destruct (life_step_ok o w L (life_step_living _ _ _ E)) as (w1' & E' & L1).
    { destruct o; auto. now apply undisturbed_steady. }
    rewrite E in E'. injection E' as <-. eapply IH; [exact L1| |eauto|exact R]. eapply life_step_sound; eauto. apply L.
Qed.
