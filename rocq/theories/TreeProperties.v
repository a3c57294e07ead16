(** C18-C21: the broad-phase tree. *)
From Coq Require Import QArith Rdefinitions.
From Verif Require Import Base Decimal DecimalInstances HashSpec HashProofs ComponentsProofs TreeModel TreeSpec RayModel RaySpec
  TreeProofs TreeProofs2 TreeProofs3 TreeProofs4 TreeProofs5 TreeProofs6 RayProofs.
Open Scope Z_scope.

Section Properties.
Context {T : Type} (o : decimal_ops T) (L : decimal_laws o) (pct : T).

Lemma size_ids : forall s : shape T, size s = zlen (ids s).
Proof. induction s; cbn [size ids]; [reflexivity|]. rewrite zlen_cons, zlen_app. lia. Qed.
Lemma inv_represents : forall t a so F, TInv o pct t a so F -> represents o t so F.
Proof.
  intros t a so F I. destruct (i_rep _ _ _ _ _ _ I) as [RT RF RC RN RA RP RD].
  assert (C : forall x, (occ x (ids_of so ++ F) = inr x (t_alloc t))%nat).
  { intros x. rewrite <- RC, occ_nil. unfold occ. rewrite count_occ_app. destruct so; cbn; unfold cnt; lia. }
  unfold represents. splits.
  - destruct so; cbn in RT; [|exact RT]. destruct RT as (A & B & D). auto.
  - exact RF.
  - apply (NoDup_count_occ Z.eq_dec). intros x. fold (occ x (ids_of so ++ F)). rewrite C. apply inr_le.
  - intros x. rewrite <- occ_pos, C. split; [apply inr_pos|]. intros H. rewrite inr_in by exact H. lia.
  - rewrite RN, zlen_nil. destruct so; cbn [sizeo ids_of]; [rewrite size_ids; lia|reflexivity].
Qed.

(** C18: the array of nodes represents a tree (links, heights and boxes exact), the free nodes are
    the other nodes, the live objects are the leaves with their data. *)
Theorem C18_tree_structure : forall t a, tree_history o pct t a -> exists so F,
  represents o t so F /\
  NoDup (map fst (leaves_of so)) /\
  (forall id b d, lookup Z.eqb id a = Some (b, d) -> exists fb, In (id, (fb, Some d)) (leaves_of so)) /\
  (forall id v, In (id, v) (leaves_of so) -> has Z.eqb id a = true).
Proof.
  intros t a H. destruct (history_inv o L pct t a H) as (so & F & I). exists so, F. splits.
  - eapply inv_represents; eauto.
  - assert (C : forall x, (cnto x so <= 1)%nat). { intros x. pose proof (rep_one _ _ _ _ _ x (i_rep _ _ _ _ _ _ I)). lia. }
    destruct so as [s|]; [|constructor]. cbn [leaves_of cnto] in *. clear - C. induction s as [i b d|i b l IHl r IHr]; cbn [leaves map].
    + repeat constructor. intros [].
    + rewrite map_app. apply NoDup_app2.
      * apply IHl. intros x. specialize (C x). rewrite cnt_node in C. lia.
      * apply IHr. intros x. specialize (C x). rewrite cnt_node in C. lia.
      * intros x X1 X2. apply in_map_iff in X1. destruct X1 as ((x1 & v1) & E1 & X1). apply in_map_iff in X2. destruct X2 as ((x2 & v2) & E2 & X2). cbn in E1, E2. subst.
        apply leaf_cnt in X1. apply leaf_cnt in X2. specialize (C x). rewrite cnt_node in C. lia.
  - intros id b d E. destruct (i_live _ _ _ _ _ _ I _ _ _ E) as (fb & A & _). exists fb. destruct so; exact A.
  - intros id v E. apply (i_leaf _ _ _ _ _ _ I id v). destruct so; exact E.
Qed.

(** C18: no operation of a history has undefined behaviour; a new identifier is not in use. *)
Theorem C18_tree_progress : forall t a, tree_history o pct t a ->
  (forall b d, valid_box o b -> zlen a < 32768 -> exists t' id, add_object o pct b d t = Ok (t', id) /\ has Z.eqb id a = false) /\
  (forall id, has Z.eqb id a = true -> exists t', remove_object o id t = Ok t') /\
  (forall id b force, has Z.eqb id a = true -> valid_box o b -> exists t' r, update_object o pct id b force t = Ok (t', r)) /\
  (forall id b d, lookup Z.eqb id a = Some (b, d) -> get_data id t = Ok d).
Proof.
  intros t a H. destruct (history_inv o L pct t a H) as (so & F & I). splits.
  - intros b d V N. destruct (add_ok o L pct _ _ _ _ b d I V N) as (t' & id & _ & _ & E & _ & HF & _). eauto.
  - intros id HI. destruct (remove_object_ok o L pct _ _ _ _ id I HI) as (t' & _ & _ & E & _). eauto.
  - intros id b force HI V. unfold has in HI. destruct (lookup Z.eqb id a) as [[b0 d]|] eqn:E; [|discriminate].
    destruct (update_ok o L pct _ _ _ _ _ _ _ b force I E V) as (t' & r & _ & _ & U & _). eauto.
  - intros id b d E. destruct (i_live _ _ _ _ _ _ I _ _ _ E) as (fb & A & _). destruct (leaf_get o _ _ _ _ _ _ _ (i_rep _ _ _ _ _ _ I) A) as (n & G & _ & D & _).
    unfold get_data. rewrite G. cbn [bind]. rewrite D. reflexivity.
Qed.

(** C19: the stored box of a live object contains the box reported last. *)
Theorem C19_fat_box : forall t a id b d, d_le o (d_zero o) pct = true -> tree_history o pct t a ->
  lookup Z.eqb id a = Some (b, d) -> exists fb, get_fat id t = Ok fb /\ within o b fb.
Proof.
  intros t a id b d P H E. destruct (history_inv o L pct t a H) as (so & F & I). destruct (i_live _ _ _ _ _ _ I _ _ _ E) as (fb & A & W).
  destruct (leaf_get o _ _ _ _ _ _ _ (i_rep _ _ _ _ _ _ I) A) as (n & G & B & _). exists fb. split; [|exact (W P)].
  unfold get_fat. rewrite G. cbn [bind]. rewrite B. reflexivity.
Qed.

Lemma live_fat : forall t a so F id, TInv o pct t a so F -> forall fb,
  (has Z.eqb id a = true /\ get_fat id t = Ok fb) <-> (exists d, In (id, (fb, d)) (leaveso so)).
Proof.
  intros t a so F id I fb. pose proof (i_rep _ _ _ _ _ _ I) as R. split.
  - intros (HI & G). unfold has in HI. destruct (lookup Z.eqb id a) as [[b d]|] eqn:E; [|discriminate].
    destruct (i_live _ _ _ _ _ _ I _ _ _ E) as (fb2 & A & _). destruct (leaf_get o _ _ _ _ _ _ _ R A) as (n & G2 & B & _).
    unfold get_fat in G. rewrite G2 in G. cbn [bind] in G. inversion G; subst. eauto.
  - intros (d & A). split; [apply (i_leaf _ _ _ _ _ _ I _ _ A)|]. destruct (leaf_get o _ _ _ _ _ _ _ R A) as (n & G2 & B & _).
    unfold get_fat. rewrite G2. cbn [bind]. congruence.
Qed.
Lemma query_ok : forall t a so F q, TInv o pct t a so F -> exists out, query_loop o (fuel_of t) q [t_root t] [] t = Ok out /\ NoDup out /\
  forall id, In id out <-> exists fb d, In (id, (fb, d)) (leaveso so) /\ overlap o q fb.
Proof.
  intros t a so F q I. destruct (i_rep _ _ _ _ _ _ I) as [RT RF RC RN RA RP RD]. destruct so as [s|]; cbn [rooted cnto sizeo leaveso] in *.
  - destruct RT as (A & B & C). rewrite C. change [root_id s] with (map (fun s0 : shape T => root_id s0) [s]). rewrite query_loop_ok.
    + cbn [map concat app]. rewrite app_nil_r. exists (found o q s). split; [reflexivity|]. split.
      * apply (found_nodup o). intros x. specialize (RC x). pose proof (inr_le x (t_alloc t)). lia.
      * intros id. apply (found_spec o L). exact B.
    + intros s' [<-|[]]. split; [eauto|]. intros x Hx. apply inr_pos. rewrite <- RC. lia.
    + cbn. unfold fuel_of. rewrite zlen_nil in RN. pose proof (size_pos s). lia.
  - rewrite RT. exists []. split; [reflexivity|]. split; [constructor|]. intros id. split; [intros []|intros (? & ? & [] & _)].
Qed.

(** C20: a query reports exactly the live objects whose stored box overlaps the given box, once. *)
Theorem C20_query_exact : forall t a q, tree_history o pct t a -> exists out, query o q t = Ok out /\ NoDup out /\
  forall id, In id out <-> has Z.eqb id a = true /\ exists fb, get_fat id t = Ok fb /\ overlap o q fb.
Proof.
  intros t a q H. destruct (history_inv o L pct t a H) as (so & F & I). destruct (query_ok t a so F q I) as (out & Q & ND & S).
  exists out. split; [exact Q|]. split; [exact ND|]. intros id. rewrite S. split.
  - intros (fb & d & A & O). destruct (proj2 (live_fat _ _ _ _ id I fb) (ex_intro _ d A)). eauto.
  - intros (HI & fb & G & O). destruct (proj1 (live_fat _ _ _ _ id I fb) (conj HI G)) as (d & A). eauto.
Qed.

(** C20: the query for an array of live objects reports, for each, exactly the overlapping ones. *)
Theorem C20_query_shapes_exact : forall t a is, tree_history o pct t a -> (forall i, In i is -> has Z.eqb i a = true) ->
  exists out, query_shapes o is t = Ok out /\
  (forall i j, In (i, j) out <-> In i is /\ has Z.eqb j a = true /\
     exists fi fj, get_fat i t = Ok fi /\ get_fat j t = Ok fj /\ overlap o fi fj) /\
  (NoDup is -> NoDup out).
Proof.
  intros t a is H. destruct (history_inv o L pct t a H) as (so & F & I). induction is as [|i is IH]; intros LV.
  - exists []. cbn. split; [reflexivity|]. split; [tauto|constructor].
  - destruct IH as (rest & R & S & N). { intros j Hj. apply LV. right. exact Hj. }
    cbn [query_shapes].
    assert (HI : has Z.eqb i a = true) by (apply LV; left; reflexivity).
    assert (EX : exists fi d, In (i, (fi, d)) (leaveso so)).
    { unfold has in HI. destruct (lookup Z.eqb i a) as [[b d]|] eqn:E; [|discriminate]. destruct (i_live _ _ _ _ _ _ I _ _ _ E) as (fb & A & _). eauto. }
    destruct EX as (fi & di & A). destruct (proj2 (live_fat _ _ _ _ i I fi) (ex_intro _ di A)) as (_ & G). rewrite G. cbn [bind].
    destruct (query_ok t a so F fi I) as (out & Q & ND & SP). rewrite Q. cbn [bind]. rewrite R. cbn [bind].
    exists (map (fun h => (i, h)) out ++ rest). split; [reflexivity|]. split.
    + intros i' j. rewrite in_app_iff, S, in_map_iff. split.
      * intros [(h & E & IH')|(P1 & P2 & P3)].
        -- inversion E; subst i' h. apply SP in IH'. destruct IH' as (fb & d & A' & O). destruct (proj2 (live_fat _ _ _ _ j I fb) (ex_intro _ d A')) as (H1 & H2).
           split; [left; reflexivity|]. eauto 8.
        -- split; [right; exact P1|]. auto.
      * intros ([E|P1] & P2 & fi' & fj & G1 & G2 & O); [|right; eauto 10]. subst i'. left. exists j. split; [reflexivity|].
        rewrite G in G1. inversion G1; subst fi'. apply SP. destruct (proj1 (live_fat _ _ _ _ j I fj) (conj P2 G2)) as (d & A'). eauto.
    + intros ND2. inversion ND2 as [|? ? N1 N2]; subst.
      assert (NDM : NoDup (map (fun h => (i, h)) out)) by (apply FinFun.Injective_map_NoDup; [intros x y E; congruence|exact ND]).
      specialize (N N2).
      assert (DJ : forall p, In p (map (fun h => (i, h)) out) -> In p rest -> False).
      { intros (i' & j) P1 P2. apply in_map_iff in P1. destruct P1 as (h & E & _). inversion E; subst. apply S in P2. apply N1. apply P2. }
      revert NDM DJ. generalize (map (fun h => (i, h)) out). clear - N. induction l as [|p l IH]; intros NDM DJ; [exact N|].
      inversion NDM; subst. cbn. constructor.
      * rewrite in_app_iff. intros [P|P]; [auto|]. apply (DJ p); [left; reflexivity|exact P].
      * apply IH; [assumption|]. intros p' P1 P2. apply (DJ p'); [right; exact P1|exact P2].
Qed.

(** * Ray casts *)
Lemma history_valid : forall t a, tree_history o pct t a -> forall id b d, lookup Z.eqb id a = Some (b, d) -> valid_box o b.
Proof.
  induction 1 as [|t a b d t' id0 H IH V N E|t a id0 t' H IH HI E|t a id0 b0 d b force t' r H IH LK V E]; intros id b1 d1 LK1.
  - discriminate.
  - cbn [lookup] in LK1. destruct (id0 =? id); [inversion LK1; subst; exact V|eauto].
  - rewrite ComponentsProofs.lookup_remove in LK1. destruct (id =? id0); [discriminate|eauto].
  - rewrite ComponentsProofs.lookup_set in LK1. destruct (id =? id0); [inversion LK1; subst; exact V|eauto].
Qed.

Lemma valid_within : forall b a, valid_box o b -> within o b a -> valid_box o a.
Proof.
  intros b a (X & Y & Z) ((X1 & X2) & (Y1 & Y2) & (Z1 & Z2)). unfold valid_box.
  splits; (eapply (le_trans o L); [|eassumption]; eapply (le_trans o L); eassumption).
Qed.

Lemma recording_plain : forall (St : Type) hit (callback : St -> Z -> T -> St * T) fuel stack m s log t r,
  raycast_loop o hit (recording callback) fuel stack m (s, log) t = Ok r ->
  raycast_loop o hit callback fuel stack m s t = Ok (fst (fst r), snd r).
Proof.
  intros St hit callback. induction fuel as [|fuel IH]; intros stack m s log t r E; destruct stack as [|i stack]; cbn [raycast_loop] in *; try discriminate.
  - inversion E; subst. reflexivity.
  - inversion E; subst. reflexivity.
  - destruct (i =? NULL); [eauto|]. destruct (get i t) as [n| |]; cbn [bind] in *; try discriminate.
    destruct (negb (hit (n_box n) m)); [eauto|]. destruct (is_leaf n).
    + unfold recording in E at 1. cbn [fst snd] in E. destruct (callback s i m) as [s1 f]. destruct (d_eq0 o f); [inversion E; subst; reflexivity|eauto].
    + destruct (rd (n_c0 n)) as [l| |]; cbn [bind] in *; try discriminate. destruct (rd (n_c1 n)) as [r0| |]; cbn [bind] in *; try discriminate. eauto.
Qed.

Section Ray.
Variable inv : T -> T.
Hypothesis RL : ray_laws o inv.
Variable ry : ray (T:=T).

(** An axis-parallel ray runs in the plane of no face of the stored boxes. *)
Definition clear_of_faces (t : dtree T) (a : list (Z * (box T * Z))) : Prop :=
  forall id fb, has Z.eqb id a = true -> get_fat id t = Ok fb -> off_faces o ry fb.
(** The live object [id] has a stored box that the ray, cut at the fraction [m], hits. *)
Definition box_hit (t : dtree T) (a : list (Z * (box T * Z))) (id : Z) (m : T) : Prop :=
  has Z.eqb id a = true /\ exists fb, get_fat id t = Ok fb /\ test_ray o inv ry fb m = true.

(** C21: a ray cast terminates without undefined behaviour; it offers to the callback live objects
    hit by the ray, each at most once; unless the callback stops it with 0, it offers every live
    object that the ray as shortened by the answers hits, if the ray runs in no plane of a face of
    the stored box of this object. *)
Theorem C21_raycast_each : forall (St : Type) (callback : St -> Z -> T -> St * T) t a m s0,
  d_le o (d_zero o) pct = true -> tree_history o pct t a ->
  exists s' tr m', raycast o (test_ray o inv ry) callback m s0 t = Ok (s', m') /\
    raycast o (test_ray o inv ry) (recording callback) m (s0, []) t = Ok ((s', tr), m') /\
    dialogue o callback s0 m tr s' m' /\
    NoDup (offered tr) /\ d_le o m' m = true /\
    (forall id m1 f, In (id, m1, f) tr -> box_hit t a id m1) /\
    ((forall id m1 f, In (id, m1, f) tr -> d_eq0 o f = false) -> forall id, box_hit t a id m' -> (forall fb, get_fat id t = Ok fb -> off_faces o ry fb) -> In id (offered tr)).
Proof.
  intros St callback t a m s0 P H. destruct (history_inv o L pct t a H) as (so & F & I).
  pose (good := fun b : box T => off_faces o ry b /\ valid_box o b).
  assert (GD : forall i b d, In (i, (b, d)) (leaveso so) -> valid_box o b).
  { intros i b d A. destruct (proj2 (live_fat _ _ _ _ i I b) (ex_intro _ d A)) as (HI & G).
    unfold has in HI. destruct (lookup Z.eqb i a) as [[b0 d0]|] eqn:E; [|discriminate].
    destruct (C19_fat_box _ _ _ _ _ P H E) as (fb & G2 & W). rewrite G in G2. inversion G2; subst fb. eapply valid_within; [|exact W]. eapply history_valid; eauto. }
  assert (R : exists s' tr m', raycast o (test_ray o inv ry) (recording callback) m (s0, []) t = Ok ((s', tr), m') /\
    dialogue o callback s0 m tr s' m' /\ NoDup (offered tr) /\ d_le o m' m = true /\
    (forall id m1 f, In (id, m1, f) tr -> exists b d, In (id, (b, d)) (leaveso so) /\ test_ray o inv ry b m1 = true) /\
    ((forall id m1 f, In (id, m1, f) tr -> d_eq0 o f = false) ->
      forall id b d, In (id, (b, d)) (leaveso so) -> good b -> test_ray o inv ry b m' = true -> In id (offered tr))).
  { destruct (i_rep _ _ _ _ _ _ I) as [RT RF RC RN RA RP RD]. unfold raycast. destruct so as [s|]; cbn [rooted cnto sizeo leaveso] in *.
    - destruct RT as (A & B & C). rewrite C. change [root_id s] with (map (fun s0 : shape T => root_id s0) [s]).
      destruct (raycast_loop_ok o L (test_ray o inv ry) callback good) with (t := t) (fuel := fuel_of t) (ss := [s]) (m := m) (s := s0) (log := @nil (Z * T * T)) as (s' & tr & m' & Q).
      + intros b c m1 (O1 & V1). apply (test_ray_mono o L inv RL); assumption.
      + intros b m1 m2 (O1 & V1) HB LE. eapply (test_ray_longer o L inv RL); eauto.
      + intros s' [<-|[]]. split; [eauto|]. split; [exact B|]. intros x Hx. apply inr_pos. rewrite <- RC. lia.
      + intros x. cbn [lcnt fold_right]. specialize (RC x). pose proof (inr_le x (t_alloc t)). lia.
      + cbn [ssize fold_right]. unfold fuel_of. rewrite zlen_nil in RN. pose proof (size_pos s). lia.
      + exists s', tr, m'. unfold lleaves in Q. cbn [map concat app] in Q. rewrite app_nil_r in Q. exact Q.
    - rewrite RT. exists s0, [], m. cbn. splits; auto; [constructor|apply (le_refl o L)|intros ? ? ? []]. }
  destruct R as (s' & tr & m' & R & D & ND & LE & OF & AL). exists s', tr, m'. split.
  { unfold raycast in *. apply recording_plain in R. exact R. }
  split; [exact R|]. split; [exact D|]. split; [exact ND|]. split; [exact LE|]. split.
  - intros id m1 f E. destruct (OF _ _ _ E) as (b & d & A & HB). destruct (proj2 (live_fat _ _ _ _ id I b) (ex_intro _ d A)) as (HI & G). split; [exact HI|eauto].
  - intros NZ id (HI & fb & G & HB) OF1. destruct (proj1 (live_fat _ _ _ _ id I fb) (conj HI G)) as (d & A). eapply AL; eauto. split; eauto.
Qed.

(** C21: the same, for a ray that runs in no plane of a face of a stored box. *)
Theorem C21_raycast : forall (St : Type) (callback : St -> Z -> T -> St * T) t a m s0,
  d_le o (d_zero o) pct = true -> tree_history o pct t a -> clear_of_faces t a ->
  exists s' tr m', raycast o (test_ray o inv ry) callback m s0 t = Ok (s', m') /\
    raycast o (test_ray o inv ry) (recording callback) m (s0, []) t = Ok ((s', tr), m') /\
    dialogue o callback s0 m tr s' m' /\
    NoDup (offered tr) /\ d_le o m' m = true /\
    (forall id m1 f, In (id, m1, f) tr -> box_hit t a id m1) /\
    ((forall id m1 f, In (id, m1, f) tr -> d_eq0 o f = false) -> forall id, box_hit t a id m' -> In id (offered tr)).
Proof.
  intros St callback t a m s0 P H CF. destruct (C21_raycast_each St callback t a m s0 P H) as (s' & tr & m' & R1 & R2 & D & ND & LE & OF & AL).
  exists s', tr, m'. splits; auto. intros NZ id BH. apply AL; auto. intros fb G. destruct BH as (HI & _). eapply CF; eauto.
Qed.

Lemma dialogue_answer : forall (St : Type) (callback : St -> Z -> T -> St * T) tr s m s' m',
  dialogue o callback s m tr s' m' -> forall id m1 f, In (id, m1, f) tr -> exists s1 s2, callback s1 id m1 = (s2, f).
Proof.
  induction tr as [|[[id m1] f] tr IH]; intros s m s' m' D id2 m2 f2 I; [destruct I|]. cbn [dialogue] in D. destruct D as (-> & s1 & CB & D).
  destruct I as [I|I]; [inversion I; subst; eauto|]. destruct (d_eq0 o f); [destruct D as (-> & _); destruct I|]. eapply IH; eauto.
Qed.

Lemma keeps_dialogue : forall (St : Type) (callback : St -> Z -> T -> St * T),
  (forall s id m s1 f, callback s id m = (s1, f) -> d_lt o f (d_zero o) = true \/ d_lt o (d_zero o) f = true /\ d_le o m f = true) ->
  forall tr s m s' m', dialogue o callback s m tr s' m' -> m' = m /\ forall id m1 f, In (id, m1, f) tr -> m1 = m /\ d_eq0 o f = false.
Proof.
  intros St callback K. induction tr as [|[[id m1] f] tr IH]; intros s m s' m' D; cbn [dialogue] in D.
  - destruct D as (-> & ->). split; [reflexivity|intros ? ? ? []].
  - destruct D as (-> & s1 & CB & D). pose proof (K _ _ _ _ _ CB) as KF.
    assert (NZ : d_eq0 o f = false).
    { unfold d_eq0. destruct KF as [N|(Z & _)]; [apply (lt_spec o L) in N; rewrite N; apply andb_false_r|apply (lt_spec o L) in Z; rewrite Z; reflexivity]. }
    assert (SH : shorten o m f = m).
    { unfold shorten. destruct KF as [N|(_ & Z)].
      - assert (E : d_lt o (d_zero o) f = false) by (rewrite (lt_le o L); apply negb_false_iff; apply (le_of_lt o L); exact N). rewrite E. reflexivity.
      - assert (E : d_lt o f m = false) by (rewrite (lt_le o L); apply negb_false_iff; exact Z). rewrite E, andb_false_r. reflexivity. }
    rewrite NZ, SH in D. destruct (IH _ _ _ _ D) as (E & A). split; [exact E|]. intros id2 m2 f2 [I|I]; [inversion I; subst; auto|eauto].
Qed.

(** C21: a callback that never shortens nor stops the ray (its answers are negative, or positive and
    not below the maximal fraction) is offered exactly the live objects that the ray hits, once. *)
Theorem C21_all_hits : forall (St : Type) (callback : St -> Z -> T -> St * T) t a m s0,
  (forall s id m s1 f, callback s id m = (s1, f) -> d_lt o f (d_zero o) = true \/ d_lt o (d_zero o) f = true /\ d_le o m f = true) ->
  d_le o (d_zero o) pct = true -> tree_history o pct t a -> clear_of_faces t a ->
  exists s' tr, raycast o (test_ray o inv ry) (recording callback) m (s0, []) t = Ok ((s', tr), m) /\
    NoDup (offered tr) /\ forall id, In id (offered tr) <-> box_hit t a id m.
Proof.
  intros St callback t a m s0 K P H CF. destruct (C21_raycast St callback t a m s0 P H CF) as (s' & tr & m' & _ & R & D & ND & _ & OF & AL).
  destruct (keeps_dialogue St callback K _ _ _ _ _ D) as (-> & KD). exists s', tr. split; [exact R|]. split; [exact ND|]. intros id. split.
  - intros I. unfold offered in I. apply in_map_iff in I. destruct I as ([[id1 m1] f] & E & I). cbn in E. subst id1. destruct (KD _ _ _ I) as (-> & _). eapply OF; eauto.
  - apply AL. intros id1 m1 f I. apply (KD _ _ _ I).
Qed.

(** C21: a callback that answers the fraction of each accepted hit ends with a closest hit.
    [h id]: the fraction at which the ray hits the object itself, which lies in its box. *)
Theorem C21_closest_hit : forall (h : Z -> option T) tie ign t a m0,
  d_lt o ign (d_zero o) = true ->
  (forall id f, h id = Some f -> d_le o (d_zero o) f = true /\ forall m, d_le o f m = true -> box_hit t a id m) ->
  d_le o (d_zero o) pct = true -> tree_history o pct t a -> clear_of_faces t a ->
  exists s' m', raycast o (test_ray o inv ry) (closest o h tie ign) m0 None t = Ok (s', m') /\
    match s' with
    | Some (id, f) => h id = Some f /\ d_le o f m0 = true /\ forall id2 f2, h id2 = Some f2 -> d_le o f f2 = true
    | None => forall id f, h id = Some f -> d_le o m0 f = true
    end.
Proof.
  intros h tie ign t a m0 IGN HH P H CF.
  destruct (C21_raycast _ (closest o h tie ign) t a m0 None P H CF) as (s' & tr & m' & R & _ & D & ND & _ & OF & AL).
  assert (POS : forall id f, h id = Some f -> d_le o (d_zero o) f = true) by (intros id f E; apply (HH _ _ E)).
  destruct (closest_dialogue o L h tie ign m0 IGN POS tr None m0 s' m' D) as (A & B & C & E).
  { split; apply (le_refl o L). }
  exists s', m'. split; [exact R|].
  assert (ALL : forall id f, h id = Some f -> d_le o (val m0 s') f = true).
  { intros id f HF. destruct (existsb (fun e => d_eq0 o (snd e)) tr) eqn:EX.
    - apply existsb_exists in EX. destruct EX as ([[id1 m1] f1] & I & Z0). cbn [snd] in Z0.
      destruct (dialogue_answer _ _ _ _ _ _ _ D _ _ _ I) as (s1 & s2 & CB).
      assert (HF1 : h id1 = Some f1).
      { unfold closest in CB. destruct (h id1) as [f2|].
        - destruct (d_lt o f2 m1 || (tie id1 && d_le o f2 m1)); injection CB as X1 X2; [rewrite X2; reflexivity|]. rewrite <- X2 in Z0. rewrite (ign_eq0 o L ign IGN) in Z0. discriminate.
        - injection CB as X1 X2. rewrite <- X2 in Z0. rewrite (ign_eq0 o L ign IGN) in Z0. discriminate. }
      eapply (le_trans o L); [apply (C id1 f1); [|exact HF1]|].
      { unfold offered. apply in_map_iff. exists (id1, m1, f1). split; [reflexivity|exact I]. }
      unfold d_eq0 in Z0. apply andb_true_iff in Z0. eapply (le_trans o L); [apply Z0|apply (POS _ _ HF)].
    - assert (NZ : forall id m1 f, In (id, m1, f) tr -> d_eq0 o f = false).
      { intros i1 m1 f1 I. destruct (d_eq0 o f1) eqn:Z0; [|reflexivity]. rewrite <- EX. symmetry. apply existsb_exists. exists (i1, m1, f1). auto. }
      destruct (d_le o f m') eqn:LE.
      + apply (C id f); [|exact HF]. apply (AL NZ). apply (HH _ _ HF). exact LE.
      + destruct E as [(E1 & E2)|(f0 & Z0 & V)].
        * eapply (le_trans o L); [exact E2|]. apply (lt_spec o L) in LE. apply (le_of_lt o L). exact LE.
        * rewrite V. unfold d_eq0 in Z0. apply andb_true_iff in Z0. eapply (le_trans o L); [apply Z0|apply (POS _ _ HF)]. }
  destruct B as [->|(id & f & -> & HF & _ & LE)].
  - intros id f HF. exact (ALL _ _ HF).
  - split; [exact HF|]. split; [exact LE|]. exact ALL.
Qed.
End Ray.
End Properties.

(** * Exact arithmetic *)
(** C21: with exact arithmetic the objects offered are those whose box the ray meets. *)
Theorem C21_all_hits_exact : forall pct ry (St : Type) (callback : St -> Z -> Q -> St * Q) t a m s0,
  (forall s id m s1 f, callback s id m = (s1, f) -> (f < 0)%Q \/ (0 < f)%Q /\ (m <= f)%Q) ->
  (0 <= pct)%Q -> tree_history Q_ops pct t a -> clear_of_faces Q_ops ry t a ->
  exists s' tr, raycast Q_ops (test_ray Q_ops Qinv ry) (recording callback) m (s0, []) t = Ok ((s', tr), m) /\
    NoDup (offered tr) /\
    forall id, In id (offered tr) <-> has Z.eqb id a = true /\ exists fb, get_fat id t = Ok fb /\ ray_meets Q_ops ry m fb.
Proof.
  intros pct ry St callback t a m s0 K P H CF.
  assert (P' : d_le Q_ops (d_zero Q_ops) pct = true) by (apply Qle_bool_iff; exact P).
  destruct (C21_all_hits Q_ops Q_laws pct Qinv Q_ray_laws ry St callback t a m s0) as (s' & tr & R & ND & S); auto.
  - intros s id m1 s1 f CB. destruct (K _ _ _ _ _ CB) as [N|(X & Y)].
    + left. apply Qlt_bool_iff. exact N.
    + right. split; [apply Qlt_bool_iff; exact X|apply Qle_bool_iff; exact Y].
  - exists s', tr. split; [exact R|]. split; [exact ND|]. intros id. rewrite S. unfold box_hit.
    assert (VB : forall fb, has Z.eqb id a = true -> get_fat id t = Ok fb -> valid_box Q_ops fb).
    { intros fb HI G. unfold has in HI. destruct (lookup Z.eqb id a) as [[b d]|] eqn:E; [|discriminate].
      destruct (C19_fat_box Q_ops Q_laws pct _ _ _ _ _ P' H E) as (fb2 & G2 & W). rewrite G in G2. inversion G2; subst fb2.
      eapply (valid_within Q_ops Q_laws); [|exact W]. eapply history_valid; eauto. }
    split; intros (HI & fb & G & X); (split; [exact HI|]); exists fb; (split; [exact G|]); apply (test_ray_exact ry fb m); auto; eapply CF; eauto.
Qed.

(** * Concrete histories *)
Inductive op : Type := OAdd (b : box Q) (d : Z) | ORemove (id : Z) | OUpdate (id : Z) (b : box Q) (force : bool).
Definition qvalid (b : box Q) : bool :=
  Qle_bool (vx (b_min b)) (vx (b_max b)) && Qle_bool (vy (b_min b)) (vy (b_max b)) && Qle_bool (vz (b_min b)) (vz (b_max b)).
Definition step (pct : Q) (o : op) (x : dtree Q * list (Z * (box Q * Z))) : res (dtree Q * list (Z * (box Q * Z))) :=
  let (t, a) := x in
  match o with
  | OAdd b d => let* _ := check (qvalid b && (zlen a <? 32768)) in let* (t', id) := add_object Q_ops pct b d t in Ok (t', (id, (b, d)) :: a)
  | ORemove id => let* _ := check (has Z.eqb id a) in let* t' := remove_object Q_ops id t in Ok (t', m_remove Z.eqb id a)
  | OUpdate id b force =>
      let* _ := check (qvalid b) in
      let* (b0, d) := rd (lookup Z.eqb id a) in
      let* (t', r) := update_object Q_ops pct id b force t in Ok (t', m_set Z.eqb id (b, d) a)
  end.
Fixpoint run (pct : Q) (l : list op) (x : dtree Q * list (Z * (box Q * Z))) : res (dtree Q * list (Z * (box Q * Z))) :=
  match l with [] => Ok x | o :: l' => let* y := step pct o x in run pct l' y end.
Lemma qvalid_ok : forall b, qvalid b = true -> valid_box Q_ops b.
Proof. intros b H. unfold qvalid in H. rewrite !andb_true_iff in H. unfold valid_box. cbn. tauto. Qed.
Lemma run_history : forall pct l t a t' a', tree_history Q_ops pct t a -> run pct l (t, a) = Ok (t', a') -> tree_history Q_ops pct t' a'.
Proof.
  intros pct. induction l as [|op l IH]; intros t a t' a' H R; cbn [run] in R; [inversion R; subst; exact H|].
  destruct (step pct op (t, a)) as [[t1 a1]| |] eqn:S; cbn [bind] in R; try discriminate. apply (IH t1 a1); [|exact R]. clear R.
  destruct op as [b d|id|id b force]; cbn [step] in S.
  - destruct (qvalid b && (zlen a <? 32768)) eqn:C; cbn [check bind] in S; [|discriminate]. apply andb_true_iff in C. destruct C as (C1 & C2).
    destruct (add_object Q_ops pct b d t) as [[t2 id]| |] eqn:E; cbn [bind] in S; try discriminate. inversion S; subst.
    eapply th_add; eauto; [apply qvalid_ok; exact C1|lia].
  - destruct (has Z.eqb id a) eqn:C; cbn [check bind] in S; [|discriminate].
    destruct (remove_object Q_ops id t) as [t2| |] eqn:E; cbn [bind] in S; try discriminate. inversion S; subst. eapply th_remove; eauto.
  - destruct (qvalid b) eqn:C; cbn [check bind] in S; [|discriminate]. destruct (lookup Z.eqb id a) as [[b0 d]|] eqn:LK; cbn [rd bind] in S; [|discriminate].
    destruct (update_object Q_ops pct id b force t) as [[t2 r]| |] eqn:E; cbn [bind] in S; try discriminate. inversion S; subst.
    eapply th_update; eauto. apply qvalid_ok. exact C.
Qed.
Definition final (pct : Q) (l : list op) : dtree Q * list (Z * (box Q * Z)) :=
  match run pct l (init_tree Q_ops, []) with Ok x => x | _ => (init_tree Q_ops, []) end.
Lemma final_history : forall pct l, tree_history Q_ops pct (fst (final pct l)) (snd (final pct l)).
Proof.
  intros. unfold final. destruct (run pct l (init_tree Q_ops, [])) as [[t a]| |] eqn:E; [|constructor|constructor].
  eapply run_history; [constructor|exact E].
Qed.

Definition qbox (x0 y0 z0 x1 y1 z1 : Q) : box Q := mk_box (mk_vec x0 y0 z0) (mk_vec x1 y1 z1).

(** A history with growth of the node array, removals, moves and rotations; a query and a ray cast. *)
Definition sample : list op :=
  map (fun i => OAdd (qbox (inject_Z i) 0 0 (inject_Z i + 1) 1 1) (100 + i)) (zrange 0 12)
  ++ [ORemove 0; OUpdate 3 (qbox 40 0 0 41 1 1) false; OUpdate 1 (qbox 1 0 0 2 1 1) true; ORemove 7; OAdd (qbox 2 0 0 6 1 1) 200].
Example sample_runs :
  map fst (snd (final (8 # 100) sample)) = [7; 1; 3; 21; 19; 17; 15; 13; 11; 9; 5] /\
  query Q_ops (qbox 3 0 0 4 1 1) (fst (final (8 # 100) sample)) = Ok [7; 5].
Proof. vm_compute. auto. Qed.


(** A ray through the row of boxes, above the edges. *)
Definition sample_ray : ray := mk_ray (mk_vec (-1)%Q (1 # 2)%Q (1 # 3)%Q) (mk_vec 20%Q 0%Q (1 # 100)%Q) (false, false, false).
Definition stored_boxes (x : dtree Q * list (Z * (box Q * Z))) : list (res (box Q)) := map (fun e => get_fat (fst e) (fst x)) (snd x).
Definition qoff1 (mn mx og d : Q) : bool :=
  negb (d_eq0 Q_ops d) || (Qlt_bool mn og || Qlt_bool og mn) && (Qlt_bool mx og || Qlt_bool og mx).
Definition qoff (ry : ray) (b : box Q) : bool :=
  qoff1 (vx (b_min b)) (vx (b_max b)) (vx (r_origin ry)) (vx (r_dir ry)) &&
  qoff1 (vy (b_min b)) (vy (b_max b)) (vy (r_origin ry)) (vy (r_dir ry)) &&
  qoff1 (vz (b_min b)) (vz (b_max b)) (vz (r_origin ry)) (vz (r_dir ry)).
Lemma qoff_ok : forall ry b, qoff ry b = true -> off_faces Q_ops ry b.
Proof.
  intros ry b H. unfold qoff in H. rewrite !andb_true_iff in H. destruct H as ((H1 & H2) & H3).
  assert (A : forall mn mx og d, qoff1 mn mx og d = true -> off_face Q_ops mn mx og d).
  { intros mn mx og d H. unfold qoff1 in H. rewrite orb_true_iff, negb_true_iff, andb_true_iff, !orb_true_iff in H. exact H. }
  split; [|split]; apply A; assumption.
Qed.
Lemma clear_check : forall ry x, forallb (fun r => match r with Ok b => qoff ry b | _ => true end) (stored_boxes x) = true ->
  clear_of_faces Q_ops ry (fst x) (snd x).
Proof.
  intros ry x H id fb HI G. rewrite forallb_forall in H. apply qoff_ok. specialize (H (Ok fb)). apply H.
  unfold stored_boxes. apply in_map_iff. unfold has in HI. destruct (lookup Z.eqb id (snd x)) as [v|] eqn:E; [|discriminate].
  exists (id, v). split; [exact G|]. clear - E. destruct x as [t a]. cbn [snd] in *. induction a as [|[k w] a IH]; [discriminate|]. cbn [lookup] in E.
  destruct (Z.eqb_spec k id); [inversion E; subst; left; reflexivity|right; auto].
Qed.
Example sample_ray_clear : clear_of_faces Q_ops sample_ray (fst (final (8 # 100) sample)) (snd (final (8 # 100) sample)).
Proof. apply clear_check. vm_compute. reflexivity. Qed.
Example sample_ray_hits :
  match raycast Q_ops (test_ray Q_ops Qinv sample_ray) (recording (fun (s : unit) _ _ => (s, (-1)%Q))) (1 # 4)%Q (tt, []) (fst (final (8 # 100) sample)) with
  | Ok ((_, tr), _) => offered tr = [7; 1; 5]
  | _ => False
  end.
Proof. vm_compute. reflexivity. Qed.
(** The closest-hit callback: objects hit at the given fractions. *)
Example sample_closest :
  raycast Q_ops (test_ray Q_ops Qinv sample_ray) (closest Q_ops (fun id => if id =? 7 then Some (3 # 20)%Q else if id =? 1 then Some (1 # 10)%Q else None) (fun _ => true) (-1)%Q)
    1%Q None (fst (final (8 # 100) sample)) = Ok (Some (1, (1 # 10)%Q), (1 # 10)%Q).
Proof. vm_compute. reflexivity. Qed.

(** C21: without [clear_of_faces] the property fails: two boxes that share the plane x = 0, and a
    ray that runs in this plane through both.  0 * infinity is not a number and the test answers
    no; nothing is offered although the ray meets both boxes. *)
Definition face_boxes : list op := [OAdd (qbox (-1) 0 0 0 1 1) 1; OAdd (qbox 0 0 0 1 1 1) 2].
Definition face_ray : ray := mk_ray (mk_vec 0%Q (-1)%Q (1 # 2)%Q) (mk_vec 0%Q 4%Q 0%Q) (false, false, false).
Theorem C21_ray_in_face_refuted :
  exists t a m, tree_history Q_ops 0%Q t a /\
    (forall id, has Z.eqb id a = true <-> id = 0 \/ id = 1) /\
    (forall id, id = 0 \/ id = 1 -> exists fb, get_fat id t = Ok fb /\ ray_meets Q_ops face_ray m fb) /\
    raycast Q_ops (test_ray Q_ops Qinv face_ray) (recording (fun (s : unit) _ _ => (s, (-1)%Q))) m (tt, []) t = Ok ((tt, []), m).
Proof.
  exists (fst (final 0 face_boxes)), (snd (final 0 face_boxes)), 1%Q. splits.
  - apply final_history.
  - intros id. vm_compute (snd (final 0 face_boxes)). unfold has. cbn [lookup].
    destruct (Z.eqb_spec 1 id); [subst; split; auto|]. destruct (Z.eqb_spec 0 id); [subst; split; auto|]. split; [discriminate|]. intros [X|X]; congruence.
  - intros id [X|X]; subst id.
    + eexists. split; [vm_compute; reflexivity|]. exists (1 # 2)%Q. vm_compute. splits; reflexivity.
    + eexists. split; [vm_compute; reflexivity|]. exists (1 # 2)%Q. vm_compute. splits; reflexivity.
  - vm_compute. reflexivity.
Qed.

(** * Balance *)
(** C62: growing boxes, each of which is put next to the root. *)
Definition growing : list op :=
  map (fun i => let w := inject_Z (10 ^ i) in OAdd (qbox (- w) (- w) (- w) w w w) i) (zrange 0 7).
(** C62: the tree does not stay balanced: an inner node with a leaf beside a subtree of height 2.
    (The stored heights are the heights of the subtrees, C18.) *)
Theorem C62_tree_balanced_refuted :
  exists t a i n l nl r nr, tree_history Q_ops 0%Q t a /\
    TreeModel.get i t = Ok n /\ n_c0 n = Some l /\ n_c1 n = Some r /\ 0 < n_height n /\
    TreeModel.get l t = Ok nl /\ TreeModel.get r t = Ok nr /\ n_height nl = 2 /\ n_height nr = 0.
Proof.
  exists (fst (final 0 growing)), (snd (final 0 growing)), 12. do 5 eexists. split; [apply final_history|].
  split; [vm_compute; reflexivity|]. split; [reflexivity|]. split; [reflexivity|]. split; [reflexivity|].
  split; [vm_compute; reflexivity|]. split; [vm_compute; reflexivity|]. split; reflexivity.
Qed.
(** C62: what holds is that the height is smaller than the number of live objects. *)
Theorem C62_height_partial : forall (T : Type) (o : decimal_ops T) (L : decimal_laws o) pct t a, tree_history o pct t a ->
  exists so F, represents o t so F /\ match so with Some s => height s < zlen a | None => a = [] end.
Proof.
  intros T o L pct t a H. destruct (history_inv o L pct t a H) as (so & F & I). exists so, F. split; [eapply inv_represents; eauto|].
  pose proof (i_n _ _ _ _ _ _ I) as N. destruct so as [s|]; cbn [nleaveso] in N.
  - rewrite <- N. clear. enough (0 <= height s < nleaves s) by lia. induction s; cbn [height nleaves]; lia.
  - destruct a; [reflexivity|]. rewrite zlen_cons in N. pose proof (zlen_nonneg _ a). lia.
Qed.

(** The rounded instance has histories too: the first insertion succeeds. *)
Example f32_history : exists t a, tree_history f32_ops (f32_of R0) t a /\ zlen a = 1.
Proof.
  destruct (C18_tree_progress f32_ops f32_laws (f32_of R0) _ _ (th_init _ _)) as (A & _).
  destruct (A (mk_box (mk_vec (f32_of R0) (f32_of R0) (f32_of R0)) (mk_vec (f32_of R0) (f32_of R0) (f32_of R0))) 7) as (t & id & E & _).
  { split; [|split]; apply (le_refl f32_ops f32_laws). }
  { reflexivity. }
  exists t, [(id, (mk_box (mk_vec (f32_of R0) (f32_of R0) (f32_of R0)) (mk_vec (f32_of R0) (f32_of R0) (f32_of R0)), 7))]. split; [|reflexivity].
  eapply th_add; [constructor| |reflexivity|exact E]. split; [|split]; apply (le_refl f32_ops f32_laws).
Qed.
(** The theorems for the numbers rounded like floats. *)
Definition C19_fat_box_f32 := C19_fat_box f32_ops f32_laws.
Definition C20_query_exact_f32 := C20_query_exact f32_ops f32_laws.
Definition C21_closest_hit_f32 := fun pct => C21_closest_hit f32_ops f32_laws pct f32_inv f32_ray_laws.

Print Assumptions C18_tree_structure.
Print Assumptions C18_tree_progress.
Print Assumptions C19_fat_box.
Print Assumptions C20_query_exact.
Print Assumptions C20_query_shapes_exact.
Print Assumptions C21_raycast_each.
Print Assumptions C21_raycast.
Print Assumptions C21_all_hits.
Print Assumptions C21_closest_hit.
Print Assumptions C21_all_hits_exact.
Print Assumptions C21_ray_in_face_refuted.
Print Assumptions C62_tree_balanced_refuted.
Print Assumptions C62_height_partial.
Print Assumptions C21_closest_hit_f32.
