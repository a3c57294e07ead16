(** Proofs about the ray casts of a world and of a body. *)
From Coq Require Import List Arith Lia Bool ZArith.
From Verif Require Import Base Decimal HashSpec TreeModel TreeSpec RayModel RaySpec ComponentsProofs TreeProofs TreeProofs2 TreeProofs3 TreeProofs4 TreeProofs5 TreeProofs6 RayProofs TreeProperties
  VecModel VecProofs GeomSpec ShapeModel ShapeSpec ShapeMeshProofs ShapeProperties TriMeshModel TriMeshTreeProofs TriMeshRayProofs QueryModel QuerySpec QueryProofs QueryProofs2.
Import ListNotations.
Local Open Scope R_scope.

Section Rays.
Variable pct eps big : R.
Hypothesis Hpct : 0 <= pct.
Hypothesis Heps : 0 < eps.
Notation winv := (winv pct).
Notation winv' := (winv' pct).

(** ** One collider *)
Lemma stands_one w c k x s t s' : qw_colliders w c = Some k -> qw_bodies w (wc_body k) = Some x -> qw_shapes w (wc_shape k) = Some s -> stands w c t s' ->
  t = tr_mul (wb_pose x) (wc_local k) /\ s' = s.
Proof. intros K B S (k1 & x1 & K1 & B1 & S1 & ->). rewrite K in K1. injection K1 as <-. rewrite B in B1. injection B1 as <-. split; congruence. Qed.
Lemma region_iff w c k x s : qw_colliders w c = Some k -> qw_bodies w (wc_body k) = Some x -> qw_shapes w (wc_shape k) = Some s ->
  forall p, region w c p <-> moved (tr_mul (wb_pose x) (wc_local k)) (shape_set s) p.
Proof.
  intros K B S p. split.
  - intros (t & s' & ST & M). destruct (stands_one w c k x s t s' K B S ST) as (-> & ->). exact M.
  - intros M. exists (tr_mul (wb_pose x) (wc_local k)), s. split; [|exact M]. exists k, x. auto.
Qed.
Lemma first_hit_iff (S S' : vec3 -> Prop) y h : (forall p, S p <-> S' p) -> first_hit S y h -> first_hit S' y h.
Proof.
  intros E (A & B & C & D & F & G). split; [exact A|]. split; [exact B|]. split; [now apply E|]. split; [intros u Hu X; apply (D u Hu); now apply E|].
  split; [exact F|]. intros q Hq. apply G. now apply E.
Qed.
Lemma collider_ray_ok w c k x y m info : winv' w -> qw_colliders w c = Some k -> qw_bodies w (wc_body k) = Some x -> wb_active x = true -> m <= ray_max y ->
  exists ans info', collider_ray eps big w k (cut y m) info = Ok (ans, info') /\
    (ans = false -> info' = Hit (hit_fraction info) (tr_point (wc_world k) (hit_point info)) (vnormalize eps (quat_vec (t_rot (wc_world k)) (hit_normal info)))) /\
    (dependable eps big w y c -> if ans : bool then first_hit (region w c) (cut y m) info' /\ vlen (hit_normal info') = 1 else misses (region w c) (cut y m)).
Proof.
  intros ((a & I) & A) K B AC M. destruct (v_coll _ _ _ _ I c k K) as (_ & UL & x1 & s & C1 & S & _ & PL). rewrite B in C1. injection C1 as <-.
  specialize (PL (fun f => f)). destruct (v_body _ _ _ _ I _ x B) as (UB & _). pose proof (unit_mul _ _ UB UL) as UP. rewrite <- PL in UP.
  unfold collider_ray. rewrite B, S. cbn [rd bind]. rewrite AC. cbn [negb].
  pose proof (region_iff w c k x s K B S) as RI. rewrite <- PL in RI.
  assert (DR : dependable eps big w y c -> right_answer eps big s (seen (wc_world k) (cut y m))).
  { intros DP. apply (DP (wc_world k) s); [|exact M]. exists k, x. auto. }
  pose proof (C79_cast eps (wshape_cast eps big s) (wc_world k) (shape_set s) (cut y m) Heps UP) as CC.
  unfold right_answer in DR. unfold collider_cast, seen in *. cbn [ray_p1 ray_p2 ray_max cut] in *.
  destruct (wshape_cast eps big s _) as [h|] eqn:E; eexists _, _; (split; [reflexivity|]).
  - split; [discriminate|]. intros DP. destruct (CC (DR DP)) as (F & N). split; [|exact N]. eapply first_hit_iff; [|exact F]. intros p. symmetry. apply RI.
  - split; [reflexivity|]. intros DP. specialize (CC (DR DP)). intros u Hu X. apply (CC u Hu). now apply RI.
Qed.

(** ** Boxes of the broad phase *)
Lemma broad_ok w c k x s : winv' w -> qw_colliders w c = Some k -> qw_bodies w (wc_body k) = Some x -> qw_shapes w (wc_shape k) = Some s -> wb_active x = true ->
  exists fb, get_fat (wc_node k) (qw_tree w) = Ok fb /\ (wc_resized k = false -> within real_ops (tree_box (wshape_box s (tr_mul (wb_pose x) (wc_local k)))) fb).
Proof.
  intros ((a & I) & A) K B S AC. assert (N : wc_node k <> (-1)%Z) by (intros X; apply (A c k x K B) in X; congruence).
  destruct (v_node _ _ _ _ I c k K N) as (b & LK & E). destruct (C19_fat_box real_ops real_laws pct _ _ _ _ _ ltac:(cbn; apply rle_iff; exact Hpct) (v_tree _ _ _ _ I) LK) as (fb & G & W).
  exists fb. split; [exact G|]. intros R. rewrite <- (E (fun f => f) R x s B S). exact W.
Qed.
Lemma point_within b fb p : within real_ops (tree_box b) fb -> in_bounds b p -> point_in real_ops (tree_vec p) fb.
Proof.
  unfold within, point_in, in_bounds. cbn. rewrite !rle_iff. intros ((X1 & X2) & (Y1 & Y2) & (Z1 & Z2)) (PX & PY & PZ). repeat split; lra.
Qed.
Lemma ray_point_at y u : ray_point real_ops (world_ray y) u = tree_vec (ray_at y u).
Proof. unfold ray_point, world_ray, ray_at, lerp, tree_vec, TreeModel.vadd, TreeModel.vscale, vadd, vscale, vsub. cbn. f_equal; ring. Qed.

(** ** The dialogue *)
Section Talk.
Context {St : Type}.
Variable w : qworld.
Variable mask : Z.
Variable notify : user St.
Variable y : ray.
Hypothesis I : winv' w.
Definition meant (k : wcollider) : Prop := Z.land mask (wc_bits k) <> 0%Z /\ wc_query k = true.
Lemma left_over_le : forall d m, left_over m d <= m.
Proof.
  induction d as [|[[c h] f] d IH]; intros m; cbn [left_over]; [lra|]. destruct (Rlt_dec 0 f) as [P|P]; [|apply IH].
  eapply Rle_trans; [apply IH|]. apply Rmin_r.
Qed.
Lemma left_over_answer : forall d m c h f, In (c, h, f) d -> 0 < f -> left_over m d <= f.
Proof.
  induction d as [|[[c0 h0] f0] d IH]; intros m c h f E P; [destruct E|]. destruct E as [E|E]; cbn [left_over].
  - injection E as -> -> ->. destruct (Rlt_dec 0 f) as [Q|Q]; [|lra]. eapply Rle_trans; [apply left_over_le|]. apply Rmin_l.
  - eapply IH; eauto.
Qed.
Lemma shorten_real m f : shorten real_ops m f = if Rlt_dec 0 f then Rmin f m else m.
Proof.
  unfold shorten. cbn. unfold rlt. destruct (Rlt_dec 0 f) as [P|P]; cbn; [|reflexivity]. destruct (Rlt_dec f m) as [Q|Q]; cbn; unfold Rmin; destruct (Rle_dec f m); lra.
Qed.
Lemma shorten_self m : (if Rlt_dec 0 m then Rmin m m else m) = m.
Proof. unfold Rmin. destruct (Rlt_dec 0 m); [|reflexivity]. destruct (Rle_dec m m); reflexivity. Qed.
Lemma at_leaf_ok s id b d0 m : (exists a, winv nothing w a /\ lookup Z.eqb id a = Some (b, d0)) -> m <= ray_max y ->
  exists c k ans h, qw_colliders w c = Some k /\ wc_node k = id /\ collider_ray eps big w k (cut y m) new_info = Ok (ans, h) /\
    ((meant k /\ at_leaf eps big w mask notify y (Ok s) id m = (if ans : bool then (Ok (fst (notify s c h)), snd (notify s c h)) else (Ok s, m))) \/
     (~ meant k /\ at_leaf eps big w mask notify y (Ok s) id m = (Ok s, -1))).
Proof.
  intros (a & I0 & LK) M. destruct (v_owner _ _ _ _ I0 id b d0 LK) as (c & k & -> & K & N). exists c, k.
  destruct (v_coll _ _ _ _ I0 c k K) as (_ & _ & x & s0 & B & _). assert (AC : wb_active x = true).
  { destruct (wb_active x) eqn:E; [reflexivity|]. exfalso. apply (proj2 I c k x K B) in E. rewrite N in E. now apply (live_range pct _ _ _ _ _ (v_tree _ _ _ _ I0) LK). }
  destruct (collider_ray_ok w c k x y m new_info I K B AC M) as (ans & h & E & _). exists ans, h. split; [exact K|]. split; [exact N|]. split; [exact E|].
  unfold at_leaf, offer. cbn [bind]. rewrite (live_data pct _ _ _ _ _ (v_tree _ _ _ _ I0) LK). cbn [bind]. rewrite Nat2Z.id, K. cbn [rd bind].
  change (Ray (ray_p1 y) (ray_p2 y) m) with (cut y m). rewrite E. cbn [bind]. unfold meant. destruct (Z.eqb_spec (Z.land mask (wc_bits k)) 0) as [EZ|EZ]; cbn [negb andb].
  - right. split; [tauto|reflexivity].
  - destruct (wc_query k) eqn:Q; cbn [andb].
    + left. split; [auto|]. destruct ans; [|reflexivity]. now destruct (notify s c h).
    + right. split; [|reflexivity]. intros (_ & X). discriminate.
Qed.
Fixpoint heard (m : R) (d : talk) : Prop :=
  match d with
  | [] => True
  | (c, h, f) :: d => (exists k, qw_colliders w c = Some k /\ collider_ray eps big w k (cut y m) new_info = Ok (true, h)) /\ heard (if Rlt_dec 0 f then Rmin f m else m) d
  end.
Lemma talk_ok a : winv nothing w a -> forall tr s m s' m', dialogue real_ops (at_leaf eps big w mask notify y) (Ok s) m tr s' m' -> m <= ray_max y ->
  (forall id m1 f, In (id, m1, f) tr -> has Z.eqb id a = true) -> NoDup (offered tr) ->
  exists s2 d, s' = Ok s2 /\ answers_are notify s d s2 /\ m' = left_over m d /\ heard m d /\
    (forall c h f, In (c, h, f) d -> exists k m1, qw_colliders w c = Some k /\ meant k /\ In (wc_node k) (offered tr) /\ m1 <= m /\ collider_ray eps big w k (cut y m1) new_info = Ok (true, h)) /\
    NoDup (map (fun e => fst (fst e)) d) /\
    (0 < left_over m d -> (forall c h f, In (c, h, f) d -> f <> 0) -> (forall id m1 f, In (id, m1, f) tr -> d_eq0 real_ops f = false) /\
       forall id, In id (offered tr) -> exists c k m1 ans h, qw_colliders w c = Some k /\ wc_node k = id /\ left_over m d <= m1 <= m /\
         collider_ray eps big w k (cut y m1) new_info = Ok (ans, h) /\ (meant k -> ans = true -> exists f, In (c, h, f) d)).
Proof.
  intros I0. induction tr as [|[[id m1] f] tr IH]; intros s m s' m' D M LV ND; cbn [dialogue] in D.
  - destruct D as (-> & ->). exists s, []. split; [reflexivity|]. split; [reflexivity|]. split; [reflexivity|]. split; [exact Logic.I|]. split; [intros c h f []|]. split; [constructor|].
    intros _ _. split; [intros ? ? ? []|intros ? []].
  - destruct D as (-> & s1 & CB & D). cbn [offered map fst] in ND. fold (offered tr) in ND. inversion ND as [|? ? NI ND']; subst.
    assert (LI : exists b d0, lookup Z.eqb id a = Some (b, d0)).
    { specialize (LV id m f (or_introl eq_refl)). unfold has in LV. destruct (lookup Z.eqb id a) as [[b d0]|]; [eauto|discriminate]. }
    destruct LI as (b & d0 & LK). destruct (at_leaf_ok s id b d0 m (ex_intro _ a (conj I0 LK)) M) as (c & k & ans & h & K & N & CR & CASES).
    (* what the leaf adds to the talk *)
    assert (X : exists e s0, s1 = Ok s0 /\ ((e = [] /\ s0 = s /\ (f = m \/ f = -1) /\ (meant k -> ans = false)) \/ (e = [(c, h, f)] /\ meant k /\ ans = true /\ s0 = fst (notify s c h) /\ f = snd (notify s c h)))).
    { destruct CASES as [(MK & E)|(MK & E)]; rewrite CB in E.
      - destruct ans; injection E as -> ->; [exists [(c, h, snd (notify s c h))]; eauto 10|exists []; eauto 10].
      - injection E as -> ->. exists []. eexists. split; [reflexivity|]. left. tauto. }
    destruct X as (e & s0 & -> & X).
    assert (LO : forall d, left_over m (e ++ d) = left_over (shorten real_ops m f) d).
    { intros d. rewrite shorten_real. destruct X as [(-> & _ & F & _)|(-> & _)]; [|reflexivity]. cbn [app]. destruct F as [-> | ->]; [now rewrite shorten_self|]. destruct (Rlt_dec 0 (-1)); [lra|reflexivity]. }
    assert (LE : shorten real_ops m f <= m). { rewrite shorten_real. destruct (Rlt_dec 0 f); [apply Rmin_r|lra]. }
    destruct (d_eq0 real_ops f) eqn:Z.
    + destruct D as (-> & -> & ->). apply real_zero in Z. subst f. exists s0, e. split; [reflexivity|]. rewrite <- (app_nil_r e), LO. cbn [left_over]. rewrite shorten_real. destruct (Rlt_dec 0 0) as [L0|L0]; [lra|]. clear L0.
      rewrite app_nil_r. split; [|split; [reflexivity|]].
      * destruct X as [(-> & -> & _)|(-> & _ & _ & -> & F)]; [reflexivity|]. cbn. auto.
      * split; [destruct X as [(-> & _)|(-> & _ & -> & _)]; cbn; eauto|]. split; [|split].
        -- intros c' h' f' Hi. destruct X as [(-> & _)|(-> & MK & -> & _)]; [destruct Hi|]. destruct Hi as [Hi|[]]. injection Hi as <- <- <-. exists k, m. rewrite N. cbn. repeat split; auto; try apply MK. lra.
        -- destruct X as [(-> & _)|(-> & _)]; cbn; [constructor|]. constructor; [intros []|constructor].
        -- intros P NZ. exfalso. destruct X as [(-> & _ & [F|F] & _)|(-> & _)]; [lra|lra|]. apply (NZ c h 0); [now left|reflexivity].
    + destruct (IH _ _ _ _ D) as (s2 & d & -> & AN & -> & HD & SO & NDD & CO); [lra|intros; eapply LV; right; eauto|exact ND'|].
      apply real_nonzero in Z. exists s2, (e ++ d). split; [reflexivity|]. rewrite LO.
      split; [|split; [reflexivity|split; [|split; [|split]]]].
      * destruct X as [(-> & -> & _)|(-> & _ & _ & -> & F)]; [exact AN|]. cbn. split; [auto|]. split; [contradiction|exact AN].
      * rewrite shorten_real in HD. destruct X as [(-> & _ & F & _)|(-> & _ & -> & _)]; [|cbn; eauto]. destruct F as [-> | ->]; [now rewrite shorten_self in HD|]. destruct (Rlt_dec 0 (-1)); [lra|exact HD].
      * intros c' h' f' Hi. apply in_app_iff in Hi. destruct Hi as [Hi|Hi].
        -- destruct X as [(-> & _)|(-> & MK & -> & _)]; [destruct Hi|]. destruct Hi as [Hi|[]]. injection Hi as <- <- <-. exists k, m. rewrite N. cbn. repeat split; auto; try apply MK. lra.
        -- destruct (SO c' h' f' Hi) as (k' & m1 & P1 & P2 & P3 & P4 & P5). exists k', m1. cbn. repeat split; auto; try apply P2. lra.
      * destruct X as [(-> & _)|(-> & _)]; [exact NDD|]. cbn. constructor; [|exact NDD]. intros Hi. apply in_map_iff in Hi. destruct Hi as (((c' & h') & f') & E & Hi). cbn in E. subst c'.
        destruct (SO c h' f' Hi) as (k' & m1 & P1 & _ & P3 & _). rewrite K in P1. injection P1 as <-. rewrite N in P3. contradiction.
      * intros P NZ. destruct (CO P) as (C1 & C2). { intros c' h' f' Hi. apply (NZ c' h' f'). apply in_app_iff. now right. }
        split.
        -- intros id' m2 f2 [Hi|Hi]; [|eauto]. injection Hi as <- <- <-. now apply real_nonzero.
        -- intros id' [<-|Hi].
           ++ exists c, k, m, ans, h. split; [exact K|]. split; [exact N|]. split; [split; [eapply Rle_trans; [apply left_over_le|exact LE]|lra]|]. split; [exact CR|].
              intros MK EA. destruct X as [(_ & _ & _ & X)|(-> & _)]; [rewrite (X MK) in EA; discriminate|]. exists f. now left.
           ++ destruct (C2 id' Hi) as (c' & k' & m2 & ans' & h' & P1 & P2 & P3 & P4 & P5). exists c', k', m2, ans', h'. repeat split; auto; try lra.
              intros MK EA. destruct (P5 MK EA) as (f' & Hf). exists f'. apply in_app_iff. now right.
Qed.
Lemma heard_turn : forall d m, heard m d -> m <= ray_max y -> (forall c h f, In (c, h, f) d -> in_play w c /\ dependable eps big w y c) -> in_turn m d.
Proof.
  induction d as [|[[c h] f] d IH]; intros m H M AL; cbn in *; [exact Logic.I|]. destruct H as ((k & K & CR) & H). split.
  - destruct (AL c h f (or_introl eq_refl)) as ((k' & x & K' & B & AC) & DP). rewrite K in K'. injection K' as <-.
    destruct (collider_ray_ok w c k x y m new_info I K B AC M) as (ans & info & E & _ & R). rewrite CR in E. injection E as <- <-. destruct (R DP) as ((F & _) & _). exact F.
  - apply IH; [exact H| |intros; eapply AL; right; eauto]. destruct (Rlt_dec 0 f); [|exact M]. eapply Rle_trans; [apply Rmin_r|exact M].
Qed.
Lemma world_cast_ok s : exists s2 d, world_cast eps big w mask notify y s = Ok s2 /\ answers_are notify s d s2 /\
  NoDup (map (fun e => fst (fst e)) d) /\
  (forall c h f, In (c, h, f) d -> targeted w mask c /\ (dependable eps big w y c -> first_hit (region w c) y h /\ vlen (hit_normal h) = 1)) /\
  ((forall c h f, In (c, h, f) d -> dependable eps big w y c) -> in_turn (ray_max y) d) /\
  ((forall c h f, In (c, h, f) d -> f <> 0) -> forall c u, targeted w mask c -> plain eps big w y c -> 0 <= u < left_over (ray_max y) d -> region w c (ray_at y u) ->
     exists h f, In (c, h, f) d).
Proof.
  destruct I as ((a & I0) & AI). assert (P' : d_le real_ops (d_zero real_ops) pct = true) by (cbn; apply rle_iff; exact Hpct).
  destruct (C21_raycast_each real_ops real_laws pct Rinv real_ray_laws (world_ray y) (res St) (at_leaf eps big w mask notify y) (qw_tree w) a (ray_max y) (Ok s) P' (v_tree _ _ _ _ I0))
    as (s' & tr & m' & R1 & _ & D & ND & _ & OF & AL).
  destruct (talk_ok a I0 tr s (ray_max y) s' m' D (Rle_refl _)) as (s2 & d & -> & AN & -> & HD & SO & NDD & CO).
  { intros id m1 f Hi. apply (OF id m1 f Hi). }
  { exact ND. }
  exists s2, d. split; [unfold world_cast; rewrite R1; reflexivity|]. split; [exact AN|]. split; [exact NDD|].
  assert (SOUND : forall c h f, In (c, h, f) d -> targeted w mask c /\ (dependable eps big w y c -> first_hit (region w c) y h /\ vlen (hit_normal h) = 1)).
  { intros c h f Hi. destruct (SO c h f Hi) as (k & m1 & K & MK & OFD & M & CR). destruct (v_coll _ _ _ _ I0 c k K) as (_ & _ & x & s0 & B & S & _).
    assert (AC : wb_active x = true).
    { destruct (wb_active x) eqn:E; [reflexivity|]. unfold collider_ray in CR. rewrite B in CR. cbn [rd bind] in CR. rewrite E in CR. discriminate. }
    split; [split; [exists k, x; auto|exists k; destruct MK; auto]|]. intros DP. destruct (collider_ray_ok w c k x y m1 new_info I K B AC M) as (ans & info & E & _ & H). rewrite CR in E. injection E as <- <-.
    destruct (H DP) as ((F1 & F2) & N). cbn [cut ray_max] in F1. split; [|exact N]. split; [lra|exact F2]. }
  split; [exact SOUND|]. split; [|].
  - intros DP. apply heard_turn; [exact HD|lra|]. intros c h f Hi. split; [exact (proj1 (proj1 (SOUND c h f Hi)))|eauto].
  - intros NZ c u ((k & x & K & B & AC) & k' & K' & MK) ((k2 & K2 & RS) & DP & CL) U RG. rewrite K in K', K2. injection K' as <-. injection K2 as <-.
    destruct (v_coll _ _ _ _ I0 c k K) as (_ & UL & x1 & s0 & B1 & S & _). rewrite B in B1. injection B1 as <-.
    destruct (CO ltac:(lra) NZ) as (NZT & CMP). destruct (broad_ok w c k x s0 I K B S AC) as (fb & G & W). specialize (W RS).
    assert (HN : has Z.eqb (wc_node k) a = true).
    { assert (N : wc_node k <> (-1)%Z) by (intros X; apply (AI c k x K B) in X; congruence). destruct (v_node _ _ _ _ I0 c k K N) as (b & LK & _). unfold has. now rewrite LK. }
    assert (EB : forall b0 : box R, tree_box (real_box b0) = b0) by (intros [[x0 y0 z0] [x' y' z']]; reflexivity).
    assert (BH : test_ray real_ops Rinv (world_ray y) fb (left_over (ray_max y) d) = true).
    { apply ray_passes with (t := u); [|lra|].
      - rewrite <- (EB fb). apply CL. exists k, fb. auto.
      - rewrite ray_point_at. eapply point_within; [exact W|]. apply (region_iff w c k x s0 K B S) in RG. eapply shape_box_around; [exact (proj1 (v_shape _ _ _ _ I0 _ _ S))| |exact RG].
        apply unit_mul; [exact (proj1 (v_body _ _ _ _ I0 _ _ B))|exact UL]. }
    assert (IO : In (wc_node k) (offered tr)).
    { apply AL; [exact NZT|split; eauto|]. intros fb' G'. rewrite G in G'. injection G' as <-. rewrite <- (EB fb). apply CL. exists k, fb. auto. }
    destruct (CMP _ IO) as (c' & k' & m1 & ans & h & K' & EN & M1 & CR & ANS).
    assert (c' = c).
    { destruct (Nat.eq_dec c' c) as [E|NE]; [exact E|]. exfalso. unfold has in HN. destruct (lookup Z.eqb (wc_node k) a) as [[b d0]|] eqn:LK; [|discriminate].
      assert (N : wc_node k <> (-1)%Z) by (apply (live_range pct _ _ _ _ _ (v_tree _ _ _ _ I0) LK)).
      destruct (v_node _ _ _ _ I0 c k K N) as (b1 & L1 & _). rewrite <- EN in N. destruct (v_node _ _ _ _ I0 c' k' K' N) as (b2 & L2 & _). rewrite EN, L1 in L2. injection L2 as _ E2. apply Nat2Z.inj in E2. congruence. }
    subst c'. rewrite K in K'. injection K' as <-. destruct (collider_ray_ok w c k x y m1 new_info I K B AC (proj2 M1)) as (ans' & info & E & _ & H). rewrite CR in E. injection E as <- <-.
    destruct ans; [destruct (ANS MK eq_refl) as (f & Hf); eauto|]. exfalso. apply (H DP u); [cbn; lra|exact RG].
Qed.
End Talk.

(** ** Bodies *)
Lemma body_loop_ok w y : winv' w -> forall cs m found info, (forall c, In c cs -> in_play w c /\ dependable eps big w y c) -> m <= ray_max y ->
  exists found' info', body_loop eps big w y cs m found info = Ok (found', info') /\
    ((found' = found /\ hit_fraction info' = hit_fraction info /\ forall c, In c cs -> misses (region w c) (cut y m)) \/
     (found' = true /\ hit_fraction info' <= m /\ (exists c h, In c cs /\ first_hit (region w c) y h /\ hit_fraction h = hit_fraction info') /\
      forall c u, In c cs -> 0 <= u < hit_fraction info' -> ~ region w c (ray_at y u))).
Proof.
  intros I. induction cs as [|c cs IH]; intros m found info AL M; cbn [body_loop].
  - exists found, info. split; [reflexivity|]. left. split; [reflexivity|]. split; [reflexivity|]. intros c [].
  - destruct (AL c (or_introl eq_refl)) as ((k & x & K & B & AC) & DP). rewrite K. cbn [rd bind]. change (Ray (ray_p1 y) (ray_p2 y) m) with (cut y m).
    destruct (collider_ray_ok w c k x y m info I K B AC M) as (ans & info1 & -> & E1 & R). specialize (R DP). cbn [bind]. destruct ans.
    + destruct R as ((F1 & F2 & F3 & F4 & F5) & N). cbn [cut ray_max] in F1. change (forall u, 0 <= u < hit_fraction info1 -> ~ region w c (ray_at y u)) in F4.
      destruct (IH (hit_fraction info1) true info1) as (found' & info' & -> & CASES); [intros; apply AL; now right|lra|]. exists found', info'. split; [reflexivity|]. right.
      destruct CASES as [(-> & E & MS)|(-> & LE & (c2 & h2 & P1 & P2 & P3) & MS)].
      * split; [reflexivity|]. rewrite E. split; [lra|]. split.
        -- exists c, info1. split; [now left|]. split; [|reflexivity]. split; [lra|]. split; [exact F2|]. auto.
        -- intros c2 u [<-|Hi] Hu; [auto|]. exact (MS c2 Hi u Hu).
      * split; [reflexivity|]. split; [lra|]. split; [exists c2, h2; split; [now right|auto]|].
        intros c3 u [<-|Hi] Hu; [apply F4; lra|auto].
    + rewrite (E1 eq_refl). destruct (IH m found (Hit (hit_fraction info) (tr_point (wc_world k) (hit_point info)) (vnormalize eps (quat_vec (t_rot (wc_world k)) (hit_normal info))))) as (found' & info' & -> & CASES); [intros; apply AL; now right|lra|].
      exists found', info'. split; [reflexivity|]. cbn [hit_fraction] in CASES. destruct CASES as [(-> & E & MS)|(-> & LE & (c2 & h2 & P1 & P2 & P3) & MS)].
      * left. split; [reflexivity|]. split; [exact E|]. intros c2 [<-|Hi]; auto.
      * right. split; [reflexivity|]. split; [exact LE|]. split; [exists c2, h2; split; [now right|auto]|]. intros c3 u [<-|Hi] Hu; [apply R; cbn; lra|auto].
Qed.
(** The last collider is the closest. *)
Lemma body_loop_last w y c u : winv' w -> in_play w c -> dependable eps big w y c -> region w c (ray_at y u) -> 0 <= u ->
  forall cs m found info, (forall c', In c' cs -> in_play w c' /\ dependable eps big w y c' /\ forall u', 0 <= u' <= u -> ~ region w c' (ray_at y u')) -> u < m -> m <= ray_max y ->
  exists info', body_loop eps big w y (cs ++ [c]) m found info = Ok (true, info') /\ first_hit (region w c) y info' /\ vlen (hit_normal info') = 1.
Proof.
  intros I (k & x & K & B & AC) DP RG U0. induction cs as [|c0 cs IH]; intros m found info AL UM M; cbn [app body_loop].
  - rewrite K. cbn [rd bind]. change (Ray (ray_p1 y) (ray_p2 y) m) with (cut y m). destruct (collider_ray_ok w c k x y m info I K B AC M) as (ans & info1 & -> & _ & R). specialize (R DP). cbn [bind].
    destruct ans; [|exfalso; apply (R u); [cbn; lra|exact RG]]. exists info1. split; [reflexivity|]. destruct R as ((F1 & F2) & N). cbn [cut ray_max] in F1. split; [|exact N]. split; [lra|exact F2].
  - destruct (AL c0 (or_introl eq_refl)) as ((k0 & x0 & K0 & B0 & AC0) & DP0 & FAR). rewrite K0. cbn [rd bind]. change (Ray (ray_p1 y) (ray_p2 y) m) with (cut y m).
    destruct (collider_ray_ok w c0 k0 x0 y m info I K0 B0 AC0 M) as (ans & info1 & -> & _ & R). specialize (R DP0). cbn [bind]. destruct ans.
    + destruct R as ((F1 & F2 & F3 & _) & _). cbn [cut ray_max] in F1. apply IH; [intros; apply AL; now right| |lra].
      apply Rnot_le_lt. intros X. rewrite F2 in F3. apply (FAR (hit_fraction info1)); [lra|exact F3].
    + apply IH; [intros; apply AL; now right|exact UM|exact M].
Qed.
(** ** Rays that meet no box *)
Lemma unseen {St : Type} w mask (notify : user St) y s : winv' w ->
  (forall id fb, get_fat id (qw_tree w) = Ok fb -> (exists c k, qw_colliders w c = Some k /\ wc_node k = id) -> test_ray real_ops Rinv (world_ray y) fb (ray_max y) = false) ->
  world_cast eps big w mask notify y s = Ok s.
Proof.
  intros ((a & I0) & AI) H. assert (P' : d_le real_ops (d_zero real_ops) pct = true) by (cbn; apply rle_iff; exact Hpct).
  destruct (C21_raycast_each real_ops real_laws pct Rinv real_ray_laws (world_ray y) (res St) (at_leaf eps big w mask notify y) (qw_tree w) a (ray_max y) (Ok s) P' (v_tree _ _ _ _ I0))
    as (s' & tr & m' & R1 & _ & D & _ & _ & OF & _). unfold world_cast. rewrite R1. cbn [bind]. destruct tr as [|[[id m1] f] tr]; cbn [dialogue] in D; [exact (proj1 D)|].
  destruct D as (-> & _). destruct (OF id (ray_max y) f (or_introl eq_refl)) as (HI & fb & G & T). unfold has in HI. destruct (lookup Z.eqb id a) as [[b d]|] eqn:LK; [|discriminate].
  destruct (v_owner _ _ _ _ I0 id b d LK) as (c & k & _ & K & N). rewrite (H id fb G) in T; [discriminate|eauto].
Qed.
End Rays.
