(** C131-C133: the ray casts of a world and of a body. *)
From Coq Require Import List Arith Lia Bool ZArith.
From Verif Require Import Base Decimal HashSpec TreeModel TreeSpec RayModel RaySpec ComponentsProofs TreeProofs TreeProofs2 TreeProofs3 TreeProofs4 TreeProofs5 TreeProofs6 RayProofs TreeProperties
  VecModel VecProofs GeomSpec ShapeModel ShapeSpec ShapeMeshProofs ShapeProperties TriMeshModel TriMeshTreeProofs TriMeshRayProofs QueryModel QuerySpec QueryProofs QueryProofs2 QueryRayProofs QueryProofs3.
Import ListNotations.
Local Open Scope R_scope.

(** ** C131: the broad phase follows the colliders *)
(** Every allowed call ends without undefined behaviour. *)
Theorem C131_runs : forall pct w o, reachable pct w -> allowed w o -> exists w', run pct o w = Ok w'.
Proof. intros pct w o R L. destruct (run_ok pct o w (reachable_ok pct w R) L) as (w' & E & _). eauto. Qed.
Print Assumptions C131_runs.
(** A collider of an active body is in the broad phase, and its box there contains its points unless its shape was resized
    since. *)
Theorem C131_boxes_partial : forall pct w c, 0 <= pct -> reachable pct w -> in_play w c -> exists b, broad_box w c b /\ (settled w c -> forall p, region w c p -> in_bounds b p).
Proof.
  intros pct w c P R (k & x & K & B & AC). pose proof (reachable_ok pct w R) as I. pose proof I as ((a & I0) & _).
  destruct (v_coll _ _ _ _ I0 c k K) as (_ & UL & x1 & s & B1 & S & _). rewrite B in B1. injection B1 as <-.
  destruct (broad_ok pct P w c k x s I K B S AC) as (fb & G & W). exists (real_box fb). split; [exists k, fb; auto|].
  intros (k' & K' & RS) p RG. rewrite K in K'. injection K' as <-. specialize (W RS). apply (region_iff w c k x s K B S) in RG.
  assert (X := shape_box_around s _ (proj1 (v_shape _ _ _ _ I0 _ _ S)) (unit_mul _ _ (proj1 (v_body _ _ _ _ I0 _ _ B)) UL) p RG).
  apply (point_within _ _ _ W) in X. unfold point_in in X. cbn in X. rewrite !rle_iff in X. unfold in_bounds. cbn. lra.
Qed.
Print Assumptions C131_boxes_partial.
(** Colliders of inactive bodies are not in the broad phase. *)
Theorem C131_inactive : forall pct w c b, reachable pct w -> broad_box w c b -> in_play w c.
Proof.
  intros pct w c b R (k & fb & K & G & _). destruct (reachable_ok pct w R) as ((a & I0) & A). destruct (v_coll _ _ _ _ I0 c k K) as (_ & _ & x & s & B & _).
  exists k, x. split; [exact K|]. split; [exact B|]. destruct (wb_active x) eqn:E; [reflexivity|]. apply (A c k x K B) in E. exfalso. rewrite E in G.
  unfold get_fat, get in G. cbn in G. destruct (0 <=? -1)%Z eqn:X; [discriminate|]. cbn in G. discriminate.
Qed.
Print Assumptions C131_inactive.
(** After a step of the simulation the colliders of the bodies that are not asleep are settled. *)
Theorem C131_step_settles : forall pct w pose w' c k x, reachable pct w -> (forall b, unit_pose (pose b)) -> run pct (OpStep pose) w = Ok w' ->
  qw_colliders w' c = Some k -> qw_bodies w' (wc_body k) = Some x -> wb_active x = true -> wb_asleep x = false -> settled w' c.
Proof.
  intros pct w pose w' c k x R U E K B AC AS. destruct (step_ok pct pose w (reachable_ok pct w R) U) as (w2 & E2 & _ & ST). cbn in E. rewrite E in E2. injection E2 as <-.
  apply ST; exists k, x; auto.
Qed.
Print Assumptions C131_step_settles.
(** New colliders are settled, and settled colliders stay so unless their own shape is resized. *)
Theorem C131_settled : forall pct w o w' c, reachable pct w -> run pct o w = Ok w' -> qw_colliders w' c <> None -> (qw_colliders w c = None \/ settled w c) ->
  (forall s new k, o = OpResize s new -> qw_colliders w c = Some k -> wc_shape k <> s) -> settled w' c.
Proof.
  intros pct w o w' c R E K' S NR. assert (Q : quiet w c). { destruct S as [S|(k & K & F)]; intros k0 K0; [congruence|]. rewrite K in K0. injection K0 as <-. exact F. }
  assert (Q' : quiet w' c).
  { pose proof (run_quiet pct o w w' E) as QQ. destruct o; try (apply QQ; exact Q). destruct (qw_colliders w c) as [k|] eqn:K; [eapply QQ; eauto|].
    cbn [run] in E. unfold resize in E. destruct (qw_shapes w s); [|discriminate]. cbn [rd bind] in E. injection E as <-. cbn in K'. rewrite K in K'. congruence. }
  destruct (qw_colliders w' c) as [k|] eqn:K; [|congruence]. exists k. split; [exact K|]. now apply Q'.
Qed.
Print Assumptions C131_settled.

Lemma box_back (b : box R) : tree_box (real_box b) = b.
Proof. destruct b as [[x y z] [x' y' z']]. reflexivity. Qed.
(** A long ray over the old ball and through the new one. *)
Definition high_ray (h : R) : ray := Ray (V3 (h + 2) h 0) (V3 (- (h + 2)) h 0) 1.
Lemma high_facts pct eps big w id x : 0 <= pct -> 0 < eps <= 1 -> reachable pct w -> qw_shapes w 0%nat = Some (WSphere 1) -> qw_bodies w 1%nat = Some x -> wb_pose x = at_place vzero -> wb_active x = true ->
  qw_colliders w 2%nat = Some (ball_at vzero id) -> (forall c, c <> 2%nat -> qw_colliders w c = None) ->
  exists h, 1 <= h /\ forall w', run pct (OpResize 0 (WSphere (h + 1))) w = Ok w' -> forall w2, reachable pct w2 -> qw_tree w2 = qw_tree w' -> (forall c, qw_colliders w2 c = qw_colliders w' c) -> (forall s, qw_shapes w2 s = qw_shapes w' s) ->
      (exists x2, qw_bodies w2 1%nat = Some x2 /\ wb_pose x2 = at_place vzero /\ wb_active x2 = true) ->
      targeted w2 1 2 /\ dependable eps big w2 (high_ray h) 2 /\ clear_of w2 (high_ray h) 2 /\ region w2 2 (ray_at (high_ray h) (1 / 2)) /\
      forall (St : Type) (notify : user St) s, world_cast eps big w2 1 notify (high_ray h) s = Ok s.
Proof.
  intros P He R S B EP AC K O. assert (IP : in_play w 2) by (exists (ball_at vzero id), x; auto).
  destruct (C131_boxes_partial pct w 2 P R IP) as (b & BB & CT). assert (ST : settled w 2) by (exists (ball_at vzero id); auto). specialize (CT ST).
  assert (RG := ball_region w 2 vzero id 1 x K B EP S ltac:(lra)).
  assert (C1 : in_bounds b (V3 0 0 1)) by (apply CT, RG; cbn; lra). assert (C2 : in_bounds b (V3 0 0 (-1))) by (apply CT, RG; cbn; lra). assert (C3 : in_bounds b (V3 0 1 0)) by (apply CT, RG; cbn; lra). assert (C4 : in_bounds b (V3 0 (-1) 0)) by (apply CT, RG; cbn; lra).
  unfold in_bounds in *. cbn [vx vy vz] in *. set (h := vy (bmax b) + 1). exists h. assert (H1 : 1 <= h) by (unfold h; lra). split; [exact H1|].
  intros w' E w2 R2 ET EC ES (x2 & B2 & EP2 & AC2). cbn [run] in E. unfold resize in E. rewrite S in E. cbn [rd bind] in E. injection E as <-. cbn in ET, EC, ES.
  assert (K2 : qw_colliders w2 2%nat = Some (with_resized true (ball_at vzero id))) by (rewrite EC, K; reflexivity).
  assert (S2 : qw_shapes w2 0%nat = Some (WSphere (h + 1))) by (rewrite ES; reflexivity).
  assert (BX : forall b2, broad_box w2 2 b2 -> b2 = b).
  { intros b2 (k2 & fb2 & K2' & G2 & ->). rewrite K2 in K2'. injection K2' as <-. destruct BB as (k & fb & K' & G & ->). rewrite K in K'. injection K' as <-. rewrite ET in G2. cbn in G2, G. rewrite G in G2. injection G2 as <-. reflexivity. }
  assert (OF : off_faces real_ops (world_ray (high_ray h)) (tree_box b)). { apply ray_x_clear; unfold high_ray; cbn [ray_p1 ray_p2 vx vy vz]; unfold h in *; first [lra|left; lra|right; lra]. }
  assert (RG2 : forall q, region w2 2 q <-> vx q * vx q + vy q * vy q + vz q * vz q <= (h + 1) * (h + 1)).
  { intros q. assert (X := ball_region (QWorld (qw_shapes w2) (qw_bodies w2) (qw_colliders w) (qw_next w2) (qw_tree w2)) 2 vzero id (h + 1) x2 K B2 EP2 S2 ltac:(lra) q). cbn [vx vy vz vzero] in X. rewrite !Rminus_0_r in X. rewrite <- X.
    rewrite (region_iff w2 2 _ x2 (WSphere (h + 1)) K2 B2 S2). rewrite (region_iff (QWorld (qw_shapes w2) (qw_bodies w2) (qw_colliders w) (qw_next w2) (qw_tree w2)) 2 _ x2 (WSphere (h + 1)) K B2 S2). reflexivity. }
  split; [split; [exists (with_resized true (ball_at vzero id)), x2; auto|exists (with_resized true (ball_at vzero id)); split; [exact K2|split; [discriminate|reflexivity]]]|].
  split; [|split; [|split]].
  - intros t s ST2 m M. destruct (stands_one w2 2 _ x2 (WSphere (h + 1)) t s K2 B2 S2 ST2) as (Et & ->). cbn [wc_local with_resized ball_at] in Et. rewrite EP2, place_mul in Et. assert (U : unit_pose t) by (rewrite Et; apply unit_place).
    apply sphere_right; [lra|lra| |].
    + rewrite seen_len by exact U. unfold high_ray, vsub, vlen2. cbn. nra.
    + apply (seen_start w2 2 t (WSphere (h + 1)) (high_ray h) m U ST2). rewrite RG2. unfold high_ray. cbn. nra.
  - intros b2 H2. rewrite (BX b2 H2). exact OF.
  - apply RG2. unfold high_ray, ray_at, lerp. cbn. nra.
  - intros St notify s. apply (unseen pct eps big P); [apply (reachable_ok pct w2 R2)|].
    intros i fb G (c & k & Kc & Nk). assert (c = 2%nat). { destruct (Nat.eq_dec c 2) as [X|N]; [exact X|]. rewrite EC, (O c N) in Kc. discriminate. } subst c. subst i.
    rewrite <- (box_back fb). rewrite (BX (real_box fb)); [|exists k, fb; auto]. apply ray_x_over; [unfold high_ray; cbn; lra|reflexivity|exact OF|lra|unfold high_ray, h; cbn; lra].
Qed.
(** C131: after a shape was resized, and before the next step, the broad phase still uses the old size: a ray cast misses the
    collider. *)
Theorem C131_resize_refuted : forall pct eps big, 0 <= pct -> 0 < eps <= 1 -> exists w y, reachable pct w /\
  targeted w 1 2 /\ dependable eps big w y 2 /\ clear_of w y 2 /\ 0 <= 1 / 2 < ray_max y /\ region w 2 (ray_at y (1 / 2)) /\
  forall (St : Type) (notify : user St) s, world_cast eps big w 1 notify y s = Ok s.
Proof.
  intros pct eps big P He. destruct (one_ball_world pct vzero) as (w & id & _ & R & S & B & K & O & N).
  destruct (high_facts pct eps big w id _ P He R S B eq_refl eq_refl K O) as (h & Hh & F).
  assert (L : allowed w (OpResize 0 (WSphere (h + 1)))) by (cbn; rewrite S; split; [discriminate|lra]).
  destruct (C131_runs pct w _ R L) as (w' & E). assert (R' : reachable pct w') by (eapply reach_call; eauto). exists w', (high_ray h). split; [exact R'|].
  destruct (F w' E w' R') as (A1 & A2 & A3 & A4 & A5); auto.
  - cbn [run] in E. unfold resize in E. rewrite S in E. cbn [rd bind] in E. injection E as <-. cbn. eauto.
  - repeat (split; [assumption|]). split; [cbn; lra|]. auto.
Qed.
Print Assumptions C131_resize_refuted.
(** C131: if the body is asleep, then the steps of the simulation do not help either. *)
Lemma sleeping_steps pct : forall poses w, (forall b x, qw_bodies w b = Some x -> wb_asleep x = true) -> (forall c k, qw_colliders w c = Some k -> qw_bodies w (wc_body k) <> None) ->
  exists w', runs pct (map OpStep poses) w = Ok w' /\ qw_tree w' = qw_tree w /\ (forall c, qw_colliders w' c = qw_colliders w c) /\ (forall s, qw_shapes w' s = qw_shapes w s) /\ (forall b, qw_bodies w' b = qw_bodies w b).
Proof.
  induction poses as [|pose poses IH]; intros w AS EX; cbn [map runs]; [exists w; auto|].
  assert (MB : forall b, qw_bodies (move_bodies pose w) b = qw_bodies w b). { intros b. cbn. destruct (qw_bodies w b) as [x|] eqn:B; [|reflexivity]. now rewrite (AS b x B). }
  assert (ST : run pct (OpStep pose) w = Ok (move_bodies pose w)).
  { cbn [run]. unfold step. generalize (seq 0 (qw_next w)). induction l as [|c l IHl]; cbn [for_each]; [reflexivity|]. unfold step_collider at 1. change (qw_colliders (move_bodies pose w)) with (qw_colliders w).
    destruct (qw_colliders w c) as [k|] eqn:K; [|exact IHl]. rewrite MB. specialize (EX c k K). destruct (qw_bodies w (wc_body k)) as [x|] eqn:B; [|congruence]. cbn [rd bind]. rewrite (AS _ x B). cbn [bind]. exact IHl. }
  rewrite ST. cbn [bind]. destruct (IH (move_bodies pose w)) as (w' & E & E1 & E2 & E3 & E4).
  - intros b x. rewrite MB. apply AS.
  - intros c k K. rewrite MB. apply (EX c k K).
  - exists w'. split; [exact E|]. split; [exact E1|]. split; [exact E2|]. split; [exact E3|]. intros b. rewrite E4. apply MB.
Qed.
Theorem C131_asleep_refuted : forall pct eps big, 0 <= pct -> 0 < eps <= 1 -> exists w y, reachable pct w /\ forall poses, (forall pose, In pose poses -> forall b, unit_pose (pose b)) ->
  exists w', runs pct (map OpStep poses) w = Ok w' /\ targeted w' 1 2 /\ dependable eps big w' y 2 /\ clear_of w' y 2 /\ 0 <= 1 / 2 < ray_max y /\ region w' 2 (ray_at y (1 / 2)) /\
  forall (St : Type) (notify : user St) s, world_cast eps big w' 1 notify y s = Ok s.
Proof.
  intros pct eps big P He. destruct (one_ball_world pct vzero) as (w0 & id & E0 & R0 & S0 & B0 & K0 & O0 & N0 & NB0).
  set (w := with_body 1 (Some (WBody (at_place vzero) true true [2%nat])) w0).
  assert (SL : run pct (OpSleep 1 true) w0 = Ok w) by (cbn [run]; unfold set_sleeping; rewrite B0; reflexivity).
  assert (R : reachable pct w) by (eapply reach_call; [exact R0| |exact SL]; cbn; congruence).
  assert (B : qw_bodies w 1%nat = Some (WBody (at_place vzero) true true [2%nat])) by reflexivity.
  destruct (high_facts pct eps big w id _ P He R S0 B eq_refl eq_refl K0 O0) as (h & Hh & F).
  assert (L : allowed w (OpResize 0 (WSphere (h + 1)))) by (cbn; rewrite S0; split; [discriminate|lra]).
  destruct (C131_runs pct w _ R L) as (w1 & E1). assert (R1 : reachable pct w1) by (eapply reach_call; eauto). exists w1, (high_ray h). split; [exact R1|]. intros poses UP.
  assert (BB : forall b, qw_bodies w1 b = qw_bodies w b) by (cbn [run] in E1; unfold resize in E1; change (qw_shapes w) with (qw_shapes w0) in E1; rewrite S0 in E1; cbn [rd bind] in E1; injection E1 as <-; reflexivity).
  assert (ONE : forall b x, qw_bodies w b = Some x -> wb_asleep x = true).
  { intros b x Hb. destruct (Nat.eq_dec b 1) as [->|NB]; [rewrite B in Hb; injection Hb as <-; reflexivity|]. exfalso. unfold w, with_body in Hb. cbn [qw_bodies] in Hb. rewrite nupd_other, (NB0 b NB) in Hb by exact NB. discriminate. }
  destruct (sleeping_steps pct poses w1) as (w' & E & ET & EC & ES & EB).
  { intros b x. rewrite BB. apply ONE. }
  { intros c k K. pose proof (reachable_ok pct w1 R1) as ((a & I) & _). destruct (v_coll _ _ _ _ I c k K) as (_ & _ & x & s & X & _). congruence. }
  assert (R' : reachable pct w').
  { clear F. revert E. clear ET EC ES EB BB E1. generalize dependent w1. induction poses as [|pose poses IH]; intros w1 R1 E; cbn [map runs] in E; [injection E as <-; exact R1|].
    destruct (run pct (OpStep pose) w1) as [w2| |] eqn:X; cbn [bind] in E; try discriminate. apply (IH ltac:(intros; apply UP; now right) w2); [|exact E]. eapply reach_call; [exact R1| |exact X]. cbn. apply UP. now left. }
  exists w'. split; [exact E|]. destruct (F w1 E1 w' R' ET EC ES) as (A1 & A2 & A3 & A4 & A5).
  - exists (WBody (at_place vzero) true true [2%nat]). rewrite EB, BB, B. auto.
  - repeat (split; [assumption|]). split; [cbn; lra|]. auto.
Qed.
Print Assumptions C131_asleep_refuted.
Example C131_not_vacuous : forall pct, 0 <= pct -> exists w b, reachable pct w /\ in_play w 2 /\ settled w 2 /\ broad_box w 2 b /\ region w 2 vzero.
Proof.
  intros pct P. destruct (one_ball_world pct vzero) as (w & id & _ & R & S & B & K & _). exists w.
  assert (IP : in_play w 2) by (eexists _, _; split; [exact K|split; [exact B|reflexivity]]). destruct (C131_boxes_partial pct w 2 P R IP) as (b & BB & _). exists b.
  split; [exact R|]. split; [exact IP|]. split; [eexists; split; [exact K|reflexivity]|]. split; [exact BB|]. apply (ball_region w 2 vzero id 1 _ K B eq_refl S ltac:(lra)). cbn. lra.
Qed.

(** ** C132: the ray cast of a world *)
(** For any callback: the ray cast ends; each collider is reported at most once; the reported colliders take part and, where
    the shape answers correctly, the hit is the first point of the ray in the collider, with an outward normal of length 1,
    on the part of the ray that is left; unless the callback stops it with 0, every collider that the rest of the ray meets is
    reported, if it is plain. *)
Theorem C132_talk_partial : forall (St : Type) pct eps big w mask (notify : user St) y s, 0 <= pct -> 0 < eps -> reachable pct w ->
  exists s' d, world_cast eps big w mask notify y s = Ok s' /\ answers_are notify s d s' /\ NoDup (map (fun e => fst (fst e)) d) /\
  (forall c h f, In (c, h, f) d -> targeted w mask c /\ (dependable eps big w y c -> first_hit (region w c) y h /\ vlen (hit_normal h) = 1)) /\
  ((forall c h f, In (c, h, f) d -> dependable eps big w y c) -> in_turn (ray_max y) d) /\
  ((forall c h f, In (c, h, f) d -> f <> 0) -> forall c u, targeted w mask c -> plain eps big w y c -> 0 <= u < left_over (ray_max y) d -> region w c (ray_at y u) ->
     exists h f, In (c, h, f) d).
Proof. intros St pct eps big w mask notify y s P He R. exact (world_cast_ok pct eps big P He w mask notify y (reachable_ok pct w R) s). Qed.
Print Assumptions C132_talk_partial.
Lemma all_hits_talk : forall d l l', answers_are all_hits l d l' -> l' = l ++ map fst d /\ forall c h f, In (c, h, f) d -> f = -1.
Proof.
  induction d as [|[[c h] f] d IH]; intros l l' A; cbn in A; [subst; rewrite app_nil_r; split; [reflexivity|intros ? ? ? []]|].
  destruct A as (F & _ & A). apply IH in A. destruct A as (-> & A). rewrite <- app_assoc. split; [reflexivity|]. intros c' h' f' [E|E]; [injection E as <- <- <-; auto|eauto].
Qed.
Lemma left_over_ignored : forall d m, (forall c h f, In (c, h, f) d -> f = -1) -> left_over m d = m.
Proof.
  induction d as [|[[c h] f] d IH]; intros m A; cbn [left_over]; [reflexivity|]. rewrite (A c h f (or_introl eq_refl)). destruct (Rlt_dec 0 (-1)); [lra|]. apply IH. intros; eapply A; right; eauto.
Qed.
(** The callback that collects the hits gets exactly the colliders that the ray meets, each once, with its first hit. *)
Theorem C132_all_partial : forall pct eps big w mask y, 0 <= pct -> 0 < eps -> reachable pct w -> (forall c, targeted w mask c -> plain eps big w y c) ->
  exists l, world_cast eps big w mask all_hits y [] = Ok l /\ NoDup (map fst l) /\
  (forall c h, In (c, h) l -> targeted w mask c /\ first_hit (region w c) y h /\ vlen (hit_normal h) = 1) /\
  (forall c u, targeted w mask c -> 0 <= u < ray_max y -> region w c (ray_at y u) -> exists h, In (c, h) l).
Proof.
  intros pct eps big w mask y P He R PL. destruct (C132_talk_partial _ pct eps big w mask all_hits y [] P He R) as (l & d & E & A & ND & SO & _ & CO).
  destruct (all_hits_talk d [] l A) as (-> & M). cbn [app] in *. exists (map fst d). split; [exact E|]. split; [rewrite map_map; exact ND|]. split.
  - intros c h Hi. apply in_map_iff in Hi. destruct Hi as (((c' & h') & f) & EQ & Hi). cbn in EQ. injection EQ as -> ->. destruct (SO c h f Hi) as (T & F). split; [exact T|]. apply F. apply (PL c T).
  - intros c u T U RG. destruct (CO ltac:(intros c' h f Hi; rewrite (M c' h f Hi); lra) c u T (PL c T)) as (h & f & Hi); [rewrite left_over_ignored by exact M; exact U|exact RG|].
    exists h. apply in_map_iff. exists (c, h, f). auto.
Qed.
Print Assumptions C132_all_partial.
Lemma closest_talk : forall d s s', answers_are closest_hit s d s' -> (d = [] /\ s' = s) \/ exists d0 c h f, d = d0 ++ [(c, h, f)] /\ s' = Some (c, h) /\ (forall c' h' f', In (c', h', f') d0 -> f' <> 0).
Proof.
  induction d as [|[[c h] f] d IH]; intros s s' A; cbn in A; [left; auto|]. destruct A as (F & Z & A). right. apply IH in A. destruct A as [(-> & ->)|(d0 & c1 & h1 & f1 & -> & -> & NZ)].
  - exists [], c, h, f. split; [reflexivity|]. split; [reflexivity|]. intros ? ? ? [].
  - exists ((c, h, f) :: d0), c1, h1, f1. split; [reflexivity|]. split; [reflexivity|]. intros c' h' f' [X|X]; [|eauto]. injection X as -> -> ->. intros ->. destruct d0; discriminate (Z eq_refl).
Qed.
Lemma closest_answers : forall d s s', answers_are closest_hit s d s' -> forall c h f, In (c, h, f) d -> f = hit_fraction h.
Proof.
  induction d as [|[[c h] f] d IH]; intros s s' A c' h' f' Hi; [destruct Hi|]. cbn in A. destruct A as (F & _ & A). destruct Hi as [Hi|Hi]; [injection Hi as <- <- <-; auto|eauto].
Qed.
Lemma left_over_last : forall d m c h f, left_over m (d ++ [(c, h, f)]) = (if Rlt_dec 0 f then Rmin f (left_over m d) else left_over m d).
Proof. induction d as [|[[c0 h0] f0] d IH]; intros m c h f; [reflexivity|]. cbn [app left_over]. apply IH. Qed.
Lemma in_turn_last : forall d m c h f, in_turn m (d ++ [(c, h, f)]) -> 0 <= hit_fraction h <= left_over m d.
Proof. induction d as [|[[c0 h0] f0] d IH]; intros m c h f H; cbn in H; [exact (proj1 H)|]. cbn [left_over]. eapply IH. exact (proj2 H). Qed.
(** The callback that answers with the fraction of the hit ends with the closest hit of all. *)
Theorem C132_closest_partial : forall pct eps big w mask y, 0 <= pct -> 0 < eps -> reachable pct w -> (forall c, targeted w mask c -> plain eps big w y c) ->
  exists answer, world_cast eps big w mask closest_hit y None = Ok answer /\
  match answer with
  | Some (c, h) => targeted w mask c /\ first_hit (region w c) y h /\ vlen (hit_normal h) = 1 /\
      forall c' u, targeted w mask c' -> 0 <= u < hit_fraction h -> ~ region w c' (ray_at y u)
  | None => forall c, targeted w mask c -> misses (region w c) y
  end.
Proof.
  intros pct eps big w mask y P He R PL. destruct (C132_talk_partial _ pct eps big w mask closest_hit y None P He R) as (s' & d & E & A & ND & SO & IT & CO).
  exists s'. split; [exact E|]. assert (DP : forall c h f, In (c, h, f) d -> dependable eps big w y c) by (intros c h f Hi; apply (PL c); eapply SO; eauto). specialize (IT DP).
  pose proof (closest_answers d None s' A) as FR. destruct (closest_talk d None s' A) as [(-> & ->)|(d0 & c & h & f & -> & -> & NZ)].
  - intros c T u U X. destruct (CO ltac:(intros ? ? ? []) c u T (PL c T) U X) as (h & f & []).
  - assert (HL : In (c, h, f) (d0 ++ [(c, h, f)])) by (apply in_app_iff; right; now left). destruct (SO c h f HL) as (T & F). destruct (F (DP c h f HL)) as (F1 & F2). split; [exact T|]. split; [exact F1|]. split; [exact F2|].
    pose proof (FR c h f HL) as Ef. subst f. pose proof (in_turn_last d0 _ c h _ IT) as LT.
    intros c' u T' U X. assert (LO : left_over (ray_max y) (d0 ++ [(c, h, hit_fraction h)]) = hit_fraction h).
    { rewrite left_over_last. destruct (Rlt_dec 0 (hit_fraction h)); [|lra]. apply Rmin_left. lra. }
    destruct (CO) with (c := c') (u := u) as (h' & f' & Hi); [|exact T'|exact (PL c' T')|rewrite LO; exact U|exact X|].
    + intros c1 h1 f1 Hi. apply in_app_iff in Hi. destruct Hi as [Hi|[Hi|[]]]; [eauto|]. injection Hi as <- <- <-. lra.
    + destruct (SO c' h' f' Hi) as (_ & F'). destruct (F' (DP c' h' f' Hi)) as ((G1 & _ & _ & G4 & _) & _). pose proof (FR c' h' f' Hi) as Ef. subst f'.
      assert (hit_fraction h' <= u) by (apply Rnot_lt_le; intros Y; apply (G4 u); [lra|exact X]).
      destruct (Rlt_dec 0 (hit_fraction h')) as [Q|Q].
      * pose proof (left_over_answer (d0 ++ [(c, h, hit_fraction h)]) (ray_max y) c' h' _ Hi Q) as LA. rewrite LO in LA. lra.
      * apply in_app_iff in Hi. destruct Hi as [Hi|[Hi|[]]]; [apply (NZ _ _ _ Hi); lra|]. injection Hi as <- <-. lra.
Qed.
Print Assumptions C132_closest_partial.
(** Where shapes answer correctly: spheres and boxes that are not too small, for rays that start outside. *)
Theorem C132_sphere_answers : forall pct eps big w y c t r, 0 < eps -> reachable pct w -> stands w c t (WSphere r) -> eps <= r -> eps <= vlen2 (vsub (ray_p2 y) (ray_p1 y)) -> ~ region w c (ray_p1 y) ->
  dependable eps big w y c.
Proof.
  intros pct eps big w y c t r He R ST Hr L O t' s' ST' m M. pose proof (reachable_ok pct w R) as ((a & I) & _). destruct ST as (k & x & K & B & S & _). destruct (stands_one w c k x _ t' s' K B S ST') as (Et & ->).
  assert (U : unit_pose t'). { rewrite Et. apply unit_mul; [exact (proj1 (v_body _ _ _ _ I _ _ B))|exact (proj1 (proj2 (v_coll _ _ _ _ I c k K)))]. }
  apply sphere_right; [exact He|exact Hr|rewrite seen_len by exact U; exact L|]. exact (seen_start w c t' _ y m U ST' O).
Qed.
Print Assumptions C132_sphere_answers.
Theorem C132_box_answers : forall pct eps big w y c t h, 0 < eps -> 0 < big -> reachable pct w -> stands w c t (WBox h) -> eps <= vx h /\ eps <= vy h /\ eps <= vz h -> ray_max y <= big ->
  (forall i, comp (vsub (ray_p2 (seen_from t y)) (ray_p1 (seen_from t y))) i = 0 \/ eps <= Rabs (comp (vsub (ray_p2 (seen_from t y)) (ray_p1 (seen_from t y))) i)) -> ~ region w c (ray_p1 y) ->
  dependable eps big w y c.
Proof.
  intros pct eps big w y c t h He Hb R ST Hh HM D O t' s' ST' m M. pose proof (reachable_ok pct w R) as ((a & I) & _). pose proof ST as (k & x & K & B & S & E0). destruct (stands_one w c k x _ t' s' K B S ST') as (Et & ->).
  assert (U : unit_pose t'). { rewrite Et. apply unit_mul; [exact (proj1 (v_body _ _ _ _ I _ _ B))|exact (proj1 (proj2 (v_coll _ _ _ _ I c k K)))]. }
  rewrite <- E0 in Et. subst t'. apply box_right; [exact He|exact Hb|cbn; lra|exact Hh|exact D|]. exact (seen_start w c t _ y m U ST' O).
Qed.
Print Assumptions C132_box_answers.

(** Capsules that are not too small, for rays of maximal fraction 1 that start outside and are not almost parallel to the axis. *)
Theorem C132_capsule_answers_partial : forall pct eps big w y c t hh r, 0 < eps <= 1 -> reachable pct w -> stands w c t (WCapsule hh r) -> eps <= r -> eps <= vlen2 (vsub (ray_p2 y) (ray_p1 y)) -> ray_max y <= 1 ->
  (let nx := vx (ray_p2 (seen_from t y)) - vx (ray_p1 (seen_from t y)) in let nz := vz (ray_p2 (seen_from t y)) - vz (ray_p1 (seen_from t y)) in nx * nx + nz * nz = 0 \/ / 100 <= 4 * (hh * hh) * (nx * nx + nz * nz)) ->
  ~ region w c (ray_p1 y) -> dependable eps big w y c.
Proof.
  intros pct eps big w y c t hh r He R ST Hr L HM D O t' s' ST' m M. pose proof (reachable_ok pct w R) as ((a & I) & _). pose proof ST as (k & x & K & B & S & E0). destruct (stands_one w c k x _ t' s' K B S ST') as (Et & ->).
  assert (U : unit_pose t'). { rewrite Et. apply unit_mul; [exact (proj1 (v_body _ _ _ _ I _ _ B))|exact (proj1 (proj2 (v_coll _ _ _ _ I c k K)))]. }
  rewrite <- E0 in Et. subst t'. apply capsule_right; [exact He|exact (proj1 (proj1 (v_shape _ _ _ _ I _ _ S)))|exact Hr|exact (seen_start w c t _ y m U ST' O)|rewrite seen_len by exact U; exact L|cbn; lra|exact D].
Qed.
Print Assumptions C132_capsule_answers_partial.
(** New bodies are active; the setters of the category and of the query flag decide which colliders take part. *)
Theorem C132_new_body : forall pct w t w', run pct (OpBody t) w = Ok w' -> exists x, qw_bodies w' (qw_next w) = Some x /\ wb_active x = true /\ wb_pose x = t.
Proof. intros pct w t w' E. cbn in E. injection E as <-. eexists. cbn. rewrite nupd_same. split; [reflexivity|]. auto. Qed.
Print Assumptions C132_new_body.
Theorem C132_category : forall pct w c v w' mask, run pct (OpBits c v) w = Ok w' ->
  (targeted w' mask c <-> in_play w c /\ Z.land mask v <> 0%Z /\ exists k, qw_colliders w c = Some k /\ wc_query k = true) /\
  forall c', c' <> c -> (targeted w' mask c' <-> targeted w mask c').
Proof.
  intros pct w c v w' mask E. cbn [run] in E. unfold set_bits in E. destruct (qw_colliders w c) as [k|] eqn:K; [|discriminate]. cbn [rd bind] in E. injection E as <-. split.
  - unfold targeted, in_play. cbn. rewrite nupd_same. split.
    + intros ((k1 & x & K1 & B & AC) & k2 & K2 & L & Q). injection K1 as <-. injection K2 as <-. split; [exists k, x; auto|]. split; [exact L|]. exists k. auto.
    + intros ((k1 & x & K1 & B & AC) & L & k2 & K2 & Q). rewrite K in K1. injection K1 as <-. injection K2 as <-. split; [eexists _, x; split; [reflexivity|auto]|]. eexists. split; [reflexivity|]. auto.
  - intros c' N. unfold targeted, in_play. cbn. rewrite nupd_other by exact N. tauto.
Qed.
Print Assumptions C132_category.
Theorem C132_query_flag : forall pct w c v w' mask, run pct (OpQuery c v) w = Ok w' ->
  (targeted w' mask c <-> in_play w c /\ v = true /\ exists k, qw_colliders w c = Some k /\ Z.land mask (wc_bits k) <> 0%Z) /\
  forall c', c' <> c -> (targeted w' mask c' <-> targeted w mask c').
Proof.
  intros pct w c v w' mask E. cbn [run] in E. unfold set_query in E. destruct (qw_colliders w c) as [k|] eqn:K; [|discriminate]. cbn [rd bind] in E. injection E as <-. split.
  - unfold targeted, in_play. cbn. rewrite nupd_same. split.
    + intros ((k1 & x & K1 & B & AC) & k2 & K2 & L & Q). injection K1 as <-. injection K2 as <-. split; [exists k, x; auto|]. split; [exact Q|]. exists k. auto.
    + intros ((k1 & x & K1 & B & AC) & Q & k2 & K2 & L). rewrite K in K1. injection K1 as <-. injection K2 as <-. split; [eexists _, x; split; [reflexivity|auto]|]. eexists. split; [reflexivity|]. auto.
  - intros c' N. unfold targeted, in_play. cbn. rewrite nupd_other by exact N. tauto.
Qed.
Print Assumptions C132_query_flag.

(** Two balls on the first axis, seen from between the fractions 1 and 2 of the ray. *)
Definition far_ray : ray := Ray (V3 0 0 0) (V3 10 0 0) 2.
Lemma far_plain pct eps big w c p id x : 0 <= pct -> 0 < eps <= 1 -> reachable pct w -> qw_colliders w c = Some (ball_at p id) -> qw_bodies w 1%nat = Some x -> wb_pose x = at_place vzero -> wb_active x = true ->
  qw_shapes w 0%nat = Some (WSphere 1) -> 11 < vx p -> vy p = 0 -> vz p = 0 -> targeted w 1 c /\ plain eps big w far_ray c.
Proof.
  intros P He R K B EP AC S PX PY PZ. pose proof (ball_region w c p id 1 x K B EP S ltac:(lra)) as RG. rewrite PY, PZ in RG.
  assert (IP : in_play w c) by (exists (ball_at p id), x; auto). assert (ST : settled w c) by (exists (ball_at p id); auto).
  split; [split; [exact IP|exists (ball_at p id); split; [exact K|split; [discriminate|reflexivity]]]|]. split; [exact ST|]. split.
  - apply (ball_dependable eps big w c p id 1 x); auto; try lra; [unfold far_ray, vsub, vlen2; cbn; lra|]. rewrite RG. unfold far_ray. cbn. nra.
  - intros b BB. destruct (C131_boxes_partial pct w c P R IP) as (b' & BB' & CT). specialize (CT ST).
    assert (b' = b). { destruct BB as (k1 & f1 & K1 & G1 & ->). destruct BB' as (k2 & f2 & K2 & G2 & ->). rewrite K in K1, K2. injection K1 as <-. injection K2 as <-. rewrite G1 in G2. now injection G2 as <-. } subst b'.
    assert (C1 : in_bounds b (V3 (vx p) 0 1)) by (apply CT, RG; cbn; lra). assert (C2 : in_bounds b (V3 (vx p) 0 (-1))) by (apply CT, RG; cbn; lra).
    assert (C3 : in_bounds b (V3 (vx p) 1 0)) by (apply CT, RG; cbn; lra). assert (C4 : in_bounds b (V3 (vx p) (-1) 0)) by (apply CT, RG; cbn; lra). unfold in_bounds in *. cbn [vx vy vz] in *.
    apply ray_x_clear; unfold far_ray; cbn [ray_p1 ray_p2 vx vy vz]; first [lra|left; lra|right; lra].
Qed.
(** C132: RaycastCallback promises that an answer of 1 does not clip the ray.  When the maximal fraction of the ray is more
    than 1 it does: of two balls that the ray meets, only one is reported. *)
Theorem C132_one_refuted : forall pct eps big, 0 <= pct -> 0 < eps <= 1 -> exists w y l, reachable pct w /\
  (forall c, targeted w 1 c -> plain eps big w y c) /\
  (forall c, c = 2%nat \/ c = 3%nat -> targeted w 1 c /\ exists u, 0 <= u < ray_max y /\ region w c (ray_at y u)) /\
  world_cast eps big w 1 (fun l c h => (l ++ [c], 1)) y [] = Ok l /\ (length l <= 1)%nat.
Proof.
  intros pct eps big P He. destruct (two_ball_world pct (V3 12 0 0) (V3 16 0 0)) as (w & i & j & _ & R & S & B & K2 & K3 & O). exists w, far_ray.
  destruct (far_plain pct eps big w 2 _ i _ P He R K2 B eq_refl eq_refl S) as (T2 & P2); [cbn; lra|reflexivity|reflexivity|].
  destruct (far_plain pct eps big w 3 _ j _ P He R K3 B eq_refl eq_refl S) as (T3 & P3); [cbn; lra|reflexivity|reflexivity|].
  pose proof (ball_region w 2 _ i 1 _ K2 B eq_refl S ltac:(lra)) as RG2. pose proof (ball_region w 3 _ j 1 _ K3 B eq_refl S ltac:(lra)) as RG3. cbn [vx vy vz] in RG2, RG3.
  assert (ONLY : forall c, targeted w 1 c -> c = 2%nat \/ c = 3%nat).
  { intros c ((k & x & K & _) & _). destruct (Nat.eq_dec c 2); [now left|]. destruct (Nat.eq_dec c 3); [now right|]. rewrite O in K by assumption. discriminate. }
  assert (PL : forall c, targeted w 1 c -> plain eps big w far_ray c) by (intros c T; destruct (ONLY c T) as [-> | ->]; assumption).
  assert (FAR : forall c h, targeted w 1 c -> first_hit (region w c) far_ray h -> 1 < hit_fraction h).
  { intros c h T (_ & F2 & F3 & _). rewrite F2 in F3. apply Rnot_le_lt. intros X. destruct (ONLY c T) as [-> | ->]; [apply RG2 in F3|apply RG3 in F3]; unfold ray_at, lerp, far_ray in F3; cbn in F3; nra. }
  destruct (C132_talk_partial _ pct eps big w 1 (fun l c (_ : hit) => (l ++ [c], 1)) far_ray ([] : list nat) P ltac:(lra) R) as (l & d & E & A & _ & SO & IT & _). exists l.
  split; [exact R|]. split; [exact PL|]. split.
  { intros c [-> | ->]; (split; [assumption|]).
    - exists (12 / 10). split; [cbn; lra|]. apply RG2. unfold ray_at, lerp, far_ray. cbn. nra.
    - exists (16 / 10). split; [cbn; lra|]. apply RG3. unfold ray_at, lerp, far_ray. cbn. nra. }
  split; [exact E|].
  assert (IT' : in_turn 2 d) by (apply IT; intros c h f Hi; apply (PL c); eapply SO; eauto).
  destruct d as [|[[c1 h1] f1] [|[[c2 h2] f2] d]].
  - cbn in A. subst. cbn. lia.
  - cbn in A. destruct A as (_ & _ & ->). cbn. lia.
  - exfalso. cbn in A. destruct A as (<- & _). cbn in IT'. destruct IT' as (_ & (_ & I2) & _). destruct (SO c2 h2 f2 ltac:(right; now left)) as (T & F). destruct (F ltac:(apply (PL c2 T))) as (F1 & _).
    specialize (FAR c2 h2 T F1). destruct (Rlt_dec 0 1) as [X|X]; [|lra]. rewrite Rmin_left in I2 by lra. lra.
Qed.
Print Assumptions C132_one_refuted.
(** The hypotheses of the theorems above hold for this world and ray. *)
Example C132_not_vacuous : forall pct eps big, 0 <= pct -> 0 < eps <= 1 -> exists w, reachable pct w /\ targeted w 1 2 /\ targeted w 1 3 /\ (forall c, targeted w 1 c -> plain eps big w far_ray c) /\
  region w 2 (ray_at far_ray (12 / 10)) /\ region w 3 (ray_at far_ray (16 / 10)).
Proof.
  intros pct eps big P He. destruct (two_ball_world pct (V3 12 0 0) (V3 16 0 0)) as (w & i & j & _ & R & S & B & K2 & K3 & O). exists w.
  destruct (far_plain pct eps big w 2 _ i _ P He R K2 B eq_refl eq_refl S) as (T2 & P2); [cbn; lra|reflexivity|reflexivity|].
  destruct (far_plain pct eps big w 3 _ j _ P He R K3 B eq_refl eq_refl S) as (T3 & P3); [cbn; lra|reflexivity|reflexivity|].
  split; [exact R|]. split; [exact T2|]. split; [exact T3|]. split.
  - intros c ((k & x & K & _) & _). destruct (Nat.eq_dec c 2) as [->|N2]; [exact P2|]. destruct (Nat.eq_dec c 3) as [->|N3]; [exact P3|]. rewrite O in K by assumption. discriminate.
  - split; [apply (ball_region w 2 _ i 1 _ K2 B eq_refl S ltac:(lra))|apply (ball_region w 3 _ j 1 _ K3 B eq_refl S ltac:(lra))]; unfold ray_at, lerp, far_ray; cbn; lra.
Qed.

(** ** C133: the ray cast of a body *)
(** The colliders of a body. *)
Lemma body_in_play pct w b x : reachable pct w -> qw_bodies w b = Some x -> wb_active x = true -> forall c, In c (wb_colliders x) -> in_play w c.
Proof.
  intros R B AC c Hc. pose proof (reachable_ok pct w R) as ((a & I) & _). destruct (v_body _ _ _ _ I b x B) as (_ & _ & _ & L). destruct (L c Hc) as (k & K & E). exists k, x. rewrite E. auto.
Qed.
(** C133: the answer says whether the ray meets a collider of the body, and the fraction is the smallest one. *)
Theorem C133_fraction_partial : forall pct eps big w b x y info, 0 < eps -> reachable pct w -> qw_bodies w b = Some x ->
  (forall c, In c (wb_colliders x) -> dependable eps big w y c) ->
  exists found info', body_cast eps big w b y info = Ok (found, info') /\
  (wb_active x = false -> found = false) /\
  (wb_active x = true -> if found : bool then (exists c h, In c (wb_colliders x) /\ first_hit (region w c) y h /\ hit_fraction h = hit_fraction info') /\
       (forall c u, In c (wb_colliders x) -> 0 <= u < hit_fraction info' -> ~ region w c (ray_at y u))
     else forall c, In c (wb_colliders x) -> misses (region w c) y).
Proof.
  intros pct eps big w b x y info He R B DP. unfold body_cast. rewrite B. cbn [rd bind]. destruct (wb_active x) eqn:AC; cbn [negb].
  - destruct (body_loop_ok pct eps big He w y (reachable_ok pct w R) (wb_colliders x) (ray_max y) false info) as (found & info' & E & CASES); [|lra|].
    { intros c Hc. split; [eapply body_in_play; eauto|auto]. }
    exists found, info'. split; [exact E|]. split; [discriminate|]. intros _. destruct CASES as [(-> & _ & MS)|(-> & _ & H1 & H2)]; [|auto]. intros c Hc u U. exact (MS c Hc u U).
  - exists false, info. split; [reflexivity|]. split; [reflexivity|discriminate].
Qed.
Print Assumptions C133_fraction_partial.
(** C133: the point and the normal are right when the collider that was added last is the closest one. *)
Theorem C133_point_partial : forall pct eps big w b x y info cs c u, 0 < eps -> reachable pct w -> qw_bodies w b = Some x -> wb_active x = true -> wb_colliders x = cs ++ [c] ->
  (forall c', In c' (wb_colliders x) -> dependable eps big w y c') -> 0 <= u < ray_max y -> region w c (ray_at y u) ->
  (forall c' u', In c' cs -> 0 <= u' <= u -> ~ region w c' (ray_at y u')) ->
  exists info', body_cast eps big w b y info = Ok (true, info') /\ first_hit (region w c) y info' /\ vlen (hit_normal info') = 1.
Proof.
  intros pct eps big w b x y info cs c u He R B AC EC DP U RG FAR. unfold body_cast. rewrite B. cbn [rd bind]. rewrite AC, EC. cbn [negb].
  assert (IN : forall c', In c' (cs ++ [c]) -> in_play w c' /\ dependable eps big w y c') by (intros c' Hc; rewrite <- EC in Hc; split; [eapply body_in_play; eauto|auto]).
  apply (body_loop_last pct eps big He w y c u); [apply (reachable_ok pct w R)|apply IN, in_app_iff; right; now left|apply IN, in_app_iff; right; now left|exact RG|lra| |lra|lra].
  intros c' Hc. split; [apply IN, in_app_iff; now left|]. split; [apply IN, in_app_iff; now left|]. intros u' U'. eauto.
Qed.
Print Assumptions C133_point_partial.
Definition side_ray : ray := Ray (V3 3 0 0) (V3 (-3) 0 0) 1.
Lemma side_dependable eps big w c p id x : 0 < eps <= 1 -> qw_colliders w c = Some (ball_at p id) -> qw_bodies w 1%nat = Some x -> wb_pose x = at_place vzero -> qw_shapes w 0%nat = Some (WSphere 1) ->
  (vx p = 0 \/ 5 <= vy p) -> dependable eps big w side_ray c.
Proof.
  intros He K B EP S PP. apply (ball_dependable eps big w c p id 1 x); auto; try lra; [unfold side_ray, vsub, vlen2; cbn; lra|]. rewrite (ball_region w c p id 1 x K B EP S ltac:(lra)). unfold side_ray. cbn.
  pose proof (Rle_0_sqr (0 - vz p)). pose proof (Rle_0_sqr (0 - vy p)). pose proof (Rle_0_sqr (3 - vx p)). unfold Rsqr in *. destruct PP as [->|Y]; nra.
Qed.
(** C133: if a later collider is missed, then its transform is applied to the point that was found: the reported point is not
    even on the ray. *)
Theorem C133_point_refuted : forall pct eps big, 0 <= pct -> 0 < eps <= 1 -> exists w y x, reachable pct w /\ qw_bodies w 1%nat = Some x /\ wb_active x = true /\
  (forall c, In c (wb_colliders x) -> dependable eps big w y c) /\
  forall info, exists info', body_cast eps big w 1 y info = Ok (true, info') /\ forall u, hit_point info' <> ray_at y u.
Proof.
  intros pct eps big P He. destruct (two_ball_world pct vzero (V3 0 5 0)) as (w & i & j & _ & R & S & B & K2 & K3 & _).
  exists w, side_ray, (WBody (at_place vzero) true false [2%nat; 3%nat]). split; [exact R|]. split; [exact B|]. split; [reflexivity|].
  assert (D2 : dependable eps big w side_ray 2) by (apply (side_dependable eps big w 2 vzero i _ He K2 B eq_refl S); left; reflexivity).
  assert (D3 : dependable eps big w side_ray 3) by (apply (side_dependable eps big w 3 (V3 0 5 0) j _ He K3 B eq_refl S); left; reflexivity).
  split; [intros c [<-|[<-|[]]]; assumption|]. intros info. pose proof (ball_region w 2 _ i 1 _ K2 B eq_refl S ltac:(lra)) as RG2. pose proof (ball_region w 3 _ j 1 _ K3 B eq_refl S ltac:(lra)) as RG3. cbn [vx vy vz vzero] in RG2, RG3.
  unfold body_cast. rewrite B. cbn [rd bind wb_active negb wb_colliders body_loop]. rewrite K2. cbn [rd bind]. change (Ray (ray_p1 side_ray) (ray_p2 side_ray) (ray_max side_ray)) with (cut side_ray (ray_max side_ray)).
  destruct (collider_ray_ok pct eps big ltac:(lra) w 2 _ _ side_ray (ray_max side_ray) info (reachable_ok pct w R) K2 B eq_refl (Rle_refl _)) as (a2 & i2 & -> & _ & Q2). specialize (Q2 D2). cbn [bind].
  destruct a2; [|exfalso; apply (Q2 (1 / 2)); [cbn; lra|]; apply RG2; unfold ray_at, lerp, side_ray; cbn; lra]. destruct Q2 as ((F1 & F2 & _) & _). cbn [cut ray_max] in F1.
  rewrite K3. cbn [rd bind]. change (Ray (ray_p1 side_ray) (ray_p2 side_ray) (hit_fraction i2)) with (cut side_ray (hit_fraction i2)).
  destruct (collider_ray_ok pct eps big ltac:(lra) w 3 _ _ side_ray (hit_fraction i2) i2 (reachable_ok pct w R) K3 B eq_refl (proj2 F1)) as (a3 & i3 & -> & E3 & Q3). specialize (Q3 D3). cbn [bind].
  destruct a3.
  - exfalso. destruct Q3 as ((_ & G2 & G3 & _) & _). rewrite G2 in G3. apply RG3 in G3. unfold ray_at, lerp, side_ray in G3. cbn in G3. nra.
  - exists i3. split; [reflexivity|]. intros u X. rewrite (E3 eq_refl) in X. cbn [hit_point] in X. rewrite F2 in X. cbn [wc_world ball_at] in X. rewrite place_point in X. unfold ray_at, lerp, side_ray in X. cbn in X. unfold vadd in X. cbn in X. injection X as _ X _. lra.
Qed.
Print Assumptions C133_point_refuted.
(** The hypotheses of the partial theorems hold for a body with the two balls in the other order. *)
Example C133_not_vacuous : forall pct eps big, 0 <= pct -> 0 < eps <= 1 -> exists w x, reachable pct w /\ qw_bodies w 1%nat = Some x /\ wb_active x = true /\ wb_colliders x = [2%nat] ++ [3%nat] /\
  (forall c, In c (wb_colliders x) -> dependable eps big w side_ray c) /\ region w 3 (ray_at side_ray (1 / 2)) /\ (forall c u, In c [2%nat] -> 0 <= u <= 1 / 2 -> ~ region w c (ray_at side_ray u)).
Proof.
  intros pct eps big P He. destruct (two_ball_world pct (V3 0 5 0) vzero) as (w & i & j & _ & R & S & B & K2 & K3 & _). exists w, (WBody (at_place vzero) true false [2%nat; 3%nat]).
  split; [exact R|]. split; [exact B|]. split; [reflexivity|]. split; [reflexivity|]. split.
  - intros c [<-|[<-|[]]]; [apply (side_dependable eps big w 2 (V3 0 5 0) i _ He K2 B eq_refl S)|apply (side_dependable eps big w 3 vzero j _ He K3 B eq_refl S)]; left; reflexivity.
  - split; [apply (ball_region w 3 _ j 1 _ K3 B eq_refl S ltac:(lra)); unfold ray_at, lerp, side_ray; cbn; lra|]. intros c u [<-|[]] U. rewrite (ball_region w 2 _ i 1 _ K2 B eq_refl S ltac:(lra)). unfold ray_at, lerp, side_ray. cbn. nra.
Qed.
