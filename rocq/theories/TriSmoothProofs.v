(** Proofs about triangle shapes: a triangle is a polyhedron as the separating axis test expects it; smoothed contacts. *)
From Coq Require Import Reals Lra Psatz List Bool Arith Lia.
From Verif Require Import Base VecModel VecProofs GeomModel GeomSpec GeomProofs LinAlgProperties HalfEdgeModel ShapeModel ShapeSpec ShapeProofs GjkSpec NarrowModel NarrowSpec NarrowProofs NarrowCapsuleProofs GjkShapeProofs SatModel SatSpec SatProofs TriSmoothModel.
Import ListNotations.
Local Open Scope R_scope.

Definition tri_structure : structure := Eval vm_compute in match compute_half_edges 3 tri_face_list with Ok s => s | _ => mk_structure [] [] [] end.
Definition the_tri (s : tri_shape) : solid :=
  Solid [ts_a s; ts_b s; ts_c s] tri_face_list tri_structure [ts_n s; vneg (ts_n s)] (vdiv (vadd (vadd (ts_a s) (ts_b s)) (ts_c s)) 3) (tri_support s) true.
Lemma tri_solid_eq s : tri_solid s = Ok (the_tri s).
Proof. unfold tri_solid. replace (compute_half_edges 3 tri_face_list) with (Ok tri_structure) by (vm_compute; reflexivity). reflexivity. Qed.
(** A triangle with its unit normal. *)
Definition tri_good (s : tri_shape) : Prop := vlen (ts_n s) = 1 /\ vdot (ts_n s) (vsub (ts_b s) (ts_a s)) = 0 /\ vdot (ts_n s) (vsub (ts_c s) (ts_a s)) = 0 /\
  0 < vdot (vcross (ts_n s) (vsub (ts_b s) (ts_a s))) (vsub (ts_c s) (ts_a s)).
Lemma cross_l a b c : vdot (vcross (vsub b a) (vsub c a)) (vsub b a) = 0. Proof. vring. Qed.
Lemma cross_r a b c : vdot (vcross (vsub b a) (vsub c a)) (vsub c a) = 0. Proof. vring. Qed.
Lemma cross_t k a b c : vdot (vcross (vscale k (vcross (vsub b a) (vsub c a))) (vsub b a)) (vsub c a) = k * vlen2 (vcross (vsub b a) (vsub c a)). Proof. vring. Qed.
Lemma new_good eps a b c na nb nc : 0 < eps -> eps <= vlen (vcross (vsub b a) (vsub c a)) -> tri_good (new_triangle eps a b c na nb nc).
Proof.
  intros He L. unfold tri_good, new_triangle. cbn [ts_n ts_a ts_b ts_c].
  assert (E : vnormalize eps (vcross (vsub b a) (vsub c a)) = vscale (/ vlen (vcross (vsub b a) (vsub c a))) (vcross (vsub b a) (vsub c a))).
  { unfold vnormalize. assert (X : rlt (vlen (vcross (vsub b a) (vsub c a))) eps = false) by (apply rlt_false; exact L). rewrite X. unfold vscale. apply v3_eq; cbn [vx vy vz]; unfold Rdiv; ring. }
  rewrite E. set (k := vlen (vcross (vsub b a) (vsub c a))) in *. assert (K : 0 < k) by lra.
  assert (K2 : vlen2 (vcross (vsub b a) (vsub c a)) = k * k) by (unfold k; now rewrite vlen_sq).
  split; [|split; [|split]].
  - unfold vlen. rewrite vlen2_vscale, K2. replace (/ k * / k * (k * k)) with 1 by (field; lra). apply sqrt_1.
  - rewrite vdot_vscale_l, cross_l. ring.
  - rewrite vdot_vscale_l, cross_r. ring.
  - rewrite cross_t, K2. replace (/ k * (k * k)) with k by (field; lra). exact K.
Qed.
Lemma tri_border vs n A B C : vlen n = 1 -> vdot n (vsub B A) = 0 -> vdot n (vsub C A) = 0 -> 0 < vdot (vcross n (vsub B A)) (vsub C A) ->
  (forall x, In x vs -> x = A \/ x = B \/ x = C) -> In C vs -> border vs n A B.
Proof.
  intros U P1 P2 T V HC. assert (S : vdot n (vsub A A) = 0) by (unfold vdot, vsub; cbn [vx vy vz]; ring). assert (L1 : vdot (vcross n (vsub B A)) (vsub A A) = 0) by (unfold vdot, vsub; cbn [vx vy vz]; ring).
  assert (L2 : vdot (vcross n (vsub B A)) (vsub B A) = 0) by (unfold vdot, vsub, vcross; cbn [vx vy vz]; ring).
  constructor; [exact U|exact P1| | |].
  - intros x Hx. destruct (V x Hx) as [-> | [-> | ->]]; lra.
  - intros x Hx _. destruct (V x Hx) as [-> | [-> | ->]]; lra.
  - exists C. auto.
Qed.
Lemma rot1 n a b c : vdot (vcross n (vsub c b)) (vsub a b) = vdot (vcross n (vsub b a)) (vsub c a). Proof. vring. Qed.
Lemma rot2 n a b c : vdot (vcross n (vsub a c)) (vsub b c) = vdot (vcross n (vsub b a)) (vsub c a). Proof. vring. Qed.
Lemma back1 n a b c : vdot (vcross (vneg n) (vsub a b)) (vsub c b) = vdot (vcross n (vsub b a)) (vsub c a). Proof. vring. Qed.
Lemma back2 n a b c : vdot (vcross (vneg n) (vsub b c)) (vsub a c) = vdot (vcross n (vsub b a)) (vsub c a). Proof. vring. Qed.
Lemma back3 n a b c : vdot (vcross (vneg n) (vsub c a)) (vsub b a) = vdot (vcross n (vsub b a)) (vsub c a). Proof. vring. Qed.
Lemma negdot n x : vdot (vneg n) x = - vdot n x. Proof. vring. Qed.
Lemma neg_unit n : vlen (vneg n) = vlen n. Proof. unfold vlen. now replace (vlen2 (vneg n)) with (vlen2 n) by vring. Qed.
Lemma tri_ok big s : tri_good s -> solid_ok big (the_tri s).
Proof.
  destruct s as [a b c n na nb nc]. intros (U & P1 & P2 & T). cbn [ts_a ts_b ts_c ts_n] in *.
  assert (U' : vlen (vneg n) = 1) by (rewrite neg_unit; exact U).
  assert (N : forall x y, In x [a; b; c] -> In y [a; b; c] -> vdot n (vsub x y) = 0).
  { intros x y Hx Hy. rewrite !vdot_vsub_r in *. cbn [In] in Hx, Hy. destruct Hx as [<-|[<-|[<-|[]]]], Hy as [<-|[<-|[<-|[]]]]; lra. }
  assert (B1 : border [a; b; c] n a b) by (apply tri_border with c; auto; [intros x; cbn; intuition|cbn; tauto]).
  assert (B2 : border [a; b; c] n b c) by (apply tri_border with a; auto; [apply N; cbn; tauto|apply N; cbn; tauto|now rewrite rot1|intros x; cbn; intuition|cbn; tauto]).
  assert (B3 : border [a; b; c] n c a) by (apply tri_border with b; auto; [apply N; cbn; tauto|apply N; cbn; tauto|now rewrite rot2|intros x; cbn; intuition|cbn; tauto]).
  assert (Z : forall x y, In x [a; b; c] -> In y [a; b; c] -> vdot (vneg n) (vsub x y) = 0) by (intros; rewrite negdot, N by assumption; ring).
  assert (C1 : border [a; b; c] (vneg n) b a) by (apply tri_border with c; auto; [apply Z; cbn; tauto|apply Z; cbn; tauto|now rewrite back1|intros x; cbn; intuition|cbn; tauto]).
  assert (C2 : border [a; b; c] (vneg n) c b) by (apply tri_border with a; auto; [apply Z; cbn; tauto|apply Z; cbn; tauto|now rewrite back2|intros x; cbn; intuition|cbn; tauto]).
  assert (C3 : border [a; b; c] (vneg n) a c) by (apply tri_border with b; auto; [apply Z; cbn; tauto|apply Z; cbn; tauto|now rewrite back3|intros x; cbn; intuition|cbn; tauto]).
  constructor; cbn [the_tri so_support so_verts so_faces so_normals so_edges so_triangle ts_a ts_b ts_c ts_n].
  - intros d Hd. unfold tri_support, max_axis. cbn [ts_a ts_b ts_c vx vy vz].
    destruct (rlt (vdot d a) (vdot d b)) eqn:E1; [apply rlt_true in E1|apply rlt_false in E1].
    + destruct (rlt (vdot d b) (vdot d c)) eqn:E2; [apply rlt_true in E2|apply rlt_false in E2]; (split; [cbn; tauto|]); intros p [<-|[<-|[<-|[]]]]; unfold vdot in *; lra.
    + destruct (rlt (vdot d a) (vdot d c)) eqn:E2; [apply rlt_true in E2|apply rlt_false in E2]; (split; [cbn; tauto|]); intros p [<-|[<-|[<-|[]]]]; unfold vdot in *; lra.
  - discriminate.
  - split; reflexivity.
  - intros f vs m E1 E2. destruct f as [|[|f]]; [| |destruct f; discriminate]; cbn in E1, E2; inversion E1; subst vs; inversion E2; subst m; (split; [assumption|]); (split; [discriminate|]);
      intros i Hi; cbn [In] in Hi; destruct Hi as [<-|[<-|[<-|[]]]]; (eexists; split; [reflexivity|]); intros x Hx; apply Req_le; first [apply N|apply Z]; auto; cbn; tauto.
  - intros i e H. destruct i as [|[|[|[|[|[|i]]]]]]; [| | | | | |destruct i; discriminate]; cbn in H; inversion H; subst e; clear H; do 5 eexists;
      (split; [eexists; eexists; split; [reflexivity|]; split; [reflexivity|]; split; [reflexivity|]; split; [eexists; split; reflexivity|reflexivity]|]);
      (split; [reflexivity|]);
      (split; [eexists; eexists; split; [reflexivity|]; split; [reflexivity|]; split; [reflexivity|]; split; [eexists; split; reflexivity|reflexivity]|]);
      split; assumption.
  - intros f i E. destruct f as [|[|f]]; [| |destruct f; discriminate]; cbn in E; inversion E; subst i; clear E; (split; [eexists; split; reflexivity|]); exists 3%nat; (split; [cbn; lia|]);
      do 2 (eapply ret_more; [reflexivity|reflexivity|discriminate|]); eapply ret_end; reflexivity.
  - discriminate.
Qed.

(** ** Smoothing *)
Lemma smooth_normal_unit eps s p : 0 < eps <= 1 -> tri_good s -> vlen (smooth_normal eps s p) = 1.
Proof.
  intros He (U & _). unfold smooth_normal. destruct (barycentric _ _ _ _) as ((u, v), w). destruct (_ && _); [exact U|]. cbv zeta.
  set (n := vadd _ _). destruct (rlt (vlen2 n) eps) eqn:E; [exact U|]. apply rlt_false in E. unfold vlen at 1. rewrite vlen2_vunit; [apply sqrt_1|lra|].
  unfold vlen. rewrite <- (sqrt_square eps) by lra. apply sqrt_le_1_alt. nra.
Qed.
Lemma vneg_dot a b : vdot a (vneg b) = - vdot a b. Proof. vring. Qed.
Lemma vneg_vneg a : vneg (vneg a) = a. Proof. vring. Qed.
Lemma quat_vneg q a : quat_vec q (vneg a) = vneg (quat_vec q a). Proof. unfold quat_vec, vneg. apply v3_eq; cbn [vx vy vz]; ring. Qed.
Lemma moved_point t p n d : tr_point t (vsub p (vscale d n)) = vsub (tr_point t p) (vscale d (quat_vec (t_rot t) n)).
Proof. unfold tr_point, quat_vec, vadd, vsub, vscale. apply v3_eq; cbn [vx vy vz]; ring. Qed.
Lemma smooth_mesh_ok eps s p tt wo depth (first : bool) n q m : 0 < eps <= 1 -> tri_good s -> quat_len2 (t_rot tt) = 1 -> quat_len2 (t_rot wo) = 1 -> smooth_mesh_contact eps s p tt wo depth first n = (q, m) ->
  vlen m = 1 /\ 0 <= vdot m n /\ (m = quat_vec (t_rot tt) (smooth_normal eps s p) \/ m = vneg (quat_vec (t_rot tt) (smooth_normal eps s p))) /\
  q = tr_point wo (vsub (tr_point tt p) (vscale depth (if first then m else vneg m))).
Proof.
  intros He G Qt Qo H. unfold smooth_mesh_contact in H. cbv zeta in H. set (ln := smooth_normal eps s p) in *. set (wn := quat_vec (t_rot tt) ln) in *.
  assert (U : vlen wn = 1). { unfold wn, vlen. rewrite vlen2_dot, quat_vec_dot, Qt, <- vlen2_dot. replace (1 * 1 * vlen2 ln) with (vlen2 ln) by ring. apply (smooth_normal_unit eps s p He G). }
  assert (M : forall l, tr_point (tr_mul wo tt) (vsub p (vscale depth l)) = tr_point wo (vsub (tr_point tt p) (vscale depth (quat_vec (t_rot tt) l)))) by (intros l; rewrite C34_compose; now rewrite moved_point).
  destruct (rlt (vdot wn (if first then n else vneg n)) 0) eqn:F; [apply rlt_true in F|apply rlt_false in F]; inversion H; subst q m; clear H; rewrite M, ?quat_vneg; fold wn; destruct first; rewrite ?vneg_vneg, ?vneg_dot, ?neg_unit in *;
    (split; [exact U|]); (split; [rewrite ?negdot, ?vneg_dot in *; lra|]); (split; [auto|]); reflexivity.
Qed.
