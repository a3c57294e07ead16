(** What one pass over a joint achieves, and what it does to the kinetic energy. *)
From Coq Require Import List Reals Lra Psatz Bool Arith.
From Verif Require Import VecModel VecProofs ContactModel ContactSpec ContactProofs ContactLawProofs ContactBooksProofs ContactBounceProofs JointModel JointSpec JointProofs JointLawProofs.
Import ListNotations.
Local Open Scope R_scope.

(** ** Matrices *)
Ltac msolve := intros; repeat match goal with v : vec3 |- _ => destruct v as [?x ?y ?z] | m : mat3 |- _ => destruct m as [[? ? ?] [? ? ?] [? ? ?]] end;
  unfold mat_transpose, mat_skew, mat_mul, mat_add, mk_mat, vadd, vsub, vneg, vmul, vscale, vcross, vdot, vzero, mat_vec, m00, m01, m02, m10, m11, m12, m20, m21, m22;
  cbn [vx vy vz row0 row1 row2]; try (f_equal; ring); try (f_equal; f_equal; ring); ring.
Lemma mat_vec_sum a b v : mat_vec (mat_add a b) v = vadd (mat_vec a v) (mat_vec b v). Proof. unfold mat_add. vsolve. Qed.
(** The determinant of [k * identity + A] for a positive semi-definite A is at least k^3. *)
Lemma form_minor a b c : (forall x y, 0 <= a * x * x + 2 * c * x * y + b * y * y) -> 0 <= a /\ 0 <= b /\ 0 <= a * b - c * c.
Proof.
  intros H. assert (A := H 1 0). assert (B := H 0 1). assert (C := H (- c) a). assert (D := H b (- c)).
  split; [lra |]. split; [lra |]. assert (0 <= a) by lra. assert (0 <= b) by lra.
  destruct (Rle_lt_dec (a * b - c * c) 0) as [N | N]; [| lra].
  assert (E : a * (a * b - c * c) >= 0) by nra. assert (F : b * (a * b - c * c) >= 0) by nra.
  destruct (Rle_lt_or_eq_dec 0 a H0) as [Ha | Ha]; [nra |]. destruct (Rle_lt_or_eq_dec 0 b H1) as [Hb | Hb]; [nra |].
  subst a b. assert (G := H 1 (- c)). assert (G' := H 1 c). assert (0 <= c * c) by nra. nra.
Qed.
Lemma det_bound k A : 0 < k -> positive A -> k * k * k <= mat_det (mat_add (mk_mat k 0 0 0 k 0 0 0 k) A).
Proof.
  intros Hk [S P]. destruct A as [[a c d] [c' b e] [d' e' f]].
  unfold symmetric, mat_transpose, mk_mat, m00, m01, m02, m10, m11, m12, m20, m21, m22 in S. cbn in S. injection S as H1 H2 H3 H4 H5 H6. subst c' d' e'.
  destruct (form_minor a b c) as (Ha & Hb & Hm).
  { intros x y. assert (E := P (V3 x y 0)). unfold vdot, mat_vec in E. cbn in E. unfold vdot in E. cbn in E. lra. }
  unfold mat_det, mat_add, mk_mat, m00, m01, m02, m10, m11, m12, m20, m21, m22, vadd. cbn [row0 row1 row2 vx vy vz].
  rewrite !Rplus_0_l. set (M := (k + a) * (k + b) - c * c).
  set (D := (k + a) * ((k + b) * (k + f) - e * e) - c * (c * (k + f) - d * e) + d * (c * e - d * (k + b))).
  assert (HM : k * k <= M) by (unfold M; nra).
  assert (E := P (V3 (c * e - (k + b) * d) (- ((k + a) * e - c * d)) M)).
  assert (Q : D * M = vdot (V3 (c * e - (k + b) * d) (- ((k + a) * e - c * d)) M) (mat_vec (M3 (V3 a c d) (V3 c b e) (V3 d e f)) (V3 (c * e - (k + b) * d) (- ((k + a) * e - c * d)) M))
     + k * ((c * e - (k + b) * d) * (c * e - (k + b) * d) + (- ((k + a) * e - c * d)) * (- ((k + a) * e - c * d)) + M * M)).
  { unfold vdot, mat_vec, m00, m01, m02, m10, m11, m12, m20, m21, m22, D, M. cbn [row0 row1 row2 vx vy vz]. ring. }
  assert (G : k * M * M <= D * M).
  { assert (0 <= (c * e - (k + b) * d) * (c * e - (k + b) * d)) by apply Rle_0_sqr.
    assert (0 <= (- ((k + a) * e - c * d)) * (- ((k + a) * e - c * d))) by apply Rle_0_sqr. nra. }
  assert (0 < k * k) by nra. assert (0 < M) by lra. assert (k * M <= D) by nra. apply Rle_trans with (k * M); [nra |].
  match goal with |- _ <= ?x => replace x with D by (unfold D; ring) end. assumption.
Qed.
Lemma positive_conj r I : positive I -> positive (mat_mul (mat_mul (mat_skew r) I) (mat_transpose (mat_skew r))).
Proof.
  intros [S P]. split.
  - unfold symmetric in *. destruct I as [[a c d] [c' b e] [d' e' f]], r as [x y z].
    unfold mat_transpose, mk_mat, m00, m01, m02, m10, m11, m12, m20, m21, m22 in S. cbn in S. injection S as H1 H2 H3 H4 H5 H6. subst c' d' e'.
    unfold mat_skew, mat_mul, mat_transpose, mk_mat, m00, m01, m02, m10, m11, m12, m20, m21, m22. cbn. f_equal; f_equal; ring.
  - intros v. replace (vdot v (mat_vec (mat_mul (mat_mul (mat_skew r) I) (mat_transpose (mat_skew r))) v))
      with (vdot (mat_vec (mat_transpose (mat_skew r)) v) (mat_vec I (mat_vec (mat_transpose (mat_skew r)) v))); [apply P |].
    rewrite !mat_vec_mul. generalize (mat_vec I (mat_vec (mat_transpose (mat_skew r)) v)). clear. intros u. destruct r as [r1 r2 r3], u as [u1 u2 u3], v as [v1 v2 v3].
    unfold mat_skew, mat_transpose, mk_mat, mat_vec, vdot, m00, m01, m02, m10, m11, m12, m20, m21, m22. cbn [row0 row1 row2 vx vy vz]. ring.
Qed.
Lemma positive_add A B : positive A -> positive B -> positive (mat_add A B).
Proof.
  intros [S P] [S' P']. split; [| intros v; rewrite mat_vec_sum, vdot_vadd_r; specialize (P v); specialize (P' v); lra].
  unfold symmetric in *. rewrite <- S at 2. rewrite <- S' at 2. clear. msolve.
Qed.

Section Pass.
Variables (eps dt : R) (env : jbodies).
Notation rig := (rigids env).
Notation recv := (receive_all rig).
Definition skews (l : link) (r1 r2 : vec3) : mat3 :=
  mat_add (mat_mul (mat_mul (mat_skew r1) (i1_of env l)) (mat_transpose (mat_skew r1)))
    (mat_mul (mat_mul (mat_skew r2) (i2_of env l)) (mat_transpose (mat_skew r2))).
Lemma mass_matrix_sum l r1 r2 :
  mass_matrix env l r1 r2 = mat_add (mk_mat (sum_mass env l) 0 0 0 (sum_mass env l) 0 0 0 (sum_mass env l)) (skews l r1 r2).
Proof. unfold mass_matrix, skews. generalize (mat_mul (mat_mul (mat_skew r1) (i1_of env l)) (mat_transpose (mat_skew r1))), (mat_mul (mat_mul (mat_skew r2) (i2_of env l)) (mat_transpose (mat_skew r2))), (sum_mass env l).
  msolve. Qed.
Definition massy (l : link) : Prop := positive (i1_of env l) /\ positive (i2_of env l) /\ 0 < sum_mass env l.
Lemma mass_det l r1 r2 : massy l -> sum_mass env l * sum_mass env l * sum_mass env l <= mat_det (mass_matrix env l r1 r2).
Proof. intros (A & B & C). rewrite mass_matrix_sum. apply det_bound; [exact C |]. apply positive_add; now apply positive_conj. Qed.

(** ** Velocities after an exchange *)
Definition loose (l : link) : Prop := l_b1 l <> l_b2 l /\ free (jb (env (l_b1 l))) /\ free (jb (env (l_b2 l))).
Lemma free_lin a x : free a -> vmul (r_ll a) (vscale (r_im a) x) = vscale (r_im a) x.
Proof. intros [[H _] | [H _]]; rewrite H; generalize x; [| generalize (r_ll a)]; vsolve. Qed.
Lemma free_ang a x : free a -> vmul (r_al a) (mat_vec (r_iw a) x) = mat_vec (r_iw a) x.
Proof. intros [[_ H] | [_ H]]; rewrite H; [apply vmul_1 |]. now rewrite mat_zero_vec, vmul_0. Qed.
Lemma pull_b1 l o1 o2 lin ang st : loose l -> recv (pull l o1 o2 lin ang) st (l_b1 l) =
  Vel (vsub (cv (st (l_b1 l))) (vscale (r_im (jb (env (l_b1 l)))) lin)) (vsub (cw (st (l_b1 l))) (mat_vec (i1_of env l) (vadd (vcross o1 lin) ang)))
    (sv (st (l_b1 l))) (sw (st (l_b1 l))).
Proof.
  intros (N & F & _). unfold receive_all, pull. cbn [fold_left]. rewrite receive_other by exact N. rewrite receive_same. unfold rigids.
  rewrite free_lin, free_ang by exact F. unfold i1_of. f_equal; generalize (r_iw (jb (env (l_b1 l)))); vsolve.
Qed.
Lemma pull_b2 l o1 o2 lin ang st : loose l -> recv (pull l o1 o2 lin ang) st (l_b2 l) =
  Vel (vadd (cv (st (l_b2 l))) (vscale (r_im (jb (env (l_b2 l)))) lin)) (vadd (cw (st (l_b2 l))) (mat_vec (i2_of env l) (vadd (vcross o2 lin) ang)))
    (sv (st (l_b2 l))) (sw (st (l_b2 l))).
Proof.
  intros (N & _ & F). unfold receive_all, pull. cbn [fold_left]. rewrite receive_same. unfold rigids.
  rewrite receive_other by (cbn; congruence). now rewrite free_lin, free_ang by exact F.
Qed.
(** The velocity of the second anchor relative to the first, and of the second body's rotation. *)
Definition rel (l : link) (o1 o2 : vec3) (st : velocities) : vec3 := relative (cv (st (l_b1 l))) (cw (st (l_b1 l))) (cv (st (l_b2 l))) (cw (st (l_b2 l))) o1 o2.
Definition turn (l : link) (st : velocities) : vec3 := vsub (cw (st (l_b2 l))) (cw (st (l_b1 l))).
Lemma pull_rel l o1 o2 lin st : loose l -> rel l o1 o2 (recv (pull l o1 o2 lin vzero) st) = vadd (rel l o1 o2 st) (mat_vec (mass_matrix env l o1 o2) lin).
Proof.
  intros H. unfold rel. rewrite pull_b1, pull_b2 by exact H. cbn [cv cw].
  assert (E : mat_vec (mass_matrix env l o1 o2) lin = vadd (vscale (sum_mass env l) lin)
    (vadd (vcross (mat_vec (i1_of env l) (vcross o1 lin)) o1) (vcross (mat_vec (i2_of env l) (vcross o2 lin)) o2))).
  { rewrite mass_matrix_sum. unfold skews. rewrite !mat_vec_sum, !mat_vec_mul.
    replace (mat_vec (mat_transpose (mat_skew o1)) lin) with (vneg (vcross o1 lin)) by (msolve).
    replace (mat_vec (mat_transpose (mat_skew o2)) lin) with (vneg (vcross o2 lin)) by (msolve).
    generalize (vcross o1 lin), (vcross o2 lin), (i1_of env l), (i2_of env l), (sum_mass env l). msolve. }
  rewrite E. unfold sum_mass. replace (vadd (vcross o1 lin) vzero) with (vcross o1 lin) by vsolve. replace (vadd (vcross o2 lin) vzero) with (vcross o2 lin) by vsolve.
  generalize (mat_vec (i1_of env l) (vcross o1 lin)), (mat_vec (i2_of env l) (vcross o2 lin)), (cv (st (l_b1 l))), (cv (st (l_b2 l))), (cw (st (l_b1 l))), (cw (st (l_b2 l))),
    (r_im (jb (env (l_b1 l)))), (r_im (jb (env (l_b2 l)))). unfold relative. vsolve.
Qed.
Lemma pull_turn l o1 o2 ang st : loose l -> turn l (recv (pull l o1 o2 vzero ang) st) = vadd (turn l st) (mat_vec (mat_add (i1_of env l) (i2_of env l)) ang).
Proof.
  intros H. unfold turn. rewrite pull_b1, pull_b2 by exact H. cbn [cv cw]. rewrite mat_vec_sum.
  replace (vadd (vcross o1 vzero) ang) with ang by vsolve. replace (vadd (vcross o2 vzero) ang) with ang by vsolve.
  generalize (mat_vec (i1_of env l) ang), (mat_vec (i2_of env l) ang), (cw (st (l_b1 l))), (cw (st (l_b2 l))). vsolve.
Qed.
Lemma translation_delta l o1 o2 inv bias st : fst (translation_step env l o1 o2 inv bias st) = mat_vec inv (vsub (vneg (rel l o1 o2 st)) bias).
Proof. reflexivity. Qed.
Lemma invert_mass_r k : 0 <= eps -> eps < Rabs (mat_det k) -> mat_mul k (invert_mass eps true k) = mat_id.
Proof.
  intros He H. unfold invert_mass. destruct (rlt eps (Rabs (mat_det k))) eqn:E; [| apply rlt_false in E; lra]. apply mat_inverse_r.
  intros Z. rewrite Z, Rabs_R0 in H. lra.
Qed.
Lemma invert_rotation_r k : 0 <= eps -> eps < Rabs (mat_det k) -> mat_mul k (invert_rotation eps true k) = mat_id.
Proof.
  intros He H. unfold invert_rotation. destruct (rlt eps (Rabs (mat_det k))) eqn:E; [| apply rlt_false in E; lra]. apply mat_inverse_r.
  intros Z. rewrite Z, Rabs_R0 in H. lra.
Qed.
Definition ready_link (l : link) : Prop :=
  loose l /\ massy l /\ any_dynamic env l = true /\ eps < sum_mass env l * sum_mass env l * sum_mass env l.
Lemma translation_exact l o1 o2 bias st : 0 <= eps -> ready_link l ->
  rel l o1 o2 (snd (translation_step env l o1 o2 (invert_mass eps (any_dynamic env l) (mass_matrix env l o1 o2)) bias st)) = vneg bias.
Proof.
  intros He (H & M & D & L). rewrite translation_recv, pull_rel by exact H. rewrite translation_delta, D.
  assert (B := mass_det l o1 o2 M). rewrite mat_vec_inverse.
  - generalize (rel l o1 o2 st). vsolve.
  - apply invert_mass_r; [exact He |]. assert (Q := Rle_abs (mat_det (mass_matrix env l o1 o2))). lra.
Qed.
Lemma rotation_exact l bias st : 0 <= eps -> loose l -> any_dynamic env l = true -> eps < Rabs (mat_det (mat_add (i1_of env l) (i2_of env l))) ->
  turn l (snd (rotation_step env l (invert_rotation eps (any_dynamic env l) (mat_add (i1_of env l) (i2_of env l))) bias st)) = vneg bias.
Proof.
  intros He H D L. rewrite (rotation_recv env l vzero vzero), pull_turn by exact H. unfold rotation_step. cbn [fst]. rewrite D. fold (turn l st).
  rewrite mat_vec_inverse; [generalize (turn l st); vsolve |]. now apply invert_rotation_r.
Qed.

(** ** The joint solved last *)
Lemma solve_last js j : forall rs st, Forall2 (tied eps dt env) (js ++ [j]) rs -> exists pre r s, tied eps dt env j r /\
  fst (solve_joints dt env rs st) = pre ++ [fst (solve_joint dt env r s)] /\ snd (solve_joints dt env rs st) = snd (solve_joint dt env r s).
Proof.
  induction js as [| j' js IH]; intros rs st H; cbn [app] in H; inversion H as [| ? r ? rs' O H']; subst; cbn [solve_joints].
  - inversion H'; subst. exists [], r, st. cbn [solve_joints]. destruct (solve_joint dt env r st) as [r' s']. repeat split; [apply O .. ].
  - destruct (solve_joint dt env r st) as [r' s']. destruct (IH rs' s' H') as (pre & r0 & s0 & T & A & B).
    destruct (solve_joints dt env rs' s') as [rs'' s'']. cbn [fst snd] in *. exists (r' :: pre), r0, s0. cbn [app]. rewrite A. auto.
Qed.
Lemma solve_tied : forall js rs st, Forall2 (tied eps dt env) js rs -> Forall2 (tied eps dt env) js (fst (solve_joints dt env rs st)).
Proof.
  intros js rs st H. revert st. induction H as [| j r js rs [O Z] _ IH]; intros st; cbn [solve_joints]; [constructor |].
  assert (B : tied eps dt env j (fst (solve_joint dt env r st))) by (split; [now apply solve_of_joint | intros R; now apply solve_resting, Z]).
  destruct (solve_joint dt env r st) as [r' s']. specialize (IH s'). destruct (solve_joints dt env rs s') as [rs' s'']. cbn [fst] in *. now constructor.
Qed.
Lemma iterate_last n : forall js j rs st, Forall2 (tied eps dt env) (js ++ [j]) rs -> exists pre r s, tied eps dt env j r /\
  fst (iterate_joints (S n) dt env rs st) = pre ++ [fst (solve_joint dt env r s)] /\ snd (iterate_joints (S n) dt env rs st) = snd (solve_joint dt env r s).
Proof.
  induction n as [| n IH]; intros js j rs st H.
  - destruct (solve_last js j rs st H) as (pre & r & s & T & A & B). exists pre, r, s. cbn [iterate_joints].
    destruct (solve_joints dt env rs st) as [rs' s']. auto.
  - assert (A := solve_tied _ _ st H). change (iterate_joints (S (S n)) dt env rs st) with (let '(l, st) := solve_joints dt env rs st in iterate_joints (S n) dt env l st).
    destruct (solve_joints dt env rs st) as [rs' s']. exact (IH js j rs' s' A).
Qed.
Lemma step_last n js j st : exists pre r s, tied eps dt env j r /\
  fst (joints_step eps dt (S n) env (js ++ [j]) st) = pre ++ [fst (solve_joint dt env r s)] /\
  snd (joints_step eps dt (S n) env (js ++ [j]) st) = snd (solve_joint dt env r s).
Proof. unfold joints_step. apply (iterate_last n js). apply init_all. Qed.

(** ** What the last pass achieves *)
Lemma ball_last j m n js st : 0 <= eps -> ready_link (bl_link j) -> let l := bl_link j in
  rel l (arm1 env l) (arm2 env l) (snd (joints_step eps dt (S n) env (js ++ [JBall j m]) st)) = vneg (translation_bias dt env l (arm1 env l) (arm2 env l)).
Proof.
  intros He R l. destruct (step_last n js (JBall j m) st) as (pre & r & s & [O _] & _ & ->). destruct r as [j' d m' | | |]; cbn in O; try contradiction.
  destruct O as (-> & -> & _). unfold solve_joint, ball_solve. destruct (ball_limit _ _ _ _ _) as [c s1].
  assert (T := translation_exact (bl_link j) (arm1 env l) (arm2 env l) (translation_bias dt env l (arm1 env l) (arm2 env l)) s1 He R).
  cbn [bd_r1 bd_r2 bd_inv bd_bias fst ball_init]. fold l in T |- *. destruct (translation_step _ _ _ _ _ _ _) as [dl s2]. exact T.
Qed.
Lemma hinge_last j m n js st : 0 <= eps -> ready_link (hg_link j) -> let l := hg_link j in
  rel l (arm1 env l) (arm2 env l) (snd (joints_step eps dt (S n) env (js ++ [JHinge j m]) st)) = vneg (translation_bias dt env l (arm1 env l) (arm2 env l)).
Proof.
  intros He R l. destruct (step_last n js (JHinge j m) st) as (pre & r & s & [O _] & _ & ->). destruct r as [| | j' d m' |]; cbn in O; try contradiction.
  destruct O as (-> & -> & _). unfold solve_joint, hinge_solve. destruct (hinge_lower _ _ _ _ _) as [x1 s1]. destruct (hinge_upper _ _ _ _ _) as [x2 s2].
  destruct (hinge_drive _ _ _ _ _ _) as [x3 s3]. destruct (hinge_turn _ _ _ _) as [x4 s4].
  assert (T := translation_exact (hg_link j) (arm1 env l) (arm2 env l) (translation_bias dt env l (arm1 env l) (arm2 env l)) s4 He R).
  cbn [hd_r1 hd_r2 hd_inv hd_bias fst hinge_init]. fold l in T |- *. destruct (translation_step _ _ _ _ _ _ _) as [dl s5]. exact T.
Qed.
Lemma fixed_last j m n js st : 0 <= eps -> let l := fx_link j in
  loose l -> any_dynamic env l = true -> eps < Rabs (mat_det (mat_add (i1_of env l) (i2_of env l))) ->
  turn l (snd (joints_step eps dt (S n) env (js ++ [JFixed j m]) st)) = vneg (rotation_bias dt env l (fx_diff j)).
Proof.
  intros He l H D L. destruct (step_last n js (JFixed j m) st) as (pre & r & s & [O _] & _ & ->). destruct r as [| j' d m' | |]; cbn in O; try contradiction.
  destruct O as (-> & ->). unfold solve_joint, fixed_solve. destruct (translation_step _ _ _ _ _ _ _) as [dl s1].
  assert (T := rotation_exact l (rotation_bias dt env l (fx_diff j)) s1 He H D L).
  cbn [fd_rinv fd_rbias fst fixed_init]. fold l. destruct (rotation_step _ _ _ _ _) as [dr s2]. exact T.
Qed.
(** The slider. *)
Lemma mat2_solve K x : mat2_det K <> 0 -> mat2_vec K (mat2_vec (mat2_inverse_det K (mat2_det K)) x) = x.
Proof. destruct K as [a b c d], x as [x y]. unfold mat2_det, mat2_inverse_det, mat2_vec, mat2_scale. cbn. intros H. f_equal; field; exact H. Qed.
Lemma invert_mass2_solve K x : 0 <= eps -> eps < Rabs (mat2_det K) -> mat2_vec K (mat2_vec (invert_mass2 eps true K) x) = x.
Proof.
  intros He H. unfold invert_mass2. destruct (rlt eps (Rabs (mat2_det K))) eqn:E; [| apply rlt_false in E; lra]. apply mat2_solve.
  intros Z. rewrite Z, Rabs_R0 in H. lra.
Qed.
Definition frame (a n1 n2 : vec3) : Prop := vlen2 a = 1 /\ vlen2 n1 = 1 /\ vlen2 n2 = 1 /\ vdot n1 a = 0 /\ vdot n2 a = 0 /\ vdot n1 n2 = 0.
Lemma slider_entries l o1 o2 n1 n2 a : frame a n1 n2 ->
  slider_matrix env l (vcross o1 n1) (vcross o1 n2) (vcross o2 n1) (vcross o2 n2) =
  M2 (vdot n1 (mat_vec (mass_matrix env l o1 o2) n1)) (vdot n1 (mat_vec (mass_matrix env l o1 o2) n2))
     (vdot n2 (mat_vec (mass_matrix env l o1 o2) n1)) (vdot n2 (mat_vec (mass_matrix env l o1 o2) n2)).
Proof.
  intros (A & B & C & D & E & F).
  assert (Q : forall u v, vdot u (mat_vec (mass_matrix env l o1 o2) v) = sum_mass env l * vdot u v + vdot (vcross o1 u) (mat_vec (i1_of env l) (vcross o1 v))
      + vdot (vcross o2 u) (mat_vec (i2_of env l) (vcross o2 v))).
  { intros u v. rewrite mass_matrix_sum. unfold skews. rewrite !mat_vec_sum, !mat_vec_mul, !vdot_vadd_r.
    replace (mat_vec (mat_transpose (mat_skew o1)) v) with (vneg (vcross o1 v)) by msolve.
    replace (mat_vec (mat_transpose (mat_skew o2)) v) with (vneg (vcross o2 v)) by msolve.
    generalize (vcross o1 v), (vcross o2 v), (i1_of env l), (i2_of env l), (sum_mass env l). intros p q I J k.
    replace (mat_vec I (vneg p)) with (vneg (mat_vec I p)) by msolve. replace (mat_vec J (vneg q)) with (vneg (mat_vec J q)) by msolve.
    generalize (mat_vec I p), (mat_vec J q). msolve. }
  assert (F' : vdot n2 n1 = 0) by now rewrite vdot_comm.
  unfold slider_matrix. rewrite !Q, F, F', <- !vlen2_dot, B, C. f_equal; ring.
Qed.
Lemma slider_det l o1 o2 n1 n2 a : massy l -> frame a n1 n2 ->
  sum_mass env l * sum_mass env l <= mat2_det (slider_matrix env l (vcross o1 n1) (vcross o1 n2) (vcross o2 n1) (vcross o2 n2)).
Proof.
  intros ((S1 & P1) & (S2 & P2) & M) Fr. unfold slider_matrix, mat2_det. cbn [n00 n01 n10 n11].
  set (I := i1_of env l) in *. set (J := i2_of env l) in *. set (m := sum_mass env l) in *.
  assert (C1 : vdot (vcross o1 n2) (mat_vec I (vcross o1 n1)) = vdot (vcross o1 n1) (mat_vec I (vcross o1 n2))) by (rewrite vdot_comm, mat_vec_transpose, S1; reflexivity).
  assert (C2 : vdot (vcross o2 n2) (mat_vec J (vcross o2 n1)) = vdot (vcross o2 n1) (mat_vec J (vcross o2 n2))) by (rewrite vdot_comm, mat_vec_transpose, S2; reflexivity).
  rewrite C1, C2.
  destruct (form_minor (vdot (vcross o1 n1) (mat_vec I (vcross o1 n1)) + vdot (vcross o2 n1) (mat_vec J (vcross o2 n1)))
    (vdot (vcross o1 n2) (mat_vec I (vcross o1 n2)) + vdot (vcross o2 n2) (mat_vec J (vcross o2 n2)))
    (vdot (vcross o1 n1) (mat_vec I (vcross o1 n2)) + vdot (vcross o2 n1) (mat_vec J (vcross o2 n2)))) as (A & B & D).
  { intros x y. assert (E1 := P1 (vadd (vscale x (vcross o1 n1)) (vscale y (vcross o1 n2)))). assert (E2 := P2 (vadd (vscale x (vcross o2 n1)) (vscale y (vcross o2 n2)))).
    rewrite mat_vec_vadd, !mat_vec_vscale, !vdot_vadd_l, !vdot_vadd_r, !vdot_vscale_l, !vdot_vscale_r in E1, E2. rewrite C1 in E1. rewrite C2 in E2. lra. }
  nra.
Qed.
Lemma slide_exact j d st : 0 <= eps -> let l := sl_link j in loose l -> massy l -> any_dynamic env l = true -> eps < sum_mass env l * sum_mass env l ->
  slides env j d -> frame (sd_axis d) (sd_n1 d) (sd_n2 d) -> sd_bias d = (0, 0) ->
  sd_inv d = invert_mass2 eps (any_dynamic env l) (slider_matrix env l (sd_r1n1 d) (sd_r1n2 d) (sd_r2n1 d) (sd_r2n2 d)) ->
  vdot (sd_n1 d) (rel l (offset1 env j) (arm2 env l) (snd (slider_slide env j d st))) = 0 /\
  vdot (sd_n2 d) (rel l (offset1 env j) (arm2 env l) (snd (slider_slide env j d st))) = 0.
Proof.
  intros He l H M D L S Fr B Hi. rewrite slider_slide_recv by exact S. fold l. rewrite pull_rel by exact H.
  assert (Dt := slider_det l (offset1 env j) (arm2 env l) _ _ _ M Fr). assert (En := slider_entries l (offset1 env j) (arm2 env l) _ _ _ Fr).
  destruct S as (S1 & S2 & S3 & S4 & S5 & S6). fold l in S4, S5, S6. rewrite S1, S2, S4, S5, D in Hi.
  assert (V : fst (slider_slide env j d st) = mat2_vec (sd_inv d)
     (- vdot (sd_n1 d) (rel l (offset1 env j) (arm2 env l) st), - vdot (sd_n2 d) (rel l (offset1 env j) (arm2 env l) st))).
  { unfold slider_slide. cbn [fst]. rewrite B. cbn [fst snd]. fold l. rewrite S1, S2, S4, S5. f_equal. unfold rel, relative.
    generalize (cv (st (l_b1 l))), (cw (st (l_b1 l))), (cv (st (l_b2 l))), (cw (st (l_b2 l))), (sd_n1 d), (sd_n2 d), (offset1 env j), (arm2 env l). clear. vsolve. }
  assert (Ex := invert_mass2_solve (slider_matrix env l (vcross (offset1 env j) (sd_n1 d)) (vcross (offset1 env j) (sd_n2 d)) (vcross (arm2 env l) (sd_n1 d)) (vcross (arm2 env l) (sd_n2 d)))
     (- vdot (sd_n1 d) (rel l (offset1 env j) (arm2 env l) st), - vdot (sd_n2 d) (rel l (offset1 env j) (arm2 env l) st)) He).
  rewrite <- Hi, <- V in Ex. rewrite En in Dt, Ex. destruct (fst (slider_slide env j d st)) as [x y]. cbn [fst snd].
  assert (E : eps < Rabs (mat2_det (M2 (vdot (sd_n1 d) (mat_vec (mass_matrix env l (offset1 env j) (arm2 env l)) (sd_n1 d))) (vdot (sd_n1 d) (mat_vec (mass_matrix env l (offset1 env j) (arm2 env l)) (sd_n2 d)))
     (vdot (sd_n2 d) (mat_vec (mass_matrix env l (offset1 env j) (arm2 env l)) (sd_n1 d))) (vdot (sd_n2 d) (mat_vec (mass_matrix env l (offset1 env j) (arm2 env l)) (sd_n2 d)))))).
  { eapply Rlt_le_trans; [| apply Rle_abs]. lra. }
  specialize (Ex E). unfold mat2_vec in Ex. cbn [n00 n01 n10 n11 fst snd] in Ex. injection Ex as X Y.
  rewrite !mat_vec_vadd, !mat_vec_vscale, !vdot_vadd_r, !vdot_vscale_r. split; lra.
Qed.
End Pass.
