(** Joints without motors and without position correction in the velocities take kinetic energy away. *)
From Coq Require Import List Reals Lra Psatz Bool Arith.
From Verif Require Import VecModel VecProofs ContactModel ContactSpec ContactProofs ContactLawProofs ContactBooksProofs ContactBounceProofs JointModel JointSpec JointProofs JointLawProofs JointSolveProofs.
Import ListNotations.
Local Open Scope R_scope.

Lemma scalar_row a k jv : 0 <= a -> 0 <= k -> let x := Rmax (a + inverse_if_positive k * (- jv - 0)) 0 in (x - a) * jv + / 2 * ((x - a) * (x - a) * k) <= 0.
Proof.
  intros Ha Hk x. unfold x, inverse_if_positive. destruct (rlt 0 k) eqn:E; [apply rlt_true in E | apply rlt_false in E].
  - assert (Q : forall z, z * jv + / 2 * (z * z * k) = / 2 * k * ((z + / k * jv) * (z + / k * jv)) - / 2 * / k * (jv * jv)) by (intros; field; lra).
    rewrite Q. unfold Rmax. destruct (Rle_dec _ 0) as [L | L].
    + replace (1 / k) with (/ k) in L by (field; lra). assert (0 < / k) by now apply Rinv_0_lt_compat.
      assert (Hj : a <= / k * jv) by lra. assert (0 <= jv) by nra.
      assert ((0 - a + / k * jv) * (0 - a + / k * jv) <= (/ k * jv) * (/ k * jv)) by nra.
      assert (k * (/ k * jv * (/ k * jv)) = / k * (jv * jv)) by (field; lra). nra.
    + replace (a + 1 / k * (- jv - 0) - a + / k * jv) with 0 by (field; lra). assert (0 < / k) by now apply Rinv_0_lt_compat.
      assert (0 <= jv * jv) by apply Rle_0_sqr. nra.
  - rewrite Rmult_0_l, Rplus_0_r, Rmax_left by exact Ha. replace (a - a) with 0 by ring. lra.
Qed.

Section Energy.
Variables (eps dt : R) (env : jbodies) (inertia : nat -> mat3) (bodies : list nat).
Notation rig := (rigids env).
Notation recv := (receive_all rig).
Hypothesis Hnd : NoDup bodies.
Hypothesis Hcar : carried rig inertia bodies.
Notation E := (energy rig inertia bodies).
Notation quiet := (quiet rig bodies).
Definition turning (a : rigid) (v : vel) (at_ lin ang : vec3) : R :=
  vdot (cv v) lin + vdot (cw v) (vadd (vcross at_ lin) ang)
  + / 2 * (r_im a * vlen2 lin + vdot (mat_vec (r_iw a) (vadd (vcross at_ lin) ang)) (vadd (vcross at_ lin) ang)).
Lemma turning_rest b st at_ lin ang : immovable (rig b) -> at_rest b st -> turning (rig b) (st b) at_ lin ang = 0.
Proof. intros [E1 E2] [F1 F2]. unfold turning. rewrite E1, E2, F1, F2, mat_zero_vec. generalize (vadd (vcross at_ lin) ang). clear. vsolve. Qed.
Lemma energy_one b lin at_ ang st : quiet b st -> E (receive rig (Impulse b lin at_ ang) st) = E st + turning (rig b) (st b) at_ lin ang.
Proof.
  intros H. destruct (in_dec Nat.eq_dec b bodies) as [Hb | Hb].
  - clear H. unfold energy.
    erewrite (rtotal_update (fun i => / 2 * (mass rig i * vlen2 (cv (st i)) + vdot (cw (st i)) (mat_vec (inertia i) (cw (st i))))) _ b
      (turning (rig b) (st b) at_ lin ang) bodies Hnd).
    + destruct (in_dec Nat.eq_dec b bodies); [reflexivity | contradiction].
    + intros k Hk. now rewrite receive_other.
    + rewrite receive_same. cbn [cv cw]. destruct (Hcar b Hb) as (Hm & [Hl Ha] & Hs & Hj). rewrite Hl, Ha, !vmul_1.
      rewrite (energy_v (mass rig b) (r_im (rig b))) by (unfold mass; field; lra).
      rewrite (energy_w _ _ (vadd (vcross at_ lin) ang) _ Hs) by now apply mat_vec_inverse. unfold turning. field.
  - destruct H as [H | [Hi Hr]]; [contradiction |]. rewrite turning_rest by assumption. rewrite Rplus_0_r. unfold energy. apply rtotal_ext.
    intros i Hi'. rewrite receive_other; [reflexivity |]. cbn [i_body]. congruence.
Qed.
Definition ready_pair (l : link) (st : velocities) : Prop := l_b1 l <> l_b2 l /\ quiet (l_b1 l) st /\ quiet (l_b2 l) st.
Lemma pair_loose l st : ready_pair l st -> loose env l.
Proof. intros (A & B & C). split; [exact A |]. split; [exact (quiet_free _ _ _ Hcar _ _ B) | exact (quiet_free _ _ _ Hcar _ _ C)]. Qed.
Lemma pair_recv l i st : ready_pair l st -> ready_pair l (recv i st).
Proof. intros (A & B & C). split; [exact A |]. split; now apply quiet_all. Qed.
Lemma energy_pull l o1 o2 lin ang st : ready_pair l st ->
  E (recv (pull l o1 o2 lin ang) st) = E st + vdot lin (rel l o1 o2 st) + vdot ang (turn l st)
    + / 2 * (sum_mass env l * vlen2 lin + vdot (vadd (vcross o1 lin) ang) (mat_vec (i1_of env l) (vadd (vcross o1 lin) ang))
             + vdot (vadd (vcross o2 lin) ang) (mat_vec (i2_of env l) (vadd (vcross o2 lin) ang))).
Proof.
  intros (N & Q1 & Q2). unfold receive_all, pull. cbn [fold_left].
  rewrite energy_one by now apply quiet_receive. rewrite energy_one by exact Q1. rewrite receive_other by (cbn; congruence).
  unfold turning, rel, turn, relative, sum_mass, i1_of, i2_of, rigids.
  replace (vadd (vcross o1 (vneg lin)) (vneg ang)) with (vneg (vadd (vcross o1 lin) ang)) by vsolve.
  replace (vlen2 (vneg lin)) with (vlen2 lin) by (destruct lin; unfold vlen2, vneg; cbn; ring).
  replace (vdot (cw (st (l_b1 l))) (vneg (vadd (vcross o1 lin) ang))) with (- vdot lin (vcross (cw (st (l_b1 l))) o1) - vdot ang (cw (st (l_b1 l)))) by (generalize (cw (st (l_b1 l))); vsolve).
  replace (vdot (cw (st (l_b2 l))) (vadd (vcross o2 lin) ang)) with (vdot lin (vcross (cw (st (l_b2 l))) o2) + vdot ang (cw (st (l_b2 l)))) by (generalize (cw (st (l_b2 l))); vsolve).
  replace (vdot (mat_vec (r_iw (jb (env (l_b1 l)))) (vneg (vadd (vcross o1 lin) ang))) (vneg (vadd (vcross o1 lin) ang)))
    with (vdot (vadd (vcross o1 lin) ang) (mat_vec (r_iw (jb (env (l_b1 l)))) (vadd (vcross o1 lin) ang)))
    by (generalize (vadd (vcross o1 lin) ang), (r_iw (jb (env (l_b1 l)))); vsolve).
  rewrite (vdot_comm (mat_vec (r_iw (jb (env (l_b2 l)))) _)), !vdot_vsub_r, !vdot_vadd_r, !(vdot_comm (cv _)).
  replace (vdot (vneg lin) (cv (st (l_b1 l)))) with (- vdot lin (cv (st (l_b1 l)))) by (generalize (cv (st (l_b1 l))); vsolve). ring.
Qed.
Lemma kinetic l o1 o2 u v : vdot u (mat_vec (mass_matrix env l o1 o2) v) = sum_mass env l * vdot u v + vdot (vcross o1 u) (mat_vec (i1_of env l) (vcross o1 v))
      + vdot (vcross o2 u) (mat_vec (i2_of env l) (vcross o2 v)).
Proof.
  rewrite mass_matrix_sum. unfold skews. rewrite !mat_vec_sum, !mat_vec_mul, !vdot_vadd_r.
  replace (mat_vec (mat_transpose (mat_skew o1)) v) with (vneg (vcross o1 v)) by msolve.
  replace (mat_vec (mat_transpose (mat_skew o2)) v) with (vneg (vcross o2 v)) by msolve.
  generalize (vcross o1 v), (vcross o2 v), (i1_of env l), (i2_of env l), (sum_mass env l). intros p q I J k.
  replace (mat_vec I (vneg p)) with (vneg (mat_vec I p)) by msolve. replace (mat_vec J (vneg q)) with (vneg (mat_vec J q)) by msolve.
  generalize (mat_vec I p), (mat_vec J q). msolve.
Qed.
Lemma energy_lin l o1 o2 lin st : ready_pair l st ->
  E (recv (pull l o1 o2 lin vzero) st) = E st + vdot lin (rel l o1 o2 st) + / 2 * vdot lin (mat_vec (mass_matrix env l o1 o2) lin).
Proof.
  intros H. rewrite energy_pull, kinetic by exact H. rewrite !vadd_0, vlen2_dot.
  replace (vdot vzero (turn l st)) with 0 by (generalize (turn l st); vsolve). ring.
Qed.
Definition spin (l : link) : mat3 := mat_add (i1_of env l) (i2_of env l).
Lemma energy_ang l o1 o2 ang st : ready_pair l st ->
  E (recv (pull l o1 o2 vzero ang) st) = E st + vdot ang (turn l st) + / 2 * vdot ang (mat_vec (spin l) ang).
Proof.
  intros H. rewrite energy_pull by exact H. unfold spin. rewrite mat_vec_sum, vdot_vadd_r.
  replace (vadd (vcross o1 vzero) ang) with ang by vsolve. replace (vadd (vcross o2 vzero) ang) with ang by vsolve.
  replace (vdot vzero (rel l o1 o2 st)) with 0 by (generalize (rel l o1 o2 st); vsolve). replace (vlen2 vzero) with 0 by (unfold vlen2; cbn; ring). ring.
Qed.
(** ** Rows *)
Definition solid (l : link) : Prop := positive (i1_of env l) /\ positive (i2_of env l) /\ 0 <= sum_mass env l.
Lemma mass_positive l o1 o2 v : solid l -> 0 <= vdot v (mat_vec (mass_matrix env l o1 o2) v).
Proof.
  intros ((_ & P1) & (_ & P2) & M). rewrite kinetic, <- vlen2_dot. assert (A := P1 (vcross o1 v)). assert (B := P2 (vcross o2 v)).
  assert (C := vlen2_nonneg v). assert (D := Rmult_le_pos _ _ M C). lra.
Qed.
Lemma spin_positive l v : solid l -> 0 <= vdot v (mat_vec (spin l) v).
Proof. intros ((_ & P1) & (_ & P2) & M). unfold spin. rewrite mat_vec_sum, vdot_vadd_r. specialize (P1 v). specialize (P2 v). lra. Qed.
Lemma translation_energy l o1 o2 st : 0 <= eps -> solid l -> ready_pair l st ->
  E (snd (translation_step env l o1 o2 (invert_mass eps (any_dynamic env l) (mass_matrix env l o1 o2)) vzero st)) <= E st.
Proof.
  intros He S H. rewrite translation_recv, energy_lin by exact H. rewrite translation_delta. unfold invert_mass.
  set (K := mass_matrix env l o1 o2). assert (P : forall v, 0 <= vdot v (mat_vec K v)) by (intros; now apply mass_positive).
  assert (Z : E st + vdot (mat_vec mat_zero (vsub (vneg (rel l o1 o2 st)) vzero)) (rel l o1 o2 st) +
              / 2 * vdot (mat_vec mat_zero (vsub (vneg (rel l o1 o2 st)) vzero)) (mat_vec K (mat_vec mat_zero (vsub (vneg (rel l o1 o2 st)) vzero))) <= E st).
  { rewrite mat_zero_vec, mat_vec_zero. assert (vdot vzero (rel l o1 o2 st) = 0) by (generalize (rel l o1 o2 st); vsolve).
    assert (vdot vzero vzero = 0) by (unfold vdot; cbn; ring). lra. }
  destruct (rlt eps (Rabs (mat_det K))) eqn:L; [| exact Z]. destruct (any_dynamic env l); [| exact Z]. clear Z. apply rlt_true in L.
  set (x := mat_vec (mat_inverse_det K (mat_det K)) (vsub (vneg (rel l o1 o2 st)) vzero)).
  assert (X : mat_vec K x = vneg (rel l o1 o2 st)).
  { unfold x. rewrite mat_vec_inverse; [generalize (rel l o1 o2 st); vsolve |]. apply mat_inverse_r. intros Z. rewrite Z, Rabs_R0 in L. lra. }
  specialize (P x). assert (Y : vdot x (mat_vec K x) = - vdot x (rel l o1 o2 st)) by (rewrite X; generalize (rel l o1 o2 st), x; vsolve). lra.
Qed.
Lemma rotation_energy l st : 0 <= eps -> solid l -> ready_pair l st -> any_dynamic env l = true -> eps < Rabs (mat_det (spin l)) ->
  E (snd (rotation_step env l (invert_rotation eps (any_dynamic env l) (spin l)) vzero st)) <= E st.
Proof.
  intros He S H D L. rewrite (rotation_recv env l vzero vzero), energy_ang by exact H. unfold rotation_step. cbn [fst]. fold (turn l st). rewrite D.
  set (x := mat_vec (invert_rotation eps true (spin l)) (vsub (vneg (turn l st)) vzero)).
  assert (X : mat_vec (spin l) x = vneg (turn l st)).
  { unfold x. rewrite mat_vec_inverse; [generalize (turn l st); vsolve |]. now apply invert_rotation_r. }
  assert (P := spin_positive l x S). assert (Y : vdot x (mat_vec (spin l) x) = - vdot x (turn l st)) by (rewrite X; generalize (turn l st), x; vsolve). lra.
Qed.
Lemma ball_limit_energy j d m st : solid (bl_link j) -> ready_pair (bl_link j) st -> 0 <= bm_cone m -> bd_cbias d = 0 ->
  bd_cinv d = inverse_if_positive (vdot (bd_axis d) (mat_vec (i1_of env (bl_link j)) (bd_axis d)) + vdot (bd_axis d) (mat_vec (i2_of env (bl_link j)) (bd_axis d))) ->
  E (snd (ball_limit env j d m st)) <= E st.
Proof.
  intros S H A B C. rewrite (ball_limit_recv env j d m vzero vzero), energy_ang by exact H. rewrite mat_vec_vscale, vdot_vscale_l, vdot_vscale_r.
  rewrite vdot_vscale_l. unfold spin at 1. rewrite mat_vec_sum, vdot_vadd_r.
  assert (K := spin_positive (bl_link j) (bd_axis d) S). unfold spin in K. rewrite mat_vec_sum, vdot_vadd_r in K.
  unfold ball_limit. destruct (bl_cone j && bm_violated m); cbn [fst]; [| lra]. rewrite B, C. rewrite vdot_vsub_r.
  unfold turn. rewrite vdot_vsub_r. set (jv := vdot (bd_axis d) (cw (st (l_b1 (bl_link j)))) - vdot (bd_axis d) (cw (st (l_b2 (bl_link j))))).
  assert (R := scalar_row (bm_cone m) _ jv A K). cbv zeta in R. unfold jv in *. lra.
Qed.
Lemma axis_energy l a dl k jv st : solid l -> ready_pair l st -> k = vdot a (mat_vec (i1_of env l) a) + vdot a (mat_vec (i2_of env l) a) ->
  vdot a (turn l st) = jv -> dl * jv + / 2 * (dl * dl * k) <= 0 -> E (recv (pull l vzero vzero vzero (vscale dl a)) st) <= E st.
Proof.
  intros S H -> <- L. rewrite energy_ang by exact H. rewrite mat_vec_vscale, !vdot_vscale_l, vdot_vscale_r. unfold spin. rewrite mat_vec_sum, vdot_vadd_r. lra.
Qed.
Lemma hinge_k l a : solid l -> 0 <= vdot a (mat_vec (i1_of env l) a) + vdot a (mat_vec (i2_of env l) a).
Proof. intros S. assert (K := spin_positive l a S). unfold spin in K. now rewrite mat_vec_sum, vdot_vadd_r in K. Qed.
Lemma hinge_lower_energy j d m st : solid (hg_link j) -> ready_pair (hg_link j) st -> 0 <= hm_low m -> hd_lbias d = 0 ->
  hd_minv d = inverse_if_positive (vdot (hd_a1 d) (mat_vec (i1_of env (hg_link j)) (hd_a1 d)) + vdot (hd_a1 d) (mat_vec (i2_of env (hg_link j)) (hd_a1 d))) ->
  E (snd (hinge_lower env j d m st)) <= E st.
Proof.
  intros S H A B C. rewrite (hinge_lower_recv env j d m vzero vzero). eapply axis_energy; try eassumption; try reflexivity.
  unfold hinge_lower. destruct (hg_limit j && hm_lviol m); cbn [fst]; [| replace (hm_low m - hm_low m) with 0 by ring; lra]. rewrite B, C.
  fold (turn (hg_link j) st). rewrite (vdot_comm (turn _ _)). apply scalar_row; [exact A | now apply hinge_k].
Qed.
Lemma hinge_upper_energy j d m st : solid (hg_link j) -> ready_pair (hg_link j) st -> 0 <= hm_up m -> hd_ubias d = 0 ->
  hd_minv d = inverse_if_positive (vdot (hd_a1 d) (mat_vec (i1_of env (hg_link j)) (hd_a1 d)) + vdot (hd_a1 d) (mat_vec (i2_of env (hg_link j)) (hd_a1 d))) ->
  E (snd (hinge_upper env j d m st)) <= E st.
Proof.
  intros S H A B C. rewrite (hinge_upper_recv env j d m vzero vzero). eapply axis_energy; try eassumption; try reflexivity.
  unfold hinge_upper. destruct (hg_limit j && hm_uviol m); cbn [fst]; [| replace (hm_up m - hm_up m) with 0 by ring; lra]. rewrite B, C.
  fold (turn (hg_link j) st). rewrite (vdot_comm (turn _ _)). assert (R := scalar_row (hm_up m) _ (- vdot (hd_a1 d) (turn (hg_link j) st)) A (hinge_k _ (hd_a1 d) S)).
  cbv zeta in R. lra.
Qed.
Lemma two_rows K x j : mat2_vec K x = (- fst j, - snd j) -> fst x * fst j + snd x * snd j = - (fst x * fst (mat2_vec K x) + snd x * snd (mat2_vec K x)).
Proof. intros ->. cbn. ring. Qed.
Lemma hinge_turn_energy j d st : 0 <= eps -> solid (hg_link j) -> ready_pair (hg_link j) st -> hd_rbias d = (0, 0) ->
  hd_rinv d = invert_mass2 eps (any_dynamic env (hg_link j)) (hinge_matrix env (hg_link j) (hd_b d) (hd_c d)) ->
  E (snd (hinge_turn env j d st)) <= E st.
Proof.
  intros He S H B C. rewrite (hinge_turn_recv env j d vzero vzero), energy_ang by exact H.
  set (l := hg_link j) in *. set (K := hinge_matrix env l (hd_b d) (hd_c d)) in *. set (x := fst (hinge_turn env j d st)).
  set (jj := (vdot (hd_b d) (turn l st), vdot (hd_c d) (turn l st))).
  assert (X : x = mat2_vec (hd_rinv d) (- fst jj, - snd jj)).
  { unfold x, hinge_turn, jj, turn. cbn [fst snd]. rewrite B. cbn [fst snd]. fold l. rewrite !vdot_vsub_r. f_equal. f_equal; ring. }
  set (a := vadd (vscale (fst x) (hd_b d)) (vscale (snd x) (hd_c d))).
  assert (Q : vdot a (mat_vec (spin l) a) = fst x * fst (mat2_vec K x) + snd x * snd (mat2_vec K x)).
  { unfold a, K, hinge_matrix, mat2_vec, spin. cbn [n00 n01 n10 n11 fst snd]. rewrite !mat_vec_vadd, !mat_vec_vscale, !mat_vec_sum, !vdot_vadd_l, !vdot_vscale_l, !vdot_vadd_r, !vdot_vscale_r, !vdot_vadd_r. ring. }
  assert (T : vdot a (turn l st) = fst x * fst jj + snd x * snd jj) by (unfold a, jj; rewrite vdot_vadd_l, !vdot_vscale_l; reflexivity).
  assert (P := spin_positive l a S). rewrite T, Q. rewrite Q in P. revert X. rewrite C. unfold invert_mass2.
  assert (Zr : x = mat2_vec mat2_zero (- fst jj, - snd jj) -> E st + (fst x * fst jj + snd x * snd jj) + / 2 * (fst x * fst (mat2_vec K x) + snd x * snd (mat2_vec K x)) <= E st).
  { intros ->. unfold mat2_vec, mat2_zero. cbn. lra. }
  destruct (rlt eps (Rabs (mat2_det K))) eqn:L; [| exact Zr]. destruct (any_dynamic env l); [| exact Zr]. clear Zr. apply rlt_true in L. intros X.
  assert (Y := mat2_solve K (- fst jj, - snd jj)). rewrite <- X in Y. rewrite (two_rows K x jj); [lra |]. apply Y. intros Z. rewrite Z, Rabs_R0 in L. lra.
Qed.
Lemma slide_energy j d st : 0 <= eps -> solid (sl_link j) -> ready_pair (sl_link j) st -> slides env j d -> sd_bias d = (0, 0) ->
  frame (sd_axis d) (sd_n1 d) (sd_n2 d) ->
  sd_inv d = invert_mass2 eps (any_dynamic env (sl_link j)) (slider_matrix env (sl_link j) (sd_r1n1 d) (sd_r1n2 d) (sd_r2n1 d) (sd_r2n2 d)) ->
  E (snd (slider_slide env j d st)) <= E st.
Proof.
  intros He S H Sl B Fr C. rewrite slider_slide_recv, energy_lin by assumption.
  set (l := sl_link j) in *. set (o1 := offset1 env j) in *. set (o2 := arm2 env l) in *.
  assert (En := slider_entries env l o1 o2 _ _ _ Fr). destruct Sl as (S1 & S2 & S3 & S4 & S5 & S6). fold o1 in S1, S2, S3. fold l o2 in S4, S5, S6.
  rewrite S1, S2, S4, S5, En in C. set (K := M2 _ _ _ _) in C. clear En. set (x := fst (slider_slide env j d st)).
  set (jj := (vdot (sd_n1 d) (rel l o1 o2 st), vdot (sd_n2 d) (rel l o1 o2 st))).
  assert (X : x = mat2_vec (sd_inv d) (- fst jj, - snd jj)).
  { unfold x, slider_slide, jj, rel. cbn [fst snd]. rewrite B. cbn [fst snd]. fold l. rewrite S1, S2, S4, S5. f_equal. unfold relative.
    generalize (cv (st (l_b1 l))), (cw (st (l_b1 l))), (cv (st (l_b2 l))), (cw (st (l_b2 l))), (sd_n1 d), (sd_n2 d), o1, o2. clear. vsolve. }
  set (a := vadd (vscale (fst x) (sd_n1 d)) (vscale (snd x) (sd_n2 d))).
  assert (Q : vdot a (mat_vec (mass_matrix env l o1 o2) a) = fst x * fst (mat2_vec K x) + snd x * snd (mat2_vec K x)).
  { unfold a, K, mat2_vec. cbn [n00 n01 n10 n11 fst snd]. rewrite !mat_vec_vadd, !mat_vec_vscale, !vdot_vadd_l, !vdot_vscale_l, !vdot_vadd_r, !vdot_vscale_r. ring. }
  assert (T : vdot a (rel l o1 o2 st) = fst x * fst jj + snd x * snd jj) by (unfold a, jj; rewrite vdot_vadd_l, !vdot_vscale_l; reflexivity).
  assert (P := mass_positive l o1 o2 a S). rewrite T, Q. rewrite Q in P. revert X. rewrite C. unfold invert_mass2.
  assert (Zr : x = mat2_vec mat2_zero (- fst jj, - snd jj) -> E st + (fst x * fst jj + snd x * snd jj) + / 2 * (fst x * fst (mat2_vec K x) + snd x * snd (mat2_vec K x)) <= E st).
  { intros ->. unfold mat2_vec, mat2_zero. cbn. lra. }
  destruct (rlt eps (Rabs (mat2_det K))) eqn:L; [| exact Zr]. destruct (any_dynamic env l); [| exact Zr]. clear Zr. apply rlt_true in L. intros X.
  assert (Y := mat2_solve K (- fst jj, - snd jj)). rewrite <- X in Y. rewrite (two_rows K x jj); [lra |]. apply Y. intros Z. rewrite Z, Rabs_R0 in L. lra.
Qed.

Lemma slider_lower_energy j d m st : solid (sl_link j) -> ready_pair (sl_link j) st -> slides env j d -> 0 <= sm_low m -> sd_lbias d = 0 -> vlen2 (sd_axis d) = 1 ->
  sd_linv d = inverse_if_positive (sum_mass env (sl_link j) + vdot (sd_r1a d) (mat_vec (i1_of env (sl_link j)) (sd_r1a d)) + vdot (sd_r2a d) (mat_vec (i2_of env (sl_link j)) (sd_r2a d))) ->
  E (snd (slider_lower env j d m st)) <= E st.
Proof.
  intros S H Sl A B U C. rewrite slider_lower_recv, energy_lin by assumption. destruct Sl as (S1 & S2 & S3 & S4 & S5 & S6).
  rewrite mat_vec_vscale, !vdot_vscale_l, vdot_vscale_r. set (l := sl_link j) in *.
  assert (K := mass_positive l (offset1 env j) (arm2 env l) (sd_axis d) S). rewrite kinetic, <- vlen2_dot, U, <- S3, <- S6, Rmult_1_r in K |- *.
  unfold slider_lower. destruct (sl_limit j && sm_lviol m); cbn [fst]; [| replace (sm_low m - sm_low m) with 0 by ring; lra]. fold l. rewrite B, C.
  replace (slider_speed l (sd_axis d) (sd_r1a d) (sd_r2a d) st) with (vdot (sd_axis d) (rel l (offset1 env j) (arm2 env l) st)).
  - assert (R := scalar_row (sm_low m) _ (vdot (sd_axis d) (rel l (offset1 env j) (arm2 env l) st)) A K). cbv zeta in R. lra.
  - rewrite S3, S6. unfold slider_speed, rel, relative.
    generalize (cv (st (l_b1 l))), (cw (st (l_b1 l))), (cv (st (l_b2 l))), (cw (st (l_b2 l))), (sd_axis d), (offset1 env j), (arm2 env l). clear. vsolve.
Qed.
Lemma slider_upper_energy j d m st : solid (sl_link j) -> ready_pair (sl_link j) st -> slides env j d -> 0 <= sm_up m -> sd_ubias d = 0 -> vlen2 (sd_axis d) = 1 ->
  sd_linv d = inverse_if_positive (sum_mass env (sl_link j) + vdot (sd_r1a d) (mat_vec (i1_of env (sl_link j)) (sd_r1a d)) + vdot (sd_r2a d) (mat_vec (i2_of env (sl_link j)) (sd_r2a d))) ->
  E (snd (slider_upper env j d m st)) <= E st.
Proof.
  intros S H Sl A B U C. rewrite slider_upper_recv, energy_lin by assumption. destruct Sl as (S1 & S2 & S3 & S4 & S5 & S6).
  rewrite mat_vec_vscale, !vdot_vscale_l, vdot_vscale_r. set (l := sl_link j) in *.
  assert (K := mass_positive l (offset1 env j) (arm2 env l) (sd_axis d) S). rewrite kinetic, <- vlen2_dot, U, <- S3, <- S6, Rmult_1_r in K |- *.
  unfold slider_upper. destruct (sl_limit j && sm_uviol m); cbn [fst]; [| replace (- (sm_up m - sm_up m)) with 0 by ring; lra]. fold l. rewrite B, C.
  replace (vdot (sd_axis d) (cv (st (l_b1 l))) + vdot (sd_r1a d) (cw (st (l_b1 l))) - vdot (sd_axis d) (cv (st (l_b2 l))) - vdot (sd_r2a d) (cw (st (l_b2 l))))
    with (- vdot (sd_axis d) (rel l (offset1 env j) (arm2 env l) st)).
  - assert (R := scalar_row (sm_up m) _ (- vdot (sd_axis d) (rel l (offset1 env j) (arm2 env l) st)) A K). cbv zeta in R. lra.
  - rewrite S3, S6. unfold rel, relative.
    generalize (cv (st (l_b1 l))), (cw (st (l_b1 l))), (cv (st (l_b2 l))), (cw (st (l_b2 l))), (sd_axis d), (offset1 env j), (arm2 env l). clear. vsolve.
Qed.

(** ** A joint, and all joints *)
Lemma solve_sane j r st : of_joint eps dt env j r -> sane (keep_joint r) -> sane (keep_joint (fst (solve_joint dt env r st))).
Proof.
  destruct j as [j m | j m | j m | j m], r as [j' d m' | j' d m' | j' d m' | j' d m']; cbn [of_joint]; try contradiction; intros _; unfold solve_joint.
  - unfold ball_solve, ball_limit. cbn [sane keep_joint]. intros H. destruct (bl_cone j' && bm_violated m'); destruct (translation_step _ _ _ _ _ _ _) as [dl s2]; cbn; [apply Rmax_r | exact H].
  - destruct (fixed_solve _ _ _ _ _). cbn. auto.
  - unfold hinge_solve, hinge_lower. cbn [sane keep_joint]. intros [H1 H2].
    assert (A : 0 <= fst (if hg_limit j' && hm_lviol m' then
       (let jv := vdot (vsub (cw (st (l_b2 (hg_link j')))) (cw (st (l_b1 (hg_link j'))))) (hd_a1 d) in
        let x := Rmax (hm_low m' + hd_minv d * (- jv - hd_lbias d)) 0 in
        let dl := x - hm_low m' in
        let st := push_ang env (l_b1 (hg_link j')) (vscale (- dl) (hd_a1 d)) st in
        (x, push_ang env (l_b2 (hg_link j')) (vscale dl (hd_a1 d)) st)) else (hm_low m', st))) by (destruct (hg_limit j' && hm_lviol m'); cbn; [apply Rmax_r | exact H1]).
    destruct (if hg_limit j' && hm_lviol m' then _ else _) as [x1 s1]. cbn [fst] in A.
    assert (B : 0 <= fst (hinge_upper env j' d m' s1)) by (unfold hinge_upper; destruct (hg_limit j' && hm_uviol m'); cbn; [apply Rmax_r | exact H2]).
    destruct (hinge_upper env j' d m' s1) as [x2 s2]. cbn [fst] in B. destruct (hinge_drive _ _ _ _ _ _) as [x3 s3]. destruct (hinge_turn _ _ _ _) as [x4 s4].
    destruct (translation_step _ _ _ _ _ _ _) as [dl s5]. cbn. now split.
  - unfold slider_solve. cbn [sane keep_joint]. intros [H1 H2].
    assert (A : 0 <= fst (slider_lower env j' d m' st)) by (unfold slider_lower; destruct (sl_limit j' && sm_lviol m'); cbn; [apply Rmax_r | exact H1]).
    destruct (slider_lower env j' d m' st) as [x1 s1]. cbn [fst] in A.
    assert (B : 0 <= fst (slider_upper env j' d m' s1)) by (unfold slider_upper; destruct (sl_limit j' && sm_uviol m'); cbn; [apply Rmax_r | exact H2]).
    destruct (slider_upper env j' d m' s1) as [x2 s2]. cbn [fst] in B. destruct (slider_drive _ _ _ _ _ _) as [x3 s3]. destruct (rotation_step _ _ _ _ _) as [x4 s4].
    destruct (slider_slide _ _ _ _) as [x5 s5]. cbn. now split.
Qed.
(** What a joint needs to be in a position to hold its bodies. *)
Definition firm (j : joint) : Prop :=
  match j with
  | JBall _ _ => True
  | JFixed j _ => any_dynamic env (fx_link j) = true /\ eps < Rabs (mat_det (spin (fx_link j)))
  | JHinge _ _ => True
  | JSlider j m => any_dynamic env (sl_link j) = true /\ eps < Rabs (mat_det (spin (sl_link j))) /\ vlen2 (slider_axis env j) = 1 /\
      (sl_limit j = false \/ sm_r2a m = vcross (arm2 env (sl_link j)) (slider_axis env j))
  end.
Lemma joint_energy j r st : 0 <= eps <= 1 -> of_joint eps dt env j r -> sane (keep_joint r) -> passive j -> firm j -> solid (link_of j) -> ready_pair (link_of j) st ->
  E (snd (solve_joint dt env r st)) <= E st.
Proof.
  intros [He He1] O Sn Pa F S H. destruct j as [j m | j m | j m | j m], r as [j' d m' | j' d m' | j' d m' | j' d m']; cbn [of_joint] in O; try contradiction;
    destruct Pa as [Bm Mo]; cbn [link_of keep_joint sane firm] in *; unfold solve_joint.
  - destruct O as (-> & -> & _). unfold ball_solve. set (d := fst (ball_init eps dt env j m)).
    assert (B1 : bd_cbias d = 0) by (unfold d; cbn [ball_init fst bd_cbias]; now rewrite Bm).
    assert (B4 : bd_bias d = vzero) by (unfold d; cbn [ball_init fst bd_bias]; unfold translation_bias; now rewrite Bm).
    assert (L1 := ball_limit_energy j d m' st S H Sn B1 eq_refl). assert (R1 := ball_limit_recv env j d m' vzero vzero st).
    destruct (ball_limit env j d m' st) as [x1 s1]. cbn [fst snd] in L1, R1. assert (H1 : ready_pair (bl_link j) s1) by (rewrite R1; now apply pair_recv).
    assert (T := translation_energy (bl_link j) (arm1 env (bl_link j)) (arm2 env (bl_link j)) s1 He S H1). rewrite B4.
    change (bd_r1 d) with (arm1 env (bl_link j)). change (bd_r2 d) with (arm2 env (bl_link j)).
    change (bd_inv d) with (invert_mass eps (any_dynamic env (bl_link j)) (mass_matrix env (bl_link j) (arm1 env (bl_link j)) (arm2 env (bl_link j)))).
    destruct (translation_step _ _ _ _ _ _ _) as [dl s5]. cbn [snd] in *. lra.
  - destruct O as (-> & ->). destruct F as [Dy Fi]. unfold fixed_solve. cbn [fixed_init fst fd_r1 fd_r2 fd_inv fd_bias fd_rinv fd_rbias]. unfold translation_bias, rotation_bias. rewrite Bm.
    assert (T := translation_energy (fx_link j) (arm1 env (fx_link j)) (arm2 env (fx_link j)) st He S H).
    assert (R := translation_recv env (fx_link j) (arm1 env (fx_link j)) (arm2 env (fx_link j)) (invert_mass eps (any_dynamic env (fx_link j)) (mass_matrix env (fx_link j) (arm1 env (fx_link j)) (arm2 env (fx_link j)))) vzero st).
    destruct (translation_step _ _ _ _ _ _ _) as [dl s2]. cbn [fst snd] in *.
    assert (H2 : ready_pair (fx_link j) s2) by (rewrite R; now apply pair_recv). assert (R2 := rotation_energy (fx_link j) s2 He S H2 Dy Fi). fold (spin (fx_link j)).
    destruct (rotation_step _ _ _ _ _) as [dr s3]. cbn [snd] in *. lra.
  - destruct O as (-> & -> & _). destruct Sn as [S1 S2]. destruct Mo as [Mo _]. unfold hinge_solve. set (d := fst (hinge_init eps dt env j m)).
    assert (B1 : hd_lbias d = 0) by (unfold d; cbn [hinge_init fst hd_lbias]; now rewrite Bm).
    assert (B2 : hd_ubias d = 0) by (unfold d; cbn [hinge_init fst hd_ubias]; now rewrite Bm).
    assert (B3 : hd_rbias d = (0, 0)) by (unfold d; cbn [hinge_init fst hd_rbias]; now rewrite Bm).
    assert (B4 : hd_bias d = vzero) by (unfold d; cbn [hinge_init fst hd_bias]; unfold translation_bias; now rewrite Bm).
    assert (L1 := hinge_lower_energy j d m' st S H S1 B1 eq_refl). assert (R1 := hinge_lower_recv env j d m' vzero vzero st).
    destruct (hinge_lower env j d m' st) as [x1 s1]. cbn [fst snd] in L1, R1. assert (H1 : ready_pair (hg_link j) s1) by (rewrite R1; now apply pair_recv).
    assert (L2 := hinge_upper_energy j d m' s1 S H1 S2 B2 eq_refl). assert (R2 := hinge_upper_recv env j d m' vzero vzero s1).
    destruct (hinge_upper env j d m' s1) as [x2 s2]. cbn [fst snd] in L2, R2. assert (H2 : ready_pair (hg_link j) s2) by (rewrite R2; now apply pair_recv).
    unfold hinge_drive. rewrite Mo.
    assert (L4 := hinge_turn_energy j d s2 He S H2 B3 eq_refl). assert (R4 := hinge_turn_recv env j d vzero vzero s2).
    destruct (hinge_turn env j d s2) as [x4 s4]. cbn [fst snd] in L4, R4. assert (H4 : ready_pair (hg_link j) s4) by (rewrite R4; now apply pair_recv).
    assert (T := translation_energy (hg_link j) (arm1 env (hg_link j)) (arm2 env (hg_link j)) s4 He S H4). rewrite B4.
    change (hd_r1 d) with (arm1 env (hg_link j)). change (hd_r2 d) with (arm2 env (hg_link j)).
    change (hd_inv d) with (invert_mass eps (any_dynamic env (hg_link j)) (mass_matrix env (hg_link j) (arm1 env (hg_link j)) (arm2 env (hg_link j)))).
    destruct (translation_step _ _ _ _ _ _ _) as [dl s5]. cbn [snd] in *. lra.
  - destruct O as (-> & -> & _). destruct Sn as [S1 S2]. destruct Mo as [Mo _]. destruct F as (Dy & Fi & U & Fl). unfold slider_solve. set (d := fst (slider_init eps dt env j m)).
    assert (Sl := slider_slides eps dt env j m). fold d in Sl.
    assert (Ax : sd_axis d = slider_axis env j).
    { unfold d. cbn [slider_init fst sd_axis]. fold (slider_axis env j). unfold vnormalize. rewrite (unit_len _ U). destruct (rlt 1 eps) eqn:Q; [apply rlt_true in Q; lra |].
      destruct (slider_axis env j) as [x y z]. cbn. f_equal; field. }
    assert (U' : vlen2 (sd_axis d) = 1) by now rewrite Ax.
    assert (Fr : frame (sd_axis d) (sd_n1 d) (sd_n2 d)).
    { change (frame (sd_axis d) (orthogonal_unit (sd_axis d)) (vcross (sd_axis d) (orthogonal_unit (sd_axis d)))). assert (L := unit_len _ U').
      destruct (LinAlgProperties.C71_orthogonal (sd_axis d)) as [A B]; [lra |]. assert (A' : vlen2 (orthogonal_unit (sd_axis d)) = 1) by (rewrite <- vlen_sq, A; ring).
      destruct (cross_unit (sd_axis d) (orthogonal_unit (sd_axis d)) U' A' B) as (C & D & G). unfold frame. rewrite (vdot_comm (orthogonal_unit _) (vcross _ _)). tauto. }
    assert (B1 : sd_lbias d = 0) by (unfold d; cbn [slider_init fst sd_lbias]; now rewrite Bm).
    assert (B2 : sd_ubias d = 0) by (unfold d; cbn [slider_init fst sd_ubias]; now rewrite Bm).
    assert (B3 : sd_rbias d = vzero) by (unfold d; cbn [slider_init fst sd_rbias]; unfold rotation_bias; now rewrite Bm).
    assert (B4 : sd_bias d = (0, 0)) by (unfold d; cbn [slider_init fst sd_bias]; now rewrite Bm).
    assert (L1 : E (snd (slider_lower env j d m' st)) <= E st).
    { destruct Fl as [Fl | Fl]; [unfold slider_lower; rewrite Fl; apply Rle_refl |]. apply slider_lower_energy; try assumption.
      change (sd_linv d) with (inverse_if_positive (sum_mass env (sl_link j) + vdot (sd_r1a d) (mat_vec (i1_of env (sl_link j)) (sd_r1a d)) + vdot (sm_r2a m) (mat_vec (i2_of env (sl_link j)) (sm_r2a m)))).
      destruct Sl as (Q1 & Q2 & Q3 & Q4 & Q5 & Q6). now rewrite Fl, Q6, Ax. }
    assert (R1 := slider_lower_recv env j d m' st Sl).
    destruct (slider_lower env j d m' st) as [x1 s1]. cbn [fst snd] in L1, R1. assert (H1 : ready_pair (sl_link j) s1) by (rewrite R1; now apply pair_recv).
    assert (L2 : E (snd (slider_upper env j d m' s1)) <= E s1).
    { destruct Fl as [Fl | Fl]; [unfold slider_upper; rewrite Fl; apply Rle_refl |]. apply slider_upper_energy; try assumption.
      change (sd_linv d) with (inverse_if_positive (sum_mass env (sl_link j) + vdot (sd_r1a d) (mat_vec (i1_of env (sl_link j)) (sd_r1a d)) + vdot (sm_r2a m) (mat_vec (i2_of env (sl_link j)) (sm_r2a m)))).
      destruct Sl as (Q1 & Q2 & Q3 & Q4 & Q5 & Q6). now rewrite Fl, Q6, Ax. }
    assert (R2 := slider_upper_recv env j d m' s1 Sl).
    destruct (slider_upper env j d m' s1) as [x2 s2]. cbn [fst snd] in L2, R2. assert (H2 : ready_pair (sl_link j) s2) by (rewrite R2; now apply pair_recv).
    unfold slider_drive. rewrite Mo. rewrite B3.
    assert (L4 := rotation_energy (sl_link j) s2 He S H2 Dy Fi). assert (R4 := rotation_recv env (sl_link j) vzero vzero (invert_rotation eps (any_dynamic env (sl_link j)) (spin (sl_link j))) vzero s2).
    change (sd_rinv d) with (invert_rotation eps (any_dynamic env (sl_link j)) (spin (sl_link j))).
    destruct (rotation_step _ _ _ _ _) as [x4 s4]. cbn [fst snd] in L4, R4. assert (H4 : ready_pair (sl_link j) s4) by (rewrite R4; now apply pair_recv).
    assert (T := slide_energy j d s4 He S H4 Sl B4 Fr eq_refl).
    destruct (slider_slide _ _ _ _) as [dl s5]. cbn [snd] in *. lra.
Qed.
Definition ready_joint (j : joint) (st : velocities) : Prop := passive j /\ firm j /\ solid (link_of j) /\ ready_pair (link_of j) st.
Lemma solve_energy : forall js rs st, 0 <= eps <= 1 -> Forall2 (of_joint eps dt env) js rs -> Forall (fun r => sane (keep_joint r)) rs -> (forall j, In j js -> ready_joint j st) ->
  E (snd (solve_joints dt env rs st)) <= E st /\ Forall2 (of_joint eps dt env) js (fst (solve_joints dt env rs st)) /\
  Forall (fun r => sane (keep_joint r)) (fst (solve_joints dt env rs st)) /\
  forall j, ready_joint j st -> ready_joint j (snd (solve_joints dt env rs st)).
Proof.
  intros js rs st He H. revert st. induction H as [| j r js rs O H IH]; intros st Sn R; [split; [apply Rle_refl | split; [constructor | split; [constructor | auto]]] |].
  inversion Sn as [| ? ? Sr Srs]; subst. cbn [solve_joints].
  destruct (R j (or_introl eq_refl)) as (P & F & S & Q). assert (A := joint_energy j r st He O Sr P F S Q).
  assert (B := solve_of_joint eps dt env j r st O). assert (C := solve_sane j r st O Sr).
  assert (D : exists i, snd (solve_joint dt env r st) = recv i st).
  { clear - O. destruct j as [j m | j m | j m | j m], r as [j' d m' | j' d m' | j' d m' | j' d m']; cbn [of_joint] in O; try contradiction; unfold solve_joint.
    - unfold ball_solve. assert (A := ball_limit_recv env j' d m' vzero vzero st). destruct (ball_limit _ _ _ _ _) as [c s1]. cbn [fst snd] in A.
      assert (B := translation_recv env (bl_link j') (bd_r1 d) (bd_r2 d) (bd_inv d) (bd_bias d) s1). destruct (translation_step _ _ _ _ _ _ _) as [dl s2]. cbn [fst snd] in *.
      rewrite A, <- receive_all_app in B. eexists. exact B.
    - unfold fixed_solve.
      assert (B := translation_recv env (fx_link j') (fd_r1 d) (fd_r2 d) (fd_inv d) (fd_bias d) st). destruct (translation_step _ _ _ _ _ _ _) as [dl s2]. cbn [fst snd] in B.
      assert (A := rotation_recv env (fx_link j') vzero vzero (fd_rinv d) (fd_rbias d) s2). destruct (rotation_step _ _ _ _ _) as [c s1]. cbn [fst snd] in *.
      rewrite B, <- receive_all_app in A. eexists. exact A.
    - unfold hinge_solve. assert (A1 := hinge_lower_recv env j' d m' vzero vzero st). destruct (hinge_lower _ _ _ _ _) as [x1 s1]. cbn [fst snd] in A1.
      assert (A2 := hinge_upper_recv env j' d m' vzero vzero s1). destruct (hinge_upper _ _ _ _ _) as [x2 s2]. cbn [fst snd] in A2.
      assert (A3 := hinge_drive_recv dt env j' d m' vzero vzero s2). destruct (hinge_drive _ _ _ _ _ _) as [x3 s3]. cbn [fst snd] in A3.
      assert (A4 := hinge_turn_recv env j' d vzero vzero s3). destruct (hinge_turn _ _ _ _) as [x4 s4]. cbn [fst snd] in A4.
      assert (A5 := translation_recv env (hg_link j') (hd_r1 d) (hd_r2 d) (hd_inv d) (hd_bias d) s4). destruct (translation_step _ _ _ _ _ _ _) as [dl s5]. cbn [fst snd] in *.
      rewrite A4, A3, A2, A1, <- !receive_all_app in A5. eexists. exact A5.
    - destruct O as (-> & -> & _). set (d := fst (slider_init eps dt env j m)). assert (S := slider_slides eps dt env j m). fold d in S.
      unfold slider_solve. assert (A1 := slider_lower_recv env j d m' st S). destruct (slider_lower _ _ _ _ _) as [x1 s1]. cbn [fst snd] in A1.
      assert (A2 := slider_upper_recv env j d m' s1 S). destruct (slider_upper _ _ _ _ _) as [x2 s2]. cbn [fst snd] in A2.
      assert (A3 := slider_drive_recv dt env j d m' s2). destruct (slider_drive _ _ _ _ _ _) as [x3 s3]. cbn [fst snd] in A3.
      assert (A4 := rotation_recv env (sl_link j) vzero vzero (sd_rinv d) (sd_rbias d) s3). destruct (rotation_step _ _ _ _ _) as [x4 s4]. cbn [fst snd] in A4.
      assert (A5 := slider_slide_recv env j d s4 S). destruct (slider_slide _ _ _ _) as [dl s5]. cbn [fst snd] in *.
      rewrite A4, A3, A2, A1, <- !receive_all_app in A5. eexists. exact A5. }
  destruct (solve_joint dt env r st) as [r' s1]. cbn [fst snd] in *. destruct D as [i D].
  assert (Z : forall j, ready_joint j st -> ready_joint j s1) by (intros j0 (Z1 & Z2 & Z3 & Z4); rewrite D; split; [exact Z1 | split; [exact Z2 | split; [exact Z3 | now apply pair_recv]]]).
  destruct (IH s1 Srs) as (I1 & I2 & I3 & I4); [intros j0 Hj; apply Z, R; now right |].
  destruct (solve_joints dt env rs s1) as [rs' s2]. cbn [fst snd] in *. split; [lra |]. split; [now constructor |]. split; [now constructor |]. intros j0 Hj. now apply I4, Z.
Qed.
Lemma iterate_energy n : forall js rs st, 0 <= eps <= 1 -> Forall2 (of_joint eps dt env) js rs -> Forall (fun r => sane (keep_joint r)) rs -> (forall j, In j js -> ready_joint j st) ->
  E (snd (iterate_joints n dt env rs st)) <= E st.
Proof.
  induction n as [| n IH]; intros js rs st He O S R; cbn [iterate_joints]; [apply Rle_refl |]. destruct (solve_energy js rs st He O S R) as (A & B & C & D).
  destruct (solve_joints dt env rs st) as [rs' s']. cbn [fst snd] in *. assert (I := IH js rs' s' He B C (fun j Hj => D j (R j Hj))). lra.
Qed.
End Energy.
