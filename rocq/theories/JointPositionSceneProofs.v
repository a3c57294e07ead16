(** One joint among joints of other bodies. *)
From Coq Require Import List Reals Lra Psatz Bool Arith.
From Verif Require Import VecModel VecProofs ContactModel JointModel JointSpec.
From Verif Require Import BodyModel JointPositionModel JointPositionSpec JointPositionProofs JointPositionLawProofs.
Import ListNotations.
Local Open Scope R_scope.

Section Among.
Variables (eps : R) (env : pbodies) (l : link) (K : ready -> Prop).
Hypothesis HK : forall r, K r -> patient r /\ corrects r = true /\ link_of (keep_joint r) = l.
Hypothesis HC : forall r ps, K r -> K (fst (correct_one eps env r ps)).
Definition among (rs : list ready) : Prop := exists a r b, rs = a ++ r :: b /\ K r /\ Forall patient a /\ Forall (apart_from l) (a ++ b).
Definition alike (ps ps' : poses) : Prop := ps (l_b1 l) = ps' (l_b1 l) /\ ps (l_b2 l) = ps' (l_b2 l).
Lemma leave_alike rs ps : Forall (apart_from l) rs -> alike (snd (correct_joints eps env rs ps)) ps.
Proof. intros F. rewrite Forall_forall in F. split; apply joints_leave; intros r R C; now apply (F r R C). Qed.
Lemma among_step rs ps : among rs -> let '(rs', ps') := correct_joints eps env rs ps in
  among rs' /\ exists r ps1, K r /\ alike ps1 ps /\ alike ps' (snd (correct_one eps env r ps1)).
Proof.
  intros (a & r & b & -> & Hr & Pa & Ab). apply Forall_app in Ab as [Fa Fb]. rewrite joints_app by exact Pa.
  assert (La := leave_alike a ps Fa). assert (Pa' := joints_patient eps env a Pa ps). assert (Fa' := joints_apart eps env l a ps Fa). destruct (correct_joints eps env a ps) as [a' ps1]. cbn [fst snd] in *.
  rewrite joints_cons by apply (HK r Hr). assert (Hr' := HC r ps1 Hr). destruct (correct_one eps env r ps1) as [r' ps2] eqn:E. cbn [fst] in Hr'.
  assert (Lb := leave_alike b ps2 Fb). assert (Fb' := joints_apart eps env l b ps2 Fb). destruct (correct_joints eps env b ps2) as [b' ps3]. cbn [fst snd] in *.
  split; [exists a', r', b'; split; [reflexivity | split; [exact Hr' | split; [exact Pa' | apply Forall_app; now split]]] |].
  exists r, ps1. rewrite E. cbn [snd]. auto.
Qed.
Lemma among_all n rs ps : among rs -> among (fst (correct_positions n eps env rs ps)).
Proof.
  intros A. induction n as [| n IH]; [exact A |]. rewrite positions_last. destruct (correct_positions n eps env rs ps) as [rs1 ps1]. cbn [fst] in *. assert (T := among_step rs1 ps1 IH). destruct (correct_joints eps env rs1 ps1). apply T.
Qed.
Lemma among_next n rs ps : among rs -> exists r ps1, K r /\ alike ps1 (snd (correct_positions n eps env rs ps)) /\ alike (snd (correct_positions (S n) eps env rs ps)) (snd (correct_one eps env r ps1)).
Proof.
  intros A. assert (B := among_all n rs ps A). rewrite positions_last. destruct (correct_positions n eps env rs ps) as [rs1 ps1]. cbn [fst snd] in *. assert (T := among_step rs1 ps1 B). destruct (correct_joints eps env rs1 ps1) as [rs2 ps2]. apply T.
Qed.
End Among.
Lemma alike_unit l ps ps' : alike l ps ps' -> unit_pose ps' (l_b1 l) /\ unit_pose ps' (l_b2 l) -> unit_pose ps (l_b1 l) /\ unit_pose ps (l_b2 l).
Proof. intros [A B]. unfold unit_pose. now rewrite A, B. Qed.
Lemma alike_opening env l ps ps' : alike l ps ps' -> opening env ps l = opening env ps' l.
Proof. intros [A B]. unfold opening, point_at. now rewrite A, B. Qed.
Lemma alike_twist l diff ps ps' : alike l ps ps' -> twist_at ps l diff = twist_at ps' l diff.
Proof. intros [A B]. unfold twist_at. now rewrite A, B. Qed.
Lemma alike_axes j ps ps' : alike (hg_link j) ps ps' -> hinge_axis1 ps j = hinge_axis1 ps' j /\ hinge_axis2 ps j = hinge_axis2 ps' j.
Proof. intros [A B]. unfold hinge_axis1, hinge_axis2. now rewrite A, B. Qed.
Definition is_fixed (j : fixed) (r : ready) : Prop := exists d m, r = RFixed j d m.
Definition is_hinge (j : hinge) (r : ready) : Prop := exists d m, r = RHinge j d m.
Lemma fixed_kind eps env j : l_baumgarte (fx_link j) = false ->
  (forall r, is_fixed j r -> patient r /\ corrects r = true /\ link_of (keep_joint r) = fx_link j) /\ (forall r ps, is_fixed j r -> is_fixed j (fst (correct_one eps env r ps))).
Proof.
  intros B. split.
  - intros r (d & m & ->). split; [exact I |]. split; [| reflexivity]. unfold corrects. cbn. now rewrite B.
  - intros r ps (d & m & ->). cbn. rewrite B. now exists d, m.
Qed.
Lemma hinge_kind eps env j : l_baumgarte (hg_link j) = false ->
  (forall r, is_hinge j r -> patient r /\ corrects r = true /\ link_of (keep_joint r) = hg_link j) /\ (forall r ps, is_hinge j r -> is_hinge j (fst (correct_one eps env r ps))).
Proof.
  intros B. split.
  - intros r (d & m & ->). split; [exact I |]. split; [| reflexivity]. unfold corrects. cbn. now rewrite B.
  - intros r ps (d & m & ->). cbn [correct_one]. rewrite B. destruct (hinge_correct eps env j d m ps) as [[d' m'] ps']. now exists d', m'.
Qed.
