(** C150 for closed polyhedra: the faces of the polyhedron are added one after the other. *)
From Verif Require Import Base QhModel QhSpec QhProofs QhProofs2 QhProperties.
From Coq Require Import Permutation Lia.
Open Scope Z_scope.

(** The directed edges of a face with the vertices [vs], in the order of addFace. *)
Definition face_edges (vs : list Z) : list (Z * Z) :=
  match vs with [] => [] | v :: r => combine vs (r ++ [v]) end.
Definition poly_edges (fs : list (list Z)) : list (Z * Z) := flat_map face_edges fs.
Definition add_faces (fs : list (list Z)) : list qop := map (fun k => QAdd (fst k) (snd k)) (poly_edges fs).

(** Every directed edge belongs to one face, and its reverse to another. *)
Definition closed_poly (fs : list (list Z)) : Prop :=
  NoDup (poly_edges fs) /\ forall a b, In (a, b) (poly_edges fs) -> a <> b /\ In (b, a) (poly_edges fs).

Lemma sp_add_all : forall es l n, NoDup (es ++ map snd l) ->
  exists l' n', sp_run (map (fun k => QAdd (fst k) (snd k)) es) (l, n) = Ok (l', n') /\
    Permutation (map snd l') (es ++ map snd l).
Proof.
  induction es as [|[a b] es IH]; intros l n N.
  - exists l, n. split; [reflexivity|apply Permutation_refl].
  - simpl app in N. inversion N as [|? ? Nk N']; subst.
    cbn [map sp_run sp_step fst snd].
    assert (E : existsb (fun y => keqb (snd y) (a, b)) l = false).
    { destruct (existsb (fun y => keqb (snd y) (a, b)) l) eqn:E; [|reflexivity].
      apply existsb_exists in E. destruct E as (y & Hy & K). apply keqb_spec in K. exfalso. apply Nk.
      apply in_or_app. right. rewrite <- K. apply in_map. exact Hy. }
    rewrite E. cbn [bind].
    set (l1 := match before (b, a) (n, (a, b)) l with Some l' => l' | None => (n, (a, b)) :: l end).
    assert (P : Permutation (map snd l1) ((a, b) :: map snd l)).
    { unfold l1. pose proof (before_split (b, a) (n, (a, b)) l) as B.
      destruct (before (b, a) (n, (a, b)) l) as [m|]; [|apply Permutation_refl].
      destruct B as (c & y & d & -> & -> & _). rewrite !map_app. simpl. apply Permutation_sym, Permutation_middle. }
    assert (Q : Permutation (es ++ map snd l1) ((a, b) :: es ++ map snd l)).
    { eapply Permutation_trans; [apply Permutation_app_head; exact P|]. apply Permutation_sym, Permutation_middle. }
    destruct (IH l1 (S n)) as (l' & n' & R & W).
    + eapply Permutation_NoDup; [apply Permutation_sym; exact Q|exact N].
    + exists l', n'. split; [exact R|]. eapply Permutation_trans; [exact W|exact Q].
Qed.

(** C150: adding the faces of a closed polyhedron succeeds; its half-edges are then listed each
    once, two by two with their twins. *)
Theorem C150_closed : forall fs, closed_poly fs ->
  exists q l, q_run (add_faces fs) q_empty = Ok q /\ q_edges q = Ok l /\
    q_nb q = zlen (poly_edges fs) /\ Permutation (map (q_key q) l) (poly_edges fs) /\ by_twos (q_twin q) l.
Proof.
  intros fs [N C]. unfold add_faces. set (es := poly_edges fs) in *.
  set (os := map (fun k => QAdd (fst k) (snd k)) es).
  assert (T : two_ends os).
  { intros a b H. apply in_map_iff in H. destruct H as ([c d] & E & H). simpl in E. inversion E; subst. apply (C a b H). }
  destruct (sp_add_all es [] O) as (l & n & R & P); [rewrite app_nil_r; exact N|].
  simpl map in P. rewrite app_nil_r in P. fold os in R.
  pose proof (run_ok os q_empty [] inv_empty (fun x y k H => match H with end) T) as G.
  change (q_new q_empty) with O in G. rewrite R in G. destruct G as (q & RQ & I & _).
  exists q, (ids l). split; [exact RQ|split; [apply edges_ok; exact I|split; [|split]]].
  - rewrite (i_nb _ _ I). unfold zlen. rewrite <- (Permutation_length P), map_length. reflexivity.
  - replace (map (q_key q) (ids l)) with (map snd l); [exact P|].
    unfold ids. rewrite map_map. apply map_ext_in. intros [x k] H. simpl. symmetry. apply (i_key _ _ I _ _ H).
  - destruct (C150_twins os q T RQ) as (l0 & E0 & _ & _ & B). rewrite (edges_ok q l I) in E0. inversion E0; subst l0.
    apply B. intros x Hx. apply in_ids in Hx. destruct Hx as [[a b] Hx]. rewrite (i_twin _ _ I _ _ Hx).
    assert (K : In (b, a) (map snd l)).
    { apply (Permutation_in _ (Permutation_sym P)). apply C. apply (Permutation_in _ P). apply (in_map snd) in Hx. exact Hx. }
    apply in_map_iff in K. destruct K as ([y k] & E & Hy). simpl in E. subst k.
    change (flip (a, b)) with (b, a). apply (i_map _ _ I) in Hy. rewrite Hy. discriminate.
Qed.
Print Assumptions C150_closed.

(** A pyramid with a square base. *)
Example C150_closed_case : closed_poly [[0; 1; 2; 3]; [1; 0; 4]; [2; 1; 4]; [3; 2; 4]; [0; 3; 4]].
Proof.
  split.
  - cbn. repeat (constructor; [cbn; intros H; repeat (destruct H as [H|H]; [discriminate H|]); exact H|]). constructor.
  - intros a b H. cbn in H. repeat (destruct H as [H|H]; [inversion H; subst; split; [discriminate|cbn; tauto]|]). destruct H.
Qed.
