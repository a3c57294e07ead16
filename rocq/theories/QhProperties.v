(** C150: the half-edges of the hull builder. *)
From Verif Require Import Base QhModel QhSpec QhProofs QhProofs2.
Open Scope Z_scope.

(** C150.  After any history of adding edges and removing edges, the list of half-edges, walked from
    its head, is that of the specification; the counter is its length, and the twin of an edge is the
    edge of the list with exchanged ends.  No assertion fails and no released edge is used, unless an
    edge is added twice or a removed edge is removed. *)
Theorem C150_list : forall os, two_ends os ->
  match sp_run os ([], O) with
  | Ok (l, _) => exists q, q_run os q_empty = Ok q /\ q_edges q = Ok (map fst l) /\ q_nb q = zlen l /\
      forall x k, In (x, k) l -> q_key q x = k /\
        q_twin q x = option_map fst (find (fun y => keqb (snd y) (flip k)) l)
  | Ub => q_run os q_empty = Ub
  | Fuel => False
  end.
Proof.
  intros os T. pose proof (run_ok os q_empty [] inv_empty (fun x y k H => match H with end) T) as G.
  change (q_new q_empty) with O in G. destruct (sp_run os ([], O)) as [[l n]| |]; [|exact G|exact G].
  destruct G as (q & R & I & _). exists q. split; [exact R|split; [apply edges_ok; exact I|split; [apply (i_nb _ _ I)|]]].
  intros x k H. split; [apply (i_key _ _ I _ _ H)|]. rewrite (find_map q l (flip k) I). apply (i_twin _ _ I). exact H.
Qed.
Print Assumptions C150_list.

(** C150: twins are mutual, have exchanged ends and are neighbours in the list; if every edge has a
    twin, every second edge of the list gives each edge of the polyhedron once. *)
Theorem C150_twins : forall os q, two_ends os -> q_run os q_empty = Ok q ->
  exists l, q_edges q = Ok l /\ NoDup l /\
    (forall x y, In x l -> q_twin q x = Some y ->
       In y l /\ q_twin q y = Some x /\ q_key q y = flip (q_key q x) /\ next_to x y l) /\
    ((forall x, In x l -> q_twin q x <> None) -> by_twos (q_twin q) l).
Proof.
  intros os q T R. destruct (run_inv os q T R) as (l & I & Pd).
  assert (A : forall x y, In x (ids l) -> q_twin q x = Some y ->
       In y (ids l) /\ q_twin q y = Some x /\ q_key q y = flip (q_key q x) /\ next_to x y (ids l)).
  { intros x y Hx Tx. apply in_ids in Hx. destruct Hx as [k Hx].
    pose proof Tx as Ty. rewrite (i_twin _ _ I _ _ Hx) in Ty. apply (i_map _ _ I) in Ty.
    destruct (i_key _ _ I _ _ Hx) as [-> _]. destruct (i_key _ _ I _ _ Ty) as [-> _].
    split; [eapply ids_in; exact Ty|split; [|split; [reflexivity|eapply Pd; [exact Hx|exact Ty]]]].
    rewrite (i_twin _ _ I _ _ Ty), flip_flip. apply (i_map _ _ I). exact Hx. }
  exists (ids l). split; [apply edges_ok; exact I|split; [apply (i_nd _ _ I)|split; [exact A|]]].
  intros C. apply (twos_ok (length (ids l))); [apply le_n|apply (i_nd _ _ I)|].
  intros x Hx. destruct (q_twin q x) as [y|] eqn:E; [|exfalso; exact (C x Hx E)].
  destruct (A x y Hx E) as (B1 & B2 & _ & B4). exists y. auto.
Qed.
Print Assumptions C150_twins.

(** C150: the destructor releases every edge that is left, each once. *)
Theorem C150_release : forall os q, two_ends os -> q_run os q_empty = Ok q ->
  exists q', q_destroy q = Ok q' /\ forall x, q_live q' x = false.
Proof.
  intros os q T R. destruct (run_inv os q T R) as (l & I & _).
  unfold q_destroy. rewrite (i_head _ _ I).
  apply (free_ok (ids l) (q_new q) None q (i_seg _ _ I) (i_nd _ _ I) (i_live _ _ I)). apply inv_length. exact I.
Qed.
Print Assumptions C150_release.

(** The edges of a tetrahedron, two of them removed in between and added again: each edge has its twin
    and the list goes by twos. *)
Example C150_case :
  let os := [QAdd 0 1; QAdd 1 2; QAdd 2 0; QAdd 1 0; QAdd 0 3; QAdd 3 1; QDel 1; QDel 3;
             QAdd 1 2; QAdd 1 0; QAdd 2 1; QAdd 1 3; QAdd 3 2; QAdd 0 2; QAdd 2 3; QAdd 3 0] in
  two_ends os /\
  match q_run os q_empty with
  | Ok q => match q_edges q with
            | Ok l => map (q_key q) l = [(2, 3); (3, 2); (2, 1); (1, 2); (1, 3); (3, 1); (3, 0); (0, 3); (0, 2); (2, 0); (1, 0); (0, 1)]
            | _ => False end
  | _ => False
  end.
Proof.
  cbv zeta. split.
  - intros a b H. simpl in H. repeat (destruct H as [H|H]; [inversion H; lia|]). destruct H.
  - vm_compute. reflexivity.
Qed.
