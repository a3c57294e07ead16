(** C152: the edges around the faces of the hull builder. *)
From Verif Require Import Base QhModel QrModel QrSpec QrProofs.
From Coq Require Import Lia.

(** C152.  After any history of adding and removing faces, going round a face visits exactly the
    edges made for it, each once and in the order of its vertices; the two links are inverse; and the
    edges not released are those of the faces that are there.  Undefined only are faces with less than
    three vertices and the removal of a face that is not there. *)
Theorem C152_rings : forall os,
  match rs_run os ([], O, O) with
  | Ok (l, _, _) => exists s, r_run os r_empty = Ok s /\
      (forall g, In g l -> ring_edges (f_id g) s = Ok (f_edges g)) /\
      (forall x y, r_live s x = true -> r_live s y = true -> (r_next s x = Some y <-> r_prev s y = Some x)) /\
      (forall x, r_live s x = true <-> exists g, In g l /\ In x (f_edges g))
  | Ub => r_run os r_empty = Ub
  | Fuel => False
  end.
Proof.
  intros os. pose proof (rrun_ok os r_empty [] rinv_empty) as G.
  change (r_newe r_empty) with O in G. change (r_newf r_empty) with O in G.
  destruct (rs_run os ([], O, O)) as [[[l ne] nf]| |]; [|exact G|exact G].
  destruct G as (s & R & I). exists s. split; [exact R|split; [|split]].
  - intros g Hg. eapply walk_face; eassumption.
  - intros x y Lx Ly. apply (k_live _ _ I) in Lx. apply (k_live _ _ I) in Ly.
    destruct Lx as (g & Hg & Cg), Ly as (h & Hh & Ch).
    rewrite (proj1 (k_link _ _ I g x Hg Cg)), (proj2 (k_link _ _ I h y Hh Ch)).
    destruct (k_face _ _ I g Hg) as (_ & Ng & _). destruct (k_face _ _ I h Hh) as (_ & Nh & _).
    split; intros E; injection E as E.
    + assert (h = g).
      { apply (k_dis _ _ I h g y Hh Hg Ch). unfold covers, nexte in *. destruct (Nat.eqb_spec (S x) (f_first g + f_len g)); lia. }
      subst h. f_equal. unfold covers, nexte, preve in *.
      destruct (Nat.eqb_spec (S x) (f_first g + f_len g)), (Nat.eqb_spec y (f_first g)); lia.
    + assert (h = g).
      { apply (k_dis _ _ I h g x Hh Hg); [|exact Cg]. unfold covers, preve in *. destruct (Nat.eqb_spec y (f_first h)); lia. }
      subst h. f_equal. unfold covers, nexte, preve in *.
      destruct (Nat.eqb_spec (S x) (f_first g + f_len g)), (Nat.eqb_spec y (f_first g)); lia.
  - intros x. rewrite (k_live _ _ I). unfold covers, f_edges. split; intros (g & Hg & Q); exists g; (split; [exact Hg|]).
    + apply in_seq. exact Q.
    + apply in_seq in Q. exact Q.
Qed.
Print Assumptions C152_rings.

(** A triangle, a square and a pentagon; the square is removed. *)
Example C152_case :
  match r_run [RAdd 3; RAdd 4; RAdd 5; RDel 1] r_empty with
  | Ok s => ring_edges 0 s = Ok [0; 1; 2]%nat /\ ring_edges 1 s = Ub /\ ring_edges 2 s = Ok [7; 8; 9; 10; 11]%nat
            /\ map (r_live s) (seq 0 12) = [true; true; true; false; false; false; false; true; true; true; true; true]
  | _ => False
  end.
Proof. vm_compute. repeat split; reflexivity. Qed.
