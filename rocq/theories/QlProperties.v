(** C151: the faces and vertices of the hull builder. *)
From Verif Require Import Base QhModel QlModel QlSpec QhProofs QlProofs.
Open Scope Z_scope.

(** C151.  After any history of adding and removing faces (or vertices), the list walked from its
    head has exactly those added and not removed, the newest first, and the counter is its length;
    only removing one that is not there is undefined. *)
Theorem C151_list : forall k os,
  match ls_run os ([], O) with
  | Ok (l, _) => exists d, d_run k os d_empty = Ok d /\ dl_list d = Ok l /\ d_nb d = zlen l
  | Ub => d_run k os d_empty = Ub
  | Fuel => False
  end.
Proof.
  intros k os. pose proof (drun_ok k os d_empty [] dinv_empty) as G. change (d_new d_empty) with O in G.
  destruct (ls_run os ([], O)) as [[l n]| |]; [|exact G|exact G].
  destruct G as (d & R & I). exists d. split; [exact R|split; [|apply (j_nb _ _ I)]].
  unfold dl_list. rewrite (j_head _ _ I).
  apply (dwalk_ok d l (d_new d) None (j_seg _ _ I)); [intros x; apply (j_live _ _ I)|apply dinv_length; exact I].
Qed.
Print Assumptions C151_list.

(** C151: the destructor releases every one that is left, each once. *)
Theorem C151_release : forall k os d, d_run k os d_empty = Ok d ->
  exists d', dl_destroy d = Ok d' /\ forall x, d_live d' x = false.
Proof.
  intros k os d R. pose proof (drun_ok k os d_empty [] dinv_empty) as G.
  destruct (ls_run os ([], d_new d_empty)) as [[l n]| |]; [|congruence|destruct G].
  destruct G as (d' & R' & I). rewrite R in R'. inversion R'; subst.
  unfold dl_destroy. rewrite (j_head _ _ I).
  apply (dfree_ok l (d_new d') None d' (j_seg _ _ I) (j_nd _ _ I) (j_live _ _ I)). apply dinv_length. exact I.
Qed.
Print Assumptions C151_release.

(** The first, the last and one in the middle are removed. *)
Example C151_case :
  forall k, match d_run k [DAdd; DAdd; DAdd; DAdd; DAdd; DDel 4; DDel 2; DDel 0; DAdd] d_empty with
  | Ok d => dl_list d = Ok [5; 3; 1]%nat /\ d_nb d = 3
  | _ => False
  end.
Proof. intros [|]; vm_compute; split; reflexivity. Qed.
