(** What a client of the entity manager does and observes. *)
From Verif Require Import Base EntityModel.
Open Scope Z_scope.

(** Events, newest first. *)
Inductive event : Type := Created (id : Z) | Destroyed (id : Z).

Definition is_destroyed (e : event) : bool := match e with Destroyed _ => true | _ => false end.
(** Number of destructions in a trace. *)
Definition destructions (tr : list event) : Z := zlen (filter is_destroyed tr).

(** The identifiers created and not yet destroyed. *)
Fixpoint alive (tr : list event) : list Z :=
  match tr with
  | [] => []
  | Created id :: tr' => id :: alive tr'
  | Destroyed id :: tr' => remove Z.eq_dec id (alive tr')
  end.

(** Histories: only live entities are destroyed, and there are never more than
    2^24 - 1025 live entities when one is created. *)
Inductive entity_history : list event -> manager -> Prop :=
| eh_init : entity_history [] manager_init
| eh_create : forall tr m m' id, entity_history tr m -> zlen (alive tr) + 1025 <= 16777216 ->
    create_entity m = Ok (m', id) -> entity_history (Created id :: tr) m'
| eh_destroy : forall tr m m' id, entity_history tr m -> In id (alive tr) ->
    destroy_entity id m = Ok m' -> entity_history (Destroyed id :: tr) m'.
