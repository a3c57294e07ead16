(** Specification of islands, independent of the search of [IslandModel]. *)
From Verif Require Import Base IslandModel.
Open Scope Z_scope.

Section Spec.
Variable g : graph.

Definition pair_at (k : Z) (p : cpair) : Prop := 0 <= k /\ nth_error (g_cpairs g) (Z.to_nat k) = Some p.
(** A contact between two simulation colliders of [x] and [y], in either order, or a joint. *)
Definition ends (a b x y : Z) : Prop := (a = x /\ b = y) \/ (a = y /\ b = x).
Definition linked (x y : Z) : Prop :=
  (exists k p, pair_at k p /\ cp_sim p = true /\ ends (cp_b1 p) (cp_b2 p) x y) \/
  (exists j p, g_joint g j = Some p /\ ends (jp_b1 p) (jp_b2 p) x y).
(** Chains of contacts and joints all of whose bodies after the first are not static. *)
Inductive chain (x : Z) : Z -> Prop :=
| chain_refl : chain x x
| chain_step : forall y z, chain x y -> linked y z -> g_static g z = false -> chain x z.

(** The data of a world: [bodies] are the rigid bodies of the world; contacts and joints are between
    two different bodies of the world; a body that owns a simulation collider says so; the array of
    joints of a body lists its joints. *)
Record graph_ok (bodies : list Z) : Prop := {
  go_pair : forall k p, pair_at k p -> In (cp_b1 p) bodies /\ In (cp_b2 p) bodies /\ cp_b1 p <> cp_b2 p;
  go_hassim : forall k p, pair_at k p -> cp_sim p = true -> g_hassim g (cp_b1 p) = true /\ g_hassim g (cp_b2 p) = true;
  go_joint : forall j p, g_joint g j = Some p -> In (jp_b1 p) bodies /\ In (jp_b2 p) bodies /\ jp_b1 p <> jp_b2 p;
  go_joints_of : forall b j, In j (g_joints_of g b) <-> exists p, g_joint g j = Some p /\ (jp_b1 p = b \/ jp_b2 p = b)
}.

Definition sumz (l : list Z) : Z := fold_right Z.add 0 l.
(** Numbers of manifolds of the pairs of a list of pair indices. *)
Definition nman_of (k : Z) : Z := match nth_error (g_cpairs g) (Z.to_nat k) with Some p => cp_nman p | None => 0 end.
(** The pair [k] is a contact to solve for the bodies [l]. *)
Definition contact_of (l : list Z) (k : Z) : Prop :=
  exists p, pair_at k p /\ cp_sim p = true /\
    ((In (cp_b1 p) l /\ g_static g (cp_b1 p) = false) \/ (In (cp_b2 p) l /\ g_static g (cp_b2 p) = false)).
End Spec.
