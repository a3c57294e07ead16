(** Vocabulary for the statements about contact manifolds, independent of how the code selects points. *)
From Coq Require Import List ZArith Reals.
From Verif Require Import Base VecModel ManifoldModel.
Import ListNotations.
Local Open Scope R_scope.

(** The point with number [k] of an array of candidate points. *)
Definition pt (pts : list cinfo) (k : nat) : cinfo := nth k pts (CInfo vzero vzero vzero 0).
Definition pos (pts : list cinfo) (k : nat) : vec3 := i_p1 (pt pts k).
Definition depth (pts : list cinfo) (k : nat) : R := i_depth (pt pts k).
Definition gap (pts : list cinfo) (a b : nat) : R := vlen (vsub (pos pts b) (pos pts a)).
(** Twice the area of the triangle [p], [a], [b], signed by its winding seen from the tip of [n]. *)
Definition twice_area (n a b p : vec3) : R := vdot (vcross (vsub a p) (vsub b p)) n.
(** All numbers of a manifold are numbers of candidate points. *)
Definition valid (pts : list cinfo) (m : list nat) : Prop := Forall (fun k => (k < length pts)%nat) m.
(** Every point of [a] has a point of [b] at least as deep. *)
Definition no_deeper (pts : list cinfo) (a b : list nat) : Prop :=
  forall k, In k a -> exists l, In l b /\ depth pts k <= depth pts l.
Definition man (mans : list (list nat)) (k : nat) : list nat := nth k mans [].

(** The contact points found by the narrow phase for a pair. *)
Definition candidates (infos : list ninfo) (id : Z) : list cinfo :=
  concat (map n_points (filter (fun i => (n_colliding i && Z.eqb (n_pair i) id)%bool) infos)).
(** What a contact pair of a frame shows to the user: its manifolds and its contact points; the points of a manifold. *)
Definition manifolds_of (f : frame) (c : cpair) : list dman := firstn (c_nm c) (skipn (c_m0 c) (f_mans f)).
Definition points_of (f : frame) (c : cpair) : list dpoint := firstn (c_np c) (skipn (c_p0 c) (f_points f)).
Definition points_in (f : frame) (m : dman) : list dpoint := firstn (y_np m) (skipn (y_p0 m) (f_points f)).

(** A frame whose ranges lie in its arrays, without empty manifolds. *)
Definition sound (f : frame) : Prop :=
  (forall c, In c (f_pairs f) -> c_m0 c + c_nm c <= length (f_mans f) /\ c_p0 c + c_np c <= length (f_points f))%nat /\
  (forall m, In m (f_mans f) -> 0 < y_np m /\ y_p0 m + y_np m <= length (f_points f))%nat.
(** What a frame shows for the pair with identifier [id]. *)
Definition points_for (f : frame) (id : Z) : list dpoint :=
  match find (fun c => Z.eqb (c_id c) id) (f_pairs f) with Some c => points_of f c | None => [] end.
Definition manifolds_for (f : frame) (id : Z) : list dman :=
  match find (fun c => Z.eqb (c_id c) id) (f_pairs f) with Some c => manifolds_of f c | None => [] end.
Definition first_match {A : Type} (P : A -> Prop) (l : list A) (r : A) : Prop := exists a b, l = a ++ r :: b /\ P r /\ Forall (fun x => ~ P x) a.
(** Positions on the first shape at distance at most [per]. *)
Definition close (per : R) (p q : dpoint) : Prop := vlen (vsub (i_p1 (d_info p)) (i_p1 (d_info q))) <= per.
(** [q'] is [q] with the impulse of the first close point of [l], or [q] itself if no point of [l] is close. *)
Definition point_inherits (per : R) (l : list dpoint) (q q' : dpoint) : Prop :=
  (exists r, first_match (close per q) l r /\ q' = DPoint (d_info q) (d_imp r) (d_rest r)) \/ (Forall (fun r => ~ close per q r) l /\ q' = q).
Definition first_normal (f : frame) (m : dman) : vec3 := match points_in f m with [] => vzero | p :: _ => i_n (d_info p) end.
Definition man_inherits (cosmin : R) (old : frame) (l : list dman) (n : vec3) (m m' : dman) : Prop :=
  (exists r, first_match (fun r => cosmin <= vdot (first_normal old r) n) l r /\
     m' = DMan (y_k1 m) (y_k2 m) (y_p0 m) (y_np m) (y_v1 r) (y_v2 r) (y_f1 r) (y_f2 r) (y_tw r)) \/
  (Forall (fun r => ~ cosmin <= vdot (first_normal old r) n) l /\ m' = m).

(** Results of the narrow phase: positive penetration depths below [top], and one result only for a pair of convex shapes. *)
Definition well_formed (top : R) (infos : list ninfo) : Prop :=
  (forall i p, In i infos -> In p (n_points i) -> 0 < i_depth p < top) /\
  (forall i j, In i infos -> In j infos -> n_pair i = n_pair j -> n_convex i = n_convex j) /\
  (forall a b i, infos = a ++ i :: b -> n_convex i = true -> forall j, In j (a ++ b) -> n_pair j <> n_pair i).
(** The pair [id] has a collision. *)
Definition met (l : list ninfo) (id : Z) : Prop := exists i, In i l /\ n_colliding i = true /\ n_pair i = id.
(** Frames met between updates: an update creates contacts and inherits impulses, then the solver may change impulses and friction. *)
Definition same_geometry (f g : frame) : Prop :=
  f_pairs g = f_pairs f /\ map d_info (f_points g) = map d_info (f_points f) /\
  map (fun m => (y_k1 m, y_k2 m, y_p0 m, y_np m)) (f_mans g) = map (fun m => (y_k1 m, y_k2 m, y_p0 m, y_np m)) (f_mans f).
Definition good_order (infos : list ninfo) (order : list nat) : Prop :=
  NoDup order /\ forall x, In x order -> (x < length (nodup Z.eq_dec (map n_pair (filter n_colliding infos))))%nat.
Inductive reachable (top per cosmin : R) : frame -> Prop :=
| reach_start : reachable top per cosmin (Frame [] [] [])
| reach_update : forall rot infos order f f' g, reachable top per cosmin f -> well_formed top infos -> good_order infos order ->
    update_contacts top per cosmin rot infos order f = Ok f' -> same_geometry f' g -> reachable top per cosmin g.
