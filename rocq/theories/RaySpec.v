(** What a ray cast through the tree means. *)
From Verif Require Import Base Decimal TreeModel TreeSpec RayModel.

Section Spec.
Context {T : Type} (o : decimal_ops T).

(** The point at fraction [t] of the ray lies in the box for some [t] between 0 and [m]
    (exact arithmetic). *)
Definition ray_point (ry : ray (T:=T)) (t : T) : vec T := vadd o (r_origin ry) (vscale o (r_dir ry) t).
Definition ray_meets (ry : ray (T:=T)) (m : T) (b : box T) : Prop :=
  exists t, d_le o (d_zero o) t = true /\ d_le o t m = true /\ point_in o (ray_point ry t) b.

(** On one axis: the ray is not parallel to the faces or its origin is in none of the two planes. *)
Definition off_face (mn mx og d : T) : Prop :=
  d_eq0 o d = false \/
  (d_lt o mn og = true \/ d_lt o og mn = true) /\ (d_lt o mx og = true \/ d_lt o og mx = true).
(** The ray does not run inside the plane of a face of the box. *)
Definition off_faces (ry : ray (T:=T)) (b : box T) : Prop :=
  off_face (vx (b_min b)) (vx (b_max b)) (vx (r_origin ry)) (vx (r_dir ry)) /\
  off_face (vy (b_min b)) (vy (b_max b)) (vy (r_origin ry)) (vy (r_dir ry)) /\
  off_face (vz (b_min b)) (vz (b_max b)) (vz (r_origin ry)) (vz (r_dir ry)).

(** What the tree does with the answer [f] of the callback: a positive fraction shortens the ray. *)
Definition shorten (m f : T) : T := if d_lt o (d_zero o) f && d_lt o f m then f else m.

(** The dialogue with the callback: the objects offered, each with the current maximal fraction
    and the answer.  An answer equal to 0 is the last. *)
Section Trace.
Context {St : Type}.
Variable callback : St -> Z -> T -> St * T.
Fixpoint dialogue (s : St) (m : T) (tr : list (Z * T * T)) (s' : St) (m' : T) : Prop :=
  match tr with
  | [] => s' = s /\ m' = m
  | (id, m1, f) :: tr' => m1 = m /\ exists s1, callback s id m = (s1, f) /\
      (if d_eq0 o f then tr' = [] /\ s' = s1 /\ m' = m else dialogue s1 (shorten m f) tr' s' m')
  end.
(** The callback and a record of what it was offered. *)
Definition recording (s : St * list (Z * T * T)) (id : Z) (m : T) : (St * list (Z * T * T)) * T :=
  let (s1, f) := callback (fst s) id m in ((s1, snd s ++ [(id, m, f)]), f).
End Trace.
Definition offered (tr : list (Z * T * T)) : list Z := map (fun e => fst (fst e)) tr.

(** A callback that keeps the closest hit: object [id] is hit at [h id]; ties are free; a rejected
    object is answered with the negative number [ign]. *)
Definition closest (h : Z -> option T) (tie : Z -> bool) (ign : T) (s : option (Z * T)) (id : Z) (m : T) : option (Z * T) * T :=
  match h id with
  | Some f => if d_lt o f m || (tie id && d_le o f m) then (Some (id, f), f) else (s, ign)
  | None => (s, ign)
  end.
End Spec.
