(** Model of AABB::testRayIntersect (include/reactphysics3d/collision/shapes/AABB.h:285-315) with
    the infinities and not-a-number values it relies on.

    Finite operations are those of the decimal instance together with a division [d_inv]; overflow
    of finite operations is not modelled. *)
From Verif Require Import Base Decimal TreeModel.

(** IEEE values. *)
Inductive ext (T : Type) : Type := NaN | NInf | Fin (x : T) | PInf.
Arguments NaN {T}. Arguments NInf {T}. Arguments Fin {T}. Arguments PInf {T}.

Section Model.
Context {T : Type} (o : decimal_ops T) (d_inv : T -> T).

(** The IEEE comparison: false when a side is not a number. *)
Definition elt (a b : ext T) : bool :=
  match a, b with
  | NaN, _ | _, NaN => false
  | NInf, NInf => false | NInf, _ => true
  | Fin _, NInf => false | Fin x, Fin y => d_lt o x y | Fin _, PInf => true
  | PInf, _ => false
  end.
Definition ele (a b : ext T) : bool :=
  match a, b with
  | NaN, _ | _, NaN => false
  | NInf, _ => true
  | Fin _, NInf => false | Fin x, Fin y => d_le o x y | Fin _, PInf => true
  | PInf, PInf => true | PInf, _ => false
  end.

(** std::min and std::max. *)
Definition emin (a b : ext T) : ext T := if elt b a then b else a.
Definition emax (a b : ext T) : ext T := if elt a b then b else a.

(** [x * (1 / d)].  [neg]: a zero [d] is the negative zero. *)
Definition times_inverse (x d : T) (neg : bool) : ext T :=
  if d_eq0 o d then
    if d_lt o (d_zero o) x then (if neg then NInf else PInf)
    else if d_lt o x (d_zero o) then (if neg then PInf else NInf)
    else NaN
  else Fin (d_mul o x (d_inv d)).

(** A ray: DynamicAABBTree.cpp:689-692 (origin, direction, signs of its zeros). *)
Record ray : Type := mk_ray { r_origin : vec T; r_dir : vec T; r_neg : bool * bool * bool }.

(** AABB.h:299-300 and 308-309: the two fractions of one slab. *)
Definition slab (mn mx og d : T) (neg : bool) : ext T * ext T :=
  (times_inverse (d_sub o mn og) d neg, times_inverse (d_sub o mx og) d neg).

(** AABB.h:285-315 testRayIntersect. *)
Definition test_ray (ry : ray) (b : box T) (m : T) : bool :=
  let '(nx, ny, nz) := r_neg ry in
  let (t1, t2) := slab (vx (b_min b)) (vx (b_max b)) (vx (r_origin ry)) (vx (r_dir ry)) nx in
  let tmin := emin t1 t2 in
  let tmax := emax t1 t2 in
  let tmax := emin tmax (Fin m) in
  let (t1, t2) := slab (vy (b_min b)) (vy (b_max b)) (vy (r_origin ry)) (vy (r_dir ry)) ny in
  let tmin := emax tmin (emin t1 t2) in
  let tmax := emin tmax (emax t1 t2) in
  let (t1, t2) := slab (vz (b_min b)) (vz (b_max b)) (vz (r_origin ry)) (vz (r_dir ry)) nz in
  let tmin := emax tmin (emin t1 t2) in
  let tmax := emin tmax (emax t1 t2) in
  ele (emax tmin (Fin (d_zero o))) tmax.
End Model.
