(** What a height field is: a grid of points over the plane, and the surface of its triangles. *)
From Verif Require Import Base VecModel ShapeModel ShapeSpec HeightFieldModel.
Open Scope R_scope.

(** The heights given by the user, row by row. *)
Definition given (d : heights) (cols x y : Z) : R :=
  let i := Z.to_nat (y * cols + x) in
  match d with Decimals l => nth i l 0 | Integers l k => IZR (nth i l 0%Z) * k end.
Definition how_many (d : heights) : nat := match d with Decimals l => length l | Integers l _ => length l end.
Definition on_grid (cols rows x y : Z) : Prop := (0 <= x < cols /\ 0 <= y < rows)%Z.
Definition is_cell (cols rows i j : Z) : Prop := (0 <= i < cols - 1 /\ 0 <= j < rows - 1)%Z.
(** The smallest and the largest of the heights. *)
Definition lowest (d : heights) (cols rows : Z) (m : R) : Prop :=
  (exists x y, on_grid cols rows x y /\ given d cols x y = m) /\ forall x y, on_grid cols rows x y -> m <= given d cols x y.
Definition highest (d : heights) (cols rows : Z) (m : R) : Prop :=
  (exists x y, on_grid cols rows x y /\ given d cols x y = m) /\ forall x y, on_grid cols rows x y -> given d cols x y <= m.
(** The point of the grid: one unit between neighbours, everything centred; [mid] is the middle height. *)
Definition grid_point (d : heights) (cols rows : Z) (mid : R) (x y : Z) : vec3 :=
  V3 (IZR x - IZR (cols - 1) / 2) (given d cols x y - mid) (IZR y - IZR (rows - 1) / 2).
(** The two triangles of a cell, scaled. *)
Definition corners (d : heights) (cols rows : Z) (mid : R) (s : vec3) (i j k : Z) : vec3 * vec3 * vec3 :=
  let p x y := vmul (grid_point d cols rows mid x y) s in
  if Z.eqb k 0 then (p i j, p i (j + 1)%Z, p (i + 1)%Z j) else (p (i + 1)%Z j, p i (j + 1)%Z, p (i + 1)%Z (j + 1)%Z).
Definition on_triangle (t : vec3 * vec3 * vec3) (p : vec3) : Prop := let '(a, b, c) := t in triangle_set a b c p.
Definition on_surface (d : heights) (cols rows : Z) (mid : R) (s p : vec3) : Prop :=
  exists i j k, is_cell cols rows i j /\ (k = 0 \/ k = 1)%Z /\ on_triangle (corners d cols rows mid s i j k) p.
(** The horizontal extent of the cell meets that of the box. *)
Definition cell_meets (cols rows : Z) (s : vec3) (b : box3) (i j : Z) : Prop :=
  (exists x, (IZR i - IZR (cols - 1) / 2) * vx s <= x <= (IZR (i + 1) - IZR (cols - 1) / 2) * vx s /\ vx (bmin b) <= x <= vx (bmax b)) /\
  (exists z, (IZR j - IZR (rows - 1) / 2) * vz s <= z <= (IZR (j + 1) - IZR (rows - 1) / 2) * vz s /\ vz (bmin b) <= z <= vz (bmax b)).
(** The triangles of a query answer, with their identifiers: (i, j, k) is triangle [k] of cell (i, j). *)
Definition answers (d : heights) (cols rows : Z) (mid : R) (s : vec3) (i j k : Z) (q : qtriangle) : Prop :=
  (q_a q, q_b q, q_c q) = corners d cols rows mid s i j k /\ q_id q = ((j * (cols - 1) + i) * 2 + k)%Z.
(** A unit vector, orthogonal to the triangle, pointing up. *)
Definition upward_normal (a b c n : vec3) : Prop :=
  vlen n = 1 /\ vdot n (vsub b a) = 0 /\ vdot n (vsub c a) = 0 /\ 0 < vy n.

(** Ray casts: each component of the direction is zero or not tiny. *)
Definition good_ray (eps : R) (y : ray) : Prop :=
  forall i, comp (vsub (ray_p2 y) (ray_p1 y)) i = 0 \/ eps <= Rabs (comp (vsub (ray_p2 y) (ray_p1 y)) i).
(** The ray does not run along the far border of the field, parallel to the first axis. *)
Definition off_border (rows : Z) (y : ray) : Prop :=
  vz (ray_p2 y) = vz (ray_p1 y) -> vx (ray_p2 y) <> vx (ray_p1 y) -> vz (ray_p1 y) <> IZR (rows - 1) / 2.
(** The triangle is not nearly parallel to the ray, and seen from the tested side. *)
Definition exact_at (eps : R) (s : side) (y : ray) (t : vec3 * vec3 * vec3) : Prop := let '(a, b, c) := t in triangle_exact eps a b c y s.
(** The hit is the point where the ray meets the triangle. *)
Definition hit_at (y : ray) (h : hit) (t : vec3 * vec3 * vec3) : Prop := let '(a, b, c) := t in triangle_hit a b c y h.
(** The same ray in the coordinates without the scale. *)
Definition unscaled_ray (s : vec3) (y : ray) : ray :=
  let d p := V3 (vx p / vx s) (vy p / vy s) (vz p / vz s) in Ray (d (ray_p1 y)) (d (ray_p2 y)) (ray_max y).
Definition orthogonal (n : vec3) (t : vec3 * vec3 * vec3) : Prop := let '(a, b, c) := t in vdot n (vsub b a) = 0 /\ vdot n (vsub c a) = 0.
Definition positive (s : vec3) : Prop := 0 < vx s /\ 0 < vy s /\ 0 < vz s.
