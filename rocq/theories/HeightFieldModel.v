(** Model of height fields (HeightField.cpp, HeightField.h, HeightFieldShape.cpp).  Decimals are real numbers;
    only where the code divides by a direction component that may be zero the results are extended by
    infinities and NaN. *)
From Verif Require Import Base VecModel ShapeModel.
Open Scope R_scope.

(** static_cast<int>(decimal): truncation; out of range is undefined. *)
Definition int_min : Z := (- 2 ^ 31)%Z.
Definition int_max : Z := (2 ^ 31 - 1)%Z.
Definition trunc (r : R) : Z := if rle 0 r then Int_part r else (- Int_part (- r))%Z.
Definition fits_int (z : Z) : bool := (Z.leb int_min z && Z.leb z int_max)%bool.
(** A signed result that does not fit in 32 bits is undefined. *)
Definition int_of (z : Z) : res Z := if fits_int z then Ok z else Ub.
Definition cast_int (r : R) : res Z := int_of (trunc r).
(** Conversions between int and uint32. *)
Definition u32 (z : Z) : Z := (z mod 2 ^ 32)%Z.
Definition s32 (z : Z) : Z := if Z.leb z int_max then z else (z - 2 ^ 32)%Z.
(** mathematics_functions.h:48-51 clamp(int, int, int). *)
Definition clamp_int (v lo hi : Z) : Z := Z.min (Z.max v lo) hi.

(** HeightField.h:60-92.  [hf_data]: row-major. *)
Record hfield : Type := mk_hfield {
  hf_cols : Z; hf_rows : Z; hf_data : list R;
  hf_min : R; hf_max : R; hf_origin : R; hf_bounds : box3 }.
Definition hf_width (f : hfield) : R := IZR (hf_cols f - 1).
Definition hf_length (f : hfield) : R := IZR (hf_rows f - 1).

(** HeightField.h: HeightDataType; HeightField.cpp:96-110: the height read at an index. *)
Inductive heights : Type := Decimals (l : list R) | Integers (l : list Z) (scale : R).
Definition height_in (d : heights) (i : Z) : res R :=
  match d with
  | Decimals l => rd (nth_error l (Z.to_nat i))
  | Integers l k => let* z := rd (nth_error l (Z.to_nat i)) in Ok (IZR z * k)
  end.
(** HeightField.cpp:86-131 copyData: the indices in the order of the two loops, and one step of the minimum
    and maximum ([None] before the first height). *)
Definition zseq (n : Z) : list Z := map Z.of_nat (seq 0 (Z.to_nat n)).
Definition copy_order (cols rows : Z) : list Z := flat_map (fun x => map (fun y => (y * cols + x)%Z) (zseq rows)) (zseq cols).
Definition min_max (a : option (R * R)) (h : R) : option (R * R) :=
  let '(mn, mx) := match a with None => (h, h) | Some p => p end in
  Some (if rlt h mn then h else mn, if rlt mx h then h else mx).
Fixpoint copy_data (d : heights) (l : list Z) (a : option (R * R)) : res (option (R * R)) :=
  match l with
  | [] => Ok a
  | i :: r => let* h := height_in d i in copy_data d r (min_max a h)
  end.
(** The array written by copyData: index i gets the i-th height. *)
Fixpoint read_all (d : heights) (l : list Z) : res (list R) :=
  match l with [] => Ok [] | i :: r => let* h := height_in d i in let* r := read_all d r in Ok (h :: r) end.

(** HeightField.cpp:44-83 init, PhysicsCommon.cpp:480-504 createHeightField ([None]: a null pointer).  The product of
    the two numbers is computed as an int. *)
Definition create_field (cols rows : Z) (d : heights) : res (option hfield) :=
  if (Z.ltb cols 2 || Z.ltb rows 2)%bool then Ok None
  else
    let* n := int_of (cols * rows) in
    let* data := read_all d (zseq n) in
    let* a := copy_data d (copy_order cols rows) None in
    match a with
    | None => Ub
    | Some (mn, mx) =>
        let half := (mx - mn) * (1 / 2) in
        let w := IZR (cols - 1) in
        let l := IZR (rows - 1) in
        Ok (Some (mk_hfield cols rows data mn mx (- (mx - mn) * (1 / 2) - mn)
             (Box3 (V3 (- w * (1 / 2)) (- half) (- l * (1 / 2))) (V3 (w * (1 / 2)) half (l * (1 / 2))))))
    end.

(** HeightField.h:272-276 getHeightAt and HeightField.cpp:397-407 getVertexAt. *)
Definition height_at (f : hfield) (x y : Z) : res R := rd (nth_error (hf_data f) (Z.to_nat (y * hf_cols f + x))).
Definition vertex_at (f : hfield) (x y : Z) : res vec3 :=
  let* h := height_at f x y in
  Ok (V3 (- hf_width f * (1 / 2) + IZR x) (hf_origin f + h) (- hf_length f * (1 / 2) + IZR y)).
(** HeightField.h:279-281 computeTriangleShapeId. *)
Definition triangle_id (f : hfield) (i j k : Z) : Z := u32 (u32 (u32 (j * u32 (hf_cols f - 1)) + i) * 2 + k).

(** HeightField.cpp:214-250 computeMinMaxGridCoordinates: one coordinate of the box, with the bounds of the field;
    the result is stored in a uint32. *)
Definition grid_min (a lo hi : R) : res Z :=
  let p := Rmin (Rmax a lo) hi in
  let* c := cast_int (p + (hi - lo) * (1 / 2) + 1 / 2) in
  let* c := int_of (c - 1) in Ok (u32 c).
Definition grid_max (b lo hi : R) : res Z :=
  let p := Rmax (Rmin b hi) lo in
  let* c := cast_int (p + (hi - lo) * (1 / 2) + 1 / 2) in
  let* c := int_of (c + 1) in Ok (u32 c).
(** One triangle of a query: its three vertices, its normal (used at the three vertices), its identifier. *)
Record qtriangle : Type := mk_qtriangle { q_a : vec3; q_b : vec3; q_c : vec3; q_normal : vec3; q_id : Z }.
(** HeightField.cpp:169-207: the two triangles of a cell.  [eps]: MACHINE_EPSILON of getUnit. *)
Definition cell_triangles (eps : R) (f : hfield) (scale : vec3) (i j : Z) : res (list qtriangle) :=
  let* v1 := vertex_at f i j in
  let* v2 := vertex_at f i (j + 1) in
  let* v3 := vertex_at f (i + 1) j in
  let* v4 := vertex_at f (i + 1) (j + 1) in
  let p1 := vmul v1 scale in
  let p2 := vmul v2 scale in
  let p3 := vmul v3 scale in
  let p4 := vmul v4 scale in
  let n1 := vunit eps (vcross (vsub p2 p1) (vsub p3 p1)) in
  let n2 := vunit eps (vcross (vsub p2 p3) (vsub p4 p3)) in
  Ok [mk_qtriangle p1 p2 p3 n1 (triangle_id f i j 0); mk_qtriangle p3 p2 p4 n2 (triangle_id f i j 1)].
Fixpoint rconcat {A B} (g : A -> res (list B)) (l : list A) : res (list B) :=
  match l with [] => Ok [] | x :: r => let* a := g x in let* b := rconcat g r in Ok (a ++ b) end.
Definition zrange (a b : Z) : list Z := map (fun k => (a + Z.of_nat k)%Z) (seq 0 (Z.to_nat (b - a))).
(** HeightField.cpp:140-210 computeOverlappingTriangles.  The coordinate along the height is computed and not used. *)
Definition overlapping (eps : R) (f : hfield) (scale : vec3) (b : box3) : res (list qtriangle) :=
  let lo := bmin (hf_bounds f) in
  let hi := bmax (hf_bounds f) in
  let* x0 := grid_min (vx (bmin b)) (vx lo) (vx hi) in
  let* y0 := grid_min (vy (bmin b)) (vy lo) (vy hi) in
  let* z0 := grid_min (vz (bmin b)) (vz lo) (vz hi) in
  let* x1 := grid_max (vx (bmax b)) (vx lo) (vx hi) in
  let* y1 := grid_max (vy (bmax b)) (vy lo) (vy hi) in
  let* z1 := grid_max (vz (bmax b)) (vz lo) (vz hi) in
  let imin := clamp_int (s32 x0) 0 (hf_cols f - 1) in
  let imax := clamp_int (s32 x1) 0 (hf_cols f - 1) in
  let jmin := clamp_int (s32 z0) 0 (hf_rows f - 1) in
  let jmax := clamp_int (s32 z1) 0 (hf_rows f - 1) in
  rconcat (fun i => rconcat (fun j => cell_triangles eps f scale i j) (zrange jmin jmax)) (zrange imin imax).
(** HeightFieldShape.cpp:63-77: the query of the scaled shape. *)
Definition inv_scale (s : vec3) : vec3 := V3 (1 / vx s) (1 / vy s) (1 / vz s).
(** HeightFieldShape.cpp:50-54 getLocalBounds, AABB.h:218-221 applyScale. *)
Definition shape_bounds (f : hfield) (scale : vec3) : box3 := Box3 (vmul (bmin (hf_bounds f)) scale) (vmul (bmax (hf_bounds f)) scale).
Definition shape_overlapping (eps : R) (f : hfield) (scale : vec3) (b : box3) : res (list qtriangle) :=
  overlapping eps f scale (Box3 (vmul (bmin b) (inv_scale scale)) (vmul (bmax b) (inv_scale scale))).

(** ** Ray casts *)

(** AABB.h:318-360 raycast: one slab; the state is (tMin, tMax).  [eps]: 0.00001. *)
Definition aabb_slab (eps : R) (b : box3) (y : ray) (i : nat) (st : R * R) : option (R * R) :=
  let '(tmin, tmax) := st in
  let d := comp (vsub (ray_p2 y) (ray_p1 y)) i in
  let p := comp (ray_p1 y) i in
  if rlt (Rabs d) eps then
    (if (rlt p (comp (bmin b) i) || rlt (comp (bmax b) i) p)%bool then None else Some st)
  else
    let o := 1 / d in
    let t1 := (comp (bmin b) i - p) * o in
    let t2 := (comp (bmax b) i - p) * o in
    let '(t1, t2) := if rlt t2 t1 then (t2, t1) else (t1, t2) in
    let tmin := Rmax tmin t1 in
    let tmax := Rmin tmax t2 in
    if rlt tmax tmin then None else Some (tmin, tmax).
Definition aabb_cast (eps big : R) (b : box3) (y : ray) : option vec3 :=
  obind (aabb_slab eps b y 0 (0, big)) (fun st =>
  obind (aabb_slab eps b y 1 st) (fun st =>
  obind (aabb_slab eps b y 2 st) (fun st =>
    Some (vadd (ray_p1 y) (vscale (fst st) (vsub (ray_p2 y) (ray_p1 y))))))).

(** Decimals with the special values of IEEE 754; zero has no sign (a difference of two equal numbers is +0). *)
Inductive xreal : Type := Fin (r : R) | PInf | NInf | NaN.
Definition xdiv (a b : R) : xreal :=
  if req b 0 then (if req a 0 then NaN else if rlt 0 a then PInf else NInf) else Fin (a / b).
Definition xadd (a b : xreal) : xreal :=
  match a, b with
  | Fin x, Fin y => Fin (x + y)
  | NaN, _ | _, NaN => NaN
  | PInf, NInf | NInf, PInf => NaN
  | PInf, _ | _, PInf => PInf
  | NInf, _ | _, NInf => NInf
  end.
Definition xlt (a b : xreal) : bool :=
  match a, b with
  | NaN, _ | _, NaN => false
  | Fin x, Fin y => rlt x y
  | NInf, NInf => false
  | NInf, _ => true
  | _, NInf => false
  | PInf, _ => false
  | Fin _, PInf => true
  end.

(** HeightField.cpp:318-360 raycastTriangle: the state is (raycastInfo if there was a hit, smallestHitFraction). *)
Definition cast_state : Type := option hit * R.
Definition cast_one (eps : R) (s : side) (y : ray) (a b c : vec3) (st : cast_state) : cast_state :=
  match triangle_cast eps s a b c y with
  | Some h => if rle (hit_fraction h) (snd st) then (Some h, hit_fraction h) else st
  | None => st
  end.
(** HeightField.cpp:284-297: the two triangles of a cell. *)
Definition cast_cell (eps : R) (f : hfield) (s : side) (y : ray) (i j : Z) (st : cast_state) : res cast_state :=
  let* p1 := vertex_at f i j in
  let* p2 := vertex_at f i (j + 1) in
  let* p3 := vertex_at f (i + 1) j in
  let* p4 := vertex_at f (i + 1) (j + 1) in
  Ok (cast_one eps s y p3 p2 p4 (cast_one eps s y p1 p2 p3 st)).
(** The constants of the walk over the grid. *)
Record walk : Type := mk_walk { w_ci : Z; w_cj : Z; w_si : Z; w_sj : Z; w_di : xreal; w_dj : xreal }.
(** HeightField.cpp:281-309: the loop.  Running out of fuel is [Fuel]. *)
Fixpoint walk_loop (fuel : nat) (eps : R) (f : hfield) (s : side) (y : ray) (w : walk) (i j : Z) (ti tj : xreal) (st : cast_state) : res cast_state :=
  if (Z.leb 0 i && Z.ltb i (w_ci w) && Z.leb 0 j && Z.ltb j (w_cj w))%bool then
    match fuel with
    | O => Fuel
    | S fuel =>
        let* st := cast_cell eps f s y i j st in
        if (Z.eqb (w_si w) 0 && Z.eqb (w_sj w) 0)%bool then Ok st
        else if xlt ti tj then walk_loop fuel eps f s y w (i + w_si w) j (xadd ti (w_di w)) tj st
        else walk_loop fuel eps f s y w i (j + w_sj w) ti (xadd tj (w_dj w)) st
    end
  else Ok st.
Definition sign_of (d : R) : Z := if rlt 0 d then 1%Z else if rlt d 0 then (-1)%Z else 0%Z.
(** HeightField.cpp:255-315 raycast and 364-394 computeEnteringRayGridCoordinates.  [eps]: MACHINE_EPSILON,
    [eps2]: the 0.00001 of AABB::raycast, [big]: DECIMAL_LARGEST. *)
Definition field_cast (fuel : nat) (eps eps2 big : R) (f : hfield) (s : side) (y : ray) : res (option hit) :=
  match aabb_cast eps2 big (hf_bounds f) y with
  | None => Ok None
  | Some p =>
      let g := vsub p (bmin (hf_bounds f)) in
      let size := vsub (bmax (hf_bounds f)) (bmin (hf_bounds f)) in
      let ci := (hf_cols f - 1)%Z in
      let cj := (hf_rows f - 1)%Z in
      let zi := vx size / IZR ci in
      let zj := vz size / IZR cj in
      let* i0 := cast_int (vx g / zi) in
      let* j0 := cast_int (vz g / zj) in
      let i := clamp_int i0 0 (ci - 1) in
      let j := clamp_int j0 0 (cj - 1) in
      let d := vsub (ray_p2 y) (ray_p1 y) in
      let si := sign_of (vx d) in
      let sj := sign_of (vz d) in
      let ni := IZR (if Z.leb 0 si then i + 1 else i) in
      let nj := IZR (if Z.leb 0 sj then j + 1 else j) in
      let ti := xdiv (ni * zi - vx g) (vx d) in
      let tj := xdiv (nj * zj - vz g) (vz d) in
      let w := mk_walk ci cj si sj (xdiv zi (Rabs (vx d))) (xdiv zj (Rabs (vz d))) in
      let* st := walk_loop fuel eps f s y w i j ti tj (None, ray_max y) in
      Ok (fst st)
  end.
(** HeightFieldShape.cpp:82-103 raycast of the scaled shape: only the point is scaled back. *)
Definition shape_field_cast (fuel : nat) (eps eps2 big : R) (f : hfield) (scale : vec3) (s : side) (y : ray) : res (option hit) :=
  let k := inv_scale scale in
  let* o := field_cast fuel eps eps2 big f s (Ray (vmul (ray_p1 y) k) (vmul (ray_p2 y) k) (ray_max y)) in
  Ok (match o with Some h => Some (Hit (hit_fraction h) (vmul (hit_point h) scale) (hit_normal h)) | None => None end).
