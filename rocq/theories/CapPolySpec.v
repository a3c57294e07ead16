(** What the test of a capsule against a convex polyhedron should say. *)
From Coq Require Import Reals List.
From Verif Require Import VecModel GeomSpec ShapeModel ShapeSpec GjkSpec NarrowModel NarrowSpec SatModel SatSpec CapSatSpec.
Import ListNotations.
Local Open Scope R_scope.

(** The inner segment in world space. *)
Definition cap_core (hh : R) (t : transform) : vec3 -> Prop := moved t (cap_seg hh).
(** A capsule and a polyhedron as the test expects them: as for the separating axis test, with vertices and ends of the segment at most [D] apart, which
    is small against DECIMAL_LARGEST, and a cached axis that is not too long. *)
Definition cap_poly_setting (eps big D hh r : R) (p : solid) (tc tp : transform) (cache : option vec3) : Prop :=
  cap_setting eps big hh r p tc tp /\ 0 < D /\ 4 * (D * D) < big /\ within D (capsule_ends hh) tc (so_verts p) tp /\ (forall v, cache = Some v -> 4 * vlen2 v < big).
(** The vertices of the two shapes span nothing tiny. *)
Definition cap_no_slivers (first : bool) (hh : R) (p : solid) (tc tp : transform) : Prop :=
  no_slivers (if first then differences (capsule_ends hh) tc (so_verts p) tp else differences (so_verts p) tp (capsule_ends hh) tc).
(** A contact beside a shallow one with the face [f] ([n] its outward normal in world space): one point on the surface of the capsule, the other between the
    sides of the face and less than one thousandth in front of its plane, and [depth] from one to the other. *)
Record beside_contact (hh r : R) (p : solid) (tc tp : transform) (f : nat) (n : vec3) (depth : R) (xc xp : vec3) : Prop := {
  bc_capsule : exists s, cap_seg hh s /\ tr_point tc xc = shifted (tr_point tc s) n (- r);
  bc_prism : in_prism p f xp;
  bc_plane : exists d, behind_by p f xp d /\ - / 1000 < d;
  bc_apart : tr_point tp xp = shifted (tr_point tc xc) n depth }.
(** The contacts of a shallow overlap: one as the GJK algorithm finds it, and at most two others of the same depth with a face that looks in nearly its
    direction. *)
Definition shallow_contacts (first : bool) (hh r : R) (p : solid) (tc tp : transform) (cs : list contact) : Prop := exists c more, cs = c :: more /\
  (if first then near_contact (cap_core hh tc) (body_of p tp) r 0 (c_normal c) (c_depth c) (tr_point tc (c_local1 c)) (tr_point tp (c_local2 c))
   else near_contact (body_of p tp) (cap_core hh tc) 0 r (c_normal c) (c_depth c) (tr_point tp (c_local1 c)) (tr_point tc (c_local2 c))) /\
  (length more <= 2)%nat /\
  (more = [] \/ exists f n, face_normal p tp f = Some n /\ vdot n (if first then vneg (c_normal c) else c_normal c) >= 0 /\ vlen2 (vcross n (c_normal c)) < / 100000 /\
     forall k, In k more -> c_normal k = (if first then vneg n else n) /\ c_depth k = c_depth c /\
       beside_contact hh r p tc tp f n (c_depth c) (if first then c_local1 k else c_local2 k) (if first then c_local2 k else c_local1 k)).
(** The contacts of a deep overlap: all with one face or one edge, the depth being that of the overlap along their normal, which no face undercuts. *)
Definition deep_contacts (eps : R) (first : bool) (hh r : R) (p : solid) (tc tp : transform) (cs : list contact) : Prop := cs <> [] /\ exists n D,
  depth_along n (body_of p tp) (cap_body hh r tc) D /\ 0 < D /\
  (forall f m d, face_normal p tp f = Some m -> depth_along m (body_of p tp) (cap_body hh r tc) d -> D <= d) /\
  (forall c, In c cs -> c_normal c = (if first then vneg n else n) /\ c_depth c = D) /\
  ((exists f, face_normal p tp f = Some n /\
      forall c, In c cs -> cap_face_contact hh r p tc tp f n D (if first then c_local1 c else c_local2 c) (if first then c_local2 c else c_local1 c)) \/
   (exists c, cs = [c] /\ cap_edge_contact (2 * sqrt eps) hh r p tc tp n (if first then c_local1 c else c_local2 c) (if first then c_local2 c else c_local1 c))).
