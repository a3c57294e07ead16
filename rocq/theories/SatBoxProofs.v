(** Proofs about the separating axis test: boxes are as it expects its polyhedra. *)
From Coq Require Import Reals Lra Psatz List Bool Arith Lia.
From Verif Require Import Base VecModel VecProofs GeomModel GeomSpec HalfEdgeModel ShapeModel ShapeSpec GjkSpec GjkVertexProofs NarrowModel NarrowSpec SatModel SatSpec.
Import ListNotations.
Local Open Scope R_scope.

Definition box_structure : structure := Eval vm_compute in match compute_half_edges 8 box_face_list with Ok s => s | _ => mk_structure [] [] [] end.
Definition box_points (h : vec3) : list vec3 :=
  [V3 (- vx h) (- vy h) (vz h); V3 (vx h) (- vy h) (vz h); V3 (vx h) (vy h) (vz h); V3 (- vx h) (vy h) (vz h);
   V3 (- vx h) (- vy h) (- vz h); V3 (vx h) (- vy h) (- vz h); V3 (vx h) (vy h) (- vz h); V3 (- vx h) (vy h) (- vz h)].
Definition the_box (h : vec3) : solid :=
  Solid (box_points h) box_face_list box_structure [V3 0 0 1; V3 1 0 0; V3 0 0 (-1); V3 (-1) 0 0; V3 0 (-1) 0; V3 0 1 0] vzero (box_support0 h) false.
Lemma box_solid_eq h : box_solid h = Ok (the_box h).
Proof. unfold box_solid. replace (compute_half_edges 8 box_face_list) with (Ok box_structure) by (vm_compute; reflexivity). reflexivity. Qed.
Section Box.
Variables x y z : R.
Hypothesis Hx : 0 < x.
Hypothesis Hy : 0 < y.
Hypothesis Hz : 0 < z.
Let h := V3 x y z.
Lemma box_in v : In v (box_points h) <-> In v (box_corners h).
Proof. unfold box_points, box_corners, h. cbn [In vx vy vz]. tauto. Qed.
Lemma unit_1 a b c : a * a + b * b + c * c = 1 -> vlen (V3 a b c) = 1.
Proof. intros H. unfold vlen, vlen2. cbn [vx vy vz]. rewrite H. apply sqrt_1. Qed.
Ltac each H := unfold box_points, h in H; cbn [In vx vy vz] in H; repeat (destruct H as [<-|H]; [|]); [..|destruct H].
Ltac poly := try unfold h; unfold vdot, vsub, vcross; cbn [vx vy vz]; first [lra|nra].
Lemma box_border_check i e : nth_error (st_edges box_structure) i = Some e -> exists a b A B k, runs (the_box h) i a A B /\ e_twin e = Some k /\ runs (the_box h) k b B A /\
  border (box_points h) a A B /\ border (box_points h) b B A.
Proof.
  assert (XY : 0 < x * y) by nra. assert (XZ : 0 < x * z) by nra. assert (YZ : 0 < y * z) by nra.
  intros H. do 24 (destruct i as [|i]; [cbn in H; inversion H; subst e; clear H; do 5 eexists;
    (split; [eexists; eexists; split; [reflexivity|]; split; [reflexivity|]; split; [reflexivity|]; split; [eexists; split; reflexivity|reflexivity]|]);
    (split; [reflexivity|]);
    (split; [eexists; eexists; split; [reflexivity|]; split; [reflexivity|]; split; [reflexivity|]; split; [eexists; split; reflexivity|reflexivity]|]);
    (split; (constructor;
      [apply unit_1; lra|unfold h; poly
      |intros v Hv; each Hv; poly|intros v Hv _; each Hv; poly
      |first [exists (V3 x y z); split; [unfold box_points, h; cbn; tauto|]; split; poly
             |exists (V3 (- x) (- y) (- z)); split; [unfold box_points, h; cbn; tauto|]; split; poly
             |exists (V3 (- x) y z); split; [unfold box_points, h; cbn; tauto|]; split; poly
             |exists (V3 x (- y) z); split; [unfold box_points, h; cbn; tauto|]; split; poly
             |exists (V3 x y (- z)); split; [unfold box_points, h; cbn; tauto|]; split; poly
             |exists (V3 x (- y) (- z)); split; [unfold box_points, h; cbn; tauto|]; split; poly
             |exists (V3 (- x) y (- z)); split; [unfold box_points, h; cbn; tauto|]; split; poly
             |exists (V3 (- x) (- y) z); split; [unfold box_points, h; cbn; tauto|]; split; poly]]))|]).
  destruct i; discriminate.
Qed.
Lemma box_ok big : solid_ok big (the_box h).
Proof.
  constructor.
  - cbn [so_support so_verts the_box]. intros d Hd. destruct (box_finds big h ltac:(cbn; lra) ltac:(cbn; lra) ltac:(cbn; lra) d Hd) as (S1 & S2). split; [now apply box_in|]. intros p Hp. apply S2. now apply box_in.
  - discriminate.
  - split; reflexivity.
  - cbn [so_faces so_normals so_verts the_box]. intros f vs n E1 E2.
    do 6 (destruct f as [|f]; [cbn in E1, E2; inversion E1; subst vs; inversion E2; subst n; clear E1 E2; split; [apply unit_1; lra|]; split; [discriminate|];
      intros i Hi; cbn [In] in Hi; repeat (destruct Hi as [<-|Hi]; [eexists; split; [reflexivity|]; intros v Hv; each Hv; poly|]); destruct Hi|]). destruct f; discriminate.
  - exact box_border_check.
  - cbn [so_edges the_box]. intros f i E.
    do 6 (destruct f as [|f]; [cbn in E; inversion E; subst i; clear E; split; [eexists; split; reflexivity|]; exists 4%nat; split; [cbn; lia|];
      do 3 (eapply ret_more; [reflexivity|reflexivity|discriminate|]); eapply ret_end; reflexivity|]). destruct f; discriminate.
  - cbn [so_triangle so_centroid the_box]. intros _ i a A B (e & n & E1 & E2 & E3 & _). cbn [so_edges the_box so_normals so_verts] in *. destruct (box_border_check i e E1) as (a' & b' & A' & B' & k & (e' & n' & F1 & F2 & F3 & _) & _).
    do 24 (destruct i as [|i]; [cbn in E1; inversion E1; subst e; cbn in E2, E3; inversion E2; subst a; inversion E3; subst A; unfold vzero; poly|]). destruct i; discriminate.
Qed.
End Box.
