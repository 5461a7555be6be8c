(** The neighbour search in double precision: compute_cofm,
    /repo/include/physics/default_physics.h L57-119, the tests of
    /repo/include/tree_topology/tree_geometry.h and distance,
    /repo/include/space_vector.h L46-58, with the rounding of every operation (see
    FCell_model.v for [rnd]).  The traversals are those of GSearch_model.v.
    Simplification: the range of exponents is not bounded above, so an operation
    never overflows here (C91_finite bounds what is stored); no infinities, NaN,
    signed zeros, fused operations or wider registers. *)
From Coq Require Import Reals.
From Flocq Require Import Core.
From Verif Require Import Base Key_model BuildTree_model Vec Geometry_model Cofm_model Search_model GSearch_model FCell_model.
Local Open Scope R_scope.

(** space_vector.h L52-55: sum += (a[d] - b[d]) * (a[d] - b[d]) from 0.
    tree_geometry.h distance2 (L60-62, L170-173, L275-279) adds the same terms in
    the same order without the 0, which gives the same number. *)
Definition sq_fl (a b : point) (i : nat) : R := let d := rnd (a i - b i) in rnd (d * d).
Fixpoint dist2_fl (n : nat) (a b : point) : R :=
  match n with O => 0 | S k => rnd (dist2_fl k a b + sq_fl a b k) end.
(** space_vector.h L48-58 *)
Definition dist_fl (n : nat) (a b : point) : R :=
  match n with 1%nat => Rabs (rnd (a 0%nat - b 0%nat)) | _ => rnd (sqrt (dist2_fl n a b)) end.

(** tree_geometry.h L65-69, L176-180, L282-286 *)
Definition within_distance2_fl (n : nat) (p1 p2 : point) (r : R) : bool := Rleb (dist2_fl n p1 p2) (rnd (r * r)).
(** L107-114, L228-236, L338-351 *)
Definition sphere_box_fl (n : nat) (mn mx c : point) (r : R) : bool :=
  match n with
  | 3%nat => Rleb (dist2_fl n (closest3 mn mx c) c) (rnd (r * r))
  | _ => Rleb (rnd (dist_fl n (closest mn mx c) c - r)) tol
  end.

(** default_physics.h L57-119 *)
Definition compute_cofm_fl (n : nat) (ents : list body) (nodes : list cofm) : cofm :=
  let coordinates0 := fun i =>
    fold_left (fun s c => rnd (s + rnd (cm_mass c * cm_pos c i))) nodes
      (fold_left (fun s b => rnd (s + rnd (b_mass b * b_pos b i))) ents 0) in
  let mass := fold_left (fun s c => rnd (s + cm_mass c)) nodes (fold_left (fun s b => rnd (s + b_mass b)) ents 0) in
  let sub := fold_left (fun s c => (s + cm_sub c)%nat) nodes (fold_left (fun s _ => S s) ents 0%nat) in
  let bmin := fun i => fold_left (fun s c => Rmin s (cm_min c i)) nodes
                (fold_left (fun s b => Rmin s (rnd (b_pos b i - rnd (b_rad b / 2)))) ents dbl_max) in
  let bmax := fun i => fold_left (fun s c => Rmax s (cm_max c i)) nodes
                (fold_left (fun s b => Rmax s (rnd (b_pos b i + rnd (b_rad b / 2)))) ents (- dbl_max)) in
  let coordinates := fun i => rnd (coordinates0 i / mass) in
  let radius := fold_left (fun s c => Rmax s (rnd (dist_fl n coordinates (cm_pos c) + cm_rad c))) nodes
                  (fold_left (fun s b => Rmax s (dist_fl n coordinates (b_pos b))) ents 0) in
  let lap := fold_left (fun s c => Rmax s (rnd (rnd (dist_fl n coordinates (cm_pos c) + cm_rad c) + cm_lap c))) nodes
               (fold_left (fun s b => Rmax s (rnd (dist_fl n coordinates (b_pos b) + b_rad b))) ents 0) in
  mkcofm coordinates mass radius bmin bmax sub lap.
(** mpisph/bodies_system.h: compute_cofm is passed to build_tree *)
Definition fcc_cofm_fl (n : nat) (bodies : list body) (key : N) (es : list nat) (ns : list cofm) : cofm :=
  compute_cofm_fl n (map (get_body bodies) es) ns.

(** The tests of traversal_sph (tree_topology.h L326-379) and find_in_radius
    (L806-814); the comparison of boxes rounds nothing. *)
Definition fl_tests (n : nat) : tests :=
  mktests (fun m cn => intersects_box_box n (cm_min m) (cm_max m) (cm_min cn) (cm_max cn))
    (fun m b => sphere_box_fl n (cm_min m) (cm_max m) (b_pos b) (b_rad b))
    (fun e cn => within_distance2_fl n (b_pos e) (cm_pos cn) (rnd (Rmax (b_rad e) (cm_lap cn) + cm_rad cn)))
    (fun b e => within_distance2_fl n (b_pos b) (b_pos e) (Rmax (b_rad b) (b_rad e)))
    (fun m center radius => within_distance2_fl n (cm_pos m) center (rnd (Rmax (cm_lap m) radius + cm_rad m)))
    (fun center radius e => within_distance2_fl n center (b_pos e) (Rmax radius (b_rad e))).
Definition traversal_sph_fl (dim : N) : table -> list cofm -> list body -> nat -> option (list (nat * list nat)) :=
  gtraversal_sph dim (fl_tests (N.to_nat dim)).
Definition find_in_radius_fl (dim : N) : table -> list cofm -> list body -> nat -> point -> R -> option (list nat) :=
  gfind_in_radius dim (fl_tests (N.to_nat dim)).
