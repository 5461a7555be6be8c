(** Model of compute_cofm, /repo/include/physics/default_physics.h L57-119, and
    of the node fields of cofm_u, /repo/include/tree_topology/tree_types.h
    L51-141.  double is modelled by the real numbers. *)
From Verif Require Import Base Vec.
Local Open Scope R_scope.

(** The fields of a particle used here (include/physics/body.h, tree_types.h
    L303-384: coordinates, mass, radius = smoothing length). *)
Record body : Type := mkbody { b_pos : point; b_mass : R; b_rad : R }.

(** cofm_u (tree_types.h L132-140) *)
Record cofm : Type := mkcofm
  { cm_pos : point; cm_mass : R; cm_rad : R; cm_min : point; cm_max : point;
    cm_sub : nat; cm_lap : R }.

(** DBL_MAX *)
Definition dbl_max : R := (2 - / 2 ^ 52) * 2 ^ 1023.

(** L59-119.  The assertion mass != 0 (L96) is not part of the result: it holds
    when the node is not empty and masses are positive. *)
Definition compute_cofm (n : nat) (ents : list body) (nodes : list cofm) : cofm :=
  let coordinates0 := fun i =>
    fold_left (fun s c => s + cm_mass c * cm_pos c i) nodes
      (fold_left (fun s b => s + b_mass b * b_pos b i) ents 0) in
  let mass := fold_left (fun s c => s + cm_mass c) nodes (fold_left (fun s b => s + b_mass b) ents 0) in
  let sub := fold_left (fun s c => (s + cm_sub c)%nat) nodes (fold_left (fun s _ => S s) ents 0%nat) in
  let bmin := fun i => fold_left (fun s c => Rmin s (cm_min c i)) nodes
                (fold_left (fun s b => Rmin s (b_pos b i - b_rad b / 2)) ents dbl_max) in
  let bmax := fun i => fold_left (fun s c => Rmax s (cm_max c i)) nodes
                (fold_left (fun s b => Rmax s (b_pos b i + b_rad b / 2)) ents (- dbl_max)) in
  let coordinates := fun i => coordinates0 i / mass in
  let radius := fold_left (fun s c => Rmax s (dist n coordinates (cm_pos c) + cm_rad c)) nodes
                  (fold_left (fun s b => Rmax s (dist n coordinates (b_pos b))) ents 0) in
  let lap := fold_left (fun s c => Rmax s (dist n coordinates (cm_pos c) + cm_rad c + cm_lap c)) nodes
               (fold_left (fun s b => Rmax s (dist n coordinates (b_pos b) + b_rad b)) ents 0) in
  mkcofm coordinates mass radius bmin bmax sub lap.

(** entities_[i]; the tree only holds indices of existing particles. *)
Definition dummy_body : body := mkbody vzero 1 0.
Definition get_body (bodies : list body) (i : nat) : body := nth i bodies dummy_body.

(** The argument f_cc of build_tree as used by the solver
    (mpisph/bodies_system.h: compute_cofm is passed to build_tree). *)
Definition fcc_cofm (n : nat) (bodies : list body) (key : N) (es : list nat) (ns : list cofm) : cofm :=
  compute_cofm n (map (get_body bodies) es) ns.
