(** Model of /repo/include/tree_topology/tree_geometry.h: tree_geometry<T, D>
    for D = 1 (L49-155), D = 2 (L160-260), D = 3 (L265-378).  double is modelled
    by the real numbers; the tolerance is the code's constant. *)
From Verif Require Import Base Vec.
Local Open Scope R_scope.

Definition Rleb (x y : R) : bool := if Rle_dec x y then true else false.
Definition Rltb (x y : R) : bool := if Rlt_dec x y then true else false.

(** L57-58: numeric_limits<double>::epsilon() * 10 *)
Definition tol : R := 10 / 2 ^ 52.

(** the coordinates of a point of dimension n *)
Definition coords (n : nat) : list nat := seq 0 n.

(** L60-69, L170-180, L275-286: within_distance2 *)
Definition within_distance2 (n : nat) (p1 p2 : point) (r : R) : bool := Rleb (dist2 n p1 p2) (r * r).

(** L73-78, L184-189, L290-295: within *)
Definition within (n : nat) (origin center : point) (r1 : R) : bool := Rleb (dist n origin center - r1) tol.

(** L81-86, L192-197, L298-303: within_square *)
Definition within_square (n : nat) (origin center : point) (r1 r2 : R) : bool :=
  Rleb (dist n origin center) (Rmax r1 r2).

(** L90-95 (closed at both ends), L201-207, L307-313 (open at the lower end):
    within_box; the radius argument is not used *)
Definition within_box (n : nat) (mn mx origin : point) : bool :=
  match n with
  | 1%nat => Rleb (origin 0%nat) (mx 0%nat) && Rleb (mn 0%nat) (origin 0%nat)
  | _ => forallb (fun i => Rleb (origin i) (mx i) && Rltb (mn i) (origin i)) (coords n)
  end.

(** L98-103, L219-224 (with tolerance), L326-334 (squared): intersects_sphere_sphere *)
Definition intersects_sphere_sphere (n : nat) (c1 : point) (r1 : R) (c2 : point) (r2 : R) : bool :=
  match n with
  | 3%nat => Rleb (dist2 n c2 c1) ((r1 + r2) * (r1 + r2))
  | _ => Rleb (dist n c1 c2 - (r1 + r2)) tol
  end.

(** L107-114, L228-236 : closest point max(min, min(c, max)); L338-351: the same
    written with conditionals *)
Definition closest (mn mx c : point) : point := fun i => Rmax (mn i) (Rmin (c i) (mx i)).
Definition closest3 (mn mx c : point) : point :=
  fun i => let x := if Rltb (c i) (mx i) then c i else mx i in if Rltb x (mn i) then mn i else x.
Definition intersects_sphere_box (n : nat) (mn mx c : point) (r : R) : bool :=
  match n with
  | 3%nat => Rleb (dist2 n (closest3 mn mx c) c) (r * r)
  | _ => Rleb (dist n (closest mn mx c) c - r) tol
  end.

(** L117-122, L210-216, L316-323: intersects_box_box *)
Definition intersects_box_box (n : nat) (mn1 mx1 mn2 mx2 : point) : bool :=
  negb (existsb (fun i => Rltb (mx1 i) (mn2 i)) (coords n) ||
        existsb (fun i => Rltb (mx2 i) (mn1 i)) (coords n)).

(** L124-131, L238-245, L353-360: mac *)
Definition mac (n : nat) (source : point) (source_radius : R) (sink : point) (radius mac_angle : R) : bool :=
  Rltb (source_radius + radius) (mac_angle * dist n source sink).
