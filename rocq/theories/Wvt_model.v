(** Model of the relaxation helpers, /repo/include/physics/wvt.h.
    double is modelled by the reals; the pseudo-accelerations of L195-345 are not
    modelled except for the mirror images and the frozen boundary they use. *)
From Coq Require Import Reals Ratan.
From Verif Require Import Base BuildTree_model Range_model Vec.
Local Open Scope R_scope.

(** atan2 of <cmath>, signs of zeros disregarded *)
Definition atan2 (y x : R) : R :=
  if Rlt_b 0 x then atan (y / x)
  else if Rlt_b x 0 then (if Rlt_b y 0 then atan (y / x) - PI else atan (y / x) + PI)
  else if Rlt_b 0 y then PI / 2 else if Rlt_b y 0 then - (PI / 2) else 0.

(** L122-140 *)
Definition cartesian_to_spherical (n : nat) (p : point) : point :=
  let r := norm n p in
  if (n =? 1)%nat then fun i => if (i =? 0)%nat then r else 0
  else if (n =? 2)%nat then fun i => if (i =? 0)%nat then r else if (i =? 1)%nat then atan2 (p 1%nat) (p 0%nat) else 0
  else fun i => if (i =? 0)%nat then r else if (i =? 1)%nat then atan2 (p 1%nat) (p 0%nat)
    else if (i =? 2)%nat then acos (p 2%nat / r) else 0.
(** L148-166 *)
Definition spherical_to_cartesian (n : nat) (s : point) : point :=
  let r := s 0%nat in
  if (n =? 1)%nat then fun i => if (i =? 0)%nat then r else 0
  else if (n =? 2)%nat then fun i => if (i =? 0)%nat then r * cos (s 1%nat) else if (i =? 1)%nat then r * sin (s 1%nat) else 0
  else fun i => if (i =? 0)%nat then r * sin (s 2%nat) * cos (s 1%nat) else if (i =? 1)%nat then r * sin (s 2%nat) * sin (s 1%nat)
    else if (i =? 2)%nat then r * cos (s 2%nat) else 0.
(** L176-182 *)
Definition remove_radial_acc (n : nat) (p a : point) : point :=
  let r := norm n p in
  let pn := vscale (1 / r) p in
  let an := vsub a (vscale (dot n pn a) pn) in
  vscale 2 an.
(** pos_bs[0] = f(pos_bs[0]) between the two conversions *)
Definition with_radius (n : nat) (f : R -> R) (p : point) : point :=
  let s := cartesian_to_spherical n p in
  spherical_to_cartesian n (fun i => if (i =? 0)%nat then f (s 0%nat) else s i).
(** The mirror images of L228-231, L246-248, L307-310, L327-330 *)
Definition mirror (n : nat) (boundary : R) (p : point) : point := with_radius n (fun r => boundary + (boundary - r)) p.

(** wvt_displacement, L492-554, up to the new position.  [cool] is the test
    physics::iteration > final_iteration with its difference. *)
Definition start_mu (wvt_mu : R) (cool : option Z) (cool_down : Z) : R :=
  match cool with
  | None => wvt_mu
  | Some it => let a := - (1 / 10) * wvt_mu / (IZR cool_down * 1) in let b := 1 / 10 * wvt_mu in
      if Rlt_b (a * IZR it + b) 0 then 0 else a * IZR it + b
  end.
Definition moved (x a : point) (mu : R) : point := vadd x (vscale mu a).
(** L516-520 *)
Fixpoint shorten (fuel n : nat) (boundary : R) (x a : point) (mu : R) : option R :=
  match fuel with
  | O => None
  | S k => if Rlt_b (101 / 100) (norm n (moved x a mu) / boundary) && Rlt_b (1 / 10 ^ 10) mu
           then shorten k n boundary x a (mu * (1 / 2)) else Some mu
  end.
(** L529-534: rs[0] = rs[0] - 2.0 * (rs[0] - boundary) *)
Definition displace (fuel n : nat) (boundary : R) (x a : point) (mu0 : R) : option point :=
  mu <- shorten fuel n boundary x a mu0 ;;
  let rp := moved x a mu in
  Some (if Rlt_b (norm n rp / boundary) 1 then rp else with_radius n (fun r => r - 2 * (r - boundary)) rp).

(** compute_smoothinglength_wvt, L354-391: one rank's sum, the reduction, the factor *)
Definition volume (n : nat) (h : R) : R := if (n =? 1)%nat then 2 * h else if (n =? 2)%nat then PI * (h * h) else PI * 4 * (h * h * h) / 3.
Definition local_volume (n : nat) (hs : list R) : R := fold_left (fun v h => v + volume n h) hs 0.
Definition allsum (l : list R) : R := fold_left Rplus l 0.
Definition scaling (n : nat) (boundary ngb : R) (ranks : list (list R)) : R :=
  let v := allsum (map (local_volume n) ranks) in
  if (n =? 1)%nat then 2 * boundary * ngb / v
  else if (n =? 2)%nat then sqrt (PI * (boundary * boundary) * ngb / v)
  else Rpower (4 * PI * (boundary * boundary * boundary) / 3 * ngb / v) (1 / 3).
Definition rescale (n : nat) (boundary ngb : R) (ranks : list (list R)) : list (list R) :=
  map (map (fun h => h * scaling n boundary ngb ranks)) ranks.
