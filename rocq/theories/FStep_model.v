(** The time step of a particle in double precision: compute_dt,
    /repo/include/physics/default_physics.h L602-627, with the rounding of every operation
    (see FCell_model.v for [rnd]).  As in FDens_model.v operations do not overflow here, and
    there are no infinities, NaN, signed zeros, fused operations or wider registers.  The
    shortening for positive internal energy, L629-692, is in Dt_model.v, over the reals. *)
From Coq Require Import Reals.
From Flocq Require Import Core.
From Verif Require Import Base Vec Range_model FCell_model FForce_model.
Local Open Scope R_scope.

(** timestep_cfl_factor, sph_eta, kernels::kernel_width, sph_viscosity_alpha, and the
    doubles nearest to 1e-24 and 0.6 of L604-605 *)
Record sconf := SConf { s_cfl : R; s_eta : R; s_width : R; s_alpha : R; s_tiny : R; s_mc : R }.
(** the fields of the particle *)
Record spart := SPart { s_h : R; s_vel : point; s_acc : point; s_gacc : point; s_sig : R }.

(** space_vector.h, operator + *)
Definition vadd_fl (a b : point) : point := fun i => rnd (a i + b i).
(** L608-609 *)
Definition dx_fl (c : sconf) (p : spart) : R := rnd (s_h p / rnd (s_eta c * s_width c)).
(** L612-614 *)
Definition dtv_fl (c : sconf) (n : nat) (p : spart) : R := rnd (dx_fl c p / rnd (magnitude_fl n (s_vel p) + s_tiny c)).
(** L617-619 *)
Definition dta_fl (c : sconf) (n : nat) (p : spart) : R :=
  rnd (sqrt (rnd (dx_fl c p / rnd (magnitude_fl n (vadd_fl (s_acc p) (s_gacc p)) + s_tiny c)))).
(** L623-624 *)
Definition dtc_fl (c : sconf) (p : spart) : R :=
  rnd (dx_fl c p / rnd (s_tiny c + rnd (s_sig p * rnd (1 + rnd (s_mc c * s_alpha c))))).
(** L627 *)
Definition dt_fl (c : sconf) (n : nat) (p : spart) : R :=
  rnd (s_cfl c * Rmin (Rmin (dtv_fl c n p) (dta_fl c n p)) (dtc_fl c p)).
