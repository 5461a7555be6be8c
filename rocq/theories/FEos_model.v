(** The ideal gas in double precision: compute_pressure and compute_soundspeed of
    /repo/include/physics/eos/eos.h L166-183, with the rounding of every operation (see
    FCell_model.v for [rnd]).  As in FDens_model.v operations do not overflow here, and
    there are no infinities, NaN, signed zeros, fused operations or wider registers.
    sqrt is that of IEEE 754, the exact root rounded once. *)
From Coq Require Import Reals.
From Flocq Require Import Core.
From Verif Require Import FCell_model.
Local Open Scope R_scope.

(** L166-171; [g] is poly_gamma *)
Definition pressure_fl (g rho u : R) : R := rnd (rnd (rnd (g - 1) * rho) * u).
(** L178-183 *)
Definition soundspeed_fl (g u : R) : R := rnd (sqrt (rnd (rnd (g * rnd (g - 1)) * u))).
