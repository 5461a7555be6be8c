(** The clock in double precision: /repo/include/physics/default_physics.h L857-862
    (advance_time without adaptive_timestep) and L786, L800, L814 (the next output
    time is the last one plus the interval), with the rounding of the addition as in
    FCell_model.v. *)
From Coq Require Import Reals.
From Flocq Require Import Core.
From Verif Require Import Base BuildTree_model Range_model FCell_model Loop_model.
Local Open Scope R_scope.

(** after k additions; [None]: overflow *)
Fixpoint clock (t0 dt : R) (k : nat) : option R :=
  match k with O => Some t0 | S j => t <- clock t0 dt j ;; fl (t + dt) end.
(** the same for [loop] of Loop_model.v, which takes a sequence of times; the theorems
    state that no addition overflows *)
Fixpoint times_fl (t0 dt : R) (k : nat) : R := match k with O => t0 | S j => rnd (times_fl t0 dt j + dt) end.
