(** Particles in double precision. *)
From Coq Require Import Reals.
From Flocq Require Import Core.
From Verif Require Import Base Vec Cofm_model FCell_model.
Local Open Scope R_scope.

(** Coordinates are doubles of size at most 2^m, the radius is a double between 0
    and 2^m, the mass is a double between 2^-500 and 2^400. *)
Record fl_body (m : Z) (n : nat) (b : body) : Prop := {
  fb_pos : forall i, (i < n)%nat -> generic_format radix2 dexp (b_pos b i) /\ Rabs (b_pos b i) <= bpow radix2 m;
  fb_rad : generic_format radix2 dexp (b_rad b) /\ 0 <= b_rad b <= bpow radix2 m;
  fb_mass : generic_format radix2 dexp (b_mass b) /\ bpow radix2 (-500) <= b_mass b <= bpow radix2 400 }.
