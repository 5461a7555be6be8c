(** C43: the two constants of the white dwarf equation of state are those of
    the degenerate electron gas with the CODATA 2018 values of the constants
    of nature (CGS), A = pi m^4 c^5 / (3 h^3) and B = 8 pi (m c / h)^3 u / 3,
    up to one part in ten million. *)
From Coq Require Import Reals Lra.
From Verif Require Import Base Eos_model Numbers_lemmas.
Local Open Scope R_scope.

Definition electron_mass : R := 91093837015 / 10 ^ 10 / 10 ^ 28.
Definition light_speed : R := 29979245800.
Definition planck : R := 662607015 / 10 ^ 8 / 10 ^ 27.
Definition atomic_mass : R := 166053906660 / 10 ^ 11 / 10 ^ 24.

Theorem C43_wd_constants :
  let A := PI * electron_mass ^ 4 * light_speed ^ 5 / (3 * planck ^ 3) in
  let B := 8 * PI / 3 * (electron_mass * light_speed / planck) ^ 3 * atomic_mass in
  Rabs (A_wd - A) <= A / 10 ^ 7 /\ Rabs (B_wd_nm - B) <= B / 10 ^ 7.
Proof.
  cbv zeta. unfold electron_mass, light_speed, planck, atomic_mass, A_wd, B_wd_nm.
  pose proof PI_bounds as [L U]. split; apply Rabs_le; lra.
Qed.
Print Assumptions C43_wd_constants.
