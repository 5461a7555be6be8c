(** The checks at the end of an iteration: /repo/include/physics/default_physics.h
    L905-945 (check_nans) and L951-979 (check_negativity), called by
    app/drivers/hydro/main_driver.cc L259-265 and newtonian L278-284 after the output.
    A double is a real number, an infinity or not a number; comparisons are those of
    IEEE 754. *)
From Coq Require Import Reals.
From Verif Require Import Base BuildTree_model Range_model.
Local Open Scope R_scope.

Inductive dbl := Fin (x : R) | Inf (negative : bool) | NaN.
(** x != x *)
Definition differs_from_itself (x : dbl) : bool := match x with NaN => true | _ => false end.
(** x < 0 *)
Definition below_zero (x : dbl) : bool :=
  match x with Fin x => Rlt_b x 0 | Inf negative => negative | NaN => false end.

(** include/physics/body.h L222-251, with the position, mass and radius of the entity
    (include/tree_topology/tree_types.h); the id is an integer *)
Record kbody := KBody {
  k_id : Z; k_pos : nat -> dbl; k_vel : nat -> dbl; k_vel12 : nat -> dbl; k_acc : nat -> dbl; k_gacc : nat -> dbl;
  k_mass : dbl; k_radius : dbl; k_gpot : dbl; k_rho : dbl; k_p : dbl; k_s : dbl; k_u : dbl; k_e : dbl;
  k_dedt : dbl; k_dudt : dbl; k_adiabatic : dbl; k_signal : dbl; k_cs : dbl; k_dt : dbl; k_alpha : dbl
}.

(** default_physics.h L905-910: the loop over the dimensions *)
Fixpoint point_ok (dim : nat) (f : nat -> dbl) : bool :=
  match dim with O => true | S d => point_ok d f && negb (differs_from_itself (f d)) end.
(** L919-945: the value of [passed]; an integer does not differ from itself *)
Definition nans_passed (dim : nat) (evolve : bool) (b : kbody) : bool :=
  point_ok dim (k_pos b) && point_ok dim (k_vel b) && point_ok dim (k_vel12 b) && point_ok dim (k_acc b) && point_ok dim (k_gacc b) &&
  forallb (fun x => negb (differs_from_itself x))
    [k_mass b; k_gpot b; k_rho b; k_p b; k_s b; k_e b; k_dedt b; k_dudt b; k_adiabatic b; k_signal b] &&
  (if evolve then negb (differs_from_itself (k_u b)) else true).
(** L954-979 *)
Definition negativity_passed (evolve : bool) (b : kbody) : bool :=
  negb (below_zero (k_rho b)) && negb (below_zero (k_p b)) && negb (evolve && below_zero (k_u b)).
(** assert: [None] is the end of the program; without effect when NDEBUG is defined, as
    CMake does in the build types Release (the default, cmake/ProcessOptions.cmake L31)
    and RelWithDebInfo *)
Definition assert_ (ndebug passed : bool) : option unit := if ndebug || passed then Some tt else None.
(** mpisph/bodies_system.h L319-324, apply_all *)
Fixpoint apply_all (f : kbody -> option unit) (bs : list kbody) : option unit :=
  match bs with [] => Some tt | b :: r => _ <- f b ;; apply_all f r end.
(** hydro/main_driver.cc L260 and L263-265, newtonian L279 and L282-284: the snapshot,
    then the checks.  The file, and whether the program goes on. *)
Definition finish (ndebug : bool) (dim : nat) (evolve writes : bool) (bs : list kbody) (file : list (list kbody)) : list (list kbody) * option unit :=
  (if writes then file ++ [bs] else file,
   _ <- apply_all (fun b => assert_ ndebug (nans_passed dim evolve b)) bs ;;
   apply_all (fun b => assert_ ndebug (negativity_passed evolve b)) bs).
