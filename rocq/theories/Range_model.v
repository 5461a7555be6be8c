(** Model of the global range, /repo/mpisph/bodies_system.h mpi_compute_range
    (L231-268) and /repo/mpisph/tree_colorer.h mpi_compute_range (L438-491).
    Coordinates are reals, a point is its function of the dimension, a range is
    the pair (lower corner, upper corner). *)
From Coq Require Import Reals.
From Verif Require Import Base BuildTree_model.
Local Open Scope R_scope.

Record rbody := RBody { rb_x : nat -> R; rb_h : R }.
Definition rrange := ((nat -> R) * (nat -> R))%type.
Definition Rlt_b (a b : R) : bool := if Rlt_dec a b then true else false.

(** bodies_system.h L242-249: one body, every dimension (the components do not
    interact) *)
Definition widen (rg : rrange) (b : rbody) : rrange :=
  (fun d => if Rlt_b (rb_x b d - rb_h b) (fst rg d) then rb_x b d - rb_h b else fst rg d,
   fun d => if Rlt_b (snd rg d) (rb_x b d + rb_h b) then rb_x b d + rb_h b else snd rg d).
(** std::vector::back (L239-240); undefined on an empty vector *)
Fixpoint back {A} (l : list A) : option A :=
  match l with [] => None | [x] => Some x | _ :: r => back r end.
(** L236-250: the local range *)
Definition local_range (bodies : list rbody) : option rrange :=
  b <- back bodies ;;
  Some (fold_left widen bodies (rb_x b, rb_x b)).
(** MPI_Allreduce with MPI_MIN / MPI_MAX (L259-262): the ranks' values combined in
    the given order *)
Definition combine (a b : rrange) : rrange := (fun d => Rmin (fst a d) (fst b d), fun d => Rmax (snd a d) (snd b d)).
Fixpoint allreduce (l : list rrange) : option rrange :=
  match l with [] => None | [x] => Some x | x :: r => y <- allreduce r ;; Some (combine x y) end.
Fixpoint locals (ranks : list (list rbody)) : option (list rrange) :=
  match ranks with [] => Some [] | b :: r => x <- local_range b ;; y <- locals r ;; Some (x :: y) end.
(** L231-268: the range every rank ends with *)
Definition compute_range (ranks : list (list rbody)) : option rrange := l <- locals ranks ;; allreduce l.

(** tree_colorer.h L448-475: [threads] threads each scan all the bodies (the inner
    parallel region has one thread unless nested parallelism is switched on; with
    it the threads race on trange, which is not modelled) and merge one after the
    other. *)
Definition merge (l t : rrange) : rrange := (fun d => Rmin (fst l d) (fst t d), fun d => Rmax (snd l d) (snd t d)).
Definition local_range_omp (threads : nat) (bodies : list rbody) : option rrange :=
  b <- back bodies ;;
  Some (fold_left merge (repeat (fold_left widen bodies (rb_x b, rb_x b)) threads) (rb_x b, rb_x b)).
