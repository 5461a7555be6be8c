(** Smoothing lengths: /repo/include/physics/default_physics.h L825-849
    (compute_smoothinglength) and L880-903 (compute_average_smoothinglength), on the
    processes of a run.  double is modelled by the reals; a particle is its mass and
    its density.  [None]: division by zero. *)
From Coq Require Import Reals.
From Verif Require Import Base BuildTree_model.
Local Open Scope R_scope.

(** default_physics.h L828-847: the ratio, sqrt or cbrt of it, times sph_eta times
    kernel_width (kernels.h).  cbrt of a negative number is the negative root. *)
Definition cbrt (x : R) : R :=
  if Rlt_dec 0 x then Rpower x (/ 3) else if Rlt_dec x 0 then - Rpower (- x) (/ 3) else 0.
Definition hroot (dim : nat) (x : R) : option R :=
  match dim with
  | 1%nat => Some x
  | 2%nat => if Rlt_dec x 0 then None (* NaN *) else Some (sqrt x)
  | 3%nat => Some (cbrt x)
  | _ => None
  end.
Definition radius_of (dim : nat) (eta width : R) (b : R * R) : option R :=
  if Req_EM_T (snd b) 0 then None else r <- hroot dim (fst b / snd b) ;; Some (r * eta * width).
(** a loop over a vector that may fail *)
Fixpoint mapM {A B} (f : A -> option B) (l : list A) : option (list B) :=
  match l with [] => Some [] | x :: r => y <- f x ;; ys <- mapM f r ;; Some (y :: ys) end.
(** default_physics.h L826-849, one process *)
Definition compute_smoothinglength (dim : nat) (eta width : R) (bs : list (R * R)) : option (list R) := mapM (radius_of dim eta width) bs.
(** default_physics.h L885-889: the local sum *)
Definition sum_radii (hs : list R) : R := fold_left Rplus hs 0.
(** default_physics.h L880-903 on all processes: each computes its radii and sums them,
    MPI_Allreduce adds the sums, every particle gets the same radius.  [n] is
    bs.getNBodies(). *)
Definition compute_average (dim : nat) (eta width : R) (n : nat) (ranks : list (list (R * R))) : option (list (list R)) :=
  rs <- mapM (compute_smoothinglength dim eta width) ranks ;;
  let total := fold_left Rplus (map sum_radii rs) 0 in
  let h := 1 / INR n * total in
  Some (map (map (fun _ => h)) rs).
