(** Keys in double precision.  /repo/include/tree_topology/filling_curve.h
    L511-515 (Morton) and L274-277 (Hilbert), range() L553-586, and
    /repo/mpisph/bodies_system.h mpi_compute_range L231-268, with the rounding of
    every operation.  A double is a real number of the binary64 format: 53 bits,
    exponent from -1074, below 2^1024 in absolute value (Flocq's [FLT_exp]).
    An operation rounds the exact result to nearest, ties to even, and is [None]
    when it overflows.  Infinities, NaN and signed zeros are not modelled; nor are
    fused operations or wider registers. *)
From Coq Require Import Reals.
From Flocq Require Import Core.
From Verif Require Import Base Key_model BuildTree_model Morton_model Range_model.
Local Open Scope R_scope.

(** binary64 *)
Definition dexp : Z -> Z := FLT_exp (-1074) 53.
Definition rnd (x : R) : R := round radix2 dexp ZnearestE x.
Definition dmax_bound : R := bpow radix2 1024.
Definition is_double (x : R) : Prop := generic_format radix2 dexp x /\ Rabs x < dmax_bound.
(** the result of an operation whose exact value is [x] *)
Definition fl (x : R) : option R := if Rlt_dec (Rabs (rnd x)) dmax_bound then Some (rnd x) else None.

(** filling_curve.h L512-515, L275-277: min = range[0][i]; scale = range[1][i] - min;
    (p[i] - min) / scale * (double)(1 << max_depth), cast to an unsigned word and
    cut at max_val.  The conversion of 1 << max_depth is exact.  A zero scale and
    a cast out of range are [None]. *)
Definition cell_fl (dim : N) (mn mx p : R) : option N :=
  scale <- fl (mx - mn) ;;
  if Req_EM_T scale 0 then None else
  d <- fl (p - mn) ;;
  q <- fl (d / scale) ;;
  x <- fl (q * bpow radix2 (Z.of_N (max_depth dim))) ;;
  if Rle_dec x (-1) then None else
  if Rle_dec (bpow radix2 64) x then None else
  Some (N.min (max_val dim) (Z.to_N (Ztrunc x))).

(** filling_curve.h L503-525: the cells of the axes below [dim]. *)
Fixpoint cells_fl (dim : N) (n : nat) (rg : rrange) (p : nat -> R) : option (N -> N) :=
  match n with
  | O => Some (fun _ => 0%N)
  | S m => r <- cells_fl dim m rg p ;;
           c <- cell_fl dim (fst rg m) (snd rg m) (p m) ;;
           Some (fun j => if N.eqb j (N.of_nat m) then c else r j)
  end.
(** filling_curve.h L490-493: the full-depth Morton key of a point. *)
Definition key_fl (dim : N) (rg : rrange) (p : nat -> R) : option N :=
  c <- cells_fl dim (N.to_nat dim) rg p ;; Some (morton_key dim c).

(** filling_curve.h L575-583: the halving loop of range() on one axis;
    nu = (lo + hi) / 2., both operations rounded. *)
Fixpoint halve_fl (j : nat) (c : N) (lo hi : R) : option (R * R) :=
  match j with
  | O => Some (lo, hi)
  | S j' =>
    s <- fl (lo + hi) ;;
    nu <- fl (s / 2) ;;
    if negb (N.land c (N.shiftl 1 (N.of_nat j')) =? 0)%N
    then halve_fl j' c nu hi else halve_fl j' c lo nu
  end.

(** bodies_system.h L242-249: one body.  [None] when x + h or x - h overflows on
    an axis below [dim]. *)
Fixpoint body_ok_fl (n : nat) (b : rbody) : bool :=
  match n with
  | O => true
  | S m => match fl (rb_x b m + rb_h b), fl (rb_x b m - rb_h b) with
           | Some _, Some _ => body_ok_fl m b | _, _ => false end
  end.
Definition widen_fl (rg : rrange) (b : rbody) : rrange :=
  (fun d => if Rlt_b (rnd (rb_x b d - rb_h b)) (fst rg d) then rnd (rb_x b d - rb_h b) else fst rg d,
   fun d => if Rlt_b (snd rg d) (rnd (rb_x b d + rb_h b)) then rnd (rb_x b d + rb_h b) else snd rg d).
(** L236-250 *)
Definition local_range_fl (n : nat) (bodies : list rbody) : option rrange :=
  b <- back bodies ;;
  if forallb (body_ok_fl n) bodies then Some (fold_left widen_fl bodies (rb_x b, rb_x b)) else None.
(** L231-268; minima and maxima are exact *)
Fixpoint locals_fl (n : nat) (ranks : list (list rbody)) : option (list rrange) :=
  match ranks with [] => Some [] | b :: r => x <- local_range_fl n b ;; y <- locals_fl n r ;; Some (x :: y) end.
Definition compute_range_fl (n : nat) (ranks : list (list rbody)) : option rrange :=
  l <- locals_fl n ranks ;; allreduce l.
