(** What the columns of the diagnostics are meant to hold. *)
From Coq Require Import Reals.
From Verif Require Import Base Vec Diag_model.
Local Open Scope R_scope.

Definition least_N (l : list N) (x : N) : Prop := In x l /\ forall y, In y l -> (x <= y)%N.
Definition greatest_N (l : list N) (x : N) : Prop := In x l /\ forall y, In y l -> (y <= x)%N.
Definition least_R (l : list R) (x : R) : Prop := In x l /\ forall y, In y l -> x <= y.
Definition greatest_R (l : list R) (x : R) : Prop := In x l /\ forall y, In y l -> y <= x.
Fixpoint sum_N (l : list N) : N := match l with [] => 0%N | x :: r => (x + sum_N r)%N end.
Fixpoint sum_R (l : list R) : R := match l with [] => 0 | x :: r => x + sum_R r end.

(** all particles of a call *)
Definition everyone (c : dcall) : list dbody := concat (dc_ranks c).
(** the calls that write *)
Definition dues (every : Z) (cs : list dcall) : list dcall := filter (due every) cs.
(** [size] processes, each with a particle, whenever something is written *)
Definition settled (size : nat) (every : Z) (cs : list dcall) : Prop :=
  (1 <= size)%nat /\ forall c, In c (dues every cs) -> length (dc_ranks c) = size /\ forall bs, In bs (dc_ranks c) -> bs <> [].
