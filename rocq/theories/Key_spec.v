(** Specification vocabulary for tree keys, independent of the code: a key
    denotes a path of child numbers from the root. *)
From Verif Require Import Base.
Local Open Scope N_scope.

(** The key of a path: a leading one followed by the digits in base 2^dim. *)
Definition key_of_path (dim : N) (ds : list N) : N :=
  fold_left (fun k d => k * 2 ^ dim + d) ds 1.

(** A path of child numbers that fits in the 64-bit word. *)
Definition path_ok (dim : N) (ds : list N) : Prop :=
  Forall (fun d => d < 2 ^ dim) ds /\ N.of_nat (length ds) * dim < 64.

(** Lexicographic order of paths. *)
Fixpoint lex_lt (xs ys : list N) : Prop :=
  match xs, ys with
  | [], [] => False
  | [], _ :: _ => True
  | _ :: _, [] => False
  | x :: xs', y :: ys' => x < y \/ (x = y /\ lex_lt xs' ys')
  end.
