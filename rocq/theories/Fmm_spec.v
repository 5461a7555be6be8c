(** What it means that a traversal accounts for each pair of particles. *)
From Verif Require Import Base Key_model BuildTree_spec Fmm_model.
Local Open Scope N_scope.

(** The cell [p] is an ancestor of, or equal to, the full key [k]. *)
Definition under (dim p k : N) : bool :=
  existsb (fun r => up dim (N.of_nat r) k =? p) (seq 0 (S (N.to_nat (max_depth dim)))).

Section Routes.
Variables (dim : N) (ks : list N) (calls : list call).
Definition b2n (b : bool) : nat := if b then 1 else 0.
(** particle [j] lies in cell [p] *)
Definition inside (p : N) (j : nat) : nat := b2n (under dim p (nth j ks 0)).
Definition total {A} (f : A -> nat) (l : list A) : nat := list_sum (map f l).

(** how often source [j] acts directly on particle [i] in a call *)
Definition direct (i j : nat) (c : call) : nat :=
  match c with
  | C_p2p s node sources =>
      if Nat.eqb s i
      then (match node with Some p => inside p j | None => 0 end + count_occ Nat.eq_dec sources j)%nat
      else 0%nat
  | _ => 0%nat
  end.
(** how often source [j] acts on cell [p] *)
Definition on_cell (p : N) (j : nat) (c : call) : nat :=
  match c with
  | C_c2c sink source => if sink =? p then inside source j else 0%nat
  | C_p2c sink source => if (sink =? p) && Nat.eqb source j then 1%nat else 0%nat
  | _ => 0%nat
  end.
(** how often what a cell has received from [j] is passed on to [i] *)
Definition passed_on (i j : nat) (c : call) : nat :=
  match c with
  | C_c2p sink subs => (count_occ Nat.eq_dec subs i * total (on_cell sink j) calls)%nat
  | _ => 0%nat
  end.
Definition routes (i j : nat) : nat := (total (direct i j) calls + total (passed_on i j) calls)%nat.
End Routes.
