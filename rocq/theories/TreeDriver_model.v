(** Model of the driver that tests the tree, /repo/app/drivers/tree/main_driver.cc
    L76-152: neighbour lists of all particles, each tested for the particle itself.

    The lists are those of the traversal (Dist_model); the function of L105-113 is
    called for one particle after the other (tree_topology.h traversal_sph).
    Simplified: no clock, no text but the average; the tree update (L101) is a
    parameter of the loop. *)
From Verif Require Import Base BuildTree_model.
Local Open Scope N_scope.

Section Lists.
Context {Ent : Type} (id : Ent -> Z).
(** L109-112: e.id() == nb->id() ? found = true : found *)
Definition found (e : Ent) (nb : list Ent) : bool :=
  fold_left (fun fd b => if (id e =? id b)%Z then true else fd) nb false.
(** L105-113: total += n.size() and the assertion; None: it fails *)
Definition self_call (total : N) (e : Ent) (nb : list Ent) : option N :=
  let total := total + N.of_nat (length nb) in if found e nb then Some total else None.
Fixpoint self_calls (total : N) (out : list (Ent * list Ent)) : option N :=
  match out with [] => Some total | (e, nb) :: r => t <- self_call total e nb ;; self_calls t r end.
(** L101-116: the inner total starts at 0 (it hides the outer one); the average is
    the quotient of integers, None also for a division by zero *)
Definition self_pass (nbodies : N) (out : list (Ent * list Ent)) : option N :=
  t <- self_calls 0 out ;; if nbodies =? 0 then None else Some (t / nbodies).
End Lists.

(** L95-151: do { ... ++physics::iteration; } while(--total != 0) with the outer
    total, one pass being [body]; None: it has stopped with an assertion, or the
    fuel was too little *)
Fixpoint tree_loop {S} (fuel : nat) (body : S -> option S) (total : N) (it : Z) (s : S) : option (Z * S) :=
  match fuel with
  | O => None
  | Datatypes.S k =>
      s' <- body s ;;
      let it := (it + 1)%Z in let total := total - 1 in
      if total =? 0 then Some (it, s') else tree_loop k body total it s'
  end.
(** L94 *)
Definition tree_passes : N := 5000.
