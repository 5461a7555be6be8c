(** Model of the packed flag word of class [hcell],
    /repo/include/tree_topology/tree_types.h lines 147-287.  The word
    [type_] is an N (the code uses a 32-bit unsigned; the fields end at bit 15
    in dimension 3). *)
From Verif Require Import Base.
Local Open Scope N_scope.

(** tree_types.h L154-159: displacements. *)
Definition locality_displ (dim : N) : N := N.shiftl 1 dim.
Definition requested_displ (dim : N) : N := N.shiftl 1 dim + 2.
Definition nchild_recv_displ (dim : N) : N := N.shiftl 1 dim + 3.

(** tree_types.h L160-165: masks. *)
Definition locality_mask (dim : N) : N := N.shiftl 3 (locality_displ dim).
Definition requested_mask (dim : N) : N := N.shiftl 1 (requested_displ dim).
Definition nchild_recv_mask (dim : N) : N := N.shiftl 15 (nchild_recv_displ dim).

(** tree_types.h L169-176: a new cell has type_ = 0. *)
Definition hcell_new : N := 0.

(** tree_types.h L187-198: get_child, add_child, nchildren. *)
Definition get_child (w c : N) : bool := negb (N.land w (N.shiftl 1 c) =? 0).
Definition add_child (w c : N) : N := N.lor w (N.shiftl 1 c).
Fixpoint nchildren_loop (n : nat) (w : N) : N :=
  match n with
  | O => 0
  | S i => nchildren_loop i w + N.b2n (get_child w (N.of_nat i))
  end.
Definition nchildren (dim w : N) : N := nchildren_loop (N.to_nat (N.shiftl 1 dim)) w.

(** tree_types.h L207-217: set_shared, set_requested, unset_requested. *)
Definition set_shared (dim w : N) : N :=
  N.lor (N.ldiff w (locality_mask dim)) (N.shiftl 2 (locality_displ dim)).
Definition set_requested (dim w : N) : N :=
  N.lor (N.ldiff w (requested_mask dim)) (requested_mask dim).
Definition unset_requested (dim w : N) : N := N.ldiff w (requested_mask dim).

(** tree_types.h L221-227: nchildren_to_receive, set_nchildren_to_receive. *)
Definition nchildren_to_receive (dim w : N) : N := N.land (N.shiftr w (nchild_recv_displ dim)) 15.
Definition set_nchildren_to_receive (dim w n : N) : N :=
  N.lor (N.ldiff w (nchild_recv_mask dim)) (N.shiftl n (nchild_recv_displ dim)).

(** tree_types.h L237-250: is_shared, requested, has_child, and is_empty_node
    of a cell known to be a node. *)
Definition is_shared (dim w : N) : bool :=
  N.shiftr (N.land w (locality_mask dim)) (locality_displ dim) =? 2.
Definition requested (dim w : N) : bool := negb (N.land w (requested_mask dim) =? 0).
Definition has_child (dim w : N) : bool := negb (N.land w (N.shiftl 1 (N.shiftl 1 dim) - 1) =? 0).
Definition is_empty_node (dim w : N) : bool :=
  negb (has_child dim w) || (nchildren dim w <? nchildren_to_receive dim w).
