(** Model of the exchange pattern of share_nodes_,
    /repo/include/tree_topology/tree_topology.h L1549-1744.
    A rank's view of the tree is the list of branches find_nodes_ (L1788-1827) returns;
    a branch has an owner and covers some of the top-level branches the ranks start with.
    Loading received branches (L1618-1632) and completing the nodes above them
    (cofm_update_, L1753-1781) is the parameter [merge]: several branches can become one.
    Rounds are synchronous: every MPI_Sendrecv is matched by that of the partner
    (theorem C16_matched).  log2 is exact. *)
From Verif Require Import Base.

Record item (B : Type) := Item { it_owner : nat; it_cover : list B }.
Arguments Item {B}. Arguments it_owner {B}. Arguments it_cover {B}.
(** the branches of the rank, and those of the ghost rank it stands for (L1581-1584) *)
Record rstate (B : Type) := RState { rs_know : list (item B); rs_buf : list (item B) }.
Arguments RState {B}. Arguments rs_know {B}. Arguments rs_buf {B}.

(** L1561-1573 *)
Definition dim0 (size : nat) : nat := Nat.log2 size.
Definition non_power_2 (size : nat) : bool := (2 ^ dim0 size <? size)%nat.
Definition rounds (size : nat) : nat := if non_power_2 size then S (dim0 size) else dim0 size.
Definition ghost_rank (size rank : nat) : nat :=
  let g := (rank + 2 ^ (rounds size - 1))%nat in if (2 ^ rounds size - 1 <? g)%nat then rank else g.
(** L1588-1589 *)
Definition main_partner (size i rank : nat) : option nat :=
  let p := Nat.lxor rank (2 ^ i) in if (p <? size)%nat then Some p else None.
(** L1636-1650: nothing, the ghost rank's partner is the rank itself (L1651-1674), an
    exchange of the rank's own branches (L1677-1680), or of the ghost rank's (L1681-1684) *)
Inductive gact := GSkip | GSelf | GOwn (p : nat) | GBuf (p : nat).
Definition ghost_action (size i rank : nat) : gact :=
  if negb (non_power_2 size) then GSkip else
  let g := ghost_rank size rank in
  if negb (rank =? g) && (g <=? size - 1) then GSkip else
  let gp := Nat.lxor g (2 ^ i) in
  if (g =? rank) && (gp <? size) then GSkip else
  if (size <? g) && (size <? gp) then GSkip else
  let p := if (size <=? gp) then gp - 2 ^ (rounds size - 1) else gp in
  if (p =? rank) then GSelf else if (g =? rank) then GOwn p else GBuf p.

Section Share.
Context {B : Type} (size : nat) (merge : nat -> list (item B) -> list (item B)).
Definition view := nat -> rstate B.
(** L1618-1633, L1658-1674, L1713-1728: what is not owned by the rank is loaded *)
Definition load (rank : nat) (know recv : list (item B)) : list (item B) :=
  merge rank (know ++ filter (fun it => negb (it_owner it =? rank)%nat) recv).
(** L1586-1635 *)
Definition main_round (i : nat) (v : view) : view := fun r =>
  match main_partner size i r with
  | Some p => RState (load r (rs_know (v r)) (rs_know (v p))) (rs_buf (v r))
  | None => v r
  end.
(** L1676-1684: what the rank sends *)
Definition ghost_sent (i : nat) (v : view) (r : nat) : list (item B) :=
  match ghost_action size i r with GBuf _ => rs_buf (v r) | _ => rs_know (v r) end.
(** L1636-1737.  After an exchange for the ghost rank the code appends ghosts_entities and
    ghosts_nodes, what was sent, and not what was received (L1731-1734). *)
Definition ghost_round (i : nat) (v : view) : view := fun r =>
  match ghost_action size i r with
  | GSkip => v r
  | GSelf => let buf := rs_buf (v r) ++ rs_know (v r) in RState (load r (rs_know (v r)) buf) buf
  | GOwn p => RState (load r (rs_know (v r)) (ghost_sent i v p)) (rs_buf (v r))
  | GBuf _ => RState (rs_know (v r)) (rs_buf (v r) ++ ghost_sent i v r)
  end.
Fixpoint run_rounds (n i : nat) (v : view) : view :=
  match n with O => v | S m => run_rounds m (S i) (ghost_round i (main_round i v)) end.
(** [branches r]: the branches rank r starts with *)
Definition share_nodes (branches : nat -> list (item B)) : view := run_rounds (rounds size) 0 (fun r => RState (branches r) []).
End Share.
