(** Model of /repo/include/tree_topology/tree_topology.h: traversal_fmm (L449-795) on one of
    several ranks.  A pass over the queue (L474-664) works in the table the rank holds after
    check_comms_ (L471-472), so the table does not change during a pass.  [look] finds a
    cell: its word and the particle or summary it refers to; [mine]: iam_owner
    (tree_types.h L233-235), the owner of the cell is the rank.  Particles are numbered over all
    ranks.  A failed assertion or a missing cell is [None].  The requests sent meanwhile and
    the end of the messages (L666-680) are part of Comms_model; REQUEST_SUBTREE (L588-619)
    is left out, since fmm_sub_entities_ is 0 (L2122) and no pair reaches it.  The calls are
    those of Fmm_model, which is the same for one process.  double is modelled by the real
    numbers. *)
From Verif Require Import Base Key_model HCell_model BuildTree_model Vec Geometry_model Cofm_model Search_model Gravity_model Fmm_model Share_model Comms_model Dist_model.
Local Open Scope N_scope.

(** tree_types.h L233-235 *)
Definition iam_owner {D} (rank : nat) (t : rtable D) (k : N) : bool := match t k with Some c => (r_owner c =? rank)%nat | None => false end.

Section DFmm.
Variables (eb : nat -> body) (dim : N) (MAC : R).
Let n : nat := N.to_nat dim.
Section Table.
Variables (look : N -> option (N * (nat + cofm))) (mine : N -> bool).
(** L530-556 *)
Definition dextent (x : nat + cofm) : point * R * nat :=
  match x with inl e => (b_pos (eb e), 0%R, 1%nat) | inr m => (cm_pos m, cm_rad m, cm_sub m) end.
(** is_empty_node of a node (tree_types.h L245-247) *)
Definition dempty (c : N * (nat + cofm)) : bool := match snd c with inr _ => is_empty_node dim (fst c) | inl _ => false end.
(** L476-662: one pair of the queue; a pair whose source is an empty node is kept for the
    next pass (L643-659) *)
Definition dfmm_pair (x : N * N) : option (list (N * N) * list call * list (N * N)) :=
  c1 <- look (fst x) ;;
  c2 <- look (snd x) ;;
  if negb (mine (fst x)) then None else
  if dempty c2 then Some ([x], [], []) else
  match snd c1, snd c2 with
  | inl _, inl _ => Some ([], [], [x])
  | _, _ =>
    if fst x =? snd x then
      match snd c1 with
      | inl _ => None
      | inr m =>
        if (cm_sub m <? fmm_sub_limit)%nat then Some ([], [], [x])
        else ds <- dkids dim look (fst x) (fst c1) (digits dim) ;; Some (filter (fun y => mine (fst y)) (self_pairs ds), [], [])
      end
    else
      let '(coords1, radius1, subent1) := dextent (snd c1) in
      let '(coords2, radius2, subent2) := dextent (snd c2) in
      if mac n coords1 radius1 coords2 radius2 MAC then
        match snd c1, snd c2 with
        | inr _, inr _ => Some ([], [C_c2c (fst x) (snd x)], [])
        | inr _, inl e => Some ([], [C_p2c (fst x) e], [])
        | inl e, _ => Some ([], [C_p2p e (Some (snd x)) []], [])
        end
      else if (subent1 + subent2 <? fmm_sub_limit)%nat then Some ([], [], [x])
      else if Rltb radius2 radius1 then
        ds <- dkids dim look (fst x) (fst c1) (digits dim) ;; Some (map (fun d => (d, snd x)) (filter mine ds), [], [])
      else
        ds <- dkids dim look (snd x) (fst c2) (digits dim) ;; Some (map (fun d => (fst x, d)) ds, [], [])
  end.
(** L474-664: one pass *)
Fixpoint dfmm_pass (queue : list (N * N)) : option (list (N * N) * list call * list (N * N)) :=
  match queue with
  | [] => Some ([], [], [])
  | x :: r =>
    a <- dfmm_pair x ;;
    b <- dfmm_pass r ;;
    Some (fst (fst a) ++ fst (fst b), snd (fst a) ++ snd (fst b), snd a ++ snd b)
  end.

(** L681-695 *)
Definition daffected_func (calls : list call) (key : N) (c : N * (nat + cofm)) (acc : list N) : bool * list N :=
  if negb (mine key) then (false, acc)
  else (true, match snd c with inr _ => if affected calls key then acc ++ [key] else acc | inl _ => acc end).
(** L697-718 *)
Fixpoint dc2p_calls (fuel : nat) (keys : list N) : option (list call) :=
  match keys with
  | [] => Some []
  | k :: r =>
    subs <- dwalk dim look fuel (dgroup_func dim) [k] [] ;;
    y <- dc2p_calls fuel r ;;
    Some (C_c2p k subs :: y)
  end.
(** L724-764: the particles of a cell in the p2p list that are not shared; of an entity, itself *)
Definition dcell_ents (fuel : nat) (key : N) (c : N * (nat + cofm)) : option (list nat) :=
  match snd c with
  | inr _ => dwalk dim look fuel (dgroup_func dim) [key] []
  | inl e => Some [e]
  end.
(** L720-774 *)
Fixpoint dp2p_calls (fuel : nat) (l : list (N * N)) : option (list call) :=
  match l with
  | [] => Some []
  | x :: r =>
    c1 <- look (fst x) ;;
    c2 <- look (snd x) ;;
    subs <- dcell_ents fuel (fst x) c1 ;;
    neighbors <- dcell_ents fuel (snd x) c2 ;;
    y <- dp2p_calls fuel r ;;
    match snd c1 with
    | inr _ => Some (C_c2p (fst x) subs :: y)
    | inl e => Some (C_p2p e None neighbors :: y)
    end
  end.
(** L681-774: what follows the passes, given the calls and the p2p list they have left *)
Definition dfmm_end (fuel : nat) (calls : list call) (p2p : list (N * N)) : option (list call) :=
  nodes <- dwalk dim look fuel (daffected_func calls) [key_root] [] ;;
  a <- dc2p_calls fuel nodes ;;
  b <- dp2p_calls fuel p2p ;;
  Some (a ++ b).
End Table.

(** L469-664: the passes, in the tables given; the queue left, the calls made, the p2p list.
    The loop ends as soon as the queue is empty; a pass over an empty queue does nothing. *)
Fixpoint dfmm_passes (ts : list ((N -> option (N * (nat + cofm))) * (N -> bool))) (queue : list (N * N)) : option (list (N * N) * list call * list (N * N)) :=
  match ts with
  | [] => Some (queue, [], [])
  | t :: r =>
    a <- dfmm_pass (fst t) (snd t) queue ;;
    b <- dfmm_passes r (fst (fst a)) ;;
    Some (fst (fst b), snd (fst a) ++ snd (fst b), snd a ++ snd b)
  end.
End DFmm.
(** get_node on a cell of the table (tree_topology.h L1019-1033; the two arrays of
    summaries are one here); the calls of the passes and of the
    final loops get their nodes with it *)
Definition node_of (look : N -> option (N * (nat + cofm))) (k : N) : option cofm := match look k with Some (_, inr m) => Some m | _ => None end.
