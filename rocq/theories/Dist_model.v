(** Model of one attempt of traversal_sph on one of several ranks,
    /repo/include/tree_topology/tree_topology.h L213-442: the cells to process (L220-236),
    the group of one cell (L282-310) and the search for its neighbours (L312-413) in the
    table the rank holds.  check_comms_ (L252-253) runs before an attempt, so the table does
    not change during it.  [look] finds a cell: its word and the entity or summary it refers
    to.  An attempt ends with [Some None] when it met an empty node (non_local) and is tried
    again later (L387-400); a missing cell is [None].  The requests sent meanwhile are part
    of Comms_model.  On one process: Search_model.  double is modelled by the real numbers. *)
From Verif Require Import Base Key_model HCell_model BuildTree_model Vec Geometry_model Cofm_model Share_model Comms_model.
Local Open Scope N_scope.

(** the tables of Share_model and Comms_model *)
Definition look_s {Ent} (t : stable Ent cofm) (k : N) : option (N * (Ent + cofm)) :=
  match t k with Some c => match s_set c with Some x => Some (s_word c, x) | None => None end | None => None end.
Definition look_r {Ent} (t : rtable (option (Ent + cofm))) (k : N) : option (N * (Ent + cofm)) :=
  match t k with Some c => match r_data c with Some x => Some (r_word c, x) | None => None end | None => None end.
(** compute_cofm as f_cc *)
Definition cofm_of {Ent} (eb : Ent -> body) (n : nat) (_ : N) (es : list Ent) (ss : list cofm) : cofm := compute_cofm n (map eb es) ss.

Section Dist.
Context {Ent : Type} (eb : Ent -> body) (dim : N) (look : N -> option (N * (Ent + cofm))).
Let n : nat := N.to_nat dim.
(** daughters_ L1889-1903 *)
Fixpoint dkids (k w : N) (ds : list N) : option (list N) :=
  match ds with
  | [] => Some []
  | j :: r => if get_child w j then ck <- key_push dim k j ;; c <- look ck ;; rest <- dkids k w r ;; Some (ck :: rest) else dkids k w r
  end.
(** L192-207 *)
Fixpoint dwalk {A} (fuel : nat) (func : N -> N * (Ent + cofm) -> A -> bool * A) (stk : list N) (acc : A) : option A :=
  match stk with
  | [] => Some acc
  | cur :: r =>
    match fuel with
    | O => None
    | S f =>
      c <- look cur ;;
      let res := func cur c acc in
      if fst res then ds <- dkids cur (fst c) (digits dim) ;; dwalk f func (rev ds ++ r) (snd res)
      else dwalk f func r (snd res)
    end
  end.
(** L222-236 *)
Definition dcells_func (sent : nat) (key : N) (c : N * (Ent + cofm)) (acc : list N) : bool * list N :=
  match snd c with
  | inr m => if is_shared dim (fst c) || (sent <? cm_sub m)%nat then (true, acc) else (false, acc ++ [key])
  | inl _ => (false, if is_shared dim (fst c) then acc else acc ++ [key])
  end.
Definition dist_cells (fuel : nat) : option (list N) := dwalk fuel (dcells_func 128) [key_root] [].
(** L290-308 *)
Definition dgroup_func (_ : N) (c : N * (Ent + cofm)) (acc : list Ent) : bool * list Ent :=
  match snd c with
  | inr _ => (true, acc)
  | inl e => (false, if is_shared dim (fst c) then acc else acc ++ [e])
  end.

(** L322-386: one cell of the queue: whether it is an empty node to wait for, the daughters
    for the new queue, the neighbours so far of every target *)
Definition dist_cell (cur : option cofm) (h : N) (nbs : list (Ent * list Ent)) : option (bool * list N * list (Ent * list Ent)) :=
  c <- look h ;;
  match snd c with
  | inr m =>
    if match cur with Some cn => negb (intersects_box_box n (cm_min m) (cm_max m) (cm_min cn) (cm_max cn)) | None => false end
    then Some (false, [], nbs)
    else if existsb (fun x => intersects_sphere_box n (cm_min m) (cm_max m) (b_pos (eb (fst x))) (b_rad (eb (fst x)))) nbs
    then if is_empty_node dim (fst c) then Some (true, [], nbs)
         else ds <- dkids h (fst c) (digits dim) ;; Some (false, ds, nbs)
    else Some (false, [], nbs)
  | inl e =>
    if match cur with Some cn => negb (within_distance2 n (b_pos (eb e)) (cm_pos cn) (Rmax (b_rad (eb e)) (cm_lap cn) + cm_rad cn)) | None => false end
    then Some (false, [], nbs)
    else Some (false, [], map (fun x => if within_distance2 n (b_pos (eb (fst x))) (b_pos (eb e)) (Rmax (b_rad (eb (fst x))) (b_rad (eb e)))
                                        then (fst x, snd x ++ [e]) else x) nbs)
  end.
(** L320-405 *)
Fixpoint dist_level (cur : option cofm) (queue : list N) (nbs : list (Ent * list Ent)) : option (bool * list N * list (Ent * list Ent)) :=
  match queue with
  | [] => Some (false, [], nbs)
  | h :: r =>
    x <- dist_cell cur h nbs ;; let '(b1, q1, nbs1) := x in
    y <- dist_level cur r nbs1 ;; let '(b2, q2, nbs2) := y in
    Some (b1 || b2, q1 ++ q2, nbs2)
  end.
Fixpoint dist_queue (fuel : nat) (cur : option cofm) (queue : list N) (nbs : list (Ent * list Ent)) : option (option (list (Ent * list Ent))) :=
  match queue with
  | [] => Some (Some nbs)
  | _ =>
    match fuel with
    | O => None
    | S g => x <- dist_level cur queue nbs ;; let '(b, q, nbs') := x in
             if b then Some None else dist_queue g cur q nbs'
    end
  end.
(** L282-413: one attempt for the cell [key]: the calls of [ef] *)
Definition dist_target (fuel : nat) (key : N) : option (option (list (Ent * list Ent))) :=
  c <- look key ;;
  match snd c with
  | inr m => ents <- dwalk fuel dgroup_func [key] [] ;; dist_queue fuel (Some m) [key_root] (map (fun e => (e, [])) ents)
  | inl e => dist_queue fuel None [key_root] [(e, [])]
  end.
Fixpoint dist_targets (fuel : nat) (keys : list N) : option (option (list (Ent * list Ent))) :=
  match keys with
  | [] => Some (Some [])
  | k :: r => x <- dist_target fuel k ;; y <- dist_targets fuel r ;;
              match x, y with Some a, Some b => Some (Some (a ++ b)) | _, _ => Some None end
  end.
(** all cells in one table: what a rank does when nothing is missing *)
Definition dist_sph (fuel : nat) : option (option (list (Ent * list Ent))) := cells <- dist_cells fuel ;; dist_targets fuel cells.
End Dist.
