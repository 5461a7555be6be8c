(** Model of /repo/include/tree_topology/tree_topology.h: traversal (L192-207)
    with the state captured by its lambda, find_in_radius (L801-823) and
    traversal_sph (L213-442) on one process (size == 1: no messages, no shared
    cells; reaching an empty node, which would send a request, is the outcome
    [None]).  Cells are named by their keys.  double is modelled by the real
    numbers. *)
From Verif Require Import Base Key_model HCell_model BuildTree_model Vec Geometry_model Cofm_model.
Local Open Scope N_scope.

Section Search.
Variables (dim : N) (t : table) (cofms : list cofm) (bodies : list body).
Let n : nat := N.to_nat dim.

(** L192-207.  [func] gets the key, the cell and the captured state and returns
    whether to open the cell and the new state. *)
Fixpoint walk {A} (fuel : nat) (func : N -> cell -> A -> option (bool * A)) (stk : list N) (acc : A) : option A :=
  match stk with
  | [] => Some acc
  | cur :: r =>
    match fuel with
    | O => None
    | S f =>
      c <- tfind t cur ;;
      res <- func cur c acc ;;
      if fst res then
        ds <- child_keys dim t cur (c_word c) (digits dim) ;;
        walk f func (rev ds ++ r) (snd res)
      else walk f func r (snd res)
    end
  end.

(** get_node L1018-1030, get_entity L1002-1013 on cells that are not shared;
    is_node (tree_types.h L268-271) asserts that the cell is set. *)
Definition get_node (c : cell) : option cofm := j <- c_node c ;; nth_error cofms j.
Definition get_entity (c : cell) : option (nat * body) :=
  i <- c_ent c ;; b <- nth_error bodies i ;; Some (i, b).
Definition is_node (c : cell) : option bool :=
  match c_node c, c_ent c with
  | Some _, _ => Some true
  | None, Some _ => Some false
  | None, None => None
  end.

(** find_in_radius L801-823. *)
Definition find_func (center : point) (radius : R) (_ : N) (c : cell) (acc : list nat) : option (bool * list nat) :=
  nd <- is_node c ;;
  if nd then
    m <- get_node c ;;
    Some (within_distance2 n (cm_pos m) center (Rmax (cm_lap m) radius + cm_rad m), acc)
  else
    e <- get_entity c ;;
    Some (false, if within_distance2 n center (b_pos (snd e)) (Rmax radius (b_rad (snd e)))
                 then acc ++ [fst e] else acc).
Definition find_in_radius (fuel : nat) (center : point) (radius : R) : option (list nat) :=
  walk fuel (find_func center radius) [key_root] [].

(** L222-236: the cells to process: nodes with at most [sent] particles and
    entities above them. *)
Definition cells_func (sent : nat) (key : N) (c : cell) (acc : list N) : option (bool * list N) :=
  nd <- is_node c ;;
  if nd then
    m <- get_node c ;;
    if is_shared dim (c_word c) || (sent <? cm_sub m)%nat then Some (true, acc) else Some (false, acc ++ [key])
  else Some (false, if is_shared dim (c_word c) then acc else acc ++ [key]).

(** L290-308: the particles below the cell. *)
Definition group_func (_ : N) (c : cell) (acc : list nat) : option (bool * list nat) :=
  nd <- is_node c ;;
  if nd then Some (true, acc)
  else if is_shared dim (c_word c) then Some (false, acc)
  else e <- get_entity c ;; Some (false, acc ++ [fst e]).

(** L322-386: one cell of the queue.  [nbs] pairs each target particle with its
    neighbours so far; the result adds the daughters to the new queue. *)
Definition sph_cell (cur : option cofm) (hcur : N) (nbs : list (nat * list nat)) : option (list N * list (nat * list nat)) :=
  c <- tfind t hcur ;;
  nd <- is_node c ;;
  if nd then
    m <- get_node c ;;
    if match cur with
       | Some cn => negb (intersects_box_box n (cm_min m) (cm_max m) (cm_min cn) (cm_max cn))
       | None => false
       end
    then Some ([], nbs)
    else if existsb (fun x => let b := get_body bodies (fst x) in
                     intersects_sphere_box n (cm_min m) (cm_max m) (b_pos b) (b_rad b)) nbs
    then
      if is_empty_node dim (c_word c) then None
      else ds <- child_keys dim t hcur (c_word c) (digits dim) ;; Some (ds, nbs)
    else Some ([], nbs)
  else
    e <- get_entity c ;;
    if match cur with
       | Some cn => negb (within_distance2 n (b_pos (snd e)) (cm_pos cn) (Rmax (b_rad (snd e)) (cm_lap cn) + cm_rad cn))
       | None => false
       end
    then Some ([], nbs)
    else Some ([], map (fun x =>
           let b := get_body bodies (fst x) in
           if within_distance2 n (b_pos b) (b_pos (snd e)) (Rmax (b_rad b) (b_rad (snd e)))
           then (fst x, snd x ++ [fst e]) else x) nbs).

(** L320-405: the loops over the queue. *)
Fixpoint sph_level (cur : option cofm) (queue : list N) (nbs : list (nat * list nat))
  : option (list N * list (nat * list nat)) :=
  match queue with
  | [] => Some ([], nbs)
  | h :: r =>
    x <- sph_cell cur h nbs ;;
    y <- sph_level cur r (snd x) ;;
    Some (fst x ++ fst y, snd y)
  end.
Fixpoint sph_queue (fuel : nat) (cur : option cofm) (queue : list N) (nbs : list (nat * list nat))
  : option (list (nat * list nat)) :=
  match queue with
  | [] => Some nbs
  | _ =>
    match fuel with
    | O => None
    | S f => x <- sph_level cur queue nbs ;; sph_queue f cur (fst x) (snd x)
    end
  end.

(** L282-318: one target cell: its particles and summary, then the queue
    starting at the root.  The result lists the arguments of the calls of [ef]
    (L407-413). *)
Definition sph_target (fuel : nat) (key : N) : option (list (nat * list nat)) :=
  c <- tfind t key ;;
  nd <- is_node c ;;
  if nd then
    ents <- walk fuel group_func [key] [] ;;
    m <- get_node c ;;
    sph_queue fuel (Some m) [key_root] (map (fun i => (i, [])) ents)
  else
    e <- get_entity c ;;
    sph_queue fuel None [key_root] [(fst e, [])].

Fixpoint sph_targets (fuel : nat) (keys : list N) : option (list (nat * list nat)) :=
  match keys with
  | [] => Some []
  | k :: r => x <- sph_target fuel k ;; y <- sph_targets fuel r ;; Some (x ++ y)
  end.

(** sub_entities_ = 128 (L2121) *)
Definition sub_entities_limit : nat := 128.
Definition traversal_sph (fuel : nat) : option (list (nat * list nat)) :=
  cells <- walk fuel (cells_func sub_entities_limit) [key_root] [] ;;
  sph_targets fuel cells.
End Search.
