(** The traversals of Search_model.v with the geometric tests as parameters:
    /repo/include/tree_topology/tree_topology.h, find_in_radius (L801-823) and
    traversal_sph (L213-442) on one process.  Search_model.v is the case of exact
    tests ([real_tests] below); FSearch_model.v that of tests in double precision. *)
From Verif Require Import Base Key_model HCell_model BuildTree_model Vec Geometry_model Cofm_model Search_model.
Local Open Scope N_scope.

(** The tests: a node against the node of the targets (L326-333), a node against
    one target (L335-343), a particle against the node of the targets (L362-368), a
    target against a particle (L370-379); for find_in_radius a node (L811-814) and a
    particle (L806-809) against the sphere. *)
Record tests : Type := mktests
  { t_box : cofm -> cofm -> bool; t_sph : cofm -> body -> bool; t_ent : body -> cofm -> bool; t_leaf : body -> body -> bool;
    t_fnode : cofm -> point -> R -> bool; t_fent : point -> R -> body -> bool }.

Section GSearch.
Variables (dim : N) (T : tests) (t : table) (cofms : list cofm) (bodies : list body).

(** find_in_radius L801-823. *)
Definition gfind_func (center : point) (radius : R) (_ : N) (c : cell) (acc : list nat) : option (bool * list nat) :=
  nd <- is_node c ;;
  if nd then
    m <- get_node cofms c ;;
    Some (t_fnode T m center radius, acc)
  else
    e <- get_entity bodies c ;;
    Some (false, if t_fent T center radius (snd e) then acc ++ [fst e] else acc).
Definition gfind_in_radius (fuel : nat) (center : point) (radius : R) : option (list nat) :=
  walk dim t fuel (gfind_func center radius) [key_root] [].

(** L322-386 *)
Definition gsph_cell (cur : option cofm) (hcur : N) (nbs : list (nat * list nat)) : option (list N * list (nat * list nat)) :=
  c <- tfind t hcur ;;
  nd <- is_node c ;;
  if nd then
    m <- get_node cofms c ;;
    if match cur with Some cn => negb (t_box T m cn) | None => false end
    then Some ([], nbs)
    else if existsb (fun x => t_sph T m (get_body bodies (fst x))) nbs
    then
      if is_empty_node dim (c_word c) then None
      else ds <- child_keys dim t hcur (c_word c) (digits dim) ;; Some (ds, nbs)
    else Some ([], nbs)
  else
    e <- get_entity bodies c ;;
    if match cur with Some cn => negb (t_ent T (snd e) cn) | None => false end
    then Some ([], nbs)
    else Some ([], map (fun x => if t_leaf T (get_body bodies (fst x)) (snd e) then (fst x, snd x ++ [fst e]) else x) nbs).

(** L320-405 *)
Fixpoint gsph_level (cur : option cofm) (queue : list N) (nbs : list (nat * list nat))
  : option (list N * list (nat * list nat)) :=
  match queue with
  | [] => Some ([], nbs)
  | h :: r =>
    x <- gsph_cell cur h nbs ;;
    y <- gsph_level cur r (snd x) ;;
    Some (fst x ++ fst y, snd y)
  end.
Fixpoint gsph_queue (fuel : nat) (cur : option cofm) (queue : list N) (nbs : list (nat * list nat))
  : option (list (nat * list nat)) :=
  match queue with
  | [] => Some nbs
  | _ =>
    match fuel with
    | O => None
    | S f => x <- gsph_level cur queue nbs ;; gsph_queue f cur (fst x) (snd x)
    end
  end.

(** L282-318 *)
Definition gsph_target (fuel : nat) (key : N) : option (list (nat * list nat)) :=
  c <- tfind t key ;;
  nd <- is_node c ;;
  if nd then
    ents <- walk dim t fuel (group_func dim bodies) [key] [] ;;
    m <- get_node cofms c ;;
    gsph_queue fuel (Some m) [key_root] (map (fun i => (i, [])) ents)
  else
    e <- get_entity bodies c ;;
    gsph_queue fuel None [key_root] [(fst e, [])].
Fixpoint gsph_targets (fuel : nat) (keys : list N) : option (list (nat * list nat)) :=
  match keys with
  | [] => Some []
  | k :: r => x <- gsph_target fuel k ;; y <- gsph_targets fuel r ;; Some (x ++ y)
  end.
Definition gtraversal_sph (fuel : nat) : option (list (nat * list nat)) :=
  cells <- walk dim t fuel (cells_func dim cofms sub_entities_limit) [key_root] [] ;;
  gsph_targets fuel cells.
End GSearch.

(** The exact tests, as in Search_model.v. *)
Definition real_tests (n : nat) : tests :=
  mktests (fun m cn => intersects_box_box n (cm_min m) (cm_max m) (cm_min cn) (cm_max cn))
    (fun m b => intersects_sphere_box n (cm_min m) (cm_max m) (b_pos b) (b_rad b))
    (fun e cn => within_distance2 n (b_pos e) (cm_pos cn) (Rmax (b_rad e) (cm_lap cn) + cm_rad cn))
    (fun b e => within_distance2 n (b_pos b) (b_pos e) (Rmax (b_rad b) (b_rad e)))
    (fun m center radius => within_distance2 n (cm_pos m) center (Rmax (cm_lap m) radius + cm_rad m))
    (fun center radius e => within_distance2 n center (b_pos e) (Rmax radius (b_rad e))).
Lemma real_find dim t cofms bodies fuel center radius :
  gfind_in_radius dim (real_tests (N.to_nat dim)) t cofms bodies fuel center radius = find_in_radius dim t cofms bodies fuel center radius.
Proof. reflexivity. Qed.
Lemma real_traversal dim t cofms bodies fuel :
  gtraversal_sph dim (real_tests (N.to_nat dim)) t cofms bodies fuel = traversal_sph dim t cofms bodies fuel.
Proof. reflexivity. Qed.
