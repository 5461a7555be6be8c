(** Model of /repo/include/tree_topology/tree_topology.h: traversal_fmm
    (L449-795) on one process (size == 1: no messages, every cell owned by the
    process, no shared cells; an empty node, which would be requested from
    another process, is the outcome [None]), and of the effect of the calls it
    makes with the functions of include/physics/fmm.h.  Cells are named by their
    keys; double is modelled by the real numbers. *)
From Verif Require Import Base Key_model HCell_model BuildTree_model Vec Geometry_model Cofm_model Search_model Gravity_model.
Local Open Scope N_scope.

(** The calls of the four function arguments: t_c2c(sink, source) L563, t_p2c
    L567, f_p2p(subs, node, neighbors) L576 and L772, f_c2p(node, subs) L717 and
    L767. *)
Inductive call : Type :=
| C_c2c (sink source : N)
| C_p2c (sink : N) (source : nat)
| C_p2p (sink : nat) (node : option N) (sources : list nat)
| C_c2p (sink : N) (subs : list nat).

(** fmm_sub_entities_ (L2122) *)
Definition fmm_sub_limit : nat := 0.

Section Fmm.
Variables (dim : N) (t : table) (cofms : list cofm) (bodies : list body) (MAC : R).
Let n : nat := N.to_nat dim.

(** L530-556: coordinates, radius and number of sub-entities of a cell. *)
Definition extent (c : cell) : option (point * R * nat) :=
  nd <- is_node c ;;
  if nd then m <- get_node cofms c ;; Some (cm_pos m, cm_rad m, cm_sub m)
  else e <- get_entity bodies c ;; Some (b_pos (snd e), 0%R, 1%nat).

(** L513-526: the pairs of daughters of a cell that is paired with itself. *)
Fixpoint self_pairs {A} (ds : list A) : list (A * A) :=
  match ds with
  | [] => []
  | k1 :: r => (k1, k1) :: flat_map (fun k2 => [(k1, k2); (k2, k1)]) r ++ self_pairs r
  end.

(** L491-645: one pair of the queue.  The result has the pairs for the new
    queue, the calls made and the pairs put in the p2p list. *)
Definition fmm_pair (x : N * N) : option (list (N * N) * list call * list (N * N)) :=
  h1 <- tfind t (fst x) ;;
  h2 <- tfind t (snd x) ;;
  nd2 <- is_node h2 ;;
  if nd2 && is_empty_node dim (c_word h2) then None else
  nd1 <- is_node h1 ;;
  if negb nd1 && negb nd2 then Some ([], [], [x]) else
  if fst x =? snd x then
    m <- get_node cofms h1 ;;
    if (cm_sub m <? fmm_sub_limit)%nat then Some ([], [], [x])
    else ds <- child_keys dim t (fst x) (c_word h1) (digits dim) ;; Some (self_pairs ds, [], [])
  else
    e1 <- extent h1 ;;
    e2 <- extent h2 ;;
    let '(coords1, radius1, subent1) := e1 in
    let '(coords2, radius2, subent2) := e2 in
    if mac n coords1 radius1 coords2 radius2 MAC then
      if nd1 then
        if nd2 then Some ([], [C_c2c (fst x) (snd x)], [])
        else e <- get_entity bodies h2 ;; Some ([], [C_p2c (fst x) (fst e)], [])
      else e <- get_entity bodies h1 ;; Some ([], [C_p2p (fst e) (Some (snd x)) []], [])
    else if (subent1 + subent2 <? fmm_sub_limit)%nat then Some ([], [], [x])
    else if Rltb radius2 radius1 then
      ds <- child_keys dim t (fst x) (c_word h1) (digits dim) ;; Some (map (fun d => (d, snd x)) ds, [], [])
    else
      ds <- child_keys dim t (snd x) (c_word h2) (digits dim) ;; Some (map (fun d => (fst x, d)) ds, [], []).

(** L469-664: the loops over the queue. *)
Fixpoint fmm_level (queue : list (N * N)) : option (list (N * N) * list call * list (N * N)) :=
  match queue with
  | [] => Some ([], [], [])
  | x :: r =>
    a <- fmm_pair x ;;
    b <- fmm_level r ;;
    Some (fst (fst a) ++ fst (fst b), snd (fst a) ++ snd (fst b), snd a ++ snd b)
  end.
Fixpoint fmm_queue (fuel : nat) (queue : list (N * N)) : option (list call * list (N * N)) :=
  match queue with
  | [] => Some ([], [])
  | _ =>
    match fuel with
    | O => None
    | S f =>
      a <- fmm_level queue ;;
      b <- fmm_queue f (fst (fst a)) ;;
      Some (snd (fst a) ++ fst b, snd a ++ snd b)
    end
  end.

(** L570: the nodes whose flag has been set. *)
Definition affected (calls : list call) (key : N) : bool :=
  existsb (fun c => match c with C_c2c k _ | C_p2c k _ => k =? key | _ => false end) calls.
(** L681-695 *)
Definition affected_func (calls : list call) (key : N) (c : cell) (acc : list N) : option (bool * list N) :=
  nd <- is_node c ;;
  Some (true, if nd && affected calls key then acc ++ [key] else acc).
(** L697-718 *)
Fixpoint c2p_calls (fuel : nat) (keys : list N) : option (list call) :=
  match keys with
  | [] => Some []
  | k :: r =>
    subs <- walk dim t fuel (group_func dim bodies) [k] [] ;;
    y <- c2p_calls fuel r ;;
    Some (C_c2p k subs :: y)
  end.

(** L724-764: the particles of a cell in the p2p list. *)
Definition cell_ents (fuel : nat) (key : N) (c : cell) : option (list nat) :=
  nd <- is_node c ;;
  if nd then walk dim t fuel (group_func dim bodies) [key] []
  else e <- get_entity bodies c ;; Some [fst e].
(** L720-774 *)
Fixpoint p2p_calls (fuel : nat) (l : list (N * N)) : option (list call) :=
  match l with
  | [] => Some []
  | x :: r =>
    h1 <- tfind t (fst x) ;;
    h2 <- tfind t (snd x) ;;
    subs <- cell_ents fuel (fst x) h1 ;;
    neighbors <- cell_ents fuel (snd x) h2 ;;
    nd1 <- is_node h1 ;;
    y <- p2p_calls fuel r ;;
    if nd1 then Some (C_c2p (fst x) subs :: y)
    else e <- get_entity bodies h1 ;; Some (C_p2p (fst e) None neighbors :: y)
  end.

(** L449-795 *)
Definition traversal_fmm (fuel : nat) : option (list call) :=
  q <- fmm_queue fuel [(key_root, key_root)] ;;
  nodes <- walk dim t fuel (affected_func (fst q)) [key_root] [] ;;
  c2p <- c2p_calls fuel nodes ;;
  p2p <- p2p_calls fuel (snd q) ;;
  Some (fst q ++ c2p ++ p2p).
End Fmm.

(** The state changed by the calls: pc and fc of the nodes (zero in a new node:
    physics/node.h L66-83 and L131-153, class node with pc_ and fc_), potential and
    acceleration of the particles. *)
Record gstate := GS { s_pc : N -> R; s_fc : N -> point; s_pot : nat -> R; s_acc : nat -> point }.

Section Exec.
Variables (n : nat) (gc : R) (node_at : N -> option cofm) (bodies : list body).

(** get_node on a key, with the fields used by the functions of fmm.h *)
Definition to_node (s : gstate) (k : N) : option gnode :=
  m <- node_at k ;; Some (GNode (cm_pos m) (cm_mass m) (s_pc s k) (s_fc s k)).
(** particles are numbered by their index, which also serves as their id *)
Definition to_body (s : gstate) (i : nat) : gbody :=
  let b := get_body bodies i in GBody i (b_pos b) (b_mass b) (s_pot s i) (s_acc s i).
Definition put_node (s : gstate) (k : N) (g : gnode) : gstate :=
  GS (fun j => if j =? k then gn_pc g else s_pc s j) (fun j => if j =? k then gn_fc g else s_fc s j) (s_pot s) (s_acc s).
Definition put_body (s : gstate) (b : gbody) : gstate :=
  GS (s_pc s) (s_fc s) (fun j => if Nat.eqb j (g_id b) then g_pot b else s_pot s j)
     (fun j => if Nat.eqb j (g_id b) then g_acc b else s_acc s j).

(** mpisph/bodies_system.h L286: taylor_c2c, taylor_p2c, fmm_p2p and fmm_c2p are
    the arguments of traversal_fmm; fmm_p2p and fmm_c2p (fmm.h L124-146 and
    L114-122) work through their sinks one after the other. *)
Definition exec (s : gstate) (c : call) : option gstate :=
  match c with
  | C_c2c k1 k2 => a <- to_node s k1 ;; b <- to_node s k2 ;; Some (put_node s k1 (taylor_c2c n gc a b))
  | C_p2c k1 j => a <- to_node s k1 ;; Some (put_node s k1 (taylor_p2c n gc a (to_body s j)))
  | C_p2p i None js => Some (put_body s (p2p_one n gc None (map (to_body s) js) (to_body s i)))
  | C_p2p i (Some k) js =>
      a <- to_node s k ;; Some (put_body s (p2p_one n gc (Some a) (map (to_body s) js) (to_body s i)))
  | C_c2p k is => a <- to_node s k ;; Some (fold_left (fun s i => put_body s (interaction_c2p n (to_body s i) a)) is s)
  end.
Fixpoint exec_all (s : gstate) (cs : list call) : option gstate :=
  match cs with
  | [] => Some s
  | c :: r => s' <- exec s c ;; exec_all s' r
  end.
End Exec.

(** Fields of a new tree and of particles whose potential and acceleration have
    been reset. *)
Definition gstate0 : gstate := GS (fun _ => 0%R) (fun _ => vzero) (fun _ => 0%R) (fun _ => vzero).
