(** Model of the sharing of branches after the local trees are built,
    /repo/include/tree_topology/tree_topology.h: build_tree L879-992 on every rank with
    exchange_boundaries_ L1976-2020, share_nodes_ L1549-1744 for a power-of-two number of
    ranks (the other sizes: Hypercube_model), cofm_update_ L1753-1781, find_nodes_
    L1788-1827, load_shared_entity_ L1835-1845, load_shared_node_ L1852-1864, add_parent_
    L1871-1887, key_boundary_ L2026-2035.
    The hash table of a rank is a function from keys to cells; a cell holds the entity or
    the summary its index refers to (get_entity L1003-1014, get_node L1020-1035), of types
    [Ent] and [Sum].  The summary function f_cc is [f]: node key, entities, summaries of
    the daughters.  An MPI_Sendrecv of two ranks exchanges what both computed before it.
    A dereferenced end() or a failed assertion is [None], and so is a loop out of fuel. *)
From Verif Require Import Base Key_model HCell_model BuildTree_model.
Local Open Scope N_scope.

Section Share.
Context {Ent Sum : Type} (dim : N) (f : N -> list Ent -> list Sum -> Sum).

(** tree_types.h L281-286: type_, the indices (both -1: [None], is_unset L272-274), owner_ *)
Record scell := mks { s_word : N; s_set : option (Ent + Sum); s_owner : nat }.
Definition stable := N -> option scell.
Definition sput (t : stable) (k : N) (c : scell) : stable := fun k' => if k' =? k then Some c else t k'.
(** tree_types.h L169-185: a new cell belongs to the rank *)
Definition snew (rank : nat) (x : option (Ent + Sum)) : scell := mks hcell_new x rank.
(** unordered_map::emplace and find *)
Definition semplace (t : stable) (k : N) (c : scell) : stable := match t k with Some _ => t | None => sput t k c end.

(** share_node_t, share_entity_t (tree_types.h): owner, key, content.  nchildren is 0 *)
Record item (A : Type) := mki { i_owner : nat; i_key : N; i_val : A }.

(** L1802-1809: the daughters of an unset cell *)
Fixpoint skids (t : stable) (k w : N) (ds : list N) : option (list N) :=
  match ds with
  | [] => Some []
  | j :: r =>
    if get_child w j then ck <- key_push dim k j ;; c <- t ck ;; rest <- skids t k w r ;; Some (ck :: rest)
    else skids t k w r
  end.
(** L1796-1822: one pass over the queue: the next queue, nodes, entities *)
Fixpoint visit (t : stable) (queue : list N) : option (list N * list (item Sum) * list (item Ent)) :=
  match queue with
  | [] => Some ([], [], [])
  | k :: r =>
    c <- t k ;;
    match s_set c with
    | None => ds <- skids t k (s_word c) (digits dim) ;; x <- visit t r ;; let '(q, ns, es) := x in Some (ds ++ q, ns, es)
    | Some (inr s) => x <- visit t r ;; let '(q, ns, es) := x in Some (q, mki _ (s_owner c) k s :: ns, es)
    | Some (inl e) => x <- visit t r ;; let '(q, ns, es) := x in Some (q, ns, mki _ (s_owner c) k e :: es)
    end
  end.
(** L1788-1827 *)
Fixpoint find_nodes (fuel : nat) (t : stable) (queue : list N) : option (list (item Sum) * list (item Ent)) :=
  match queue with
  | [] => Some ([], [])
  | _ =>
    match fuel with
    | O => None
    | S g => x <- visit t queue ;; let '(q, ns, es) := x in rest <- find_nodes g t q ;; Some (ns ++ fst rest, es ++ snd rest)
    end
  end.

(** L1871-1887 *)
Fixpoint add_parent (fuel : nat) (rank : nat) (t : stable) (key child : N) (owner : nat) : option stable :=
  match fuel with
  | O => None
  | S g =>
    match t key with
    | None =>
      let c := mks (add_child (set_shared dim hcell_new) child) None owner in
      x <- key_pop_value dim key ;;
      add_parent g rank (sput t key c) (snd x) (fst x) owner
    | Some p => Some (sput t key (mks (add_child (s_word p) child) (s_set p) (s_owner p)))
    end
  end.
(** L1835-1845: a cell that is there already keeps its index *)
Definition load_entity (rank : nat) (t : stable) (it : item Ent) : option stable :=
  let k := i_key _ it in
  let t1 := semplace t k (snew rank (Some (inl (i_val _ it)))) in
  c <- t1 k ;;
  let t2 := sput t1 k (mks (set_shared dim (s_word c)) (s_set c) (i_owner _ it)) in
  x <- key_pop_value dim k ;;
  add_parent 66 rank t2 (snd x) (fst x) (i_owner _ it).
(** L1852-1864; set_node_idx asserts that the cell is not an entity (tree_types.h L199-202) *)
Definition load_node (rank : nat) (t : stable) (it : item Sum) : option stable :=
  let k := i_key _ it in
  let t1 := semplace t k (snew rank None) in
  c <- t1 k ;;
  match s_set c with
  | Some (inl _) => None
  | _ =>
    let t2 := sput t1 k (mks (set_shared dim (s_word c)) (Some (inr (i_val _ it))) (i_owner _ it)) in
    x <- key_pop_value dim k ;;
    add_parent 66 rank t2 (snd x) (fst x) (i_owner _ it)
  end.
(** L1617-1631: only what other ranks own *)
Fixpoint load_items {A} (ld : stable -> item A -> option stable) (rank : nat) (t : stable) (l : list (item A)) : option stable :=
  match l with
  | [] => Some t
  | it :: r => if (i_owner _ it =? rank)%nat then load_items ld rank t r else t' <- ld t it ;; load_items ld rank t' r
  end.

(** L2026-2035 *)
Fixpoint key_boundary (fuel : nat) (mn mx : N) : option (N * N) :=
  match fuel with
  | O => None
  | S g =>
    if mn <? key_min dim then
      mx' <- key_push dim mx (N.shiftl 1 dim - 1) ;;
      mn' <- key_push dim mn 0 ;;
      key_boundary g mn' mx'
    else Some (mn, mx)
  end.
(** L1949-1970 on the daughters: a daughter without index fails the assertion in is_node *)
Fixpoint kid_data (t : stable) (k w : N) (ds : list N) : option (list (Ent + Sum)) :=
  match ds with
  | [] => Some []
  | j :: r =>
    if get_child w j then ck <- key_push dim k j ;; c <- t ck ;; x <- s_set c ;; rest <- kid_data t k w r ;; Some (x :: rest)
    else kid_data t k w r
  end.
Definition ents_of (l : list (Ent + Sum)) : list Ent := flat_map (fun x => match x with inl e => [e] | inr _ => [] end) l.
Definition sums_of (l : list (Ent + Sum)) : list Sum := flat_map (fun x => match x with inl _ => [] | inr s => [s] end) l.
(** L1753-1781 *)
Fixpoint cofm_update (fuel : nat) (lo hi : N) (t : stable) (k : N) : option stable :=
  match fuel with
  | O => None
  | S g =>
    c <- t k ;;
    b <- key_boundary 66 k k ;;
    if (lo <=? fst b) && (snd b <=? hi) then
      match s_set c with
      | Some _ => Some t
      | None =>
        ds <- skids t k (s_word c) (digits dim) ;;
        t1 <- fold_left (fun a d => u <- a ;; cofm_update g lo hi u d) ds (Some t) ;;
        c1 <- t1 k ;;
        xs <- kid_data t1 k (s_word c1) (digits dim) ;;
        Some (sput t1 k (mks (set_shared dim (s_word c1)) (Some (inr (f k (ents_of xs) (sums_of xs)))) (s_owner c1)))
      end
    else Some t
  end.

(** a rank: htable_, lobound_, hibound_ *)
Record rank_st := mkrs { k_tab : stable; k_lo : N; k_hi : N }.
(** L1589-1632, one exchange of [rank] with a partner *)
Definition exchange (rank : nat) (me other : rank_st) : option rank_st :=
  x <- find_nodes 66 (k_tab other) [key_root] ;;
  let lo := N.min (k_lo other) (k_lo me) in
  let hi := N.max (k_hi other) (k_hi me) in
  t1 <- load_items (load_entity rank) rank (k_tab me) (snd x) ;;
  t2 <- load_items (load_node rank) rank t1 (fst x) ;;
  t3 <- cofm_update 66 lo hi t2 key_root ;;
  Some (mkrs t3 lo hi).
Fixpoint mapo {A C} (g : A -> option C) (l : list A) : option (list C) :=
  match l with [] => Some [] | a :: r => x <- g a ;; rest <- mapo g r ;; Some (x :: rest) end.
(** L1584-1634: round [i] on every rank, size a power of two *)
Definition share_round (n : nat) (i : nat) (l : list rank_st) : option (list rank_st) :=
  mapo (fun r => me <- nth_error l r ;; let p := Nat.lxor r (2 ^ i) in
          if (p <? n)%nat then o <- nth_error l p ;; exchange r me o else Some me) (seq 0 n).
Fixpoint share_rounds (n m i : nat) (l : list rank_st) : option (list rank_st) :=
  match m with O => Some l | S m' => l' <- share_round n i l ;; share_rounds n m' (S i) l' end.

(** the table left by build_tree: local cells, owned by the rank *)
Definition from_build (rank : nat) (ents : list Ent) (st : state Sum) : stable := fun k =>
  match tfind (st_tab st) k with
  | None => None
  | Some c =>
    Some (mks (c_word c)
      (match c_node c, c_ent c with
       | Some j, _ => match nth_error (st_cofm st) j with Some s => Some (inr s) | None => None end
       | None, Some i => match nth_error ents i with Some e => Some (inl e) | None => None end
       | None, None => None
       end) rank)
  end.
(** f_cc on the entities with the given indices *)
Definition on_ents (ents : list Ent) : N -> list nat -> list Sum -> Sum :=
  fun k is ss => f k (flat_map (fun i => match nth_error ents i with Some e => [e] | None => [] end) is) ss.
(** L879-890, L1976-2020: the last key of the rank below and the first of the rank above;
    a rank without entities reads entities_[0] of an empty vector *)
Definition last_key (ps : list (N * Ent)) : option N := match rev ps with [] => None | x :: _ => Some (fst x) end.
Definition first_key (ps : list (N * Ent)) : option N := match ps with [] => None | x :: _ => Some (fst x) end.
Definition rank_build (pss : list (list (N * Ent))) (r : nat) : option rank_st :=
  ps <- nth_error pss r ;;
  _ <- first_key ps ;;
  let iam0 := (r =? 0)%nat in
  let iamlast := (r =? length pss - 1)%nat in
  lo <- (if iam0 then Some (key_min dim) else p <- nth_error pss (r - 1) ;; last_key p) ;;
  hi <- (if iamlast then Some (key_max dim) else p <- nth_error pss (r + 1) ;; first_key p) ;;
  x <- build_tree Sum (on_ents (map snd ps)) dim iam0 iamlast lo hi (map fst ps) ;;
  Some (mkrs (from_build r (map snd ps) (fst x)) lo hi).
(** build_tree on all ranks; [pss]: the entities of every rank with their keys *)
Definition build_all (pss : list (list (N * Ent))) : option (list rank_st) :=
  l <- mapo (rank_build pss) (seq 0 (length pss)) ;;
  share_rounds (length pss) (Nat.log2 (length pss)) 0 l.
End Share.
Arguments scell : clear implicits. Arguments stable : clear implicits. Arguments rank_st : clear implicits.
Arguments mki {A}. Arguments i_owner {A}. Arguments i_key {A}. Arguments i_val {A}.
