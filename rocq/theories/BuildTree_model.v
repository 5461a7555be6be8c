(** Model of /repo/include/tree_topology/tree_topology.h: build_tree (L879-992,
    the part before share_nodes_), finish_ (L1894-1918), daughters_
    (L1925-1944), cofm_children_ (L1949-1970), traversal (L192-207).
    The hash table is a std::unordered_map (L2098): an association list with
    unique keys.  -1 indices are [None].  The function computing node summaries
    (argument f_cc of build_tree) is a parameter [fcc].  Any dereference of
    end(), failed assertion or undefined shift is the outcome [None]; loops
    carry fuel and running out of fuel is [None] too. *)
From Verif Require Import Base Key_model HCell_model.
Local Open Scope N_scope.

Notation "x <- e ;; f" := (match e with Some x => f | None => None end)
  (at level 60, e at next level, right associativity).

(** tree_types.h L281-286: the fields of a cell used while building. *)
Record cell : Type := mkcell { c_word : N; c_node : option nat; c_ent : option nat }.

(** unordered_map find / emplace (no effect when the key is present) / update
    of the found element through the returned reference. *)
Definition table : Type := list (N * cell).
Fixpoint tfind (t : table) (k : N) : option cell :=
  match t with
  | [] => None
  | (k', c) :: r => if k' =? k then Some c else tfind r k
  end.
Fixpoint tset (t : table) (k : N) (c : cell) : table :=
  match t with
  | [] => []
  | (k', c') :: r => if k' =? k then (k', c) :: r else (k', c') :: tset r k c
  end.
Definition templace (t : table) (k : N) (c : cell) : table :=
  match tfind t k with Some _ => t | None => (k, c) :: t end.

(** tree_types.h L169-185: the constructors. *)
Definition new_cell : cell := mkcell hcell_new None None.
Definition ent_cell (i : nat) : cell := mkcell hcell_new None (Some i).

(** tree_types.h L190, L199-206: add_child, set_entity_idx(-1) with its
    assertion, on the element found under [k]. *)
Definition t_add_child (t : table) (k c : N) : option table :=
  x <- tfind t k ;; Some (tset t k (mkcell (add_child (c_word x) c) (c_node x) (c_ent x))).
Definition t_clear_ent (t : table) (k : N) : option table :=
  x <- tfind t k ;;
  match c_node x with
  | Some _ => None
  | None => Some (tset t k (mkcell (c_word x) None None))
  end.

Section Build.
Variable S : Type.
(** f_cc: key of the node, entity indices of its entity daughters, summaries of
    its node daughters. *)
Variable fcc : N -> list nat -> list S -> S.
Variable dim : N.

Record state : Type := mkst { st_tab : table; st_cofm : list S }.

(** the child numbers 0 .. 2^dim - 1 (nchildren_, L2109) *)
Definition digits : list N := map N.of_nat (seq 0 (N.to_nat (N.shiftl 1 dim))).

(** finish_ L1905-1917 / daughters_ L1931-1943: the cells of the children, in
    order. *)
Fixpoint daughters (t : table) (key word : N) (ds : list N) : option (list cell) :=
  match ds with
  | [] => Some []
  | j :: r =>
    if get_child word j then
      ck <- key_push dim key j ;;
      c <- tfind t ck ;;
      rest <- daughters t key word r ;;
      Some (c :: rest)
    else daughters t key word r
  end.

(** cofm_children_ L1949-1970: split into entities and nodes (is_entity asserts
    that one of the two indices is set) and look the nodes up with get_node
    (L1018-1030; cells are not shared before share_nodes_). *)
Fixpoint split_daughters (cofm : list S) (ds : list cell) : option (list nat * list S) :=
  match ds with
  | [] => Some ([], [])
  | c :: r =>
    rest <- split_daughters cofm r ;;
    match c_node c, c_ent c with
    | Some j, _ => s <- nth_error cofm j ;; Some (fst rest, s :: snd rest)
    | None, Some i => Some (i :: fst rest, snd rest)
    | None, None => None
    end
  end.

(** finish_ L1894-1918. *)
Definition finish (st : state) (key : N) : option state :=
  n <- tfind (st_tab st) key ;;
  match c_ent n with
  | Some _ => Some st
  | None =>
    let t := tset (st_tab st) key (mkcell (c_word n) (Some (length (st_cofm st))) None) in
    ds <- daughters t key (c_word n) digits ;;
    en <- split_daughters (st_cofm st) ds ;;
    Some (mkst t (st_cofm st ++ [fcc key (fst en) (snd en)]))
  end.

Variables (iam0 iamlast : bool) (lobound hibound : N).

(** L930-950: while(nkey != lastnkey || (iamlast && i == entities_.size())).
    [final] is iamlast && i == entities_.size(). *)
Fixpoint climb (fuel : nat) (final : bool) (st : state) (cd ekey lastekey nkey lastnkey : N)
    (loopagain : bool) : option (state * N * N * N) :=
  match fuel with
  | O => None
  | Datatypes.S f =>
    if negb (nkey =? lastnkey) || final then
      lobn <- key_popn dim cd lobound ;;
      hibn <- key_popn dim cd hibound ;;
      st' <- (if loopagain && (iam0 || (lobn <? lastnkey)) && (iamlast || (lastnkey <? hibn))
              then finish st lastnkey else Some st) ;;
      if iamlast && (lastnkey =? key_root) then Some (st', cd, nkey, lastnkey)
      else
        nkey' <- key_popn dim (cd + 1) ekey ;;
        lastnkey' <- key_popn dim (cd + 1) lastekey ;;
        climb f final st' (cd + 1) ekey lastekey nkey' lastnkey' true
    else Some (st, cd, nkey, lastnkey)
  end.

(** L959-974: the inner while(1).  current_depth-- on 0 wraps to 2^64-1. *)
Fixpoint descend (fuel : nat) (t : table) (cd ekey lastekey parent : N)
  : option (table * N * N * N * N) :=
  match fuel with
  | O => None
  | Datatypes.S f =>
    let cd' := if cd =? 0 then w64 - 1 else cd - 1 in
    lastnkey <- key_popn dim cd' lastekey ;;
    nkey <- key_popn dim cd' ekey ;;
    if negb (nkey =? lastnkey) then Some (t, cd', nkey, lastnkey, parent)
    else
      t1 <- t_add_child t parent (key_last_value dim nkey) ;;
      t2 <- t_clear_ent t1 parent ;;
      descend f (templace t2 nkey new_cell) cd' ekey lastekey nkey
  end.

(** The variables carried by the for loop of build_tree. *)
Record loopst : Type := mkls
  { ls_st : state; ls_cd : N; ls_lastekey : N; ls_lastnkey : N; ls_maxd : N }.

(** L918-996: one turn of the for loop, except the last-rank final turn.
    [i] is the loop counter, [newent] tells i < entities_.size(). *)
Definition turn (ls : loopst) (i : nat) (newent : bool) (ekey : N) : option loopst :=
  nkey0 <- key_popn dim (ls_cd ls) ekey ;;
  c <- climb 66 false (ls_st ls) (ls_cd ls) ekey (ls_lastekey ls) nkey0 (ls_lastnkey ls) false ;;
  let '(st, cd, _, lastnkey) := c in
  par <- tfind (st_tab st) lastnkey ;;
  let oldidx := c_ent par in
  d <- descend 66 (st_tab st) cd ekey (ls_lastekey ls) lastnkey ;;
  let '(t, cd, nkey, lastnkey, parent) := d in
  t <- (match oldidx with
        | Some _ =>
          t1 <- t_add_child t parent (key_last_value dim lastnkey) ;;
          t2 <- t_clear_ent t1 parent ;;
          Some (templace t2 lastnkey (ent_cell (i - 1)))
        | None => Some t
        end) ;;
  t <- (if newent then
          t1 <- t_add_child t parent (key_last_value dim nkey) ;;
          Some (templace t1 nkey (ent_cell i))
        else Some t) ;;
  Some (mkls (mkst t (st_cofm st)) cd ekey nkey (N.max (ls_maxd ls) cd)).

Fixpoint turns (ls : loopst) (i : nat) (keys : list N) : option loopst :=
  match keys with
  | [] => Some ls
  | k :: r => ls' <- turn ls i true k ;; turns ls' (Datatypes.S i) r
  end.

(** L879-992: build_tree up to share_nodes_; returns the state and max_depth_. *)
Definition build_tree (keys : list N) : option (state * N) :=
  let st0 := mkst (templace [] key_root new_cell) [] in
  let ls0 := mkls st0 (max_depth dim) (if iam0 then 0 else lobound) key_root 0 in
  ls <- turns ls0 0 keys ;;
  if iamlast then
    nkey0 <- key_popn dim (ls_cd ls) hibound ;;
    c <- climb 66 true (ls_st ls) (ls_cd ls) hibound (ls_lastekey ls) nkey0 (ls_lastnkey ls) false ;;
    let '(st, _, _, _) := c in
    Some (st, ls_maxd ls)
  else
    ls' <- turn ls (length keys) false hibound ;;
    Some (ls_st ls', ls_maxd ls').
End Build.
Arguments mkst {S}.
Arguments st_tab {S}.
Arguments st_cofm {S}.

(** L192-207: traversal: a stack of cells; [func] decides whether to open a
    cell; the visited keys are returned in order.  [children] is daughters_
    giving the child keys. *)
Fixpoint child_keys (dim : N) (t : table) (key word : N) (ds : list N) : option (list N) :=
  match ds with
  | [] => Some []
  | j :: r =>
    if get_child word j then
      ck <- key_push dim key j ;;
      c <- tfind t ck ;;
      rest <- child_keys dim t key word r ;;
      Some (ck :: rest)
    else child_keys dim t key word r
  end.

Fixpoint traversal (fuel : nat) (dim : N) (t : table) (func : N -> cell -> bool) (stk : list N)
  : option (list N) :=
  match stk with
  | [] => Some []
  | cur :: r =>
    match fuel with
    | O => None
    | Datatypes.S f =>
      c <- tfind t cur ;;
      if func cur c then
        ds <- child_keys dim t cur (c_word c) (digits dim) ;;
        rest <- traversal f dim t func (rev ds ++ r) ;;
        Some (cur :: rest)
      else
        rest <- traversal f dim t func r ;;
        Some (cur :: rest)
    end
  end.
