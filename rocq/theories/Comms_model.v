(** Model of the communication of a traversal, /repo/include/tree_topology/tree_topology.h:
    check_comms_ L1142-1206, wait_comms_ L1208-1268, request_ L1273-1299, recv_requests_
    L1306-1382, recv_requests_subtree_ L1384-1463, recv_entity_replies_ L1470-1495,
    recv_node_replies_ L1502-1541, init_comms_ L2041-2051, clean_comms_ L2057-2081 and the
    requesting and DONE parts of traversal_sph (L336-347, L390-402, L415-437) and
    traversal_fmm (L588-606, L655-690).
    Ranks run interleaved; between two ranks messages stay in order (MPI non-overtaking)
    and arrive after any delay.  The hash table of a rank is a function from keys to cells;
    a cell holds its data instead of an index into cofm_, entities_, shared_nodes_ or
    shared_entities_.  The iterator kept over an emplace (L1481-1493, L1511-1534) is taken
    to stay usable, as it does in the C++ library used.  Not modelled: the buffers and
    request handles of MPI_Issend and the computation between communications. *)
From Verif Require Import Base Key_model HCell_model BuildTree_model.
Local Open Scope N_scope.

Section Comms.
Context {D : Type} (dim : N) (n : nat).

(** tree_types.h L281-286; [r_node]: whether node_idx_ or entity_idx_ is set *)
Record rcell := mkr { r_word : N; r_node : bool; r_owner : nat; r_data : D }.
Definition rtable := N -> option rcell.
Definition rset (t : rtable) (k : N) (c : rcell) : rtable := fun k' => if k' =? k then Some c else t k'.
Definition map_word (f : N -> N) (c : rcell) : rcell := mkr (f (r_word c)) (r_node c) (r_owner c) (r_data c).
(** is_empty_node, tree_types.h L244-246 *)
Definition empty_node (c : rcell) : bool := r_node c && is_empty_node dim (r_word c).

(** tree_types.h: share_node_t (owner, key, node, nchildren), share_entity_t *)
Record nent := mkne { ne_owner : nat; ne_key : N; ne_data : D; ne_nch : N }.
Record eent := mkee { ee_owner : nat; ee_key : N; ee_data : D }.
(** the tags REQUEST, REQUEST_SUBTREE, REPLY_NODE, REPLY_ENTITY, DONE_COMMS.  The first
    component of a reply, the keys asked for, is not sent by the code and read by no one;
    it serves to state properties. *)
Inductive msg := MReq (ks : list N) | MSub (ks : list N) | MNodes (ks : list N) (es : list nent) | MEnts (ks : list N) (es : list eent) | MDone.

(** L1316-1348: the entries for one key, nodes and entities apart *)
Fixpoint kid_nodes (t : rtable) (k w : N) (ds : list N) : option (list nent) :=
  match ds with
  | [] => Some []
  | j :: r =>
    if get_child w j then
      ck <- key_push dim k j ;;
      c <- t ck ;;
      rest <- kid_nodes t k w r ;;
      Some (if r_node c then mkne (r_owner c) ck (r_data c) (nchildren dim (r_word c)) :: rest else rest)
    else kid_nodes t k w r
  end.
Fixpoint kid_ents (t : rtable) (k w : N) (ds : list N) : option (list eent) :=
  match ds with
  | [] => Some []
  | j :: r =>
    if get_child w j then
      ck <- key_push dim k j ;;
      c <- t ck ;;
      rest <- kid_ents t k w r ;;
      Some (if r_node c then rest else mkee (r_owner c) ck (r_data c) :: rest)
    else kid_ents t k w r
  end.
Fixpoint reply_nodes (t : rtable) (ks : list N) : option (list nent) :=
  match ks with
  | [] => Some []
  | k :: r =>
    c <- t k ;;
    g <- kid_nodes t k (r_word c) (digits dim) ;;
    rest <- reply_nodes t r ;;
    Some (mkne (r_owner c) k (r_data c) (nchildren dim (r_word c)) :: g ++ rest)
  end.
Fixpoint reply_ents (t : rtable) (ks : list N) : option (list eent) :=
  match ks with
  | [] => Some []
  | k :: r =>
    c <- t k ;;
    g <- kid_ents t k (r_word c) (digits dim) ;;
    rest <- reply_ents t r ;;
    Some (g ++ rest)
  end.
(** the keys with an entity among the children *)
Definition ent_keys (t : rtable) (ks : list N) : list N :=
  filter (fun k => match t k with Some c => match kid_ents t k (r_word c) (digits dim) with Some (_ :: _) => true | _ => false end | None => false end) ks.
(** L1350-1377: sent only if not empty *)
Definition replies (ks eks : list N) (ns : list nent) (es : list eent) : list msg :=
  match ns with [] => [] | _ => [MNodes ks ns] end ++ match es with [] => [] | _ => [MEnts eks es] end.
Definition recv_requests (t : rtable) (ks : list N) : option (list msg) :=
  ns <- reply_nodes t ks ;; es <- reply_ents t ks ;; Some (replies ks (ent_keys t ks) ns es).

(** L1396-1420 (traversal from the key, which itself is left out): the cells below, in the
    order of the stack *)
Fixpoint kid_list (t : rtable) (k w : N) (ds : list N) : option (list N) :=
  match ds with
  | [] => Some []
  | j :: r =>
    if get_child w j then ck <- key_push dim k j ;; c <- t ck ;; rest <- kid_list t k w r ;; Some (ck :: rest)
    else kid_list t k w r
  end.
Fixpoint below (fuel : nat) (t : rtable) (stk : list N) (top : N) : option (list (N * rcell)) :=
  match stk with
  | [] => Some []
  | k :: r =>
    match fuel with
    | O => None
    | S f =>
      c <- t k ;;
      if r_node c then
        ds <- kid_list t k (r_word c) (digits dim) ;;
        rest <- below f t (rev ds ++ r) top ;;
        Some (if k =? top then rest else (k, c) :: rest)
      else rest <- below f t r top ;; Some ((k, c) :: rest)
    end
  end.
(** L1422-1436: nchildren_to_receive is also set on the sender's own cells *)
Fixpoint below_all (fuel : nat) (t : rtable) (ks : list N) : option (list (N * rcell)) :=
  match ks with [] => Some [] | k :: r => a <- below fuel t [k] k ;; b <- below_all fuel t r ;; Some (a ++ b) end.
Definition mark_below (t : rtable) (cs : list (N * rcell)) : rtable :=
  fold_left (fun t x => if r_node (snd x) then rset t (fst x) (map_word (fun w => set_nchildren_to_receive dim w (nchildren dim w)) (snd x)) else t) cs t.
Definition recv_subtree (fuel : nat) (t : rtable) (ks : list N) : option (rtable * list msg) :=
  cs <- below_all fuel t ks ;;
  Some (mark_below t cs,
        replies ks ks (flat_map (fun x => if r_node (snd x) then [mkne (r_owner (snd x)) (fst x) (r_data (snd x)) (nchildren dim (r_word (snd x)))] else []) cs)
                      (flat_map (fun x => if r_node (snd x) then [] else [mkee (r_owner (snd x)) (fst x) (r_data (snd x))]) cs)).

(** L1509-1535: find the parent, emplace, set_shared, set_node_idx, set_owner,
    set_nchildren_to_receive, add the child to the parent; set_node_idx asserts that the
    cell is not an entity (tree_types.h L199-202) *)
Definition parent_add (t : rtable) (k : N) : option rtable :=
  p <- t (key_parent dim k) ;; Some (rset t (key_parent dim k) (map_word (fun w => add_child w (key_last_value dim k)) p)).
Definition load_node (t : rtable) (e : nent) : option rtable :=
  p <- t (key_parent dim (ne_key e)) ;;
  w0 <- (match t (ne_key e) with Some c => if r_node c then Some (r_word c) else None | None => Some hcell_new end) ;;
  let c := mkr (set_nchildren_to_receive dim (set_shared dim w0) (ne_nch e)) true (ne_owner e) (ne_data e) in
  parent_add (rset t (ne_key e) c) (ne_key e).
(** L1478-1494; an entity cell that is present already keeps its data *)
Definition load_ent (t : rtable) (e : eent) : option rtable :=
  p <- t (key_parent dim (ee_key e)) ;;
  let c := match t (ee_key e) with
           | Some c => mkr (set_shared dim (r_word c)) (r_node c) (ee_owner e) (r_data c)
           | None => mkr (set_shared dim hcell_new) false (ee_owner e) (ee_data e)
           end in
  parent_add (rset t (ee_key e) c) (ee_key e).
Fixpoint load_all {E} (f : rtable -> E -> option rtable) (t : rtable) (es : list E) : option rtable :=
  match es with [] => Some t | e :: r => t' <- f t e ;; load_all f t' r end.

(** A rank before init_comms_, in its loop, waiting for DONE (L425-427), in MPI_Waitall
    (L428) and clean_comms_, in MPI_Barrier (L437). *)
Inductive phase := Idle | Working | Waiting | Left | AtBarrier.
Record gstate := mkg
  { g_tab : nat -> rtable; g_chan : nat -> nat -> list msg; g_ph : nat -> phase;
    g_done : nat -> nat -> bool;   (* comms_done_ *)
    g_all : nat -> bool;           (* comms_all_done_ *)
    g_wait : nat -> list N }.      (* the cells whose arrival the loop waits for *)
Definition upd {A} (f : nat -> A) (r : nat) (x : A) : nat -> A := fun r' => if (r' =? r)%nat then x else f r'.
Definition upd2 {A} (f : nat -> nat -> A) (p q : nat) (x : A) : nat -> nat -> A := upd f p (upd (f p) q x).
Definition ranks : list nat := seq 0 n.
Definition mark_requested (t : rtable) (ks : list N) : rtable :=
  fun k => if existsb (N.eqb k) ks then match t k with Some c => Some (map_word (set_requested dim) c) | None => None end else t k.
(** the cells are empty nodes, not asked for yet, of owner [o] (L336-344, L655-668) *)
Definition askable (t : rtable) (o : nat) (ks : list N) : Prop :=
  ks <> [] /\ NoDup ks /\ forall k, In k ks -> exists c, t k = Some c /\ empty_node c = true /\ requested dim (r_word c) = false /\ r_owner c = o.
(** MPI_Recv of the first message from [s] and its handling (L1160-1196, L1224-1259) *)
Definition handle (fuel : nat) (s : gstate) (r src : nat) (m : msg) (rest : list msg) : option gstate :=
  let ch := upd2 (g_chan s) src r rest in
  match m with
  | MReq ks => ms <- recv_requests (g_tab s r) ks ;; Some (mkg (g_tab s) (upd2 ch r src (ch r src ++ ms)) (g_ph s) (g_done s) (g_all s) (g_wait s))
  | MSub ks => x <- recv_subtree fuel (g_tab s r) ks ;; Some (mkg (upd (g_tab s) r (fst x)) (upd2 ch r src (ch r src ++ snd x)) (g_ph s) (g_done s) (g_all s) (g_wait s))
  | MNodes _ es => t <- load_all load_node (g_tab s r) es ;; Some (mkg (upd (g_tab s) r t) ch (g_ph s) (g_done s) (g_all s) (g_wait s))
  | MEnts _ es => t <- load_all load_ent (g_tab s r) es ;; Some (mkg (upd (g_tab s) r t) ch (g_ph s) (g_done s) (g_all s) (g_wait s))
  | MDone => let dn := upd2 (g_done s) r src true in
             Some (mkg (g_tab s) ch (g_ph s) dn (upd (g_all s) r (forallb (dn r) ranks)) (g_wait s))
  end.
(** when a rank probes for messages *)
Definition listening (s : gstate) (r : nat) : Prop := g_ph s r = Working \/ (g_ph s r = Waiting /\ g_all s r = false).
Definition set_ph (s : gstate) (r : nat) (p : phase) : gstate := mkg (g_tab s) (g_chan s) (upd (g_ph s) r p) (g_done s) (g_all s) (g_wait s).

(** One step of one rank, or the barrier.  [sub]: whether REQUEST_SUBTREE is used (as in
    traversal_fmm).  [newtabs] : which tables the next traversal may start with. *)
Inductive step (sub : bool) (newtabs : (nat -> rtable) -> (nat -> rtable) -> Prop) (fuel : nat) : gstate -> gstate -> Prop :=
| s_start s r : (r < n)%nat -> g_ph s r = Idle ->
    step sub newtabs fuel s (mkg (g_tab s) (g_chan s) (upd (g_ph s) r Working) (upd (g_done s) r (fun _ => false)) (g_all s) (upd (g_wait s) r []))
| s_request s r o ks : (r < n)%nat -> (o < n)%nat -> g_ph s r = Working -> askable (g_tab s r) o ks ->
    step sub newtabs fuel s (mkg (upd (g_tab s) r (mark_requested (g_tab s r) ks)) (upd2 (g_chan s) r o (g_chan s r o ++ [MReq ks]))
                                 (g_ph s) (g_done s) (g_all s) (upd (g_wait s) r (ks ++ g_wait s r)))
| s_subtree s r o ks : sub = true -> (r < n)%nat -> (o < n)%nat -> g_ph s r = Working -> askable (g_tab s r) o ks ->
    step sub newtabs fuel s (mkg (upd (g_tab s) r (mark_requested (g_tab s r) ks)) (upd2 (g_chan s) r o (g_chan s r o ++ [MSub ks]))
                                 (g_ph s) (g_done s) (g_all s) (g_wait s))
| s_recv s s' r src m rest : (r < n)%nat -> (src < n)%nat -> listening s r -> g_chan s src r = m :: rest ->
    handle fuel s r src m rest = Some s' -> step sub newtabs fuel s s'
| s_finish s r : (r < n)%nat -> g_ph s r = Working -> (forall k c, In k (g_wait s r) -> g_tab s r k = Some c -> empty_node c = false) ->
    step sub newtabs fuel s (mkg (g_tab s) (fun p q => if (p =? r)%nat && (q <? n)%nat then g_chan s p q ++ [MDone] else g_chan s p q)
                                 (upd (g_ph s) r Waiting) (g_done s) (upd (g_all s) r false) (g_wait s))
| s_leave s r : (r < n)%nat -> g_ph s r = Waiting -> g_all s r = true -> step sub newtabs fuel s (set_ph s r Left)
| s_waitall s r : (r < n)%nat -> g_ph s r = Left -> (forall q, (q < n)%nat -> ~ In MDone (g_chan s r q)) -> step sub newtabs fuel s (set_ph s r AtBarrier)
| s_barrier s t' : (forall r, (r < n)%nat -> g_ph s r = AtBarrier) -> newtabs (g_tab s) t' ->
    step sub newtabs fuel s (mkg t' (g_chan s) (fun _ => Idle) (g_done s) (g_all s) (g_wait s)).
Inductive steps sub newtabs fuel : gstate -> gstate -> Prop :=
| st_refl s : steps sub newtabs fuel s s
| st_step s s' s'' : steps sub newtabs fuel s s' -> step sub newtabs fuel s' s'' -> steps sub newtabs fuel s s''.
(** before the first traversal *)
Definition g_init (t : nat -> rtable) (dn : nat -> nat -> bool) (al : nat -> bool) (w : nat -> list N) : gstate := mkg t (fun _ _ => []) (fun _ => Idle) dn al w.
End Comms.
Arguments rcell : clear implicits. Arguments rtable : clear implicits. Arguments gstate : clear implicits. Arguments msg : clear implicits.
Arguments nent : clear implicits. Arguments eent : clear implicits.
