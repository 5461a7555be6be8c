(** Specification of the tree demanded by a set of keys, independent of the
    construction: the canonical tree, its leaves and its node summaries. *)
From Verif Require Import Base.
Local Open Scope N_scope.

(** The ancestor of key k, r levels up. *)
Definition up (dim r k : N) : N := k / 2 ^ (r * dim).

(** A tree: leaves hold particle numbers; a node has its key and its children,
    tagged with their child number. *)
Inductive tree : Type :=
| Leaf (i : nat)
| Node (key : N) (children : list (N * tree)).

(** The canonical tree of the numbered keys [l] below cell [p], which is [r]
    levels above the keys: one child per non-empty child cell; a child cell
    with a single key is a leaf. *)
Fixpoint canon (dim : N) (r : nat) (p : N) (l : list (nat * N)) : tree :=
  match r with
  | O => Node p []
  | S r' =>
    Node p (flat_map (fun d =>
      let child := p * 2 ^ dim + d in
      match filter (fun x => up dim (N.of_nat r') (snd x) =? child) l with
      | [] => []
      | [x] => [(d, Leaf (fst x))]
      | g => [(d, canon dim r' child g)]
      end) (map N.of_nat (seq 0 (N.to_nat (2 ^ dim)))))
  end.

(** The keys numbered from 0. *)
Definition numbered (ks : list N) : list (nat * N) := combine (seq 0 (length ks)) ks.

(** Summaries of the nodes: [inl i] for a leaf, [inr s] for a node. *)
Definition lefts {A B} (l : list (A + B)) : list A :=
  flat_map (fun x => match x with inl a => [a] | inr _ => [] end) l.
Definition rights {A B} (l : list (A + B)) : list B :=
  flat_map (fun x => match x with inl _ => [] | inr b => [b] end) l.
Fixpoint eval {S} (fcc : N -> list nat -> list S -> S) (t : tree) : nat + S :=
  match t with
  | Leaf i => inl i
  | Node k ch => let es := map (fun x => eval fcc (snd x)) ch in inr (fcc k (lefts es) (rights es))
  end.

(** Leaves from left to right; keys of all cells of a tree rooted at cell p;
    number of nodes. *)
Fixpoint leaves (t : tree) : list nat :=
  match t with
  | Leaf i => [i]
  | Node _ ch => flat_map (fun x => leaves (snd x)) ch
  end.
Fixpoint cells (dim p : N) (t : tree) : list N :=
  p :: match t with
       | Leaf _ => []
       | Node _ ch => flat_map (fun x => cells dim (p * 2 ^ dim + fst x) (snd x)) ch
       end.
Fixpoint nodes (t : tree) : nat :=
  match t with
  | Leaf _ => 0
  | Node _ ch => S (list_sum (map (fun x => nodes (snd x)) ch))
  end.
