(** Model of /repo/include/tree_topology/hashtable.h lines 24-102: a table of
    2^22 buckets, each a vector of (key, value) pairs. *)
From Verif Require Import Base.
Local Open Scope N_scope.

Section Table.
Context {V : Type}.

(** hashtable.h L96 (ht_): the bucket of each index. *)
Definition htab : Type := N -> list (N * V).

(** hashtable.h L37-40 and L75-80: the constructor and clear(): all buckets empty. *)
Definition ht_empty : htab := fun _ => [].

(** hashtable.h L89-95: hash_(k) = k & (2^22 - 1). *)
Definition ht_hash (k : N) : N := N.land k (N.shiftl 1 22 - 1).

(** hashtable.h L50-60: find: scan the bucket for the key; [None] stands for end(). *)
Fixpoint bucket_find (b : list (N * V)) (k : N) : option V :=
  match b with
  | [] => None
  | (k', v) :: r => if k' =? k then Some v else bucket_find r k
  end.
Definition ht_find (t : htab) (k : N) : option V := bucket_find (t (ht_hash k)) k.

(** hashtable.h L65-71: emplace: append to the bucket. *)
Definition ht_emplace (t : htab) (k : N) (v : V) : htab :=
  fun i => if i =? ht_hash k then t i ++ [(k, v)] else t i.
End Table.
