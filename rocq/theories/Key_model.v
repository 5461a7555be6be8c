(** Model of the dimension-independent part of the tree keys:
    /repo/include/tree_topology/filling_curve.h, class [filling_curve],
    lines 36-217.  [T] is the 64-bit unsigned word used by the code base
    (/repo/include/tree.h instantiates it with a 64-bit word); a key is its
    [value_] (an [N] below 2^64). *)
From Verif Require Import Base.
Local Open Scope N_scope.

(** filling_curve.h L44: bits_ = sizeof(int_t) * 8. *)
Definition bits_ : N := 64.

(** filling_curve.h L45-48, L60-62: max_depth_ = (bits_ - 1) / dimension. *)
Definition max_depth (dim : N) : N := (bits_ - 1) / dim.

(** filling_curve.h L65-67: min() = int_t(1) << max_depth_ * dimension. *)
Definition key_min (dim : N) : N := wrap64 (N.shiftl 1 (max_depth dim * dim)).

(** filling_curve.h L69-75: max(): start from all ones and clear every bit
    above position max_depth_*dimension.  [n] counts the loop iterations. *)
Fixpoint key_max_loop (n : nat) (i : N) (id : N) : N :=
  match n with
  | O => id
  | S n' => key_max_loop n' (i + 1) (N.lxor id (N.shiftl 1 i))
  end.
Definition key_max (dim : N) : N :=
  let i0 := max_depth dim * dim + 1 in
  key_max_loop (N.to_nat (bits_ - i0)) i0 (w64 - 1).

(** filling_curve.h L77-79: root() = 1.   L81-83: null() = 0. *)
Definition key_root : N := 1.
Definition key_null : N := 0.

(** filling_curve.h L89-95: depth(): while(id >>= dimension) ++d.
    The loop carries fuel; [None] stands for non-termination. *)
Fixpoint depth_loop (fuel : nat) (dim id d : N) : option N :=
  match fuel with
  | O => None
  | S f => let id' := N.shiftr id dim in
           if id' =? 0 then Some d else depth_loop f dim id' (d + 1)
  end.
Definition key_depth (dim k : N) : option N := depth_loop 65 dim k 0.

(** filling_curve.h L97-101: push(bits); the assertion is an error outcome. *)
Definition key_push (dim k c : N) : option N :=
  if c <? N.shiftl 1 dim
  then Some (N.lor (wrap64 (N.shiftl k dim)) c)
  else None.

(** filling_curve.h L103-106: pop(); asserts depth() > 0. *)
Definition key_pop1 (dim k : N) : option N :=
  match key_depth dim k with
  | Some d => if 0 <? d then Some (N.shiftr k dim) else None
  | None => None
  end.

(** filling_curve.h L127-131: last_value(). *)
Definition key_last_value (dim k : N) : N := N.land k (N.shiftl 1 dim - 1).

(** filling_curve.h L118-125: pop_value(): returns the digit and the new key. *)
Definition key_pop_value (dim k : N) : option (N * N) :=
  match key_depth dim k with
  | Some d => if 0 <? d
              then Some (N.land k (N.shiftl 1 dim - 1), N.shiftr k dim)
              else None
  | None => None
  end.

(** filling_curve.h L133-136: pop(d): value_ >>= d * dimension.  A shift by 64
    or more is undefined in the code, hence the error outcome. *)
Definition key_popn (dim d k : N) : option N :=
  if d * dim <? bits_ then Some (N.shiftr k (d * dim)) else None.

(** filling_curve.h L139-141: parent(). *)
Definition key_parent (dim k : N) : N := N.shiftr k dim.

(** filling_curve.h L144-150: truncate(to_depth). *)
Definition key_truncate (dim to_depth k : N) : option N :=
  match key_depth dim k with
  | None => None
  | Some d => if d <? to_depth then Some k
              else Some (N.shiftr k ((d - to_depth) * dim))
  end.
