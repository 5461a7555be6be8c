(** Points and vectors: /repo/include/space_vector.h and the constructors of
    /repo/include/tensor.h L432-468.  A vector of dimension D is a [point] (Vec.v), of
    which the components below D count.  double is modelled by the reals.  [None]: an
    assertion fails, or the result is not a number. *)
From Coq Require Import Reals.
From Verif Require Import Base Vec BuildTree_model.
Local Open Scope R_scope.

(** tensor.h L438-441: fill *)
Definition fill (x : R) : point := fun _ => x.
(** tensor.h L444-457: from a list; an empty one is read at its first element *)
Definition from_list (D : nat) (l : list R) : option point :=
  if (1 <? length l)%nat then if (length l =? D)%nat then Some (fun i => nth i l 0) else None
  else match l with [] => None | x :: _ => Some (fill x) end.

(** space_vector.h L46-58 *)
Definition sv_distance (D : nat) (a b : point) : R :=
  if (D =? 1)%nat then Rabs (a 0%nat - b 0%nat) else sqrt (sumn D (fun d => (a d - b d) * (a d - b d))).
(** L71-75 *)
Definition sv_midpoint (a b : point) : point := vscale (1 / 2) (vadd a b).
(** L89-101; the quotient 0/0 for no point is not a number *)
Definition sv_centroid (ps : list point) : option point :=
  match ps with [] => None | _ => Some (fun i => fold_left vadd ps (fill 0) i / INR (length ps)) end.
(** L106-116 *)
Definition sv_dot (D : nat) (a b : point) : R := sumn D (fun d => a d * b d).
(** L121-132 *)
Definition sv_magnitude (D : nat) (a : point) : R :=
  if (D =? 1)%nat then Rabs (a 0%nat) else sqrt (sumn D (fun d => a d * a d)).
(** L137-164 *)
Definition vec3 (x y z : R) : point := fun i => nth i [x; y; z] 0.
Definition sv_cross (D : nat) (a b : point) : option point :=
  match D with
  | 1%nat => Some (fill 0)
  | 2%nat => Some (fill 0)
  | 3%nat => from_list 3 [a 1%nat * b 2%nat - a 2%nat * b 1%nat; a 2%nat * b 0%nat - a 0%nat * b 2%nat; a 0%nat * b 1%nat - a 1%nat * b 0%nat]
  | _ => None
  end.
(** L169-195 *)
Definition sv_cross_magnitude (D : nat) (a b : point) : option R :=
  match D with
  | 1%nat => Some 0
  | 2%nat => Some (Rabs (a 0%nat * b 1%nat - a 1%nat * b 0%nat))
  | 3%nat => c <- sv_cross 3 a b ;; Some (sv_magnitude 3 c)
  | _ => None
  end.
(** L202-222 *)
Definition sv_normal (D : nat) (a b : point) : option point :=
  match D with
  | 2%nat => Some (fun i => match i with 0%nat => a 1%nat - b 1%nat | 1%nat => b 0%nat - a 0%nat | _ => 0 end)
  | 3%nat => Some (vec3 (a 1%nat * b 2%nat - a 2%nat * b 1%nat) (a 2%nat * b 0%nat - a 0%nat * b 2%nat) (a 0%nat * b 1%nat - a 1%nat * b 0%nat))
  | _ => None
  end.
