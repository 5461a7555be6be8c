(** Model of /repo/include/tree_topology/filling_curve.h, class
    [morton_curve_u], lines 471-587.  An [std::array<int_t, dimension>] is a
    function from the axis number (below [dim]) to [N]; doubles are rationals
    (rounding is not modelled). *)
From Coq Require Import QArith Qround.
From Verif Require Import Base Key_model.
Local Open Scope N_scope.

(** The loop ranges used below: [lo, lo+n) as a list. *)
Definition nrange (lo : N) (n : N) : list N :=
  map (fun i => lo + N.of_nat i) (seq 0 (N.to_nat n)).

(** filling_curve.h L509 (and L270): max_val = (1 << (bits_-1)/dimension) - 1. *)
Definition max_val (dim : N) : N := N.shiftl 1 ((bits_ - 1) / dim) - 1.

(** filling_curve.h L511-515 (and L274-277): conversion of one coordinate to a
    cell number, [std::min(max_val, static_cast<int_t>(x))] with
    x = (p - min) / scale * 2^max_depth.  The cast truncates toward zero; it is
    undefined when the truncated value does not fit ([None]), and so is a zero
    extent. *)
Definition cell_of (dim : N) (mn mx p : Q) : option N :=
  if Qeq_bool (mx - mn) 0 then None else
  let x := ((p - mn) / (mx - mn) * inject_Z (2 ^ Z.of_N (max_depth dim)))%Q in
  if Qle_bool x (-1) then None
  else if Qle_bool (inject_Z (2 ^ 64)) x then None
  else Some (N.min (max_val dim) (Z.to_N (Qfloor x))).

(** filling_curve.h L519-522: the inner loop over the axes for bit [i] of the
    coordinates and digit position [k]. *)
Definition morton_digit_loop (dim : N) (coords : N -> N) (i k v : N) : N :=
  fold_left (fun v j =>
    let bit := N.shiftr (N.land (coords j) (N.shiftl 1 i)) i in
    N.lor v (N.shiftl bit (k * dim + j))) (nrange 0 dim) v.

(** filling_curve.h L503-525 after the conversion of the coordinates: start
    from min(), loop i = max_depth-depth .. max_depth-1 with k counting from 0. *)
Definition morton_key_depth (dim depth : N) (coords : N -> N) : N :=
  fst (fold_left (fun '(v, k) i => (morton_digit_loop dim coords i k v, k + 1))
                 (nrange (max_depth dim - depth) depth) (key_min dim, 0)).

(** filling_curve.h L490-493: the constructor without depth. *)
Definition morton_key (dim : N) (coords : N -> N) : N :=
  morton_key_depth dim (max_depth dim) coords.

(** filling_curve.h L531-539: the decoding loop of coordinates(); returns the
    coordinate words, the remaining id and the number of digits read. *)
Fixpoint morton_decode_loop (fuel : nat) (dim id d : N) (coords : N -> N)
  : option ((N -> N) * N) :=
  match fuel with
  | O => None
  | S f =>
    if N.shiftr id dim =? 0 then Some (coords, d) else
    morton_decode_loop f dim (N.shiftr id dim) (d + 1)
      (fun j => N.lor (coords j)
                  (N.shiftl (N.shiftr (N.land (N.shiftl 1 j) id) j) d))
  end.

(** filling_curve.h L528-547: coordinates(range, p), integer part: the cell
    words after the final shift by max_depth - d (L544). *)
Definition morton_cell (dim k : N) : option (N -> N) :=
  match morton_decode_loop 65 dim k 0 (fun _ => 0) with
  | None => None
  | Some (coords, d) => Some (fun j => N.shiftl (coords j) (max_depth dim - d))
  end.

(** filling_curve.h L540-546: the point of a key on one axis,
    min + scale * coords / (2^max_depth - 1). *)
Definition morton_point (dim : N) (mn mx : Q) (c : N) : Q :=
  (mn + (mx - mn) * inject_Z (Z.of_N c) / inject_Z (2 ^ Z.of_N (max_depth dim) - 1))%Q.

(** filling_curve.h L566-572: the decoding loop of range(): runs until the root
    is reached (no fuel bound in the code; [None] = does not terminate, or
    passes zero). *)
Fixpoint morton_range_loop (fuel : nat) (dim id d : N) (coords : N -> N)
  : option ((N -> N) * N) :=
  match fuel with
  | O => None
  | S f =>
    if id =? key_root then Some (coords, d) else
    morton_range_loop f dim (N.shiftr id dim) (d + 1)
      (fun j => N.lor (coords j)
                  (N.shiftl (N.shiftr (N.land (N.shiftl 1 j) id) j) d))
  end.

(** filling_curve.h L575-583: the halving loop on one axis, j = d .. 1. *)
Fixpoint halve_loop (j : nat) (c : N) (lo hi : Q) : Q * Q :=
  match j with
  | O => (lo, hi)
  | S j' =>
    let nu := ((lo + hi) / 2)%Q in
    if negb (N.land c (N.shiftl 1 (N.of_nat j')) =? 0)
    then halve_loop j' c nu hi else halve_loop j' c lo nu
  end.

(** filling_curve.h L553-586: range(range): per axis, the lower and upper
    bound of the cell of this key. *)
Definition morton_range (dim k : N) (rmin rmax : N -> Q) : option (N -> Q * Q) :=
  match morton_range_loop 65 dim k 0 (fun _ => 0) with
  | None => None
  | Some (coords, d) =>
      Some (fun i => halve_loop (N.to_nat d) (coords i) (rmin i) (rmax i))
  end.
