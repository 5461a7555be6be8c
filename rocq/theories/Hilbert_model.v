(** Model of /repo/include/tree_topology/filling_curve.h, class
    [hilbert_curve_u], lines 231-465.  Coordinates are 64-bit unsigned words;
    the subtractions n-1-c wrap modulo 2^64 as in the code (the coordinates are
    not reduced to the current level).  The sum in [value_] never exceeds the
    word, so it is not wrapped. *)
From Coq Require Import QArith Qround.
From Verif Require Import Base Key_model Morton_model.
Local Open Scope N_scope.

(** unsigned 64-bit n - 1 - x *)
Definition flip64 (n x : N) : N := (n - 1 + (w64 - x mod w64)) mod w64.

(** [int t = coords[0]; ... coords[1] = t] : conversion of a 64-bit word to a
    32-bit signed int and back (filling_curve.h L359-361). *)
Definition sext32 (x : N) : N :=
  let r := x mod 2 ^ 32 in if r <? 2 ^ 31 then r else w64 - 2 ^ 32 + r.

(** filling_curve.h L350-363: rotation2d(n, coords, bits). *)
Definition rotation2d (n : N) (c : N * N) (b : bool * bool) : N * N :=
  let '(x, y) := c in let '(b0, b1) := b in
  if negb b1 then
    let '(x, y) := if b0 then (flip64 n x, flip64 n y) else (x, y) in
    let t := sext32 x in (y, t)
  else (x, y).

Definition coord3 : Type := N * N * N.

(** filling_curve.h L365-406: the seven axis rotations. *)
Definition rotate_90_x (n : N) (c : coord3) : coord3 :=
  let '(x, y, z) := c in (x, flip64 n z, y).
Definition rotate_90_y (n : N) (c : coord3) : coord3 :=
  let '(x, y, z) := c in (z, y, flip64 n x).
Definition rotate_90_z (n : N) (c : coord3) : coord3 :=
  let '(x, y, z) := c in (flip64 n y, x, z).
Definition rotate_180_x (n : N) (c : coord3) : coord3 :=
  let '(x, y, z) := c in (x, flip64 n y, flip64 n z).
Definition rotate_270_x (n : N) (c : coord3) : coord3 :=
  let '(x, y, z) := c in (x, z, flip64 n y).
Definition rotate_270_y (n : N) (c : coord3) : coord3 :=
  let '(x, y, z) := c in (flip64 n z, y, x).
Definition rotate_270_z (n : N) (c : coord3) : coord3 :=
  let '(x, y, z) := c in (y, flip64 n x, z).

(** filling_curve.h L408-435: rotation3d. *)
Definition rotation3d (n : N) (c : coord3) (b : bool * bool * bool) : coord3 :=
  let '(b0, b1, b2) := b in
  if negb b0 && negb b1 && negb b2 then rotate_270_x n (rotate_270_z n c)
  else if negb b0 && b2 then rotate_90_y n (rotate_90_z n c)
  else if b1 && negb b2 then rotate_180_x n c
  else if b0 && b2 then rotate_270_y n (rotate_270_z n c)
  else if b0 && negb b2 && negb b1 then rotate_90_z n (rotate_90_y n c)
  else c.

(** filling_curve.h L437-464: unrotation3d (not called by the code). *)
Definition unrotation3d (n : N) (c : coord3) (b : bool * bool * bool) : coord3 :=
  let '(b0, b1, b2) := b in
  if negb b0 && negb b1 && negb b2 then rotate_90_z n (rotate_90_x n c)
  else if negb b0 && b2 then rotate_270_z n (rotate_270_y n c)
  else if b1 && negb b2 then rotate_180_x n c
  else if b0 && b2 then rotate_90_z n (rotate_90_y n c)
  else if b0 && negb b2 && negb b1 then rotate_270_y n (rotate_270_z n c)
  else c.

(** [(s & coords[j]) > 0], filling_curve.h L290. *)
Definition bit_at (s c : N) : bool := 0 <? N.land s c.

(** filling_curve.h L287-300 for dimension 2: s runs over 2^(L-1), ..., 1. *)
Fixpoint hilbert_loop2 (L : nat) (v : N) (c : N * N) : N :=
  match L with
  | O => v
  | S l =>
    let s := N.shiftl 1 (N.of_nat l) in
    let b0 := bit_at s (fst c) in let b1 := bit_at s (snd c) in
    hilbert_loop2 l
      (v + s * s * N.lxor (3 * N.b2n b0) (N.b2n b1))
      (rotation2d s c (b0, b1))
  end.

(** filling_curve.h L287-300 for dimension 3. *)
Fixpoint hilbert_loop3 (L : nat) (v : N) (c : coord3) : N :=
  match L with
  | O => v
  | S l =>
    let s := N.shiftl 1 (N.of_nat l) in
    let '(x, y, z) := c in
    let b0 := bit_at s x in let b1 := bit_at s y in let b2 := bit_at s z in
    hilbert_loop3 l
      (v + s * s * s * N.lxor (N.lxor (7 * N.b2n b0) (3 * N.b2n b1)) (N.b2n b2))
      (rotation3d s c (b0, b1, b2))
  end.

(** filling_curve.h L264-303: the constructor at [depth] after the conversion
    of the coordinates, for dimensions 1, 2 and 3. *)
Definition hilbert1_key_depth (depth : N) (c : N) : N :=
  N.shiftr (N.lor (key_min 1) (N.shiftr c 1)) (max_depth 1 - depth).
Definition hilbert2_key_depth (depth : N) (c : N * N) : N :=
  N.shiftr (hilbert_loop2 (N.to_nat (max_depth 2)) (key_min 2) c) ((max_depth 2 - depth) * 2).
Definition hilbert3_key_depth (depth : N) (c : coord3) : N :=
  N.shiftr (hilbert_loop3 (N.to_nat (max_depth 3)) (key_min 3) c) ((max_depth 3 - depth) * 3).

(** filling_curve.h L249-252: the constructor without depth. *)
Definition hilbert1_key (c : N) : N := hilbert1_key_depth (max_depth 1) c.
Definition hilbert2_key (c : N * N) : N := hilbert2_key_depth (max_depth 2) c.
Definition hilbert3_key (c : coord3) : N := hilbert3_key_depth (max_depth 3) c.

(** filling_curve.h L312-331 for dimension 2: mask runs over 1, 2, ..., and
    [n] iterations remain; returns the coordinates and the remaining key. *)
Fixpoint hilbert_decode2 (n : nat) (mask key : N) (c : N * N) : (N * N) * N :=
  match n with
  | O => (c, key)
  | S n' =>
    let b0 := 0 <? N.land key 2 in
    let b1 := 0 <? N.lxor (N.land key 1) (N.b2n b0) in
    let '(x, y) := rotation2d mask c (b0, b1) in
    hilbert_decode2 n' (2 * mask) (N.shiftr key 2)
      (x + N.b2n b0 * mask, y + N.b2n b1 * mask)
  end.

(** filling_curve.h L312-331 for dimension 3. *)
Fixpoint hilbert_decode3 (n : nat) (mask key : N) (c : coord3) : coord3 * N :=
  match n with
  | O => (c, key)
  | S n' =>
    let b0 := 0 <? N.land key 4 in
    let b1 := 0 <? N.lxor (N.land key 2) (N.b2n b0) in
    let b2 := 0 <? N.lxor (N.lxor (N.land key 1) (N.b2n b0)) (N.b2n b1) in
    let '(x, y, z) := rotation3d mask c (b0, b1, b2) in
    hilbert_decode3 n' (2 * mask) (N.shiftr key 3)
      (x + N.b2n b0 * mask, y + N.b2n b1 * mask, z + N.b2n b2 * mask)
  end.

(** filling_curve.h L306-332: coordinates(), the integer cell; the assertion
    key == 1 is an error outcome. *)
Definition hilbert2_cell (k : N) : option (N * N) :=
  let '(c, r) := hilbert_decode2 (N.to_nat (max_depth 2)) 1 k (0, 0) in
  if r =? 1 then Some c else None.
Definition hilbert3_cell (k : N) : option coord3 :=
  let '(c, r) := hilbert_decode3 (N.to_nat (max_depth 3)) 1 k (0, 0, 0) in
  if r =? 1 then Some c else None.

(** filling_curve.h L333-338: the point of a cell on one axis:
    min + scale * coords / 2^max_depth. *)
Definition hilbert_point (dim : N) (mn mx : Q) (c : N) : Q :=
  (mn + (mx - mn) * inject_Z (Z.of_N c) / inject_Z (2 ^ Z.of_N (max_depth dim)))%Q.
