(** Model of the density profiles,
    /repo/include/physics/density_profiles.h.  double is modelled by the real
    numbers, gdimension by [dim] (the constexpr branches for other dimensions
    leave the initial 0). *)
From Verif Require Import Base BuildTree_model Vec Geometry_model.
Local Open Scope R_scope.

(** L44-45 *)
Definition SQ (x : R) : R := x * x.
Definition CU (x : R) : R := x * x * x.

(** L69-81 *)
Definition rho_constant_density (dim : nat) (r : R) : R :=
  match dim with 1%nat => 1 / 2 | 2%nat => 1 / PI | 3%nat => 3 / 4 / PI | _ => 0 end.
(** L83-96 *)
Definition mass_constant_density (dim : nat) (r : R) : R :=
  match dim with 1%nat => r | 2%nat => SQ r | 3%nat => CU r | _ => 0 end.
(** L98-101 *)
Definition drhodr_constant_density (dim : nat) (r : R) : R := 0.

(** L107-120 *)
Definition rho_parabolic_density (dim : nat) (r : R) : R :=
  match dim with
  | 1%nat => 3 / 4 * (1 - SQ r) | 2%nat => 2 / PI * (1 - SQ r) | 3%nat => 15 / (8 * PI) * (1 - SQ r) | _ => 0
  end.
(** L122-135 *)
Definition mass_parabolic_density (dim : nat) (r : R) : R :=
  match dim with
  | 1%nat => 1 / 2 * r * (3 - SQ r) | 2%nat => SQ r * (2 - SQ r) | 3%nat => 1 / 2 * CU r * (5 - 3 * SQ r) | _ => 0
  end.
(** L137-150 *)
Definition drhodr_parabolic_density (dim : nat) (r : R) : R :=
  match dim with 1%nat => - (3 / 2) * r | 2%nat => - 4 / PI * r | 3%nat => - 15 / (4 * PI) * r | _ => 0 end.

(** L163-177; [q] is mesa_q *)
Definition mesa_mass_helper (dim : nat) (q r : R) : R :=
  let dr := q in
  let r0 := 1 - q in
  match dim with
  | 2%nat => SQ r * (1 - (1 / 2 * SQ r + SQ r0) / SQ dr) + (1 / 2 * CU r0 + 4 * CU r) * r0 / (3 * SQ dr)
  | 3%nat => CU r0 / 3 + (CU r - CU r0) / 3 * (1 - SQ r0 / SQ dr) +
             r0 * (SQ r - SQ r0) * (SQ r + SQ r0) / (2 * SQ dr) -
             (SQ r * CU r - SQ r0 * CU r0) / (5 * SQ dr)
  | _ => 0
  end.
(** L374-382: mesa_rho0 as set by select *)
Definition mesa_rho0 (dim : nat) (q : R) : R :=
  match dim with
  | 1%nat => 1 / 2 / (1 - q / 3)
  | 2%nat => 1 / (PI * mesa_mass_helper 2 q 1)
  | 3%nat => 1 / (4 * PI * mesa_mass_helper 3 q 1)
  | _ => 0
  end.
(** L179-188 *)
Definition rho_mesa_density (dim : nat) (q r : R) : R :=
  let r0 := 1 - q in
  if Rltb r (1 - q) then mesa_rho0 dim q
  else if Rltb r (9999 / 10000) then mesa_rho0 dim q * (1 - SQ (r - r0) / SQ q)
  else 0.
(** L190-213 *)
Definition mass_mesa_density (dim : nat) (q r : R) : R :=
  let dr := q in
  let r0 := 1 - q in
  match dim with
  | 1%nat => if Rltb r (1 - q) then 2 * mesa_rho0 dim q * r
             else if Rltb (r - 1) (/ 10 ^ 12) then 2 * mesa_rho0 dim q * (r - CU (r - r0) / (3 * SQ dr)) else 0
  | 2%nat => if Rltb r (1 - q) then PI * mesa_rho0 dim q * SQ r
             else if Rltb (r - 1) (/ 10 ^ 12) then PI * mesa_rho0 dim q * mesa_mass_helper dim q r else 0
  | 3%nat => if Rltb r (1 - q) then 4 * PI / 3 * mesa_rho0 dim q * CU r
             else if Rltb (r - 1) (/ 10 ^ 12) then 4 * PI * mesa_rho0 dim q * mesa_mass_helper dim q r else 0
  | _ => 0
  end.
(** L215-222 *)
Definition drhodr_mesa_density (dim : nat) (q r : R) : R :=
  let r0 := 1 - q in
  if Rltb (1 - q) r && Rltb r (9999 / 10000) then - 2 * mesa_rho0 dim q * (r - r0) / SQ q else 0.

(** ** interpolation *)
(** xp[i] with int i: None outside the vector *)
Definition vec_at (xp : list R) (i : Z) : option R := if (i <? 0)%Z then None else nth_error xp (Z.to_nat i).

(** L295-301: the loop *)
Fixpoint interval_loop (fuel : nat) (x : R) (xp : list R) (i1 i2 : Z) : option Z :=
  if (1 <? i2 - i1)%Z then
    match fuel with
    | O => None
    | S f => let i := ((i1 + i2) / 2)%Z in
             v <- vec_at xp i ;;
             if Rltb x v then interval_loop f x xp i1 i else interval_loop f x xp i i2
    end
  else Some i1.
(** L288-304 *)
Definition get_interval_index (x : R) (xp : list R) : option Z :=
  let n := Z.of_nat (length xp) in
  lo <- vec_at xp 0 ;;
  if Rltb (x * (1 + / 10 ^ 15)) lo then Some (-1)%Z else
  hi <- vec_at xp (n - 1) ;;
  if Rltb hi (x * (1 - / 10 ^ 15)) then Some (n - 1)%Z else
  interval_loop (length xp) x xp 0 (n - 1).

(** L314-332; None is an access outside the tables *)
Definition cubic_interp (x : R) (xp yp : list R) : option R :=
  i2 <- get_interval_index x xp ;;
  let n := Z.of_nat (length xp) in
  let i2 := if (i2 =? 0)%Z then 1%Z else i2 in
  let i2 := if (n - 3 <? i2)%Z then (n - 3)%Z else i2 in
  let i1 := (i2 - 1)%Z in
  let i3 := (i2 + 1)%Z in
  let i4 := (i2 + 2)%Z in
  x1 <- vec_at xp i1 ;; x2 <- vec_at xp i2 ;; x3 <- vec_at xp i3 ;; x4 <- vec_at xp i4 ;;
  let xx1 := x - x1 in let xx2 := x - x2 in let xx3 := x - x3 in let xx4 := x - x4 in
  y1 <- vec_at yp i1 ;; y2 <- vec_at yp i2 ;; y3 <- vec_at yp i3 ;; y4 <- vec_at yp i4 ;;
  Some (y1 * xx2 / (xx2 - xx1) * xx3 / (xx3 - xx1) * xx4 / (xx4 - xx1) +
        y2 * xx1 / (xx1 - xx2) * xx3 / (xx3 - xx2) * xx4 / (xx4 - xx2) +
        y3 * xx1 / (xx1 - xx3) * xx2 / (xx2 - xx3) * xx4 / (xx4 - xx3) +
        y4 * xx1 / (xx1 - xx4) * xx2 / (xx2 - xx4) * xx3 / (xx3 - xx4)).
