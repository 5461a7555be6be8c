(** The density in double precision: compute_density,
    /repo/include/physics/default_physics.h L193-229, and the cubic spline and Wendland
    kernels of /repo/include/physics/kernels.h, with the rounding of every operation (see
    FCell_model.v for [rnd]).  As in FSearch_model.v operations do not overflow here, and
    there are no infinities, NaN, signed zeros, fused operations or wider registers.
    The constants of kernels.h L40-56 and pow of the C library, which rounds in its own
    way, are parameters. *)
From Coq Require Import Reals.
From Flocq Require Import Core.
From Verif Require Import Base Vec Range_model FCell_model FForce_model.
Local Open Scope R_scope.

Inductive dkind := DCubic | DC2 | DC4 | DC6.
(** [dk_sigma n]: element gdimension - 1 of the array of constants of the kernel *)
Record dkern := DKern { dk_kind : dkind; dk_sigma : nat -> R; dk_pow : R -> nat -> R }.

(** L285, L294, L304 and the like: h, h * h, h * h * h *)
Definition hd_fl (n : nat) (h : R) : R :=
  match n with 1%nat => h | 2%nat => rnd (h * h) | _ => rnd (rnd (h * h) * h) end.
(** a bool used as a factor *)
Definition b2r_fl (b : bool) : R := if b then 1 else 0.
(** L106-122 *)
Definition W_cubic_fl (k : dkern) (n : nat) (r h : R) : R :=
  let rh := rnd (rnd (2 * r) / h) in
  if Rlt_b rh 2 then
    let result :=
      if Rlt_b rh 1 then rnd (rnd (1 - rnd (rnd (15 / 10 * rh) * rh)) + rnd (rnd (rnd (75 / 100 * rh) * rh) * rh))
      else rnd (rnd (rnd (25 / 100 * rnd (2 - rh)) * rnd (2 - rh)) * rnd (2 - rh)) in
    rnd (result * rnd (dk_sigma k n / dk_pow k h n))
  else 0.
(** L282-312 *)
Definition W_c2_fl (k : dkern) (n : nat) (r h : R) : R :=
  let rh := rnd (r / h) in
  let u := rnd (1 - rh) in
  let rh2 := rnd (u * u) in
  let sigma := rnd (dk_sigma k n / hd_fl n h) in
  let result := match n with
    | 1%nat => rnd (rnd (rnd (sigma * rh2) * u) * rnd (rnd (3 * rh) + 1))
    | _ => rnd (rnd (rnd (sigma * rh2) * rh2) * rnd (rnd (4 * rh) + 1))
    end in
  rnd (result * b2r_fl (Rlt_b rh 1)).
(** L375-409 *)
Definition W_c4_fl (k : dkern) (n : nat) (r h : R) : R :=
  let rh := rnd (r / h) in
  let u := rnd (1 - rh) in
  let rh2 := rnd (u * u) in
  let sigma := rnd (dk_sigma k n / hd_fl n h) in
  let result := match n with
    | 1%nat => rnd (rnd (rnd (sigma * rnd (rh2 * u)) * rh2) * rnd (1 + rnd (rh * rnd (5 + rnd (rh * 8)))))
    | _ => rnd (rnd (sigma * rnd (rnd (rh2 * rh2) * rh2)) * rnd (1 + rnd (rh * rnd (6 + rnd (rnd (rh * 35) / 3)))))
    end in
  rnd (result * b2r_fl (Rlt_b rh 1)).
(** L478-512 *)
Definition W_c6_fl (k : dkern) (n : nat) (r h : R) : R :=
  let rh := rnd (r / h) in
  let u := rnd (1 - rh) in
  let rh2 := rnd (u * u) in
  let rh4 := rnd (rh2 * rh2) in
  let sigma := rnd (dk_sigma k n / hd_fl n h) in
  let result := match n with
    | 1%nat => rnd (rnd (rnd (sigma * rnd (rh2 * u)) * rh4) * rnd (1 + rnd (rh * rnd (7 + rnd (rh * rnd (19 + rnd (rh * 21)))))))
    | _ => rnd (rnd (rnd (sigma * rh4) * rh4) * rnd (1 + rnd (rh * rnd (8 + rnd (rh * rnd (25 + rnd (rh * 32)))))))
    end in
  rnd (result * b2r_fl (Rlt_b rh 1)).
Definition W_fl (k : dkern) : nat -> R -> R -> R :=
  match dk_kind k with DCubic => W_cubic_fl k | DC2 => W_c2_fl k | DC4 => W_c4_fl k | DC6 => W_c6_fl k end.

(** default_physics.h L208 and L213-214: the term of one neighbour *)
Definition dens_term_fl (k : dkern) (n : nat) (a b : fpart) : R :=
  rnd (f_m b * W_fl k n (magnitude_fl n (vsub_fl (f_pos a) (f_pos b))) (mean_fl (f_h a) (f_h b))).
(** L193-229; None: the assertion of L200 or L226 *)
Definition density_fl (k : dkern) (n : nat) (a : fpart) (nbs : list fpart) : option R :=
  match nbs with
  | [] => None
  | _ => let rho := fold_left (fun s b => rnd (s + dens_term_fl k n a b)) nbs 0 in
         if Rlt_b 0 rho then Some rho else None
  end.
