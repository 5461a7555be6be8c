(** Smoothing kernels and their gradients.  Source:
    include/physics/kernels.h.  double is modelled by the real numbers and
    M_PI by pi; [n] is gdimension, 1 to 3. *)
From Verif Require Import Base Vec Geometry_model.
Local Open Scope R_scope.

Inductive kind := cubic_spline | gaussian | quintic_spline | wendland_c2 | wendland_c4
  | wendland_c6 | super_gaussian | sinc_ker.

(** Entry [gdimension - 1] of an array of three constants. *)
Definition pick (a b c : R) (n : nat) : R :=
  match n with 1%nat => a | 2%nat => b | _ => c end.

(** L40-56: the constants *)
Definition cubic_sigma := pick (4 / 3) (40 / (7 * PI)) (8 / PI).
Definition quintic_sigma := pick (1 / 40) (63 / (478 * PI)) (81 / (359 * PI)).
Definition wc2_sigma := pick (125 / 100) (7 / PI) (21 / (2 * PI)).
Definition wc4_sigma := pick (15 / 10) (9 / PI) (495 / (32 * PI)).
Definition wc6_sigma := pick (55 / 32) (78 / (7 * PI)) (1365 / (64 * PI)).
(** the digits of the long double literals beyond the seventeenth are dropped *)
Definition gaussian_sigma :=
  pick (16926061411541498 / 10000000000000000) (28651425623364144 / 10000000000000000) (48509860018883538 / 10000000000000000).
Definition super_gaussian_sigma :=
  pick (16922526563249069 / 10000000000000000) (28619634208935104 / 10000000000000000) (48328074599796304 / 10000000000000000).

(** L58-62 *)
Definition si_b0 := pick (-15404568 / 1000000000) (52245027 / 1000000000) (27012593 / 1000000000).
Definition si_b1 := pick (36632876 / 100000000) (13090245 / 100000000) (20410827 / 1000000000).
Definition si_b2 := pick (-46519576 / 100000000000) (19358485 / 1000000000) (37451957 / 10000000000).
Definition si_b3 := pick (73658324 / 1000000000) (-61642906 / 10000000000) (47013839 / 1000000000).

(** L64: TINY = 1e10 * DBL_MIN, with DBL_MIN = 2^-1022 *)
Definition TINY : R := 10 ^ 10 / 2 ^ 1022.

(** L67-77: set_sinc_kernel_normalization; [si] is sph_sinc_index *)
Definition sinc_sigma (si : R) : nat -> R :=
  let sq := sqrt si in
  let s2 := si * si in
  pick (2 * (si_b0 1%nat + si_b1 1%nat * sq + si_b2 1%nat * si + si_b3 1%nat / sq))
       (4 * (si_b0 2%nat + si_b1 2%nat * si + si_b2 2%nat / si + si_b3 2%nat / s2))
       (8 * (si_b0 3%nat + si_b1 3%nat * sq + si_b2 3%nat * si + si_b3 3%nat * sq * si)).

(** a bool used as a factor *)
Definition b2r (b : bool) : R := if b then 1 else 0.

(** ** Kernels *)

(** L106-122 *)
Definition W_cubic (n : nat) (r h : R) : R :=
  let rh := 2 * r / h in
  if Rltb rh 2 then
    (if Rltb rh 1 then 1 - (15 / 10) * rh * rh + (75 / 100) * rh * rh * rh
     else (25 / 100) * (2 - rh) * (2 - rh) * (2 - rh)) * (cubic_sigma n / h ^ n)
  else 0.

(** L167-178 *)
Definition W_gaussian (n : nat) (r h : R) : R :=
  let rh := 3 * r / h in
  if Rleb rh 3 then gaussian_sigma n / h ^ n * exp (- rh * rh) else 0.

(** L217-235 *)
Definition W_quintic (n : nat) (r h : R) : R :=
  let rh := 3 * r / h in
  if Rltb rh 3 then
    let a := (3 - rh) ^ 5 in
    let b := if Rltb rh 2 then a + -6 * (2 - rh) ^ 5 else a in
    let c := if Rltb rh 1 then b + 15 * (1 - rh) ^ 5 else b in
    c * (quintic_sigma n / h ^ n)
  else 0.

(** L282-312 *)
Definition W_wc2 (n : nat) (r h : R) : R :=
  let rh := r / h in
  let rh2 := (1 - rh) * (1 - rh) in
  let sigma := wc2_sigma n / h ^ n in
  match n with
  | 1%nat => sigma * rh2 * (1 - rh) * (3 * rh + 1)
  | _ => sigma * rh2 * rh2 * (4 * rh + 1)
  end * b2r (Rltb rh 1).

(** L375-409 *)
Definition W_wc4 (n : nat) (r h : R) : R :=
  let rh := r / h in
  let rh2 := (1 - rh) * (1 - rh) in
  let sigma := wc4_sigma n / h ^ n in
  match n with
  | 1%nat => sigma * (rh2 * (1 - rh)) * rh2 * (1 + rh * (5 + rh * 8))
  | _ => sigma * (rh2 * rh2 * rh2) * (1 + rh * (6 + rh * 35 / 3))
  end * b2r (Rltb rh 1).

(** L477-512 *)
Definition W_wc6 (n : nat) (r h : R) : R :=
  let rh := r / h in
  let rh2 := (1 - rh) * (1 - rh) in
  let rh4 := rh2 * rh2 in
  let sigma := wc6_sigma n / h ^ n in
  match n with
  | 1%nat => sigma * (rh2 * (1 - rh)) * rh4 * (1 + rh * (7 + rh * (19 + rh * 21)))
  | _ => sigma * rh4 * rh4 * (1 + rh * (8 + rh * (25 + rh * 32)))
  end * b2r (Rltb rh 1).

(** L581-589 *)
Definition W_super (n : nat) (r h : R) : R :=
  let rh := 3 * r / h in
  let rh2 := rh * rh in
  super_gaussian_sigma n / h ^ n * exp (- rh2) * (INR n / 2 + 1 - rh2) * b2r (Rltb (Rabs rh) 3).

(** L635-638: eps_root4 *)
Definition eps : R := 1 / 10 ^ 24.
Definition eps_root4 : R := sqrt (sqrt eps).

(** L625-657: [si] is sph_sinc_index *)
Definition W_sinc (si : R) (n : nat) (r h : R) : R :=
  let rh := Rabs (r / h) in
  if Rltb rh 1 then
    let rh := rh * PI in
    let rh2 := rh * rh in
    let sinc := if Rltb eps_root4 rh then sin rh / rh
                else if Rltb eps rh then 1 + rh2 * ((5 / 100) * rh2 - 1) / 6 else 1 in
    sinc_sigma si n / h ^ n * Rpower sinc si
  else 0.

(** L711-750, select: the kernel used *)
Definition kernel (si : R) (k : kind) (n : nat) (r h : R) : R :=
  match k with
  | cubic_spline => W_cubic n r h
  | gaussian => W_gaussian n r h
  | quintic_spline => W_quintic n r h
  | wendland_c2 => W_wc2 n r h
  | wendland_c4 => W_wc4 n r h
  | wendland_c6 => W_wc6 n r h
  | super_gaussian => W_super n r h
  | sinc_ker => W_sinc si n r h
  end.

(** ** Gradients: the factor multiplying the vector [vecP], as a function of
    its length r *)

(** L133-153 *)
Definition G_cubic (n : nat) (r h : R) : R :=
  let rh := 2 * r / h in
  if Rltb rh 2 then
    let sigma := 2 * cubic_sigma n / h ^ (n + 1) in
    sigma * (if Rltb rh 1 then -3 * rh + 9 / 4 * rh * rh else (-75 / 100) * (2 - rh) * (2 - rh)) / (r + TINY)
  else 0.

(** L189-203 *)
Definition G_gaussian (n : nat) (r h : R) : R :=
  let rh := 3 * r / h in
  if Rltb rh 3 then 3 * gaussian_sigma n / h ^ (n + 1) * (-2 * rh * exp (- rh * rh)) / (r + TINY) else 0.

(** L246-268 *)
Definition G_quintic (n : nat) (r h : R) : R :=
  let rh := 3 * r / h in
  if Rltb rh 3 then
    let sigma := 3 * quintic_sigma n / h ^ (n + 1) in
    let a := -5 * (3 - rh) ^ 4 in
    let b := if Rltb rh 2 then a + 30 * (2 - rh) ^ 4 else a in
    let c := if Rltb rh 1 then b + -75 * (1 - rh) ^ 4 else b in
    sigma * c / (r + TINY)
  else 0.

(** L322-361 *)
Definition G_wc2 (n : nat) (r h : R) : R :=
  let rh := r / h in
  let rh2 := (1 - rh) * (1 - rh) in
  match n with
  | 1%nat => b2r (Rltb rh 1) * (wc2_sigma n / (h * h) * (-12 * rh * rh2) / (r + TINY))
  | _ => b2r (Rltb rh 1) * (2 * wc2_sigma n / h ^ (n + 1) * (-10 * rh * rh2 * (1 - rh)) / (r + TINY))
  end.

(** L420-463 *)
Definition G_wc4 (n : nat) (r h : R) : R :=
  let rh := r / h in
  let rh2 := (1 - rh) * (1 - rh) in
  match n with
  | 1%nat => b2r (Rltb rh 1) *
      (14 * wc4_sigma n / (h * h) * (- rh * rh2 * rh2 * (1 + 4 * rh)) / (r + TINY))
  | _ => b2r (Rltb rh 1) *
      (14 * wc4_sigma n / h ^ (n + 1) * (-4 / 3 * rh * (rh2 * (1 - rh)) * rh2 * (1 + 5 * rh)) / (r + TINY))
  end.

(** L522-566 *)
Definition G_wc6 (n : nat) (r h : R) : R :=
  let rh := r / h in
  let rh2 := (1 - rh) * (1 - rh) in
  let rh3 := rh2 * (1 - rh) in
  let rh4 := rh2 * rh2 in
  match n with
  | 1%nat => wc6_sigma n / (h * h) * (-6 * rh * rh3 * rh3 * (3 + rh * (18 + rh * 35))) / (r + TINY) *
      b2r (Rltb rh 1)
  | _ => b2r (Rltb rh 1) *
      (wc6_sigma n / h ^ (n + 1) * (-22 * rh * rh4 * rh3 * (1 + rh * (7 + rh * 16))) / (r + TINY))
  end.

(** L598-611 *)
Definition G_super (n : nat) (r h : R) : R :=
  let rh := 3 * r / h in
  let sigma := 3 * super_gaussian_sigma n / h ^ (n + 1) in
  b2r (Rltb rh 3) * (sigma * (exp (- rh * rh) * (2 * rh ^ 3 - (INR n + 4) * rh)) / (r + TINY)).

(** L666-697; the [18] of L693 divides a double *)
Definition G_sinc (si : R) (n : nat) (r h : R) : R :=
  let rh := Rabs (r / h) in
  if Rltb rh 1 then
    let sigma := sinc_sigma si n / h ^ (n + 1) in
    let rh := rh * PI in
    let rh2 := rh * rh in
    let dWdr :=
      if Rltb eps_root4 rh then
        - si * Rpower (sin rh / rh) (si - 1) * PI * (sin rh / rh / rh - cos rh / rh)
      else if Rltb eps rh then
        - si * rh / 3 * PI * (1 - (5 / 10) * rh2 * ((2 / 10) - (si - 1) / 18))
      else 0 in
    sigma * dWdr / (r + TINY)
  else 0.

Definition gfactor (si : R) (k : kind) (n : nat) (r h : R) : R :=
  match k with
  | cubic_spline => G_cubic n r h
  | gaussian => G_gaussian n r h
  | quintic_spline => G_quintic n r h
  | wendland_c2 => G_wc2 n r h
  | wendland_c4 => G_wc4 n r h
  | wendland_c6 => G_wc6 n r h
  | super_gaussian => G_super n r h
  | sinc_ker => G_sinc si n r h
  end.

(** The gradient functions: vecP times the factor; r is magnitude(vecP). *)
Definition kernel_gradient (si : R) (k : kind) (n : nat) (vecP : point) (h : R) : point :=
  fun i => vecP i * gfactor si k n (norm n vecP) h.
