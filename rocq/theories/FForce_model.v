(** The pressure and viscosity forces in double precision: compute_acceleration,
    /repo/include/physics/default_physics.h L348-407, mu and the viscosities,
    /repo/include/physics/viscosity.h L77-157, the gradients of
    /repo/include/physics/kernels.h and dot, magnitude of
    /repo/include/space_vector.h L106-132, with the rounding of every operation (see
    FCell_model.v for [rnd]).  As in FSearch_model.v operations do not overflow here,
    and there are no infinities, NaN, signed zeros, fused operations or wider
    registers. *)
From Coq Require Import Reals.
From Flocq Require Import Core.
From Verif Require Import Base Vec Range_model FCell_model.
Local Open Scope R_scope.

(** the fields read by compute_acceleration, L357-382 *)
Record fpart := FPart { f_pos : point; f_v12 : point; f_m : R; f_h : R; f_rho : R; f_p : R; f_c : R; f_alpha : R }.
(** viscosity.h L127-137 and L150-157; the parameters of params.h *)
Inductive fvisc := FConstant (alpha beta : R) | FCullen.
(** kernels.h: every gradient has one of two forms.  [ByFactor g]: vecP times one number
    computed from the distance and h (Wendland, super-Gaussian: L330-331, L344-345,
    L358-359, L430-431, L445-446, L460-461, L531-532, L547-548, L563-564, L608-609).
    [ByChain sigma dwdr inside]: vecP * sigma * dWdr / (r + TINY) inside the support and
    zero outside (cubic, Gaussian, quintic, sinc: L149, L200, L264, L694).  How those numbers are
    computed from r and h does not matter. *)
Inductive fkernel := ByFactor (g : R -> R -> R) | ByChain (sigma dwdr : R -> R -> R) (inside : R -> R -> bool).
Record fconf := FConf { fc_visc : fvisc; fc_kernel : fkernel; fc_eps : R; fc_tiny : R }.

(** space_vector.h L106-116 *)
Fixpoint dot_fl (n : nat) (a b : point) : R := match n with O => 0 | S k => rnd (dot_fl k a b + rnd (a k * b k)) end.
(** L121-132 *)
Definition magnitude_fl (n : nat) (a : point) : R :=
  match n with 1%nat => Rabs (a 0%nat) | _ => rnd (sqrt (dot_fl n a a)) end.
Definition vsub_fl (a b : point) : point := fun i => rnd (a i - b i).
(** default_physics.h L388-392: .5*(x + y) *)
Definition mean_fl (x y : R) : R := rnd (1 / 2 * rnd (x + y)).
(** kernels.h, see [fkernel] *)
Definition gradient_fl (cf : fconf) (n : nat) (v : point) (h : R) : point :=
  let r := magnitude_fl n v in
  match fc_kernel cf with
  | ByFactor g => fun i => rnd (v i * g r h)
  | ByChain sigma dwdr inside => fun i =>
      if inside r h then rnd (rnd (rnd (v i * sigma r h) * dwdr r h) / rnd (r + fc_tiny cf)) else 0
  end.
(** viscosity.h L77-89 *)
Definition mu_fl (cf : fconf) (n : nat) (h : R) (v x : point) : R :=
  let dp := dot_fl n v x in
  if Rlt_b dp 0 then
    rnd (rnd (h * dp) / rnd (rnd (dot_fl n x x + rnd (rnd (fc_eps cf * h) * h)) + fc_tiny cf))
  else 0.
(** viscosity.h L127-137, L150-157 *)
Definition viscosity_fl (cf : fconf) (alpha rho c mu : R) : R :=
  match fc_visc cf with
  | FConstant al be => rnd (rnd (rnd (rnd (- al * c) + rnd (be * mu)) * mu) / rho)
  | FCullen => rnd (rnd (rnd (- alpha * rnd (c - rnd (2 * mu))) * mu) / rho)
  end.
(** tensor.h L1159-1164: pos_[b] != pos_a *)
Fixpoint same_pos_fl (n : nat) (a b : point) : bool :=
  match n with O => true | S k => same_pos_fl k a b && (if Req_EM_T (a k) (b k) then true else false) end.
(** default_physics.h L394 and L380-393: Pi_a_[b], DiWa_[b] *)
Definition Pi_fl (cf : fconf) (n : nat) (a b : fpart) : R :=
  viscosity_fl cf (mean_fl (f_alpha a) (f_alpha b)) (mean_fl (f_rho a) (f_rho b)) (mean_fl (f_c a) (f_c b))
    (mu_fl cf n (mean_fl (f_h a) (f_h b)) (vsub_fl (f_v12 a) (f_v12 b)) (vsub_fl (f_pos a) (f_pos b))).
Definition DiW_fl (cf : fconf) (n : nat) (a b : fpart) : point :=
  gradient_fl cf n (vsub_fl (f_pos a) (f_pos b)) (mean_fl (f_h a) (f_h b)).
(** L400, L403 *)
Definition Prho2_fl (a : fpart) : R := rnd (f_p a / rnd (f_rho a * f_rho a)).
(** L381: the mass of a neighbour in the same place is 0 *)
Definition nb_mass_fl (n : nat) (a b : fpart) : R := if same_pos_fl n (f_pos b) (f_pos a) then 0 else f_m b.
(** L404: -m_[b] * (Prho2_a + Prho2_b + Pi_a_[b]) * DiWa_[b] *)
Definition term_fl (cf : fconf) (n : nat) (a b : fpart) : point := fun d =>
  rnd (DiW_fl cf n a b d * rnd (- nb_mass_fl n a b * rnd (rnd (Prho2_fl a + Prho2_fl b) + Pi_fl cf n a b))).
(** L348-409: compute_acceleration; [ext] is external_force::acceleration *)
Definition acceleration_fl (cf : fconf) (n : nat) (ext : point) (a : fpart) (nbs : list fpart) : point := fun d =>
  rnd (fold_left (fun s b => rnd (s + term_fl cf n a b d)) nbs 0 + ext d).
