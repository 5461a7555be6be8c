(** Smoothed-particle sums: density, acceleration, energy rates, velocity
    divergence and artificial viscosity.
    Source: include/physics/default_physics.h and include/physics/viscosity.h.
    double is modelled by the real numbers. *)
From Verif Require Import Base Vec Geometry_model Kernel_model.
Local Open Scope R_scope.

(** The fields of a body used here, include/physics/default_physics.h and
    mpisph body class: coordinates, velocity, velocity at the half step,
    gravitational acceleration, mass, smoothing length (radius), density,
    pressure, sound speed, viscosity coefficient, velocity divergence and its
    rate. *)
Record part := Part {
  p_pos : point; p_vel : point; p_v12 : point; p_gacc : point;
  p_m : R; p_h : R; p_rho : R; p_P : R; p_c : R; p_alpha : R;
  p_divv : R; p_ddivv : R
}.

(** Global parameters read by these functions (include/params.h). *)
Record params := Params {
  sinc_index : R;        (* sph_sinc_index *)
  the_kernel : kind;     (* sph_kernel *)
  cullen : bool;         (* sph_viscosity = visc_cullen (else visc_constant) *)
  v_alpha : R; v_beta : R; v_eps : R;      (* sph_viscosity_alpha, _beta, _epsilon *)
  v_alpha_max : R; v_delta : R; v_l : R    (* sph_viscosity_alpha_max, _delta, _l *)
}.

Section Sph.
Context (pr : params) (n : nat).

Definition W (r h : R) : R := kernel (sinc_index pr) (the_kernel pr) n r h.
Definition gradW (v : point) (h : R) : point := kernel_gradient (sinc_index pr) (the_kernel pr) n v h.

(** tensor.h L1137-1144, operator== on positions *)
Fixpoint same_upto (k : nat) (a b : point) : bool :=
  match k with
  | O => true
  | S k' => (if Req_EM_T (a k') (b k') then true else false) && same_upto k' a b
  end.
Definition same_pos (a b : point) : bool := same_upto n a b.

Definition h_mean (a b : part) : R := 1 / 2 * (p_h a + p_h b).

(** default_physics.h L193-229, compute_density; the assertion that the sum
    is positive is the caller's business *)
Definition density (a : part) (nbs : list part) : R :=
  suml (fun b => p_m b * W (norm n (vsub (p_pos a) (p_pos b))) (h_mean a b)) nbs.

(** default_physics.h L273-300, compute_divv: the new divergence *)
Definition divergence (a : part) (nbs : list part) : R :=
  suml (fun b => p_m b * dot n (p_vel a) (gradW (vsub (p_pos a) (p_pos b)) (h_mean a b))) nbs / p_rho a.

(** viscosity.h L82-93, mu *)
Definition mu (h_ab : R) (vel_ab pos_ab : point) : R :=
  let dotproduct := dot n vel_ab pos_ab in
  let d2 := dot n pos_ab pos_ab in
  h_ab * dotproduct / (d2 + v_eps pr * h_ab * h_ab + TINY) * b2r (Rltb dotproduct 0).

(** viscosity.h L127-136, visc_constant *)
Definition visc_constant (alpha_ab rho_ab c_ab mu_ab : R) : R :=
  (- v_alpha pr * c_ab + v_beta pr * mu_ab) * mu_ab / rho_ab.

(** viscosity.h L150-157, visc_cullen *)
Definition visc_cullen (alpha_ab rho_ab c_ab mu_ab : R) : R :=
  - alpha_ab * (c_ab - 2 * mu_ab) * mu_ab / rho_ab.

(** viscosity.h L366-391, select *)
Definition viscosity (alpha_ab rho_ab c_ab mu_ab : R) : R :=
  if cullen pr then visc_cullen alpha_ab rho_ab c_ab mu_ab else visc_constant alpha_ab rho_ab c_ab mu_ab.

(** default_physics.h L382-391: the viscous term of a pair *)
Definition Pi (a b : part) : R :=
  viscosity (1 / 2 * (p_alpha a + p_alpha b)) (1 / 2 * (p_rho a + p_rho b)) (1 / 2 * (p_c a + p_c b))
    (mu (h_mean a b) (vsub (p_v12 a) (p_v12 b)) (vsub (p_pos a) (p_pos b))).

(** default_physics.h L375: the mass of a neighbour, zero at the same place *)
Definition nb_mass (a b : part) : R := p_m b * b2r (negb (same_pos (p_pos b) (p_pos a))).

Definition DiW (a b : part) : point := gradW (vsub (p_pos a) (p_pos b)) (h_mean a b).

Definition Prho2 (a : part) : R := p_P a / (p_rho a * p_rho a).

(** default_physics.h L348-408, compute_acceleration; [ext] is
    external_force::acceleration of the particle *)
Definition acceleration (ext : point) (a : part) (nbs : list part) : point :=
  fun i => suml (fun b => - nb_mass a b * (Prho2 a + Prho2 b + Pi a b) * DiW a b i) nbs + ext i.

(** default_physics.h L421-487, compute_dudt; [relaxing] is
    iteration < relaxation_steps *)
Definition dudt (relaxing : bool) (a : part) (nbs : list part) : R :=
  if relaxing then 0 else
  let vab_dot b := dot n (vsub (p_vel a) (p_vel b)) (DiW a b) in
  Prho2 a * suml (fun b => nb_mass a b * vab_dot b) nbs +
  1 / 2 * suml (fun b => nb_mass a b * vab_dot b * Pi a b) nbs.

(** default_physics.h L502-566, compute_dedt *)
Definition dedt (a : part) (nbs : list part) : R :=
  let va_dot b := dot n (p_vel a) (DiW a b) in
  let vb_dot b := dot n (p_vel b) (DiW a b) in
  - suml (fun b => nb_mass a b * (Prho2 a * vb_dot b + va_dot b * Prho2 b +
      1 / 2 * Pi a b * (vb_dot b + va_dot b))) nbs + dot n (p_gacc a) (p_vel a).

(** viscosity.h L333-346 and default_physics.h L236-267: maximum signal
    speed.  A neighbour at the same position gives 0/0; the NaN makes
    std::min return its first argument and std::max keep the old value, so
    such a neighbour does not contribute. *)
Definition signal_speed (a : part) (nbs : list part) : R :=
  fold_left (fun vsig b =>
    if same_pos (p_pos a) (p_pos b) then vsig else
    let n_ab := vscale (/ dist n (p_pos a) (p_pos b)) (vsub (p_pos a) (p_pos b)) in
    Rmax vsig (Rmax (p_c a) (p_c b) - Rmin (dot n (vsub (p_vel a) (p_vel b)) n_ab) 0)) nbs 0.

(** viscosity.h L59-64, signnum_c *)
Definition signnum (x : R) : R := if Rltb 0 x then 1 else if Rltb x 0 then -1 else x.

(** viscosity.h L230-236: R_a *)
Definition R_a (a : part) (nbs : list part) : R :=
  suml (fun b => signnum (p_divv b) * p_m b * W (dist n (p_pos a) (p_pos b)) (h_mean a b)) nbs / p_rho a.

(** viscosity.h L238-247: gradient of the velocity *)
Definition gradV (a : part) (nbs : list part) (i j : nat) : R :=
  suml (fun b => p_m b * - vsub (p_vel a) (p_vel b) i * DiW a b j) nbs / p_rho a.

(** viscosity.h L251-259: traceless symmetric part and the trace of its square *)
Definition SymT (a : part) (nbs : list part) (i j : nat) : R :=
  1 / 2 * (gradV a nbs i j + gradV a nbs j i) - (if Nat.eqb i j then p_divv a / INR n else 0).
Definition traceSS (a : part) (nbs : list part) : R :=
  sumn n (fun i => sumn n (fun j => SymT a nbs i j * SymT a nbs i j)).

(** viscosity.h L193-266, compute_xi *)
Definition xi (a : part) (nbs : list part) : R :=
  let q := 1 - R_a a nbs in
  let s := 2 * (q * q * q * q) * p_divv a in
  let result := s * s in
  if Rltb result (1 / 10 ^ 16) then 0 else result / (result + traceSS a nbs).

(** viscosity.h L280-302, A_trigger *)
Definition trigger (a : part) (nbs : list part) : R := xi a nbs * Rmax (- p_ddivv a) 0.

(** viscosity.h L350-351: the local target; [None] is 0/0 *)
Definition alpha_loc (a : part) (nbs : list part) : option R :=
  let A := trigger a nbs in
  let v := signal_speed a nbs / p_h a in
  let den := v_delta pr * (v * v) + A in
  if Req_EM_T den 0 then None else Some (v_alpha_max pr * A / den).

(** viscosity.h L314-363, compute_alpha with time step [dt]; [None] is NaN.
    A zero signal speed makes the decay time infinite: no decay. *)
Definition new_alpha (dt : R) (a : part) (nbs : list part) : option R :=
  match alpha_loc a nbs with
  | None => None
  | Some loc =>
      if Rleb (p_alpha a) loc then Some loc
      else
        let vsig := signal_speed a nbs in
        let dalphadt := (p_alpha a - loc) * (2 * v_l pr * vsig) / p_h a in
        Some (p_alpha a * exp (- dalphadt * dt))
  end.

End Sph.
