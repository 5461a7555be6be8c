(** The time step of a particle.
    Source: include/physics/default_physics.h L602-695 (compute_dt).
    double is modelled by the real numbers; the messages printed before an
    assertion fails are left out, [None] stands for the failed assertion. *)
From Verif Require Import Base Vec Geometry_model Kernel_model Sph_model EForce_model Driver_model.
Local Open Scope R_scope.

Section Dt.
(** [cfl]: timestep_cfl_factor *)
Context (dp : dparams) (cfl : R).
Notation n := (dp_dim dp).

(** L603-604 *)
Definition dt_tiny : R := / 10 ^ 24.
Definition dt_mc : R := 6 / 10.

(** L607-627; [dp_etaw] is sph_eta * kernels::kernel_width *)
Definition dt_dx (b : dbody) : R := p_h (d_p b) / dp_etaw dp.
Definition dt_v (b : dbody) : R := dt_dx b / (norm n (p_vel (d_p b)) + dt_tiny).
Definition dt_a (b : dbody) : R := sqrt (dt_dx b / (norm n (vadd (d_acc b) (p_gacc (d_p b))) + dt_tiny)).
Definition dt_c (b : dbody) : R := dt_dx b / (dt_tiny + d_vsig b * (1 + dt_mc * v_alpha (dp_sph dp))).
Definition dt_base (b : dbody) : R := cfl * Rmin (Rmin (dt_v b) (dt_a b)) (dt_c b).

(** L652-658: at most twenty values are tried *)
Definition dt_gain (b : dbody) (dt : R) : R :=
  dp_pot dp (vadd (p_pos (d_p b)) (vscale dt (p_vel (d_p b)))) - dp_pot dp (p_pos (d_p b)) +
  - dt * dot n (p_vel (d_p b)) (p_gacc (d_p b)).
Fixpoint dt_shorten (fuel : nat) (b : dbody) (dt : R) : option R :=
  match fuel with
  | O => None
  | S k => if Rltb (dt_gain b dt) (d_u b * (1 / 2)) then Some dt else dt_shorten k b (dt * (1 / 4))
  end.

(** L602-695 *)
Definition compute_dt (b : dbody) : option R :=
  if dp_evolve dp && dp_thermo dp then
    if Rltb 0 (d_u b) then dt_shorten 20 b (dt_base b) else None
  else Some (dt_base b).
End Dt.
