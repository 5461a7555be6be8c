(** The hydrodynamics driver: one iteration as a sequence of operations on all
    particles.
    Source: app/drivers/hydro/main_driver.cc L93-283 (mpi_init_task; the
    newtonian driver, app/drivers/newtonian/main_driver.cc L102-286, differs by
    the gravity call, which is [OGrav] here, and by a second set_total_energy),
    the particle functions of include/physics/default_physics.h and
    include/physics/integration.h, and apply_all, apply_in_smoothinglength,
    get_all, reset_ghosts and update_iteration of mpisph/bodies_system.h.
    double is modelled by the real numbers; periodic boundaries are off (see
    Boundary_model.v); outputs and diagnostics do not change particles and are
    left out. *)
From Verif Require Import Base Vec Geometry_model Kernel_model Sph_model EForce_model.
Local Open Scope R_scope.

(** A particle, include/physics/body.h L220-254: the fields of [part]
    (Sph_model.v), id, acceleration, gravitational potential, internal energy,
    total energy, their rates, adiabatic invariant and signal speed.  Fields
    that no operation of the driver reads are left out. *)
Record dbody := DBody {
  d_p : part; d_id : nat; d_acc : point; d_gpot : R; d_u : R; d_e : R; d_dudt : R; d_dedt : R; d_K : R; d_vsig : R
}.

(** setters, body.h L111-197 *)
Definition with_p (p : part) (b : dbody) : dbody :=
  DBody p (d_id b) (d_acc b) (d_gpot b) (d_u b) (d_e b) (d_dudt b) (d_dedt b) (d_K b) (d_vsig b).
Definition set_pos (x : point) (b : dbody) : dbody := let p := d_p b in
  with_p (Part x (p_vel p) (p_v12 p) (p_gacc p) (p_m p) (p_h p) (p_rho p) (p_P p) (p_c p) (p_alpha p) (p_divv p) (p_ddivv p)) b.
Definition set_vel (v : point) (b : dbody) : dbody := let p := d_p b in
  with_p (Part (p_pos p) v (p_v12 p) (p_gacc p) (p_m p) (p_h p) (p_rho p) (p_P p) (p_c p) (p_alpha p) (p_divv p) (p_ddivv p)) b.
Definition set_v12 (v : point) (b : dbody) : dbody := let p := d_p b in
  with_p (Part (p_pos p) (p_vel p) v (p_gacc p) (p_m p) (p_h p) (p_rho p) (p_P p) (p_c p) (p_alpha p) (p_divv p) (p_ddivv p)) b.
Definition set_gacc (g : point) (b : dbody) : dbody := let p := d_p b in
  with_p (Part (p_pos p) (p_vel p) (p_v12 p) g (p_m p) (p_h p) (p_rho p) (p_P p) (p_c p) (p_alpha p) (p_divv p) (p_ddivv p)) b.
Definition set_h (h : R) (b : dbody) : dbody := let p := d_p b in
  with_p (Part (p_pos p) (p_vel p) (p_v12 p) (p_gacc p) (p_m p) h (p_rho p) (p_P p) (p_c p) (p_alpha p) (p_divv p) (p_ddivv p)) b.
Definition set_rho (r : R) (b : dbody) : dbody := let p := d_p b in
  with_p (Part (p_pos p) (p_vel p) (p_v12 p) (p_gacc p) (p_m p) (p_h p) r (p_P p) (p_c p) (p_alpha p) (p_divv p) (p_ddivv p)) b.
Definition set_P (P : R) (b : dbody) : dbody := let p := d_p b in
  with_p (Part (p_pos p) (p_vel p) (p_v12 p) (p_gacc p) (p_m p) (p_h p) (p_rho p) P (p_c p) (p_alpha p) (p_divv p) (p_ddivv p)) b.
Definition set_c (c : R) (b : dbody) : dbody := let p := d_p b in
  with_p (Part (p_pos p) (p_vel p) (p_v12 p) (p_gacc p) (p_m p) (p_h p) (p_rho p) (p_P p) c (p_alpha p) (p_divv p) (p_ddivv p)) b.
Definition set_alpha (a : R) (b : dbody) : dbody := let p := d_p b in
  with_p (Part (p_pos p) (p_vel p) (p_v12 p) (p_gacc p) (p_m p) (p_h p) (p_rho p) (p_P p) (p_c p) a (p_divv p) (p_ddivv p)) b.
Definition set_divv (d dd : R) (b : dbody) : dbody := let p := d_p b in
  with_p (Part (p_pos p) (p_vel p) (p_v12 p) (p_gacc p) (p_m p) (p_h p) (p_rho p) (p_P p) (p_c p) (p_alpha p) d dd) b.
Definition set_acc (a : point) (b : dbody) : dbody :=
  DBody (d_p b) (d_id b) a (d_gpot b) (d_u b) (d_e b) (d_dudt b) (d_dedt b) (d_K b) (d_vsig b).
Definition set_gpot (g : R) (b : dbody) : dbody :=
  DBody (d_p b) (d_id b) (d_acc b) g (d_u b) (d_e b) (d_dudt b) (d_dedt b) (d_K b) (d_vsig b).
Definition set_u (u : R) (b : dbody) : dbody :=
  DBody (d_p b) (d_id b) (d_acc b) (d_gpot b) u (d_e b) (d_dudt b) (d_dedt b) (d_K b) (d_vsig b).
Definition set_e (e : R) (b : dbody) : dbody :=
  DBody (d_p b) (d_id b) (d_acc b) (d_gpot b) (d_u b) e (d_dudt b) (d_dedt b) (d_K b) (d_vsig b).
Definition set_dudt (r : R) (b : dbody) : dbody :=
  DBody (d_p b) (d_id b) (d_acc b) (d_gpot b) (d_u b) (d_e b) r (d_dedt b) (d_K b) (d_vsig b).
Definition set_dedt (r : R) (b : dbody) : dbody :=
  DBody (d_p b) (d_id b) (d_acc b) (d_gpot b) (d_u b) (d_e b) (d_dudt b) r (d_K b) (d_vsig b).
Definition set_K (k : R) (b : dbody) : dbody :=
  DBody (d_p b) (d_id b) (d_acc b) (d_gpot b) (d_u b) (d_e b) (d_dudt b) (d_dedt b) k (d_vsig b).
Definition set_vsig (v : R) (b : dbody) : dbody :=
  DBody (d_p b) (d_id b) (d_acc b) (d_gpot b) (d_u b) (d_e b) (d_dudt b) (d_dedt b) (d_K b) v.

(** Equations of state, eos.h L49-436: init writes the internal energy or the
    adiabatic invariant, compute_pressure the pressure and compute_soundspeed
    the sound speed, each from the particle's own density, pressure, internal
    energy and adiabatic invariant. *)
Record eos_fun := EosFun {
  eos_u : R -> R -> R -> R -> R; eos_K : R -> R -> R -> R -> R; eos_P : R -> R -> R -> R -> R; eos_c : R -> R -> R -> R -> R
}.

(** compute_smoothinglength, compute_average_smoothinglength or neither *)
Inductive h_mode := HVariable | HUniform | HFixed.

Record dparams := DParams {
  dp_sph : params; dp_dim : nat; dp_eos : eos_fun;
  dp_ext : point -> point;     (* external_force::acceleration, a function of the position *)
  dp_pot : point -> R;         (* external_force::potential *)
  dp_beta : R; dp_gamma : R;   (* relaxation_beta, relaxation_gamma *)
  dp_rrad : R; dp_rgam : R;    (* relaxation_repulsion_radius, relaxation_repulsion_gamma *)
  dp_relax : nat;              (* relaxation_steps *)
  dp_evolve : bool; dp_thermo : bool; (* evolve_internal_energy, thermokinetic_formulation *)
  dp_updates : nat;            (* pressure_updates_number *)
  dp_hmode : h_mode;           (* sph_variable_h, sph_update_uniform_h *)
  dp_etaw : R                  (* sph_eta * kernels::kernel_width *)
}.

Section Ops.
Context (dp : dparams).
Notation n := (dp_dim dp).
Notation sp := (dp_sph dp).

(** eos.h: the selected equation of state applied to a particle *)
Definition eos_arg {X} (f : R -> R -> R -> R -> X) (b : dbody) : X := f (p_rho (d_p b)) (p_P (d_p b)) (d_u b) (d_K b).
Definition eos_init (b : dbody) : dbody :=
  let u := eos_arg (eos_u (dp_eos dp)) b in let k := eos_arg (eos_K (dp_eos dp)) b in set_K k (set_u u b).
Definition compute_pressure (b : dbody) : dbody := set_P (eos_arg (eos_P (dp_eos dp)) b) b.
Definition compute_soundspeed (b : dbody) : dbody := set_c (eos_arg (eos_c (dp_eos dp)) b) b.

(** default_physics.h L126-146, recover_internal_energy; the assertion stops
    the run *)
Definition ekin (b : dbody) : R := 1 / 2 * dot n (p_vel (d_p b)) (p_vel (d_p b)).
Definition recover_internal_energy (b : dbody) : option dbody :=
  let eint := d_e b - ekin b - dp_pot dp (p_pos (d_p b)) in
  if Rltb 0 eint then Some (set_u eint b) else None.

(** default_physics.h L325-333, set_total_energy *)
Definition set_total_energy (b : dbody) : dbody := set_e (ekin b + d_u b + dp_pot dp (p_pos (d_p b))) b.

(** default_physics.h L155-163, recompute_pressure_soundspeed *)
Definition recompute (dt : R) (b : dbody) : dbody :=
  set_u (d_u b) (compute_soundspeed (compute_pressure (set_u (d_u b + 1 / 2 * dt * d_dudt b) b))).

(** default_physics.h L172-186, recompute_pressure_soundspeed_thermokinetic *)
Definition recompute_thermo (dt : R) (b : dbody) : option dbody :=
  match recover_internal_energy b with
  | None => None
  | Some b =>
      let v_dot_a := dot n (p_vel (d_p b)) (d_acc b) in
      Some (set_u (d_u b) (compute_soundspeed (compute_pressure (set_u (d_u b + 1 / 2 * dt * (d_dedt b - v_dot_a)) b))))
  end.

(** default_physics.h L309-319, compute_density_pressure_soundspeed: density
    (the assertion that it is positive stops the run), internal energy,
    pressure, sound speed, signal speed and, for the Cullen viscosity, the
    velocity divergence and its rate *)
Definition density_pass (dt : R) (b : dbody) (nbs : list dbody) : option dbody :=
  let ps := map d_p nbs in
  let rho := density sp n (d_p b) ps in
  if Rltb 0 rho then
    let b := set_rho rho b in
    match (if dp_evolve dp && dp_thermo dp then recover_internal_energy b else Some b) with
    | None => None
    | Some b =>
        let b := compute_soundspeed (compute_pressure b) in
        let b := set_vsig (signal_speed n (d_p b) ps) b in
        Some (if cullen sp then
          let div := divergence sp n (d_p b) ps in set_divv div ((div - p_divv (d_p b)) / dt) b
        else b)
    end
  else None.

(** viscosity.h L171-179 and L314-363; [None] stands for NaN *)
Definition initialize_alpha (b : dbody) : dbody := set_alpha (if cullen sp then 0 else v_alpha sp) b.
Definition alpha_pass (dt : R) (b : dbody) (nbs : list dbody) : option dbody :=
  match new_alpha sp n dt (d_p b) (map d_p nbs) with None => None | Some a => Some (set_alpha a b) end.

(** default_physics.h L348-408, compute_acceleration *)
Definition acceleration_pass (b : dbody) (nbs : list dbody) : option dbody :=
  Some (set_gpot 0 (set_gacc vzero (set_acc (Sph_model.acceleration sp n (dp_ext dp (p_pos (d_p b))) (d_p b) (map d_p nbs)) b))).

(** default_physics.h L702-709, add_drag_acceleration *)
Definition drag (v : point) : point := acceleration_drag n (dp_beta dp) (dp_gamma dp) v.
Definition add_drag (b : dbody) : dbody := set_acc (vadd (d_acc b) (drag (p_vel (d_p b)))) b.

(** default_physics.h L723-753, add_short_range_repulsion.  Two particles at
    the same position give 0/0 in the code when their identifiers differ;
    over the real numbers such a pair contributes nothing. *)
Definition repulsion (b : dbody) (nbs : list dbody) : point :=
  fun k => dp_rgam dp * suml (fun q =>
    if Nat.eqb (d_id q) (d_id b) then 0 else
    let r := norm n (vsub (p_pos (d_p b)) (p_pos (d_p q))) in
    if Rltb (h_mean (d_p b) (d_p q) * dp_rrad dp) r then 0 else
    p_m (d_p q) * (p_pos (d_p b) k - p_pos (d_p q) k) / (r * r * r)) nbs.
Definition repulsion_pass (b : dbody) (nbs : list dbody) : option dbody :=
  Some (set_acc (vadd (d_acc b) (repulsion b nbs)) b).

(** default_physics.h L421-487, compute_dudt; L591-598, add_drag_dudt *)
Definition dudt_pass (relaxing : bool) (b : dbody) (nbs : list dbody) : option dbody :=
  Some (set_dudt (dudt sp n relaxing (d_p b) (map d_p nbs)) b).
Definition drag_power (b : dbody) : R := dot n (p_vel (d_p b)) (drag (p_vel (d_p b))).
Definition add_drag_dudt (b : dbody) : dbody := set_dudt (d_dudt b + drag_power b) b.

(** default_physics.h L502-566, compute_dedt; L574-582, add_drag_dedt *)
Definition dedt_pass (b : dbody) (nbs : list dbody) : option dbody :=
  Some (set_dedt (dedt sp n (d_p b) (map d_p nbs)) b).
Definition add_drag_dedt (b : dbody) : dbody := set_dedt (d_dedt b + drag_power b) b.

(** integration.h L52-55, L65-70, L80-84, L94-98, L106-110 *)
Definition save_velocityhalf (b : dbody) : dbody := set_v12 (p_vel (d_p b)) b.
Definition kick_v (dt : R) (b : dbody) : dbody :=
  set_vel (vadd (p_vel (d_p b)) (vscale (1 / 2 * dt) (vadd (d_acc b) (p_gacc (d_p b))))) b.
Definition kick_u (dt : R) (b : dbody) : dbody := set_u (d_u b + 1 / 2 * dt * d_dudt b) b.
Definition kick_e (dt : R) (b : dbody) : dbody := set_e (d_e b + 1 / 2 * dt * d_dedt b) b.
Definition drift (dt : R) (b : dbody) : dbody := set_pos (vadd (p_pos (d_p b)) (vscale dt (p_vel (d_p b)))) b.

(** default_physics.h L825-849, compute_smoothinglength; the root is that of
    the dimension *)
Definition root (x : R) : R := match n with 1%nat => x | 2%nat => sqrt x | _ => Rpower x (1 / 3) end.
Definition smoothing_length (b : dbody) : R := root (p_m (d_p b) / p_rho (d_p b)) * dp_etaw dp.

(** default_physics.h L883-903, compute_average_smoothinglength over all
    [N] particles of all ranks *)
Definition new_h (N : nat) (s : nat -> dbody) : nat -> dbody :=
  match dp_hmode dp with
  | HVariable => fun i => set_h (smoothing_length (s i)) (s i)
  | HUniform => let h := 1 / INR N * sumn N (fun i => smoothing_length (s i)) in fun i => set_h h (s i)
  | HFixed => s
  end.

(** What the driver calls: bs.update_iteration, bs.reset_ghosts,
    bs.apply_all(f), bs.apply_in_smoothinglength(F), bs.gravitation_fmm and
    the smoothing-length update. *)
Inductive op :=
  | OUpdate | OReset
  | OAll (f : dbody -> option dbody)
  | OPass (F : dbody -> list dbody -> option dbody)
  | OGrav
  | OSmooth.

Definition all (f : dbody -> dbody) : op := OAll (fun b => Some (f b)).
Definition opt (c : bool) (l : list op) : list op := if c then l else [].

(** The passes that compute the energy rate, L150-159 and L225-235 (total
    energy) or L163-173 and L240-250 (internal energy): [updates] rounds,
    the ghosts are renewed between rounds. *)
Definition energy_round (relaxing : bool) (dt : R) : list op :=
  if dp_thermo dp then
    [OPass dedt_pass] ++ opt relaxing [all add_drag_dedt] ++ [OAll (recompute_thermo dt)]
  else
    [OPass (dudt_pass relaxing)] ++ opt relaxing [all add_drag_dudt] ++ [all (recompute dt)].
Fixpoint energy_rounds (relaxing : bool) (dt : R) (m : nat) : list op :=
  match m with
  | O => []
  | S O => energy_round relaxing dt
  | S m => energy_round relaxing dt ++ [OReset] ++ energy_rounds relaxing dt m
  end.

(** main_driver.cc L127-138 and L207-214: ghosts, accelerations, gravity,
    relaxation terms *)
Definition forces (gravity relaxing : bool) : list op :=
  [OReset; OPass acceleration_pass] ++ opt gravity [OGrav] ++
  opt relaxing [all add_drag; OPass repulsion_pass].

(** main_driver.cc L102-175, the first iteration; the time step is [dt] up to
    the update at L140-146 and [dt'] after it *)
Definition initial_ops (gravity : bool) (k : nat) (dt dt' : R) : list op :=
  let relaxing := Nat.ltb k (dp_relax dp) in
  [OUpdate; all eos_init] ++ opt (dp_thermo dp) [all set_total_energy] ++
  opt (cullen sp) [all initialize_alpha] ++
  [OPass (density_pass dt); all save_velocityhalf] ++
  opt (cullen sp) [OPass (alpha_pass dt)] ++
  forces gravity relaxing ++
  opt (gravity && dp_thermo dp) [all set_total_energy] ++
  opt (dp_evolve dp) (energy_rounds relaxing dt' (dp_updates dp)) ++
  [OSmooth].

(** main_driver.cc L176-254, every other iteration, with time step [dt] *)
Definition step_ops (gravity : bool) (k : nat) (dt : R) : list op :=
  let relaxing := Nat.ltb k (dp_relax dp) in
  opt (dp_evolve dp) [all (if dp_thermo dp then kick_e dt else kick_u dt)] ++
  [all (kick_v dt); all save_velocityhalf; all (drift dt); OUpdate; OPass (density_pass dt)] ++
  opt (cullen sp) [OPass (alpha_pass dt)] ++
  forces gravity relaxing ++ [all (kick_v dt); OReset] ++
  opt (dp_evolve dp) (energy_rounds relaxing dt (dp_updates dp) ++ [all (if dp_thermo dp then kick_e dt else kick_u dt)]) ++
  [OSmooth].

(** ** Effect of an operation on the [N] particles of all ranks, each pass
    reading the state in which it started.  [lists s nb] says that the
    traversal of the tree of [s] hands [nb] to the pass; [grav s g] that
    gravitation_fmm adds the accelerations and potentials [g].  The cached
    copies of remote particles are not part of this semantics. *)
Section Exec.
Context (N : nat) (lists : (nat -> dbody) -> (nat -> list nat) -> Prop).
Context (grav : (nat -> dbody) -> (nat -> point * R) -> Prop).

Definition do_op (o : op) (s s' : nat -> dbody) : Prop :=
  match o with
  | OUpdate | OReset => s' = s
  | OAll f => forall i, (i < N)%nat -> f (s i) = Some (s' i)
  | OPass F => exists nb, lists s nb /\ forall i, (i < N)%nat -> F (s i) (map s (nb i)) = Some (s' i)
  | OGrav => exists g, grav s g /\ forall i, (i < N)%nat ->
      s' i = set_gpot (d_gpot (s i) + snd (g i)) (set_gacc (vadd (p_gacc (d_p (s i))) (fst (g i))) (s i))
  | OSmooth => s' = new_h N s
  end.
Fixpoint do_ops (l : list op) (s s' : nat -> dbody) : Prop :=
  match l with [] => s' = s | o :: l => exists m, do_op o s m /\ do_ops l m s' end.

(** The loop L93-283.  [time] is physics::totaltime; the time step of the next
    iteration is chosen at L268-275 (or kept) and is the amount by which
    advance_time, default_physics.h L853-860, moves the clock.  [k0] is
    initial_iteration. *)
Inductive sim (gravity : bool) (k0 : nat) (s0 : nat -> dbody) (t0 : R) : nat -> (nat -> dbody) -> R -> R -> Prop :=
  | sim_first dt dt' dt'' s : do_ops (initial_ops gravity k0 dt dt') s0 s -> sim gravity k0 s0 t0 k0 s t0 dt''
  | sim_next k s t dt dt' s' : sim gravity k0 s0 t0 k s t dt -> do_ops (step_ops gravity (S k) dt) s s' ->
      sim gravity k0 s0 t0 (S k) s' (t + dt) dt'.
End Exec.
End Ops.
