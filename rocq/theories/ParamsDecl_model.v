(** The declarations of the parameters with their initial values,
    /repo/include/params.h L128-152 (the enumerations) and L154-784.  A real
    value is the decimal number of the source. *)
From Coq Require Import String Ascii Reals.
From Verif Require Import Base Snapshot_model Params_model.
Local Open Scope Z_scope.

(** L128-137, L139-145, L149-152: the position of an enumerator is its value *)
Definition kernel_enum : list string := ["cubic_spline"; "quintic_spline"; "wendland_c2"; "wendland_c4"; "wendland_c6"; "gaussian"; "super_gaussian"; "sinc_ker"]%string.
Definition eos_enum : list string := ["eos_ideal"; "eos_polytropic"; "eos_wd"; "eos_ppt"; "eos_no_eos"]%string.
Definition viscosity_enum : list string := ["visc_constant"; "visc_cullen"]%string.

(** L154-784 *)
Definition declared : list (string * value) := (
  [ ("initial_iteration"%string, VZ 0);
    ("final_iteration"%string, VZ 0);
    ("initial_time"%string, VZ 0);
    ("final_time"%string, VD (0)%R);
    ("initial_dt"%string, VD (1 / 1000)%R);
    ("timestep_cfl_factor"%string, VD (1 / 4)%R);
    ("adaptive_timestep"%string, VB false);
    ("pressure_updates_number"%string, VZ 1);
    ("nparticles"%string, VZ 1000);
    ("lattice_nx"%string, VZ 100);
    ("sph_eta"%string, VD (3 / 2)%R);
    ("sph_smoothing_length"%string, VD (-1)%R);
    ("sph_separation"%string, VD (-1)%R);
    ("sph_kernel"%string, VK 3);
    ("sph_sinc_index"%string, VD (4)%R);
    ("sph_update_uniform_h"%string, VB false);
    ("sph_variable_h"%string, VB false);
    ("domain_type"%string, VZ 0);
    ("box_length"%string, VD (3)%R);
    ("box_width"%string, VD (1)%R);
    ("box_height"%string, VD (1)%R);
    ("sphere_radius"%string, VD (1)%R);
    ("do_boundaries"%string, VB false);
    ("stop_boundaries"%string, VB false);
    ("reflect_boundaries"%string, VB false);
    ("periodic_boundary_x"%string, VB false);
    ("periodic_boundary_y"%string, VB false);
    ("periodic_boundary_z"%string, VB false);
    ("lattice_mismatch_tolerance"%string, VD (1 / 20)%R);
    ("initial_data_prefix"%string, VS (txt "initial_data"));
    ("modify_initial_data"%string, VB false);
    ("output_h5data_prefix"%string, VS (txt "output_data"));
    ("out_screen_every"%string, VZ 1);
    ("out_screen_dt"%string, VD (0)%R);
    ("out_scalar_every"%string, VZ 10);
    ("out_scalar_dt"%string, VD (0)%R);
    ("out_diagnostic_every"%string, VZ 0);
    ("out_h5data_every"%string, VZ 10);
    ("out_h5data_dt"%string, VD (0)%R);
    ("out_h5data_separate_iterations"%string, VB false);
    ("wvt_method"%string, VS (txt "arth"));
    ("wvt_boundary"%string, VS (txt "reflective"));
    ("wvt_mu"%string, VD (1 / 1000)%R);
    ("wvt_ngb"%string, VD (120)%R);
    ("wvt_convergence_check"%string, VB true);
    ("wvt_convergence_point"%string, VD (1)%R);
    ("wvt_h_ngb"%string, VB false);
    ("wvt_cool_down"%string, VZ 0);
    ("wvt_set_boundary"%string, VB true);
    ("wvt_radius"%string, VD (1)%R);
    ("eos_type"%string, VK 0);
    ("eos_tab_file_path"%string, VS (txt "."));
    ("poly_gamma"%string, VD (7 / 5)%R);
    ("poly_gamma2"%string, VD (5 / 2)%R);
    ("ppt_density_thr"%string, VD (500000000000000)%R);
    ("sph_viscosity"%string, VK 0);
    ("sph_viscosity_alpha"%string, VD (1)%R);
    ("sph_viscosity_beta"%string, VD (2)%R);
    ("sph_viscosity_epsilon"%string, VD (1 / 100)%R);
    ("sph_viscosity_alpha_max"%string, VD (1)%R);
    ("sph_viscosity_l"%string, VD (1 / 20)%R);
    ("sph_viscosity_delta"%string, VD (1)%R);
    ("enable_fmm"%string, VB false);
    ("fmm_macangle"%string, VD (0)%R);
    ("fmm_max_cell_mass"%string, VD (0)%R);
    ("relaxation_steps"%string, VZ 0);
    ("relaxation_beta"%string, VD (1 / 1000000)%R);
    ("relaxation_gamma"%string, VD (0)%R);
    ("relaxation_repulsion_radius"%string, VD (1 / 4)%R);
    ("relaxation_repulsion_gamma"%string, VD (0)%R);
    ("evolve_internal_energy"%string, VB true);
    ("thermokinetic_formulation"%string, VB true);
    ("external_force_type"%string, VS (txt "none"));
    ("zero_potential_poison_value"%string, VD (0)%R);
    ("extforce_wall_powerindex"%string, VD (5)%R);
    ("extforce_wall_steepness"%string, VD (1000000000000)%R);
    ("mesa_rim_width"%string, VD (1 / 4)%R);
    ("gravity_acceleration_constant"%string, VD (981 / 100)%R);
    ("gravitational_constant"%string, VD (1)%R);
    ("orbital_separation"%string, VD (2500000000)%R);
    ("mass_neutron_star"%string, VD (2505428100000000000000000000000000)%R);
    ("mass_white_dwarf"%string, VD (2187278500000000000000000000000000)%R);
    ("sodtest_num"%string, VZ 1);
    ("equal_mass"%string, VB true);
    ("density_profile"%string, VS (txt "constant"));
    ("input_density_file"%string, VS (txt ""));
    ("rho_initial"%string, VD (1)%R);
    ("pressure_initial"%string, VD (1)%R);
    ("uint_initial"%string, VD (1)%R);
    ("sedov_blast_energy"%string, VD (1)%R);
    ("sedov_blast_radius"%string, VD (1 / 20)%R);
    ("noh_infall_velocity"%string, VD (1 / 10)%R);
    ("lattice_type"%string, VZ 0);
    ("lattice_perturbation_amplitude"%string, VD (0)%R);
    ("flow_velocity"%string, VD (0)%R);
    ("density_ratio"%string, VD (2)%R);
    ("KH_A"%string, VD (1 / 40)%R);
    ("KH_lambda"%string, VD (1 / 6)%R);
    ("rt_perturbation_amplitude"%string, VD (1 / 5)%R);
    ("rt_perturbation_stripe_width"%string, VD (1 / 10)%R);
    ("rt_perturbation_mode"%string, VD (1)%R);
    ("airfoil_size"%string, VD (2)%R);
    ("airfoil_thickness"%string, VD (1 / 20)%R);
    ("airfoil_camber"%string, VD (1 / 10)%R);
    ("airfoil_anchor_x"%string, VD (-1)%R);
    ("airfoil_anchor_y"%string, VD (0)%R);
    ("airfoil_attack_angle"%string, VD (0)%R) ]).

(** The values before the file is read *)
Fixpoint value_of (l : list (string * value)) (name : str) : value :=
  match l with [] => VB false | (w, v) :: r => if str_eqb name (txt w) then v else value_of r name end.
Definition initial : params := value_of declared.
