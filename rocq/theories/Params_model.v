(** Model of the parameter file, /repo/include/params.h L785-1447, for a build in which
    no parameter is fixed with #define.  Texts are lists of characters.  A real parameter
    holds the decimal number of the text, before it is rounded to double; numbers outside
    the range of double are not modelled.  Assertions are switched on.  The log output
    and the failure to open the file (L1405-1411) are not modelled. *)
From Coq Require Import String Ascii Reals.
From Verif Require Import Base Snapshot_model.
Local Open Scope Z_scope.

Definition txt (s : string) : str := list_ascii_of_string s.
Definition cr : ascii := ascii_of_nat 13.
Definition nl : ascii := ascii_of_nat 10.
Definition nul : ascii := ascii_of_nat 0.
Definition tab : ascii := ascii_of_nat 9.
Fixpoint take_while (f : ascii -> bool) (s : str) : str := match s with [] => [] | c :: r => if f c then c :: take_while f r else [] end.
Fixpoint drop_while (f : ascii -> bool) (s : str) : str := match s with [] => [] | c :: r => if f c then drop_while f r else s end.

(** L790-799: find_first_not_of(" \t") and find_last_not_of(" \t") *)
Definition is_blank (c : ascii) : bool := ch_eqb c " " || ch_eqb c tab.
Definition trim (s : str) : str := rev (drop_while is_blank (rev (drop_while is_blank s))).

(** The types of the parameters: bool, signed integers of 32 or 64 bits, unsigned short,
    double, char[511], and enumerations with their texts *)
Inductive kind := KBool | KInt (bits : Z) | KUShort | KReal | KString | KKeyword (words : list (string * Z) * bool).
Inductive value := VB (b : bool) | VZ (z : Z) | VD (r : R) | VS (s : str) | VK (k : Z).

(** operator>> of a stream on the text: leading white space is skipped (all of isspace) *)
Definition is_space (c : ascii) : bool := let n := N_of_ascii c in (n =? 32)%N || ((9 <=? n) && (n <=? 13))%N.
Definition digits_value (ds : str) : Z := fold_left (fun a c => 10 * a + digit_val c) ds 0.
Definition read_sign (s : str) : bool * str :=
  match s with c :: r => if ch_eqb c "-" then (true, r) else if ch_eqb c "+" then (false, r) else (false, s) | [] => (false, s) end.
(** to a signed integer: saturates; 0 when there is no number *)
Definition read_signed (bits : Z) (s : str) : Z :=
  let '(neg, r) := read_sign s in let v := digits_value (take_while is_digit r) in
  if neg then Z.max (- 2 ^ (bits - 1)) (- v) else Z.min (2 ^ (bits - 1) - 1) v.
(** to an unsigned short: a minus sign negates modulo 2^16 *)
Definition read_ushort (s : str) : Z :=
  let '(neg, r) := read_sign s in let v := digits_value (take_while is_digit r) in
  if 65535 <? v then 65535 else if neg then (- v) mod 65536 else v.
(** to a double: digits, a point, digits, an exponent; 0 when this is no number *)
Definition pow10 (e : Z) : R := powerRZ 10 e.
Definition read_real (s : str) : R :=
  let '(neg, r) := read_sign s in
  let a := take_while is_digit r in let r1 := drop_while is_digit r in
  let '(b, r2) := match r1 with c :: r' => if ch_eqb c "." then (take_while is_digit r', drop_while is_digit r') else ([], r1) | [] => ([], r1) end in
  let m := digits_value (a ++ b) in let sm := if neg then - m else m in
  match a ++ b with
  | [] => 0%R
  | _ => match r2 with
      | c :: r3 => if ch_eqb c "e" || ch_eqb c "E" then
            let '(eneg, r4) := read_sign r3 in
            match take_while is_digit r4 with
            | [] => 0%R
            | x => (IZR sm * pow10 ((if eneg then - digits_value x else digits_value x) - Z.of_nat (length b)))%R
            end
          else (IZR sm * pow10 (- Z.of_nat (length b)))%R
      | [] => (IZR sm * pow10 (- Z.of_nat (length b)))%R
      end
  end.
(** the sentry of the stream fails when there are only white spaces, and nothing is assigned *)
Definition stream_read (f : str -> value) (s : str) (old : value) : value :=
  match drop_while is_space s with [] => old | r => f r end.

(** boost::iequals in the classic locale *)
Definition to_lower (c : ascii) : ascii := let n := N_of_ascii c in if ((65 <=? n) && (n <=? 90))%N then ascii_of_N (n + 32) else c.
Definition iequals (a b : str) : bool := str_eqb (map to_lower a) (map to_lower b).
Fixpoint find_word (words : list (string * Z)) (s : str) : option Z :=
  match words with [] => None | (w, k) :: r => if iequals s (txt w) then Some k else find_word r s end.
(** L888-919, L1076-1104, L1133-1147; the second part: the program exits with 2 on another
    text; else an assertion fails *)
Definition kernel_words : list (string * Z) * bool :=
  ([("cubic_spline", 0); ("quintic_spline", 1); ("wendland_c2", 2); ("wendland_c4", 3); ("wendland_c6", 4); ("gaussian", 5); ("super_gaussian", 6); ("sinc_ker", 7)]%string, false).
Definition eos_words : list (string * Z) * bool :=
  ([("ideal_fluid", 0); ("polytropic", 1); ("wd", 2); ("white_dwarf", 2); ("ppt", 3); ("piecewise_polytropic", 3); ("no_eos", 4); ("none", 4)]%string, false).
Definition viscosity_words : list (string * Z) * bool := ([("constant", 0); ("cullen", 1)]%string, true).

(** L833-1369: the parameters set_param knows, in its order, with the types of L154-784 *)
Definition table : list (string * kind) := (
  [ ("initial_iteration", KInt 64); ("final_iteration", KInt 64); ("initial_time", KInt 64); ("final_time", KReal);
    ("initial_dt", KReal); ("timestep_cfl_factor", KReal); ("adaptive_timestep", KBool); ("pressure_updates_number", KInt 64);
    ("nparticles", KInt 64); ("lattice_nx", KInt 64); ("sph_eta", KReal); ("sph_smoothing_length", KReal); ("sph_separation", KReal);
    ("sph_kernel", KKeyword kernel_words); ("sph_sinc_index", KReal); ("sph_update_uniform_h", KBool); ("sph_variable_h", KBool);
    ("domain_type", KInt 32); ("box_length", KReal); ("box_width", KReal); ("box_height", KReal); ("sphere_radius", KReal);
    ("do_boundaries", KBool); ("stop_boundaries", KBool); ("reflect_boundaries", KBool); ("periodic_boundary_x", KBool);
    ("periodic_boundary_y", KBool); ("periodic_boundary_z", KBool); ("lattice_mismatch_tolerance", KReal); ("initial_data_prefix", KString);
    ("modify_initial_data", KBool); ("output_h5data_prefix", KString); ("out_screen_every", KInt 32); ("out_screen_dt", KReal);
    ("out_scalar_every", KInt 32); ("out_scalar_dt", KReal); ("out_diagnostic_every", KInt 32); ("out_h5data_every", KInt 32);
    ("out_h5data_dt", KReal); ("out_h5data_separate_iterations", KBool); ("wvt_method", KString); ("wvt_boundary", KString);
    ("wvt_mu", KReal); ("wvt_ngb", KReal); ("wvt_convergence_check", KBool); ("wvt_convergence_point", KReal);
    ("wvt_h_ngb", KBool); ("wvt_cool_down", KInt 32); ("wvt_radius", KReal); ("eos_type", KKeyword eos_words);
    ("eos_tab_file_path", KString); ("poly_gamma", KReal); ("poly_gamma2", KReal); ("ppt_density_thr", KReal);
    ("sph_viscosity", KKeyword viscosity_words); ("sph_viscosity_alpha", KReal); ("sph_viscosity_beta", KReal);
    ("sph_viscosity_epsilon", KReal); ("sph_viscosity_alpha_max", KReal); ("sph_viscosity_l", KReal); ("sph_viscosity_delta", KReal);
    ("enable_fmm", KBool); ("fmm_macangle", KReal); ("relaxation_steps", KInt 32); ("relaxation_beta", KReal);
    ("relaxation_gamma", KReal); ("relaxation_repulsion_radius", KReal); ("relaxation_repulsion_gamma", KReal);
    ("evolve_internal_energy", KBool); ("thermokinetic_formulation", KBool); ("external_force_type", KString);
    ("zero_potential_poison_value", KReal); ("extforce_wall_powerindex", KReal); ("extforce_wall_steepness", KReal);
    ("mesa_rim_width", KReal); ("gravity_acceleration_constant", KReal); ("gravitational_constant", KReal); ("orbital_separation", KReal);
    ("mass_neutron_star", KReal); ("mass_white_dwarf", KReal); ("sodtest_num", KUShort); ("equal_mass", KBool);
    ("density_profile", KString); ("input_density_file", KString); ("rho_initial", KReal); ("pressure_initial", KReal);
    ("uint_initial", KReal); ("sedov_blast_energy", KReal); ("sedov_blast_radius", KReal); ("noh_infall_velocity", KReal);
    ("lattice_type", KInt 32); ("lattice_perturbation_amplitude", KReal); ("flow_velocity", KReal); ("density_ratio", KReal);
    ("KH_A", KReal); ("KH_lambda", KReal); ("rt_perturbation_amplitude", KReal); ("rt_perturbation_stripe_width", KReal);
    ("rt_perturbation_mode", KReal); ("airfoil_size", KReal); ("airfoil_thickness", KReal); ("airfoil_camber", KReal);
    ("airfoil_anchor_x", KReal); ("airfoil_anchor_y", KReal); ("airfoil_attack_angle", KReal) ])%string.
(** declared (L451, L547) but not known to set_param *)
Definition declared_only : list (string * kind) := [("wvt_set_boundary", KBool); ("fmm_max_cell_mass", KReal)]%string.

Inductive result (T : Type) := Done (x : T) | Exit (code : Z) | Abort | Overrun.
Arguments Done {T} x. Arguments Exit {T} code. Arguments Abort {T}. Arguments Overrun {T}.

(** L811-826: the comment is cut off, then a quote and the last character *)
Definition hash : ascii := "#"%char.
Definition not_c (d c : ascii) : bool := negb (ch_eqb c d).
Definition strip_comment (s : str) : str := if existsb (ch_eqb hash) s then trim (take_while (not_c hash) s) else s.
Definition is_quote (c : ascii) : bool := ch_eqb c "'" || ch_eqb c """".
(** substr(1, length - 2); for length 1 the count wraps and the rest is empty *)
Definition unquote (s : str) : str :=
  match s with c :: r => if is_quote c then firstn (length r - 1) r else s | [] => s end.
Definition str_value (s : str) : str := unquote (strip_comment s).
(** L829-831 *)
Definition bool_value (s : str) : bool :=
  existsb (str_eqb s) (map txt ["yes"; "'yes'"; """yes"""; "true"; "'true'"; """true"""]%string).
Definition underscores (s : str) : str := map (fun c => if ch_eqb c " " then underscore else c) s.
(** L102-119 and the keyword parameters; strcpy copies up to the first NUL into 511 bytes *)
Definition convert (k : kind) (s : str) (old : value) : result value :=
  match k with
  | KBool => Done (VB (bool_value s))
  | KInt bits => Done (stream_read (fun r => VZ (read_signed bits r)) s old)
  | KUShort => Done (stream_read (fun r => VZ (read_ushort r)) s old)
  | KReal => Done (stream_read (fun r => VD (read_real r)) s old)
  | KString => let c := take_while (not_c nul) s in if (length c <? 511)%nat then Done (VS c) else Overrun
  | KKeyword (words, exits) => match find_word words (underscores s) with Some e => Done (VK e) | None => if exits then Exit 2 else Abort end
  end.
Fixpoint lookup (t : list (string * kind)) (name : str) : option kind :=
  match t with [] => None | (w, k) :: r => if str_eqb name (txt w) then Some k else lookup r name end.
(** The parameters by name *)
Definition params := str -> value.
Definition upd (p : params) (name : str) (v : value) : params := fun n => if str_eqb n name then v else p n.
(** L804-1375 *)
Definition set_param (name text : str) (p : params) : result params :=
  match lookup table name with
  | None => Exit 2
  | Some k => match convert k (str_value text) (p name) with
      | Done v => Done (upd p name v) | Exit c => Exit c | Abort => Abort | Overrun => Overrun end
  end.

(** L1415-1425: is the line blank or does a '#' come first? *)
Fixpoint skipped (s : str) : bool :=
  match s with [] => true | c :: r => if ch_eqb c hash then true else if is_blank c then skipped r else false end.
(** L1413-1444, one line *)
Definition read_line (line : str) (p : params) : result params :=
  if skipped line then Done p
  else if negb (existsb (ch_eqb "=") line) then Exit 1
  else
    let lhs := trim (take_while (not_c "=") line) in
    let rhs := trim (tl (drop_while (not_c "=") line)) in
    if ((length lhs =? 0) || (length rhs =? 0))%nat then Exit 1 else set_param lhs rhs p.
Fixpoint read_lines (ls : list str) (p : params) : result params :=
  match ls with [] => Done p | l :: r => match read_line l p with Done p' => read_lines r p' | e => e end end.
(** std::getline: what follows the last line break counts when there is something *)
Fixpoint lines_of (cur : str) (s : str) : list str :=
  match s with [] => (match cur with [] => [] | _ => [rev cur] end) | c :: r => if ch_eqb c nl then rev cur :: lines_of [] r else lines_of (c :: cur) r end.
(** L1400-1447 *)
Definition read_params (file : str) (p : params) : result params := read_lines (lines_of [] file) p.
