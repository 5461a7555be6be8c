(** Model of the equations of state,
    /repo/include/physics/eos/eos.h.  double is modelled by the real numbers,
    pow(x, y) by [Rpower x y] (all bases are positive densities), cbrt(x) by
    [Rpower x (1/3)], asinh by the standard library's [arcsinh].  Tabulated data
    and the debug output are not modelled. *)
From Verif Require Import Base.
From Coq Require Export Reals Lra.
Local Open Scope R_scope.

(** The fields of a particle used here (include/physics/body.h). *)
Record fluid : Type := Fluid
  { f_rho : R; f_P : R; f_K : R; f_u : R; f_cs : R; f_Ye : R }.
Definition set_P (p : fluid) (x : R) : fluid := Fluid (f_rho p) x (f_K p) (f_u p) (f_cs p) (f_Ye p).
Definition set_K (p : fluid) (x : R) : fluid := Fluid (f_rho p) (f_P p) x (f_u p) (f_cs p) (f_Ye p).
Definition set_u (p : fluid) (x : R) : fluid := Fluid (f_rho p) (f_P p) (f_K p) x (f_cs p) (f_Ye p).
Definition set_cs (p : fluid) (x : R) : fluid := Fluid (f_rho p) (f_P p) (f_K p) (f_u p) x (f_Ye p).

(** param::poly_gamma, param::poly_gamma2, param::ppt_density_thr *)
Record eos_par : Type := EosPar { gamma : R; gamma2 : R; density_thr : R }.

(** L42-50 *)
Definition square (x : R) : R := x * x.
Definition cube (x : R) : R := x * x * x.

(** ** polytropic, L56-144 *)
(** L67-70 *)
Definition adiabatic_given_rhoP (q : eos_par) (rho P : R) : R := P / Rpower rho (gamma q).
(** L77-83 *)
Definition poly_adiabatic (q : eos_par) (p : fluid) : fluid := set_K p (adiabatic_given_rhoP q (f_rho p) (f_P p)).
(** L90-92 *)
Definition poly_init (q : eos_par) (p : fluid) : fluid := poly_adiabatic q p.
(** L102-106 *)
Definition poly_pressure (q : eos_par) (p : fluid) : fluid := set_P p (f_K p * Rpower (f_rho p) (gamma q)).
(** L114-119 *)
Definition poly_soundspeed (q : eos_par) (p : fluid) : fluid :=
  set_cs p (sqrt (f_K p * gamma q * Rpower (f_rho p) (gamma q - 1))).
(** L137-143 *)
Definition poly_energy (q : eos_par) (p : fluid) : fluid :=
  set_u p (f_K p * Rpower (f_rho p) (gamma q - 1) / (gamma q - 1)).

(** ** ideal, L147-208 *)
(** L157-159 *)
Definition ideal_init (q : eos_par) (p : fluid) : fluid := poly_adiabatic q p.
(** L166-171 *)
Definition ideal_pressure (q : eos_par) (p : fluid) : fluid := set_P p ((gamma q - 1) * f_rho p * f_u p).
(** L178-183 *)
Definition ideal_soundspeed (q : eos_par) (p : fluid) : fluid := set_cs p (sqrt (gamma q * (gamma q - 1) * f_u p)).
(** L191-197 *)
Definition ideal_energy (q : eos_par) (p : fluid) : fluid :=
  set_u p (f_K p * Rpower (f_rho p) (gamma q - 1) / (gamma q - 1)).
(** L205-208 *)
Definition ideal_adiabatic (q : eos_par) (p : fluid) : fluid := poly_adiabatic q p.

(** ** cold white dwarf, L224-313 *)
(** L230-232; C_LIGHT_CGS from eos_consts.h *)
Definition A_wd : R := 600233181 * 10 ^ 14.
Definition B_wd_nm : R := 973932099 / 1000.
Definition c_light : R := 29979245800.
(** the argument, L247, L254 and L307 *)
Definition wd_x (rho Ye : R) : R := Rpower (rho * Ye / B_wd_nm) (1 / 3).
(** L245-250 *)
Definition pressure_given_rhoYe (rho Ye : R) : R :=
  let x := wd_x rho Ye in
  let x2 := square x in
  A_wd * (x * (2 * x2 - 3) * sqrt (x2 + 1) + 3 * arcsinh x).
(** L252-259 *)
Definition soundspeed_given_rhoYe (rho Ye : R) : R :=
  let x := wd_x rho Ye in
  let x2 := square x in
  let numer := (1 + x2) * (6 * x2 - 3) + 3 + x2 * (2 * x2 - 3) in
  let denom := (1 + x2) * (6 * x2 + 1) - 1 + x2 * (2 * x2 + 1) in
  sqrt (numer / (3 * denom)) * c_light.
(** L261-267 *)
Definition wd_pressure (p : fluid) : fluid := set_P p (pressure_given_rhoYe (f_rho p) (f_Ye p)).
(** L274-294 *)
Definition wd_soundspeed (p : fluid) : fluid := set_cs p (soundspeed_given_rhoYe (f_rho p) (f_Ye p)).
(** L302-313 *)
Definition wd_energy (p : fluid) : fluid :=
  let x := wd_x (f_rho p) (f_Ye p) in
  let x2 := square x in
  let x3 := cube x in
  set_u p (A_wd / f_rho p * (8 * x3 * (sqrt (x2 + 1) - 1) - (x * (2 * x2 - 3) * sqrt (x2 + 1) + 3 * arcsinh x))).
(** L240-243 *)
Definition wd_init (p : fluid) : fluid := wd_energy p.

(** ** piecewise polytrope, L317-419.  The static member rho_thr is set by
    compute_adiabatic (L333); it is passed as [density_thr] here, that is, the
    other functions run after init. *)
Definition below (q : eos_par) (rho : R) : bool := if Rlt_dec rho (density_thr q) then true else false.
(** L331-345 *)
Definition ppt_adiabatic (q : eos_par) (p : fluid) : fluid :=
  set_K p (if below q (f_rho p) then f_P p / Rpower (f_rho p) (gamma q)
           else let K2 := f_P p / Rpower (f_rho p) (gamma2 q) in K2 * Rpower (density_thr q) (gamma2 q - gamma q)).
(** L352-354 *)
Definition ppt_init (q : eos_par) (p : fluid) : fluid := ppt_adiabatic q p.
(** L360-373 *)
Definition ppt_pressure (q : eos_par) (p : fluid) : fluid :=
  set_P p (if below q (f_rho p) then f_K p * Rpower (f_rho p) (gamma q)
           else let K2 := f_K p * Rpower (density_thr q) (gamma q - gamma2 q) in K2 * Rpower (f_rho p) (gamma2 q)).
(** L380-394 *)
Definition ppt_soundspeed (q : eos_par) (p : fluid) : fluid :=
  set_cs p (if below q (f_rho p) then sqrt (f_K p * gamma q * Rpower (f_rho p) (gamma q - 1))
            else let K2 := f_K p * Rpower (density_thr q) (gamma q - gamma2 q) in sqrt (K2 * gamma2 q * Rpower (f_rho p) (gamma2 q - 1))).
(** L402-417 *)
Definition ppt_energy (q : eos_par) (p : fluid) : fluid :=
  set_u p (if below q (f_rho p) then f_K p * Rpower (f_rho p) (gamma q - 1) / (gamma q - 1)
           else let K2 := f_K p * Rpower (density_thr q) (gamma q - gamma2 q) in
             K2 * Rpower (f_rho p) (gamma2 q - 1) / (gamma2 q - 1)
             - K2 * Rpower (density_thr q) (gamma2 q - 1) / (gamma2 q - 1)
             + f_K p * Rpower (density_thr q) (gamma q - 1) / (gamma q - 1)).

(** ** selection, L457-499: the functions installed for each eos_type. *)
Inductive eos_kind : Type := E_poly | E_ideal | E_wd | E_ppt | E_none.
Record eos_fns : Type := EosFns
  { eos_init : fluid -> fluid; eos_pressure : fluid -> fluid; eos_soundspeed : fluid -> fluid; eos_energy : fluid -> fluid }.
Definition eos_select (q : eos_par) (k : eos_kind) : eos_fns :=
  match k with
  | E_poly => EosFns (poly_init q) (poly_pressure q) (poly_soundspeed q) (poly_energy q)
  | E_ideal => EosFns (ideal_init q) (ideal_pressure q) (ideal_soundspeed q) (ideal_energy q)
  | E_wd => EosFns wd_init wd_pressure wd_soundspeed wd_energy
  | E_ppt => EosFns (ppt_init q) (ppt_pressure q) (ppt_soundspeed q) (ppt_energy q)
  | E_none => EosFns (fun p => p) (fun p => p) (fun p => p) (fun p => p)
  end.
