(** Model of the external forces and potentials,
    /repo/include/physics/eforce.h.  double is modelled by the real numbers,
    pow by [Rpower] on the positive arguments the code passes, gdimension by
    [n], coordinates by [point].  A coordinate access rp[i] with i >= gdimension
    is outside the array; the wall selection records it. *)
From Coq Require Import String Ascii.
From Verif Require Import Base Vec Geometry_model Profile_model.
Local Open Scope R_scope.

(** The parameters the functions read. *)
Record ef_par := EfPar {
  box_length : R; box_width : R; box_height : R;
  pw_n : R; (* extforce_wall_powerindex *)
  pw_a : R; (* extforce_wall_steepness *)
  sphere_radius : R;
  pressure_initial : R; rho_initial : R; poly_gamma : R;
  gravity_acceleration_constant : R;
  airfoil_size : R; airfoil_thickness : R; airfoil_camber : R;
  airfoil_anchor_x : R; airfoil_anchor_y : R; airfoil_attack_angle : R;
  gravitational_constant : R; orbital_separation : R; mass_neutron_star : R; mass_white_dwarf : R;
  zero_potential_poison_value : R }.

Section EForce.
Variables (n : nat) (q : ef_par).

(** L51-52 and L71-72: box *)
Definition half_box (I : nat) : R := 1 / 2 * match I with 0%nat => box_length q | 1%nat => box_width q | _ => box_height q end.

(** L47-60, potential_square_well<I> *)
Definition potential_square_well (I : nat) (rp : point) : R :=
  ((if Rltb (rp I) (- half_box I) then Rpower (- rp I - half_box I) (pw_n q) else 0) +
   (if Rltb (half_box I) (rp I) then Rpower (rp I - half_box I) (pw_n q) else 0)) * pw_a q.

(** L65-80, acceleration_square_well<I> *)
Definition acceleration_square_well (I : nat) (rp : point) : point := fun k =>
  if Nat.eqb k I then
    ((if Rltb (rp I) (- half_box I) then Rpower (- rp I - half_box I) (pw_n q - 1) else 0) -
     (if Rltb (half_box I) (rp I) then Rpower (rp I - half_box I) (pw_n q - 1) else 0)) * pw_n q * pw_a q
  else 0.

(** L96-99, L114-117, L135-138, L158-161: sqrt of the sum of squares *)
Definition radius (rp : point) : R := sqrt (sumn n (fun i => rp i * rp i)).

(** L89-106 *)
Definition acceleration_spherical_wall (rp : point) : point := fun k =>
  let r := radius rp in
  if Rltb (sphere_radius q) r then
    let ar := pw_n q * pw_a q * Rpower (r - sphere_radius q) (pw_n q - 1) in - rp k / r * ar
  else 0.
(** L108-121 *)
Definition potential_spherical_wall (rp : point) : R :=
  let r := radius rp in
  if Rltb (sphere_radius q) r then pw_a q * Rpower (r - sphere_radius q) (pw_n q) else 0.

(** The two function pointers of density_profiles.h L50-52 *)
Variables (prof dprof : R -> R).

(** L132-133, L156-157 *)
Definition K0 : R := pressure_initial q / Rpower (rho_initial q) (poly_gamma q).
Definition rho0 : R := prof 0.
(** L128-151 *)
Definition acceleration_spherical_density_support (rp : point) : point := fun k =>
  let r := radius rp in
  let x := r / sphere_radius q in
  (if Rltb (/ 10 ^ 12) x then
     let rho := rho_initial q / rho0 * prof x in
     let drhodr := rho_initial q / (rho0 * sphere_radius q) * dprof x in
     let a_r := if Rltb 0 rho then K0 * poly_gamma q * Rpower rho (poly_gamma q - 2) * drhodr else 0 in
     a_r * rp k / r
   else 0) + acceleration_spherical_wall rp k.
(** L153-170 *)
Definition potential_spherical_density_support (rp : point) : R :=
  let r := radius rp in
  let x := r / sphere_radius q in
  let rho := rho_initial q / rho0 * prof x in
  let phi := if Rltb 0 rho then - K0 * poly_gamma q * Rpower rho (poly_gamma q - 1) / (poly_gamma q - 1) else 0 in
  phi + potential_spherical_wall rp.

(** L178-187 *)
Definition acceleration_gravity (rp : point) : point := fun k =>
  if Nat.ltb 1 n then (if Nat.eqb k 1 then - gravity_acceleration_constant q else 0)
  else (if Nat.eqb k 0 then - gravity_acceleration_constant q else 0).
(** L189-196 *)
Definition potential_gravity (rp : point) : R :=
  (if Nat.ltb 1 n then rp 1%nat else rp 0%nat) * gravity_acceleration_constant q.

(** L223-227, L256-261: rotated coordinates relative to the anchor *)
Definition air_alpha : R := airfoil_attack_angle q * PI / 180.
Definition air_x (rp : point) : R :=
  (rp 0%nat - airfoil_anchor_x q) * cos air_alpha + (rp 1%nat - airfoil_anchor_y q) * sin air_alpha.
Definition air_y (rp : point) : R :=
  - (rp 0%nat - airfoil_anchor_x q) * sin air_alpha + (rp 1%nat - airfoil_anchor_y q) * cos air_alpha.
(** L229-231, L263-265 *)
Definition inside_bounding_box (x y : R) : bool :=
  Rltb (Rabs y) (5 * airfoil_thickness q) && Rltb (- airfoil_size q * (2 / 100)) x && Rltb x (airfoil_size q * (102 / 100)).
(** L232-235, L266-269.  Where airfoil_size^2 < x^2 the square root is NaN and
    every comparison with it is false: None. *)
Definition camber_line (x : R) : R := airfoil_camber q * sin (PI * x / 2).
Definition air_phi (x y : R) : option R :=
  if Rltb (airfoil_size q * airfoil_size q - x * x) 0 then None else
  let upper_surface := airfoil_thickness q * x * sqrt (airfoil_size q * airfoil_size q - x * x) in
  Some (upper_surface * upper_surface - (y - camber_line x) * (y - camber_line x) + 2 / 1000).
Definition air_cond (x y : R) : option R :=
  match air_phi x y with
  | Some phi => if inside_bounding_box x y && Rltb 0 phi then Some phi else None
  | None => None
  end.
(** L216-248 *)
Definition acceleration_airfoil (rp : point) : point := fun k =>
  let x := air_x rp in
  let y := air_y rp in
  match air_cond x y with
  | Some phi =>
    let a0 := pw_n q * pw_a q * Rpower phi (pw_n q - 1) *
      (2 * (y - camber_line x) * (- airfoil_camber q * PI / 2 * cos (PI / 2 * x)) -
       airfoil_thickness q * airfoil_thickness q * 2 * x * (airfoil_size q * airfoil_size q - 2 * x * x)) in
    let a1 := pw_n q * pw_a q * Rpower phi (pw_n q - 1) * 2 * (y - camber_line x) in
    match k with
    | 0%nat => a0 * cos air_alpha - a1 * sin air_alpha
    | 1%nat => a0 * sin air_alpha + a1 * cos air_alpha
    | _ => 0
    end
  | None => 0
  end.
(** L250-273 *)
Definition potential_airfoil (rp : point) : R :=
  match air_cond (air_x rp) (air_y rp) with
  | Some aux => pw_a q * Rpower aux (pw_n q)
  | None => 0
  end.

(** L281-304 *)
Definition acceleration_orbit (rp : point) : point := fun k =>
  let grav := gravitational_constant q in
  let a_sp := orbital_separation q in
  let m_ns := mass_neutron_star q in
  let m_t := m_ns + mass_white_dwarf q in
  let temp := SQ (rp 0%nat - a_sp) + SQ (rp 1%nat) + SQ (rp 2%nat) in
  let temp := sqrt (CU temp) in
  let term1 := - grav * m_ns / temp in
  let term2 := grav * m_t / CU a_sp in
  match k with
  | 0%nat => 0 + term1 * (rp 0%nat - a_sp) + term2 * (rp 0%nat - a_sp * m_ns / m_t)
  | 1%nat => 0 + term1 * rp 1%nat + term2 * rp 1%nat
  | 2%nat => 0 + term1 * rp 2%nat
  | _ => 0
  end.
(** L306-320 *)
Definition potential_orbit (rp : point) : R :=
  let grav := gravitational_constant q in
  let a_sp := orbital_separation q in
  let m_ns := mass_neutron_star q in
  let m_t := m_ns + mass_white_dwarf q in
  let term1 := sqrt (SQ (rp 0%nat - a_sp) + SQ (rp 1%nat) + SQ (rp 2%nat)) in
  let term1 := - grav * m_ns / term1 in
  let term2 := - (1 / 2) * grav * m_t / CU a_sp in
  let term2 := term2 * (SQ (rp 0%nat - a_sp * m_ns / m_t) + SQ (rp 1%nat)) in
  term1 + term2.

(** L326-329 *)
Definition potential_poison (rp : point) : R := zero_potential_poison_value q.

(** ** Selection *)
(** The functions that can be pushed on the two lists. *)
Inductive ef_kind := KSphWall | KAirfoil | KSupport | KGravity | KOrbit | KWall (ax : nat) | KPoison.
Definition pot_of (k : ef_kind) : point -> R :=
  match k with
  | KSphWall => potential_spherical_wall | KAirfoil => potential_airfoil
  | KSupport => potential_spherical_density_support | KGravity => potential_gravity
  | KOrbit => potential_orbit | KWall ax => potential_square_well ax | KPoison => potential_poison
  end.
Definition acc_of (k : ef_kind) : point -> point :=
  match k with
  | KSphWall => acceleration_spherical_wall | KAirfoil => acceleration_airfoil
  | KSupport => acceleration_spherical_density_support | KGravity => acceleration_gravity
  | KOrbit => acceleration_orbit | KWall ax => acceleration_square_well ax
  | KPoison => fun _ => vzero (* no acceleration is pushed *)
  end.
Definition vec_potentials (l : list ef_kind) : list (point -> R) := map pot_of l.
Definition is_poison (k : ef_kind) : bool := match k with KPoison => true | _ => false end.
Definition vec_accelerations (l : list ef_kind) : list (point -> point) :=
  map acc_of (filter (fun k => negb (is_poison k)) l).

(** L335-341 *)
Definition acceleration (l : list ef_kind) (rp : point) : point :=
  fold_left (fun a p => vadd a (p rp)) (vec_accelerations l) vzero.
(** L347-353 *)
Definition potential (l : list ef_kind) (rp : point) : R :=
  fold_left (fun phi p => phi + p rp) (vec_potentials l) 0.

(** L441-451; [beta] relaxation_beta, [gam] relaxation_gamma *)
Definition acceleration_drag (beta gam : R) (vel : point) : point :=
  let v2 := sumn n (fun i => vel i * vel i) in fun k => 0 - (beta + gam * v2) * vel k.
End EForce.

(** ** The selector string, L359-434 *)
Local Open Scope string_scope.
Definition lower (c : ascii) : ascii :=
  let m := nat_of_ascii c in if (Nat.leb 65 m && Nat.leb m 90)%bool then ascii_of_nat (m + 32) else c.
(** boost::iequals *)
Fixpoint iequals (a b : string) : bool :=
  match a, b with
  | EmptyString, EmptyString => true
  | String c a', String d b' => Ascii.eqb (lower c) (lower d) && iequals a' b'
  | _, _ => false
  end.
(** boost::split with is_any_of(",") *)
Fixpoint split_comma (s : string) : list string :=
  match s with
  | EmptyString => [EmptyString]
  | String c s' =>
    if Ascii.eqb c "," then EmptyString :: split_comma s'
    else match split_comma s' with
         | t :: l => String c t :: l
         | nil => [String c EmptyString]
         end
  end.
(** Result: the pushed functions, an exception (log_fatal), or undefined
    behaviour. *)
Inductive sel_result := SelOk (l : list ef_kind) | SelFatal | SelUB.
(** L375-432: one item of the list.  L400 keeps a pointer into a temporary
    string, which no longer exists when L403 reads through it; the read happens
    unless nothing follows "walls:". *)
Definition select_item (s : string) : sel_result :=
  if iequals s "spherical wall" then SelOk [KSphWall]
  else if iequals s "airfoil" then SelOk [KAirfoil]
  else if iequals s "spherical density support" then SelOk [KSupport]
  else if iequals s "gravity" then SelOk [KGravity]
  else if iequals s "orbit" then SelOk [KOrbit]
  else if iequals (substring 0 6 s) "walls:" then
    if Nat.eqb (String.length s) 6 then SelOk [] else SelUB
  else if iequals s "poison" then SelOk [KPoison]
  else SelFatal.
Fixpoint select_items (l : list string) : sel_result :=
  match l with
  | nil => SelOk []
  | s :: l' =>
    match select_item s with
    | SelOk k => match select_items l' with SelOk k' => SelOk (k ++ k')%list | r => r end
    | r => r
    end
  end.
Definition select (efstr : string) : sel_result :=
  if (iequals efstr "zero" || iequals efstr "none")%bool then SelOk [] else select_items (split_comma efstr).
