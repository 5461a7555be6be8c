(** Model of the initial-data generators for the Sedov blast wave and the Noh
    problem, /repo/app/id_generators/{sedov,noh}/main.cc; see IdGen_model for the
    conventions.  The two programs place and weigh the particles with the same text
    (sedov L68-227, noh L47-206).

    None is also what is not a number in the code: pow of a density that is not
    positive, divisions by a density at the centre, a radius of the sphere or an
    exponent minus 1 that is zero.  The random engine is a table of the numbers it draws
    (std::normal_distribution returns its second argument times such a number).  The
    bodies read with modify_initial_data are a list, how they are read and written is in
    other parts of the model. *)
From Coq Require Import Reals.
From Verif Require Import Base BuildTree_model Range_model Lattice_model Profile_model IdGen_model.
Local Open Scope R_scope.

(** A body, with its position and velocity; acceleration and time step are left out *)
Record bod := Bod { b_id : Z; b_r : R * R * R; b_v : R * R * R; b_h : R; b_rho : R; b_u : R; b_P : R; b_m : R }.
(** /repo/include/physics/density_profiles.h: spherical_density_profile, and whether
    density_profile is "constant"; the bodies read with modify_initial_data;
    lattice_perturbation_amplitude and the numbers drawn for the coordinates of a particle *)
Record bpar := BPar { profile : R -> R; constant_profile : bool; modify : option (list bod); amplitude : R; noise : nat -> nat -> R }.

(** sedov L79-94, noh L58-73 *)
Definition bl_min (p : gpar) : nat -> R :=
  if (domain_type p =? 0)%Z then pt (- box_length p / 2) (- box_width p / 2) (- box_height p / 2) else fun _ => - sphere_radius p.
Definition bl_max (p : gpar) : nat -> R :=
  if (domain_type p =? 0)%Z then pt (box_length p / 2) (box_width p / 2) (box_height p / 2) else fun _ => sphere_radius p.
(** sedov L97-102, noh L76-81 *)
Definition bl_sep (p : gpar) : R :=
  if (domain_type p =? 0)%Z then box_length p / IZR (lattice_nx p - 1) else 2 * sphere_radius p / IZR (lattice_nx p - 1).
(** sedov L110-129, noh L89-108 *)
Definition bl_total (p : gpar) (f : R -> R) : R :=
  match g_dim p with
  | 1%nat => rho_initial p * box_length p
  | 2%nat => if (domain_type p =? 0)%Z then rho_initial p * box_length p * box_width p else rho_initial p * PI * SQ (sphere_radius p)
  | _ => if (domain_type p =? 0)%Z then rho_initial p * box_length p * box_width p * box_height p
         else rho_initial p * CU (sphere_radius p) / f 0
  end.
(** magnitude of a point, /repo/include/space_vector.h L122-132: the coordinates the dimension has *)
Definition mag (dim : nat) (r : R * R * R) : R :=
  let '(x, y, z) := r in
  match dim with 1%nat => Rabs x | 2%nat => sqrt (x * x + y * y) | _ => sqrt (x * x + y * y + z * z) end.
(** A body that has only been given a position, sedov L210-226, noh L189-205; the other fields are overwritten later *)
Definition fresh (r : R * R * R) : bod := Bod 0 r (0, 0, 0) 0 0 0 0 0.
(** sedov L68-227, noh L47-206: mass_particle and the bodies.  The assertions: L121 (L100) and L132 (L111), L208 (L187) *)
Definition bl_bodies (p : gpar) (b : bpar) : option (R * list bod) :=
  if negb ((domain_type p =? 0)%Z || (domain_type p =? 1)%Z) || (lattice_nx p - 1 =? 0)%Z || negb (equal_mass p)
    || (3 <=? g_dim p)%nat && (domain_type p =? 0)%Z && negb (constant_profile b) then None else
  if Req_EM_T (profile b 0) 0 then None else
  n <- count (g_dim p) (g_fuel p) (lattice_type p) (domain_type p) (bl_min p) (bl_max p) (bl_sep p) 0 ;;
  if (n =? 0)%Z then None else
  let m := bl_total p (profile b) / IZR n in
  match modify b with
  | Some l => Some (m, l)
  | None =>
    ga <- generate (g_dim p) (g_fuel p) (lattice_type p) (domain_type p) (bl_min p) (bl_max p) (bl_sep p) n 0 (zeros 0) ;;
    let '(n', a) := ga in
    if negb (n =? n')%Z then None else
    Some (m, map (fun k => fresh (l_x a (Z.of_nat k), l_y a (Z.of_nat k), l_z a (Z.of_nat k))) (seq 0 (Z.to_nat n)))
  end.
Definition is_fresh (b : bpar) : bool := match modify b with None => true | Some _ => false end.
(** rp[k] += distribution(generator) for the coordinates of the dimension *)
Definition shake (dim : nat) (h : R) (b : bpar) (a : nat) (r : R * R * R) : R * R * R :=
  let '(x, y, z) := r in
  let d k := h * amplitude b * noise b a k in
  if Rlt_b 0 (amplitude b) then
    match dim with 1%nat => (x + d 0%nat, y, z) | 2%nat => (x + d 0%nat, y + d 1%nat, z) | _ => (x + d 0%nat, y + d 1%nat, z + d 2%nat) end
  else r.
(** The density of a particle at distance r, sedov L273-274, noh L251-252 *)
Definition bl_rho (p : gpar) (b : bpar) (r : R) : R := rho_initial p / profile b 0 * profile b (r / sphere_radius p).
(** sedov L249-250 and L300, noh L210-211 and L286: the energy of a density *)
Definition bl_u (p : gpar) (rho : R) : R :=
  pressure_initial p / Rpower (rho_initial p) (poly_gamma p) * Rpower rho (poly_gamma p - 1) / (poly_gamma p - 1).
(** for(a = 0; a < nparticles; ++a) over the bodies *)
Fixpoint each (f : nat -> bod -> option bod) (a : nat) (l : list bod) : option (list bod) :=
  match l with [] => Some [] | q :: r => q' <- f a q ;; r' <- each f (S a) r ;; Some (q' :: r') end.
(** What is not a number in both programs: pow(rho_initial, .), the division by sphere_radius, and that by the exponent minus 1 *)
Definition bl_defined (p : gpar) (b : bpar) : bool :=
  Rlt_b 0 (rho_initial p) && negb (is_fresh b && (if Req_EM_T (sphere_radius p) 0 then true else false)) && (if Req_EM_T (poly_gamma p) 1 then false else true).

(** ** sedov/main.cc *)
(** L229-244: mass_blast *)
Definition sedov_mass (dim : nat) (radius m : R) (l : list bod) : R :=
  fold_left (fun acc q => if Rlt_b (mag dim (b_r q)) radius then acc + m else acc) l 0.
(** L252-312: a particle; the division by mass_blast at L297 is used only if there are particles in the blast zone *)
Definition sedov_particle (p : gpar) (b : bpar) (energy radius m mass_blast : R) (a : nat) (q : bod) : option bod :=
  let r := mag (g_dim p) (b_r q) in
  let rho_a := if is_fresh b then bl_rho p b r else b_rho q in
  let m_a := if is_fresh b then m else b_m q in
  if negb (Rlt_b 0 rho_a) || negb (Rlt_b 0 (m_a / rho_a)) then None else
  let h_a := smoothing p m_a rho_a in
  let u_a := bl_u p rho_a + (if Rlt_b r radius then energy / mass_blast else 0) in
  Some (Bod (if is_fresh b then Z.of_nat a else b_id q) (shake (g_dim p) h_a b a (b_r q)) (0, 0, 0) (if is_fresh b then h_a else b_h q)
    rho_a u_a (rho_a * u_a * (poly_gamma p - 1)) m_a).
(** main, L166-331 *)
Definition sedov (p : gpar) (b : bpar) (energy radius : R) : option (list bod) :=
  if negb (bl_defined p b) then None else
  ml <- bl_bodies p b ;; let '(m, l) := ml in
  each (sedov_particle p b energy radius m (sedov_mass (g_dim p) radius m l)) 0 l.

(** ** noh/main.cc *)
Definition scale (c : R) (r : R * R * R) : R * R * R := let '(x, y, z) := r in (x * c, y * c, z * c).
(** L232-295: a particle; L260-261 set the density twice *)
Definition noh_particle (p : gpar) (b : bpar) (infall m : R) (a : nat) (q : bod) : option bod :=
  let r := mag (g_dim p) (b_r q) in
  let rho_a := if is_fresh b then bl_rho p b r else b_rho q in
  let m_a := if is_fresh b then m else b_m q in
  if negb (Rlt_b 0 rho_a) || is_fresh b && negb (Rlt_b 0 (m_a / rho_a)) then None else
  let h_a := if is_fresh b then smoothing p m_a rho_a else b_h q in
  let rp := shake (g_dim p) h_a b a (b_r q) in
  let vp := if Rlt_b 0 r then scale (/ r) (scale (-1 * infall) rp) else (0, 0, 0) in
  let u_a := bl_u p rho_a in
  Some (Bod (if is_fresh b then Z.of_nat a else b_id q) rp vp h_a (if is_fresh b then rho_initial p else rho_a) u_a (rho_a * u_a * (poly_gamma p - 1)) m_a).
(** main, L145-310 *)
Definition noh (p : gpar) (b : bpar) (infall : R) : option (list bod) :=
  if negb (bl_defined p b) then None else
  ml <- bl_bodies p b ;; let '(m, l) := ml in each (noh_particle p b infall m) 0 l.
