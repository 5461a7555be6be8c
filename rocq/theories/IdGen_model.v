(** Model of the initial-data generators, /repo/app/id_generators/*/main.cc.

    double is modelled by the real numbers and int64_t by Z.  The arrays of a
    generator have the number of elements they are allocated with; writing or reading
    outside of them is None.  So is what the programs do not handle: a lattice that
    needs more fuel, an assertion that fails, a test number that does not exist, a
    division by a number of particles or of cells that is zero.  The icosahedral and
    the random lattices (types 3 and 4 in three dimensions) are left out here, and so
    is everything written besides the particles: the attributes of the file and the
    screen output. *)
From Coq Require Import Reals.
From Verif Require Import Base BuildTree_model Range_model Lattice_model.
Local Open Scope R_scope.

(** ** The lattice functions, /repo/include/lattice.h *)
(** select, L808-845; lattice types besides 0, 1 and 2 are left out *)
Definition lattice (dim fuel : nat) (ty dt : Z) (bmin bmax : nat -> R) (sep : R) : bool -> lst R -> option (lst R) :=
  if ((0 <=? ty) && (ty <=? 2))%Z then
    match dim with
    | 1%nat => gen_1d RA fuel bmin bmax sep
    | 2%nat => gen_2d RA fuel ty dt bmin bmax sep
    | 3%nat => gen_3d RA fuel ty dt bmin bmax sep
    | _ => fun _ _ => None
    end
  else fun _ _ => None.
(** new double[n](): all elements are zero *)
Definition zeros (posid : Z) : lst R := Lst posid (fun _ => 0) (fun _ => 0) (fun _ => 0).
(** count and generate, L143-293 and L667-738: the generators return posid minus the posid they
    start with; arrays of [n] elements *)
Definition count (dim fuel : nat) (ty dt : Z) (bmin bmax : nat -> R) (sep : R) (posid : Z) : option Z :=
  s <- lattice dim fuel ty dt bmin bmax sep true (zeros posid) ;; Some (l_pid s - posid)%Z.
Definition generate (dim fuel : nat) (ty dt : Z) (bmin bmax : nat -> R) (sep : R) (n posid : Z) (a : lst R) : option (Z * lst R) :=
  s <- lattice dim fuel ty dt bmin bmax sep false (Lst posid (l_x a) (l_y a) (l_z a)) ;;
  if ((l_pid s =? posid) || (0 <=? posid) && (l_pid s <=? n))%Z then Some ((l_pid s - posid)%Z, s) else None.

(** ** The file *)
(** The datasets id, x, y, z, vx, vy, h, rho, u, P and m *)
Record idp := IdP { i_id : Z; i_x : R; i_y : R; i_z : R; i_vx : R; i_vy : R; i_h : R; i_rho : R; i_u : R; i_P : R; i_m : R }.
(** H5P_writeDataset(dataFile, name, array, n) for arrays of [size] elements *)
Definition write_file (n size : Z) (p : Z -> idp) : option (list idp) :=
  if (n <=? size)%Z then Some (map (fun k => p (Z.of_nat k)) (seq 0 (Z.to_nat n))) else None.

(** ** Parameters, /repo/include/params.h; [g_etaw] is sph_eta * kernels::kernel_width, and
    the fuel is no parameter *)
Record gpar := GPar { g_dim : nat; g_fuel : nat; lattice_type : Z; domain_type : Z; lattice_nx : Z; equal_mass : bool;
  box_length : R; box_width : R; box_height : R; sphere_radius : R; periodic_x : bool; periodic_y : bool; periodic_z : bool;
  mismatch : R; g_etaw : R; poly_gamma : R; rho_initial : R; pressure_initial : R; density_ratio : R; flow_velocity : R;
  g_grav : R; rt_amplitude : R; rt_stripe : R; rt_mode : R; KH_A : R; KH_lambda : R }.

(** A box given by its extents along the three axes *)
Definition pt (x y z : R) : nat -> R := fun a => match a with 0%nat => x | 1%nat => y | _ => z end.
(** floor, and the conversion to int of a number that is not negative *)
Definition floorR (x : R) : R := IZR (Int_part x).
(** pow(m / rho, 1. / gdimension) times sph_eta * kernels::kernel_width *)
Definition smoothing (p : gpar) (m rho : R) : R := g_etaw p * Rpower (m / rho) (1 / INR (g_dim p)).
Definition cbrt (x : R) : R := Rpower x (1 / 3).
Definition close_packed (ty : Z) : bool := (ty =? 1)%Z || (ty =? 2)%Z.

(** ** The Sod shock tube, sodtube/main.cc *)
(** L58-118: rho, pressure and vx in the middle and at the sides *)
Definition sod_states (test : Z) : option ((R * R * R) * (R * R * R)) :=
  if (test =? 1)%Z then Some ((1, 1, 0), (125 / 1000, 1 / 10, 0))
  else if (test =? 2)%Z then Some ((1, 4 / 10, -2), (1, 4 / 10, 2))
  else if (test =? 3)%Z then Some ((1, 1000, 0), (1, 1 / 100, 0))
  else if (test =? 4)%Z then Some ((1, 1 / 100, 0), (1, 100, 0))
  else if (test =? 5)%Z then Some ((599924 / 100000, 460894 / 1000, 195975 / 10000), (599242 / 100000, 460950 / 10000, - (619633 / 100000)))
  else if (test =? 6)%Z then Some ((1, 1 / 1000000, 1), (1, 1 / 1000000, -1))
  else None.
(** L124; int division rounds towards zero *)
Definition sod_nx (p : gpar) : Z := (Z.quot (lattice_nx p - 1) 3 * 3 + 1)%Z.
(** L127 *)
Definition sod_sep (p : gpar) : R := box_length p / IZR (sod_nx p - 1).
(** L243, L252-254, L279-281 *)
Definition sod_mass (p : gpar) (rho_1 : R) : R :=
  let s := sod_sep p in
  match g_dim p with
  | 1%nat => rho_1 * s
  | 2%nat => rho_1 * s * s * (if close_packed (lattice_type p) then sqrt 3 / 2 else 1)
  | _ => rho_1 * s * s * s * (if close_packed (lattice_type p) then 1 / sqrt 2 else 1)
  end.
(** L244, L255, L282 *)
Definition sod_lr_sep (p : gpar) (rho_1 rho_2 : R) : R :=
  let s := sod_sep p in
  match g_dim p with
  | 1%nat => sod_mass p rho_1 / rho_2
  | 2%nat => s * sqrt (rho_1 / rho_2)
  | _ => s * cbrt (rho_1 / rho_2)
  end.
(** L240, L257-258, L266-267, L284-285, L294-297, L309-312: the thickness of a period of the lattice along y and z *)
Definition period_y (dim : nat) (ty : Z) (s : R) : R :=
  match dim with 1%nat => s | _ => if close_packed ty then s * sqrt 3 else s end.
Definition period_z (dim : nat) (ty : Z) (s : R) : R :=
  match dim with 3%nat => if (ty =? 1)%Z then 2 * s * sqrt (2 / 3) else if (ty =? 2)%Z then s * sqrt 6 else s | _ => s end.
(** L336-349 and L354-367: for(j = N; j < N * 100; ++j) until the lattices match *)
Fixpoint sod_fit (tries : nat) (j : Z) (d1 d2 tol : R) : option R :=
  match tries with
  | O => None
  | S k => let w2 := (floorR (IZR j * d1 / d2 - b_tol RA) + 1) * d2 in
           if Rlt_b (Rabs (w2 - IZR j * d1)) (tol * d2) then Some (Rmin w2 (IZR j * d1)) else sod_fit k (j + 1) d1 d2 tol
  end.
Definition sod_width (w d1 d2 tol : R) : R :=
  let N := (Int_part (w / d1) - 1)%Z in
  match sod_fit (Z.to_nat (99 * N)) N d1 d2 tol with Some w' => w' | None => w end.
(** The extents of the three boxes, L133-152, and with equal masses and periodic boundaries L326-369.
    Width and height are the same for all three; the new box_length is a local value here *)
Record sod_boxes := SodBoxes { sb_c : R; sb_end : R; sb_w : R; sb_h : R }.
Definition sod_geometry (p : gpar) (rho_1 rho_2 : R) : sod_boxes :=
  let c := box_length p / 6 in
  if equal_mass p then
    let s1 := sod_sep p in let s2 := sod_lr_sep p rho_1 rho_2 in
    let len := if periodic_x p then box_length p / 3 + 2 * floorR (box_length p / (3 * s2)) * s2 else box_length p in
    let w := if (2 <=? g_dim p)%nat && periodic_y p
             then sod_width (box_width p) (period_y (g_dim p) (lattice_type p) s1) (period_y (g_dim p) (lattice_type p) s2) (mismatch p) else box_width p in
    let h := if (3 <=? g_dim p)%nat && periodic_z p
             then sod_width (box_height p) (period_z (g_dim p) (lattice_type p) s1) (period_z (g_dim p) (lattice_type p) s2) (mismatch p) else box_height p in
    SodBoxes c (len / 2) w h
  else SodBoxes c (box_length p / 2) (box_width p) (box_height p).
Definition sod_cmin (b : sod_boxes) : nat -> R := pt (- sb_c b) (- sb_w b / 2) (- sb_h b / 2).
Definition sod_cmax (b : sod_boxes) : nat -> R := pt (sb_c b) (sb_w b / 2) (sb_h b / 2).
Definition sod_rmin (b : sod_boxes) : nat -> R := pt (sb_c b) (- sb_w b / 2) (- sb_h b / 2).
Definition sod_rmax (b : sod_boxes) : nat -> R := pt (sb_end b) (sb_w b / 2) (sb_h b / 2).
Definition sod_lmin (b : sod_boxes) : nat -> R := pt (- sb_end b) (- sb_w b / 2) (- sb_h b / 2).
Definition sod_lmax (b : sod_boxes) : nat -> R := pt (- sb_c b) (sb_w b / 2) (sb_h b / 2).
(** main, L179-593: counting L223-232 and L430-435, generating L466-481, the particles L493-542 *)
Definition sodtube (p : gpar) (test : Z) : option (list idp) :=
  st <- sod_states test ;;
  let '((rho_1, pressure_1, vx_1), (rho_2, pressure_2, vx_2)) := st in
  if negb (domain_type p =? 0)%Z || (sod_nx p - 1 =? 0)%Z then None else
  let b := sod_geometry p rho_1 rho_2 in
  let s := sod_sep p in
  let s2 := if equal_mass p then sod_lr_sep p rho_1 rho_2 else s in
  let cnt := count (g_dim p) (g_fuel p) (lattice_type p) (domain_type p) in
  let gen := generate (g_dim p) (g_fuel p) (lattice_type p) (domain_type p) in
  nc <- cnt (sod_cmin b) (sod_cmax b) s 0%Z ;;
  nr <- cnt (sod_rmin b) (sod_rmax b) s2 (if equal_mass p then nc else nc - 1)%Z ;;
  nl <- cnt (sod_lmin b) (sod_lmax b) s2 (if equal_mass p then nc + nr else nc + nr - 1)%Z ;;
  let size := (nc + nr + nl)%Z in
  ga <- gen (sod_cmin b) (sod_cmax b) s size 0%Z (zeros 0) ;; let '(n1, a1) := ga in
  gb <- gen (sod_rmin b) (sod_rmax b) s2 size n1 a1 ;; let '(n2, a2) := gb in
  gc <- gen (sod_lmin b) (sod_lmax b) s2 size (n1 + n2)%Z a2 ;; let '(n3, a) := gc in
  write_file (n1 + n2 + n3) size (fun k =>
    let mid := in_domain_1d RA (l_x a k) (sod_cmin b 0%nat) (sod_cmax b 0%nat) in
    let P := if mid then pressure_1 else pressure_2 in
    let rho := if mid then rho_1 else rho_2 in
    let vx := if mid then vx_1 else vx_2 in
    let m := if equal_mass p then sod_mass p rho_1 else rho / IZR (if mid then nc else nr) in
    IdP k (l_x a k) (l_y a k) (l_z a k) vx 0 (smoothing p m rho) rho (P / (poly_gamma p - 1) / rho) P m).

(** ** The wind tunnel, wtunnel/main.cc *)
(** L61-78 *)
Definition wt_npd (p : gpar) : Z :=
  let n1 := (lattice_nx p * Int_part (IZR (lattice_nx p) * box_width p / box_length p))%Z in
  if (2 <? g_dim p)%nat then (n1 * Int_part (IZR (lattice_nx p) * box_height p / box_length p))%Z else n1.
(** L64-75 *)
Definition wt_min (p : gpar) : nat -> R := pt (5 / 10 * box_width p) (- box_width p / 2) (- box_height p / 2).
Definition wt_max (p : gpar) : nat -> R := pt (5 / 10 * box_width p + box_length p) (box_width p / 2) (box_height p / 2).
(** L81-87 *)
Definition wt_sep (p : gpar) : R := box_length p / IZR (lattice_nx p - 1).
Definition wt_h (p : gpar) : R := wt_sep p * (if (g_dim p =? 2)%nat then 4 else 3).
(** main, L96-235: the file has nparticles entries, the arrays have tparticles elements *)
Definition wtunnel (p : gpar) : option (list idp) :=
  if (g_dim p <=? 1)%nat || (lattice_nx p - 1 =? 0)%Z then None else
  size <- count (g_dim p) (g_fuel p) (lattice_type p) 0 (wt_min p) (wt_max p) (wt_sep p) 0 ;;
  ga <- generate (g_dim p) (g_fuel p) (lattice_type p) 0 (wt_min p) (wt_max p) (wt_sep p) size 0 (zeros 0) ;;
  let '(tparticles, a) := ga in
  write_file (wt_npd p) size (fun k =>
    if (k <? tparticles)%Z then
      IdP k (l_x a k) (l_y a k) (l_z a k) (- flow_velocity p) 0 (wt_h p) (rho_initial p)
        (pressure_initial p / (poly_gamma p - 1) / rho_initial p) (pressure_initial p) (rho_initial p / IZR tparticles)
    else IdP 0 (l_x a k) (l_y a k) (l_z a k) 0 0 0 0 0 0 0).

(** ** Implosion and collapse, implosion/main.cc and collapse/main.cc *)
(** L62-83 and L55-76 *)
Definition im_min (p : gpar) : nat -> R :=
  if (domain_type p =? 0)%Z then pt (- box_length p / 2) (- box_width p / 2) (- box_height p / 2) else fun _ => - sphere_radius p.
Definition im_max (p : gpar) : nat -> R :=
  if (domain_type p =? 0)%Z then pt (box_length p / 2) (box_width p / 2) (box_height p / 2) else fun _ => sphere_radius p.
Definition im_sep (p : gpar) : R :=
  if (domain_type p =? 0)%Z then box_length p / IZR (lattice_nx p - 1) else 2 * sphere_radius p / IZR (lattice_nx p - 1).
(** implosion L91-104, collapse L84-97 *)
Definition im_total_mass (p : gpar) : R :=
  match g_dim p with
  | 2%nat => if (domain_type p =? 0)%Z then rho_initial p * box_length p * box_width p else rho_initial p * PI * (sphere_radius p * sphere_radius p)
  | _ => if (domain_type p =? 0)%Z then rho_initial p * box_length p * box_width p * box_height p
         else rho_initial p * 4 / 3 * PI * (sphere_radius p * sphere_radius p * sphere_radius p)
  end.
(** implosion L119-120, collapse L112-113: uint_initial *)
Definition im_uint (p : gpar) : R := pressure_initial p / (rho_initial p * (poly_gamma p - 1)).
(** implosion L189-192 *)
Definition im_slope (p : gpar) : R := (10000 - 1) / (1 * sphere_radius p - 8 / 10 * sphere_radius p).
Definition im_yint (p : gpar) : R := 1 * sphere_radius p - im_slope p * (8 / 10) * sphere_radius p.
(** main of implosion L128-258 and of collapse L121-245; [outer] is what the energy increase L203-207 does, the collapse has none *)
Definition im_run (lo hi : nat) (outer : R -> bool) (p : gpar) : option (list idp) :=
  if negb ((lo <=? g_dim p)%nat && (g_dim p <=? hi)%nat) || negb ((domain_type p =? 0)%Z || (domain_type p =? 1)%Z)
    || (lattice_nx p - 1 =? 0)%Z || negb (equal_mass p) then None else
  n <- count (g_dim p) (g_fuel p) (lattice_type p) (domain_type p) (im_min p) (im_max p) (im_sep p) 0 ;;
  if (n =? 0)%Z then None else
  ga <- generate (g_dim p) (g_fuel p) (lattice_type p) (domain_type p) (im_min p) (im_max p) (im_sep p) n 0 (zeros 0) ;;
  let '(n', a) := ga in
  if negb (n =? n')%Z then None else
  let m := im_total_mass p / IZR n in
  write_file n n (fun k =>
    let r := sqrt (l_x a k * l_x a k + l_y a k * l_y a k + l_z a k * l_z a k) in
    let u := if outer r then r * im_slope p + im_yint p else im_uint p in
    let P := if outer r then (poly_gamma p - 1) * rho_initial p * u else pressure_initial p in
    IdP k (l_x a k) (l_y a k) (l_z a k) 0 0 (smoothing p m (rho_initial p)) (rho_initial p) u P m).
Definition implosion (p : gpar) : option (list idp) := im_run 2 3 (fun r => negb (Rlt_b r (8 / 10 * sphere_radius p))) p.
Definition collapse (p : gpar) : option (list idp) := im_run 3 3 (fun _ => false) p.
