(** Model of the initial-data generators for the Kelvin-Helmholtz and Rayleigh-Taylor
    instabilities and for the fluid test, /repo/app/id_generators/{KH,RT,fluid}/main.cc;
    conventions as in IdGen_model.v. *)
From Coq Require Import Reals.
From Verif Require Import Base BuildTree_model Range_model Lattice_model IdGen_model.
Local Open Scope R_scope.

(** KH L109-163, RT L87-130: distances between rows and layers, and of the periods of the lattice, as multiples of the separation *)
Definition row_y (ty : Z) : R := if close_packed ty then sqrt 3 / 2 else 1.
Definition row_z (ty : Z) : R := if close_packed ty then sqrt (2 / 3) else 1.
Definition per_y (ty : Z) : R := if close_packed ty then 2 * row_y ty else row_y ty.
Definition per_z (ty : Z) : R := if (ty =? 1)%Z then 2 * row_z ty else if (ty =? 2)%Z then 3 * row_z ty else row_z ty.
(** KH L110-121, RT L88-99: mass, and separation in the other region; both are static variables, 0 in one dimension *)
Definition block_mass (dim : nat) (ty : Z) (rho s : R) : R :=
  match dim with
  | 2%nat => rho * s * s * (if close_packed ty then sqrt 3 / 2 else 1)
  | 3%nat => rho * s * s * s * (if close_packed ty then 1 / sqrt 2 else 1)
  | _ => 0
  end.
Definition other_sep (dim : nat) (s ratio : R) : R :=
  match dim with 2%nat => s * sqrt ratio | 3%nat => s * cbrt ratio | _ => 0 end.
Definition nonzero (x : R) : bool := Rlt_b 0 x || Rlt_b x 0.

(** ** Kelvin-Helmholtz *)
(** L109, L114, L120 *)
Definition kh_sep (p : gpar) : R := box_length p / IZR (lattice_nx p).
Definition kh_sep_t (p : gpar) : R := other_sep (g_dim p) (kh_sep p) (density_ratio p).
(** L168, L173, L174, L181, L200-208 *)
Definition kh_wm (p : gpar) : R := let d := per_y (lattice_type p) * kh_sep p in floorR (box_width p / (3 * d)) * d.
Definition kh_gap (p : gpar) : R := Rmin (per_y (lattice_type p) * kh_sep p) (per_y (lattice_type p) * kh_sep_t p) / 2.
Definition kh_wt (p : gpar) : R := let d := per_y (lattice_type p) * kh_sep_t p in floorR ((box_width p / 2 - kh_wm p / 2 - kh_gap p) / d) * d.
Definition kh_nxt (p : gpar) : R := floorR (box_length p / kh_sep_t p + 1 / 10).
Definition kh_height (p : gpar) (s : R) : R :=
  if (3 <=? g_dim p)%nat then floorR (box_height p / (per_z (lattice_type p) * s)) * (per_z (lattice_type p) * s) else box_height p.
Definition kh_hm (p : gpar) : R := kh_height p (kh_sep p).
Definition kh_ht (p : gpar) : R := kh_height p (kh_sep_t p).
(** L169-213: the middle, top and bottom box *)
Definition kh_off (ty : Z) (s : R) : R := if (ty =? 0)%Z then s / 2 else s / 4.
Definition kh_mmin (p : gpar) : nat -> R := pt (- box_length p / 2 + kh_off (lattice_type p) (kh_sep p)) (- (5 / 10) * kh_wm p) (- kh_hm p / 2).
Definition kh_mmax (p : gpar) : nat -> R := pt (box_length p / 2) (5 / 10 * kh_wm p + 1 / 100 * (row_y (lattice_type p) * kh_sep p)) (kh_hm p / 2).
Definition kh_tmin (p : gpar) : nat -> R := pt (- kh_nxt p * kh_sep_t p / 2 + kh_off (lattice_type p) (kh_sep_t p)) (5 / 10 * kh_wm p + kh_gap p) (- kh_ht p / 2).
Definition kh_tmax (p : gpar) : nat -> R := pt (kh_nxt p * kh_sep_t p / 2) (5 / 10 * kh_wm p + kh_gap p + kh_wt p) (kh_ht p / 2).
Definition kh_bmin (p : gpar) : nat -> R := pt (- kh_nxt p * kh_sep_t p / 2 + kh_off (lattice_type p) (kh_sep_t p)) (- (5 / 10) * kh_wm p - kh_gap p - kh_wt p) (- kh_ht p / 2).
Definition kh_bmax (p : gpar) : nat -> R := pt (kh_nxt p * kh_sep_t p / 2) (- (5 / 10) * kh_wm p - kh_gap p + 1 / 100 * (row_y (lattice_type p) * kh_sep_t p)) (kh_ht p / 2).
(** L361-365 *)
Definition kh_vy (p : gpar) (x y : R) : R :=
  let v1 := if Rlt_b y (25 / 100) && Rlt_b (25 / 100 - 25 / 1000) y then KH_A p * sin (-2 * PI * (x + 5 / 10) / KH_lambda p) else 0 in
  if Rlt_b (- (25 / 100)) y && Rlt_b y (- (25 / 100) + 25 / 1000) then KH_A p * sin (2 * PI * (x + 5 / 10) / KH_lambda p) else v1.
(** main, L228-378; the stretching L298-330, where index np_middle + np_top has to exist *)
Definition kh (p : gpar) : option (list idp) :=
  if negb (equal_mass p) || negb (domain_type p =? 0)%Z || negb ((2 <=? g_dim p)%nat && (g_dim p <=? 3)%nat) || (lattice_nx p =? 0)%Z then None else
  let rho_t := rho_initial p in let rho_m := rho_t * density_ratio p in
  let cnt := count (g_dim p) (g_fuel p) (lattice_type p) (domain_type p) in
  let gen := generate (g_dim p) (g_fuel p) (lattice_type p) (domain_type p) in
  nm <- cnt (kh_mmin p) (kh_mmax p) (kh_sep p) 0%Z ;;
  nt <- cnt (kh_tmin p) (kh_tmax p) (kh_sep_t p) nm ;;
  nb <- cnt (kh_bmin p) (kh_bmax p) (kh_sep_t p) (nm + nt)%Z ;;
  let size := (nm + nb + nt)%Z in
  ga <- gen (kh_mmin p) (kh_mmax p) (kh_sep p) size 0%Z (zeros 0) ;; let '(n1, a1) := ga in
  gb <- gen (kh_tmin p) (kh_tmax p) (kh_sep_t p) size nm a1 ;; let '(n2, a2) := gb in
  gc <- gen (kh_bmin p) (kh_bmax p) (kh_sep_t p) size (size - nb)%Z a2 ;; let '(n3, a) := gc in
  if negb ((nm =? n1)%Z && (nt =? n2)%Z && (nb =? n3)%Z) then None else
  let yx := kh_nxt p * kh_sep_t p / box_length p in
  let yz := kh_ht p / kh_hm p in
  let y0 := kh_wm p / 2 + kh_gap p in
  let x1 k := if (k <? nm)%Z then l_x a k else l_x a k / yx in
  let y1 k := if (k <? nm)%Z then l_y a k else if Rlt_b 0 (l_y a k) then y0 + yx * yz * (l_y a k - y0) else - y0 + yx * yz * (l_y a k + y0) in
  let z1 k := if (3 <=? g_dim p)%nat then if (k <? nm)%Z then l_z a k else l_z a k / yz else l_z a k in
  let first := (nm + nt)%Z in
  if (size <=? first)%Z then None else
  if negb (nonzero yx && nonzero (kh_hm p) && nonzero yz && nonzero (y1 first) && (nonzero (z1 first) || negb (3 <=? g_dim p)%nat)) then None else
  let ys := 5 / 10 * box_width p / Rabs (y1 first) in
  let zs := if (3 <=? g_dim p)%nat then 5 / 10 * box_height p / Rabs (z1 first) else 1 in
  let m := block_mass (g_dim p) (lattice_type p) rho_m (kh_sep p) * ys * zs in
  write_file size size (fun k =>
    let x := x1 k in let y := y1 k * ys in let z := if (3 <=? g_dim p)%nat then z1 k * zs else z1 k in
    let mid := (k <? nm)%Z in
    let P := pressure_initial p in
    let rho := if mid then rho_m else rho_t in
    let vx := if mid then flow_velocity p / 2 else - flow_velocity p / 2 in
    IdP k x y z vx (kh_vy p x y) (smoothing p m rho) rho (P / (poly_gamma p - 1) / rho) P m).

(** ** Rayleigh-Taylor *)
(** L87, L92, L98 *)
Definition rt_sep (p : gpar) : R := box_length p / IZR (lattice_nx p - 1).
Definition rt_rho2 (p : gpar) : R := rho_initial p * density_ratio p.
Definition rt_sep_t (p : gpar) : R := other_sep (g_dim p) (rt_sep p) (rho_initial p / rt_rho2 p).
(** L143-153 and L159-169: the first i from N on with w2 next to i * d1 *)
Fixpoint rt_fit (tries : nat) (i : Z) (d1 d2 tol : R) : option R :=
  match tries with
  | O => None
  | S k => let w2 := floorR (IZR i * d1 / d2 + b_tol RA) * d2 in
           if Rlt_b (Rabs (w2 - IZR i * d1)) (tol * d2) then Some (Rmin w2 (IZR i * d1)) else rt_fit k (i + 1) d1 d2 tol
  end.
Definition rt_adjust (w extent d1 d2 tol : R) : R :=
  let N := (Int_part (extent / d1) - 1)%Z in
  match rt_fit (Z.to_nat (99 * N)) N d1 d2 tol with Some w' => w' | None => w end.
(** box_length after L142-155 and box_height after L158-171, where L159 takes the new box_length *)
Definition rt_length (p : gpar) : R :=
  if periodic_x p then rt_adjust (box_length p) (box_length p) (rt_sep p) (rt_sep_t p) (mismatch p) else box_length p.
Definition rt_height (p : gpar) : R :=
  if (3 <=? g_dim p)%nat && periodic_z p
  then rt_adjust (box_height p) (rt_length p) (per_z (lattice_type p) * rt_sep p) (per_z (lattice_type p) * rt_sep_t p) (mismatch p) else box_height p.
(** L58-69, L138, L147-152, L163-168; the third coordinate of the points is only there in three dimensions *)
Definition rt_ymin (p : gpar) : R := let d := per_y (lattice_type p) * rt_sep p in - box_width p / 2 + (box_width p / 2 - IZR (Int_part (box_width p / 2 / d)) * d).
Definition rt_bmin (p : gpar) : nat -> R := pt (- rt_length p / 2) (rt_ymin p) (- rt_height p / 2).
Definition rt_bmax (p : gpar) : nat -> R := pt (rt_length p / 2) 0 (rt_height p / 2).
Definition rt_tmin (p : gpar) : nat -> R := pt (- rt_length p / 2) 0 (- rt_height p / 2).
Definition rt_tmax (p : gpar) : nat -> R := pt (rt_length p / 2) (box_width p / 2) (rt_height p / 2).
(** L323-337 *)
Definition rt_vy (p : gpar) (x y z : R) : R :=
  if Rlt_b (Rabs y) (5 / 10 * rt_stripe p) then
    match g_dim p with
    | 2%nat => - rt_amplitude p * (1 + cos (2 * PI * x / rt_length p * rt_mode p)) * cos (PI * y / rt_stripe p)
    | 3%nat => - rt_amplitude p * (1 + cos (2 * PI * x / rt_length p * rt_mode p)) * (1 + cos (2 * PI * z / rt_length p * rt_mode p)) * cos (PI * y / rt_stripe p)
    | _ => 0
    end
  else 0.
(** main, L225-345; the assertion L242 is checked before the parameters are read, when domain_type has its default 0 *)
Definition rt (p : gpar) : option (list idp) :=
  if (lattice_nx p - 1 =? 0)%Z then None else
  let cnt := count (g_dim p) (g_fuel p) (lattice_type p) (domain_type p) in
  let gen := generate (g_dim p) (g_fuel p) (lattice_type p) (domain_type p) in
  nb <- cnt (rt_bmin p) (rt_bmax p) (rt_sep p) 0%Z ;;
  nt <- cnt (rt_tmin p) (rt_tmax p) (rt_sep_t p) nb ;;
  let size := (nb + nt)%Z in
  ga <- gen (rt_bmin p) (rt_bmax p) (rt_sep p) size 0%Z (zeros 0) ;; let '(n1, a1) := ga in
  gb <- gen (rt_tmin p) (rt_tmax p) (rt_sep_t p) size nb a1 ;; let '(n2, a) := gb in
  if negb ((nb =? n1)%Z && (nt =? n2)%Z) then None else
  let m := block_mass (g_dim p) (lattice_type p) (rho_initial p) (rt_sep p) in
  write_file size size (fun k =>
    let x := l_x a k in let y := l_y a k in let z := l_z a k in
    let bottom := in_domain_1d RA y (rt_bmin p 1%nat) (rt_bmax p 1%nat) in
    let rho := if bottom then rho_initial p else rt_rho2 p in
    let P := if bottom then 25 / 10 + g_grav p * (rt_rho2 p * (rt_tmax p 1%nat - rt_tmin p 1%nat) - rho_initial p * y)
             else 25 / 10 + g_grav p * rt_rho2 p * (rt_tmax p 1%nat - y) in
    IdP k x y z 0 (rt_vy p x y z) (smoothing p m rho) rho (P / ((poly_gamma p - 1) * rho)) P m).

(** ** The fluid test *)
(** L63-71, L93-94, L96-101 *)
Definition fl_min (p : gpar) : nat -> R := pt (- box_length p / 2) (- box_width p / 2) (- box_height p / 2).
Definition fl_max (p : gpar) : nat -> R := pt (- box_length p / 4) 0 (box_height p / 2).
Definition fl_sep (p : gpar) : R := box_length p * (1 - 1 / 100000000) / IZR (lattice_nx p - 1).
Definition fl_total (p : gpar) : R :=
  match g_dim p with
  | 2%nat => rho_initial p * Rabs (fl_max p 0%nat - fl_min p 0%nat) * Rabs (fl_min p 1%nat - fl_max p 1%nat)
  | 3%nat => rho_initial p * Rabs (fl_max p 0%nat - fl_min p 0%nat) * Rabs (fl_min p 1%nat - fl_max p 1%nat) * Rabs (fl_min p 2%nat - fl_max p 2%nat)
  | _ => 0
  end.
(** main, L117-204 *)
Definition fluid (p : gpar) : option (list idp) :=
  if (lattice_nx p - 1 =? 0)%Z then None else
  n <- count (g_dim p) (g_fuel p) (lattice_type p) (domain_type p) (fl_min p) (fl_max p) (fl_sep p) 0 ;;
  ga <- generate (g_dim p) (g_fuel p) (lattice_type p) (domain_type p) (fl_min p) (fl_max p) (fl_sep p) n 0 (zeros 0) ;;
  let '(n', a) := ga in
  if negb (n =? n')%Z then None else
  let m := fl_total p / IZR n in let rho := rho_initial p in
  write_file n n (fun k =>
    let y := l_y a k in let P := 25 / 10 - rho * g_grav p * y in
    IdP k (l_x a k) y (l_z a k) 0 0 (smoothing p m rho) rho (P / ((poly_gamma p - 1) * rho)) P m).
