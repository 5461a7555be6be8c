(** Model of the diagnostics, /repo/include/physics/analysis.h, and of the sums over
    ranks, /repo/mpisph/utils.h L253-277.  double is modelled by the reals, so a sum
    does not depend on its order. *)
From Coq Require Import Reals.
From Verif Require Import Base BuildTree_model Range_model Vec Wvt_model.
Local Open Scope R_scope.

Record abody := ABody { ab_normal : bool; ab_mass : R; ab_pos : point; ab_vel : point; ab_eint : R; ab_etot : R; ab_gpot : R }.

(** for(i) { if(bodies[i].type() != NORMAL) continue; t += f(bodies[i]); } *)
Definition acc (f : abody -> R) (t0 : R) (bodies : list abody) : R :=
  fold_left (fun t b => if ab_normal b then t + f b else t) bodies t0.
(** utils.h L253-277: MPI_Allreduce with MPI_SUM; what every rank has afterwards *)
Definition reduce (local : list abody -> R) (ranks : list (list abody)) : R := allsum (map local ranks).
(** L55-65 *)
Definition total_momentum (ranks : list (list abody)) : point := fun d => reduce (acc (fun b => ab_mass b * ab_vel b d) 0) ranks.
(** L72-81 *)
Definition total_mass : list (list abody) -> R := reduce (acc ab_mass 0).
(** L88-123 *)
Definition total_energy (n : nat) (thermokinetic enable_fmm : bool) (potential : point -> R) : list (list abody) -> R :=
  reduce (fun bodies =>
    let t := if thermokinetic then acc (fun b => ab_mass b * ab_etot b) 0 bodies
             else acc (fun b => ab_mass b * (1 / 2 * dot n (ab_vel b) (ab_vel b) + ab_eint b + potential (ab_pos b))) 0 bodies in
    if enable_fmm then acc (fun b => 1 / 2 * ab_gpot b * ab_mass b) t bodies else t).
(** L130-143 *)
Definition total_kinetic_energy (n : nat) : list (list abody) -> R := reduce (acc (fun b => 1 / 2 * ab_mass b * dot n (ab_vel b) (ab_vel b)) 0).
(** L149-160 *)
Definition total_internal_energy : list (list abody) -> R := reduce (acc (fun b => ab_mass b * ab_eint b) 0).
(** L166-179 *)
Definition total_gravitational_energy : list (list abody) -> R := reduce (fun bodies => acc (fun b => ab_gpot b * ab_mass b) 0 bodies * (1 / 2)).
(** L186-214; only the components below the dimension are reduced *)
Definition total_ang_mom (n : nat) (ranks : list (list abody)) : point :=
  let comp i j := reduce (acc (fun b => ab_mass b * (ab_pos b i * ab_vel b j - ab_pos b j * ab_vel b i)) 0) ranks in
  if (n =? 2)%nat then fun d => if (d =? 0)%nat then comp 0%nat 1%nat else 0
  else if (n =? 3)%nat then fun d => if (d =? 0)%nat then comp 1%nat 2%nat else if (d =? 1)%nat then comp 2%nat 0%nat else comp 0%nat 1%nat
  else fun _ => 0.

(** ** The conservation check.
    The file as its words.  A number written with a fraction or an exponent is given
    with the integer an integer read takes from it and the number left behind by it.
    The file ends with a line break (scalar_output writes std::endl). *)
Inductive word := WInt (z : Z) | WReal (r : R) (int_part : Z) (left_behind : R) | WText.
Record stream := Stream { st_words : list word; st_good : bool }.
(** operator>> for double and size_t: nothing is done when the stream has failed; at the
    end of the input the variable keeps its value, for a text it becomes 0 *)
Definition rd (s : stream) (v : R) : stream * R :=
  if st_good s then
    match st_words s with
    | [] => (Stream [] false, v)
    | WInt z :: r => (Stream r true, IZR z)
    | WReal x _ _ :: r => (Stream r true, x)
    | WText :: _ => (Stream (st_words s) false, 0)
    end
  else (s, v).
Definition rd_int (s : stream) (v : R) : stream * R :=
  if st_good s then
    match st_words s with
    | [] => (Stream [] false, v)
    | WInt z :: r => (Stream r true, IZR z)
    | WReal _ i x :: r => (Stream (WReal x 0 x :: r) true, IZR i)
    | WText :: _ => (Stream (st_words s) false, 0)
    end
  else (s, v).
(** iteration, time, timestep, mass, energy, the momentum, the angular momentum *)
Record row := Row { r_mass : R; r_energy : R; r_mom : point; r_ang : point }.
Definition set_pt (p : point) (i : nat) (v : R) : point := fun j => if (j =? i)%nat then v else p j.
Fixpoint rd_pt (s : stream) (p : point) (is : list nat) : stream * point :=
  match is with [] => (s, p) | i :: r => let '(s1, v) := rd s (p i) in rd_pt s1 (set_pt p i v) r end.
(** L469-479 and L482-491 *)
Definition rd_row (n : nat) (s : stream) (v : row) : stream * row :=
  let '(s, _) := rd_int s 0 in let '(s, _) := rd s 0 in let '(s, _) := rd s 0 in
  let '(s, m) := rd s (r_mass v) in let '(s, e) := rd s (r_energy v) in
  let '(s, p) := rd_pt s (r_mom v) (seq 0 n) in
  let '(s, a) := if (n =? 2)%nat then rd_pt s (r_ang v) [2%nat] else if (n =? 3)%nat then rd_pt s (r_ang v) [0; 1; 2]%nat else (s, r_ang v) in
  (s, Row m e p a).
Inductive conserved := MASS | ENERGY | MOMENTUM | ANG_MOMENTUM.
Definition tol : R := 1 / 10 ^ 16.
(** L494-521.  For the momenta the code subtracts two arrays, that is their addresses
    (base_momentum - momentum, base_ang_mom - ang_mom); [dp] and [da] stand for these differences. *)
Definition check_one (dp da : Z) (base v : row) (c : conserved) : bool :=
  match c with
  | MASS => Rlt_b (Rabs (r_mass base - r_mass v)) tol
  | ENERGY => Rlt_b (Rabs (r_energy base - r_energy v)) tol
  | MOMENTUM => Rlt_b (IZR (Z.abs dp)) tol
  | ANG_MOMENTUM => Rlt_b (IZR (Z.abs da)) tol
  end.
(** L481-523: while(inFile.good()) *)
Fixpoint check_rows (fuel n : nat) (dp da : Z) (check : list conserved) (base v : row) (s : stream) : option bool :=
  match fuel with
  | O => None
  | S k => if st_good s then
      let '(s', v') := rd_row n s v in
      if forallb (check_one dp da base v') check then check_rows k n dp da check base v' s' else Some false
    else Some true
  end.
(** L431-527; [base0] and [v0]: what the uninitialised variables hold *)
Definition check_conservation (fuel n : nat) (dp da : Z) (check : list conserved) (base0 v0 : row) (file : list word) : option bool :=
  let '(s, base) := rd_row n (Stream file true) base0 in check_rows fuel n dp da check base v0 s.

(** What scalar_output (L296-405) writes: a header starting with '#', then for every call
    a line with iteration, time, timestep, mass, total, kinetic and internal (or
    gravitational) energy, momentum, angular momentum and, in 3d, the centre of mass.
    [num] prints a number in scientific notation. *)
Record scalars := Scalars { sc_iter : Z; sc_time : R; sc_dt : R; sc_mass : R; sc_energy : R; sc_kin : R; sc_int : R; sc_mom : point; sc_ang : point; sc_com : point }.
Definition scalar_line (num : R -> word) (n : nat) (q : scalars) : list word :=
  [WInt (sc_iter q); num (sc_time q); num (sc_dt q); num (sc_mass q); num (sc_energy q); num (sc_kin q); num (sc_int q)] ++
  map (fun k => num (sc_mom q k)) (seq 0 n) ++
  (if (n =? 2)%nat then [num (sc_ang q 0%nat)] else if (n =? 3)%nat then map (fun k => num (sc_ang q k)) [0; 1; 2]%nat ++ map (fun k => num (sc_com q k)) [0; 1; 2]%nat else []).
Definition scalar_header : list word := repeat WText 11.
Definition scalar_file (num : R -> word) (n : nat) (qs : list scalars) : list word := scalar_header ++ flat_map (scalar_line num n) qs.
