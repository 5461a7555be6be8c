(** What a node summary must say about the particles below the node. *)
From Verif Require Import Base Vec Cofm_model.
Local Open Scope R_scope.

(** [s] summarises the particles [ps]: total mass, mass-weighted centre, number
    of particles, a box around each particle widened by half its radius (the
    smallest such box when the coordinates are below DBL_MAX), a radius
    bounding the distance to the centre and an overlap radius bounding distance
    plus particle radius. *)
Record summary_ok (n : nat) (s : cofm) (ps : list body) : Prop := {
  so_mass : cm_mass s = suml b_mass ps;
  so_pos : forall i, cm_pos s i * cm_mass s = suml (fun b => b_mass b * b_pos b i) ps;
  so_sub : cm_sub s = length ps;
  so_rad0 : 0 <= cm_rad s;
  so_lap0 : 0 <= cm_lap s;
  so_box : forall b, In b ps -> forall i, cm_min s i <= b_pos b i - b_rad b / 2 /\ b_pos b i + b_rad b / 2 <= cm_max s i;
  so_rad : forall b, In b ps -> dist n (cm_pos s) (b_pos b) <= cm_rad s;
  so_lap : forall b, In b ps -> dist n (cm_pos s) (b_pos b) + b_rad b <= cm_lap s;
  so_tight : ps <> [] ->
    (forall b i, In b ps -> b_pos b i - b_rad b / 2 <= dbl_max /\ - dbl_max <= b_pos b i + b_rad b / 2) ->
    forall i, (exists b, In b ps /\ cm_min s i = b_pos b i - b_rad b / 2) /\
              (exists b, In b ps /\ cm_max s i = b_pos b i + b_rad b / 2);
  so_void : ps = [] -> forall i, cm_min s i = dbl_max /\ cm_max s i = - dbl_max }.
