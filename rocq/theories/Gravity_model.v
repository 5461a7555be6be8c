(** Gravity: direct sums and cell expansions.
    Source: include/physics/fmm.h.  double is modelled by R; positions that
    coincide make the code divide by zero, which the theorems exclude. *)
From Verif Require Import Base Vec.
Local Open Scope R_scope.

(** Fields of a body (id, coordinates, mass, gravitational potential and
    acceleration) and of a node (coordinates, mass, pc, fc). *)
Record gbody := GBody { g_id : nat; g_pos : point; g_mass : R; g_pot : R; g_acc : point }.
Record gnode := GNode { gn_pos : point; gn_mass : R; gn_pc : R; gn_fc : point }.

Section Gravity.
Context (n : nat) (gc : R).

(** fmm.h L37-46, gravitation_p2p: potential added and acceleration returned *)
Definition p2p_pot (x y : point) (sm : R) : R := - gc * sm / dist n x y.
Definition p2p_acc (x y : point) (sm : R) : point :=
  fun k => - gc * sm / (dist n x y * dist n x y * dist n x y) * (x k - y k).

(** fmm.h L51-67 and L72-87, gravitation_fc: a node or a body as source *)
Definition fc_pot (pc : R) (x y : point) (M : R) : R := pc + - gc * M / dist n x y.
Definition fc_acc (fc : point) (x y : point) (M : R) : point :=
  fun k => fc k + - gc * M * (x k - y k) / (dist n x y * dist n x y * dist n x y).

(** fmm.h L93-109, interaction_c2p *)
Definition interaction_c2p (b : gbody) (c : gnode) : gbody :=
  let pot := gn_pc c + sumn n (fun i => - (g_pos b i - gn_pos c i) * gn_fc c i) in
  GBody (g_id b) (g_pos b) (g_mass b) (g_pot b + pot) (fun k => gn_fc c k + g_acc b k).

(** fmm.h L116-121, fmm_c2p *)
Definition fmm_c2p (c : gnode) (bs : list gbody) : list gbody := map (fun b => interaction_c2p b c) bs.

(** fmm.h L126-145, fmm_p2p *)
Definition p2p_one (node : option gnode) (sources : list gbody) (p : gbody) : gbody :=
  let start := match node with
    | Some c => (fc_pot (g_pot p) (g_pos p) (gn_pos c) (gn_mass c), fc_acc (g_acc p) (g_pos p) (gn_pos c) (gn_mass c))
    | None => (g_pot p, g_acc p)
    end in
  let r := fold_left (fun a q =>
    if Nat.eqb (g_id q) (g_id p) then a
    else (fst a + p2p_pot (g_pos p) (g_pos q) (g_mass q), vadd (snd a) (p2p_acc (g_pos p) (g_pos q) (g_mass q))))
    sources start in
  GBody (g_id p) (g_pos p) (g_mass p) (fst r) (snd r).
Definition fmm_p2p (sinks : list gbody) (node : option gnode) (sources : list gbody) : list gbody :=
  map (p2p_one node sources) sinks.

(** fmm.h L150-162, taylor_c2c and taylor_p2c *)
Definition taylor_c2c (sink source : gnode) : gnode :=
  GNode (gn_pos sink) (gn_mass sink) (fc_pot (gn_pc sink) (gn_pos sink) (gn_pos source) (gn_mass source))
    (fc_acc (gn_fc sink) (gn_pos sink) (gn_pos source) (gn_mass source)).
Definition taylor_p2c (sink : gnode) (source : gbody) : gnode :=
  GNode (gn_pos sink) (gn_mass sink) (fc_pot (gn_pc sink) (gn_pos sink) (g_pos source) (g_mass source))
    (fc_acc (gn_fc sink) (gn_pos sink) (g_pos source) (g_mass source)).

End Gravity.
