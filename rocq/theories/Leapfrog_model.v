(** Leapfrog integration.
    Source: include/physics/integration.h L41-108 and the loop body of
    app/drivers/hydro/main_driver.cc L172-247.  double is modelled by R.
    Simplification: the accelerations are a function of the positions of all
    particles (no viscosity, no drag, smoothing lengths constant). *)
From Verif Require Import Base Vec.
Local Open Scope R_scope.

(** The fields of a body used by the integrator. *)
Record lbody := LBody { l_x : point; l_v : point; l_v12 : point; l_acc : point; l_gacc : point;
  l_u : R; l_dudt : R; l_e : R; l_dedt : R }.

(** integration.h L52-55 *)
Definition save_velocityhalf (b : lbody) : lbody :=
  LBody (l_x b) (l_v b) (l_v b) (l_acc b) (l_gacc b) (l_u b) (l_dudt b) (l_e b) (l_dedt b).

(** integration.h L65-70 *)
Definition kick_v (dt : R) (b : lbody) : lbody :=
  LBody (l_x b) (fun i => l_v b i + 1 / 2 * dt * (l_acc b i + l_gacc b i)) (l_v12 b) (l_acc b) (l_gacc b)
    (l_u b) (l_dudt b) (l_e b) (l_dedt b).

(** integration.h L80-84 *)
Definition kick_u (dt : R) (b : lbody) : lbody :=
  LBody (l_x b) (l_v b) (l_v12 b) (l_acc b) (l_gacc b) (l_u b + 1 / 2 * dt * l_dudt b) (l_dudt b) (l_e b) (l_dedt b).

(** integration.h L94-98 *)
Definition kick_e (dt : R) (b : lbody) : lbody :=
  LBody (l_x b) (l_v b) (l_v12 b) (l_acc b) (l_gacc b) (l_u b) (l_dudt b) (l_e b + 1 / 2 * dt * l_dedt b) (l_dedt b).

(** integration.h L106-110 *)
Definition drift (dt : R) (b : lbody) : lbody :=
  LBody (fun i => l_x b i + dt * l_v b i) (l_v b) (l_v12 b) (l_acc b) (l_gacc b) (l_u b) (l_dudt b) (l_e b) (l_dedt b).

(** Particles by index; the force field gives the hydrodynamic and the
    gravitational acceleration from the positions. *)
Definition field := (nat -> point) -> nat -> point.

Definition compute_acc (A G : field) (s : nat -> lbody) : nat -> lbody :=
  fun i => let b := s i in
    LBody (l_x b) (l_v b) (l_v12 b) (A (fun j => l_x (s j)) i) (G (fun j => l_x (s j)) i) (l_u b) (l_dudt b) (l_e b) (l_dedt b).

(** main_driver.cc L172-222: one iteration after the first (velocity part) *)
Definition step (A G : field) (dt : R) (s : nat -> lbody) : nat -> lbody :=
  let s := fun i => kick_v dt (s i) in
  let s := fun i => save_velocityhalf (s i) in
  let s := fun i => drift dt (s i) in
  let s := compute_acc A G s in
  fun i => kick_v dt (s i).
