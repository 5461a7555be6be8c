(** Adaptive time step and simulation clock.
    Source: include/physics/default_physics.h L761-823 (set_adaptive_timestep)
    and L853-863 (advance_time), include/physics/analysis.h L218-247
    (set_initial_time_iteration), app/drivers/hydro/main_driver.cc L98-279.
    double is modelled by the rational numbers. *)
From Coq Require Import QArith Qminmax ZArith List.
Import ListNotations.
Local Open Scope Q_scope.

Definition qlt (a b : Q) : bool := negb (Qle_bool b a).

(** Output intervals and initial values, include/params.h; an interval that
    is not positive means output by iteration. *)
Record tparams := TParams {
  out_screen : Q; out_scalar : Q; out_h5 : Q; initial_time : Q; initial_dt : Q
}.

(** The globals dt, dt_saved, totaltime, totaltime_next, t_screen_output,
    t_scalar_output, t_h5data_output (default_physics.h L30-40). *)
Record tstate := TState {
  dt : Q; dt_saved : Q; time : Q; time_next : Q;
  t_screen : Q; t_scalar : Q; t_h5 : Q
}.

(** One of the three blocks of set_adaptive_timestep, L777-815.  The first
    block assigns the next time, the others take a minimum: [merge]. *)
Definition block (merge : Q -> Q -> Q) (out now : Q) (b : Q * Q * Q) (t_out : Q) : Q * Q * Q * Q :=
  let '(dt, saved, next) := b in
  if qlt 0 out then
    let '(dt, t_out) :=
      if Qeq_bool now t_out then ((if qlt 0 saved then saved else dt), t_out + out) else (dt, t_out) in
    if qlt (t_out - 1 / 10 * out) (now + dt)
    then (dt, dt, merge next t_out, t_out)
    else (dt, saved, next, t_out)
  else (dt, saved, next, t_out).

Definition assign (_ t : Q) : Q := t.

(** L762-775: minimum over all particles of all ranks, halving and doubling *)
Definition dt_min (limits : list Q) : Q := fold_left Qmin limits (10 ^ 24).
Definition limited (dtmin dt : Q) : Q :=
  let dt := if qlt dtmin dt then Qmin dtmin (dt / 2) else dt in
  if qlt (2 * dt) dtmin then dt * 2 else dt.

(** L761-823 *)
Definition set_adaptive (p : tparams) (limits : list Q) (s : tstate) : tstate :=
  let d := limited (dt_min limits) (dt s) in
  let '(d1, s1, n1, ts) := block assign (out_screen p) (time s) (d, dt_saved s, time s + d) (t_screen s) in
  let '(d2, s2, n2, tc) := block Qmin (out_scalar p) (time s) (d1, s1, n1) (t_scalar s) in
  let '(d3, s3, n3, th) := block Qmin (out_h5 p) (time s) (d2, s2, n2) (t_h5 s) in
  TState (n3 - time s) s3 (time s) n3 ts tc th.

(** L853-863, advance_time with adaptive_timestep *)
Definition advance (s : tstate) : tstate :=
  TState (dt s) (dt_saved s) (time_next s) (time_next s) (t_screen s) (t_scalar s) (t_h5 s).

(** analysis.h L218-247: the first output time; the cast truncates *)
Definition first_output (out t old : Q) : Q :=
  if qlt 0 out then
    let k := out * inject_Z (Z.quot (Qnum (t / out)) (Zpos (Qden (t / out)))) in
    if qlt k t then t else k
  else old.
Definition initial (p : tparams) : tstate :=
  let t := initial_time p in
  TState (initial_dt p) 0 t 0 (first_output (out_screen p) t 0) (first_output (out_scalar p) t 0)
         (first_output (out_h5 p) t 0).

(** main_driver.cc L98-279: in the first iteration the step is chosen twice
    (L141 and L271), then once per iteration; the limits are those of the
    particles at that moment. *)
Definition iteration (p : tparams) (s : tstate) (limits : list Q) : tstate := advance (set_adaptive p limits s).
Definition run (p : tparams) (l0 l0' : list Q) (ls : list (list Q)) : tstate :=
  fold_left (iteration p) ls (advance (set_adaptive p l0' (set_adaptive p l0 (initial p)))).
