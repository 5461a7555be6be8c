(** The main loops of the drivers: which iterations are done, when the loop ends and
    which iterations write.  double is modelled by the reals.  The work of an
    iteration is in Driver_model.v and Wvt_model.v; here the clock is a sequence of
    times, [times k] at the k-th iteration done. *)
From Coq Require Import Reals.
From Verif Require Import Base BuildTree_model Range_model.
Local Open Scope R_scope.

(** include/params.h L158-175 and the frequencies of one kind of output, L330-370 *)
Record lpar := LPar { l_first : Z; l_final : Z; l_final_time : R; l_cool : Z }.
Record outpar := OutPar { o_dt : R; o_every : Z }.

(** /repo/include/physics/default_physics.h L866-873 *)
Definition termination_criteria (p : lpar) (iteration : Z) (totaltime : R) : bool :=
  ((0 <? l_final p)%Z && (l_final p <? iteration)%Z) || (Rlt_b 0 (l_final_time p) && Rlt_b (l_final_time p) totaltime).
(** app/drivers/hydro/main_driver.cc L98-279, newtonian L103-298: do ... while(not
    termination_criteria()); the iterations done from the k-th on, [None]: more than
    [fuel] *)
Fixpoint loop (p : lpar) (times : nat -> R) (fuel k : nat) : option (list (Z * R)) :=
  match fuel with
  | O => None
  | S f =>
    let it := (l_first p + Z.of_nat k)%Z in
    if termination_criteria p (it + 1)%Z (times (S k)) then Some [(it, times k)]
    else r <- loop p times f (S k) ;; Some ((it, times k) :: r)
  end.
(** default_physics.h L857-862, advance_time without adaptive_timestep *)
Fixpoint fixed_times (t0 dt : R) (k : nat) : R := match k with O => t0 | S j => fixed_times t0 dt j + dt end.

(** include/physics/analysis.h L256-266, L299-308, L413-424 and diagnostic.h L115-118:
    does this iteration write; [t_out] is the time of the next output *)
Definition writes (o : outpar) (t_out : R) (x : Z * R) : bool :=
  if Rlt_b 0 (o_dt o) then negb (Rlt_b (snd x) t_out)
  else negb ((o_every o <=? 0)%Z || negb (Z.rem (fst x) (o_every o) =? 0)%Z).
(** analysis.h L231-247: the first output time; the cast truncates.  Without
    adaptive_timestep nothing changes it. *)
Definition first_time (out t : R) : R :=
  let k := out * IZR (if Rle_dec 0 (t / out) then (up (t / out) - 1)%Z else (- (up (- (t / out)) - 1))%Z) in
  if Rlt_b k t then t else k.

(** ** app/drivers/wvt/main_driver.cc L122-233.
    [conv k]: check_convergence_wvt sets wvt_converged in the k-th iteration. *)
Record wstep := WStep { ws_iter : Z; ws_reset : bool; ws_write : bool }.
Fixpoint wvt_loop (p : lpar) (every : Z) (check : bool) (conv : nat -> bool) (fuel k : nat) : option (list wstep) :=
  match fuel with
  | O => None
  | S f =>
    let it := (l_first p + Z.of_nat k)%Z in
    let last := (it =? l_final p + l_cool p)%Z in
    (* L127 the first iteration, L143 relaxation, L178 cool down *)
    let converged := negb (it =? l_first p)%Z && (it <=? l_final p)%Z && ((l_first p <? it)%Z && check) && conv k in
    let s := WStep it (converged || last) (((0 <? every)%Z && (Z.rem it every =? 0)%Z) || converged || last) in
    if (it + 1 <=? l_final p + l_cool p)%Z && negb converged
    then r <- wvt_loop p every check conv f (S k) ;; Some (s :: r)
    else Some [s]
  end.
