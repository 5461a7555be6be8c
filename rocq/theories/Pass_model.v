(** The passes of the driver as they run: the particles are distributed over
    ranks, every rank processes its own particles in some order, ranks run
    concurrently, and a neighbour of another rank is read from a copy that was
    fetched earlier and is not renewed before the ghosts are reset.
    Source: include/tree_topology/tree_topology.h traversal_sph L213-442 (the
    order of processing and the call of the particle function, L401-408),
    L154-157 reset_ghosts (the requests and replies that bring the copies are
    those of Comms_model.v and Share_model.v);
    mpisph/bodies_system.h L152-229 update_iteration, L273-275 reset_ghosts,
    L305-341 apply_in_smoothinglength, apply_all, get_all.
    The neighbour lists are any complete ones (see C13 and C76 for those of the
    tree). *)
From Verif Require Import Base Vec Geometry_model Kernel_model Sph_model EForce_model Driver_model.
From Coq Require Import Permutation.
Local Open Scope R_scope.

(** [ds_cur i]: particle [i] at its owner [ds_own i]; [ds_gh r j]: the copy of
    particle [j] on rank [r], if it has one *)
Record dstate := DState { ds_cur : nat -> dbody; ds_own : nat -> nat; ds_gh : nat -> nat -> option dbody }.

(** What rank [r] reads for particle [j]: its own entity or the copy *)
Definition seen (st : dstate) (r j : nat) : option dbody :=
  if Nat.eqb (ds_own st j) r then Some (ds_cur st j) else ds_gh st r j.
Fixpoint seen_all (st : dstate) (r : nat) (l : list nat) : option (list dbody) :=
  match l with
  | [] => Some []
  | j :: l => match seen st r j, seen_all st r l with Some b, Some bs => Some (b :: bs) | _, _ => None end
  end.

(** The neighbours of a particle, in any order: each once, and all that are not
    further away than the mean smoothing length (tree_topology.h L383-398) *)
Definition complete (n N : nat) (s : nat -> dbody) (nb : nat -> list nat) : Prop :=
  forall i, (i < N)%nat ->
    NoDup (nb i) /\ (forall j, In j (nb i) -> (j < N)%nat) /\
    (forall j, (j < N)%nat -> ~ In j (nb i) ->
       (p_h (d_p (s i)) + p_h (d_p (s j))) / 2 < norm n (vsub (p_pos (d_p (s i))) (p_pos (d_p (s j))))).

Definition update (s : nat -> dbody) (i : nat) (b : dbody) : nat -> dbody := fun j => if Nat.eqb j i then b else s j.
Definition update2 (g : nat -> nat -> option dbody) (r j : nat) (b : dbody) : nat -> nat -> option dbody :=
  fun r' j' => if Nat.eqb r' r && Nat.eqb j' j then Some b else g r' j'.

(** One event of a pass: a copy of [j] arrives at rank [r], which has none yet
    (a cell is requested once, L352-360); or the particle function is applied
    to [i] at its owner. *)
Inductive event := Fetch (r j : nat) | Apply (i : nat).
Inductive pass_step (F : dbody -> list dbody -> option dbody) (nb : nat -> list nat) : event -> dstate -> dstate -> Prop :=
  | step_fetch st r j : ds_gh st r j = None ->
      pass_step F nb (Fetch r j) st (DState (ds_cur st) (ds_own st) (update2 (ds_gh st) r j (ds_cur st j)))
  | step_apply st i bs b : seen_all st (ds_own st i) (nb i) = Some bs -> F (ds_cur st i) bs = Some b ->
      pass_step F nb (Apply i) st (DState (update (ds_cur st) i b) (ds_own st) (ds_gh st)).
Inductive pass_steps (F : dbody -> list dbody -> option dbody) (nb : nat -> list nat) : list event -> dstate -> dstate -> Prop :=
  | steps_nil st : pass_steps F nb [] st st
  | steps_cons e es st st1 st2 : pass_step F nb e st st1 -> pass_steps F nb es st1 st2 -> pass_steps F nb (e :: es) st st2.
Definition applied (es : list event) : list nat := flat_map (fun e => match e with Apply i => [i] | Fetch _ _ => [] end) es.

(** copies of the present particles, on any ranks *)
Definition present (N : nat) (cur : nat -> dbody) (gh : nat -> nat -> option dbody) : Prop :=
  forall r j b, (j < N)%nat -> gh r j = Some b -> b = cur j.

Section Exec.
Context (dp : dparams) (N nranks : nat) (grav : (nat -> dbody) -> (nat -> point * R) -> Prop).

(** Gravity fetches copies as well, before or after it changes the particles
    (tree_topology.h L449-795). *)
Definition dist_op (o : op) (st st' : dstate) : Prop :=
  match o with
  | OUpdate => (forall i, (i < N)%nat -> (ds_own st' i < nranks)%nat) /\ ds_cur st' = ds_cur st /\ present N (ds_cur st') (ds_gh st')
  | OReset => ds_own st' = ds_own st /\ ds_cur st' = ds_cur st /\ present N (ds_cur st') (ds_gh st')
  | OAll f => ds_own st' = ds_own st /\ ds_gh st' = ds_gh st /\ forall i, (i < N)%nat -> f (ds_cur st i) = Some (ds_cur st' i)
  | OPass F => exists nb es, complete (dp_dim dp) N (ds_cur st) nb /\ Permutation (applied es) (seq 0 N) /\ pass_steps F nb es st st'
  | OGrav => ds_own st' = ds_own st /\ (exists g, grav (ds_cur st) g /\ forall i, (i < N)%nat ->
        ds_cur st' i = set_gpot (d_gpot (ds_cur st i) + snd (g i)) (set_gacc (vadd (p_gacc (d_p (ds_cur st i))) (fst (g i))) (ds_cur st i))) /\
      forall r j b, ds_gh st' r j = Some b -> ds_gh st r j = Some b \/ b = ds_cur st j \/ b = ds_cur st' j
  | OSmooth => ds_own st' = ds_own st /\ ds_gh st' = ds_gh st /\ ds_cur st' = new_h dp N (ds_cur st)
  end.
Fixpoint dist_ops (l : list op) (st st' : dstate) : Prop :=
  match l with [] => st' = st | o :: l => exists m, dist_op o st m /\ dist_ops l m st' end.

(** The operations of the loop, main_driver.cc L93-283: the first iteration
    [k0] with the time steps [dt] and [dt'], then one iteration for every time
    step of [dts] *)
Fixpoint loop_ops (gravity : bool) (k : nat) (dts : list R) : list op :=
  match dts with [] => [] | dt :: dts => step_ops dp gravity (S k) dt ++ loop_ops gravity (S k) dts end.
Definition program (gravity : bool) (k0 : nat) (dt dt' : R) (dts : list R) : list op :=
  initial_ops dp gravity k0 dt dt' ++ loop_ops gravity k0 dts.
End Exec.

(** Equal up to the signal speed *)
Definition but_vsig (b b' : dbody) : Prop := exists v, b' = set_vsig v b.
