(** C107: internal energy, pressure and sound speed over an iteration of the
    driver. *)
From Verif Require Import Base Key_model Key_spec BuildTree_model BuildTree_spec BuildTree_inv BuildTree_props Vec Geometry_model Geometry_props Kernel_model Sph_model Sph_props SphTree_props SphMore_props
  EForce_model Driver_model Driver_proofs Driver_run Driver_tree Driver_props.
From Coq Require Import Sorted.
Local Open Scope R_scope.

Section One.
Context (dp : dparams) (N : nat) (lists : (nat -> dbody) -> (nat -> list nat) -> Prop).
Context (grav : (nat -> dbody) -> (nat -> point * R) -> Prop).
Notation n := (dp_dim dp).
Notation sp := (dp_sph dp).
Notation do_op := (do_op dp N lists grav).
Notation do_ops := (do_ops dp N lists grav).
Implicit Types s : nat -> dbody.

(** what the equation of state reads and what the energies are advanced with *)
Definition tied (b b' : dbody) : Prop :=
  d_u b' = d_u b /\ d_e b' = d_e b /\ d_dudt b' = d_dudt b /\ d_dedt b' = d_dedt b /\ d_K b' = d_K b /\
  p_rho (d_p b') = p_rho (d_p b) /\ p_P (d_p b') = p_P (d_p b) /\ p_c (d_p b') = p_c (d_p b) /\
  p_pos (d_p b') = p_pos (d_p b) /\ p_vel (d_p b') = p_vel (d_p b).
Lemma tied_refl b : tied b b.
Proof. repeat split. Qed.
Lemma tied_trans a b c : tied a b -> tied b c -> tied a c.
Proof. unfold tied. intros A B. decompose [and] A. decompose [and] B. repeat split; congruence. Qed.
Ltac tie := unfold tied; cbn; repeat split; reflexivity.

Lemma opt_each (c : bool) o s s' (r : dbody -> dbody -> Prop) : (forall b, r b b) ->
  (forall m, do_op o s m -> each N r s m) -> do_ops (opt c [o]) s s' -> each N r s s'.
Proof.
  intros R0 H. destruct c; cbn [opt Driver_model.do_ops].
  - intros (m & A & ->). apply H, A.
  - intros -> i _. apply R0.
Qed.
Lemma forces_tied gravity relaxing s s' : do_ops (forces dp gravity relaxing) s s' -> each N tied s s'.
Proof.
  unfold forces. intros H. apply do_ops_app in H. destruct H as (m & H1 & H). apply do_ops_app in H. destruct H as (m' & H2 & H3).
  cbn [Driver_model.do_ops Driver_model.do_op] in H1. destruct H1 as (a & -> & b & (nb & _ & H1) & ->).
  assert (T1 : each N tied s b).
  { intros i Hi. specialize (H1 i Hi). unfold acceleration_pass in H1. injection H1 as <-. tie. }
  assert (T2 : each N tied b m').
  { eapply (opt_each gravity OGrav); [exact tied_refl| |exact H2]. intros q (g & _ & Q) i Hi. rewrite (Q i Hi). tie. }
  assert (T3 : each N tied m' s').
  { destruct relaxing; cbn [opt Driver_model.do_ops] in H3; [|subst; intros i _; apply tied_refl].
    destruct H3 as (q & Q & t & (nb' & _ & T) & ->). intros i Hi. apply (tied_trans _ (q i)).
    - rewrite (do_all _ _ _ _ _ _ _ Q i Hi). tie.
    - specialize (T i Hi). unfold repulsion_pass in T. injection T as <-. tie. }
  eapply each_trans; [exact tied_trans|exact T1|]. eapply each_trans; [exact tied_trans|exact T2|exact T3].
Qed.

(** The equation of state at the density and adiabatic invariant of a
    particle and the internal energy [u]; it may read the pressure that was
    there before. *)
Definition at_energy (u : R) (b : dbody) : Prop :=
  (exists P0, p_P (d_p b) = eos_P (dp_eos dp) (p_rho (d_p b)) P0 u (d_K b)) /\
  p_c (d_p b) = eos_c (dp_eos dp) (p_rho (d_p b)) (p_P (d_p b)) u (d_K b).

Lemma density_energy dt b l b' : density_pass dp dt b l = Some b' ->
  d_e b' = d_e b /\ d_dudt b' = d_dudt b /\ d_dedt b' = d_dedt b /\ d_K b' = d_K b /\ p_pos (d_p b') = p_pos (d_p b) /\ p_vel (d_p b') = p_vel (d_p b) /\
  (dp_evolve dp && dp_thermo dp = false -> d_u b' = d_u b) /\ at_energy (d_u b') b'.
Proof.
  unfold density_pass. cbv zeta. destruct (Rltb 0 _); [|discriminate].
  destruct (dp_evolve dp && dp_thermo dp).
  - unfold recover_internal_energy. cbv zeta. destruct (Rltb 0 _); [|discriminate]. intros [= <-].
    destruct (cullen sp); cbn; repeat split; try discriminate; try (eexists; reflexivity).
  - intros [= <-]. destruct (cullen sp); cbn; repeat split; try (eexists; reflexivity).
Qed.
Lemma density_phase_energy dt s s' :
  do_ops ([OPass (density_pass dp dt)] ++ opt (cullen sp) [OPass (alpha_pass dp dt)]) s s' -> forall i, (i < N)%nat ->
  d_e (s' i) = d_e (s i) /\ d_dudt (s' i) = d_dudt (s i) /\ d_dedt (s' i) = d_dedt (s i) /\ d_K (s' i) = d_K (s i) /\
  p_pos (d_p (s' i)) = p_pos (d_p (s i)) /\ p_vel (d_p (s' i)) = p_vel (d_p (s i)) /\
  (dp_evolve dp && dp_thermo dp = false -> d_u (s' i) = d_u (s i)) /\ at_energy (d_u (s' i)) (s' i).
Proof.
  intros H i Hi. apply do_ops_app in H. destruct H as (m & H1 & H2).
  cbn [Driver_model.do_ops Driver_model.do_op] in H1. destruct H1 as (m0 & (nb & _ & H1) & ->).
  assert (T : each N tied m0 s').
  { eapply (opt_each (cullen sp)); [exact tied_refl| |exact H2].
    intros q (g & _ & Q) j Hj. specialize (Q j Hj). unfold alpha_pass in Q. destruct (new_alpha _ _ _ _ _); [|discriminate]. injection Q as <-. tie. }
  specialize (T i Hi). specialize (H1 i Hi). apply density_energy in H1. unfold tied in T. unfold at_energy in *.
  destruct T as (-> & -> & -> & -> & -> & -> & -> & -> & -> & ->). exact H1.
Qed.

(** The energy rounds, internal energy: the pressure is that of the energy
    half a time step ahead. *)
Lemma round_energy relaxing dt s s' : dp_thermo dp = false -> do_ops (energy_round dp relaxing dt) s s' -> forall i, (i < N)%nat ->
  d_u (s' i) = d_u (s i) /\ d_e (s' i) = d_e (s i) /\ d_K (s' i) = d_K (s i) /\ p_rho (d_p (s' i)) = p_rho (d_p (s i)) /\
  at_energy (d_u (s' i) + dt / 2 * d_dudt (s' i)) (s' i).
Proof.
  intros Ht H i Hi. unfold energy_round in H. rewrite Ht in H. apply do_ops_app in H. destruct H as (m & H1 & H). apply do_ops_app in H. destruct H as (m' & H2 & H3).
  cbn [Driver_model.do_ops Driver_model.do_op] in H1, H3. destruct H1 as (m0 & (nb & _ & H1) & ->). destruct H3 as (m3 & H3 & ->).
  set (r := fun b b' : dbody => d_u b' = d_u b /\ d_e b' = d_e b /\ d_K b' = d_K b /\ p_rho (d_p b') = p_rho (d_p b)).
  assert (T1 : r (s i) (m0 i)). { specialize (H1 i Hi). unfold dudt_pass in H1. injection H1 as <-. unfold r. cbn. repeat split. }
  assert (T2 : each N r m0 m').
  { eapply (opt_each relaxing); [unfold r; repeat split| |exact H2]. intros q Q j Hj. rewrite (do_all _ _ _ _ _ _ _ Q j Hj). unfold r. cbn. repeat split. }
  specialize (T2 i Hi). rewrite (do_all _ _ _ _ _ _ _ H3 i Hi). unfold recompute, at_energy, compute_soundspeed, compute_pressure, eos_arg. cbn.
  destruct T1 as (A1 & A2 & A3 & A4), T2 as (B1 & B2 & B3 & B4).
  replace (dt / 2) with (1 / 2 * dt) by field. repeat split; try congruence. eexists. reflexivity.
Qed.
Lemma rounds_energy relaxing dt m s s' : dp_thermo dp = false -> (1 <= m)%nat -> do_ops (energy_rounds dp relaxing dt m) s s' -> forall i, (i < N)%nat ->
  d_u (s' i) = d_u (s i) /\ d_e (s' i) = d_e (s i) /\ d_K (s' i) = d_K (s i) /\ p_rho (d_p (s' i)) = p_rho (d_p (s i)) /\
  at_energy (d_u (s' i) + dt / 2 * d_dudt (s' i)) (s' i).
Proof.
  intros Ht Hm. revert s. induction m as [|m IH]; [lia|]. intros s H i Hi. destruct m as [|m]; [eapply round_energy; eassumption|].
  change (energy_rounds dp relaxing dt (S (S m))) with (energy_round dp relaxing dt ++ [OReset] ++ energy_rounds dp relaxing dt (S m)) in H.
  apply do_ops_app in H. destruct H as (s1 & H1 & H2). cbn [app Driver_model.do_ops Driver_model.do_op] in H2. destruct H2 as (s2 & -> & H2).
  pose proof (round_energy _ _ _ _ Ht H1 i Hi) as (A1 & A2 & A3 & A4 & _). destruct (IH ltac:(lia) s1 H2 i Hi) as (B1 & B2 & B3 & B4 & B5).
  repeat split; try congruence; apply B5.
Qed.
(** ... total energy: *)
Lemma round_total relaxing dt s s' : dp_thermo dp = true -> do_ops (energy_round dp relaxing dt) s s' -> forall i, (i < N)%nat ->
  d_e (s' i) = d_e (s i) /\ d_K (s' i) = d_K (s i) /\ p_rho (d_p (s' i)) = p_rho (d_p (s i)) /\ d_acc (s' i) = d_acc (s i) /\
  p_pos (d_p (s' i)) = p_pos (d_p (s i)) /\ p_vel (d_p (s' i)) = p_vel (d_p (s i)) /\
  d_u (s' i) = d_e (s' i) - ekin dp (s' i) - dp_pot dp (p_pos (d_p (s' i))) /\
  at_energy (d_u (s' i) + dt / 2 * (d_dedt (s' i) - dot n (p_vel (d_p (s' i))) (d_acc (s' i)))) (s' i).
Proof.
  intros Ht H i Hi. unfold energy_round in H. rewrite Ht in H. apply do_ops_app in H. destruct H as (m & H1 & H). apply do_ops_app in H. destruct H as (m' & H2 & H3).
  cbn [Driver_model.do_ops Driver_model.do_op] in H1, H3. destruct H1 as (m0 & (nb & _ & H1) & ->). destruct H3 as (m3 & H3 & ->).
  set (r := fun b b' : dbody => d_e b' = d_e b /\ d_K b' = d_K b /\ p_rho (d_p b') = p_rho (d_p b) /\ d_acc b' = d_acc b /\ p_pos (d_p b') = p_pos (d_p b) /\ p_vel (d_p b') = p_vel (d_p b)).
  assert (T1 : r (s i) (m0 i)). { specialize (H1 i Hi). unfold dedt_pass in H1. injection H1 as <-. unfold r. cbn. repeat split. }
  assert (T2 : each N r m0 m').
  { eapply (opt_each relaxing); [unfold r; repeat split| |exact H2]. intros q Q j Hj. rewrite (do_all _ _ _ _ _ _ _ Q j Hj). unfold r. cbn. repeat split. }
  specialize (T2 i Hi). specialize (H3 i Hi). unfold recompute_thermo, recover_internal_energy in H3. cbv zeta in H3.
  destruct (Rltb 0 _); [|discriminate]. injection H3 as <-.
  unfold at_energy, compute_soundspeed, compute_pressure, eos_arg. cbn.
  destruct T1 as (A1 & A2 & A3 & A4 & A5 & A6), T2 as (B1 & B2 & B3 & B4 & B5 & B6).
  replace (dt / 2) with (1 / 2 * dt) by field. repeat split; try congruence. eexists. reflexivity.
Qed.
Lemma rounds_total relaxing dt m s s' : dp_thermo dp = true -> (1 <= m)%nat -> do_ops (energy_rounds dp relaxing dt m) s s' -> forall i, (i < N)%nat ->
  d_e (s' i) = d_e (s i) /\ d_K (s' i) = d_K (s i) /\ p_rho (d_p (s' i)) = p_rho (d_p (s i)) /\ d_acc (s' i) = d_acc (s i) /\
  p_pos (d_p (s' i)) = p_pos (d_p (s i)) /\ p_vel (d_p (s' i)) = p_vel (d_p (s i)) /\
  d_u (s' i) = d_e (s' i) - ekin dp (s' i) - dp_pot dp (p_pos (d_p (s' i))) /\
  at_energy (d_u (s' i) + dt / 2 * (d_dedt (s' i) - dot n (p_vel (d_p (s' i))) (d_acc (s' i)))) (s' i).
Proof.
  intros Ht Hm. revert s. induction m as [|m IH]; [lia|]. intros s H i Hi. destruct m as [|m]; [eapply round_total; eassumption|].
  change (energy_rounds dp relaxing dt (S (S m))) with (energy_round dp relaxing dt ++ [OReset] ++ energy_rounds dp relaxing dt (S m)) in H.
  apply do_ops_app in H. destruct H as (s1 & H1 & H2). cbn [app Driver_model.do_ops Driver_model.do_op] in H2. destruct H2 as (s2 & -> & H2).
  pose proof (round_total _ _ _ _ Ht H1 i Hi) as (A1 & A2 & A3 & A4 & A5 & A6 & _). destruct (IH ltac:(lia) s1 H2 i Hi) as (B1 & B2 & B3 & B4 & B5 & B6 & B7 & B8).
  repeat split; try congruence; apply B8.
Qed.

(** An iteration in phases, with what [step_shape_any] leaves out. *)
Lemma step_energy_shape gravity k dt s s' :
  do_ops (step_ops dp gravity k dt) s s' -> exists m1 m2 m3 m4 m5 m6,
  (forall i, (i < N)%nat -> m1 i = drift dt (save_velocityhalf (kick_v dt (kick_eu dp dt (s i))))) /\
  do_ops ([OPass (density_pass dp dt)] ++ opt (cullen sp) [OPass (alpha_pass dp dt)]) m1 m2 /\
  do_ops (forces dp gravity (Nat.ltb k (dp_relax dp))) m2 m3 /\
  (forall i, (i < N)%nat -> m4 i = kick_v dt (m3 i)) /\
  (if dp_evolve dp then do_ops (energy_rounds dp (Nat.ltb k (dp_relax dp)) dt (dp_updates dp)) m4 m5 else m5 = m4) /\
  (forall i, (i < N)%nat -> m6 i = kick_eu dp dt (m5 i)) /\ s' = new_h dp N m6.
Proof.
  intro H. unfold step_ops in H. cbv zeta in H.
  apply do_ops_app in H. destruct H as (a1 & H1 & H).
  apply (do_ops_app _ _ _ _ [all (kick_v dt); all save_velocityhalf; all (drift dt); OUpdate] ([OPass (density_pass dp dt)] ++ _)) in H.
  destruct H as (a2 & H2 & H). rewrite app_assoc in H. apply do_ops_app in H. destruct H as (a3 & H3 & H).
  apply do_ops_app in H. destruct H as (a4 & H4 & H).
  apply (do_ops_app _ _ _ _ [all (kick_v dt); OReset]) in H. destruct H as (a5 & H5 & H).
  apply do_ops_app in H. destruct H as (a6 & H6 & H).
  cbn [Driver_model.do_ops Driver_model.do_op] in H. destruct H as (a7 & -> & ->).
  cbn [Driver_model.do_ops] in H2. destruct H2 as (b1 & B1 & b2 & B2 & b3 & B3 & b4 & -> & ->).
  cbn [Driver_model.do_ops] in H5. destruct H5 as (c1 & C1 & c2 & -> & ->).
  assert (K1 : forall i, (i < N)%nat -> a1 i = kick_eu dp dt (s i)).
  { intros i Hi. unfold kick_eu. destruct (dp_evolve dp); cbn [opt Driver_model.do_ops] in H1.
    - destruct H1 as (a & H1 & ->). rewrite (do_all _ _ _ _ _ _ _ H1 i Hi). destruct (dp_thermo dp); reflexivity.
    - subst a1. reflexivity. }
  assert (K2 : exists m5, (if dp_evolve dp then do_ops (energy_rounds dp (Nat.ltb k (dp_relax dp)) dt (dp_updates dp)) c1 m5 else m5 = c1) /\
    forall i, (i < N)%nat -> a6 i = kick_eu dp dt (m5 i)).
  { unfold kick_eu. destruct (dp_evolve dp); cbn [opt] in H6.
    - apply do_ops_app in H6. destruct H6 as (m5 & H6 & H7). exists m5. split; [exact H6|].
      cbn [Driver_model.do_ops] in H7. destruct H7 as (a & H7 & ->). intros i Hi. rewrite (do_all _ _ _ _ _ _ _ H7 i Hi).
      destruct (dp_thermo dp); reflexivity.
    - cbn [Driver_model.do_ops] in H6. subst a6. exists c1. split; reflexivity. }
  destruct K2 as (m5 & K2 & K3).
  exists b3, a3, a4, c1, m5, a6. split.
  { intros i Hi. rewrite (do_all _ _ _ _ _ _ _ B3 i Hi), (do_all _ _ _ _ _ _ _ B2 i Hi), (do_all _ _ _ _ _ _ _ B1 i Hi), (K1 i Hi). reflexivity. }
  split; [exact H3|]. split; [exact H4|]. split; [exact (do_all _ _ _ _ _ _ _ C1)|]. split; [exact K2|]. split; [exact K3|reflexivity].
Qed.
Lemma new_h_tied s : each N tied s (new_h dp N s) /\ each N same_acc s (new_h dp N s).
Proof. unfold new_h. destruct (dp_hmode dp); split; intros i Hi; try tie; keeps. Qed.

(** ** Every iteration after the first, with gravity or without, during
    relaxation or after it, on any neighbour lists. *)

(** The internal energy is advanced by the trapezoidal rule, and pressure and
    sound speed are those of the new density and the new internal energy. *)
Theorem C107_internal gravity k dt s s' : dp_evolve dp = true -> dp_thermo dp = false -> (1 <= dp_updates dp)%nat ->
  do_ops (step_ops dp gravity k dt) s s' -> forall i, (i < N)%nat ->
  d_u (s' i) = d_u (s i) + dt / 2 * (d_dudt (s i) + d_dudt (s' i)) /\ d_K (s' i) = d_K (s i) /\ at_energy (d_u (s' i)) (s' i).
Proof.
  intros He Ht Hu H i Hi. apply step_energy_shape in H. destruct H as (m1 & m2 & m3 & m4 & m5 & m6 & H1 & H2 & H3 & H4 & H5 & H6 & ->).
  rewrite He in H5. destruct (new_h_tied m6) as [T _]. specialize (T i Hi). destruct T as (-> & _ & -> & _ & -> & T6 & T7 & T8 & _).
  destruct (rounds_energy _ _ _ _ _ Ht Hu H5 i Hi) as (E1 & _ & E3 & E4 & E5).
  destruct (density_phase_energy _ _ _ H2 i Hi) as (_ & D2 & _ & D4 & _ & _ & D7 & _). rewrite He, Ht in D7. specialize (D7 eq_refl).
  destruct (forces_tied _ _ _ _ H3 i Hi) as (F1 & _ & F3 & _ & F5 & _).
  assert (K : forall b, kick_eu dp dt b = kick_u dt b) by (intros b; unfold kick_eu; now rewrite He, Ht).
  rewrite (H6 i Hi), K in *. rewrite (H4 i Hi) in *. rewrite (H1 i Hi), K in *. cbn in *.
  assert (U : d_u (m5 i) + 1 / 2 * dt * d_dudt (m5 i) = d_u (m5 i) + dt / 2 * d_dudt (m5 i)) by field.
  rewrite U. split; [|split; [congruence|]].
  - rewrite E1, F1, D7. field.
  - unfold at_energy in *. rewrite T6, T7, T8. cbn. destruct E5 as [[P0 E5] E6].
    destruct (new_h_tied m6) as [T _]. specialize (T i Hi). destruct T as (_ & _ & _ & _ & T5 & _). rewrite T5, (H6 i Hi), K. cbn.
    split; [exists P0; exact E5 | exact E6].
Qed.

(** Without energy evolution the internal energy stays and pressure and sound
    speed follow the density. *)
Theorem C107_fixed gravity k dt s s' : dp_evolve dp = false ->
  do_ops (step_ops dp gravity k dt) s s' -> forall i, (i < N)%nat ->
  d_u (s' i) = d_u (s i) /\ d_e (s' i) = d_e (s i) /\ d_K (s' i) = d_K (s i) /\ at_energy (d_u (s' i)) (s' i).
Proof.
  intros He H i Hi. apply step_energy_shape in H. destruct H as (m1 & m2 & m3 & m4 & m5 & m6 & H1 & H2 & H3 & H4 & H5 & H6 & ->).
  rewrite He in H5. subst m5. destruct (new_h_tied m6) as [T _]. specialize (T i Hi). unfold at_energy. destruct T as (-> & -> & _ & _ & -> & -> & -> & -> & _).
  destruct (density_phase_energy _ _ _ H2 i Hi) as (D1 & _ & _ & D4 & _ & _ & D7 & D8). rewrite He in D7. specialize (D7 eq_refl).
  destruct (forces_tied _ _ _ _ H3 i Hi) as (F1 & F2 & _ & _ & F5 & F6 & F7 & F8 & _).
  assert (K : forall b, kick_eu dp dt b = b) by (intros b; unfold kick_eu; now rewrite He).
  rewrite (H6 i Hi), K, (H4 i Hi). rewrite (H1 i Hi), K in *. cbn in *. unfold at_energy in D8.
  rewrite F1, F2, F5, F6, F7, F8. split; [congruence|]. split; [congruence|]. split; [congruence|]. exact D8.
Qed.

(** With the total energy: it is advanced by the trapezoidal rule.  The
    internal energy left in the particle is that of half a time step before,
    and the pressure is that of the new internal energy, total minus kinetic
    minus potential, less dt/2 times velocity times acceleration. *)
Theorem C107_total gravity k dt s s' : dp_evolve dp = true -> dp_thermo dp = true -> (1 <= dp_updates dp)%nat ->
  do_ops (step_ops dp gravity k dt) s s' -> forall i, (i < N)%nat ->
  let u := d_e (s' i) - 1 / 2 * dot n (p_vel (d_p (s' i))) (p_vel (d_p (s' i))) - dp_pot dp (p_pos (d_p (s' i))) in
  d_e (s' i) = d_e (s i) + dt / 2 * (d_dedt (s i) + d_dedt (s' i)) /\ d_K (s' i) = d_K (s i) /\
  d_u (s' i) = u - dt / 2 * d_dedt (s' i) /\
  at_energy (u - dt / 2 * dot n (p_vel (d_p (s' i))) (d_acc (s' i))) (s' i).
Proof.
  intros He Ht Hu H i Hi. apply step_energy_shape in H. destruct H as (m1 & m2 & m3 & m4 & m5 & m6 & H1 & H2 & H3 & H4 & H5 & H6 & ->).
  rewrite He in H5. destruct (new_h_tied m6) as [T A]. specialize (T i Hi). destruct (A i Hi) as [A1 _]. unfold at_energy.
  destruct T as (-> & -> & _ & -> & -> & -> & -> & -> & -> & ->). rewrite A1. clear A A1.
  destruct (rounds_total _ _ _ _ _ Ht Hu H5 i Hi) as (E1 & E2 & E3 & E4 & E5 & E6 & E7 & E8).
  destruct (density_phase_energy _ _ _ H2 i Hi) as (D1 & _ & D3 & D4 & _).
  destruct (forces_tied _ _ _ _ H3 i Hi) as (_ & F2 & _ & F4 & F5 & _).
  assert (K : forall b, kick_eu dp dt b = kick_e dt b) by (intros b; unfold kick_eu; now rewrite He, Ht).
  rewrite (H6 i Hi), K. rewrite (H4 i Hi) in *. rewrite (H1 i Hi), K in *. cbn in *.
  split; [rewrite E1, F2, D1; field|]. split; [congruence|].
  unfold ekin in E7. split; [rewrite E7; field|]. unfold at_energy in E8. rewrite E7 in E8.
  match goal with |- context [eos_P _ _ _ ?x _] => replace x with (d_e (m5 i) - 1 / 2 * dot n (p_vel (d_p (m5 i))) (p_vel (d_p (m5 i))) - dp_pot dp (p_pos (d_p (m5 i))) + dt / 2 * (d_dedt (m5 i) - dot n (p_vel (d_p (m5 i))) (d_acc (m5 i)))) by field end.
  exact E8.
Qed.
End One.

(** ** Whole runs *)
Theorem C107_run dp dim N grav gravity k0 s0 t0 k s t dt : dp_thermo dp = false -> (1 <= dp_updates dp)%nat ->
  run dp dim N grav gravity k0 s0 t0 k s t dt -> (k0 < k)%nat ->
  forall i, (i < N)%nat -> at_energy dp (d_u (s i)) (s i).
Proof.
  intros Ht Hu [_ H] Hk i Hi. destruct H as [dt0 dt1 dt2 s H | k s t dt dt' s' _ H]; [lia|].
  destruct (dp_evolve dp) eqn:He.
  - eapply C107_internal; eassumption.
  - eapply C107_fixed; eassumption.
Qed.

(** The first iteration leaves the pressure of the energy half a time step
    ahead. *)
Theorem C107_first dp N lists grav gravity k dt dt' s s' : (1 <= dp_dim dp <= 3)%nat -> dp_evolve dp = true -> dp_thermo dp = false -> (1 <= dp_updates dp)%nat ->
  do_ops dp N lists grav (initial_ops dp gravity k dt dt') s s' -> forall i, (i < N)%nat ->
  at_energy dp (d_u (s' i) + dt' / 2 * d_dudt (s' i)) (s' i).
Proof.
  intros Hd He Ht Hu H i Hi. apply initial_shape_any in H; [|exact Hd]. destruct H as (m1 & m2 & m3 & m4 & m5 & _ & _ & _ & _ & H5 & ->). rewrite He in H5.
  destruct (rounds_energy _ _ _ _ _ _ _ _ _ Ht Hu H5 i Hi) as (_ & _ & _ & _ & E). unfold at_energy.
  destruct (new_h_tied dp N m5) as [T _]. specialize (T i Hi). destruct T as (-> & _ & -> & _ & -> & -> & -> & -> & _). exact E.
Qed.

(** ** With the total energy the pressure is not that of the new internal
    energy: one particle in a constant field, its potential -x, from rest
    energy 5/2; the run is the driver's, with the tree's lists. *)
Definition par107 : dparams :=
  DParams (defaults wendland_c4 false) 1 ideal (fun _ _ => 1) (fun x => - x 0%nat) 0 0 (1 / 4) 0 0 true true 1 HFixed (13 / 10).
Definition lone (i : nat) : dbody := DBody (at1 0 1 1 0 0 0 0) i vzero 0 0 0 0 0 0 0.
Lemma lone_keys : exists ks, length ks = 1%nat /\ StronglySorted N.lt ks /\ Forall (full_key 1) ks.
Proof.
  exists [2 ^ max_depth 1]%N. split; [reflexivity|]. split; [apply SSorted_cons; [apply SSorted_nil|apply Forall_nil]|].
  apply Forall_cons; [|apply Forall_nil]. split; vm_compute; (reflexivity || discriminate).
Qed.
Notation L1 := (tree_lists 1 1).
Notation G0 := (fun _ _ => False).
Lemma lone_acc s nb : L1 s nb -> 0 < p_h (d_p (s 0%nat)) -> forall k,
  Sph_model.acceleration (dp_sph par107) 1 (dp_ext par107 (p_pos (d_p (s 0%nat)))) (d_p (s 0%nat)) (map d_p (map s (nb 0%nat))) k = 1.
Proof.
  intros Hl Hh k. assert (O : lists_ok 1 1 (fun i => d_p (s i)) nb).
  { apply (tree_lists_ok 1 1 s nb); [left; reflexivity | lia | exact Hl|]. intros [|i] Hi; [exact Hh | lia]. }
  destruct (O 0%nat ltac:(lia)) as (_ & O2 & _). unfold Sph_model.acceleration.
  rewrite (suml_ext _ (fun _ => 0)), suml_zero; [cbn; ring|].
  intros b Hb. apply in_map_iff in Hb. destruct Hb as (b1 & <- & Hb). apply in_map_iff in Hb. destruct Hb as (j & <- & Hj). specialize (O2 j Hj).
  assert (j = 0%nat) by lia. subst j.
  assert (D : DiW (dp_sph par107) 1 (d_p (s 0%nat)) (d_p (s 0%nat)) k = 0).
  { unfold DiW, gradW. set (v := vsub _ _). assert (V : v k = 0) by (unfold v, vsub; ring). unfold kernel_gradient. rewrite V. ring. }
  rewrite D. ring.
Qed.

(** an iteration of the lone particle *)
Lemma lone_step s : 0 < p_m (d_p (s 0%nat)) -> 0 < p_h (d_p (s 0%nat)) -> d_e (s 0%nat) = 3 -> d_dedt (s 0%nat) = 0 ->
  p_pos (d_p (s 0%nat)) 0%nat = 0 -> p_vel (d_p (s 0%nat)) 0%nat = 1 -> d_acc (s 0%nat) 0%nat = 1 -> p_gacc (d_p (s 0%nat)) 0%nat = 0 ->
  exists s', do_ops par107 1 L1 G0 (step_ops par107 false 1 1) s s' /\ 0 < p_rho (d_p (s' 0%nat)) /\
    p_vel (d_p (s' 0%nat)) 0%nat = 2 /\ d_acc (s' 0%nat) 0%nat = 1.
Proof.
  intros Hm Hh E0 D0 X0 V0 A0 Q0.
  assert (PM : forall s, 0 < p_m (d_p (s 0%nat)) -> pos_m 1 s) by (intros t Ht [|i] Hi; [exact Ht | lia]).
  assert (PH : forall s, 0 < p_h (d_p (s 0%nat)) -> pos_h 1 s) by (intros t Ht [|i] Hi; [exact Ht | lia]).
  assert (PW : forall s, warm par107 (s 0%nat) -> forall i, (i < 1)%nat -> warm par107 (s i)) by (intros t Ht [|i] Hi; [exact Ht | lia]).
  pose proof (fun o t => warm_progress par107 1 1 G0 (or_introl eq_refl) ltac:(lia) lone_keys o t) as WP.
  set (m1 := fun i => drift 1 (save_velocityhalf (kick_v 1 (kick_e 1 (s i))))).
  assert (W1 : warm par107 (m1 0%nat)).
  { unfold warm, ekin, m1. cbn. unfold dot. cbn [sumn]. unfold vadd, vscale. cbn. unfold vadd. rewrite E0, D0, X0, V0, A0, Q0. lra. }
  destruct (WP (OPass (density_pass par107 1)) m1) as (m2 & R2 & M2 & H2 & W2);
    [apply (warm_density par107 1 1 (or_introl eq_refl) eq_refl ltac:(lia) (proj1 C66_case) ltac:(cbn; lra) eq_refl eq_refl) | apply PM; exact Hm | apply PH; exact Hh | apply PW, W1|].
  destruct (WP (OPass (acceleration_pass par107)) m2) as (m3 & R3 & M3 & H3 & W3);
    [intros b l _ _ W; eexists; split; [reflexivity|]; split; [split; reflexivity | exact W] | assumption..|].
  pose proof R2 as R2c. pose proof R3 as R3c.
  destruct R2 as (nb2 & L2 & R2). specialize (R2 0%nat ltac:(lia)). apply density_keeps in R2. destruct R2 as ((_ & _ & X2 & V2) & _ & E2 & (_ & Q2) & _ & RH2).
  destruct R3 as (nb3 & L3 & R3). pose proof (lone_acc m2 nb3 L3 (H2 0%nat ltac:(lia))) as AC. specialize (R3 0%nat ltac:(lia)). unfold acceleration_pass in R3. injection R3 as R3.
  set (m4 := fun i => kick_v 1 (m3 i)).
  assert (V4 : p_vel (d_p (m4 0%nat)) 0%nat = 2 /\ d_e (m4 0%nat) = 3 /\ p_pos (d_p (m4 0%nat)) 0%nat = 3 / 2 /\ d_acc (m4 0%nat) 0%nat = 1 /\ 0 < p_rho (d_p (m4 0%nat))).
  { unfold m4. rewrite <- R3. unfold kick_v. cbn [set_vel with_p d_p p_vel d_e p_pos d_acc p_rho set_gpot set_gacc set_acc]. unfold vadd, vscale. rewrite AC, V2, E2, X2. unfold m1.
    cbn. unfold vadd, vscale, vzero. rewrite E0, D0, X0, V0, A0, Q0. repeat split; first [lra | exact RH2]. }
  destruct V4 as (V4 & E4 & X4 & A4 & RH4).
  assert (W4 : warm par107 (m4 0%nat)).
  { unfold warm, ekin. cbn [dp_pot par107 dp_dim]. unfold dot. cbn [sumn]. rewrite V4, E4, X4. lra. }
  destruct (WP (OPass (dedt_pass par107)) m4) as (m5 & R5 & M5 & H5 & W5);
    [intros b l _ _ W; eexists; split; [reflexivity|]; split; [split; reflexivity | exact W] | exact M3 | exact H3 | apply PW, W4|].
  destruct (WP (OAll (recompute_thermo par107 1)) m5) as (m6 & R6 & M6 & H6 & W6);
    [intros b W; unfold recompute_thermo, recover_internal_energy; cbv zeta; rewrite (proj2 (Rltb_true _ _) W); eexists; split; [reflexivity|]; split; [split; reflexivity | exact W] | assumption..|].
  exists (fun i => kick_e 1 (m6 i)).
  assert (K6 : p_rho (d_p (m6 0%nat)) = p_rho (d_p (m4 0%nat)) /\ p_vel (d_p (m6 0%nat)) = p_vel (d_p (m4 0%nat)) /\ d_acc (m6 0%nat) = d_acc (m4 0%nat)).
  { pose proof (R6 0%nat ltac:(lia)) as K. apply recompute_thermo_keeps in K. destruct K as ((_ & _ & _ & KV) & _ & KR & _ & (KA & _) & _).
    destruct R5 as (nb5 & _ & R5). specialize (R5 0%nat ltac:(lia)). unfold dedt_pass in R5. injection R5 as R5. unfold same_rho in KR.
    rewrite KV, KR, KA, <- R5. repeat split. }
  destruct K6 as (K1 & K2 & K3). split; [|cbn; rewrite K1, K2, K3; auto].
  unfold step_ops. cbv zeta. cbn [dp_relax par107 Nat.ltb Nat.leb dp_evolve dp_thermo opt cullen dp_sph defaults app dp_updates energy_rounds energy_round forces].
  cbn [do_ops].
  exists (fun i => kick_e 1 (s i)). split; [intros i Hi; reflexivity|].
  exists (fun i => kick_v 1 (kick_e 1 (s i))). split; [intros i Hi; reflexivity|].
  exists (fun i => save_velocityhalf (kick_v 1 (kick_e 1 (s i)))). split; [intros i Hi; reflexivity|].
  exists m1. split; [intros i Hi; reflexivity|]. exists m1. split; [reflexivity|].
  exists m2. split; [exact R2c|]. exists m2. split; [reflexivity|]. exists m3. split; [exact R3c|].
  exists m4. split; [intros i Hi; reflexivity|]. exists m4. split; [reflexivity|].
  exists m5. split; [exact R5|]. exists m6. split; [exact R6|].
  exists (fun i => kick_e 1 (m6 i)). split; [intros i Hi; reflexivity|].
  exists (fun i => kick_e 1 (m6 i)). split; reflexivity.
Qed.

(** The pressure after two iterations of the driver. *)
Theorem C107_thermokinetic_refuted : exists dp dim N s0 k s t dt,
  dp_thermo dp = true /\ dp_evolve dp = true /\ (1 <= dp_updates dp)%nat /\ dp_eos dp = ideal /\
  run dp dim N (fun _ _ => False) false 0 s0 0 k s t dt /\ (0 < k)%nat /\
  exists i, (i < N)%nat /\
    let u := d_e (s i) - 1 / 2 * dot (dp_dim dp) (p_vel (d_p (s i))) (p_vel (d_p (s i))) - dp_pot dp (p_pos (d_p (s i))) in
    p_P (d_p (s i)) <> (7 / 5 - 1) * p_rho (d_p (s i)) * u.
Proof.
  destruct (thermo_first par107 1 1 (fun _ _ => False)) with (k := 0%nat) (dt := 1) (dt' := 1) (s := lone) as (s & H); try reflexivity; try lia;
    [left; reflexivity | exact lone_keys | apply C66_case | cbn; lra | intros [|i] Hi; cbn; lra | intros [|i] Hi; cbn; lra | intros [|i] Hi; cbn; lra|].
  assert (HH : pos_h 1 lone) by (intros i Hi; cbn; lra). assert (HM : pos_m 1 lone) by (intros i Hi; cbn; lra).
  assert (LO : forall s nb, L1 s nb -> (forall i, (i < 1)%nat -> 0 < p_h (d_p (s i))) -> lists_ok 1 1 (fun i => d_p (s i)) nb).
  { intros t nb Ht Hp. apply (tree_lists_ok 1 1 t nb); [left; reflexivity | lia | exact Ht | exact Hp]. }
  destruct (energy_initial par107 1 L1 (fun _ _ => False) ltac:(cbn; lia) LO 0 1 1 lone s ltac:(cbn; lia) HH eq_refl ltac:(cbn; lia) H) as [EN PW].
  specialize (PW eq_refl). pose proof H as H0. apply initial_shape in H0; [|cbn; lia | cbn; lia].
  destruct H0 as (m1 & m2 & m3 & m4 & m5 & S1 & (D1 & D2 & _ & _) & S3 & (G1 & G2 & _ & G4 & _) & S5 & ES).
  apply forces_shape in S3. destruct S3 as (a & nb & La & A3 & (F1 & F2 & _) & _ & ->).
  cbn [dp_evolve par107] in S5. assert (H0i : (0 < 1)%nat) by lia.
  destruct (S1 0%nat H0i) as (S1a & S1b & _). pose proof (fixed_trans _ _ _ S1a (fixed_trans _ _ _ (D1 0%nat H0i) (fixed_trans _ _ _ (F1 0%nat H0i) (G1 0%nat H0i)))) as FX.
  assert (HX : p_h (d_p (m4 0%nat)) = 1). { rewrite (G2 0%nat H0i), (F2 0%nat H0i), (D2 0%nat H0i), S1b. reflexivity. }
  assert (H4 : pos_h 1 m4) by (intros [|i] Hi; [rewrite HX; lra | lia]).
  pose proof (rounds_quiet par107 1 L1 (fun _ _ => False) ltac:(cbn; lia) LO _ _ _ _ _ H4 S5) as ((Q1 & Q2 & _ & _ & Q5) & _).
  pose proof (fixed_trans _ _ _ FX (Q1 0%nat H0i)) as (_ & FM & FP & FV). destruct (Q5 0%nat H0i) as [QA QG]. destruct (G4 0%nat H0i) as [GA GG].
  subst s. change (new_h par107 1 m5) with m5 in *.
  assert (AA : d_acc (m5 0%nat) 0%nat = 1 /\ p_gacc (d_p (m5 0%nat)) 0%nat = 0).
  { rewrite QA, GA, QG, GG, (A3 0%nat H0i). cbn [set_gpot set_gacc set_acc with_p d_acc d_p p_gacc]. split; [|reflexivity].
    pose proof (lone_acc m2 nb La) as LA. rewrite map_map in LA. apply LA. rewrite (D2 0%nat H0i), S1b. cbn. lra. }
  destruct AA as [AA AG].
  unfold energy, start_energy in EN. unfold power in PW. cbn [sumn] in EN, PW. rewrite FM in EN, PW. cbn in EN, PW.
  assert (EK : ekin par107 (lone 0) = 1 / 2) by (unfold ekin, dot; cbn; lra). rewrite EK in EN.
  destruct (lone_step m5) as (s' & R & RH & V & A); try assumption.
  { rewrite FM. cbn. lra. }
  { rewrite (Q2 0%nat H0i), HX. lra. }
  { lra. }
  { lra. }
  { rewrite FP. reflexivity. }
  { rewrite FV. reflexivity. }
  exists par107, 1%N, 1%nat, lone, 1%nat, s', (0 + 1), 1. do 3 (split; [first [reflexivity | cbn; lia]|]). split; [reflexivity|].
  split; [split|].
  { split; [left; reflexivity|]. split; [reflexivity|]. split; [lia|]. split; [cbn; lra|]. split; [cbn; lia|]. intros i _. cbn. lra. }
  { eapply sim_next; [eapply sim_first; exact H | exact R]. }
  split; [lia|]. exists 0%nat. split; [lia|]. cbv zeta.
  destruct (C107_total par107 1 L1 (fun _ _ => False) false 1 1 m5 s' eq_refl eq_refl ltac:(cbn; lia) R 0%nat H0i) as (_ & _ & _ & [P0 E] & _).
  rewrite E. cbn [dp_eos par107 ideal eos_P]. set (u := d_e (s' 0%nat) - _ - _). cbn [dp_dim par107]. unfold dot. cbn [sumn]. rewrite V, A. intros C. nra.
Qed.
(** Two particles of different mass moving towards each other, ideal gas
    (the case of C77): after any number of iterations the pressure is
    (gamma - 1) rho u. *)
Example C107_case m (dts : nat -> R) : exists s, run (par77 false) 1 2 (fun _ _ => False) false 0 two 0 (S m) s (sumn (S m) dts) (dts (S m)) /\
  forall i, (i < 2)%nat -> p_P (d_p (s i)) = (7 / 5 - 1) * p_rho (d_p (s i)) * d_u (s i).
Proof.
  destruct (C77_never_stops (par77 false) 1 2 (fun _ _ => False) false 0 two 0 dts (S m)) as (s & H); cbn [par77 dp_sph dp_dim dp_etaw dp_relax dp_evolve dp_thermo];
    try reflexivity; try lra; try lia; [left; reflexivity | exact two_keys | apply C66_case | cbn; lra | intros [|i] _; cbn; lra|].
  cbn [Nat.add] in H. rewrite Rplus_0_l in H. exists s. split; [exact H|]. intros i Hi.
  destruct (C107_run (par77 false) _ _ _ _ _ _ _ _ _ _ _ eq_refl ltac:(cbn; lia) H ltac:(lia) i Hi) as [[P0 E] _]. exact E.
Qed.

Print Assumptions C107_internal.
Print Assumptions C107_fixed.
Print Assumptions C107_total.
Print Assumptions C107_run.
Print Assumptions C107_thermokinetic_refuted.
