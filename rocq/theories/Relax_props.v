(** Relaxation: C80. *)
From Verif Require Import Base Vec Geometry_model Geometry_props Kernel_model Kernel_props Sph_model Sph_props SphMore_props EForce_model
  Driver_model Driver_proofs Driver_run Driver_props Pass_model Pass_proofs Pass_run Pass_same Pass_props Relax_proofs.
From Coq Require Import Permutation.
Local Open Scope R_scope.

Section C80.
Context (dp : dparams) (N : nat) (grav : (nat -> dbody) -> (nat -> point * R) -> Prop) (gravity : bool).
Notation n := (dp_dim dp).
Notation sops := (do_ops dp N (complete n N) grav).
Context (Hdim : (1 <= n <= 3)%nat) (HN : (0 < N)%nat) (Hw : 0 < dp_etaw dp) (Hrad : dp_rrad dp <= 1).
Context (Hext : forall x k, dp_ext dp x k = 0) (Hbal : balanced N grav gravity).

Definition positive s := forall i, (i < N)%nat -> 0 < p_m (d_p (s i)) /\ 0 < p_h (d_p (s i)).

(** One iteration, with or without relaxation: a leapfrog step in which the
    total force and torque are those of the drag alone. *)
Theorem C80_iteration k dt s s' : positive s -> sops (step_ops dp gravity k dt) s s' ->
  let acc b j := d_acc b j + p_gacc (d_p b) j in
  let vh i := fun j => p_vel (d_p (s i)) j + 1 / 2 * dt * acc (s i) j in
  let drag i j := if Nat.ltb k (dp_relax dp) then - (dp_beta dp + dp_gamma dp * sumn n (fun a => vh i a * vh i a)) * vh i j else 0 in
  (forall i, (i < N)%nat -> d_id (s' i) = d_id (s i) /\ p_m (d_p (s' i)) = p_m (d_p (s i)) /\ 0 < p_h (d_p (s' i)) /\
     forall j, p_pos (d_p (s' i)) j = p_pos (d_p (s i)) j + dt * vh i j /\ p_vel (d_p (s' i)) j = vh i j + 1 / 2 * dt * acc (s' i) j) /\
  (forall j, sumn N (fun i => p_m (d_p (s i)) * acc (s' i) j) = sumn N (fun i => p_m (d_p (s i)) * drag i j)) /\
  (forall j l, sumn N (fun i => p_m (d_p (s i)) * (p_pos (d_p (s' i)) j * acc (s' i) l - p_pos (d_p (s' i)) l * acc (s' i) j)) =
     sumn N (fun i => p_m (d_p (s i)) * (p_pos (d_p (s' i)) j * drag i l - p_pos (d_p (s' i)) l * drag i j))).
Proof.
  intros Hp H. cbv zeta.
  assert (M0 : pos_m N s) by (intros j Hj; apply Hp, Hj). assert (P0 : pos_h N s) by (intros j Hj; apply Hp, Hj).
  assert (K : forall gr : (nat -> dbody) -> (nat -> point * R) -> Prop, (forall s g, gr s g -> forall k, sumn N (fun i => p_m (d_p (s i)) * fst (g i) k) = 0) ->
    (forall s g, gr s g -> forall k l, sumn N (fun i => p_m (d_p (s i)) * (p_pos (d_p (s i)) k * fst (g i) l - p_pos (d_p (s i)) l * fst (g i) k)) = 0) ->
    do_ops dp N (complete n N) gr (step_ops dp gravity k dt) s s' ->
    (forall i, (i < N)%nat -> d_id (s' i) = d_id (s i) /\ p_m (d_p (s' i)) = p_m (d_p (s i)) /\
     p_pos (d_p (s' i)) = p_pos (d_p (half dt s i)) /\
     forall j, p_vel (d_p (s' i)) j = p_vel (d_p (half dt s i)) j + 1 / 2 * dt * total_acc (s' i) j) /\ pos_h N s' /\
    (forall j, force N s' j = if Nat.ltb k (dp_relax dp) then drag_force dp N (half dt s) j else 0) /\
    (forall j l, torque N s' j l = if Nat.ltb k (dp_relax dp) then drag_torque dp N (half dt s) j l else 0)).
  { intros gr G1 G2 H'. eapply step_any; eassumption. }
  assert (Q := K (fun _ _ => False) ltac:(tauto) ltac:(tauto)).
  assert (Q' : (forall i, (i < N)%nat -> d_id (s' i) = d_id (s i) /\ p_m (d_p (s' i)) = p_m (d_p (s i)) /\
     p_pos (d_p (s' i)) = p_pos (d_p (half dt s i)) /\
     forall j, p_vel (d_p (s' i)) j = p_vel (d_p (half dt s i)) j + 1 / 2 * dt * total_acc (s' i) j) /\ pos_h N s' /\
    (forall j, force N s' j = if Nat.ltb k (dp_relax dp) then drag_force dp N (half dt s) j else 0) /\
    (forall j l, torque N s' j l = if Nat.ltb k (dp_relax dp) then drag_torque dp N (half dt s) j l else 0)).
  { unfold balanced in Hbal. destruct gravity.
    - apply (K grav); [intros; apply (Hbal eq_refl); assumption|intros; apply (Hbal eq_refl); assumption|exact H].
    - apply Q. eapply do_ops_nograv; [apply no_grav_step|exact H]. }
  clear Q K. destruct Q' as (A & B & C & D). split; [|split].
  - intros i Hi. destruct (A i Hi) as (A1 & A2 & A3 & A4). split; [exact A1|]. split; [exact A2|]. split; [apply B, Hi|]. intro j. rewrite A3. split.
    + unfold half, drift, kick_v, vadd, vscale. cbn. ring.
    + rewrite A4. unfold half, drift, kick_v, total_acc, vadd, vscale. cbn. ring.
  - intro j. transitivity (force N s' j).
    + apply sumn_ext. intros i Hi. destruct (A i Hi) as (_ & -> & _). reflexivity.
    + rewrite C. destruct (Nat.ltb _ _).
      * apply sumn_ext. intros i Hi. unfold drag, acceleration_drag. cbv zeta. rewrite Rminus_0_l, <- Ropp_mult_distr_l. reflexivity.
      * rewrite (sumn_ext N _ (fun _ => 0)); [symmetry; apply sumn_zero|intros; ring].
  - intros j l. transitivity (torque N s' j l).
    + apply sumn_ext. intros i Hi. destruct (A i Hi) as (_ & -> & _). reflexivity.
    + rewrite D. destruct (Nat.ltb _ _).
      * apply sumn_ext. intros i Hi. destruct (A i Hi) as (_ & _ & -> & _). unfold drag, acceleration_drag. cbv zeta. rewrite !Rminus_0_l, <- !Ropp_mult_distr_l. reflexivity.
      * rewrite (sumn_ext N _ (fun _ => 0)); [symmetry; apply sumn_zero|intros; ring].
Qed.

(** What the drag takes from the energy of a particle per unit mass and time *)
Definition taken (s : nat -> dbody) (i : nat) : R := let v := p_vel (d_p (s i)) in let v2 := sumn n (fun a => v a * v a) in (dp_beta dp + dp_gamma dp * v2) * v2.
Lemma drag_power_taken s i : drag_power dp (s i) = - taken s i.
Proof.
  unfold drag_power, drag, taken, acceleration_drag, dot. cbv zeta. set (v := p_vel (d_p (s i))). set (c := dp_beta dp + _).
  rewrite (sumn_ext n _ (fun a => - c * (v a * v a))) by (intros; ring). rewrite sumn_scal. ring.
Qed.
Lemma relax_round dt s s' : pos_h N s -> sops (energy_round dp true dt) s s' ->
  (dp_thermo dp = false -> forall i, (i < N)%nat -> d_dudt (s' i) = - taken s i) /\
  (dp_thermo dp = true -> sumn N (fun i => p_m (d_p (s i)) * d_dedt (s' i)) = sumn N (fun i => p_m (d_p (s i)) * (dot n (p_gacc (d_p (s i))) (p_vel (d_p (s i))) - taken s i))).
Proof using Hdim.
  clear HN Hw Hrad Hext Hbal.
  intros Hh. unfold energy_round. destruct (dp_thermo dp).
  - intro H. apply do_ops_app in H. destruct H as (m & H1 & H). apply do_ops_app in H. destruct H as (m' & H2 & H3).
    cbn [opt Driver_model.do_ops Driver_model.do_op] in H1, H2, H3. destruct H1 as (m0 & (nb & Hl & H1) & ->). destruct H2 as (m2 & H2 & ->). destruct H3 as (m3 & H3 & ->). split; [discriminate|]. intros _.
    transitivity (sumn N (fun i => p_m (d_p (s i)) * dedt (dp_sph dp) n (d_p (s i)) (nbs (fun j => d_p (s j)) nb i)) - sumn N (fun i => p_m (d_p (s i)) * taken s i)).
    + rewrite <- sumn_minus. apply sumn_ext. intros i Hi. specialize (H3 i Hi). cbn in H3. apply recompute_thermo_keeps in H3. destruct H3 as (_ & _ & _ & _ & _ & ->).
      rewrite (do_all dp N _ _ _ _ _ H2 i Hi). specialize (H1 i Hi). unfold dedt_pass in H1. injection H1 as <-. unfold add_drag_dedt. cbn [d_dedt set_dedt]. change (drag_power dp (set_dedt ?x (s i))) with (drag_power dp (s i)). rewrite drag_power_taken, map_map. unfold nbs. ring.
    + rewrite (proj2 (C36_energy_balance (dp_sph dp) n N (fun i => d_p (s i)) nb Hdim Hh (complete_ok dp N s nb Hl Hh))), <- sumn_minus. apply sumn_ext. intros i Hi. ring.
  - intro H. apply do_ops_app in H. destruct H as (m & H1 & H). apply do_ops_app in H. destruct H as (m' & H2 & H3).
    cbn [opt Driver_model.do_ops Driver_model.do_op] in H1, H2, H3. destruct H1 as (m0 & (nb & Hl & H1) & ->). destruct H2 as (m2 & H2 & ->). destruct H3 as (m3 & H3 & ->). split; [|discriminate]. intros _ i Hi.
    rewrite (do_all dp N _ _ _ _ _ H3 i Hi). unfold recompute. cbn. rewrite (do_all dp N _ _ _ _ _ H2 i Hi). specialize (H1 i Hi). unfold dudt_pass in H1. injection H1 as <-. unfold add_drag_dudt. cbn [d_dudt set_dudt]. change (drag_power dp (set_dudt ?x (s i))) with (drag_power dp (s i)). rewrite drag_power_taken. unfold dudt. ring.
Qed.
(** The energy rates of an iteration with relaxation.  In the formulation with total energy the drag is the only loss.  In the
    one with internal energy the work of the pressure is switched off and the internal energy falls at the rate at which the
    drag takes kinetic energy. *)
Theorem C80_energy_rates dt m s s' : positive s -> (1 <= m)%nat -> sops (energy_rounds dp true dt m) s s' ->
  (dp_thermo dp = false -> forall i, (i < N)%nat -> d_dudt (s' i) = - taken s i) /\
  (dp_thermo dp = true -> sumn N (fun i => p_m (d_p (s i)) * d_dedt (s' i)) = sumn N (fun i => p_m (d_p (s i)) * (dot n (p_gacc (d_p (s i))) (p_vel (d_p (s i))) - taken s i))) /\
  (0 <= dp_beta dp -> 0 <= dp_gamma dp -> forall i, 0 <= taken s i).
Proof using Hdim.
  clear HN Hw Hrad Hext Hbal.
  intros Hp Hm H. assert (Hh : pos_h N s) by (intros i Hi; apply Hp, Hi). clear Hp. assert (T : 0 <= dp_beta dp -> 0 <= dp_gamma dp -> forall i, 0 <= taken s i).
  { intros H1 H2 i. unfold taken. cbv zeta. set (v := p_vel (d_p (s i))). assert (0 <= sumn n (fun a => v a * v a)) by (apply sumn_nonneg; intros; nra). nra. }
  revert s Hh H T. induction m as [|m IH]; intros s Hh H T; [lia|]. destruct m as [|m].
  - destruct (relax_round dt s s' Hh H) as [A B]. split; [exact A|]. split; [exact B | exact T].
  - change (energy_rounds dp true dt (S (S m))) with (energy_round dp true dt ++ [OReset] ++ energy_rounds dp true dt (S m)) in H.
    apply do_ops_app in H. destruct H as (s1 & H1 & H2). cbn [app Driver_model.do_ops Driver_model.do_op] in H2. destruct H2 as (s2 & -> & H2).
    apply (round_quiet dp N _ _ Hdim (complete_ok dp N)) in H1; [|exact Hh]. destruct H1 as ((Q1 & Q2 & _ & _ & Q5) & _).
    assert (TE : forall i, (i < N)%nat -> taken s1 i = taken s i) by (intros i Hi; unfold taken; destruct (Q1 i Hi) as (_ & _ & _ & ->); reflexivity).
    specialize (IH ltac:(lia) s1 (pos_h_each N s s1 Hh Q2) H2). assert (T1 : 0 <= dp_beta dp -> 0 <= dp_gamma dp -> forall i, 0 <= taken s1 i).
    { intros P1 P2 i. unfold taken. cbv zeta. set (v := p_vel (d_p (s1 i))). assert (0 <= sumn n (fun a => v a * v a)) by (apply sumn_nonneg; intros; nra). nra. }
    destruct (IH T1) as (A & B & _). split; [intros Ht i Hi; rewrite (A Ht i Hi), (TE i Hi); reflexivity|]. split; [|exact T]. intros Ht. specialize (B Ht). etransitivity; [|etransitivity; [exact B|]].
    + apply sumn_ext. intros i Hi. destruct (Q1 i Hi) as (_ & -> & _). reflexivity.
    + apply sumn_ext. intros i Hi. rewrite (TE i Hi). destruct (Q1 i Hi) as (_ & -> & _ & ->). destruct (Q5 i Hi) as (_ & ->). reflexivity.
Qed.

(** The factor by which linear drag multiplies momentum: [h] is the value in
    the middle of the last iteration, [d] its time step. *)
Fixpoint damped (beta d h : R) (dts : list R) : R :=
  match dts with [] => h - 1 / 2 * d * (beta * h) | d' :: r => damped beta d' (h - 1 / 2 * (d + d') * (beta * h)) r end.

Lemma loop_damped k dts : forall s s' d, dp_gamma dp = 0 -> (k + length dts < dp_relax dp)%nat -> positive s ->
  sops (loop_ops dp gravity k dts) s s' ->
  (forall i, (i < N)%nat -> d_id (s' i) = d_id (s i) /\ p_m (d_p (s' i)) = p_m (d_p (s i))) /\
  (forall j h, momentum N s j = h - 1 / 2 * d * (dp_beta dp * h) -> force N s j = - (dp_beta dp * h) -> momentum N s' j = damped (dp_beta dp) d h dts) /\
  (forall j l h, angular N s j l = h - 1 / 2 * d * (dp_beta dp * h) -> torque N s j l = - (dp_beta dp * h) -> angular N s' j l = damped (dp_beta dp) d h dts).
Proof.
  revert k. induction dts as [|d' dts IH]; intros k s s' d Hg Hk Hp H.
  - cbn in H. subst s'. repeat split; auto.
  - cbn [loop_ops] in H. apply Driver_proofs.do_ops_app in H. destruct H as (m & H1 & H2). cbn [length] in Hk.
    destruct (C80_iteration _ _ _ _ Hp H1) as (A & B & C).
    assert (L : Nat.ltb (S k) (dp_relax dp) = true) by (apply Nat.ltb_lt; lia). rewrite L in B, C. rewrite Hg in B, C.
    assert (Pm : positive m). { intros i Hi. destruct (A i Hi) as (_ & -> & Hh & _). split; [apply Hp, Hi|exact Hh]. }
    destruct (IH (S k) m s' d' Hg ltac:(lia) Pm H2) as (J1 & J2 & J3). split; [|split].
    + intros i Hi. destruct (J1 i Hi) as (-> & ->). destruct (A i Hi) as (-> & -> & _). auto.
    + intros j h E1 E2. cbn [damped].
      assert (Mh : sumn N (fun i => p_m (d_p (s i)) * (p_vel (d_p (s i)) j + 1 / 2 * d' * (d_acc (s i) j + p_gacc (d_p (s i)) j))) = h - 1 / 2 * (d + d') * (dp_beta dp * h)).
      { transitivity (momentum N s j + 1 / 2 * d' * force N s j); [|rewrite E1, E2; ring].
        unfold momentum, force. rewrite <- sumn_scal, <- sumn_plus. apply sumn_ext. intros i Hi. unfold total_acc, vadd. ring. }
      assert (F : force N m j = - (dp_beta dp * (h - 1 / 2 * (d + d') * (dp_beta dp * h)))).
      { rewrite <- Mh. rewrite Ropp_mult_distr_l, <- sumn_scal. etransitivity; [|etransitivity; [exact (B j)|]].
        - apply sumn_ext. intros i Hi. destruct (A i Hi) as (_ & -> & _). reflexivity.
        - apply sumn_ext. intros i Hi. ring. }
      apply J2; [|exact F].
      transitivity (sumn N (fun i => p_m (d_p (s i)) * (p_vel (d_p (s i)) j + 1 / 2 * d' * (d_acc (s i) j + p_gacc (d_p (s i)) j))) + 1 / 2 * d' * force N m j).
      * unfold momentum, force. rewrite <- sumn_scal, <- sumn_plus. apply sumn_ext. intros i Hi. destruct (A i Hi) as (_ & -> & _ & V).
        rewrite (proj2 (V j)). unfold total_acc, vadd. ring.
      * rewrite F, Mh. ring.
    + intros j l h E1 E2. cbn [damped].
      set (vh := fun i a => p_vel (d_p (s i)) a + 1 / 2 * d' * (d_acc (s i) a + p_gacc (d_p (s i)) a)) in *.
      assert (Mh : sumn N (fun i => p_m (d_p (s i)) * (p_pos (d_p (m i)) j * vh i l - p_pos (d_p (m i)) l * vh i j)) = h - 1 / 2 * (d + d') * (dp_beta dp * h)).
      { transitivity (angular N s j l + 1 / 2 * d' * torque N s j l); [|rewrite E1, E2; ring].
        unfold angular, torque. rewrite <- sumn_scal, <- sumn_plus. apply sumn_ext. intros i Hi.
        destruct (A i Hi) as (_ & _ & _ & V). rewrite (proj1 (V j)), (proj1 (V l)). unfold vh, total_acc, vadd. ring. }
      assert (F : torque N m j l = - (dp_beta dp * (h - 1 / 2 * (d + d') * (dp_beta dp * h)))).
      { rewrite <- Mh. rewrite Ropp_mult_distr_l, <- sumn_scal. etransitivity; [|etransitivity; [exact (C j l)|]].
        - apply sumn_ext. intros i Hi. destruct (A i Hi) as (_ & -> & _). reflexivity.
        - apply sumn_ext. intros i Hi. fold (vh i j). fold (vh i l). ring. }
      apply J3; [|exact F].
      transitivity (sumn N (fun i => p_m (d_p (s i)) * (p_pos (d_p (m i)) j * vh i l - p_pos (d_p (m i)) l * vh i j)) + 1 / 2 * d' * torque N m j l).
      * unfold angular, torque. rewrite <- sumn_scal, <- sumn_plus. apply sumn_ext. intros i Hi. destruct (A i Hi) as (_ & -> & _ & V).
        rewrite (proj2 (V j)), (proj2 (V l)). unfold vh, total_acc, vadd. ring.
      * rewrite F, Mh. ring.
Qed.

(** With linear drag the run multiplies momentum and angular momentum by one
    and the same factor, which depends on the time steps only. *)
Theorem C80_damped k0 dt dt' dts s s' : dp_gamma dp = 0 -> (k0 + length dts < dp_relax dp)%nat -> positive s ->
  sops (program dp gravity k0 dt dt' dts) s s' ->
  (forall j, sumn N (fun i => p_m (d_p (s' i)) * p_vel (d_p (s' i)) j) =
     damped (dp_beta dp) 0 (sumn N (fun i => p_m (d_p (s i)) * p_vel (d_p (s i)) j)) dts) /\
  (forall j l, sumn N (fun i => p_m (d_p (s' i)) * (p_pos (d_p (s' i)) j * p_vel (d_p (s' i)) l - p_pos (d_p (s' i)) l * p_vel (d_p (s' i)) j)) =
     damped (dp_beta dp) 0 (sumn N (fun i => p_m (d_p (s i)) * (p_pos (d_p (s i)) j * p_vel (d_p (s i)) l - p_pos (d_p (s i)) l * p_vel (d_p (s i)) j))) dts).
Proof.
  intros Hg Hk Hp H. unfold program in H. apply Driver_proofs.do_ops_app in H. destruct H as (m & H1 & H2).
  assert (M0 : pos_m N s) by (intros j Hj; apply Hp, Hj). assert (P0 : pos_h N s) by (intros j Hj; apply Hp, Hj).
  assert (L : Nat.ltb k0 (dp_relax dp) = true) by (apply Nat.ltb_lt; lia).
  assert (A : each N fixed s m /\ pos_h N m /\ (forall j, force N m j = drag_force dp N s j) /\ (forall j l, torque N m j l = drag_torque dp N s j l)).
  { unfold balanced in Hbal. destruct gravity.
    - destruct (start_any dp N grav Hdim HN Hw Hrad Hext (fun s g G => proj1 (Hbal eq_refl s g G)) (fun s g G => proj2 (Hbal eq_refl s g G)) _ _ _ _ _ _ M0 P0 H1) as (A1 & A2 & A3 & A4).
      rewrite L in A3, A4. auto.
    - apply (do_ops_nograv _ _ _ _ (fun _ _ => False)) in H1; [|apply no_grav_initial].
      destruct (start_any dp N (fun _ _ => False) Hdim HN Hw Hrad Hext ltac:(tauto) ltac:(tauto) _ _ _ _ _ _ M0 P0 H1) as (A1 & A2 & A3 & A4).
      rewrite L in A3, A4. auto. }
  destruct A as (A1 & A2 & A3 & A4).
  assert (Pm : positive m). { intros i Hi. destruct (A1 i Hi) as (_ & -> & _). split; [apply M0, Hi|apply A2, Hi]. }
  destruct (loop_damped k0 dts m s' 0 Hg Hk Pm H2) as (_ & J2 & J3). split.
  - intro j. apply J2.
    + change (momentum N m j = momentum N s j - 1 / 2 * 0 * (dp_beta dp * momentum N s j)). rewrite (momentum_fixed _ _ _ _ A1). ring.
    + rewrite A3. unfold drag_force. rewrite Ropp_mult_distr_l, <- sumn_scal. apply sumn_ext. intros i Hi. unfold drag, acceleration_drag. rewrite Hg. ring.
  - intros j l. apply J3.
    + change (angular N m j l = angular N s j l - 1 / 2 * 0 * (dp_beta dp * angular N s j l)). rewrite (angular_fixed _ _ _ _ _ A1). ring.
    + rewrite A4. unfold drag_torque. rewrite Ropp_mult_distr_l, <- sumn_scal. apply sumn_ext. intros i Hi. unfold drag, acceleration_drag. rewrite Hg. ring.
Qed.

(** The same on any number of ranks. *)
Theorem C80_damped_ranks nranks k0 dt dt' dts st st' : cullen (dp_sph dp) = false -> (gravity = true -> grav_fun N grav) ->
  dp_gamma dp = 0 -> (k0 + length dts < dp_relax dp)%nat -> positive (ds_cur st) ->
  dist_ops dp N nranks grav (program dp gravity k0 dt dt' dts) st st' ->
  let s := ds_cur st in let s' := ds_cur st' in
  (forall j, sumn N (fun i => p_m (d_p (s' i)) * p_vel (d_p (s' i)) j) =
     damped (dp_beta dp) 0 (sumn N (fun i => p_m (d_p (s i)) * p_vel (d_p (s i)) j)) dts) /\
  (forall j l, sumn N (fun i => p_m (d_p (s' i)) * (p_pos (d_p (s' i)) j * p_vel (d_p (s' i)) l - p_pos (d_p (s' i)) l * p_vel (d_p (s' i)) j)) =
     damped (dp_beta dp) 0 (sumn N (fun i => p_m (d_p (s i)) * (p_pos (d_p (s i)) j * p_vel (d_p (s i)) l - p_pos (d_p (s i)) l * p_vel (d_p (s i)) j))) dts).
Proof.
  intros Hc Hgf Hg Hk Hp H. cbv zeta. destruct (C79_sequential dp N grav gravity Hc Hgf nranks k0 dt dt' dts st st' H) as (m & D & B).
  assert (P : forall i, (i < N)%nat -> d_p (ds_cur st' i) = d_p (m i)). { intros i Hi. destruct (B i Hi) as (v & ->). reflexivity. }
  destruct (C80_damped _ _ _ _ _ _ Hg Hk Hp D) as (D1 & D2). split.
  - intro j. rewrite <- D1. apply sumn_ext. intros i Hi. rewrite (P i Hi). reflexivity.
  - intros j l. rewrite <- D2. apply sumn_ext. intros i Hi. rewrite (P i Hi). reflexivity.
Qed.
End C80.

(** With steps not longer than the damping time the factor is between 0 and
    1: momentum and angular momentum keep their direction and do not grow. *)
Theorem C80_factor beta dts : 0 <= beta -> (forall d, In d dts -> 0 <= d /\ beta * d <= 1) ->
  exists c, 0 <= c <= 1 /\ forall p, damped beta 0 p dts = c * p.
Proof.
  intros Hb. assert (K : forall dts d, 0 <= d -> beta * d <= 1 -> (forall d, In d dts -> 0 <= d /\ beta * d <= 1) ->
    exists c, 0 <= c <= 1 /\ forall p, damped beta d p dts = c * p).
  { clear dts. induction dts as [|d' dts IH]; intros d H0 H1 H.
    - exists (1 - 1 / 2 * d * beta). split; [nra|]. intro p. cbn. ring.
    - destruct (H d' (or_introl eq_refl)) as (A & B). destruct (IH d' A B) as (c & C & E); [intros x Hx; apply H; right; exact Hx|].
      exists (c * (1 - 1 / 2 * (d + d') * beta)). split.
      + assert (0 <= 1 - 1 / 2 * (d + d') * beta <= 1) by nra. nra.
      + intro p. cbn [damped]. rewrite E. ring. }
  intro H. apply (K dts 0); try lra. exact H.
Qed.

(** Equal steps *)
Theorem C80_equal_steps beta d m p : damped beta 0 p (repeat d (S m)) = (1 - 1 / 2 * beta * d) ^ 2 * (1 - beta * d) ^ m * p.
Proof.
  cbn [repeat damped]. assert (K : forall m h, damped beta d h (repeat d m) = (1 - 1 / 2 * beta * d) * (1 - beta * d) ^ m * h).
  { clear. induction m as [|m IH]; intro h; cbn [repeat damped].
    - cbn. ring.
    - rewrite IH. cbn [pow]. field. }
  rewrite K. cbn [pow]. ring.
Qed.

(** Nothing keeps the steps that short: with longer ones the relaxation speeds
    the particles up. *)
Definition par80 (beta : R) : dparams :=
  DParams (defaults wendland_c4 false) 1 ideal (fun _ => vzero) (fun _ => 0) beta 0 (1 / 4) 1 100 true false 2 HVariable (13 / 10).

Lemma run80 beta nr own ord dts : 0 <= beta -> (forall i, (i < 2)%nat -> (own i < nr)%nat) -> Permutation ord (seq 0 2) -> (length dts < 100)%nat ->
  exists st st', ds_cur st = two /\ dist_ops (par80 beta) 2 nr (fun _ _ => False) (program (par80 beta) false 0 1 1 dts) st st' /\ ds_own st' = own /\
  sumn 2 (fun i => p_m (d_p (ds_cur st' i)) * p_vel (d_p (ds_cur st' i)) 0%nat) = damped beta 0 (-5) dts.
Proof.
  intros Hb Ho Hp Hl.
  assert (P : forall i, (i < 2)%nat -> 0 < p_m (d_p (two i)) /\ 0 < p_h (d_p (two i))) by (intros [|i] _; cbn; lra).
  destruct (C79_runs (par80 beta) 2 (fun _ _ => False)) with (nranks := nr) (own := own) (ord := ord) (k0 := 0%nat) (dt := 1) (dt' := 1) (dts := dts) (s := two)
    as (st & st' & A & B & C); try reflexivity; try assumption; try (cbn; lia); try (cbn; lra).
  - apply C66_case.
  - exists st, st'. split; [exact A|]. split; [exact B|]. split; [exact C|].
    assert (G : (forall j, sumn 2 (fun i => p_m (d_p (ds_cur st' i)) * p_vel (d_p (ds_cur st' i)) j) =
      damped beta 0 (sumn 2 (fun i => p_m (d_p (ds_cur st i)) * p_vel (d_p (ds_cur st i)) j)) dts)).
    { refine (proj1 (C80_damped_ranks (par80 beta) 2 (fun _ _ => False) false _ _ _ _ _ _ nr 0 1 1 dts st st' _ _ _ _ _ B));
        try reflexivity; try discriminate; try (cbn; lia); try (cbn; lra). rewrite A. exact P. }
    rewrite (G 0%nat), A. f_equal. cbn. lra.
Qed.

Theorem C80_slows_refuted : exists dp dts st st', 0 < dp_beta dp /\
  dist_ops dp 2 1 (fun _ _ => False) (program dp false 0 1 1 dts) st st' /\
  Rabs (sumn 2 (fun i => p_m (d_p (ds_cur st i)) * p_vel (d_p (ds_cur st i)) 0%nat)) <
  Rabs (sumn 2 (fun i => p_m (d_p (ds_cur st' i)) * p_vel (d_p (ds_cur st' i)) 0%nat)).
Proof.
  destruct (run80 8 1 (fun _ => 0%nat) [0; 1]%nat [1]) as (st & st' & A & B & _ & C); [lra|intros; lia|apply Permutation_refl|cbn; lia|].
  exists (par80 8), [1], st, st'. split; [cbn; lra|]. split; [exact B|]. rewrite C, A. cbn.
  replace (1 * 1 + 0) with 1 by ring. unfold Rabs. repeat destruct (Rcase_abs _); lra.
Qed.

(** C80_energy_rates: two particles, two rounds; particle 1 moves at -2 and loses internal energy at the rate 2 *)
Example C80_energy_rates_example : exists s', positive 2 two /\ do_ops (par80 (1 / 2)) 2 (complete 1 2) (fun _ _ => False) (energy_rounds (par80 (1 / 2)) true 1 2) two s' /\
  d_dudt (s' 1%nat) = - 2.
Proof.
  assert (C : forall s, complete 1 2 s (fun _ => [0; 1]%nat)).
  { intros s i Hi. split; [repeat constructor; cbn; lia|]. split; [intros j [<-|[<-|[]]]; lia|]. intros j Hj Hn. exfalso. apply Hn. destruct j as [|[|j]]; cbn; auto; lia. }
  assert (P : positive 2 two) by (intros [|i] _; cbn; lra).
  assert (X : exists s', do_ops (par80 (1 / 2)) 2 (complete 1 2) (fun _ _ => False) (energy_rounds (par80 (1 / 2)) true 1 2) two s').
  { eexists. cbn [energy_rounds]. unfold energy_round. cbn [par80 dp_thermo opt app Driver_model.do_ops Driver_model.do_op].
    eexists. split; [exists (fun _ => [0; 1]%nat); split; [apply C | intros i _; reflexivity]|]. eexists. split; [intros i _; reflexivity|]. eexists. split; [intros i _; reflexivity|].
    eexists. split; [reflexivity|]. eexists. split; [exists (fun _ => [0; 1]%nat); split; [apply C | intros i _; reflexivity]|]. eexists. split; [intros i _; reflexivity|]. eexists. split; [intros i _; reflexivity|]. reflexivity. }
  destruct X as (s' & X). exists s'. split; [exact P|]. split; [exact X|].
  destruct (C80_energy_rates (par80 (1 / 2)) 2 (fun _ _ => False) ltac:(cbn; lia) 1 2 two s' P ltac:(lia) X) as (A & _). rewrite (A eq_refl 1%nat ltac:(lia)). unfold taken. cbn. lra.
Qed.

(** Two particles on two ranks, three steps of different length *)
Example C80_case : exists st st', ds_cur st = two /\
  dist_ops (par80 (1 / 2)) 2 2 (fun _ _ => False) (program (par80 (1 / 2)) false 0 1 1 [1; 1 / 2; 2]) st st' /\
  sumn 2 (fun i => p_m (d_p (ds_cur st' i)) * p_vel (d_p (ds_cur st' i)) 0%nat) = - 225 / 512.
Proof.
  destruct (run80 (1 / 2) 2 (fun i => i) [1; 0]%nat [1; 1 / 2; 2]) as (st & st' & A & B & _ & C); [lra|intros; lia|apply perm_swap|cbn; lia|].
  exists st, st'. split; [exact A|]. split; [exact B|]. rewrite C. cbn. lra.
Qed.

Print Assumptions C80_iteration.
Print Assumptions C80_energy_rates.
Print Assumptions C80_damped.
Print Assumptions C80_damped_ranks.
Print Assumptions C80_factor.
Print Assumptions C80_equal_steps.
Print Assumptions C80_slows_refuted.
