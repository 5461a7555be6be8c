(** What the operations of the driver keep and what they change. *)
From Verif Require Import Base Vec Geometry_model Geometry_props Kernel_model Sph_model Sph_props SphMore_props EForce_model Driver_model.
Local Open Scope R_scope.

(** Two states of a particle with the same id, mass, place and velocity. *)
Definition fixed (b b' : dbody) : Prop :=
  d_id b' = d_id b /\ p_m (d_p b') = p_m (d_p b) /\ p_pos (d_p b') = p_pos (d_p b) /\ p_vel (d_p b') = p_vel (d_p b).
(** ... the same smoothing length, density, total energy and accelerations *)
Definition same_h (b b' : dbody) : Prop := p_h (d_p b') = p_h (d_p b).
Definition same_rho (b b' : dbody) : Prop := p_rho (d_p b') = p_rho (d_p b).
Definition same_e (b b' : dbody) : Prop := d_e b' = d_e b.
Definition same_acc (b b' : dbody) : Prop := d_acc b' = d_acc b /\ p_gacc (d_p b') = p_gacc (d_p b).
Definition same_dedt (b b' : dbody) : Prop := d_dedt b' = d_dedt b.

Ltac keeps := unfold fixed, same_h, same_rho, same_e, same_acc, same_dedt; cbn; repeat split; auto.

Section Keeps.
Context (dp : dparams).
Notation n := (dp_dim dp).
Notation sp := (dp_sph dp).

Lemma recover_keeps b b' : recover_internal_energy dp b = Some b' ->
  fixed b b' /\ same_h b b' /\ same_rho b b' /\ same_e b b' /\ same_acc b b' /\ same_dedt b b' /\ 0 < d_u b'.
Proof.
  unfold recover_internal_energy. cbv zeta. destruct (Rltb 0 _) eqn:E; [|discriminate]. intros [= <-].
  apply Rltb_true in E. keeps.
Qed.

Lemma density_keeps dt b l b' : density_pass dp dt b l = Some b' ->
  fixed b b' /\ same_h b b' /\ same_e b b' /\ same_acc b b' /\ same_dedt b b' /\ 0 < p_rho (d_p b').
Proof.
  unfold density_pass. cbv zeta. destruct (Rltb 0 _) eqn:E; [|discriminate]. apply Rltb_true in E.
  set (b1 := set_rho _ b).
  assert (K : forall c, (if dp_evolve dp && dp_thermo dp then recover_internal_energy dp b1 else Some b1) = Some c ->
    fixed b c /\ same_h b c /\ same_rho b1 c /\ same_e b c /\ same_acc b c /\ same_dedt b c).
  { intros c. destruct (_ && _).
    - intro H. apply recover_keeps in H. destruct H as (H1 & H2 & H3 & H4 & H5 & H6 & _).
      repeat split; try apply H1; try apply H5; assumption.
    - intros [= <-]. unfold b1. keeps. }
  destruct (if dp_evolve dp && dp_thermo dp then _ else _) as [c|]; [|discriminate]. specialize (K c eq_refl).
  destruct K as (K1 & K2 & K3 & K4 & K5 & K6). intros [= <-]. unfold same_rho, b1 in K3. cbn in K3. rewrite <- K3 in E.
  destruct (cullen sp); cbn; (split; [exact K1|]); (split; [exact K2|]); (split; [exact K4|]); (split; [exact K5|]);
    (split; [exact K6|exact E]).
Qed.

Lemma alpha_keeps dt b l b' : alpha_pass dp dt b l = Some b' ->
  fixed b b' /\ same_h b b' /\ same_rho b b' /\ same_e b b' /\ same_acc b b' /\ same_dedt b b'.
Proof. unfold alpha_pass. destruct (new_alpha _ _ _ _ _); [|discriminate]. intros [= <-]. keeps. Qed.

Lemma recompute_thermo_keeps dt b b' : recompute_thermo dp dt b = Some b' ->
  fixed b b' /\ same_h b b' /\ same_rho b b' /\ same_e b b' /\ same_acc b b' /\ same_dedt b b'.
Proof.
  unfold recompute_thermo. destruct (recover_internal_energy dp b) as [c|] eqn:E; [|discriminate]. intros [= <-].
  apply recover_keeps in E. destruct E as (H1 & H2 & H3 & H4 & H5 & H6 & _).
  repeat split; try apply H1; try apply H5; assumption.
Qed.
End Keeps.

(** ** Sums over all particles *)
Section Sums.
Context (dp : dparams) (N : nat).
Notation n := (dp_dim dp).
Notation sp := (dp_sph dp).
Implicit Types s : nat -> dbody.

Definition momentum s k := sumn N (fun i => p_m (d_p (s i)) * p_vel (d_p (s i)) k).
Definition mass_centre s k := sumn N (fun i => p_m (d_p (s i)) * p_pos (d_p (s i)) k).
Definition angular s k l := sumn N (fun i => p_m (d_p (s i)) * (p_pos (d_p (s i)) k * p_vel (d_p (s i)) l - p_pos (d_p (s i)) l * p_vel (d_p (s i)) k)).
Definition energy s := sumn N (fun i => p_m (d_p (s i)) * d_e (s i)).
Definition total_acc (b : dbody) : point := vadd (d_acc b) (p_gacc (d_p b)).
Definition force s k := sumn N (fun i => p_m (d_p (s i)) * total_acc (s i) k).
Definition torque s k l := sumn N (fun i => p_m (d_p (s i)) * (p_pos (d_p (s i)) k * total_acc (s i) l - p_pos (d_p (s i)) l * total_acc (s i) k)).
Definition power s := sumn N (fun i => p_m (d_p (s i)) * d_dedt (s i)).

(** all particles *)
Definition each (r : dbody -> dbody -> Prop) s s' := forall i, (i < N)%nat -> r (s i) (s' i).

Lemma momentum_fixed s s' k : each fixed s s' -> momentum s' k = momentum s k.
Proof. intro H. apply sumn_ext. intros i Hi. destruct (H i Hi) as (_ & -> & _ & ->). reflexivity. Qed.
Lemma centre_fixed s s' k : each fixed s s' -> mass_centre s' k = mass_centre s k.
Proof. intro H. apply sumn_ext. intros i Hi. destruct (H i Hi) as (_ & -> & -> & _). reflexivity. Qed.
Lemma angular_fixed s s' k l : each fixed s s' -> angular s' k l = angular s k l.
Proof. intro H. apply sumn_ext. intros i Hi. destruct (H i Hi) as (_ & -> & -> & ->). reflexivity. Qed.
Lemma energy_fixed s s' : each fixed s s' -> each same_e s s' -> energy s' = energy s.
Proof. intros H E. apply sumn_ext. intros i Hi. destruct (H i Hi) as (_ & -> & _). rewrite (E i Hi). reflexivity. Qed.
Lemma force_fixed s s' k : each fixed s s' -> each same_acc s s' -> force s' k = force s k.
Proof. intros H E. apply sumn_ext. intros i Hi. destruct (H i Hi) as (_ & -> & _). unfold total_acc. destruct (E i Hi) as (-> & ->). reflexivity. Qed.
Lemma torque_fixed s s' k l : each fixed s s' -> each same_acc s s' -> torque s' k l = torque s k l.
Proof. intros H E. apply sumn_ext. intros i Hi. destruct (H i Hi) as (_ & -> & -> & _). unfold total_acc. destruct (E i Hi) as (-> & ->). reflexivity. Qed.
Lemma power_fixed s s' : each fixed s s' -> each same_dedt s s' -> power s' = power s.
Proof. intros H E. apply sumn_ext. intros i Hi. destruct (H i Hi) as (_ & -> & _). rewrite (E i Hi). reflexivity. Qed.

(** kicks and drift *)
Lemma kick_momentum dt s k : momentum (fun i => kick_v dt (s i)) k = momentum s k + 1 / 2 * dt * force s k.
Proof.
  unfold momentum, force. rewrite <- sumn_scal, <- sumn_plus. apply sumn_ext. intros i Hi.
  unfold kick_v, total_acc, vadd, vscale. cbn. ring.
Qed.
Lemma kick_angular dt s k l : angular (fun i => kick_v dt (s i)) k l = angular s k l + 1 / 2 * dt * torque s k l.
Proof.
  unfold angular, torque. rewrite <- sumn_scal, <- sumn_plus. apply sumn_ext. intros i Hi.
  unfold kick_v, total_acc, vadd, vscale. cbn. ring.
Qed.
Lemma drift_centre dt s k : mass_centre (fun i => drift dt (s i)) k = mass_centre s k + dt * momentum s k.
Proof.
  unfold mass_centre, momentum. rewrite <- sumn_scal, <- sumn_plus. apply sumn_ext. intros i Hi.
  unfold drift, vadd, vscale. cbn. ring.
Qed.
Lemma drift_angular dt s k l : angular (fun i => drift dt (s i)) k l = angular s k l.
Proof. apply sumn_ext. intros i Hi. unfold drift, vadd, vscale. cbn. ring. Qed.
Lemma kick_energy dt s : energy (fun i => kick_e dt (s i)) = energy s + 1 / 2 * dt * power s.
Proof. unfold energy, power. rewrite <- sumn_scal, <- sumn_plus. apply sumn_ext. intros i Hi. unfold kick_e. cbn. ring. Qed.

End Sums.

Lemma each_trans N (r : dbody -> dbody -> Prop) s m s' : (forall a b c, r a b -> r b c -> r a c) -> each N r s m -> each N r m s' -> each N r s s'.
Proof. intros T H1 H2 i Hi. eapply T; [apply H1, Hi|apply H2, Hi]. Qed.
Lemma fixed_trans a b c : fixed a b -> fixed b c -> fixed a c.
Proof. unfold fixed. intros (A1 & A2 & A3 & A4) (B1 & B2 & B3 & B4). repeat split; congruence. Qed.

(** ** Operations *)
Section Run.
Context (dp : dparams) (N : nat) (lists : (nat -> dbody) -> (nat -> list nat) -> Prop).
Context (grav : (nat -> dbody) -> (nat -> point * R) -> Prop).
Notation n := (dp_dim dp).
Notation sp := (dp_sph dp).
Notation do_op := (do_op dp N lists grav).
Notation do_ops := (do_ops dp N lists grav).
Implicit Types s : nat -> dbody.

Lemma do_ops_app l1 l2 s s' : do_ops (l1 ++ l2) s s' <-> exists m, do_ops l1 s m /\ do_ops l2 m s'.
Proof.
  revert s. induction l1 as [|o l1 IH]; intro s; cbn [app Driver_model.do_ops].
  - split; [intro H; exists s; auto|intros (m & -> & H); exact H].
  - split.
    + intros (m & Ho & H). apply IH in H. destruct H as (m' & H1 & H2). exists m'. split; [exists m; auto|exact H2].
    + intros (m' & (m & Ho & H1) & H2). exists m. split; [exact Ho|]. apply IH. exists m'. auto.
Qed.

Lemma do_all f s s' : do_op (all f) s s' -> forall i, (i < N)%nat -> s' i = f (s i).
Proof. intros H i Hi. specialize (H i Hi). cbn in H. congruence. Qed.

(** all values of the particles below N *)
Definition agree_upto s s' := forall i, (i < N)%nat -> s' i = s i.

(** The energy passes keep everything but the rates, pressure, sound speed
    and internal energy. *)
Definition quiet s s' := each N fixed s s' /\ each N same_h s s' /\ each N same_rho s s' /\ each N same_e s s' /\ each N same_acc s s'.
Lemma quiet_refl s : quiet s s.
Proof. repeat split. Qed.
Lemma quiet_trans s m s' : quiet s m -> quiet m s' -> quiet s s'.
Proof.
  intros (A1 & A2 & A3 & A4 & A5) (B1 & B2 & B3 & B4 & B5). split; [|split; [|split; [|split]]].
  - eapply each_trans; [exact fixed_trans|eassumption|eassumption].
  - eapply each_trans; [unfold same_h; congruence|eassumption|eassumption].
  - eapply each_trans; [unfold same_rho; congruence|eassumption|eassumption].
  - eapply each_trans; [unfold same_e; congruence|eassumption|eassumption].
  - eapply each_trans; [|eassumption|eassumption]. intros a b c (H1 & H2) (H3 & H4). split; congruence.
Qed.
Lemma quiet_each s s' : (forall i, (i < N)%nat -> fixed (s i) (s' i) /\ same_h (s i) (s' i) /\ same_rho (s i) (s' i) /\
  same_e (s i) (s' i) /\ same_acc (s i) (s' i)) -> quiet s s'.
Proof. intro H. split; [|split; [|split; [|split]]]; intros i Hi; apply (H i Hi). Qed.

(** The lists cover the pairs inside the kernel support. *)
Context (Hdim : (1 <= n <= 3)%nat).
Context (Hlists : forall s nb, lists s nb -> (forall i, (i < N)%nat -> 0 < p_h (d_p (s i))) -> lists_ok n N (fun i => d_p (s i)) nb).

Definition pos_h s := forall i, (i < N)%nat -> 0 < p_h (d_p (s i)).
Lemma pos_h_each s s' : pos_h s -> each N same_h s s' -> pos_h s'.
Proof. intros H E i Hi. rewrite (E i Hi). apply H, Hi. Qed.

Lemma map_parts s l : map d_p (map s l) = map (fun i => d_p (s i)) l.
Proof. apply map_map. Qed.

Lemma round_quiet relaxing dt s s' : pos_h s -> do_ops (energy_round dp relaxing dt) s s' -> quiet s s' /\
  (dp_thermo dp = true -> relaxing = false -> power N s' = sumn N (fun i => p_m (d_p (s i)) * dot n (p_gacc (d_p (s i))) (p_vel (d_p (s i))))).
Proof.
  intros Hh. unfold energy_round. destruct (dp_thermo dp).
  - intro H. apply do_ops_app in H. destruct H as (m & H1 & H). apply do_ops_app in H. destruct H as (m' & H2 & H3).
    cbn [Driver_model.do_ops Driver_model.do_op] in H1, H3. destruct H1 as (m0 & (nb & Hl & H1) & ->). destruct H3 as (m3 & H3 & ->).
    assert (Q1 : quiet s m0). { apply quiet_each. intros i Hi. specialize (H1 i Hi). unfold dedt_pass in H1. injection H1 as <-. keeps. }
    assert (Q2 : quiet m0 m' /\ (relaxing = false -> m' = m0)).
    { destruct relaxing; cbn [opt Driver_model.do_ops] in H2.
      - split; [|discriminate]. destruct H2 as (m2 & H2 & ->). apply quiet_each. intros i Hi.
        rewrite (do_all _ _ _ H2 i Hi). unfold add_drag_dedt. keeps.
      - subst m'. split; [apply quiet_refl|reflexivity]. }
    assert (Q3 : quiet m' m3 /\ each N same_dedt m' m3).
    { split; [apply quiet_each|]; intros i Hi; specialize (H3 i Hi); cbn in H3; apply recompute_thermo_keeps in H3; tauto. }
    destruct Q2 as (Q2 & Q2'). destruct Q3 as (Q3 & Q3'). split; [eapply quiet_trans; [exact Q1|eapply quiet_trans; eassumption]|].
    intros _ Hr. rewrite (power_fixed N m' m3 (proj1 Q3) Q3'). rewrite (Q2' Hr). unfold power.
    rewrite <- (proj2 (C36_energy_balance sp n N (fun i => d_p (s i)) nb Hdim Hh (Hlists s nb Hl Hh))).
    apply sumn_ext. intros i Hi. specialize (H1 i Hi). unfold dedt_pass in H1. injection H1 as <-. cbn.
    rewrite map_parts. reflexivity.
  - intro H. apply do_ops_app in H. destruct H as (m & H1 & H). apply do_ops_app in H. destruct H as (m' & H2 & H3).
    cbn [Driver_model.do_ops Driver_model.do_op] in H1, H3. destruct H1 as (m0 & (nb & Hl & H1) & ->). destruct H3 as (m3 & H3 & ->).
    split; [|discriminate].
    eapply quiet_trans; [|eapply quiet_trans].
    + apply quiet_each. intros i Hi. specialize (H1 i Hi). unfold dudt_pass in H1. injection H1 as <-. keeps.
    + instantiate (1 := m'). destruct relaxing; cbn [opt Driver_model.do_ops] in H2.
      * destruct H2 as (m2 & H2 & ->). apply quiet_each. intros i Hi. rewrite (do_all _ _ _ H2 i Hi). unfold add_drag_dudt. keeps.
      * subst m'. apply quiet_refl.
    + apply quiet_each. intros i Hi. rewrite (do_all _ _ _ H3 i Hi). unfold recompute. keeps.
Qed.

Lemma gwork_quiet s s' : quiet s s' ->
  sumn N (fun i => p_m (d_p (s' i)) * dot n (p_gacc (d_p (s' i))) (p_vel (d_p (s' i)))) =
  sumn N (fun i => p_m (d_p (s i)) * dot n (p_gacc (d_p (s i))) (p_vel (d_p (s i)))).
Proof.
  intros (Q1 & _ & _ & _ & Q5). apply sumn_ext. intros i Hi. destruct (Q1 i Hi) as (_ & -> & _ & ->).
  destruct (Q5 i Hi) as (_ & ->). reflexivity.
Qed.

Lemma rounds_quiet relaxing dt m s s' : pos_h s -> do_ops (energy_rounds dp relaxing dt m) s s' -> quiet s s' /\
  ((1 <= m)%nat -> dp_thermo dp = true -> relaxing = false ->
   power N s' = sumn N (fun i => p_m (d_p (s i)) * dot n (p_gacc (d_p (s i))) (p_vel (d_p (s i))))).
Proof.
  revert s. induction m as [|m IH]; intros s Hh H.
  - cbn in H. subst s'. split; [apply quiet_refl|lia].
  - destruct m as [|m].
    + apply round_quiet in H; [|exact Hh]. destruct H as (Q & P). split; [exact Q|auto].
    + change (energy_rounds dp relaxing dt (S (S m))) with
        (energy_round dp relaxing dt ++ [OReset] ++ energy_rounds dp relaxing dt (S m)) in H.
      apply do_ops_app in H. destruct H as (s1 & H1 & H2). cbn [app Driver_model.do_ops Driver_model.do_op] in H2. destruct H2 as (s2 & -> & H2).
      apply round_quiet in H1; [|exact Hh]. destruct H1 as (Q1 & _).
      apply IH in H2; [|eapply pos_h_each; [exact Hh|apply Q1]]. destruct H2 as (Q2 & P2).
      split; [eapply quiet_trans; eassumption|]. intros _ Ht Hr. rewrite (P2 ltac:(lia) Ht Hr). apply gwork_quiet, Q1.
Qed.

Definition kept s s' := each N fixed s s' /\ each N same_h s s' /\ each N same_rho s s' /\ each N same_e s s'.

Lemma kept_trans s m s' : kept s m -> kept m s' -> kept s s'.
Proof.
  intros (A1 & A2 & A3 & A4) (B1 & B2 & B3 & B4). split; [|split; [|split]].
  - eapply each_trans; [exact fixed_trans|eassumption|eassumption].
  - eapply each_trans; [unfold same_h; congruence|eassumption|eassumption].
  - eapply each_trans; [unfold same_rho; congruence|eassumption|eassumption].
  - eapply each_trans; [unfold same_e; congruence|eassumption|eassumption].
Qed.

(** The force phase outside relaxation. *)
Lemma forces_shape gravity s s' : do_ops (forces dp gravity false) s s' -> exists m nb, lists s nb /\
  (forall i, (i < N)%nat -> m i = set_gpot 0 (set_gacc vzero (set_acc (Sph_model.acceleration sp n (dp_ext dp (p_pos (d_p (s i)))) (d_p (s i)) (nbs (fun j => d_p (s j)) nb i)) (s i)))) /\
  kept s m /\ kept m s' /\
  if gravity then exists g, grav m g /\ forall i, (i < N)%nat ->
      s' i = set_gpot (d_gpot (m i) + snd (g i)) (set_gacc (vadd (p_gacc (d_p (m i))) (fst (g i))) (m i))
  else s' = m.
Proof.
  unfold forces. cbn [opt]. rewrite app_nil_r.
  rewrite do_ops_app. intros (m & H1 & H2). cbn [Driver_model.do_ops Driver_model.do_op] in H1.
  destruct H1 as (m0 & -> & m1 & (nb & Hl & H1) & ->).
  assert (A : forall i, (i < N)%nat -> m1 i = set_gpot 0 (set_gacc vzero (set_acc (Sph_model.acceleration sp n (dp_ext dp (p_pos (d_p (s i)))) (d_p (s i)) (nbs (fun j => d_p (s j)) nb i)) (s i)))).
  { intros i Hi. specialize (H1 i Hi). unfold acceleration_pass in H1. injection H1 as <-. rewrite map_parts. reflexivity. }
  assert (K1 : kept s m1). { repeat split; try (intros i Hi; rewrite (A i Hi)); keeps; rewrite (A i H); keeps. }
  exists m1, nb. split; [exact Hl|]. split; [exact A|]. split; [exact K1|].
  destruct gravity; cbn [opt Driver_model.do_ops Driver_model.do_op] in H2.
  - destruct H2 as (m2 & (g & Hg & H2) & ->). split; [|exists g; auto].
    repeat split; try (intros i Hi; rewrite (H2 i Hi)); keeps; rewrite (H2 i H); keeps.
  - subst s'. split; [repeat split|reflexivity].
Qed.

Context (Hext : forall x k, dp_ext dp x k = 0).
Context (Hgrav : forall s g, grav s g -> forall k, sumn N (fun i => p_m (d_p (s i)) * fst (g i) k) = 0).
Context (Htorq : forall s g, grav s g -> forall k l,
  sumn N (fun i => p_m (d_p (s i)) * (p_pos (d_p (s i)) k * fst (g i) l - p_pos (d_p (s i)) l * fst (g i) k)) = 0).

Lemma forces_zero gravity s s' : pos_h s -> do_ops (forces dp gravity false) s s' ->
  (forall k, force N s' k = 0) /\ (forall k l, torque N s' k l = 0).
Proof.
  intros Hh H. apply forces_shape in H. destruct H as (m1 & nb & Hl & A & _ & _ & H2).
  assert (F1 : forall k, force N m1 k = 0).
  { intro k. transitivity (sumn N (fun i => p_m (d_p (s i)) * dp_ext dp (p_pos (d_p (s i))) k)).
    - rewrite <- (C35_momentum sp n N (fun i => d_p (s i)) nb (fun i => dp_ext dp (p_pos (d_p (s i)))) k Hdim Hh (Hlists s nb Hl Hh)).
      apply sumn_ext. intros i Hi. rewrite (A i Hi). unfold total_acc, vadd, vzero. cbn. ring.
    - rewrite (sumn_ext N _ (fun _ => 0)); [apply sumn_zero|]. intros i Hi. rewrite Hext. ring. }
  assert (T1 : forall k l, torque N m1 k l = 0).
  { intros k l. pose proof (C65_angular_momentum sp n N (fun i => d_p (s i)) nb (fun i => dp_ext dp (p_pos (d_p (s i)))) k l Hdim Hh (Hlists s nb Hl Hh)) as T.
    cbv zeta in T. etransitivity; [|etransitivity; [exact T|]].
    - apply sumn_ext. intros i Hi. rewrite (A i Hi). unfold total_acc, vadd, vzero. cbn. ring.
    - rewrite (sumn_ext N _ (fun _ => 0)); [apply sumn_zero|]. intros i Hi. rewrite !Hext. ring. }
  destruct gravity.
  - destruct H2 as (g & Hg & H2). split.
    + intro k. transitivity (force N m1 k + sumn N (fun i => p_m (d_p (m1 i)) * fst (g i) k)).
      * unfold force. rewrite <- sumn_plus. apply sumn_ext. intros i Hi. rewrite (H2 i Hi). unfold total_acc, vadd. cbn. ring.
      * rewrite F1, (Hgrav _ _ Hg). ring.
    + intros k l. transitivity (torque N m1 k l + sumn N (fun i => p_m (d_p (m1 i)) * (p_pos (d_p (m1 i)) k * fst (g i) l - p_pos (d_p (m1 i)) l * fst (g i) k))).
      * unfold torque. rewrite <- sumn_plus. apply sumn_ext. intros i Hi. rewrite (H2 i Hi). unfold total_acc, vadd. cbn. ring.
      * rewrite T1, (Htorq _ _ Hg). ring.
  - subst s'. split; [exact F1|exact T1].
Qed.
End Run.
