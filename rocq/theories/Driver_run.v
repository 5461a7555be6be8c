(** Whole runs of the driver: C77. *)
From Verif Require Import Base Vec Geometry_model Geometry_props Kernel_model Sph_model Sph_props SphMore_props EForce_model
  Driver_model Driver_proofs.
Local Open Scope R_scope.

Lemma root_pos dp x : (1 <= dp_dim dp <= 3)%nat -> 0 < x -> 0 < root dp x.
Proof.
  intros Hd Hx. unfold root. destruct (dp_dim dp) as [|[|[|?]]]; [lia|exact Hx|apply sqrt_lt_R0, Hx|]. unfold Rpower. apply exp_pos.
Qed.

Lemma sumn_pos N f : (0 < N)%nat -> (forall i, (i < N)%nat -> 0 < f i) -> 0 < sumn N f.
Proof.
  induction N as [|N IH]; [lia|]. intros _ H. cbn [sumn]. destruct N as [|N].
  - cbn [sumn]. specialize (H 0%nat ltac:(lia)). lra.
  - specialize (IH ltac:(lia) ltac:(intros; apply H; lia)). specialize (H (S N) ltac:(lia)). lra.
Qed.

Section C77.
Context (dp : dparams) (N : nat) (lists : (nat -> dbody) -> (nat -> list nat) -> Prop).
Context (grav : (nat -> dbody) -> (nat -> point * R) -> Prop).
Notation n := (dp_dim dp).
Notation sp := (dp_sph dp).
Notation do_ops := (do_ops dp N lists grav).
Context (Hdim : (1 <= n <= 3)%nat) (HN : (0 < N)%nat) (Hw : 0 < dp_etaw dp).
Context (Hlists : forall s nb, lists s nb -> (forall i, (i < N)%nat -> 0 < p_h (d_p (s i))) -> lists_ok n N (fun i => d_p (s i)) nb).
Implicit Types s : nat -> dbody.

Definition pos_m s := forall i, (i < N)%nat -> 0 < p_m (d_p (s i)).
Definition pos_rho s := forall i, (i < N)%nat -> 0 < p_rho (d_p (s i)).

Lemma new_h_keeps s : each N fixed s (new_h dp N s) /\ each N same_rho s (new_h dp N s) /\ each N same_e s (new_h dp N s) /\
  each N same_acc s (new_h dp N s) /\ each N same_dedt s (new_h dp N s).
Proof. unfold new_h. destruct (dp_hmode dp); repeat split; intros i Hi; keeps. Qed.

Lemma new_h_pos s : pos_m s -> pos_rho s -> pos_h N s -> pos_h N (new_h dp N s).
Proof.
  intros Hm Hr Hh. assert (P : forall i, (i < N)%nat -> 0 < smoothing_length dp (s i)).
  { intros i Hi. unfold smoothing_length. apply Rmult_lt_0_compat; [|exact Hw]. apply root_pos; [exact Hdim|].
    apply Rdiv_lt_0_compat; [apply Hm, Hi|apply Hr, Hi]. }
  unfold new_h. destruct (dp_hmode dp); intros i Hi; cbn.
  - apply P, Hi.
  - apply Rmult_lt_0_compat; [|apply sumn_pos; assumption]. apply Rdiv_lt_0_compat; [lra|]. apply lt_0_INR, HN.
  - apply Hh, Hi.
Qed.

(** density and viscosity passes of the start of an iteration *)
Lemma density_phase dt s s' :
  do_ops ([OPass (density_pass dp dt)] ++ opt (cullen sp) [OPass (alpha_pass dp dt)]) s s' ->
  each N fixed s s' /\ each N same_h s s' /\ each N same_e s s' /\ each N same_acc s s' /\ each N same_dedt s s' /\ pos_rho s'.
Proof.
  intro H. apply do_ops_app in H. destruct H as (m & H1 & H2).
  cbn [Driver_model.do_ops Driver_model.do_op] in H1. destruct H1 as (m0 & (nb & _ & H1) & ->).
  assert (D : forall i, (i < N)%nat -> fixed (s i) (m0 i) /\ same_h (s i) (m0 i) /\ same_e (s i) (m0 i) /\ same_acc (s i) (m0 i) /\ same_dedt (s i) (m0 i) /\ 0 < p_rho (d_p (m0 i))).
  { intros i Hi. eapply density_keeps, H1, Hi. }
  destruct (cullen sp); cbn [opt Driver_model.do_ops Driver_model.do_op] in H2.
  - destruct H2 as (m1 & (nb' & _ & H2) & ->).
    assert (A : forall i, (i < N)%nat -> fixed (m0 i) (m1 i) /\ same_h (m0 i) (m1 i) /\ same_rho (m0 i) (m1 i) /\ same_e (m0 i) (m1 i) /\ same_acc (m0 i) (m1 i) /\ same_dedt (m0 i) (m1 i)).
    { intros i Hi. eapply alpha_keeps, H2, Hi. }
    split; [|split; [|split; [|split; [|split]]]]; intros i Hi; destruct (D i Hi) as (D1 & D2 & D3 & D4 & D5 & D6);
      destruct (A i Hi) as (A1 & A2 & A3 & A4 & A5 & A6).
    + eapply fixed_trans; eassumption.
    + unfold same_h in *. congruence.
    + unfold same_e in *. congruence.
    + destruct D4, A5. split; congruence.
    + unfold same_dedt in *. congruence.
    + unfold same_rho in A3. rewrite A3. exact D6.
  - subst m0. split; [|split; [|split; [|split; [|split]]]]; intros i Hi; destruct (D i Hi) as (D1 & D2 & D3 & D4 & D5 & D6); assumption.
Qed.


Definition kick_eu (dt : R) (b : dbody) : dbody :=
  if dp_evolve dp then (if dp_thermo dp then kick_e dt b else kick_u dt b) else b.

(** An iteration, in phases. *)
Lemma step_shape_any gravity k dt s s' :
  do_ops (step_ops dp gravity k dt) s s' -> exists m1 m2 m3 m4 m5 m6,
  (forall i, (i < N)%nat -> m1 i = drift dt (save_velocityhalf (kick_v dt (kick_eu dt (s i))))) /\
  (each N fixed m1 m2 /\ each N same_h m1 m2 /\ each N same_e m1 m2 /\ each N same_acc m1 m2 /\ each N same_dedt m1 m2 /\ pos_rho m2) /\
  do_ops (forces dp gravity (Nat.ltb k (dp_relax dp))) m2 m3 /\
  (forall i, (i < N)%nat -> m4 i = kick_v dt (m3 i)) /\
  (if dp_evolve dp then do_ops (energy_rounds dp (Nat.ltb k (dp_relax dp)) dt (dp_updates dp)) m4 m5 else m5 = m4) /\
  (forall i, (i < N)%nat -> m6 i = kick_eu dt (m5 i)) /\ s' = new_h dp N m6.
Proof.
  intro H. unfold step_ops in H. cbv zeta in H.
  apply do_ops_app in H. destruct H as (a1 & H1 & H).
  apply (do_ops_app _ _ _ _ [all (kick_v dt); all save_velocityhalf; all (drift dt); OUpdate] ([OPass (density_pass dp dt)] ++ _)) in H.
  destruct H as (a2 & H2 & H). rewrite app_assoc in H. apply do_ops_app in H. destruct H as (a3 & H3 & H).
  apply density_phase in H3. apply do_ops_app in H. destruct H as (a4 & H4 & H).
  apply (do_ops_app _ _ _ _ [all (kick_v dt); OReset]) in H. destruct H as (a5 & H5 & H).
  apply do_ops_app in H. destruct H as (a6 & H6 & H).
  cbn [Driver_model.do_ops Driver_model.do_op] in H. destruct H as (a7 & -> & ->).
  cbn [Driver_model.do_ops] in H2. destruct H2 as (b1 & B1 & b2 & B2 & b3 & B3 & b4 & -> & ->).
  cbn [Driver_model.do_ops] in H5. destruct H5 as (c1 & C1 & c2 & -> & ->).
  assert (K1 : forall i, (i < N)%nat -> a1 i = kick_eu dt (s i)).
  { intros i Hi. unfold kick_eu. destruct (dp_evolve dp); cbn [opt Driver_model.do_ops] in H1.
    - destruct H1 as (a & H1 & ->). rewrite (do_all _ _ _ _ _ _ _ H1 i Hi). destruct (dp_thermo dp); reflexivity.
    - subst a1. reflexivity. }
  assert (K2 : exists m5, (if dp_evolve dp then do_ops (energy_rounds dp (Nat.ltb k (dp_relax dp)) dt (dp_updates dp)) c1 m5 else m5 = c1) /\
    forall i, (i < N)%nat -> a6 i = kick_eu dt (m5 i)).
  { unfold kick_eu. destruct (dp_evolve dp); cbn [opt] in H6.
    - apply do_ops_app in H6. destruct H6 as (m5 & H6 & H7). exists m5. split; [exact H6|].
      cbn [Driver_model.do_ops] in H7. destruct H7 as (a & H7 & ->). intros i Hi. rewrite (do_all _ _ _ _ _ _ _ H7 i Hi).
      destruct (dp_thermo dp); reflexivity.
    - cbn [Driver_model.do_ops] in H6. subst a6. exists c1. split; reflexivity. }
  destruct K2 as (m5 & K2 & K3).
  exists b3, a3, a4, c1, m5, a6. split.
  { intros i Hi. rewrite (do_all _ _ _ _ _ _ _ B3 i Hi), (do_all _ _ _ _ _ _ _ B2 i Hi), (do_all _ _ _ _ _ _ _ B1 i Hi), (K1 i Hi). reflexivity. }
  split; [exact H3|]. split; [exact H4|]. split; [exact (do_all _ _ _ _ _ _ _ C1)|]. split; [exact K2|]. split; [exact K3|reflexivity].
Qed.

(** ... outside relaxation *)
Lemma step_shape gravity k dt s s' : (dp_relax dp <= k)%nat ->
  do_ops (step_ops dp gravity k dt) s s' -> exists m1 m2 m3 m4 m5 m6,
  (forall i, (i < N)%nat -> m1 i = drift dt (save_velocityhalf (kick_v dt (kick_eu dt (s i))))) /\
  (each N fixed m1 m2 /\ each N same_h m1 m2 /\ each N same_e m1 m2 /\ each N same_acc m1 m2 /\ each N same_dedt m1 m2 /\ pos_rho m2) /\
  do_ops (forces dp gravity false) m2 m3 /\
  (forall i, (i < N)%nat -> m4 i = kick_v dt (m3 i)) /\
  (if dp_evolve dp then do_ops (energy_rounds dp false dt (dp_updates dp)) m4 m5 else m5 = m4) /\
  (forall i, (i < N)%nat -> m6 i = kick_eu dt (m5 i)) /\ s' = new_h dp N m6.
Proof. intros Hk H. apply step_shape_any in H. rewrite (proj2 (Nat.ltb_ge k (dp_relax dp)) Hk) in H. exact H. Qed.

Lemma initial_shape_any gravity k dt dt' s s' :
  do_ops (initial_ops dp gravity k dt dt') s s' -> exists m1 m2 m3 m4 m5,
  (forall i, (i < N)%nat -> fixed (s i) (m1 i) /\ same_h (s i) (m1 i) /\
     (dp_thermo dp = true -> d_e (m1 i) = ekin dp (s i) + d_u (eos_init dp (s i)) + dp_pot dp (p_pos (d_p (s i))))) /\
  (each N fixed m1 m2 /\ each N same_h m1 m2 /\ each N same_e m1 m2 /\ pos_rho m2) /\
  do_ops (forces dp gravity (Nat.ltb k (dp_relax dp))) m2 m3 /\
  (each N fixed m3 m4 /\ each N same_h m3 m4 /\ each N same_rho m3 m4 /\ each N same_acc m3 m4 /\ (gravity = false -> m4 = m3)) /\
  (if dp_evolve dp then do_ops (energy_rounds dp (Nat.ltb k (dp_relax dp)) dt' (dp_updates dp)) m4 m5 else m5 = m4) /\
  s' = new_h dp N m5.
Proof.
  intro H. unfold initial_ops in H. cbv zeta in H.
  apply do_ops_app in H. destruct H as (a1 & H1 & H). apply do_ops_app in H. destruct H as (a2 & H2 & H).
  apply do_ops_app in H. destruct H as (a3 & H3 & H). apply do_ops_app in H. destruct H as (a4 & H4 & H).
  apply do_ops_app in H. destruct H as (a5 & H5 & H). apply do_ops_app in H. destruct H as (a6 & H6 & H).
  apply do_ops_app in H. destruct H as (a7 & H7 & H). apply do_ops_app in H. destruct H as (a8 & H8 & H).
  cbn [Driver_model.do_ops Driver_model.do_op] in H. destruct H as (a9 & -> & ->).
  cbn [Driver_model.do_ops] in H1. destruct H1 as (b0 & -> & b1 & B1 & ->).
  pose proof (do_all _ _ _ _ _ _ _ B1) as B1'. clear B1.
  cbn [Driver_model.do_ops] in H4. destruct H4 as (c1 & C1 & c2 & C2 & ->).
  pose proof (do_all _ _ _ _ _ _ _ C2) as C2'. clear C2.
  exists a3, a5, a6, a7, a8. split.
  { assert (K2 : forall i, (i < N)%nat -> fixed (s i) (a2 i) /\ same_h (s i) (a2 i) /\
      (dp_thermo dp = true -> d_e (a2 i) = ekin dp (s i) + d_u (eos_init dp (s i)) + dp_pot dp (p_pos (d_p (s i))))).
    { destruct (dp_thermo dp); cbn [opt Driver_model.do_ops] in H2.
      - destruct H2 as (a & H2 & ->). intros i Hi. rewrite (do_all _ _ _ _ _ _ _ H2 i Hi), (B1' i Hi). split; [keeps|]. split; [keeps|].
        intros _. reflexivity.
      - subst a2. intros i Hi. rewrite (B1' i Hi). split; [keeps|]. split; [keeps|discriminate]. }
    destruct (cullen sp); cbn [opt Driver_model.do_ops] in H3.
    - destruct H3 as (a & H3 & ->). intros i Hi. rewrite (do_all _ _ _ _ _ _ _ H3 i Hi). apply K2, Hi.
    - subst a3. exact K2. }
  split.
  { cbn [Driver_model.do_op] in C1. destruct C1 as (nb & _ & C1).
    assert (D : forall i, (i < N)%nat -> fixed (a3 i) (c2 i) /\ same_h (a3 i) (c2 i) /\ same_e (a3 i) (c2 i) /\ 0 < p_rho (d_p (c2 i))).
    { intros i Hi. rewrite (C2' i Hi). specialize (C1 i Hi). apply density_keeps in C1. destruct C1 as (D1 & D2 & D3 & _ & _ & D6).
      split; [exact D1|]. split; [exact D2|]. split; [exact D3|exact D6]. }
    destruct (cullen sp); cbn [opt Driver_model.do_ops Driver_model.do_op] in H5.
    - destruct H5 as (a & (nb' & _ & H5) & ->).
      assert (A : forall i, (i < N)%nat -> fixed (c2 i) (a i) /\ same_h (c2 i) (a i) /\ same_rho (c2 i) (a i) /\ same_e (c2 i) (a i)).
      { intros i Hi. specialize (H5 i Hi). apply alpha_keeps in H5. tauto. }
      split; [|split; [|split]]; intros i Hi; destruct (D i Hi) as (D1 & D2 & D3 & D4); destruct (A i Hi) as (A1 & A2 & A3 & A4).
      + eapply fixed_trans; eassumption.
      + unfold same_h in *. congruence.
      + unfold same_e in *. congruence.
      + unfold same_rho in A3. rewrite A3. exact D4.
    - subst a5. split; [|split; [|split]]; intros i Hi; destruct (D i Hi) as (D1 & D2 & D3 & D4); assumption. }
  split; [exact H6|]. split.
  { destruct gravity; cbn [andb] in H7.
    - destruct (dp_thermo dp); cbn [opt Driver_model.do_ops] in H7.
      + destruct H7 as (a & H7 & ->). pose proof (do_all _ _ _ _ _ _ _ H7) as H7'.
        split; [|split; [|split; [|split]]]; try discriminate; intros i Hi; rewrite (H7' i Hi); keeps.
      + subst a7. repeat split.
    - cbn in H7. subst a7. repeat split. }
  split; [|reflexivity].
  destruct (dp_evolve dp); cbn [opt Driver_model.do_ops] in H8; exact H8.
Qed.

Lemma initial_shape gravity k dt dt' s s' : (dp_relax dp <= k)%nat ->
  do_ops (initial_ops dp gravity k dt dt') s s' -> exists m1 m2 m3 m4 m5,
  (forall i, (i < N)%nat -> fixed (s i) (m1 i) /\ same_h (s i) (m1 i) /\
     (dp_thermo dp = true -> d_e (m1 i) = ekin dp (s i) + d_u (eos_init dp (s i)) + dp_pot dp (p_pos (d_p (s i))))) /\
  (each N fixed m1 m2 /\ each N same_h m1 m2 /\ each N same_e m1 m2 /\ pos_rho m2) /\
  do_ops (forces dp gravity false) m2 m3 /\
  (each N fixed m3 m4 /\ each N same_h m3 m4 /\ each N same_rho m3 m4 /\ each N same_acc m3 m4 /\ (gravity = false -> m4 = m3)) /\
  (if dp_evolve dp then do_ops (energy_rounds dp false dt' (dp_updates dp)) m4 m5 else m5 = m4) /\
  s' = new_h dp N m5.
Proof. intros Hk H. apply initial_shape_any in H. rewrite (proj2 (Nat.ltb_ge k (dp_relax dp)) Hk) in H. exact H. Qed.

(** Masses and ids never change; smoothing lengths and densities stay
    positive. *)
Definition sound s0 s := (forall i, (i < N)%nat -> d_id (s i) = d_id (s0 i) /\ p_m (d_p (s i)) = p_m (d_p (s0 i))) /\ pos_m s /\ pos_h N s /\ pos_rho s.

Lemma quiet_h relaxing dt m s s' : pos_h N s ->
  (if dp_evolve dp then do_ops (energy_rounds dp relaxing dt m) s s' else s' = s) -> quiet N s s'.
Proof.
  intros Hh H. destruct (dp_evolve dp); [|subst; apply quiet_refl].
  eapply rounds_quiet; eassumption.
Qed.

Lemma sound_step s0 gravity k dt s s' : (dp_relax dp <= k)%nat -> sound s0 s ->
  do_ops (step_ops dp gravity k dt) s s' -> sound s0 s'.
Proof.
  intros Hk (I1 & I2 & I3 & I4) H. apply step_shape in H; [|exact Hk].
  destruct H as (m1 & m2 & m3 & m4 & m5 & m6 & H1 & (D1 & D2 & _ & _ & _ & D6) & H3 & H4 & H5 & H6 & ->).
  assert (A1 : forall i, (i < N)%nat -> d_id (m1 i) = d_id (s i) /\ p_m (d_p (m1 i)) = p_m (d_p (s i)) /\ p_h (d_p (m1 i)) = p_h (d_p (s i))).
  { intros i Hi. rewrite (H1 i Hi). unfold kick_eu. destruct (dp_evolve dp), (dp_thermo dp); repeat split. }
  apply forces_shape in H3. destruct H3 as (a & nb & _ & _ & K1 & K2 & _).
  pose proof (kept_trans _ _ _ _ K1 K2) as (F1 & F2 & F3 & _).
  assert (A4 : forall i, (i < N)%nat -> d_id (m4 i) = d_id (s i) /\ p_m (d_p (m4 i)) = p_m (d_p (s i)) /\ p_h (d_p (m4 i)) = p_h (d_p (s i)) /\ p_rho (d_p (m4 i)) = p_rho (d_p (m2 i))).
  { intros i Hi. rewrite (H4 i Hi). cbn. destruct (F1 i Hi) as (-> & -> & _). rewrite (F2 i Hi), (F3 i Hi).
    destruct (D1 i Hi) as (-> & -> & _). rewrite (D2 i Hi). destruct (A1 i Hi) as (-> & -> & ->). auto. }
  assert (Hh4 : pos_h N m4). { intros i Hi. destruct (A4 i Hi) as (_ & _ & -> & _). apply I3, Hi. }
  pose proof (quiet_h _ _ _ _ _ Hh4 H5) as (Q1 & Q2 & Q3 & _).
  assert (A6 : forall i, (i < N)%nat -> d_id (m6 i) = d_id (s i) /\ p_m (d_p (m6 i)) = p_m (d_p (s i)) /\ p_h (d_p (m6 i)) = p_h (d_p (s i)) /\ p_rho (d_p (m6 i)) = p_rho (d_p (m2 i))).
  { intros i Hi. rewrite (H6 i Hi).
    assert (E : forall b, d_id (kick_eu dt b) = d_id b /\ d_p (kick_eu dt b) = d_p b).
    { intro b. unfold kick_eu. destruct (dp_evolve dp), (dp_thermo dp); split; reflexivity. }
    destruct (E (m5 i)) as (-> & ->). destruct (Q1 i Hi) as (-> & -> & _). rewrite (Q2 i Hi), (Q3 i Hi). apply A4, Hi. }
  assert (M6 : pos_m m6). { intros i Hi. destruct (A6 i Hi) as (_ & -> & _). apply I2, Hi. }
  assert (R6 : pos_rho m6). { intros i Hi. destruct (A6 i Hi) as (_ & _ & _ & ->). apply D6, Hi. }
  assert (Hh6 : pos_h N m6). { intros i Hi. destruct (A6 i Hi) as (_ & _ & -> & _). apply I3, Hi. }
  destruct (new_h_keeps m6) as (N1 & N2 & _). repeat split.
  - destruct (N1 i H) as (-> & _). destruct (A6 i H) as (-> & _). apply I1, H.
  - destruct (N1 i H) as (_ & -> & _). destruct (A6 i H) as (_ & -> & _). apply I1, H.
  - intros i Hi. destruct (N1 i Hi) as (_ & -> & _). apply M6, Hi.
  - apply new_h_pos; assumption.
  - intros i Hi. rewrite (N2 i Hi). apply R6, Hi.
Qed.

Lemma sound_initial gravity k dt dt' s s' : (dp_relax dp <= k)%nat -> pos_m s -> pos_h N s ->
  do_ops (initial_ops dp gravity k dt dt') s s' -> sound s s'.
Proof.
  intros Hk I2 I3 H. apply initial_shape in H; [|exact Hk].
  destruct H as (m1 & m2 & m3 & m4 & m5 & H1 & (D1 & D2 & _ & D6) & H3 & (G1 & G2 & G3 & _) & H5 & ->).
  apply forces_shape in H3. destruct H3 as (a & nb & _ & _ & K1 & K2 & _).
  pose proof (kept_trans _ _ _ _ K1 K2) as (F1 & F2 & F3 & _).
  assert (A4 : forall i, (i < N)%nat -> d_id (m4 i) = d_id (s i) /\ p_m (d_p (m4 i)) = p_m (d_p (s i)) /\ p_h (d_p (m4 i)) = p_h (d_p (s i)) /\ p_rho (d_p (m4 i)) = p_rho (d_p (m2 i))).
  { intros i Hi. destruct (G1 i Hi) as (-> & -> & _). rewrite (G2 i Hi), (G3 i Hi). destruct (F1 i Hi) as (-> & -> & _). rewrite (F2 i Hi), (F3 i Hi).
    destruct (D1 i Hi) as (-> & -> & _). rewrite (D2 i Hi). destruct (H1 i Hi) as ((-> & -> & _) & -> & _). auto. }
  assert (Hh4 : pos_h N m4). { intros i Hi. destruct (A4 i Hi) as (_ & _ & -> & _). apply I3, Hi. }
  pose proof (quiet_h _ _ _ _ _ Hh4 H5) as (Q1 & Q2 & Q3 & _).
  assert (A6 : forall i, (i < N)%nat -> d_id (m5 i) = d_id (s i) /\ p_m (d_p (m5 i)) = p_m (d_p (s i)) /\ p_h (d_p (m5 i)) = p_h (d_p (s i)) /\ p_rho (d_p (m5 i)) = p_rho (d_p (m2 i))).
  { intros i Hi. destruct (Q1 i Hi) as (-> & -> & _). rewrite (Q2 i Hi), (Q3 i Hi). apply A4, Hi. }
  assert (M6 : pos_m m5). { intros i Hi. destruct (A6 i Hi) as (_ & -> & _). apply I2, Hi. }
  assert (R6 : pos_rho m5). { intros i Hi. destruct (A6 i Hi) as (_ & _ & _ & ->). apply D6, Hi. }
  assert (Hh6 : pos_h N m5). { intros i Hi. destruct (A6 i Hi) as (_ & _ & -> & _). apply I3, Hi. }
  destruct (new_h_keeps m5) as (N1 & N2 & _). repeat split.
  - destruct (N1 i H) as (-> & _). destruct (A6 i H) as (-> & _). reflexivity.
  - destruct (N1 i H) as (_ & -> & _). destruct (A6 i H) as (_ & -> & _). reflexivity.
  - intros i Hi. destruct (N1 i Hi) as (_ & -> & _). apply M6, Hi.
  - apply new_h_pos; assumption.
  - intros i Hi. rewrite (N2 i Hi). apply R6, Hi.
Qed.

Lemma sim_sound gravity k0 s0 t0 k s t dt : (dp_relax dp <= k0)%nat -> pos_m s0 -> pos_h N s0 ->
  sim dp N lists grav gravity k0 s0 t0 k s t dt -> (k0 <= k)%nat /\ sound s0 s.
Proof.
  intros Hk Hm Hh H. induction H as [dt dt' dt'' s H|k s t dt dt' s' H IH Hs].
  - split; [lia|]. eapply sound_initial; eassumption.
  - destruct IH as (L & I). split; [lia|]. eapply sound_step; [|exact I|exact Hs]. lia.
Qed.

Lemma dot_vzero m v : dot m vzero v = 0.
Proof. unfold dot. rewrite (sumn_ext m _ (fun _ => 0)); [apply sumn_zero|]. intros i Hi. unfold vzero. ring. Qed.

(** Total energy: the rate of the last round is the work of gravity alone. *)
Lemma power_zero dt s s' : pos_h N s -> (forall i, (i < N)%nat -> p_gacc (d_p (s i)) = vzero) -> (1 <= dp_updates dp)%nat ->
  dp_thermo dp = true -> do_ops (energy_rounds dp false dt (dp_updates dp)) s s' -> power N s' = 0.
Proof.
  intros Hh G U T H. apply rounds_quiet in H; [|assumption..]. destruct H as (_ & H). rewrite (H U T eq_refl).
  rewrite (sumn_ext N _ (fun _ => 0)); [apply sumn_zero|]. intros i Hi. rewrite (G i Hi). rewrite dot_vzero. ring.
Qed.

Lemma forces_gacc s s' : do_ops (forces dp false false) s s' -> forall i, (i < N)%nat -> p_gacc (d_p (s' i)) = vzero.
Proof. intros H i Hi. apply forces_shape in H. destruct H as (m & nb & _ & A & _ & _ & ->). rewrite (A i Hi). reflexivity. Qed.

Lemma energy_kick dt s s' : (forall i, (i < N)%nat -> s' i = kick_eu dt (s i)) -> dp_thermo dp = true -> (dp_evolve dp = true -> power N s = 0) ->
  energy N s' = energy N s /\ each N fixed s s' /\ each N same_dedt s s' /\ each N same_acc s s'.
Proof.
  intros H T P. unfold kick_eu in H. rewrite T in H. destruct (dp_evolve dp).
  - split.
    + transitivity (energy N (fun i => kick_e dt (s i))).
      * apply sumn_ext. intros i Hi. rewrite (H i Hi). reflexivity.
      * rewrite kick_energy, (P eq_refl). ring.
    + split; [|split]; intros i Hi; rewrite (H i Hi); keeps.
  - split; [apply sumn_ext; intros i Hi; rewrite (H i Hi); reflexivity|].
    split; [|split]; intros i Hi; rewrite (H i Hi); keeps.
Qed.

Definition start_energy s := sumn N (fun i => p_m (d_p (s i)) * (ekin dp (s i) + d_u (eos_init dp (s i)) + dp_pot dp (p_pos (d_p (s i))))).

Lemma energy_initial k dt dt' s s' : (dp_relax dp <= k)%nat -> pos_h N s -> dp_thermo dp = true -> (1 <= dp_updates dp)%nat ->
  do_ops (initial_ops dp false k dt dt') s s' ->
  energy N s' = start_energy s /\ (dp_evolve dp = true -> power N s' = 0).
Proof.
  intros Hk I3 T U H. apply initial_shape in H; [|exact Hk].
  destruct H as (m1 & m2 & m3 & m4 & m5 & H1 & (D1 & D2 & D3 & _) & H3 & (_ & _ & _ & _ & G5) & H5 & ->).
  specialize (G5 eq_refl). subst m4. pose proof (forces_gacc _ _ H3) as GA.
  apply forces_shape in H3. destruct H3 as (a & nb & _ & _ & K1 & K2 & _).
  pose proof (kept_trans _ _ _ _ K1 K2) as (F1 & F2 & _ & F4).
  assert (Hh3 : pos_h N m3).
  { intros i Hi. rewrite (F2 i Hi), (D2 i Hi). destruct (H1 i Hi) as (_ & -> & _). apply I3, Hi. }
  pose proof (quiet_h _ _ _ _ _ Hh3 H5) as (Q1 & _ & _ & Q4 & _).
  destruct (new_h_keeps m5) as (N1 & _ & N3 & _ & N5). split.
  - rewrite (energy_fixed _ _ _ N1 N3), (energy_fixed _ _ _ Q1 Q4), (energy_fixed _ _ _ F1 F4), (energy_fixed _ _ _ D1 D3).
    apply sumn_ext. intros i Hi. destruct (H1 i Hi) as ((_ & -> & _) & _ & E). rewrite (E T). reflexivity.
  - intro EV. rewrite (power_fixed _ _ _ N1 N5). rewrite EV in H5. eapply power_zero; eassumption.
Qed.

Lemma energy_step k dt s s' : (dp_relax dp <= k)%nat -> pos_h N s -> dp_thermo dp = true -> (1 <= dp_updates dp)%nat ->
  (dp_evolve dp = true -> power N s = 0) ->
  do_ops (step_ops dp false k dt) s s' ->
  energy N s' = energy N s /\ (dp_evolve dp = true -> power N s' = 0).
Proof.
  intros Hk I3 T U P H. apply step_shape in H; [|exact Hk].
  destruct H as (m1 & m2 & m3 & m4 & m5 & m6 & H1 & (D1 & D2 & D3 & _ & _ & _) & H3 & H4 & H5 & H6 & ->).
  pose proof (forces_gacc _ _ H3) as GA.
  apply forces_shape in H3. destruct H3 as (a & nb & _ & _ & K1 & K2 & _).
  pose proof (kept_trans _ _ _ _ K1 K2) as (F1 & F2 & _ & F4).
  assert (E1 : energy N m1 = energy N s).
  { transitivity (energy N (fun i => kick_eu dt (s i))).
    - apply sumn_ext. intros i Hi. rewrite (H1 i Hi). reflexivity.
    - destruct (energy_kick dt s (fun i => kick_eu dt (s i))) as (-> & _); auto. }
  assert (E4 : energy N m4 = energy N s).
  { rewrite <- E1, <- (energy_fixed _ _ _ D1 D3), <- (energy_fixed _ _ _ F1 F4). apply sumn_ext. intros i Hi. rewrite (H4 i Hi). reflexivity. }
  assert (Hh4 : pos_h N m4).
  { intros i Hi. rewrite (H4 i Hi). cbn. rewrite (F2 i Hi), (D2 i Hi), (H1 i Hi).
    replace (p_h (d_p (drift dt (save_velocityhalf (kick_v dt (kick_eu dt (s i))))))) with (p_h (d_p (s i))); [apply I3, Hi|].
    unfold kick_eu. destruct (dp_evolve dp), (dp_thermo dp); reflexivity. }
  pose proof (quiet_h _ _ _ _ _ Hh4 H5) as (Q1 & _ & _ & Q4 & _).
  assert (P5 : dp_evolve dp = true -> power N m5 = 0).
  { intro EV. rewrite EV in H5. eapply power_zero; try eassumption. intros i Hi. rewrite (H4 i Hi). cbn. apply GA, Hi. }
  destruct (energy_kick dt m5 m6 H6 T P5) as (E6 & X1 & X2 & _).
  destruct (new_h_keeps m6) as (N1 & _ & N3 & _ & N5). split.
  - rewrite (energy_fixed _ _ _ N1 N3), E6, (energy_fixed _ _ _ Q1 Q4). exact E4.
  - intro EV. rewrite (power_fixed _ _ _ N1 N5), (power_fixed _ _ _ X1 X2). apply P5, EV.
Qed.

Lemma sim_energy k0 s0 t0 k s t dt : (dp_relax dp <= k0)%nat -> pos_m s0 -> pos_h N s0 -> dp_thermo dp = true -> (1 <= dp_updates dp)%nat ->
  sim dp N lists grav false k0 s0 t0 k s t dt -> energy N s = start_energy s0 /\ (dp_evolve dp = true -> power N s = 0).
Proof.
  intros Hk Hm Hh T U H. induction H as [dt dt' dt'' s H|k s t dt dt' s' H IH Hs].
  - eapply energy_initial; eassumption.
  - destruct (sim_sound _ _ _ _ _ _ _ _ Hk Hm Hh H) as (L & _ & _ & P & _). destruct IH as (I1 & I2).
    apply energy_step in Hs; try assumption; [|lia]. destruct Hs as (-> & J). split; assumption.
Qed.

(** Momentum, centre of mass and angular momentum. *)
Context (Hext : forall x k, dp_ext dp x k = 0).
Context (Hgrav : forall s g, grav s g -> forall k, sumn N (fun i => p_m (d_p (s i)) * fst (g i) k) = 0).
Context (Htorq : forall s g, grav s g -> forall k l,
  sumn N (fun i => p_m (d_p (s i)) * (p_pos (d_p (s i)) k * fst (g i) l - p_pos (d_p (s i)) l * fst (g i) k)) = 0).

Definition still s := (forall k, force N s k = 0) /\ (forall k l, torque N s k l = 0).
Lemma still_fixed s s' : each N fixed s s' -> each N same_acc s s' -> still s -> still s'.
Proof.
  intros A B (F & T). split; intros.
  - rewrite (force_fixed _ _ _ _ A B). apply F.
  - rewrite (torque_fixed _ _ _ _ _ A B). apply T.
Qed.

Lemma motion_initial gravity k dt dt' s s' : (dp_relax dp <= k)%nat -> pos_h N s ->
  do_ops (initial_ops dp gravity k dt dt') s s' -> each N fixed s s' /\ still s'.
Proof.
  intros Hk I3 H. apply initial_shape in H; [|exact Hk].
  destruct H as (m1 & m2 & m3 & m4 & m5 & H1 & (D1 & D2 & _ & _) & H3 & (G1 & G2 & _ & G4 & _) & H5 & ->).
  assert (Hh2 : pos_h N m2). { intros i Hi. rewrite (D2 i Hi). destruct (H1 i Hi) as (_ & -> & _). apply I3, Hi. }
  assert (S3 : still m3) by (eapply forces_zero; eassumption).
  apply forces_shape in H3. destruct H3 as (a & nb & _ & _ & K1 & K2 & _).
  pose proof (kept_trans _ _ _ _ K1 K2) as (F1 & F2 & _ & _).
  assert (Hh4 : pos_h N m4). { intros i Hi. rewrite (G2 i Hi), (F2 i Hi). apply Hh2, Hi. }
  pose proof (quiet_h _ _ _ _ _ Hh4 H5) as (Q1 & _ & _ & _ & Q5).
  destruct (new_h_keeps m5) as (N1 & _ & _ & N4 & _). split.
  - eapply each_trans; [exact fixed_trans| |exact N1]. eapply each_trans; [exact fixed_trans| |exact Q1].
    eapply each_trans; [exact fixed_trans| |exact G1]. eapply each_trans; [exact fixed_trans| |exact F1].
    eapply each_trans; [exact fixed_trans| |exact D1]. intros i Hi. apply H1, Hi.
  - apply (still_fixed _ _ N1 N4), (still_fixed _ _ Q1 Q5), (still_fixed _ _ G1 G4), S3.
Qed.

Lemma motion_step gravity k dt s s' : (dp_relax dp <= k)%nat -> pos_h N s -> still s ->
  do_ops (step_ops dp gravity k dt) s s' ->
  (forall k, momentum N s' k = momentum N s k) /\
  (forall k, mass_centre N s' k = mass_centre N s k + dt * momentum N s k) /\
  (forall k l, angular N s' k l = angular N s k l) /\ still s'.
Proof.
  intros Hk I3 (SF & ST) H. apply step_shape in H; [|exact Hk].
  destruct H as (m1 & m2 & m3 & m4 & m5 & m6 & H1 & (D1 & D2 & _ & _ & _ & _) & H3 & H4 & H5 & H6 & ->).
  set (e0 := fun i => kick_eu dt (s i)).
  assert (X0 : each N fixed s e0 /\ each N same_acc s e0 /\ each N same_h s e0).
  { repeat split; intros; unfold e0, kick_eu; destruct (dp_evolve dp), (dp_thermo dp); keeps. }
  destruct X0 as (X0 & Y0 & Z0).
  set (e1 := fun i => kick_v dt (e0 i)). set (e2 := fun i => drift dt (e1 i)).
  assert (X2 : each N fixed e2 m1). { intros i Hi. rewrite (H1 i Hi). unfold e2, e1, e0. keeps. }
  assert (Hh2 : pos_h N m2).
  { intros i Hi. rewrite (D2 i Hi), (H1 i Hi). change (0 < p_h (d_p (e0 i))). rewrite (Z0 i Hi). apply I3, Hi. }
  assert (S3 : still m3) by (eapply forces_zero; eassumption). destruct S3 as (SF3 & ST3).
  apply forces_shape in H3. destruct H3 as (a & nb & _ & _ & K1 & K2 & _).
  pose proof (kept_trans _ _ _ _ K1 K2) as (F1 & F2 & _ & _).
  assert (X4 : each N fixed (fun i => kick_v dt (m3 i)) m4 /\ each N same_acc (fun i => kick_v dt (m3 i)) m4).
  { repeat split; intros; rewrite (H4 i) by assumption; keeps. }
  destruct X4 as (X4 & Y4).
  assert (Hh4 : pos_h N m4). { intros i Hi. rewrite (H4 i Hi). cbn. rewrite (F2 i Hi). apply Hh2, Hi. }
  pose proof (quiet_h _ _ _ _ _ Hh4 H5) as (Q1 & _ & _ & _ & Q5).
  assert (X6 : each N fixed m5 m6 /\ each N same_acc m5 m6).
  { repeat split; intros; rewrite (H6 i) by assumption; unfold kick_eu; destruct (dp_evolve dp), (dp_thermo dp); keeps. }
  destruct X6 as (X6 & Y6). destruct (new_h_keeps m6) as (N1 & _ & _ & N4 & _).
  assert (S4 : still m4).
  { apply (still_fixed _ _ X4 Y4). split; [intro j; exact (SF3 j)|intros j l; exact (ST3 j l)]. }
  assert (FX : each N fixed m4 (new_h dp N m6)).
  { eapply each_trans; [exact fixed_trans| |exact N1]. eapply each_trans; [exact fixed_trans| |exact X6]. exact Q1. }
  assert (FY : each N fixed e2 m3).
  { eapply each_trans; [exact fixed_trans| |exact F1]. eapply each_trans; [exact fixed_trans| |exact D1]. exact X2. }
  split; [|split; [|split]].
  - intro j. rewrite (momentum_fixed _ _ _ _ FX), (momentum_fixed _ _ _ _ X4), kick_momentum, SF3, (momentum_fixed _ _ _ _ FY).
    change (momentum N e2 j) with (momentum N e1 j). unfold e1. rewrite kick_momentum, (force_fixed _ _ _ _ X0 Y0), SF, (momentum_fixed _ _ _ _ X0). ring.
  - intro j. rewrite (centre_fixed _ _ _ _ FX), (centre_fixed _ _ _ _ X4).
    change (mass_centre N (fun i => kick_v dt (m3 i)) j) with (mass_centre N m3 j). rewrite (centre_fixed _ _ _ _ FY).
    unfold e2. rewrite drift_centre. unfold e1 at 2. rewrite kick_momentum, (force_fixed _ _ _ _ X0 Y0), SF, (momentum_fixed _ _ _ _ X0).
    change (mass_centre N e1 j) with (mass_centre N e0 j). rewrite (centre_fixed _ _ _ _ X0). ring.
  - intros j l. rewrite (angular_fixed _ _ _ _ _ FX), (angular_fixed _ _ _ _ _ X4), kick_angular, ST3, (angular_fixed _ _ _ _ _ FY).
    unfold e2. rewrite drift_angular. unfold e1. rewrite kick_angular, (torque_fixed _ _ _ _ _ X0 Y0), ST, (angular_fixed _ _ _ _ _ X0). ring.
  - apply (still_fixed _ _ N1 N4), (still_fixed _ _ X6 Y6), (still_fixed _ _ Q1 Q5), S4.
Qed.

Lemma sim_motion gravity k0 s0 t0 k s t dt : (dp_relax dp <= k0)%nat -> pos_m s0 -> pos_h N s0 ->
  sim dp N lists grav gravity k0 s0 t0 k s t dt ->
  (forall k, momentum N s k = momentum N s0 k) /\
  (forall k, mass_centre N s k = mass_centre N s0 k + (t - t0) * momentum N s0 k) /\
  (forall k l, angular N s k l = angular N s0 k l) /\ still s.
Proof.
  intros Hk Hm Hh H. induction H as [dt dt' dt'' s H|k s t dt dt' s' H IH Hs].
  - apply motion_initial in H; [|assumption..]. destruct H as (F & S1). split; [|split; [|split; [|exact S1]]]; intros.
    + apply momentum_fixed, F.
    + rewrite (centre_fixed _ _ _ _ F). ring.
    + apply angular_fixed, F.
  - destruct (sim_sound _ _ _ _ _ _ _ _ Hk Hm Hh H) as (L & _ & _ & P & _). destruct IH as (I1 & I2 & I3 & I4).
    apply motion_step in Hs; try assumption; [|lia]. destruct Hs as (J1 & J2 & J3 & J4). split; [|split; [|split; [|exact J4]]]; intros.
    + rewrite J1. apply I1.
    + rewrite J2, I2, I1. ring.
    + rewrite J3. apply I3.
Qed.
End C77.
