(** Iterations of the driver during relaxation. *)
From Verif Require Import Base Vec Geometry_model Kernel_model Sph_model Sph_props SphMore_props Geometry_props EForce_model Driver_model Driver_proofs Driver_run Pass_model.
Local Open Scope R_scope.

Section Relax.
Context (dp : dparams) (N : nat) (grav : (nat -> dbody) -> (nat -> point * R) -> Prop).
Notation n := (dp_dim dp).
Notation sp := (dp_sph dp).
Notation do_ops := (do_ops dp N (complete n N) grav).
Context (Hdim : (1 <= n <= 3)%nat) (HN : (0 < N)%nat) (Hw : 0 < dp_etaw dp) (Hrad : dp_rrad dp <= 1).
Implicit Types s : nat -> dbody.

Lemma complete_ok s nb : complete n N s nb -> (forall i, (i < N)%nat -> 0 < p_h (d_p (s i))) -> lists_ok n N (fun i => d_p (s i)) nb.
Proof. intros C _ i Hi. destruct (C i Hi) as (C1 & C2 & C3). split; [exact C1|]. split; [exact C2|]. intros j Hj Hn. apply Rlt_le, C3; assumption. Qed.

Lemma norm_vsub_sym m x y : norm m (vsub x y) = norm m (vsub y x).
Proof. unfold norm, dot. f_equal. apply sumn_ext. intros i _. unfold vsub. ring. Qed.

(** Repulsion between two particles *)
Definition push (b q : dbody) : R :=
  if Nat.eqb (d_id q) (d_id b) then 0 else
  let r := norm n (vsub (p_pos (d_p b)) (p_pos (d_p q))) in
  if Rltb (h_mean (d_p b) (d_p q) * dp_rrad dp) r then 0 else / (r * r * r).
Lemma push_sym b q : push b q = push q b.
Proof.
  unfold push. cbv zeta. rewrite (Nat.eqb_sym (d_id q)). unfold h_mean. rewrite (Rplus_comm (p_h (d_p b))), (norm_vsub_sym n (p_pos (d_p b))). reflexivity.
Qed.
Lemma repulsion_pairs s nb i k : complete n N s nb -> pos_h N s -> (i < N)%nat ->
  repulsion dp (s i) (map s (nb i)) k =
  dp_rgam dp * sumn N (fun j => p_m (d_p (s j)) * push (s i) (s j) * (p_pos (d_p (s i)) k - p_pos (d_p (s j)) k)).
Proof.
  intros C Hh Hi. unfold repulsion. f_equal. rewrite suml_map. destruct (C i Hi) as (C1 & C2 & C3).
  etransitivity; [|apply (suml_full N _ (nb i)); [exact C1|exact C2|]].
  - apply suml_ext. intros j _. unfold push. cbv zeta. destruct (Nat.eqb _ _); [ring|]. destruct (Rltb _ _); [ring|]. unfold Rdiv. ring.
  - intros j Hj Hn. specialize (C3 j Hj Hn). unfold push. cbv zeta. destruct (Nat.eqb _ _); [ring|].
    rewrite (proj2 (Rltb_true _ _)); [ring|]. unfold h_mean. pose proof (Hh i Hi). pose proof (Hh j Hj). nra.
Qed.
Lemma repulsion_momentum s nb k : complete n N s nb -> pos_h N s ->
  sumn N (fun i => p_m (d_p (s i)) * repulsion dp (s i) (map s (nb i)) k) = 0.
Proof.
  intros C Hh. rewrite <- (antisym_sum N (fun i j => p_m (d_p (s i)) * (dp_rgam dp * (p_m (d_p (s j)) * push (s i) (s j) * (p_pos (d_p (s i)) k - p_pos (d_p (s j)) k))))).
  - apply sumn_ext. intros i Hi. rewrite (repulsion_pairs s nb i k C Hh Hi), <- !sumn_scal. reflexivity.
  - intros i j _ _. rewrite (push_sym (s j)). ring.
Qed.
Lemma repulsion_torque s nb k l : complete n N s nb -> pos_h N s ->
  sumn N (fun i => p_m (d_p (s i)) * (p_pos (d_p (s i)) k * repulsion dp (s i) (map s (nb i)) l - p_pos (d_p (s i)) l * repulsion dp (s i) (map s (nb i)) k)) = 0.
Proof.
  intros C Hh. rewrite <- (antisym_sum N (fun i j => p_m (d_p (s i)) * (dp_rgam dp * (p_m (d_p (s j)) * push (s i) (s j) *
    (p_pos (d_p (s i)) k * (p_pos (d_p (s i)) l - p_pos (d_p (s j)) l) - p_pos (d_p (s i)) l * (p_pos (d_p (s i)) k - p_pos (d_p (s j)) k)))))).
  - apply sumn_ext. intros i Hi. rewrite !(repulsion_pairs s nb i _ C Hh Hi).
    rewrite !sumn_scal. f_equal. rewrite (Rmult_comm (p_pos (d_p (s i)) k)), (Rmult_comm (p_pos (d_p (s i)) l)), !Rmult_assoc, <- Rmult_minus_distr_l. f_equal.
    rewrite (Rmult_comm (sumn _ _)), (Rmult_comm (sumn _ _)), <- !sumn_scal, <- sumn_minus. apply sumn_ext. intros j _. ring.
  - intros i j _ _. rewrite (push_sym (s j)). ring.
Qed.

(** The relaxation terms, after the other forces *)
Lemma forces_split gravity s s' : do_ops (forces dp gravity true) s s' -> exists m nb, do_ops (forces dp gravity false) s m /\ complete n N m nb /\
  forall i, (i < N)%nat -> s' i = set_acc (vadd (vadd (d_acc (m i)) (drag dp (p_vel (d_p (m i))))) (repulsion dp (m i) (map m (nb i)))) (m i).
Proof.
  unfold forces. cbn [opt]. rewrite app_nil_r, app_assoc. intro H. apply do_ops_app in H. destruct H as (m & H1 & H2).
  cbn [Driver_model.do_ops] in H2. destruct H2 as (a & A & b & (nb & C & B) & ->). pose proof (do_all _ _ _ _ _ _ _ A) as A'.
  exists m, nb. split; [exact H1|]. split.
  - intros i Hi. destruct (C i Hi) as (C1 & C2 & C3). split; [exact C1|]. split; [exact C2|]. intros j Hj Hn. specialize (C3 j Hj Hn).
    rewrite (A' i Hi), (A' j Hj) in C3. exact C3.
  - intros i Hi. specialize (B i Hi). unfold repulsion_pass in B. injection B as <-.
    assert (E : map a (nb i) = map (fun j => add_drag dp (m j)) (nb i)).
    { apply map_ext_in. intros j Hj. apply A'. apply (C i Hi), Hj. }
    rewrite E, (A' i Hi).
    assert (F : repulsion dp (add_drag dp (m i)) (map (fun j => add_drag dp (m j)) (nb i)) = repulsion dp (m i) (map m (nb i))).
    { apply FunctionalExtensionality.functional_extensionality. intro k. unfold repulsion. f_equal. rewrite !suml_map. reflexivity. }
    rewrite F. reflexivity.
Qed.
Lemma forces_kept gravity r s s' : do_ops (forces dp gravity r) s s' -> kept N s s'.
Proof.
  intro H. destruct r.
  - apply forces_split in H. destruct H as (m & nb & H & _ & A). apply forces_shape in H. destruct H as (a & nb' & _ & _ & K1 & K2 & _).
    eapply kept_trans; [eapply kept_trans; eassumption|]. repeat split; try (intros i Hi; rewrite (A i Hi)); keeps; rewrite (A i H); keeps.
  - apply forces_shape in H. destruct H as (a & nb' & _ & _ & K1 & K2 & _). eapply kept_trans; eassumption.
Qed.

Context (Hext : forall x k, dp_ext dp x k = 0).
Context (Hgrav : forall s g, grav s g -> forall k, sumn N (fun i => p_m (d_p (s i)) * fst (g i) k) = 0).
Context (Htorq : forall s g, grav s g -> forall k l,
  sumn N (fun i => p_m (d_p (s i)) * (p_pos (d_p (s i)) k * fst (g i) l - p_pos (d_p (s i)) l * fst (g i) k)) = 0).

Definition drag_force s k := sumn N (fun i => p_m (d_p (s i)) * drag dp (p_vel (d_p (s i))) k).
Definition drag_torque s k l := sumn N (fun i => p_m (d_p (s i)) * (p_pos (d_p (s i)) k * drag dp (p_vel (d_p (s i))) l - p_pos (d_p (s i)) l * drag dp (p_vel (d_p (s i))) k)).

Lemma forces_total gravity (r : bool) s s' : pos_h N s -> do_ops (forces dp gravity r) s s' ->
  (forall k, force N s' k = if r then drag_force s k else 0) /\ (forall k l, torque N s' k l = if r then drag_torque s k l else 0).
Proof.
  intros Hh H. destruct r.
  - apply forces_split in H. destruct H as (m & nb & H & C & A).
    pose proof (forces_kept _ _ _ _ H) as (F1 & F2 & _).
    assert (Hm : pos_h N m) by (intros i Hi; rewrite (F2 i Hi); apply Hh, Hi).
    destruct (forces_zero dp N _ _ Hdim complete_ok Hext Hgrav Htorq gravity s m Hh H) as (Z1 & Z2). split.
    + intro k. transitivity (force N m k + drag_force m k + sumn N (fun i => p_m (d_p (m i)) * repulsion dp (m i) (map m (nb i)) k)).
      * unfold force, drag_force. rewrite <- !sumn_plus. apply sumn_ext. intros i Hi. rewrite (A i Hi). unfold total_acc, vadd. cbn. ring.
      * rewrite Z1, (repulsion_momentum m nb k C Hm). unfold drag_force. rewrite Rplus_0_l, Rplus_0_r. apply sumn_ext. intros i Hi. destruct (F1 i Hi) as (_ & -> & _ & ->). reflexivity.
    + intros k l. transitivity (torque N m k l + drag_torque m k l +
        sumn N (fun i => p_m (d_p (m i)) * (p_pos (d_p (m i)) k * repulsion dp (m i) (map m (nb i)) l - p_pos (d_p (m i)) l * repulsion dp (m i) (map m (nb i)) k))).
      * unfold torque, drag_torque. rewrite <- !sumn_plus. apply sumn_ext. intros i Hi. rewrite (A i Hi). unfold total_acc, vadd. cbn. ring.
      * rewrite Z2, (repulsion_torque m nb k l C Hm). unfold drag_torque. rewrite Rplus_0_l, Rplus_0_r. apply sumn_ext. intros i Hi. destruct (F1 i Hi) as (_ & -> & -> & ->). reflexivity.
  - exact (forces_zero dp N _ _ Hdim complete_ok Hext Hgrav Htorq gravity s s' Hh H).
Qed.

(** The first iteration moves nothing. *)
Lemma start_any gravity k dt dt' s s' : pos_m N s -> pos_h N s -> do_ops (initial_ops dp gravity k dt dt') s s' ->
  each N fixed s s' /\ pos_h N s' /\
  (forall j, force N s' j = if Nat.ltb k (dp_relax dp) then drag_force s j else 0) /\
  (forall j l, torque N s' j l = if Nat.ltb k (dp_relax dp) then drag_torque s j l else 0).
Proof.
  intros I2 I3 H. apply (initial_shape_any dp N _ _ Hdim) in H.
  destruct H as (m1 & m2 & m3 & m4 & m5 & H1 & (D1 & D2 & _ & D6) & H3 & (G1 & G2 & G3 & G4 & _) & H5 & ->).
  assert (Hh2 : pos_h N m2). { intros i Hi. rewrite (D2 i Hi). destruct (H1 i Hi) as (_ & -> & _). apply I3, Hi. }
  destruct (forces_total _ _ _ _ Hh2 H3) as (T1 & T2). apply forces_kept in H3. destruct H3 as (F1 & F2 & F3 & _).
  assert (Hh4 : pos_h N m4). { intros i Hi. rewrite (G2 i Hi), (F2 i Hi). apply Hh2, Hi. }
  pose proof (quiet_h dp N _ _ Hdim complete_ok _ _ _ _ _ Hh4 H5) as (Q1 & Q2 & Q3 & _ & Q5).
  destruct (new_h_keeps dp N m5) as (N1 & _ & _ & N4 & _).
  assert (X02 : each N fixed s m2). { eapply each_trans; [exact fixed_trans| |exact D1]. intros i Hi. apply H1, Hi. }
  assert (X03 : each N fixed s m3) by (eapply each_trans; [exact fixed_trans|exact X02|exact F1]).
  assert (X05 : each N fixed s m5). { eapply each_trans; [exact fixed_trans| |exact Q1]. eapply each_trans; [exact fixed_trans|exact X03|exact G1]. }
  split; [eapply each_trans; [exact fixed_trans|exact X05|exact N1]|]. split; [|split].
  - apply (new_h_pos dp N Hdim HN Hw).
    + intros i Hi. destruct (X05 i Hi) as (_ & -> & _). apply I2, Hi.
    + intros i Hi. rewrite (Q3 i Hi), (G3 i Hi), (F3 i Hi). apply D6, Hi.
    + intros i Hi. rewrite (Q2 i Hi). apply Hh4, Hi.
  - intro j. rewrite (force_fixed _ _ _ _ N1 N4), (force_fixed _ _ _ _ Q1 Q5), (force_fixed _ _ _ _ G1 G4), T1.
    destruct (Nat.ltb _ _); [|reflexivity]. apply sumn_ext. intros i Hi. destruct (X02 i Hi) as (_ & -> & _ & ->). reflexivity.
  - intros j l. rewrite (torque_fixed _ _ _ _ _ N1 N4), (torque_fixed _ _ _ _ _ Q1 Q5), (torque_fixed _ _ _ _ _ G1 G4), T2.
    destruct (Nat.ltb _ _); [|reflexivity]. apply sumn_ext. intros i Hi. destruct (X02 i Hi) as (_ & -> & -> & ->). reflexivity.
Qed.

(** Velocities in the middle of the next iteration, and the particles moved
    with them *)
Definition half (dt : R) s : nat -> dbody := fun i => drift dt (kick_v dt (s i)).

Lemma step_any gravity k dt s s' : pos_m N s -> pos_h N s -> do_ops (step_ops dp gravity k dt) s s' ->
  (forall i, (i < N)%nat -> d_id (s' i) = d_id (s i) /\ p_m (d_p (s' i)) = p_m (d_p (s i)) /\
     p_pos (d_p (s' i)) = p_pos (d_p (half dt s i)) /\
     forall j, p_vel (d_p (s' i)) j = p_vel (d_p (half dt s i)) j + 1 / 2 * dt * total_acc (s' i) j) /\ pos_h N s' /\
  (forall j, force N s' j = if Nat.ltb k (dp_relax dp) then drag_force (half dt s) j else 0) /\
  (forall j l, torque N s' j l = if Nat.ltb k (dp_relax dp) then drag_torque (half dt s) j l else 0).
Proof.
  intros I2 I3 H. apply (step_shape_any dp N _ _) in H.
  destruct H as (m1 & m2 & m3 & m4 & m5 & m6 & H1 & (D1 & D2 & _ & _ & _ & D6) & H3 & H4 & H5 & H6 & ->).
  assert (A1 : forall i, (i < N)%nat -> fixed (half dt s i) (m1 i) /\ p_h (d_p (m1 i)) = p_h (d_p (s i))).
  { intros i Hi. rewrite (H1 i Hi). unfold half, kick_eu. destruct (dp_evolve dp), (dp_thermo dp); split; keeps. }
  assert (X02 : each N fixed (half dt s) m2). { eapply each_trans; [exact fixed_trans| |exact D1]. intros i Hi. apply A1, Hi. }
  assert (Hh2 : pos_h N m2). { intros i Hi. rewrite (D2 i Hi). destruct (A1 i Hi) as (_ & ->). apply I3, Hi. }
  destruct (forces_total _ _ _ _ Hh2 H3) as (T1 & T2). apply forces_kept in H3. destruct H3 as (F1 & F2 & F3 & _).
  assert (X03 : each N fixed (half dt s) m3) by (eapply each_trans; [exact fixed_trans|exact X02|exact F1]).
  assert (Hh4 : pos_h N m4). { intros i Hi. rewrite (H4 i Hi). cbn. rewrite (F2 i Hi). apply Hh2, Hi. }
  pose proof (quiet_h dp N _ _ Hdim complete_ok _ _ _ _ _ Hh4 H5) as (Q1 & Q2 & Q3 & _ & Q5).
  assert (X6 : each N fixed m5 m6 /\ each N same_acc m5 m6 /\ each N same_h m5 m6 /\ each N same_rho m5 m6).
  { assert (E : forall b, fixed b (kick_eu dp dt b) /\ same_acc b (kick_eu dp dt b) /\ same_h b (kick_eu dp dt b) /\ same_rho b (kick_eu dp dt b)).
    { intro b. unfold kick_eu. destruct (dp_evolve dp), (dp_thermo dp); keeps. }
    split; [|split; [|split]]; intros i Hi; rewrite (H6 i Hi); apply E. }
  destruct X6 as (X6 & Y6 & Z6 & R6). destruct (new_h_keeps dp N m6) as (N1 & _ & _ & N4 & _).
  assert (FX : each N fixed m4 (new_h dp N m6)).
  { eapply each_trans; [exact fixed_trans| |exact N1]. eapply each_trans; [exact fixed_trans| |exact X6]. exact Q1. }
  assert (FA : each N same_acc m4 (new_h dp N m6)).
  { intros i Hi. destruct (N4 i Hi) as (E1 & E2). destruct (Y6 i Hi) as (E3 & E4). destruct (Q5 i Hi) as (E5 & E6). split; congruence. }
  assert (FM : forall i, (i < N)%nat -> p_m (d_p (m4 i)) = p_m (d_p (s i))).
  { intros i Hi. rewrite (H4 i Hi). cbn. destruct (X03 i Hi) as (_ & -> & _). reflexivity. }
  split; [|split; [|split]].
  - intros i Hi. destruct (FX i Hi) as (-> & -> & -> & ->). rewrite (FM i Hi). rewrite (H4 i Hi). cbn [kick_v set_vel with_p d_id d_p p_pos p_vel].
    destruct (X03 i Hi) as (-> & _ & -> & ->). split; [reflexivity|]. split; [reflexivity|]. split; [reflexivity|]. intro j.
    destruct (FA i Hi) as (E1 & E2). unfold total_acc. rewrite E1, E2, (H4 i Hi). reflexivity.
  - apply (new_h_pos dp N Hdim HN Hw).
    + intros i Hi. destruct (X6 i Hi) as (_ & -> & _). destruct (Q1 i Hi) as (_ & -> & _). rewrite (FM i Hi). apply I2, Hi.
    + intros i Hi. rewrite (R6 i Hi), (Q3 i Hi), (H4 i Hi). cbn. rewrite (F3 i Hi). apply D6, Hi.
    + intros i Hi. rewrite (Z6 i Hi), (Q2 i Hi). apply Hh4, Hi.
  - intro j. rewrite (force_fixed _ _ _ _ FX FA). transitivity (force N m3 j).
    + apply sumn_ext. intros i Hi. rewrite (H4 i Hi). reflexivity.
    + rewrite T1. destruct (Nat.ltb _ _); [|reflexivity]. apply sumn_ext. intros i Hi. destruct (X02 i Hi) as (_ & -> & _ & ->). reflexivity.
  - intros j l. rewrite (torque_fixed _ _ _ _ _ FX FA). transitivity (torque N m3 j l).
    + apply sumn_ext. intros i Hi. rewrite (H4 i Hi). reflexivity.
    + rewrite T2. destruct (Nat.ltb _ _); [|reflexivity]. apply sumn_ext. intros i Hi. destruct (X02 i Hi) as (_ & -> & -> & ->). reflexivity.
Qed.
End Relax.
