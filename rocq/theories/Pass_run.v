(** The passes of the driver: what they read and keep, and that complete
    neighbour lists in any order give the same result. *)
From Verif Require Import Base Vec Geometry_model Geometry_props Kernel_model Kernel_proofs Kernel_props Sph_model Sph_props EForce_model
  Driver_model Driver_proofs Driver_run Pass_model Pass_proofs.
From Coq Require Import Permutation FunctionalExtensionality.
Local Open Scope R_scope.

Section Facts.
Context (dp : dparams) (N : nat).
Notation n := (dp_dim dp).
Notation sp := (dp_sph dp).

Lemma recover_vsig v b : recover_internal_energy dp (set_vsig v b) = option_map (set_vsig v) (recover_internal_energy dp b).
Proof. unfold recover_internal_energy. cbv zeta. unfold ekin. cbn [d_e d_p set_vsig]. destruct (Rltb 0 _); reflexivity. Qed.

Lemma EF_E1 a b : EF a b -> E1 a b.
Proof. intros (H & _). exact H. Qed.

(** density pass *)
Lemma reads_density dt : reads E1 (density_pass dp dt).
Proof.
  intros b b' l l' Hb Hl. apply nov_but in Hb. destruct Hb as (v & ->). unfold density_pass. cbv zeta.
  change (d_p (set_vsig v b)) with (d_p b).
  assert (D : density sp n (d_p b) (map d_p l) = density sp n (d_p b) (map d_p l')).
  { unfold density. rewrite !suml_parts. apply (suml_forall2 E1); [|exact Hl]. intros a c (H1 & H2 & H3 & H4). unfold h_mean.
    rewrite H1, H2, H3. reflexivity. }
  assert (V : forall p, divergence sp n p (map d_p l) = divergence sp n p (map d_p l')).
  { intro p. unfold divergence. f_equal. rewrite !suml_parts. apply (suml_forall2 E1); [|exact Hl]. intros a c (H1 & H2 & H3 & H4). unfold h_mean.
    rewrite H1, H2, H3. reflexivity. }
  rewrite D. destruct (Rltb 0 _); [|reflexivity]. set (rho := density sp n (d_p b) (map d_p l')).
  change (set_rho rho (set_vsig v b)) with (set_vsig v (set_rho rho b)). rewrite recover_vsig.
  destruct (dp_evolve dp && dp_thermo dp).
  - destruct (recover_internal_energy dp (set_rho rho b)) as [c|]; cbn [option_map]; [|reflexivity].
    destruct (cullen sp); [|reflexivity]. rewrite !V. reflexivity.
  - cbn [option_map]. destruct (cullen sp); [|reflexivity]. rewrite !V. reflexivity.
Qed.
Lemma keeps_density dt : keeps_pass E1 (density_pass dp dt).
Proof.
  intros b l x H. unfold density_pass in H. cbv zeta in H. destruct (Rltb 0 _); [|discriminate].
  destruct (dp_evolve dp && dp_thermo dp).
  - unfold recover_internal_energy in H. cbv zeta in H. destruct (Rltb 0 _); [|discriminate].
    injection H as <-. destruct (cullen sp); repeat split.
  - injection H as <-. destruct (cullen sp); repeat split.
Qed.

(** acceleration *)
Ltac pair_eq := intros a c ((H1 & H2 & H3 & H4) & H5 & H6 & H7 & H8 & H9 & H10); unfold nb_mass, Prho2, Pi, DiW, h_mean;
  rewrite H1, ?H2, H3, ?H5, H6, H7, ?H8, H9, H10; reflexivity.
Lemma reads_acceleration : reads EF (acceleration_pass dp).
Proof.
  intros b b' l l' Hb Hl. apply nov_but in Hb. destruct Hb as (v & ->). unfold acceleration_pass.
  change (d_p (set_vsig v b)) with (d_p b).
  assert (A : Sph_model.acceleration sp n (dp_ext dp (p_pos (d_p b))) (d_p b) (map d_p l) =
    Sph_model.acceleration sp n (dp_ext dp (p_pos (d_p b))) (d_p b) (map d_p l')).
  { apply functional_extensionality. intro k. unfold Sph_model.acceleration. f_equal. rewrite !suml_parts.
    apply (suml_forall2 EF); [|exact Hl]. pair_eq. }
  rewrite A. reflexivity.
Qed.
Lemma keeps_acceleration : keeps_pass EF (acceleration_pass dp).
Proof. intros b l x [= <-]. repeat split. Qed.

Lemma reads_dudt r : reads EF (dudt_pass dp r).
Proof.
  intros b b' l l' Hb Hl. apply nov_but in Hb. destruct Hb as (v & ->). unfold dudt_pass.
  change (d_p (set_vsig v b)) with (d_p b).
  assert (A : dudt sp n r (d_p b) (map d_p l) = dudt sp n r (d_p b) (map d_p l')).
  { unfold dudt. destruct r; [reflexivity|]. cbv zeta. rewrite !suml_parts. f_equal; f_equal; (apply (suml_forall2 EF); [|exact Hl]).
    - intros a c ((H1 & H2 & H3 & H4) & H5 & H6 & H7 & H8 & H9 & H10). unfold nb_mass, DiW, h_mean.
      rewrite H1, H2, H3, H5. reflexivity.
    - pair_eq. }
  rewrite A. reflexivity.
Qed.
Lemma keeps_dudt r : keeps_pass EF (dudt_pass dp r).
Proof. intros b l x [= <-]. repeat split. Qed.

Lemma reads_dedt : reads EF (dedt_pass dp).
Proof.
  intros b b' l l' Hb Hl. apply nov_but in Hb. destruct Hb as (v & ->). unfold dedt_pass.
  change (d_p (set_vsig v b)) with (d_p b).
  assert (A : dedt sp n (d_p b) (map d_p l) = dedt sp n (d_p b) (map d_p l')).
  { unfold dedt. cbv zeta. f_equal. f_equal. rewrite !suml_parts. apply (suml_forall2 EF); [|exact Hl]. pair_eq. }
  rewrite A. reflexivity.
Qed.
Lemma keeps_dedt : keeps_pass EF (dedt_pass dp).
Proof. intros b l x [= <-]. repeat split. Qed.

Lemma reads_repulsion : reads E1 (repulsion_pass dp).
Proof.
  intros b b' l l' Hb Hl. apply nov_but in Hb. destruct Hb as (v & ->). unfold repulsion_pass.
  assert (A : repulsion dp b l = repulsion dp (set_vsig v b) l').
  { apply functional_extensionality. intro k. unfold repulsion. f_equal. apply (suml_forall2 E1); [|exact Hl].
    intros a c (H1 & H2 & H3 & H4). change (d_p (set_vsig v b)) with (d_p b). change (d_id (set_vsig v b)) with (d_id b).
    unfold h_mean. rewrite H1, H2, H3, H4. reflexivity. }
  rewrite A. reflexivity.
Qed.
Lemma keeps_repulsion : keeps_pass EF (repulsion_pass dp).
Proof. intros b l x [= <-]. repeat split. Qed.

Ltac resp_tac := intros b b' Hb; apply nov_but in Hb; destruct Hb as (v & ->); reflexivity.
Lemma resp_recompute_thermo dt : resp (recompute_thermo dp dt).
Proof.
  intros b b' Hb. apply nov_but in Hb. destruct Hb as (v & ->). unfold recompute_thermo. rewrite recover_vsig.
  destruct (recover_internal_energy dp b); reflexivity.
Qed.
Lemma keeps_recompute_thermo dt : keeps_all E1 (recompute_thermo dp dt).
Proof.
  intros b x. unfold recompute_thermo, recover_internal_energy. cbv zeta. destruct (Rltb 0 _); [|discriminate]. intros [= <-]. repeat split.
Qed.

(** ** The program *)
Section Prog.
Context (Hc : cullen sp = false).


Lemma to_T (a b : dbody) (E : dbody -> dbody -> Prop) : E a b -> ET a b.
Proof. intro. exact I. Qed.

Ltac all_E := apply ok_all; [auto using equiv_1, equiv_F, equiv_T|resp_tac|intro; repeat split].

Lemma ok_round r dt : ok EF (energy_round dp r dt) E1.
Proof.
  unfold energy_round. destruct (dp_thermo dp).
  - eapply ok_app; [apply ok_pass; [apply equiv_F|apply reads_dedt|apply keeps_dedt]|].
    eapply ok_app; [apply (ok_opt EF EF); [intros _; all_E|auto]|].
    eapply ok_weak; [apply EF_E1|intros a b H; exact H|]. apply ok_OAll; [apply equiv_1|apply resp_recompute_thermo|apply keeps_recompute_thermo].
  - eapply ok_app; [apply ok_pass; [apply equiv_F|apply reads_dudt|apply keeps_dudt]|].
    eapply ok_app; [apply (ok_opt EF EF); [intros _; all_E|auto]|].
    eapply ok_weak; [apply EF_E1|intros a b H; exact H|]. all_E.
Qed.
Lemma ok_rounds r dt m : ok EF (energy_rounds dp r dt m) E1.
Proof.
  induction m as [|m IH]; cbn [energy_rounds].
  - eapply ok_weak; [intros a b H; exact H|apply EF_E1|apply ok_nil].
  - destruct m; [apply ok_round|]. eapply ok_app; [apply ok_round|]. eapply ok_app; [apply ok_reset, equiv_F|exact IH].
Qed.
Lemma ok_forces gravity r E : ok E (forces dp gravity r) EF.
Proof.
  unfold forces. eapply ok_app; [eapply ok_cons; [apply ok_reset, equiv_F|]|].
  - apply ok_pass; [apply equiv_F|apply reads_acceleration|apply keeps_acceleration].
  - eapply ok_app; [apply (ok_opt EF EF); [intros _; apply ok_grav|auto]|].
    apply (ok_opt EF EF); [intros _|auto]. eapply ok_cons; [all_E|].
    apply ok_pass; [apply equiv_F| |apply keeps_repulsion]. eapply reads_weak; [apply EF_E1|apply reads_repulsion].
Qed.

Lemma ok_initial gravity k dt dt' : ok ET (initial_ops dp gravity k dt dt') ET.
Proof.
  unfold initial_ops. cbv zeta. rewrite Hc. cbn [opt app].
  eapply ok_cons; [apply (ok_update ET EF), equiv_F|]. eapply ok_cons; [all_E|].
  eapply ok_app; [apply (ok_opt EF EF); [intros _; all_E|auto]|].
  eapply ok_cons; [eapply (ok_weak E1 EF E1 E1); [apply EF_E1|auto|]; apply ok_pass; [apply equiv_1|apply reads_density|apply keeps_density]|].
  eapply ok_cons; [all_E|].
  eapply ok_app; [apply ok_forces|].
  eapply ok_app; [apply (ok_opt EF EF); [intros _; all_E|auto]|].
  eapply ok_app; [apply (ok_opt EF E1); [intros _; apply ok_rounds|apply EF_E1]|].
  apply ok_smooth.
Qed.

Lemma ok_step gravity k dt : ok ET (step_ops dp gravity k dt) ET.
Proof.
  unfold step_ops. cbv zeta. rewrite Hc. cbn [opt app].
  eapply ok_app; [apply (ok_opt ET ET); [intros _; destruct (dp_thermo dp); all_E|auto]|].
  eapply ok_cons; [apply (ok_all ET); [apply equiv_T|resp_tac|intro; exact I]|].
  eapply ok_cons; [apply (ok_all ET); [apply equiv_T|resp_tac|intro; exact I]|].
  eapply ok_cons; [apply (ok_all ET); [apply equiv_T|resp_tac|intro; exact I]|].
  eapply ok_cons; [apply (ok_update ET E1), equiv_1|].
  eapply ok_cons; [apply ok_pass; [apply equiv_1|apply reads_density|apply keeps_density]|].
  eapply ok_app; [apply ok_forces|].
  eapply ok_cons; [eapply (ok_weak ET EF ET ET); [intros a b _; exact I|auto|]; apply ok_all; [apply equiv_T|resp_tac|intro; exact I]|].
  eapply ok_cons; [apply (ok_reset ET EF), equiv_F|].
  eapply ok_app; [apply (ok_opt EF E1); [intros _|apply EF_E1]|].
  - eapply ok_app; [apply ok_rounds|]. destruct (dp_thermo dp); all_E.
  - apply ok_smooth.
Qed.

Lemma ok_loop gravity k dts : ok ET (loop_ops dp gravity k dts) ET.
Proof.
  revert k. induction dts as [|dt dts IH]; intro k; cbn [loop_ops]; [apply ok_nil|].
  eapply ok_app; [apply ok_step|apply IH].
Qed.
Lemma ok_program gravity k0 dt dt' dts : ok ET (program dp gravity k0 dt dt' dts) ET.
Proof. unfold program. eapply ok_app; [apply ok_initial|apply ok_loop]. Qed.
End Prog.
End Facts.
