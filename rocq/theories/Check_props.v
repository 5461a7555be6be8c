(** Property C97: the checks for numbers that are not and for negative ones. *)
From Coq Require Import Reals Lra.
From Verif Require Import Base BuildTree_model Range_model Check_model.
Local Open Scope R_scope.

(** A particle whose checked fields are numbers. *)
Definition numbers (dim : nat) (evolve : bool) (b : kbody) : Prop :=
  (forall d, (d < dim)%nat -> k_pos b d <> NaN /\ k_vel b d <> NaN /\ k_vel12 b d <> NaN /\ k_acc b d <> NaN /\ k_gacc b d <> NaN) /\
  k_mass b <> NaN /\ k_gpot b <> NaN /\ k_rho b <> NaN /\ k_p b <> NaN /\ k_s b <> NaN /\ k_e b <> NaN /\ k_dedt b <> NaN /\ k_dudt b <> NaN /\
  k_adiabatic b <> NaN /\ k_signal b <> NaN /\ (evolve = true -> k_u b <> NaN).
(** A number less than zero, or minus infinity. *)
Definition negative (x : dbl) : Prop := (exists r, x = Fin r /\ r < 0) \/ x = Inf true.

Lemma nan_spec x : negb (differs_from_itself x) = true <-> x <> NaN.
Proof. destruct x; cbn; split; intros; try discriminate; try reflexivity; contradiction. Qed.
Lemma point_spec dim f : point_ok dim f = true <-> forall d, (d < dim)%nat -> f d <> NaN.
Proof.
  induction dim as [|n IH]; cbn [point_ok]; [split; [intros; lia|reflexivity]|]. rewrite andb_true_iff, IH, nan_spec. split.
  - intros [A B] d Hd. destruct (Nat.eq_dec d n) as [->|]; [exact B|]. apply A. lia.
  - intros H. split; [intros d Hd; apply H; lia|apply H; lia].
Qed.
Lemma nans_spec dim evolve b : nans_passed dim evolve b = true <-> numbers dim evolve b.
Proof.
  unfold nans_passed, numbers. cbn [forallb]. rewrite !andb_true_iff, !point_spec, !nan_spec.
  assert (U : (if evolve then negb (differs_from_itself (k_u b)) else true) = true <-> (evolve = true -> k_u b <> NaN)).
  { destruct evolve; [rewrite nan_spec; split; [auto|intros H; apply H; reflexivity]|split; [discriminate|reflexivity]]. }
  rewrite U. split.
  - intros H. decompose [and] H. repeat split; auto.
  - intros (H & R). decompose [and] R. repeat split; auto; intros d Hd; apply (H d Hd).
Qed.
Lemma below_spec x : below_zero x = true <-> negative x.
Proof.
  unfold negative. destruct x as [r|s|]; cbn [below_zero].
  - unfold Rlt_b. destruct (Rlt_dec r 0) as [L|L]; split.
    + intros _. left. exists r. auto.
    + reflexivity.
    + discriminate.
    + intros [(r' & [= ->] & C)|C]; [contradiction|discriminate].
  - split; [intros ->; right; reflexivity|]. intros [(r & C & _)|[= ->]]; [discriminate|reflexivity].
  - split; [discriminate|]. intros [(r & C & _)|C]; discriminate.
Qed.
Lemma negativity_spec evolve b : negativity_passed evolve b = true <-> ~ negative (k_rho b) /\ ~ negative (k_p b) /\ (evolve = true -> ~ negative (k_u b)).
Proof.
  unfold negativity_passed. rewrite !andb_true_iff, !negb_true_iff, <- !below_spec.
  destruct (below_zero (k_rho b)), (below_zero (k_p b)), evolve, (below_zero (k_u b)); cbn; intuition congruence.
Qed.
Lemma apply_all_spec f bs : apply_all f bs = Some tt <-> forall b, In b bs -> f b = Some tt.
Proof.
  induction bs as [|b bs IH]; cbn [apply_all]; [split; [intros _ b []|reflexivity]|]. destruct (f b) as [[]|] eqn:E.
  - rewrite IH. split; [intros H x [<-|Hx]; auto|intros H x Hx; apply H; right; exact Hx].
  - split; [discriminate|]. intros H. specialize (H b (or_introl eq_refl)). congruence.
Qed.
(** In a build with assertions the run goes on exactly when the checked fields of every
    particle are numbers and no density, pressure or evolved energy is negative. *)
Theorem C97_stops dim evolve writes bs file : snd (finish false dim evolve writes bs file) = Some tt <->
  forall b, In b bs -> numbers dim evolve b /\ ~ negative (k_rho b) /\ ~ negative (k_p b) /\ (evolve = true -> ~ negative (k_u b)).
Proof.
  unfold finish, assert_. cbn [snd orb]. split.
  - intros H. destruct (apply_all (fun b => if nans_passed dim evolve b then Some tt else None) bs) as [[]|] eqn:E; [|discriminate].
    rewrite apply_all_spec in E, H. intros b Hb. split.
    + apply nans_spec. specialize (E b Hb). cbv beta in E. destruct (nans_passed dim evolve b); [reflexivity|discriminate].
    + apply negativity_spec. specialize (H b Hb). cbv beta in H. destruct (negativity_passed evolve b); [reflexivity|discriminate].
  - intros H. assert (E : apply_all (fun b => if nans_passed dim evolve b then Some tt else None) bs = Some tt).
    { apply apply_all_spec. intros b Hb. destruct (H b Hb) as [N _]. apply nans_spec in N. rewrite N. reflexivity. }
    rewrite E. apply apply_all_spec. intros b Hb. destruct (H b Hb) as [_ N]. apply negativity_spec in N. rewrite N. reflexivity.
Qed.
(** After the checks the density and pressure are numbers that are not negative or plus
    infinity. *)
Theorem C97_then dim evolve writes bs file b : snd (finish false dim evolve writes bs file) = Some tt -> In b bs ->
  (k_rho b = Inf false \/ exists r, k_rho b = Fin r /\ 0 <= r) /\ (k_p b = Inf false \/ exists r, k_p b = Fin r /\ 0 <= r).
Proof.
  intros H Hb. destruct (proj1 (C97_stops dim evolve writes bs file) H b Hb) as ((_ & _ & _ & N1 & N2 & _) & P1 & P2 & _).
  assert (G : forall x, x <> NaN -> ~ negative x -> x = Inf false \/ exists r, x = Fin r /\ 0 <= r).
  { intros [r|[]|] Hn Hx; [|exfalso; apply Hx; right; reflexivity|left; reflexivity|contradiction].
    right. exists r. split; [reflexivity|]. apply Rnot_lt_le. intros C. apply Hx. left. exists r. auto. }
  split; apply G; assumption.
Qed.

Definition ones : nat -> dbl := fun _ => Fin 1.
Definition sane : kbody := KBody 0 ones ones ones ones ones (Fin 1) (Fin 1) (Fin 1) (Fin 1) (Fin 1) (Fin 1) (Fin 1) (Fin 1) (Fin 1) (Fin 1) (Fin 1) (Fin 1) (Fin 1) (Fin 1) (Fin 1).
(** the same with a density, a radius, an energy *)
Definition with_rho (x : dbl) : kbody := KBody 0 ones ones ones ones ones (Fin 1) (Fin 1) (Fin 1) x (Fin 1) (Fin 1) (Fin 1) (Fin 1) (Fin 1) (Fin 1) (Fin 1) (Fin 1) (Fin 1) (Fin 1) (Fin 1).
Definition with_radius (x : dbl) : kbody := KBody 0 ones ones ones ones ones (Fin 1) x (Fin 1) (Fin 1) (Fin 1) (Fin 1) (Fin 1) (Fin 1) (Fin 1) (Fin 1) (Fin 1) (Fin 1) (Fin 1) (Fin 1) (Fin 1).
Lemma Rlt_b_1 : Rlt_b 1 0 = false.
Proof. unfold Rlt_b. destruct (Rlt_dec 1 0); [lra|reflexivity]. Qed.

(** Without assertions nothing is checked. *)
Theorem C97_release_refuted : exists dim evolve bs file b, In b bs /\ k_rho b = NaN /\ snd (finish true dim evolve true bs file) = Some tt.
Proof. exists 3%nat, true, [with_rho NaN], [], (with_rho NaN). split; [left; reflexivity|]. split; reflexivity. Qed.
(** The state that fails the checks has been written. *)
Theorem C97_written_refuted : exists dim evolve bs file b, In b bs /\ k_rho b = NaN /\ snd (finish false dim evolve true bs file) = None /\ In bs (fst (finish false dim evolve true bs file)).
Proof. exists 3%nat, true, [with_rho NaN], [], (with_rho NaN). split; [left; reflexivity|]. split; [reflexivity|]. split; [reflexivity|]. left. reflexivity. Qed.
(** Not every field is checked, and infinities are not. *)
Theorem C97_fields_refuted : exists dim evolve bs file b, In b bs /\ k_radius b = NaN /\ snd (finish false dim evolve true bs file) = Some tt.
Proof.
  exists 3%nat, true, [with_radius NaN], [], (with_radius NaN). split; [left; reflexivity|]. split; [reflexivity|]. apply C97_stops. intros b [<-|[]]. split.
  - apply nans_spec. reflexivity.
  - apply negativity_spec. unfold negativity_passed. cbn. rewrite Rlt_b_1. reflexivity.
Qed.
Theorem C97_infinite_refuted : exists dim evolve bs file b s, In b bs /\ k_rho b = Inf s /\ snd (finish false dim evolve true bs file) = Some tt.
Proof.
  exists 3%nat, true, [with_rho (Inf false)], [], (with_rho (Inf false)), false. split; [left; reflexivity|]. split; [reflexivity|]. apply C97_stops. intros b [<-|[]]. split.
  - apply nans_spec. reflexivity.
  - apply negativity_spec. unfold negativity_passed. cbn. rewrite Rlt_b_1. reflexivity.
Qed.

Example C97_case : snd (finish false 3 true true [sane; sane] []) = Some tt /\ snd (finish false 3 true true [sane; with_rho (Fin (-1))] []) = None.
Proof.
  assert (S : numbers 3 true sane /\ ~ negative (k_rho sane) /\ ~ negative (k_p sane) /\ (true = true -> ~ negative (k_u sane))).
  { split; [apply nans_spec; reflexivity|]. apply negativity_spec. unfold negativity_passed. cbn. rewrite Rlt_b_1. reflexivity. }
  split; [apply C97_stops; intros b [<-|[<-|[]]]; exact S|].
  destruct (snd (finish false 3 true true [sane; with_rho (Fin (-1))] [])) as [[]|] eqn:E; [|reflexivity]. exfalso.
  destruct (proj1 (C97_stops _ _ _ _ _) E (with_rho (Fin (-1))) (or_intror (or_introl eq_refl))) as (_ & N & _). apply N. left. exists (-1). split; [reflexivity|lra].
Qed.

Print Assumptions C97_stops.
Print Assumptions C97_then.
Print Assumptions C97_release_refuted.
Print Assumptions C97_written_refuted.
Print Assumptions C97_fields_refuted.
Print Assumptions C97_infinite_refuted.
