(** C43, C70: equations of state. *)
From Coquelicot Require Import Coquelicot.
From Verif Require Import Base Eos_model.
Local Open Scope R_scope.

(** The same particle at another density. *)
Definition at_rho (p : fluid) (r : R) : fluid := Fluid r (f_P p) (f_K p) (f_u p) (f_cs p) (f_Ye p).

Lemma near (x e : R) (Q : R -> Prop) : 0 < e -> (forall t : R, x - e < t < x + e -> Q t) -> locally x Q.
Proof.
  intros He H. exists (mkposreal e He). intros t Ht. apply H. change (Rabs (t + - x) < e) in Ht. apply Rabs_def2 in Ht. lra.
Qed.
Lemma derive_ext (f g : R -> R) x (l : R) : (forall t, f t = g t :> R) -> is_derive f x l -> is_derive g x l.
Proof. intros H. apply is_derive_ext. exact H. Qed.
Lemma derive_ext_loc (f g : R -> R) x (l : R) : locally x (fun t => f t = g t :> R) -> is_derive f x l -> is_derive g x l.
Proof. intros H. apply is_derive_ext_loc. exact H. Qed.
Lemma cont_ext (f g : R -> R) x : (forall t, f t = g t :> R) -> continuous f x -> continuous g x.
Proof. intros H. apply continuous_ext. exact H. Qed.

Lemma Rpower_pos x y : 0 < Rpower x y.
Proof. apply exp_pos. Qed.
Lemma Rpower_sum x y z w : y + z = w -> Rpower x y * Rpower x z = Rpower x w.
Proof. intros <-. symmetry. apply Rpower_plus. Qed.
Lemma Rpower_deriv a x : 0 < x -> is_derive (fun r => Rpower r a) x (a * Rpower x (a - 1)).
Proof. intros H. apply is_derive_Reals. apply derivable_pt_lim_power. assumption. Qed.
Lemma Rpower_scal_deriv c a x : 0 < x -> is_derive (fun r => c * Rpower r a) x (c * (a * Rpower x (a - 1))).
Proof. intros H. apply is_derive_scal, Rpower_deriv, H. Qed.
Lemma Rpower_div x a : 0 < x -> Rpower x (a - 1) = Rpower x a / x.
Proof. intros H. rewrite <- (Rpower_sum x a (- (1)) (a - 1)) by ring. rewrite Rpower_Ropp, Rpower_1 by assumption. reflexivity. Qed.

(** ** polytropic and ideal *)
Theorem C43_adiabat_reproduces_pressure q p : 0 < f_rho p ->
  f_P (poly_pressure q (poly_init q p)) = f_P p /\
  f_P (ideal_pressure q (ideal_energy q (ideal_init q p))) = (if Req_EM_T (gamma q) 1 then 0 else f_P p).
Proof.
  intros H. cbn. unfold adiabatic_given_rhoP. pose proof (Rpower_pos (f_rho p) (gamma q)) as Hp. split; [field; lra|].
  destruct (Req_EM_T (gamma q) 1) as [->|Hg]; [ring|]. rewrite (Rpower_div _ _ H). field. lra.
Qed.

Theorem C43_polytropic_soundspeed q p : 0 < f_rho p -> 0 <= f_K p * gamma q ->
  is_derive (fun r => f_P (poly_pressure q (at_rho p r))) (f_rho p) (square (f_cs (poly_soundspeed q p))).
Proof.
  intros H HK. cbn. unfold square. rewrite sqrt_sqrt by (apply Rmult_le_pos; [assumption|apply Rlt_le, Rpower_pos]).
  rewrite Rmult_assoc. apply Rpower_scal_deriv, H.
Qed.

(** First law along the adiabat: du = P/rho^2 d rho. *)
Theorem C43_polytropic_energy q p : 0 < f_rho p -> gamma q <> 1 ->
  is_derive (fun r => f_u (poly_energy q (at_rho p r))) (f_rho p) (f_P (poly_pressure q p) / square (f_rho p)) /\
  f_P (poly_pressure q p) = (gamma q - 1) * f_rho p * f_u (poly_energy q p).
Proof.
  intros H Hg. cbn. unfold square. rewrite (Rpower_div _ _ H). split; [|field; lra].
  apply derive_ext with (fun r => (f_K p / (gamma q - 1)) * Rpower r (gamma q - 1)); [intros t; unfold Rdiv; ring|].
  replace (f_K p * Rpower (f_rho p) (gamma q) / (f_rho p * f_rho p))
    with (f_K p / (gamma q - 1) * ((gamma q - 1) * Rpower (f_rho p) (gamma q - 1 - 1))).
  - apply Rpower_scal_deriv, H.
  - rewrite !(Rpower_div _ _ H). field. lra.
Qed.

(** For the ideal gas on the adiabat K the pressure and the sound speed are
    those of the polytrope, whatever values the particle had before. *)
Theorem C43_ideal_soundspeed q p : 0 < f_rho p -> gamma q <> 1 -> 0 <= f_K p * gamma q ->
  f_P (ideal_pressure q (ideal_energy q p)) = f_P (poly_pressure q p) /\
  is_derive (fun r => f_P (ideal_pressure q (ideal_energy q (at_rho p r)))) (f_rho p)
    (square (f_cs (ideal_soundspeed q (ideal_energy q p)))).
Proof.
  intros H Hg HK. cbn. split; [rewrite (Rpower_div _ _ H); field; lra|].
  assert (E : gamma q * (gamma q - 1) * (f_K p * Rpower (f_rho p) (gamma q - 1) / (gamma q - 1)) =
              f_K p * (gamma q * Rpower (f_rho p) (gamma q - 1))) by (field; lra).
  unfold square. rewrite sqrt_sqrt.
  - rewrite E. eapply derive_ext_loc; [|apply (Rpower_scal_deriv (f_K p) (gamma q)); exact H].
    apply (near _ _ _ H). intros t Ht. rewrite (Rpower_div t) by lra. field. lra.
  - rewrite E, <- Rmult_assoc. apply Rmult_le_pos; [assumption|apply Rlt_le, Rpower_pos].
Qed.

(** ** piecewise polytrope *)
Lemma below_true q r : r < density_thr q -> below q r = true.
Proof. intros H. unfold below. destruct (Rlt_dec _ _); [reflexivity|lra]. Qed.
Lemma below_false q r : density_thr q <= r -> below q r = false.
Proof. intros H. unfold below. destruct (Rlt_dec _ _); [lra|reflexivity]. Qed.

Theorem C43_ppt_adiabat q p : 0 < f_rho p -> f_P (ppt_pressure q (ppt_init q p)) = f_P p.
Proof.
  intros H. cbn. destruct (below q (f_rho p)).
  - pose proof (Rpower_pos (f_rho p) (gamma q)). field. lra.
  - pose proof (Rpower_pos (f_rho p) (gamma2 q)).
    assert (E : Rpower (density_thr q) (gamma2 q - gamma q) * Rpower (density_thr q) (gamma q - gamma2 q) = 1).
    { rewrite (Rpower_sum (density_thr q) _ _ 0) by ring. unfold Rpower. rewrite Rmult_0_l. apply exp_0. }
    match goal with |- ?a * ?b * ?c * ?d = _ => replace (a * b * c * d) with (a * (b * c) * d) by ring end. rewrite E. field. lra.
Qed.

(** c^2 = dP/d rho on both sides of the threshold. *)
Theorem C43_ppt_soundspeed q p : 0 < f_rho p -> f_rho p <> density_thr q -> 0 < density_thr q ->
  0 <= f_K p -> 0 <= gamma q -> 0 <= gamma2 q ->
  is_derive (fun r => f_P (ppt_pressure q (at_rho p r))) (f_rho p) (square (f_cs (ppt_soundspeed q p))) /\
  (gamma q <> 1 -> gamma2 q <> 1 ->
   is_derive (fun r => f_u (ppt_energy q (at_rho p r))) (f_rho p) (f_P (ppt_pressure q p) / square (f_rho p))).
Proof.
  intros H Hne Ht HK Hg Hg2. cbn. unfold square.
  set (K2 := f_K p * Rpower (density_thr q) (gamma q - gamma2 q)).
  assert (HK2 : 0 <= K2) by (apply Rmult_le_pos; [assumption|apply Rlt_le, Rpower_pos]).
  destruct (Rlt_dec (f_rho p) (density_thr q)) as [L|L].
  - assert (Loc : locally (f_rho p) (fun r => below q r = true)).
    { apply (near _ (density_thr q - f_rho p)); [lra|]. intros t Hb.
      apply below_true. lra. }
    rewrite (below_true q (f_rho p)) by assumption. split.
    + rewrite sqrt_sqrt by (apply Rmult_le_pos; [apply Rmult_le_pos; assumption|apply Rlt_le, Rpower_pos]). rewrite Rmult_assoc.
      eapply derive_ext_loc; [|apply (Rpower_scal_deriv (f_K p) (gamma q)); exact H].
      revert Loc. apply filter_imp. intros t ->. reflexivity.
    + intros G1 G2. apply derive_ext_loc with (fun r => (f_K p / (gamma q - 1)) * Rpower r (gamma q - 1)).
      { revert Loc. apply filter_imp. intros t ->. unfold Rdiv. ring. }
      replace (f_K p * Rpower (f_rho p) (gamma q) / (f_rho p * f_rho p))
        with (f_K p / (gamma q - 1) * ((gamma q - 1) * Rpower (f_rho p) (gamma q - 1 - 1))) by (rewrite !(Rpower_div _ _ H); field; lra).
      apply Rpower_scal_deriv, H.
  - assert (L' : density_thr q < f_rho p) by lra.
    assert (Loc : locally (f_rho p) (fun r => below q r = false)).
    { apply (near _ (f_rho p - density_thr q)); [lra|]. intros t Hb.
      apply below_false. lra. }
    rewrite (below_false q (f_rho p)) by lra. split.
    + rewrite sqrt_sqrt by (apply Rmult_le_pos; [apply Rmult_le_pos; assumption|apply Rlt_le, Rpower_pos]). rewrite Rmult_assoc.
      eapply derive_ext_loc; [|apply (Rpower_scal_deriv K2 (gamma2 q)); exact H].
      revert Loc. apply filter_imp. intros t ->. reflexivity.
    + intros G1 G2.
      set (c := - K2 * Rpower (density_thr q) (gamma2 q - 1) / (gamma2 q - 1) + f_K p * Rpower (density_thr q) (gamma q - 1) / (gamma q - 1)).
      apply derive_ext_loc with (fun r => plus ((K2 / (gamma2 q - 1)) * Rpower r (gamma2 q - 1)) c).
      { revert Loc. apply filter_imp. intros t ->. unfold plus, c, Rdiv. cbn. fold K2. ring. }
      replace (K2 * Rpower (f_rho p) (gamma2 q) / (f_rho p * f_rho p))
        with (plus (K2 / (gamma2 q - 1) * ((gamma2 q - 1) * Rpower (f_rho p) (gamma2 q - 1 - 1))) zero)
        by (unfold plus, zero; cbn; rewrite !(Rpower_div _ _ H); field; lra).
      apply (is_derive_plus (fun r => K2 / (gamma2 q - 1) * Rpower r (gamma2 q - 1)) (fun _ => c)); [apply Rpower_scal_deriv, H|apply (@is_derive_const R_AbsRing R_NormedModule)].
Qed.

(** Pressure and energy are continuous everywhere, the threshold included. *)
Lemma glue (f g : R -> R) t x : continuous f x -> continuous g x -> f t = g t ->
  continuous (fun r => if Rlt_dec r t then f r else g r) x.
Proof.
  intros Hf Hg E. destruct (Rtotal_order x t) as [L|[->|L]].
  - eapply continuous_ext_loc; [|exact Hf]. apply (near _ (t - x)); [lra|]. intros y Hy. destruct (Rlt_dec y t); [reflexivity|lra].
  - intros P HP. destruct (Rlt_dec t t) as [L|_]; [lra|]. rewrite <- E in HP.
    pose proof (Hf P HP) as F. rewrite E in HP. pose proof (Hg P HP) as G. unfold filtermap in *.
    generalize (filter_and _ _ F G). apply filter_imp. intros y [Y1 Y2]. destruct (Rlt_dec y t); assumption.
  - eapply continuous_ext_loc; [|exact Hg]. apply (near _ (x - t)); [lra|]. intros y Hy. destruct (Rlt_dec y t); [lra|reflexivity].
Qed.

Lemma power_cont c a x : 0 < x -> continuous (fun r => c * Rpower r a) x.
Proof. intros H. apply (ex_derive_continuous (fun r => c * Rpower r a)). eexists. apply Rpower_scal_deriv, H. Qed.

Theorem C43_ppt_continuous q p r : 0 < r -> 0 < density_thr q ->
  continuous (fun r => f_P (ppt_pressure q (at_rho p r))) r /\
  continuous (fun r => f_u (ppt_energy q (at_rho p r))) r.
Proof.
  intros H Ht. cbn. unfold below. set (t := density_thr q) in *.
  set (K2 := f_K p * Rpower t (gamma q - gamma2 q)). split.
  - apply cont_ext with (fun r => if Rlt_dec r t then f_K p * Rpower r (gamma q) else K2 * Rpower r (gamma2 q)).
    { intros x. destruct (Rlt_dec x t); reflexivity. }
    apply glue; [apply power_cont, H|apply power_cont, H|].
    unfold K2. rewrite Rmult_assoc, (Rpower_sum t _ _ (gamma q)) by ring. reflexivity.
  - set (c := - K2 * Rpower t (gamma2 q - 1) / (gamma2 q - 1) + f_K p * Rpower t (gamma q - 1) / (gamma q - 1)).
    apply cont_ext with (fun r => if Rlt_dec r t then (f_K p / (gamma q - 1)) * Rpower r (gamma q - 1)
       else (K2 / (gamma2 q - 1)) * Rpower r (gamma2 q - 1) + c).
    { intros x. destruct (Rlt_dec x t); [unfold Rdiv; ring|]. fold K2. unfold c, Rdiv. ring. }
    apply glue; [apply power_cont, H| |].
    + apply (continuous_plus (fun r => K2 / (gamma2 q - 1) * Rpower r (gamma2 q - 1)) (fun _ => c)); [apply power_cont, H|apply continuous_const].
    + unfold c, Rdiv. ring.
Qed.

(** ** white dwarf *)
Definition psi (x : R) : R := x * (2 * (x * x) - 3) * sqrt (x * x + 1) + 3 * arcsinh x.
Lemma psi_deriv x : is_derive psi x (8 * (x * x * (x * x)) / sqrt (x * x + 1)).
Proof.
  assert (H1 : 0 < x * x + 1) by nra.
  pose proof (sqrt_lt_R0 _ H1) as Hs. pose proof (sqrt_sqrt (x * x + 1) (Rlt_le _ _ H1)) as Hss.
  unfold psi.
  assert (Da : is_derive arcsinh x (/ sqrt (x * x + 1))).
  { apply is_derive_Reals. replace (x * x + 1) with (x ^ 2 + 1) by ring. apply derivable_pt_lim_arcsinh. }
  assert (Db : is_derive (fun x => x * (2 * (x * x) - 3) * sqrt (x * x + 1)) x
     ((6 * (x * x) - 3) * sqrt (x * x + 1) + x * (2 * (x * x) - 3) * (x / sqrt (x * x + 1)))).
  { auto_derive; [assumption|]. field. lra. }
  replace (8 * (x * x * (x * x)) / sqrt (x * x + 1)) with
    (plus ((6 * (x * x) - 3) * sqrt (x * x + 1) + x * (2 * (x * x) - 3) * (x / sqrt (x * x + 1))) (3 * / sqrt (x * x + 1))).
  - apply (is_derive_plus (fun x => x * (2 * (x * x) - 3) * sqrt (x * x + 1)) (fun x => 3 * arcsinh x)); [exact Db|].
    apply is_derive_scal, Da.
  - unfold plus. cbn. apply (Rmult_eq_reg_r (sqrt (x * x + 1))); [|lra].
    replace (((6 * (x * x) - 3) * sqrt (x * x + 1) + x * (2 * (x * x) - 3) * (x / sqrt (x * x + 1)) + 3 * / sqrt (x * x + 1)) * sqrt (x * x + 1))
      with ((6 * (x * x) - 3) * (sqrt (x * x + 1) * sqrt (x * x + 1)) + x * (2 * (x * x) - 3) * x + 3) by (field; lra).
    rewrite Hss. field. lra.
Qed.

Lemma wd_x_deriv Ye rho : 0 < rho -> 0 < Ye ->
  0 < wd_x rho Ye /\ cube (wd_x rho Ye) = rho * Ye / B_wd_nm /\ is_derive (fun r => wd_x r Ye) rho (wd_x rho Ye / (3 * rho)).
Proof.
  intros H HY. assert (HB : 0 < B_wd_nm) by (unfold B_wd_nm; lra).
  assert (H0 : 0 < rho * Ye / B_wd_nm) by (apply Rdiv_lt_0_compat; [nra|assumption]).
  split; [apply Rpower_pos|]. split.
  - unfold wd_x, cube. rewrite (Rpower_sum _ _ _ (2 / 3)) by field. rewrite (Rpower_sum _ _ _ 1) by field. apply Rpower_1, H0.
  - unfold wd_x.
    replace (Rpower (rho * Ye / B_wd_nm) (1 / 3) / (3 * rho)) with
      (scal (Ye / B_wd_nm) ((1 / 3) * Rpower (rho * Ye / B_wd_nm) (1 / 3 - 1))).
    + apply (is_derive_comp (fun y => Rpower y (1 / 3)) (fun r => r * Ye / B_wd_nm)); [apply Rpower_deriv, H0|].
      auto_derive; [trivial|]. field. lra.
    + unfold scal. cbn. unfold mult. cbn. rewrite (Rpower_div _ _ H0). field. lra.
Qed.

(** First law: du/d rho = P/rho^2 for the cold gas; and the pressure increases. *)
Theorem C43_wd_energy p : 0 < f_rho p -> 0 < f_Ye p ->
  is_derive (fun r => f_u (wd_energy (at_rho p r))) (f_rho p) (f_P (wd_pressure p) / square (f_rho p)) /\
  exists dP, 0 < dP /\ is_derive (fun r => f_P (wd_pressure (at_rho p r))) (f_rho p) dP.
Proof.
  intros H HY. destruct (wd_x_deriv (f_Ye p) (f_rho p) H HY) as (Hx & Hc & Hd).
  cbn. unfold pressure_given_rhoYe. set (rho := f_rho p) in *. set (Ye := f_Ye p) in *. set (x := wd_x rho Ye) in *.
  assert (H1 : 0 < x * x + 1) by nra. pose proof (sqrt_lt_R0 _ H1) as Hs. pose proof (sqrt_sqrt (x * x + 1) (Rlt_le _ _ H1)) as Hss.
  assert (HA : 0 < A_wd) by (unfold A_wd; lra).
  change (fun r => A_wd * (wd_x r Ye * (2 * square (wd_x r Ye) - 3) * sqrt (square (wd_x r Ye) + 1) + 3 * arcsinh (wd_x r Ye)))
    with (fun r => A_wd * psi (wd_x r Ye)).
  assert (DP : is_derive (fun r => A_wd * psi (wd_x r Ye)) rho (A_wd * ((x / (3 * rho)) * (8 * (x * x * (x * x)) / sqrt (x * x + 1))))).
  { apply is_derive_scal. apply (is_derive_comp psi (fun r => wd_x r Ye)); [apply psi_deriv|exact Hd]. }
  split.
  - set (E := fun y => 8 * cube y * (sqrt (square y + 1) - 1) - psi y).
    assert (DE : is_derive E x (24 * (x * x) * (sqrt (x * x + 1) - 1))).
    { unfold E. replace (24 * (x * x) * (sqrt (x * x + 1) - 1)) with
        (minus (24 * (x * x) * (sqrt (x * x + 1) - 1) + 8 * (x * x * x) * (x / sqrt (x * x + 1))) (8 * (x * x * (x * x)) / sqrt (x * x + 1))).
      - apply (is_derive_minus (fun y => 8 * cube y * (sqrt (square y + 1) - 1)) psi); [|apply psi_deriv].
        unfold cube, square. auto_derive; [assumption|]. field. lra.
      - unfold minus, plus, opp. cbn. field. lra. }
    change (is_derive (fun r => A_wd / r * E (wd_x r Ye)) rho (A_wd * psi x / square rho)).
    replace (A_wd * psi x / square rho) with (plus (mult (- A_wd / (rho * rho)) (E x)) (mult (A_wd / rho) (x / (3 * rho) * (24 * (x * x) * (sqrt (x * x + 1) - 1))))).
    + apply (is_derive_mult (fun r => A_wd / r) (fun r => E (wd_x r Ye))).
      * auto_derive; [lra|]. field. lra.
      * apply (is_derive_comp E (fun r => wd_x r Ye)); [exact DE|exact Hd].
      * intros; apply Rmult_comm.
    + unfold plus, mult, square, E, cube, square. cbn. field. lra.
  - eexists. split; [|exact DP]. apply Rmult_lt_0_compat; [assumption|]. apply Rmult_lt_0_compat; [apply Rdiv_lt_0_compat; lra|].
    apply Rdiv_lt_0_compat; [|assumption]. repeat apply Rmult_lt_0_compat; lra.
Qed.

(** The coded sound speed is c sqrt(dP/de) with e the energy density of the
    electrons alone, rest mass included: the ions carry no inertia. *)
Theorem C70_wd_soundspeed_electrons p : 0 < f_rho p -> 0 < f_Ye p ->
  exists dP de, 0 < de /\ is_derive (fun r => f_P (wd_pressure (at_rho p r))) (f_rho p) dP /\
    is_derive (fun r => r * f_u (wd_energy (at_rho p r)) + 8 * A_wd * cube (wd_x r (f_Ye p))) (f_rho p) de /\
    square (f_cs (wd_soundspeed p)) = square c_light * (dP / de).
Proof.
  intros H HY. destruct (wd_x_deriv (f_Ye p) (f_rho p) H HY) as (Hx & Hc & Hd).
  cbn. unfold pressure_given_rhoYe, soundspeed_given_rhoYe. set (rho := f_rho p) in *. set (Ye := f_Ye p) in *.
  set (x := wd_x rho Ye) in *.
  assert (H1 : 0 < x * x + 1) by nra. pose proof (sqrt_lt_R0 _ H1) as Hs. pose proof (sqrt_sqrt (x * x + 1) (Rlt_le _ _ H1)) as Hss.
  assert (HA : 0 < A_wd) by (unfold A_wd; lra).
  change (fun r => A_wd * (wd_x r Ye * (2 * square (wd_x r Ye) - 3) * sqrt (square (wd_x r Ye) + 1) + 3 * arcsinh (wd_x r Ye)))
    with (fun r => A_wd * psi (wd_x r Ye)).
  exists (A_wd * ((x / (3 * rho)) * (8 * (x * x * (x * x)) / sqrt (x * x + 1)))), (A_wd * ((x / (3 * rho)) * (24 * (x * x) * sqrt (x * x + 1)))).
  split; [repeat apply Rmult_lt_0_compat; try lra; apply Rinv_0_lt_compat; lra|]. split.
  { apply is_derive_scal. apply (is_derive_comp psi (fun r => wd_x r Ye)); [apply psi_deriv|exact Hd]. }
  split.
  - set (E := fun y => 8 * cube y * sqrt (square y + 1) - psi y).
    assert (DE : is_derive E x (24 * (x * x) * sqrt (x * x + 1))).
    { unfold E. replace (24 * (x * x) * sqrt (x * x + 1)) with
        (minus (24 * (x * x) * sqrt (x * x + 1) + 8 * (x * x * x) * (x / sqrt (x * x + 1))) (8 * (x * x * (x * x)) / sqrt (x * x + 1))).
      - apply (is_derive_minus (fun y => 8 * cube y * sqrt (square y + 1)) psi); [|apply psi_deriv].
        unfold cube, square. auto_derive; [assumption|]. field. lra.
      - unfold minus, plus, opp. cbn. field. lra. }
    apply derive_ext_loc with (fun r => A_wd * E (wd_x r Ye)).
    + apply (near _ _ _ H). intros t Ht. unfold E, psi, square. field. lra.
    + apply is_derive_scal. apply (is_derive_comp E (fun r => wd_x r Ye)); [exact DE|exact Hd].
  - set (s := sqrt (x * x + 1)) in *. unfold square.
    assert (Hx4 : 0 < x * x * (x * x)) by (repeat apply Rmult_lt_0_compat; assumption).
    replace ((1 + x * x) * (6 * (x * x) - 3) + 3 + x * x * (2 * (x * x) - 3)) with (8 * (x * x * (x * x))) by ring.
    replace ((1 + x * x) * (6 * (x * x) + 1) - 1 + x * x * (2 * (x * x) + 1)) with (8 * (x * x) * (s * s)) by (rewrite Hss; ring).
    assert (Q : 0 <= 8 * (x * x * (x * x)) / (3 * (8 * (x * x) * (s * s)))).
    { apply Rlt_le, Rdiv_lt_0_compat; [lra|]. repeat apply Rmult_lt_0_compat; lra. }
    match goal with |- ?a * c_light * (?a * c_light) = _ => replace (a * c_light * (a * c_light)) with (c_light * c_light * (a * a)) by ring end.
    rewrite (sqrt_sqrt _ Q). f_equal. field. lra.
Qed.

(** It is not the derivative of pressure with respect to the mass density. *)
Theorem C70_wd_soundspeed_refuted : exists p dP, 0 < f_rho p /\ 0 < f_Ye p /\
  is_derive (fun r => f_P (wd_pressure (at_rho p r))) (f_rho p) dP /\
  square (f_cs (wd_soundspeed p)) > 900 * dP.
Proof.
  set (p := Fluid (2 * B_wd_nm) 0 0 0 0 (1 / 2)).
  assert (HB : 0 < B_wd_nm) by (unfold B_wd_nm; lra). assert (HA : 0 < A_wd) by (unfold A_wd; lra).
  assert (H : 0 < f_rho p) by (cbn; lra). assert (HY : 0 < f_Ye p) by (cbn; lra).
  destruct (wd_x_deriv (f_Ye p) (f_rho p) H HY) as (Hx & Hc & Hd).
  assert (X : wd_x (f_rho p) (f_Ye p) = 1).
  { unfold wd_x. cbn. replace (2 * B_wd_nm * (1 / 2) / B_wd_nm) with 1 by (field; lra). unfold Rpower. rewrite ln_1, Rmult_0_r. apply exp_0. }
  assert (DP : is_derive (fun r => f_P (wd_pressure (at_rho p r))) (f_rho p) (A_wd * ((1 / (3 * (2 * B_wd_nm))) * (8 / sqrt 2)))).
  { cbn. unfold pressure_given_rhoYe.
    change (fun r => A_wd * (wd_x r (1 / 2) * (2 * square (wd_x r (1 / 2)) - 3) * sqrt (square (wd_x r (1 / 2)) + 1) + 3 * arcsinh (wd_x r (1 / 2))))
      with (fun r => A_wd * psi (wd_x r (1 / 2))).
    apply is_derive_scal. apply (is_derive_comp psi (fun r => wd_x r (1 / 2))).
    - change (wd_x (2 * B_wd_nm) (1 / 2)) with (wd_x (f_rho p) (f_Ye p)). rewrite X.
      replace (8 / sqrt 2) with (8 * (1 * 1 * (1 * 1)) / sqrt (1 * 1 + 1)) by (replace (1 * 1 + 1) with 2 by ring; f_equal; ring). apply psi_deriv.
    - rewrite X in Hd. exact Hd. }
  exists p, (A_wd * ((1 / (3 * (2 * B_wd_nm))) * (8 / sqrt 2))). split; [assumption|]. split; [assumption|]. split; [exact DP|].
  cbn [f_cs wd_soundspeed set_cs]. unfold soundspeed_given_rhoYe. rewrite X. unfold square.
  replace ((1 + 1 * 1) * (6 * (1 * 1) - 3) + 3 + 1 * 1 * (2 * (1 * 1) - 3)) with 8 by ring.
  replace ((1 + 1 * 1) * (6 * (1 * 1) + 1) - 1 + 1 * 1 * (2 * (1 * 1) + 1)) with 16 by ring.
  match goal with |- ?a * c_light * (?a * c_light) > _ => replace (a * c_light * (a * c_light)) with (c_light * c_light * (a * a)) by ring end.
  rewrite sqrt_sqrt by lra.
  assert (S2 : 1 < sqrt 2) by (rewrite <- sqrt_1 at 1; apply sqrt_lt_1; lra).
  assert (L : A_wd * (1 / (3 * (2 * B_wd_nm)) * (8 / sqrt 2)) < A_wd * (1 / (3 * (2 * B_wd_nm)) * 8)).
  { apply Rmult_lt_compat_l; [assumption|]. apply Rmult_lt_compat_l; [apply Rdiv_lt_0_compat; lra|].
    apply (Rmult_lt_reg_r (sqrt 2)); [lra|]. unfold Rdiv. rewrite Rmult_assoc, Rinv_l by lra. lra. }
  apply Rgt_trans with (900 * (A_wd * (1 / (3 * (2 * B_wd_nm)) * 8))); [|lra].
  unfold A_wd, B_wd_nm, c_light. lra.
Qed.

(** A concrete particle that meets the hypotheses above. *)
Example C43_case : let q := EosPar (7 / 5) 2 1 in let p := Fluid 3 2 4 1 1 (1 / 2) in
  0 < f_rho p /\ gamma q <> 1 /\ gamma2 q <> 1 /\ 0 <= f_K p * gamma q /\ 0 <= f_K p /\ 0 <= gamma q /\ 0 <= gamma2 q /\
  f_rho p <> density_thr q /\ 0 < density_thr q /\ 0 < f_Ye p.
Proof. cbn. repeat split; lra. Qed.

Print Assumptions C43_adiabat_reproduces_pressure.
Print Assumptions C43_ppt_soundspeed.
Print Assumptions C43_ppt_continuous.
Print Assumptions C43_wd_energy.
Print Assumptions C70_wd_soundspeed_electrons.
Print Assumptions C70_wd_soundspeed_refuted.
