(** C42: external accelerations are minus the gradients of the external potentials. *)
From Coq Require Import String FunctionalExtensionality.
From Verif Require Import Base Vec Geometry_model Geometry_props Kernel_proofs Gravity_model Gravity_props Profile_model Eos_props Profile_props EForce_model.
From Coquelicot Require Import Coquelicot.
Local Open Scope R_scope.

(** [a] is minus the gradient of [phi] at [x] in dimension [n]: for each axis the
    derivative of [phi] along the axis is the negative of that component. *)
Definition minus_gradient (n : nat) (phi : point -> R) (a : point) (x : point) : Prop :=
  forall k, (k < n)%nat -> is_derive (fun t => phi (upd x k t)) (x k) (- a k).

(** ** One-sided powers *)
Definition ramp (m x : R) : R := if Rltb 0 x then Rpower x m else 0.

Lemma ramp_deriv m x : 1 < m -> is_derive (ramp m) x (m * ramp (m - 1) x).
Proof.
  intros Hm. unfold ramp. destruct (Rtotal_order 0 x) as [L|[<-|L]].
  - rewrite (proj2 (Rltb_true _ _)) by assumption. apply derive_ext_loc with (fun t => Rpower t m).
    + apply (near _ x); [assumption|]. intros t Ht. rewrite (proj2 (Rltb_true _ _)) by lra. reflexivity.
    + apply Rpower_deriv. assumption.
  - rewrite (proj2 (Rltb_false 0 0)) by lra. rewrite Rmult_0_r. apply is_derive_Reals. intros eps He.
    exists (mkposreal (Rpower eps (/ (m - 1))) (Rpower_pos _ _)). intros h Hh Hb. cbn in Hb.
    rewrite (proj2 (Rltb_false 0 0)) by lra. rewrite Rplus_0_l, Rminus_0_r, Rminus_0_r.
    destruct (Rltb 0 h) eqn:B.
    + apply Rltb_true in B. rewrite (Rabs_right h) in Hb by lra.
      rewrite <- Rpower_div by assumption. rewrite Rabs_right by (apply Rle_ge, Rlt_le, Rpower_pos).
      apply Rlt_le_trans with (Rpower (Rpower eps (/ (m - 1))) (m - 1)).
      * unfold Rpower at 1 2. apply exp_increasing, Rmult_lt_compat_l; [lra|]. apply ln_increasing; assumption.
      * rewrite Rpower_mult, Rinv_l, Rpower_1 by lra. lra.
    + unfold Rdiv. rewrite Rmult_0_l, Rabs_R0. assumption.
  - rewrite (proj2 (Rltb_false 0 x)) by lra. rewrite Rmult_0_r.
    apply derive_ext_loc with (fun _ => 0); [|apply (@is_derive_const R_AbsRing R_NormedModule)].
    apply (near _ (- x)); [lra|]. intros t Ht. rewrite (proj2 (Rltb_false _ _)) by lra. reflexivity.
Qed.

Lemma chain (f g : R -> R) x df dg l : is_derive f (g x) df -> is_derive g x dg -> l = df * dg -> is_derive (fun t => f (g t)) x l.
Proof. intros Hf Hg ->. rewrite Rmult_comm. apply (is_derive_comp f g x df dg Hf Hg). Qed.
Lemma derive_scal (f : R -> R) c x df l : is_derive f x df -> l = c * df -> is_derive (fun t => c * f t) x l.
Proof. intros Hf ->. apply (is_derive_scal f x c df Hf). Qed.
Lemma derive_plus (f g : R -> R) x df dg l : is_derive f x df -> is_derive g x dg -> l = df + dg -> is_derive (fun t => f t + g t) x l.
Proof. intros Hf Hg ->. apply (is_derive_plus f g x df dg Hf Hg). Qed.
Lemma derive_const c x l : l = 0 -> is_derive (fun _ : R => c) x l.
Proof. intros ->. apply (@is_derive_const R_AbsRing R_NormedModule). Qed.

Lemma upd_same x k t : upd x k t k = t.
Proof. unfold upd. rewrite Nat.eqb_refl. reflexivity. Qed.
Lemma upd_other x k t i : i <> k -> upd x k t i = x i.
Proof. intros H. unfold upd. destruct (Nat.eqb_spec i k); [contradiction|reflexivity]. Qed.

(** ** Walls *)
Lemma well_ramp q ax rp : potential_square_well q ax rp = pw_a q * (ramp (pw_n q) (- rp ax - half_box q ax) + ramp (pw_n q) (rp ax - half_box q ax)).
Proof.
  unfold potential_square_well, ramp.
  assert (E1 : Rltb (rp ax) (- half_box q ax) = Rltb 0 (- rp ax - half_box q ax)).
  { destruct (Rltb 0 _) eqn:B; [apply Rltb_true in B; apply Rltb_true; lra|apply Rltb_false in B; apply Rltb_false; lra]. }
  assert (E2 : Rltb (half_box q ax) (rp ax) = Rltb 0 (rp ax - half_box q ax)).
  { destruct (Rltb 0 (rp ax - _)) eqn:B; [apply Rltb_true in B; apply Rltb_true; lra|apply Rltb_false in B; apply Rltb_false; lra]. }
  rewrite E1, E2. ring.
Qed.
Lemma well_acc_ramp q ax rp : acceleration_square_well q ax rp ax =
  pw_a q * (pw_n q * ramp (pw_n q - 1) (- rp ax - half_box q ax) - pw_n q * ramp (pw_n q - 1) (rp ax - half_box q ax)).
Proof.
  unfold acceleration_square_well, ramp. rewrite Nat.eqb_refl.
  assert (E1 : Rltb (rp ax) (- half_box q ax) = Rltb 0 (- rp ax - half_box q ax)).
  { destruct (Rltb 0 _) eqn:B; [apply Rltb_true in B; apply Rltb_true; lra|apply Rltb_false in B; apply Rltb_false; lra]. }
  assert (E2 : Rltb (half_box q ax) (rp ax) = Rltb 0 (rp ax - half_box q ax)).
  { destruct (Rltb 0 (rp ax - _)) eqn:B; [apply Rltb_true in B; apply Rltb_true; lra|apply Rltb_false in B; apply Rltb_false; lra]. }
  rewrite E1, E2. ring.
Qed.

Theorem C42_walls n q ax x : (ax < n)%nat -> 1 < pw_n q ->
  minus_gradient n (potential_square_well q ax) (acceleration_square_well q ax x) x.
Proof.
  intros Hax Hp k Hk. destruct (Nat.eq_dec k ax) as [->|Hne].
  - apply derive_ext with (fun t => pw_a q * (ramp (pw_n q) (- t - half_box q ax) + ramp (pw_n q) (t - half_box q ax))).
    { intros t. rewrite well_ramp, upd_same. reflexivity. }
    rewrite well_acc_ramp.
    eapply derive_scal.
    + eapply derive_plus; [| |reflexivity].
      * eapply chain with (f := ramp (pw_n q)) (g := fun t => - t - half_box q ax); [apply ramp_deriv; assumption| |reflexivity].
        instantiate (1 := -1). auto_derive; [exact Logic.I|ring].
      * eapply chain with (f := ramp (pw_n q)) (g := fun t => t - half_box q ax); [apply ramp_deriv; assumption| |reflexivity].
        instantiate (1 := 1). auto_derive; [exact Logic.I|ring].
    + ring.
  - apply derive_ext with (fun _ => potential_square_well q ax x).
    { intros t. rewrite !well_ramp, upd_other by auto. reflexivity. }
    apply derive_const. unfold acceleration_square_well. destruct (Nat.eqb_spec k ax); [contradiction|ring].
Qed.

(** ** Spherical wall *)
Lemma radius_sqr_upd n x k t : (k < n)%nat ->
  radius n (upd x k t) = sqrt (sumn n (fun i => x i * x i) - x k * x k + t * t).
Proof.
  intros Hk. unfold radius. f_equal. pose proof (dist2_upd n x vzero k t Hk) as E. unfold dist2, vzero in E.
  rewrite (sumn_ext n _ (fun i => upd x k t i * upd x k t i)) in E by (intros; ring).
  rewrite (sumn_ext n (fun i => (x i - 0) * (x i - 0)) (fun i => x i * x i)) in E by (intros; ring).
  rewrite E. ring.
Qed.
Lemma radius_pos_sqr n x : 0 < radius n x -> 0 < sumn n (fun i => x i * x i).
Proof.
  intros H. unfold radius in H. destruct (Rle_lt_dec (sumn n (fun i => x i * x i)) 0) as [L|L]; [|exact L].
  rewrite sqrt_neg_0 in H by assumption. lra.
Qed.
Lemma radius_deriv n x k : (k < n)%nat -> 0 < radius n x -> is_derive (fun t => radius n (upd x k t)) (x k) (x k / radius n x).
Proof.
  intros Hk Hr. pose proof (radius_pos_sqr n x Hr) as Hs.
  apply derive_ext with (fun t => sqrt (sumn n (fun i => x i * x i) - x k * x k + t * t)).
  { intros t. rewrite radius_sqr_upd by assumption. reflexivity. }
  unfold radius in *. set (s := sumn n (fun i => x i * x i)) in *. clearbody s.
  auto_derive.
  - replace (s - x k * x k + x k * x k) with s by ring. exact Hs.
  - replace (s - x k * x k + x k * x k) with s by ring. field. lra.
Qed.
Lemma upd_self x k : upd x k (x k) = x.
Proof. apply functional_extensionality. intros i. unfold upd. destruct (Nat.eqb_spec i k); subst; reflexivity. Qed.
Lemma radius_cont n x k : (k < n)%nat -> continuous (fun t => radius n (upd x k t)) (x k).
Proof.
  intros Hk. apply cont_ext with (fun t => sqrt (sumn n (fun i => x i * x i) - x k * x k + t * t)).
  { intros t. rewrite radius_sqr_upd by assumption. reflexivity. }
  apply (continuous_comp (fun t => sumn n (fun i => x i * x i) - x k * x k + t * t) sqrt).
  - apply (ex_derive_continuous (K := R_AbsRing) (V := R_NormedModule)). auto_derive. exact Logic.I.
  - apply continuous_sqrt.
Qed.
(** near the point the radius stays below / above a bound it satisfies *)
Lemma radius_near_lt n x k c : (k < n)%nat -> radius n x < c -> locally (x k) (fun t => radius n (upd x k t) < c).
Proof.
  intros Hk H. apply (radius_cont n x k Hk (fun r => r < c)). rewrite upd_self. apply open_lt. exact H.
Qed.
Lemma radius_near_gt n x k c : (k < n)%nat -> c < radius n x -> locally (x k) (fun t => c < radius n (upd x k t)).
Proof.
  intros Hk H. apply (radius_cont n x k Hk (fun r => c < r)). rewrite upd_self. apply open_gt. exact H.
Qed.

Lemma wall_ramp n q rp : potential_spherical_wall n q rp = pw_a q * ramp (pw_n q) (radius n rp - sphere_radius q).
Proof.
  unfold potential_spherical_wall, ramp.
  assert (E1 : Rltb (sphere_radius q) (radius n rp) = Rltb 0 (radius n rp - sphere_radius q)).
  { destruct (Rltb 0 _) eqn:B; [apply Rltb_true in B; apply Rltb_true; lra|apply Rltb_false in B; apply Rltb_false; lra]. }
  cbv zeta. rewrite E1. clear E1. destruct (Rltb _ _); ring.
Qed.
Lemma wall_acc_ramp n q rp k : acceleration_spherical_wall n q rp k = - rp k / radius n rp * (pw_n q * pw_a q * ramp (pw_n q - 1) (radius n rp - sphere_radius q)).
Proof.
  unfold acceleration_spherical_wall, ramp.
  assert (E1 : Rltb (sphere_radius q) (radius n rp) = Rltb 0 (radius n rp - sphere_radius q)).
  { destruct (Rltb 0 _) eqn:B; [apply Rltb_true in B; apply Rltb_true; lra|apply Rltb_false in B; apply Rltb_false; lra]. }
  cbv zeta. rewrite E1. clear E1. destruct (Rltb _ _); ring.
Qed.

Theorem C42_spherical_wall n q x : 0 < sphere_radius q -> 1 < pw_n q ->
  minus_gradient n (potential_spherical_wall n q) (acceleration_spherical_wall n q x) x.
Proof.
  intros HR Hp k Hk. destruct (Rlt_le_dec 0 (radius n x)) as [L|L].
  - apply derive_ext with (fun t => pw_a q * ramp (pw_n q) (radius n (upd x k t) - sphere_radius q)).
    { intros t. rewrite wall_ramp. reflexivity. }
    rewrite wall_acc_ramp. eapply derive_scal.
    + eapply chain with (f := fun r => ramp (pw_n q) (r - sphere_radius q)) (g := fun t => radius n (upd x k t)); [|apply radius_deriv; assumption|reflexivity].
      rewrite upd_self. eapply chain with (f := ramp (pw_n q)) (g := fun r => r - sphere_radius q); [apply ramp_deriv; assumption| |reflexivity].
      instantiate (1 := 1). auto_derive; [exact Logic.I|ring].
    + field. lra.
  - apply derive_ext_loc with (fun _ => 0).
    + apply (filter_imp (fun t => radius n (upd x k t) < sphere_radius q)); [|apply radius_near_lt; [assumption|lra]].
      intros t Ht. rewrite wall_ramp. unfold ramp. rewrite (proj2 (Rltb_false _ _)) by lra. ring.
    + apply derive_const. rewrite wall_acc_ramp. unfold ramp. rewrite (proj2 (Rltb_false _ _)) by lra. ring.
Qed.

(** ** Density support *)
(** Away from the centre and from the zeros of the profile, for a profile whose
    coded derivative is its derivative. *)
Lemma support_gradient n q prof dprof x : 0 < sphere_radius q -> 1 < pw_n q -> poly_gamma q <> 1 -> rho_initial q <> 0 -> prof 0 <> 0 ->
  let X := radius n x / sphere_radius q in
  / 10 ^ 12 < X -> is_derive prof X (dprof X) -> prof X <> 0 ->
  minus_gradient n (potential_spherical_density_support n q prof) (acceleration_spherical_density_support n q prof dprof x) x.
Proof.
  intros HR Hp Hg Hr0 Hp0 X HX Hd Hne k Hk.
  assert (He : 0 < / 10 ^ 12) by (apply Rinv_0_lt_compat; lra).
  assert (Hrad : 0 < radius n x).
  { destruct (Rlt_le_dec 0 (radius n x)) as [L|L]; [exact L|]. unfold X in HX.
    assert (0 <= radius n x) by apply sqrt_pos. assert (Z0 : radius n x = 0) by lra. rewrite Z0 in HX. unfold Rdiv in HX. rewrite Rmult_0_l in HX. lra. }
  unfold potential_spherical_density_support, acceleration_spherical_density_support. cbv zeta.
  rewrite (proj2 (Rltb_true _ _)) by exact HX. fold X.
  set (c := rho_initial q / rho0 prof).
  assert (Hc : c <> 0). { unfold c, rho0, Rdiv. intros E. apply Rmult_integral in E. destruct E as [E|E]; [auto|]. apply Rinv_neq_0_compat in Hp0. auto. }
  (* the density along the axis *)
  set (rh := fun t => c * prof (radius n (upd x k t) / sphere_radius q)).
  assert (Hrh : is_derive rh (x k) (c * (dprof X * (/ sphere_radius q * (x k / radius n x))))).
  { unfold rh. eapply derive_scal; [|reflexivity].
    eapply chain with (f := prof) (g := fun t => radius n (upd x k t) / sphere_radius q).
    - rewrite upd_self. exact Hd.
    - apply derive_ext with (fun t => / sphere_radius q * radius n (upd x k t)); [intros t; unfold Rdiv; ring|].
      eapply derive_scal; [apply radius_deriv; assumption|reflexivity].
    - ring. }
  assert (Hrh0 : rh (x k) = c * prof X) by (unfold rh; rewrite upd_self; reflexivity).
  assert (Hrc : continuous rh (x k)) by (apply (ex_derive_continuous (K := R_AbsRing) (V := R_NormedModule)); eexists; exact Hrh).
  assert (Ev : c * prof X <> 0) by (apply Rmult_integral_contrapositive_currified; assumption).
  pose proof (C42_spherical_wall n q x HR Hp k Hk) as HW.
  eapply derive_plus; [| exact HW |].
  - instantiate (1 := - (if Rltb 0 (c * prof X) then K0 q * poly_gamma q * Rpower (c * prof X) (poly_gamma q - 2) * (c / sphere_radius q * dprof X) else 0) * x k / radius n x).
    destruct (Rlt_le_dec 0 (c * prof X)) as [L|L].
    + rewrite (proj2 (Rltb_true _ _)) by assumption.
      apply derive_ext_loc with (fun t => - K0 q * poly_gamma q * / (poly_gamma q - 1) * Rpower (rh t) (poly_gamma q - 1)).
      * apply (filter_imp (fun t => 0 < rh t)); [|apply (Hrc (fun r => 0 < r)); apply open_gt; rewrite Hrh0; exact L].
        intros t Ht. unfold rh in Ht. rewrite (proj2 (Rltb_true _ _)) by exact Ht. unfold rh. unfold Rdiv. ring.
      * eapply derive_scal.
        -- eapply chain with (f := fun r => Rpower r (poly_gamma q - 1)) (g := rh); [apply Rpower_deriv; rewrite Hrh0; exact L|exact Hrh|reflexivity].
        -- rewrite Hrh0. replace (poly_gamma q - 1 - 1) with (poly_gamma q - 2) by ring. field. repeat split; lra.
    + assert (L' : c * prof X < 0) by lra. rewrite (proj2 (Rltb_false _ _)) by assumption.
      apply derive_ext_loc with (fun _ => 0).
      * apply (filter_imp (fun t => rh t < 0)); [|apply (Hrc (fun r => r < 0)); apply open_lt; rewrite Hrh0; exact L'].
        intros t Ht. unfold rh in Ht. rewrite (proj2 (Rltb_false _ _)) by (fold c; lra). reflexivity.
      * apply derive_const. unfold Rdiv. ring.
  - destruct (Rltb 0 (c * prof X)); [|unfold Rdiv; ring].
    replace (rho_initial q / (rho0 prof * sphere_radius q)) with (c / sphere_radius q) by (unfold c, rho0; field; split; [lra|assumption]).
    field. lra.
Qed.

(** Inside the sphere the support acceleration balances the gradient of the polytropic pressure that takes the value
    pressure_initial at the density rho_initial: rho a = grad P. *)
Theorem C42_hydrostatic n q prof dprof x : 0 < sphere_radius q -> 0 < rho_initial q -> 0 < prof 0 ->
  let X := radius n x / sphere_radius q in / 10 ^ 12 < X -> X <= 1 -> is_derive prof X (dprof X) -> 0 < prof X ->
  let dens := fun y => rho_initial q * (prof (radius n y / sphere_radius q) / prof 0) in
  forall k, (k < n)%nat -> is_derive (fun t => pressure_initial q * Rpower (dens (upd x k t) / rho_initial q) (poly_gamma q)) (x k) (dens x * acceleration_spherical_density_support n q prof dprof x k).
Proof.
  intros HR Hr0 Hp0 X HX HX1 Hd Hne dens k Hk.
  assert (He : 0 < / 10 ^ 12) by (apply Rinv_0_lt_compat; lra).
  assert (Hrad : 0 < radius n x).
  { destruct (Rlt_le_dec 0 (radius n x)) as [L|L]; [exact L|]. unfold X in HX.
    assert (0 <= radius n x) by apply sqrt_pos. assert (Z0 : radius n x = 0) by lra. rewrite Z0 in HX. unfold Rdiv in HX. rewrite Rmult_0_l in HX. lra. }
  assert (Hin : radius n x <= sphere_radius q) by (replace (radius n x) with (X * sphere_radius q) by (unfold X; field; lra); nra).
  unfold acceleration_spherical_density_support, acceleration_spherical_wall. cbv zeta. rewrite (proj2 (Rltb_true _ _)) by exact HX. rewrite (proj2 (Rltb_false (sphere_radius q) _)) by exact Hin. fold X.
  assert (HC : 0 < rho_initial q / rho0 prof * prof X) by (unfold rho0; apply Rmult_lt_0_compat; [apply Rdiv_lt_0_compat; assumption | exact Hne]).
  rewrite (proj2 (Rltb_true _ _)) by exact HC. rewrite Rplus_0_r. set (w := prof X / prof 0). assert (Hw : 0 < w) by (apply Rdiv_lt_0_compat; assumption).
  replace (rho_initial q / rho0 prof * prof X) with (rho_initial q * w) by (unfold w, rho0; field; lra). change (dens x) with (rho_initial q * w).
  apply derive_ext with (fun t => pressure_initial q * Rpower (/ prof 0 * prof (radius n (upd x k t) / sphere_radius q)) (poly_gamma q)).
  { intros t. unfold dens. f_equal. f_equal. field. lra. }
  assert (Hrh : is_derive (fun t => / prof 0 * prof (radius n (upd x k t) / sphere_radius q)) (x k) (/ prof 0 * (dprof X * (/ sphere_radius q * (x k / radius n x))))).
  { eapply derive_scal; [|reflexivity]. eapply chain with (f := prof) (g := fun t => radius n (upd x k t) / sphere_radius q).
    - rewrite upd_self. exact Hd.
    - apply derive_ext with (fun t => / sphere_radius q * radius n (upd x k t)); [intros t; unfold Rdiv; ring|]. eapply derive_scal; [apply radius_deriv; assumption|reflexivity].
    - ring. }
  assert (Ew : / prof 0 * prof (radius n (upd x k (x k)) / sphere_radius q) = w) by (rewrite upd_self; fold X; unfold w; field; lra).
  eapply derive_scal.
  - eapply chain with (f := fun r => Rpower r (poly_gamma q)) (g := fun t => / prof 0 * prof (radius n (upd x k t) / sphere_radius q)); [cbv beta; rewrite Ew; apply Rpower_deriv; exact Hw | exact Hrh | reflexivity].
  - unfold K0. rewrite (Rpower_mult_distr (rho_initial q) w (poly_gamma q - 2)) || rewrite <- (Rpower_mult_distr (rho_initial q) w (poly_gamma q - 2)) by lra.
    assert (E1 : Rpower (rho_initial q) (poly_gamma q) = Rpower (rho_initial q) (poly_gamma q - 2) * (rho_initial q * rho_initial q)) by (replace (poly_gamma q) with (poly_gamma q - 2 + 1 + 1) at 1 by ring; rewrite !Rpower_plus, !Rpower_1 by lra; ring).
    assert (E2 : Rpower w (poly_gamma q - 1) = Rpower w (poly_gamma q - 2) * w) by (replace (poly_gamma q - 1) with (poly_gamma q - 2 + 1) by ring; rewrite Rpower_plus, Rpower_1 by lra; ring).
    rewrite E1, E2. pose proof (Rpower_pos (rho_initial q) (poly_gamma q - 2)). unfold rho0. field. repeat split; lra.
Qed.
Theorem C42_support_constant n q x : dim13 n -> 0 < sphere_radius q -> 1 < pw_n q -> poly_gamma q <> 1 -> rho_initial q <> 0 ->
  / 10 ^ 12 < radius n x / sphere_radius q ->
  minus_gradient n (potential_spherical_density_support n q (rho_constant_density n))
    (acceleration_spherical_density_support n q (rho_constant_density n) (drhodr_constant_density n) x) x.
Proof.
  intros Hn HR Hp Hg Hr HX. pose proof PI_pos.
  assert (Hne : forall r, rho_constant_density n r <> 0).
  { intros r. unfold rho_constant_density. destruct Hn as [->|[->| ->]]; [lra| |]; apply Rgt_not_eq; unfold Rgt, Rdiv; [rewrite Rmult_1_l; apply Rinv_0_lt_compat; assumption|].
    apply Rmult_lt_0_compat; [lra|apply Rinv_0_lt_compat; assumption]. }
  apply support_gradient; auto. unfold rho_constant_density, drhodr_constant_density. apply derive_const. reflexivity.
Qed.

(** The sphere's surface radius is excluded: there the coded potential has a
    one-sided derivative only. *)
Theorem C42_support_parabolic n q x : dim13 n -> 0 < sphere_radius q -> 1 < pw_n q -> poly_gamma q <> 1 -> rho_initial q <> 0 ->
  / 10 ^ 12 < radius n x / sphere_radius q -> radius n x <> sphere_radius q ->
  minus_gradient n (potential_spherical_density_support n q (rho_parabolic_density n))
    (acceleration_spherical_density_support n q (rho_parabolic_density n) (drhodr_parabolic_density n) x) x.
Proof.
  intros Hn HR Hp Hg Hr HX Hs. pose proof PI_pos as HPI.
  assert (He : 0 < / 10 ^ 12) by (apply Rinv_0_lt_compat; lra).
  assert (Hc : exists c, c <> 0 /\ (forall r, rho_parabolic_density n r = c * (1 - SQ r)) /\ (forall r, drhodr_parabolic_density n r = c * (- 2 * r))).
  { unfold rho_parabolic_density, drhodr_parabolic_density. destruct Hn as [->|[->| ->]].
    - exists (3 / 4). split; [lra|]. split; intros; [reflexivity|field].
    - exists (2 / PI). split; [apply Rgt_not_eq, Rdiv_lt_0_compat; lra|]. split; intros; [reflexivity|field; lra].
    - exists (15 / (8 * PI)). split; [apply Rgt_not_eq, Rdiv_lt_0_compat; lra|]. split; intros; [reflexivity|field; lra]. }
  destruct Hc as (c & Hc & Hrho & Hdrho).
  apply support_gradient; auto.
  - rewrite Hrho. unfold SQ. rewrite Rmult_0_l, Rminus_0_r, Rmult_1_r. exact Hc.
  - rewrite Hdrho. apply derive_ext with (fun r => c * (1 - r * r)); [intros t; rewrite Hrho; reflexivity|]. auto_derive; [exact Logic.I|ring].
  - rewrite Hrho. set (X := radius n x / sphere_radius q) in *. apply Rmult_integral_contrapositive_currified; [exact Hc|]. unfold SQ.
    intros E. assert (E1 : (X - 1) * (X + 1) = 0) by lra. apply Rmult_integral in E1. destruct E1 as [E1|E1]; [|lra].
    apply Hs. assert (X = 1) by lra. replace (radius n x) with (X * sphere_radius q) by (unfold X; field; lra). rewrite H. ring.
Qed.

Theorem C42_support_mesa n q qm x : dim13 n -> 0 < sphere_radius q -> 1 < pw_n q -> poly_gamma q <> 1 -> rho_initial q <> 0 ->
  0 < qm < 1 -> 1 - qm < 9999 / 10000 -> / 10 ^ 12 < radius n x / sphere_radius q < 9999 / 10000 ->
  minus_gradient n (potential_spherical_density_support n q (rho_mesa_density n qm))
    (acceleration_spherical_density_support n q (rho_mesa_density n qm) (drhodr_mesa_density n qm) x) x.
Proof.
  intros Hn HR Hp Hg Hr Hq Hq' [HX HX'].
  assert (He : 0 < / 10 ^ 12) by (apply Rinv_0_lt_compat; lra).
  destruct (C46_mesa_density n qm (radius n x / sphere_radius q) Hn Hq Hq' HX') as [[_ Hd] Hpos].
  apply support_gradient; auto.
  - apply Rgt_not_eq. unfold Rgt. apply C46_mesa_density; auto; lra.
  - apply Rgt_not_eq, Hpos. lra.
Qed.

(** ** Uniform gravity *)
Theorem C42_gravity n q x : minus_gradient n (potential_gravity n q) (acceleration_gravity n q x) x.
Proof.
  intros k Hk. unfold potential_gravity, acceleration_gravity. destruct (Nat.ltb_spec 1 n).
  - destruct (Nat.eqb_spec k 1) as [->|Hne].
    + apply derive_ext with (fun t => t * gravity_acceleration_constant q); [intros t; rewrite upd_same; reflexivity|]. auto_derive; [exact Logic.I|ring].
    + apply derive_ext with (fun t => x 1%nat * gravity_acceleration_constant q); [intros t; rewrite upd_other by auto; reflexivity|]. apply derive_const; ring.
  - assert (k = 0)%nat by lia. subst k. cbn [Nat.eqb].
    apply derive_ext with (fun t => t * gravity_acceleration_constant q); [intros t; rewrite upd_same; reflexivity|]. auto_derive; [exact Logic.I|ring].
Qed.

(** ** Orbit *)
Theorem C42_orbit q x : 0 < SQ (x 0%nat - orbital_separation q) + SQ (x 1%nat) + SQ (x 2%nat) ->
  minus_gradient 3 (potential_orbit q) (acceleration_orbit q x) x.
Proof.
  intros H k Hk. unfold SQ in H.
  set (G := gravitational_constant q) in *. set (a := orbital_separation q) in *. set (m1 := mass_neutron_star q) in *. set (mt := m1 + mass_white_dwarf q) in *.
  assert (S3 : forall s, 0 < s -> sqrt (s * s * s) = sqrt s * sqrt s * sqrt s).
  { intros s Hs. rewrite !sqrt_mult_alt by nra. reflexivity. }
  assert (E3 : sqrt (CU (SQ (x 0%nat - a) + SQ (x 1%nat) + SQ (x 2%nat))) =
    let r := sqrt (SQ (x 0%nat - a) + SQ (x 1%nat) + SQ (x 2%nat)) in r * r * r) by (cbv zeta; unfold CU; apply S3; unfold SQ; exact H).
  assert (D : forall c0 u, 0 < c0 + u * u -> forall b, is_derive (fun t => - G * m1 / sqrt (c0 + (t - b) * (t - b))) (u + b)
     (G * m1 * u / (sqrt (c0 + u * u) * sqrt (c0 + u * u) * sqrt (c0 + u * u)))).
  { intros c0 u Hu b. assert (Hs : 0 < sqrt (c0 + u * u)) by (apply sqrt_lt_R0; exact Hu).
    auto_derive; replace (u + b + - b) with u by ring; replace (u + b - b) with u by ring.
    - split; [exact Hu|]. split; [lra|exact Logic.I].
    - set (r := sqrt (c0 + u * u)) in *. clearbody r. field. lra. }
  unfold potential_orbit, acceleration_orbit. cbv zeta. fold G a m1 mt. rewrite E3. cbv zeta.
  set (r := sqrt (SQ (x 0%nat - a) + SQ (x 1%nat) + SQ (x 2%nat))) in *.
  assert (Hr : 0 < r) by (apply sqrt_lt_R0; unfold SQ; exact H).
  assert (K : k = 0%nat \/ k = 1%nat \/ k = 2%nat) by lia. destruct K as [->|[->| ->]].
  - pose proof (D (x 1%nat * x 1%nat + x 2%nat * x 2%nat) (x 0%nat - a) ltac:(lra) a) as D0.
    replace (x 0%nat - a + a) with (x 0%nat) in D0 by ring.
    replace (x 1%nat * x 1%nat + x 2%nat * x 2%nat + (x 0%nat - a) * (x 0%nat - a)) with (SQ (x 0%nat - a) + SQ (x 1%nat) + SQ (x 2%nat)) in D0 by (unfold SQ; ring). fold r in D0.
    apply derive_ext with (fun t => - G * m1 / sqrt (x 1%nat * x 1%nat + x 2%nat * x 2%nat + (t - a) * (t - a)) +
      - (1 / 2) * G * mt / CU a * ((t - a * m1 / mt) * (t - a * m1 / mt) + SQ (x 1%nat))).
    { intros t. unfold upd; cbn [Nat.eqb]. unfold SQ. do 3 f_equal. ring. }
    eapply derive_plus; [exact D0| |].
    + instantiate (1 := - (G * mt / CU a * (x 0%nat - a * m1 / mt))).
      set (w := a * m1 / mt). unfold Rdiv. set (z := / CU a). clearbody w z. auto_derive; [exact Logic.I|]. field.
    + set (w := a * m1 / mt). set (z := G * mt / CU a). clearbody w z. field. lra.
  - pose proof (D (SQ (x 0%nat - a) + x 2%nat * x 2%nat) (x 1%nat) ltac:(unfold SQ; lra) 0) as D0.
    rewrite Rplus_0_r in D0.
    replace (SQ (x 0%nat - a) + x 2%nat * x 2%nat + x 1%nat * x 1%nat) with (SQ (x 0%nat - a) + SQ (x 1%nat) + SQ (x 2%nat)) in D0 by (unfold SQ; ring). fold r in D0.
    apply derive_ext with (fun t => - G * m1 / sqrt (SQ (x 0%nat - a) + x 2%nat * x 2%nat + (t - 0) * (t - 0)) +
      - (1 / 2) * G * mt / CU a * (SQ (x 0%nat - a * m1 / mt) + t * t)).
    { intros t. unfold upd; cbn [Nat.eqb]. unfold SQ. do 3 f_equal. ring. }
    eapply derive_plus; [exact D0| |].
    + instantiate (1 := - (G * mt / CU a * x 1%nat)).
      set (w := SQ (x 0%nat - a * m1 / mt)). unfold Rdiv. set (z := / CU a). clearbody w z. auto_derive; [exact Logic.I|]. field.
    + set (z := G * mt / CU a). clearbody z. field. lra.
  - pose proof (D (SQ (x 0%nat - a) + x 1%nat * x 1%nat) (x 2%nat) ltac:(unfold SQ; lra) 0) as D0.
    rewrite Rplus_0_r in D0.
    replace (SQ (x 0%nat - a) + x 1%nat * x 1%nat + x 2%nat * x 2%nat) with (SQ (x 0%nat - a) + SQ (x 1%nat) + SQ (x 2%nat)) in D0 by (unfold SQ; ring). fold r in D0.
    apply derive_ext with (fun t => - G * m1 / sqrt (SQ (x 0%nat - a) + x 1%nat * x 1%nat + (t - 0) * (t - 0)) +
      - (1 / 2) * G * mt / CU a * (SQ (x 0%nat - a * m1 / mt) + SQ (x 1%nat))).
    { intros t. unfold upd; cbn [Nat.eqb]. unfold SQ. do 3 f_equal. ring. }
    eapply derive_plus; [exact D0|apply derive_const; reflexivity|]. field. lra.
Qed.

(** ** Airfoil *)
Lemma air_aux_ramp q x y : Rabs y < 5 * airfoil_thickness q -> - airfoil_size q * (2 / 100) < x -> x < airfoil_size q * (102 / 100) -> x * x < airfoil_size q * airfoil_size q ->
  forall m, match air_cond q x y with Some aux => Rpower aux m | None => 0 end =
  ramp m (airfoil_thickness q * airfoil_thickness q * (x * x) * (airfoil_size q * airfoil_size q - x * x) - (y - camber_line q x) * (y - camber_line q x) + 2 / 1000).
Proof.
  intros H1 H2 H3 H4 m. unfold air_cond, air_phi, inside_bounding_box, ramp.
  rewrite (proj2 (Rltb_false _ _)) by lra. rewrite (proj2 (Rltb_true _ _)) by exact H1.
  rewrite (proj2 (Rltb_true _ _)) by exact H2. rewrite (proj2 (Rltb_true x _)) by exact H3. cbn [andb]. cbv zeta.
  set (s := airfoil_size q * airfoil_size q - x * x) in *. assert (Hs : sqrt s * sqrt s = s) by (apply sqrt_sqrt; unfold s; lra).
  replace (airfoil_thickness q * x * sqrt s * (airfoil_thickness q * x * sqrt s)) with (airfoil_thickness q * airfoil_thickness q * (x * x) * s)
    by (rewrite <- Hs at 1; ring).
  destruct (Rltb 0 _); reflexivity.
Qed.
Lemma air_cond_outside q x y : 5 * airfoil_thickness q <= Rabs y \/ x <= - airfoil_size q * (2 / 100) \/ airfoil_size q * (102 / 100) <= x \/ airfoil_size q * airfoil_size q < x * x ->
  air_cond q x y = None.
Proof.
  intros H. unfold air_cond, air_phi, inside_bounding_box. destruct (Rltb (airfoil_size q * airfoil_size q - x * x) 0) eqn:B; [reflexivity|]. apply Rltb_false in B.
  destruct H as [H|[H|[H|H]]]; [| | |lra].
  - rewrite (proj2 (Rltb_false (Rabs y) _)) by exact H. reflexivity.
  - rewrite (proj2 (Rltb_false (- airfoil_size q * (2 / 100)) x)) by exact H. rewrite !andb_false_r. reflexivity.
  - rewrite (proj2 (Rltb_false x (airfoil_size q * (102 / 100)))) by exact H. rewrite !andb_false_r. reflexivity.
Qed.
Lemma air_upd_deriv q x k : (k < 2)%nat ->
  exists cx cy, (forall t, air_x q (upd x k t) = air_x q x + cx * (t - x k)) /\ (forall t, air_y q (upd x k t) = air_y q x + cy * (t - x k)) /\
    (k = 0%nat -> cx = cos (air_alpha q) /\ cy = - sin (air_alpha q)) /\ (k = 1%nat -> cx = sin (air_alpha q) /\ cy = cos (air_alpha q)).
Proof.
  intros Hk. assert (K : k = 0%nat \/ k = 1%nat) by lia. destruct K as [->| ->].
  - exists (cos (air_alpha q)), (- sin (air_alpha q)). unfold air_x, air_y, upd; cbn [Nat.eqb]. split; [intros; ring|]. split; [intros; ring|].
    split; [auto|discriminate].
  - exists (sin (air_alpha q)), (cos (air_alpha q)). unfold air_x, air_y, upd; cbn [Nat.eqb]. split; [intros; ring|]. split; [intros; ring|].
    split; [discriminate|auto].
Qed.
Lemma line_near (a b x : R) (P : R -> Prop) : locally a P -> locally x (fun t => P (a + b * (t - x))).
Proof.
  intros H. assert (C : continuous (fun t => a + b * (t - x)) x).
  { apply (ex_derive_continuous (K := R_AbsRing) (V := R_NormedModule)). auto_derive. exact Logic.I. }
  apply (C P). replace (a + b * (x - x)) with a by ring. exact H.
Qed.
Lemma near_lt (a c : R) : a < c -> locally a (fun t => t < c).
Proof. intros H. apply open_lt. exact H. Qed.
Lemma near_gt (a c : R) : c < a -> locally a (fun t => c < t).
Proof. intros H. apply open_gt. exact H. Qed.
Lemma near_abs_lt (a c : R) : Rabs a < c -> locally a (fun t => Rabs t < c).
Proof. intros H. apply (continuous_Rabs a (fun r => r < c)). apply open_lt. exact H. Qed.
Lemma near_abs_gt (a c : R) : c < Rabs a -> locally a (fun t => c < Rabs t).
Proof. intros H. apply (continuous_Rabs a (fun r => c < r)). apply open_gt. exact H. Qed.
Lemma near_sqr_lt (a c : R) : a * a < c -> locally a (fun t => t * t < c).
Proof.
  intros H. assert (C : continuous (fun t => t * t) a) by (apply (ex_derive_continuous (K := R_AbsRing) (V := R_NormedModule)); auto_derive; exact Logic.I).
  apply (C (fun r => r < c)). apply open_lt. exact H.
Qed.
Lemma near_sqr_gt (a c : R) : c < a * a -> locally a (fun t => c < t * t).
Proof.
  intros H. assert (C : continuous (fun t => t * t) a) by (apply (ex_derive_continuous (K := R_AbsRing) (V := R_NormedModule)); auto_derive; exact Logic.I).
  apply (C (fun r => c < r)). apply open_gt. exact H.
Qed.

(** Inside the bounding box and left of the tip x = size. *)
(** The frame of the airfoil: the anchor is the origin, the first axis points along the attack angle, the second is
    perpendicular to it. *)
Theorem C42_airfoil_frame q s t p : p 0%nat = airfoil_anchor_x q + s * cos (airfoil_attack_angle q * PI / 180) - t * sin (airfoil_attack_angle q * PI / 180) ->
  p 1%nat = airfoil_anchor_y q + s * sin (airfoil_attack_angle q * PI / 180) + t * cos (airfoil_attack_angle q * PI / 180) -> air_x q p = s /\ air_y q p = t.
Proof.
  intros H0 H1. unfold air_x, air_y, air_alpha. rewrite H0, H1. set (a := airfoil_attack_angle q * PI / 180). pose proof (sin2_cos2 a) as E. unfold Rsqr in E.
  split; [transitivity (s * (sin a * sin a + cos a * cos a)) | transitivity (t * (sin a * sin a + cos a * cos a))]; try ring; rewrite E; ring.
Qed.
Theorem C42_airfoil_inside n q p : (2 <= n)%nat -> 1 < pw_n q ->
  let x := air_x q p in let y := air_y q p in
  Rabs y < 5 * airfoil_thickness q -> - airfoil_size q * (2 / 100) < x -> x < airfoil_size q * (102 / 100) -> x * x < airfoil_size q * airfoil_size q ->
  minus_gradient n (potential_airfoil q) (acceleration_airfoil q p) p.
Proof.
  intros Hn Hp x y Hy Hx1 Hx2 Hx3 k Hk.
  destruct (Nat.le_gt_cases 2 k) as [L|L].
  - apply derive_ext with (fun _ => potential_airfoil q p).
    { intros t. unfold potential_airfoil, air_x, air_y. rewrite !upd_other by lia. reflexivity. }
    apply derive_const. unfold acceleration_airfoil. cbv zeta. destruct (air_cond _ _ _); [|ring]. destruct k as [|[|k]]; [lia|lia|ring].
  - destruct (air_upd_deriv q p k L) as (cx & cy & Ex & Ey & K0 & K1). fold x in Ex. fold y in Ey.
    set (A := fun u v => airfoil_thickness q * airfoil_thickness q * (u * u) * (airfoil_size q * airfoil_size q - u * u) - (v - camber_line q u) * (v - camber_line q u) + 2 / 1000).
    apply derive_ext_loc with (fun t => pw_a q * ramp (pw_n q) (A (x + cx * (t - p k)) (y + cy * (t - p k)))).
    { pose proof (line_near y cy (p k) _ (near_abs_lt y _ Hy)) as N1. pose proof (line_near x cx (p k) _ (near_gt x _ Hx1)) as N2.
      pose proof (line_near x cx (p k) _ (near_lt x _ Hx2)) as N3. pose proof (line_near x cx (p k) _ (near_sqr_lt x _ Hx3)) as N4.
      pose proof (filter_and _ _ (filter_and _ _ N1 N2) (filter_and _ _ N3 N4)) as N.
      revert N. apply filter_imp. intros t [[M1 M2] [M3 M4]]. unfold potential_airfoil. rewrite Ex, Ey.
      pose proof (air_aux_ramp q _ _ M1 M2 M3 M4 (pw_n q)) as E. fold (A (x + cx * (t - p k)) (y + cy * (t - p k))) in E.
      rewrite <- E. destruct (air_cond _ _ _); ring. }
    set (dA := airfoil_thickness q * airfoil_thickness q * 2 * x * (airfoil_size q * airfoil_size q - 2 * x * x) * cx
       - 2 * (y - camber_line q x) * (cy - airfoil_camber q * PI / 2 * cos (PI / 2 * x) * cx)).
    assert (HA : is_derive (fun t => A (x + cx * (t - p k)) (y + cy * (t - p k))) (p k) dA).
    { unfold A, camber_line. auto_derive; [exact Logic.I|]. unfold dA, camber_line. replace (x + cx * (p k - p k)) with x by ring. replace (y + cy * (p k - p k)) with y by ring.
      replace (x + cx * (p k + - p k)) with x by ring. replace (y + cy * (p k + - p k)) with y by ring.
      replace (PI * x / 2) with (PI / 2 * x) by field. replace (PI * x * / 2) with (PI / 2 * x) by field. field. }
    eapply derive_scal.
    + eapply chain with (f := ramp (pw_n q)); [apply ramp_deriv; exact Hp|exact HA|reflexivity].
    + replace (x + cx * (p k - p k)) with x by ring. replace (y + cy * (p k - p k)) with y by ring.
      pose proof (air_aux_ramp q x y Hy Hx1 Hx2 Hx3 (pw_n q - 1)) as E. fold (A x y) in E. rewrite <- E.
      unfold acceleration_airfoil. cbv zeta. fold x y. destruct (air_cond q x y) as [aux|]; [|ring].
      assert (K : k = 0%nat \/ k = 1%nat) by lia. destruct K as [->| ->].
      * destruct (K0 eq_refl) as [-> ->]. unfold dA. field.
      * destruct (K1 eq_refl) as [-> ->]. unfold dA. field.
Qed.

(** Strictly outside the bounding box, or beyond the tip, force and potential
    vanish. *)
Theorem C42_airfoil_outside n q p : (2 <= n)%nat ->
  let x := air_x q p in let y := air_y q p in
  5 * airfoil_thickness q < Rabs y \/ x < - airfoil_size q * (2 / 100) \/ airfoil_size q * (102 / 100) < x \/ airfoil_size q * airfoil_size q < x * x ->
  minus_gradient n (potential_airfoil q) (acceleration_airfoil q p) p.
Proof.
  intros Hn x y H k Hk.
  destruct (Nat.le_gt_cases 2 k) as [L|L].
  - apply derive_ext with (fun _ => potential_airfoil q p).
    { intros t. unfold potential_airfoil, air_x, air_y. rewrite !upd_other by lia. reflexivity. }
    apply derive_const. unfold acceleration_airfoil. cbv zeta. destruct (air_cond _ _ _); [|ring]. destruct k as [|[|k]]; [lia|lia|ring].
  - destruct (air_upd_deriv q p k L) as (cx & cy & Ex & Ey & _ & _). fold x in Ex. fold y in Ey.
    apply derive_ext_loc with (fun _ => 0).
    + assert (N : locally (p k) (fun t => 5 * airfoil_thickness q <= Rabs (y + cy * (t - p k)) \/ x + cx * (t - p k) <= - airfoil_size q * (2 / 100) \/
        airfoil_size q * (102 / 100) <= x + cx * (t - p k) \/ airfoil_size q * airfoil_size q < (x + cx * (t - p k)) * (x + cx * (t - p k)))).
      { destruct H as [H|[H|[H|H]]].
        - pose proof (line_near y cy (p k) _ (near_abs_gt y _ H)) as N. revert N. apply filter_imp. intros t Ht. left. lra.
        - pose proof (line_near x cx (p k) _ (near_lt x _ H)) as N. revert N. apply filter_imp. intros t Ht. right; left. lra.
        - pose proof (line_near x cx (p k) _ (near_gt x _ H)) as N. revert N. apply filter_imp. intros t Ht. right; right; left. lra.
        - pose proof (line_near x cx (p k) _ (near_sqr_gt x _ H)) as N. revert N. apply filter_imp. intros t Ht. right; right; right. lra. }
      revert N. apply filter_imp. intros t Ht. unfold potential_airfoil. rewrite Ex, Ey, air_cond_outside by exact Ht. reflexivity.
    + apply derive_const. unfold acceleration_airfoil. cbv zeta. fold x y. rewrite air_cond_outside; [ring|].
      destruct H as [H|[H|[H|H]]]; [left; lra|right; left; lra|right; right; left; lra|right; right; right; exact H].
Qed.

(** At the tip x = size of the airfoil (and at the edges of its bounding box) the
    potential jumps, so no acceleration is its negative gradient there. *)
Definition air_default : ef_par := EfPar 1 1 1 5 1 1 1 1 (5 / 3) 1 2 (1 / 20) 0 0 0 0 1 1 1 1 0.
Theorem C42_airfoil_edge_refuted : exists q p, 1 < pw_n q /\ ~ exists a, minus_gradient 2 (potential_airfoil q) a p.
Proof.
  set (q := air_default). set (p := (fun k : nat => match k with 0%nat => 2 | _ => 0 end) : point). exists q, p. split; [cbn; lra|].
  intros [a Ha]. specialize (Ha 0%nat ltac:(lia)).
  assert (Al : air_alpha q = 0) by (unfold air_alpha; cbn; field).
  assert (Ex : forall t, air_x q (upd p 0 t) = t). { intros t. unfold air_x. rewrite Al, cos_0, sin_0. unfold upd; cbn. ring. }
  assert (Ey : forall t, air_y q (upd p 0 t) = 0). { intros t. unfold air_y. rewrite Al, cos_0, sin_0. unfold upd; cbn. ring. }
  set (f := fun t => potential_airfoil q (upd p 0 t)) in *.
  assert (V2 : 0 < f 2).
  { unfold f, potential_airfoil. rewrite Ex, Ey. unfold air_cond, air_phi, inside_bounding_box, camber_line. cbn [airfoil_size airfoil_thickness airfoil_camber q air_default pw_a pw_n].
    rewrite (proj2 (Rltb_false _ _)) by lra. replace (2 * 2 - 2 * 2) with 0 by ring. rewrite sqrt_0, Rabs_R0. cbv zeta.
    rewrite (proj2 (Rltb_true 0 (5 * (1 / 20)))) by lra. rewrite (proj2 (Rltb_true _ 2)) by lra. rewrite (proj2 (Rltb_true 2 _)) by lra. rewrite (proj2 (Rltb_true 0 _)) by lra.
    cbn [andb]. rewrite Rmult_1_l. apply Rpower_pos. }
  assert (V0 : forall t, 2 < t -> f t = 0).
  { intros t Ht. unfold f, potential_airfoil. rewrite Ex, Ey, air_cond_outside; [reflexivity|]. right; right; right. cbn [airfoil_size q air_default]. nra. }
  assert (C : continuous f 2) by (apply (ex_derive_continuous (K := R_AbsRing) (V := R_NormedModule)); eexists; exact Ha).
  assert (N : locally 2 (fun t => 0 < f t)) by (apply (C (fun r => 0 < r)); apply open_gt; exact V2).
  destruct N as [[e He] N]. specialize (N (2 + e / 2)). assert (B : ball 2 e (2 + e / 2)).
  { apply Rabs_def1; cbn; unfold minus, plus, opp; cbn; lra. }
  specialize (N B). rewrite V0 in N by lra. lra.
Qed.

(** ** Totals over the selected list *)
Lemma fold_acc (l : list (point -> point)) x a k : fold_left (fun a p => vadd a (p x)) l a k = a k + suml (fun p => p x k) l.
Proof. revert a. induction l as [|p l IH]; intros a; cbn [fold_left suml]; [ring|]. rewrite IH. unfold vadd. ring. Qed.
Lemma fold_pot (l : list (point -> R)) x a : fold_left (fun a p => a + p x) l a = a + suml (fun p => p x) l.
Proof. revert a. induction l as [|p l IH]; intros a; cbn [fold_left suml]; [ring|]. rewrite IH. ring. Qed.

Theorem C42_total n q prof dprof l x :
  (forall k, In k l -> k <> KPoison -> minus_gradient n (pot_of n q prof k) (acc_of n q prof dprof k x) x) ->
  minus_gradient n (potential n q prof l) (acceleration n q prof dprof l x) x.
Proof.
  intros H k Hk. unfold potential, acceleration. rewrite fold_acc.
  apply derive_ext with (fun t => suml (fun p => p (upd x k t)) (vec_potentials n q prof l)).
  { intros t. rewrite fold_pot. ring. }
  unfold vzero. rewrite Rplus_0_l. unfold vec_potentials, vec_accelerations.
  induction l as [|e l IH]; cbn [map filter].
  - cbn [suml map]. apply derive_const. ring.
  - assert (IH' := IH (fun k' Hin => H k' (or_intror Hin))).
    destruct e; cbn [is_poison negb suml map];
    (eapply derive_plus; [|exact IH'|]); try (apply (H _ (or_introl eq_refl)); [discriminate|exact Hk]);
    try (rewrite Ropp_plus_distr; reflexivity).
    + cbn [pot_of]. unfold potential_poison. apply derive_const. reflexivity.
    + ring.
Qed.

(** Selections without the airfoil and the density support need no side
    condition on the position. *)
Theorem C42_total_simple n q prof dprof l x : 0 < sphere_radius q -> 1 < pw_n q ->
  List.Forall (fun k => match k with KWall ax => (ax < n)%nat | KSphWall | KGravity | KPoison => True | _ => False end) l ->
  minus_gradient n (potential n q prof l) (acceleration n q prof dprof l x) x.
Proof.
  intros HR Hp Hl. apply C42_total. intros k Hin Hne. rewrite Forall_forall in Hl. specialize (Hl k Hin).
  destruct k; try contradiction; cbn [pot_of acc_of].
  - apply C42_spherical_wall; assumption.
  - apply C42_gravity.
  - apply C42_walls; assumption.
Qed.

(** The comment's own example of a selection string reads through a pointer into
    a destroyed temporary. *)
Theorem C42_select_walls_refuted : exists s l, select s = SelUB /\ split_comma s = l /\
  List.Forall (fun t => In t ["spherical wall"; "walls:xyz"; "gravity"]%string) l.
Proof.
  exists "spherical wall,walls:xyz,gravity"%string. eexists. split; [reflexivity|]. split; [reflexivity|].
  cbn. repeat (apply List.Forall_cons; [cbn; auto|]). apply List.Forall_nil.
Qed.

Example C42_select_case : select "Gravity,spherical wall,poison"%string = SelOk [KGravity; KSphWall; KPoison] /\ select "none"%string = SelOk [] /\ select "gravty"%string = SelFatal.
Proof. repeat split. Qed.

(** ** Relaxation drag *)
Theorem C71_drag_dissipates n beta gam vel : 0 <= beta -> 0 <= gam -> dot n vel (acceleration_drag n beta gam vel) <= 0.
Proof.
  intros Hb Hg. unfold dot, acceleration_drag. cbv zeta. set (v2 := sumn n (fun i => vel i * vel i)).
  rewrite (sumn_ext n _ (fun i => - (beta + gam * v2) * (vel i * vel i))) by (intros; ring).
  rewrite sumn_scal. fold v2. assert (0 <= v2) by (apply sumn_nonneg; intros; nra). assert (0 <= gam * v2) by (apply Rmult_le_pos; assumption). nra.
Qed.
(** The speed never grows and the direction of motion is kept by one explicit
    step with dt (beta + gamma v^2) <= 1. *)
Theorem C71_drag_step n beta gam dt vel : 0 <= beta -> 0 <= gam -> 0 <= dt -> dt * (beta + gam * dot n vel vel) <= 1 ->
  exists c, 0 <= c <= 1 /\ forall k, vel k + dt * acceleration_drag n beta gam vel k = c * vel k.
Proof.
  intros Hb Hg Hd H. assert (0 <= dot n vel vel) by (apply sumn_nonneg; intros; nra). assert (0 <= gam * dot n vel vel) by (apply Rmult_le_pos; assumption).
  exists (1 - dt * (beta + gam * dot n vel vel)). split; [split; nra|]. intros k. unfold acceleration_drag. cbv zeta. fold (dot n vel vel). ring.
Qed.

(** Concrete cases: a particle outside a wall, outside the sphere, and inside the
    airfoil, with a non-zero force. *)
Example C42_hydrostatic_case : let q := EfPar 1 1 1 5 1 1 3 2 2 1 2 (1 / 20) 0 0 0 0 1 1 1 1 0 in let x := (fun k : nat => match k with 0%nat => 1 / 2 | _ => 0 end) : point in
  let X := radius 1 x / sphere_radius q in 0 < rho_initial q /\ 0 < rho_parabolic_density 1 0 /\ / 10 ^ 12 < X /\ X <= 1 /\
  is_derive (rho_parabolic_density 1) X (drhodr_parabolic_density 1 X) /\ 0 < rho_parabolic_density 1 X /\ acceleration_spherical_density_support 1 q (rho_parabolic_density 1) (drhodr_parabolic_density 1) x 0%nat = - 3.
Proof.
  intros q x X. assert (E : radius 1 x = 1 / 2) by (unfold radius; cbn [sumn x]; replace (0 + 1 / 2 * (1 / 2)) with (1 / 2 * (1 / 2)) by ring; apply sqrt_square; lra).
  assert (EX : X = 1 / 2) by (unfold X; rewrite E; cbn; field). rewrite EX. split; [cbn; lra|]. split; [cbn; unfold SQ; lra|]. split; [lra|]. split; [lra|]. split; [|split].
  - cbn. apply derive_ext with (fun r => 3 / 4 * (1 - r * r)); [intros; reflexivity|]. auto_derive; [exact Logic.I | lra].
  - cbn. unfold SQ. lra.
  - unfold acceleration_spherical_density_support, acceleration_spherical_wall, K0. cbv zeta. fold X. rewrite EX, E. cbn [sphere_radius q]. rewrite (proj2 (Rltb_true _ _)) by lra. rewrite (proj2 (Rltb_false 1 _)) by lra. cbn. unfold rho0, rho_parabolic_density, SQ, drhodr_parabolic_density. cbn. rewrite (proj2 (Rltb_true _ _)) by lra. replace (2 - 2) with 0 by ring. rewrite Rpower_O by lra. replace 2 with (1 + 1) at 2 by ring. rewrite Rpower_plus, Rpower_1 by lra. field.
Qed.
Example C42_case : let q := EfPar 1 1 1 5 1 1 1 1 (5 / 3) 1 2 (1 / 20) 0 0 0 0 1 1 1 1 0 in
  1 < pw_n q /\ 0 < sphere_radius q /\ poly_gamma q <> 1 /\ rho_initial q <> 0 /\
  (let x := (fun k : nat => match k with 0%nat => 1 | _ => 0 end) : point in
   Rabs (air_y q x) < 5 * airfoil_thickness q /\ - airfoil_size q * (2 / 100) < air_x q x /\ air_x q x * air_x q x < airfoil_size q * airfoil_size q /\
   acceleration_square_well q 0%nat x 0%nat <> 0).
Proof.
  cbn. unfold air_y, air_x, air_alpha. cbn. replace (0 * PI / 180) with 0 by field. rewrite cos_0, sin_0.
  split; [lra|]. split; [lra|]. split; [lra|]. split; [lra|].
  split; [replace (- (1 - 0) * 0 + (0 - 0) * 1) with 0 by ring; rewrite Rabs_R0; lra|]. split; [lra|]. split; [lra|].
  unfold acceleration_square_well, half_box. cbn. rewrite (proj2 (Rltb_false _ _)) by lra. rewrite (proj2 (Rltb_true _ _)) by lra.
  pose proof (Rpower_pos (1 - 1 / 2 * 1) (5 - 1)). nra.
Qed.

Print Assumptions C42_walls.
Print Assumptions C42_spherical_wall.
Print Assumptions C42_support_constant.
Print Assumptions C42_support_parabolic.
Print Assumptions C42_support_mesa.
Print Assumptions C42_gravity.
Print Assumptions C42_orbit.
Print Assumptions C42_airfoil_inside.
Print Assumptions C42_airfoil_outside.
Print Assumptions C42_airfoil_edge_refuted.
Print Assumptions C42_total.
Print Assumptions C42_total_simple.
Print Assumptions C42_select_walls_refuted.
Print Assumptions C71_drag_dissipates.
Print Assumptions C71_drag_step.
