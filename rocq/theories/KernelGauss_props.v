(** C34 for the Gaussian and the super-Gaussian kernels: their constants,
    decimal numbers in the code, make the integral over the ball of radius
    h equal to one up to 10^-11. *)
From Coq Require Import Reals QArith Qreals Lra Lia.
From Coquelicot Require Import Coquelicot.
From Verif Require Import Base Vec Geometry_model Geometry_props Kernel_model Kernel_props Numbers_lemmas.
Local Open Scope R_scope.
Local Ltac asR := match goal with |- ?a = ?b => change (@eq R a b) end.

(** antiderivative of t^(n-1) exp (-t^2) *)
Definition anti (n : nat) (t : R) : R :=
  match n with
  | 1%nat => gauss t
  | 2%nat => - exp (- (t * t)) / 2
  | _ => (gauss t - t * exp (- (t * t))) / 2
  end.
Lemma anti_deriv n t : (1 <= n <= 3)%nat -> is_derive (anti n) t (t ^ (n - 1) * exp (- (t * t))).
Proof.
  intros Hn. destruct n as [|[|[|[|n]]]]; try lia; cbn [anti Nat.sub pow].
  - rewrite Rmult_1_l. apply gauss_deriv.
  - change (is_derive (fun t => - exp (- (t * t)) / 2) t (t * 1 * exp (- (t * t)))). auto_derive; [trivial|]. asR. field.
  - apply (is_derive_ext (fun t => / 2 * (gauss t - t * exp (- (t * t))))); [intros u; change (/ 2 * (gauss u - u * exp (- (u * u))) = (gauss u - u * exp (- (u * u))) / 2); field|].
    replace (t * (t * 1) * exp (- (t * t))) with (/ 2 * (exp (- (t * t)) - (exp (- (t * t)) - 2 * (t * t) * exp (- (t * t))))) by field.
    apply is_derive_scal. apply (is_derive_minus gauss (fun t => t * exp (- (t * t))) t); [apply gauss_deriv|]. auto_derive; [trivial|]. asR. ring.
Qed.
Lemma shell_int n h s (G W : R -> R) :
  (1 <= n <= 3)%nat -> 0 < h -> (forall t, is_derive G t (t ^ (n - 1) * W t)) -> (forall t, continuous W t) ->
  is_RInt (fun r => shell n r * (s / h ^ n * W (3 * r / h))) 0 h (shell_c n * s / 3 ^ n * (G 3 - G 0)).
Proof.
  intros Hn Hh HG HW.
  replace (shell_c n * s / 3 ^ n * (G 3 - G 0)) with (shell_c n * s / 3 ^ n * G (3 * h / h) - shell_c n * s / 3 ^ n * G (3 * 0 / h)).
  2:{ replace (3 * h / h) with 3 by (field; lra). replace (3 * 0 / h) with 0 by (field; lra). ring. }
  assert (E : forall r, shell n r * (s / h ^ n * W (3 * r / h)) = shell_c n * s / 3 ^ n * (3 / h * ((3 * r / h) ^ (n - 1) * W (3 * r / h)))).
  { intros r. destruct n as [|[|[|[|n]]]]; try lia; cbn [shell shell_c Nat.sub pow]; field; lra. }
  apply (is_RInt_derive (V := R_CompleteNormedModule) (fun r => shell_c n * s / 3 ^ n * G (3 * r / h))).
  - intros r _. rewrite E. apply is_derive_scal. apply (is_derive_comp G (fun r => 3 * r / h) r); [apply HG|]. auto_derive; [lra|]. asR. field. lra.
  - intros r _. apply (continuous_ext (fun r => scal (shell_c n * s / 3 ^ n * (3 / h)) (scal ((3 * r / h) ^ (n - 1)) (W (3 * r / h))))).
    + intros u. rewrite E. unfold scal; cbn. unfold mult; cbn. ring.
    + apply (continuous_scal_r (V := R_NormedModule)). apply (continuous_scal (V := R_NormedModule) (fun r => (3 * r / h) ^ (n - 1)) (fun r => W (3 * r / h))).
      * apply (ex_derive_continuous (K := R_AbsRing) (V := R_NormedModule)). auto_derive. lra.
      * apply (continuous_comp (fun r => 3 * r / h) W); [|apply HW]. apply (ex_derive_continuous (K := R_AbsRing) (V := R_NormedModule)). auto_derive. lra.
Qed.
Lemma gauss_0 : gauss 0 = 0.
Proof. unfold gauss. now rewrite RInt_point. Qed.
Lemma anti_3 n : (1 <= n <= 3)%nat -> anti n 3 - anti n 0 = match n with 1%nat => gauss 3 | 2%nat => (1 - exp (Ropp 9)) / 2 | _ => (gauss 3 - 3 * exp (Ropp 9)) / 2 end.
Proof. intros Hn. destruct n as [|[|[|[|n]]]]; try lia; cbn [anti]; rewrite ?gauss_0; replace (3 * 3) with 9 by ring; rewrite ?Rmult_0_r, ?Ropp_0, ?exp_0; field. Qed.

Definition nearly_unit (W : R -> R) (n : nat) (h : R) : Prop :=
  exists I, is_RInt (fun r => shell n r * W r) 0 h I /\ Rabs (I - 1) <= / 10 ^ 11.

Theorem C34_gaussians si k n h :
  k = gaussian \/ k = super_gaussian -> (1 <= n <= 3)%nat -> 0 < h ->
  nearly_unit (fun r => kernel si k n r h) n h.
Proof.
  intros Hk Hn Hh.
  pose proof PI_bounds as [P1 P2]. pose proof exp9_bounds as [E1 E2]. pose proof gauss3_bounds as [J1 J2].
  unfold Q2R in E1, E2, J1, J2; cbn [Qnum Qden] in E1, E2, J1, J2.
  assert (In : forall r, Rmin 0 h < r < Rmax 0 h -> 0 < 3 * r / h < 3).
  { intros r Hr. rewrite Rmin_left, Rmax_right in Hr by lra. split; [apply Rdiv_lt_0_compat; lra|]. apply Rlt_div_l; lra. }
  assert (CW : forall t, continuous (fun t => exp (- (t * t))) t).
  { intros t. apply (ex_derive_continuous (K := R_AbsRing) (V := R_NormedModule)). auto_derive. trivial. }
  destruct Hk as [->| ->].
  - exists (shell_c n * gaussian_sigma n / 3 ^ n * (anti n 3 - anti n 0)). split.
    + eapply is_RInt_ext; [|apply (shell_int n h (gaussian_sigma n) (anti n) (fun t => exp (- (t * t))) Hn Hh); [intros t; apply anti_deriv; exact Hn | exact CW]].
      intros r Hr. cbn [kernel]. unfold W_gaussian. rewrite (proj2 (Rleb_true _ _)) by (specialize (In r Hr); lra).
      now rewrite Ropp_mult_distr_l.
    + rewrite anti_3 by exact Hn. destruct n as [|[|[|[|n]]]]; try lia; unfold gaussian_sigma, pick, shell_c.
      * apply Rabs_le. lra.
      * assert (A : 3141592653589 / 10 ^ 12 * (1 - 1234098041 / 10000000000000) <= PI * (1 - exp (Ropp 9)) <= 3141592653590 / 10 ^ 12 * (1 - 1234098040 / 10000000000000)) by (split; apply Rmult_le_compat; lra).
        apply Rabs_le. lra.
      * assert (A : 3141592653589 / 10 ^ 12 * (886207348259 / 1000000000000 - 3 * 1234098041 / 10000000000000) <= PI * (gauss 3 - 3 * exp (Ropp 9)) <= 3141592653590 / 10 ^ 12 * (886207348260 / 1000000000000 - 3 * 1234098040 / 10000000000000)) by (split; apply Rmult_le_compat; lra).
        apply Rabs_le. lra.
  - exists (shell_c n * super_gaussian_sigma n / 3 ^ n * ((anti n 3 + 3 ^ n * exp (Ropp (3 * 3)) / 2) - (anti n 0 + 0 ^ n * exp (Ropp (0 * 0)) / 2))). split.
    + eapply is_RInt_ext; [|apply (shell_int n h (super_gaussian_sigma n) (fun t => anti n t + t ^ n * exp (- (t * t)) / 2) (fun t => exp (- (t * t)) * (INR n / 2 + 1 - t * t)) Hn Hh)].
      * intros r Hr. cbn [kernel]. unfold W_super. rewrite (proj2 (Rltb_true _ _)) by (rewrite Rabs_pos_eq; specialize (In r Hr); lra).
        unfold b2r. asR. ring.
      * intros t. replace (t ^ (n - 1) * (exp (- (t * t)) * (INR n / 2 + 1 - t * t))) with (t ^ (n - 1) * exp (- (t * t)) + (t ^ (n - 1) * exp (- (t * t)) * (INR n / 2) - t ^ n * t * exp (- (t * t)))).
        2:{ replace (t ^ n) with (t * t ^ (n - 1)); [ring|]. replace n with (S (n - 1)) at 2 by lia. reflexivity. }
        apply (is_derive_plus (anti n) (fun t => t ^ n * exp (- (t * t)) / 2) t); [apply anti_deriv; exact Hn|].
        auto_derive; [trivial|]. replace (Init.Nat.pred n) with (n - 1)%nat by lia. asR. field.
      * intros t. apply (ex_derive_continuous (K := R_AbsRing) (V := R_NormedModule)). auto_derive. trivial.
    + replace (anti n 3 + 3 ^ n * exp (Ropp (3 * 3)) / 2 - (anti n 0 + 0 ^ n * exp (Ropp (0 * 0)) / 2)) with ((anti n 3 - anti n 0) + 3 ^ n * exp (Ropp 9) / 2) by (rewrite (pow_i n) by lia; replace (3 * 3) with 9 by ring; field).
      rewrite anti_3 by exact Hn. destruct n as [|[|[|[|n]]]]; try lia; unfold super_gaussian_sigma, pick, shell_c.
      * apply Rabs_le. lra.
      * assert (A : 3141592653589 / 10 ^ 12 * (1 + 8 * 1234098040 / 10000000000000) <= PI * (1 + 8 * exp (Ropp 9)) <= 3141592653590 / 10 ^ 12 * (1 + 8 * 1234098041 / 10000000000000)) by (split; apply Rmult_le_compat; lra).
        apply Rabs_le. lra.
      * assert (A : 3141592653589 / 10 ^ 12 * (886207348259 / 1000000000000 + 24 * 1234098040 / 10000000000000) <= PI * (gauss 3 + 24 * exp (Ropp 9)) <= 3141592653590 / 10 ^ 12 * (886207348260 / 1000000000000 + 24 * 1234098041 / 10000000000000)) by (split; apply Rmult_le_compat; lra).
        apply Rabs_le. lra.
Qed.
(** The constant is the one of the kernel cut off at h, not the one of the
    whole line, 3 / sqrt pi, from which it differs by more than one part in
    10^5. *)
Theorem C34_gaussian_ball : Rabs (gaussian_sigma 1 * sqrt PI / 3 - 1) >= / 10 ^ 5.
Proof.
  pose proof PI_bounds as [P1 P2]. assert (S1 : 1772453 / 10 ^ 6 <= sqrt PI).
  { rewrite <- (sqrt_square (1772453 / 10 ^ 6)) by lra. apply sqrt_le_1; lra. }
  unfold gaussian_sigma, pick. rewrite Rabs_pos_eq; lra.
Qed.
Example C34_gaussian_case si : nearly_unit (fun r => kernel si gaussian 3 r (1 / 2)) 3 (1 / 2) /\ nearly_unit (fun r => kernel si super_gaussian 1 r 7) 1 7.
Proof. split; apply C34_gaussians; auto; try lia; lra. Qed.

Print Assumptions C34_gaussians.
Print Assumptions C34_gaussian_ball.
