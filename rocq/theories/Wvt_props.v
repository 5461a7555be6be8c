From Coq Require Import Reals Ratan Lra Lia Permutation.
From Verif Require Import Base BuildTree_model Range_model Lattice_props Vec Wvt_model.
Local Open Scope R_scope.

(** ** C58: conversions and the frozen boundary *)
Lemma Rlt_b_false : forall a b, Rlt_b a b = false <-> b <= a.
Proof. intros. unfold Rlt_b. destruct (Rlt_dec a b); split; intros; try discriminate; try lra; reflexivity. Qed.
Ltac rltb := repeat match goal with |- context [Rlt_b ?a ?b] => let E := fresh "E" in destruct (Rlt_b a b) eqn:E; [apply Rlt_b_true in E | apply Rlt_b_false in E] end.
Lemma atan2_spec : forall x y, sqrt (x ^ 2 + y ^ 2) * cos (atan2 y x) = x /\ sqrt (x ^ 2 + y ^ 2) * sin (atan2 y x) = y.
Proof.
  intros x y.
  assert (HX : forall s, x <> 0 -> s = sqrt (x ^ 2 + y ^ 2) -> s * cos (atan (y / x)) = Rabs x /\ s * sin (atan (y / x)) = Rabs x * (y / x)).
  { intros s Hx ->. rewrite cos_atan, sin_atan. unfold Rsqr.
    assert (E : sqrt (x ^ 2 + y ^ 2) = Rabs x * sqrt (1 + y / x * (y / x))).
    { rewrite <- sqrt_Rsqr_abs, <- sqrt_mult by (try apply Rle_0_sqr; pose proof (Rle_0_sqr (y / x)); unfold Rsqr in *; lra). f_equal. unfold Rsqr. field. exact Hx. }
    assert (P : 0 < sqrt (1 + y / x * (y / x))) by (apply sqrt_lt_R0; pose proof (Rle_0_sqr (y / x)); unfold Rsqr in *; lra).
    apply Rgt_not_eq in P. rewrite E. split; field; auto. }
  unfold atan2. rltb.
  - destruct (HX _ ltac:(lra) eq_refl) as [A B]. rewrite A, B, Rabs_pos_eq by lra. split; [reflexivity | field; lra].
  - destruct (HX _ ltac:(lra) eq_refl) as [A B]. rewrite cos_minus, sin_minus, cos_PI, sin_PI. rewrite Rabs_left in A, B by lra.
    split; [transitivity (- (sqrt (x ^ 2 + y ^ 2) * cos (atan (y / x)))); [ring | rewrite A; ring] | transitivity (- (sqrt (x ^ 2 + y ^ 2) * sin (atan (y / x)))); [ring | rewrite B; field; lra]].
  - destruct (HX _ ltac:(lra) eq_refl) as [A B]. rewrite cos_plus, sin_plus, cos_PI, sin_PI. rewrite Rabs_left in A, B by lra.
    split; [transitivity (- (sqrt (x ^ 2 + y ^ 2) * cos (atan (y / x)))); [ring | rewrite A; ring] | transitivity (- (sqrt (x ^ 2 + y ^ 2) * sin (atan (y / x)))); [ring | rewrite B; field; lra]].
  - assert (x = 0) as -> by lra. replace (0 ^ 2 + y ^ 2) with (y ^ 2) by ring. rewrite sqrt_pow2 by lra. rewrite cos_PI2, sin_PI2. split; ring.
  - assert (x = 0) as -> by lra. replace (0 ^ 2 + y ^ 2) with ((- y) ^ 2) by ring. rewrite sqrt_pow2 by lra. rewrite cos_neg, sin_neg, cos_PI2, sin_PI2. split; ring.
  - assert (x = 0) as -> by lra. assert (y = 0) as -> by lra. replace (0 ^ 2 + 0 ^ 2) with 0 by ring. rewrite sqrt_0. split; ring.
Qed.
(** Changing only the radius scales the position *)
Lemma with_radius_scales : forall n f p, (n = 2 \/ n = 3)%nat -> 0 < norm n p -> peq n (with_radius n f p) (vscale (f (norm n p) / norm n p) p).
Proof.
  intros n f p Hn Hr. destruct (atan2_spec (p 0%nat) (p 1%nat)) as [C S].
  destruct Hn as [->| ->]; unfold with_radius, spherical_to_cartesian, cartesian_to_spherical; cbn [Nat.eqb]; set (r := norm _ p) in *.
  - assert (E : sqrt (p 0%nat ^ 2 + p 1%nat ^ 2) = r) by (unfold r, norm, dot; cbn [sumn]; f_equal; ring). rewrite E in *.
    intros i Hi. unfold vscale. destruct i as [|[|i]]; [| | lia]; cbn [Nat.eqb].
    + rewrite <- C at 2. field. lra.
    + rewrite <- S at 2. field. lra.
  - set (q := sqrt (p 0%nat ^ 2 + p 1%nat ^ 2)) in *.
    assert (R2 : r ^ 2 = p 0%nat ^ 2 + p 1%nat ^ 2 + p 2%nat ^ 2) by (unfold r, norm, dot; cbn [sumn]; rewrite pow2_sqrt; [ring | nra]).
    assert (Q2 : q ^ 2 = p 0%nat ^ 2 + p 1%nat ^ 2) by (unfold q; rewrite pow2_sqrt; [ring | nra]).
    assert (Q0 : 0 <= q) by apply sqrt_pos.
    assert (HB : -1 <= p 2%nat / r <= 1).
    { assert ((p 2%nat / r) ^ 2 <= 1).
      { unfold Rdiv. rewrite Rpow_mult_distr, pow_inv. apply (Rmult_le_reg_r (r ^ 2)); [nra|]. rewrite Rmult_assoc, Rinv_l by nra. nra. }
      split; nra. }
    assert (SN : sin (acos (p 2%nat / r)) = q / r).
    { rewrite sin_acos by exact HB. unfold Rsqr. replace (1 - p 2%nat / r * (p 2%nat / r)) with ((q / r) ^ 2).
      - apply sqrt_pow2. apply Rmult_le_pos; [exact Q0 | apply Rlt_le, Rinv_0_lt_compat, Hr].
      - transitivity (q ^ 2 / r ^ 2); [field; lra|]. rewrite Q2. transitivity ((r ^ 2 - p 2%nat ^ 2) / r ^ 2); [rewrite R2; field; nra | field; lra]. }
    intros i Hi. unfold vscale. destruct i as [|[|[|i]]]; [| | | lia]; cbn [Nat.eqb].
    + rewrite SN. transitivity (f r / r * (q * cos (atan2 (p 1%nat) (p 0%nat)))); [field; lra | rewrite C; reflexivity].
    + rewrite SN. transitivity (f r / r * (q * sin (atan2 (p 1%nat) (p 0%nat)))); [field; lra | rewrite S; reflexivity].
    + rewrite cos_acos by exact HB. field. lra.
Qed.
(** The angles are those of spherical coordinates: the polar angle lies in (-pi, pi], the inclination in [0, pi]; with C58_roundtrip
    they are determined. *)
Theorem C58_angles : forall n p, (n = 2 \/ n = 3)%nat -> - PI < cartesian_to_spherical n p 1%nat <= PI /\ 0 <= cartesian_to_spherical 3 p 2%nat <= PI.
Proof.
  intros n p Hn. assert (H : forall x y, - PI < atan2 y x <= PI).
  { intros x y. pose proof PI_RGT_0 as P0. unfold atan2. rltb; try lra.
    - pose proof (atan_bound (y / x)). lra.
    - assert (0 < y / x) by (unfold Rdiv; assert (/ x < 0) by (apply Rinv_lt_0_compat; lra); nra). pose proof (atan_increasing 0 (y / x) H). rewrite atan_0 in H0. pose proof (atan_bound (y / x)). lra.
    - assert (y / x <= 0) by (unfold Rdiv; assert (/ x < 0) by (apply Rinv_lt_0_compat; lra); nra). assert (atan (y / x) <= 0) by (destruct H as [H|H]; [apply Rlt_le; rewrite <- atan_0; apply atan_increasing, H | rewrite H, atan_0; lra]). pose proof (atan_bound (y / x)). lra. }
  split; [|cbn; apply acos_bound]. destruct Hn as [->| ->]; cbn; apply H.
Qed.
Example C58_angles_case : cartesian_to_spherical 2 (fun i => if (i =? 0)%nat then -1 else 0) 1%nat = PI /\ cartesian_to_spherical 2 (fun i => if (i =? 0)%nat then 0 else -1) 1%nat = - (PI / 2).
Proof. cbn. unfold atan2. split; rltb; try lra. replace (0 / -1) with 0 by field. rewrite atan_0. lra. Qed.
Theorem C58_roundtrip : forall n p, (n = 2 \/ n = 3)%nat -> 0 < norm n p ->
  peq n (spherical_to_cartesian n (cartesian_to_spherical n p)) p.
Proof.
  intros n p Hn Hr i Hi. pose proof (with_radius_scales n (fun r => r) p Hn Hr i Hi) as H. cbv beta in H.
  unfold vscale in H. replace (norm n p / norm n p * p i) with (p i) in H by (field; lra). rewrite <- H.
  unfold with_radius, spherical_to_cartesian. destruct Hn as [->| ->]; reflexivity.
Qed.
(** In one dimension the sign is lost. *)
Theorem C58_one_dimension : forall p, spherical_to_cartesian 1 (cartesian_to_spherical 1 p) 0%nat = Rabs (p 0%nat).
Proof.
  intros p. unfold spherical_to_cartesian, cartesian_to_spherical; cbn [Nat.eqb]. unfold norm, dot; cbn [sumn]. rewrite Rplus_0_l. apply sqrt_Rsqr_abs.
Qed.
Theorem C58_one_dimension_refuted : exists p : point, 0 < norm 1 p /\ ~ peq 1 (spherical_to_cartesian 1 (cartesian_to_spherical 1 p)) p.
Proof.
  exists (fun _ => -1). split; [unfold norm, dot; cbn [sumn]; apply sqrt_lt_R0; lra|].
  intros H. specialize (H 0%nat ltac:(lia)). rewrite C58_one_dimension, Rabs_left in H; lra.
Qed.
(** The frozen boundary *)
Lemma dot_lin : forall n p a q c, dot n p (vscale 2 (vsub a (vscale c q))) = 2 * (dot n p a - c * dot n p q).
Proof. intros. unfold dot. rewrite <- (sumn_scal n c), <- sumn_minus, <- sumn_scal. apply sumn_ext. intros. unfold vscale, vsub. ring. Qed.
Lemma dot_scale_l : forall n c p q, dot n (vscale c p) q = c * dot n p q.
Proof. intros. unfold dot. rewrite <- sumn_scal. apply sumn_ext. intros. unfold vscale. ring. Qed.
Lemma dot_scale_r : forall n c p q, dot n p (vscale c q) = c * dot n p q.
Proof. intros. rewrite dot_comm, dot_scale_l, dot_comm. reflexivity. Qed.
Lemma norm_sq : forall n p, norm n p * norm n p = dot n p p.
Proof. intros. apply sqrt_sqrt, dot_self_nonneg. Qed.
Theorem C58_orthogonal : forall n p a, 0 < norm n p -> dot n p (remove_radial_acc n p a) = 0.
Proof.
  intros n p a Hr. unfold remove_radial_acc. rewrite dot_lin, dot_scale_l, dot_scale_r, <- norm_sq. field. lra.
Qed.
(** The part of the acceleration along the sphere is doubled on the way: *)
Theorem C58_tangential : forall n p a, 0 < norm n p -> dot n p a = 0 -> forall i, remove_radial_acc n p a i = 2 * a i.
Proof. intros n p a Hr H i. unfold remove_radial_acc. rewrite dot_scale_l, H. unfold vscale, vsub. ring. Qed.
Theorem C58_tangential_refuted : exists p a, 0 < norm 2 p /\ dot 2 p a = 0 /\ ~ peq 2 (remove_radial_acc 2 p a) a.
Proof.
  exists (fun i => if (i =? 0)%nat then 1 else 0), (fun i => if (i =? 1)%nat then 1 else 0).
  assert (H0 : 0 < norm 2 (fun i => if (i =? 0)%nat then 1 else 0)) by (unfold norm, dot; cbn; apply sqrt_lt_R0; lra).
  assert (H1 : dot 2 (fun i => if (i =? 0)%nat then 1 else 0) (fun i => if (i =? 1)%nat then 1 else 0) = 0) by (unfold dot; cbn; ring).
  split; [exact H0|]. split; [exact H1|]. intros H. specialize (H 1%nat ltac:(lia)). rewrite C58_tangential in H by assumption. cbn in H. lra.
Qed.
Lemma norm_ext : forall n p q, peq n p q -> norm n p = norm n q.
Proof. intros n p q H. unfold norm, dot. f_equal. apply sumn_ext. intros i Hi. rewrite H by exact Hi. reflexivity. Qed.
Lemma norm_scale : forall n c p, norm n (vscale c p) = Rabs c * norm n p.
Proof.
  intros n c p. unfold norm. rewrite dot_scale_l, dot_scale_r, <- Rmult_assoc. rewrite sqrt_mult by (try apply dot_self_nonneg; apply Rle_0_sqr || nra).
  f_equal. apply sqrt_Rsqr_abs.
Qed.
(** Mirror images lie on the same ray as far outside the boundary as the particle is inside *)
Theorem C58_mirror : forall n b p, (n = 2 \/ n = 3)%nat -> 0 < norm n p -> norm n p <= b ->
  (exists c, 0 < c /\ peq n (mirror n b p) (vscale c p)) /\ norm n (mirror n b p) - b = b - norm n p.
Proof.
  intros n b p Hn Hr Hb. unfold mirror. pose proof (with_radius_scales n (fun r => b + (b - r)) p Hn Hr) as H. cbv beta in H.
  assert (Hc : 0 < (b + (b - norm n p)) / norm n p) by (apply Rdiv_lt_0_compat; lra).
  split; [eexists; split; [exact Hc | exact H]|]. rewrite (norm_ext _ _ _ H), norm_scale, Rabs_pos_eq by lra. field. lra.
Qed.
(** but not in one dimension: the image of -0.9 for the boundary 1 is 1.1 *)
Theorem C58_mirror_refuted : exists p : point, 0 < norm 1 p <= 1 /\ p 0%nat < 0 < mirror 1 1 p 0%nat.
Proof.
  exists (fun _ => - (9 / 10)). assert (E : norm 1 (fun _ => - (9 / 10)) = 9 / 10).
  { unfold norm, dot; cbn [sumn]. replace (0 + - (9 / 10) * - (9 / 10)) with ((9 / 10) ^ 2) by ring. apply sqrt_pow2. lra. }
  rewrite E. split; [lra|]. unfold mirror, with_radius, spherical_to_cartesian, cartesian_to_spherical; cbn [Nat.eqb]. rewrite E. lra.
Qed.
Example C58_run : peq 2 (mirror 2 2 (fun i => if (i =? 0)%nat then -1 else 0)) (fun i => if (i =? 0)%nat then -3 else 0).
Proof.
  assert (E : norm 2 (fun i => if (i =? 0)%nat then -1 else 0) = 1).
  { unfold norm, dot; cbn. replace (0 + -1 * -1 + 0 * 0) with (1 ^ 2) by ring. apply sqrt_pow2. lra. }
  intros i Hi. unfold mirror. rewrite with_radius_scales; [| left; reflexivity | rewrite E; lra | exact Hi]. rewrite E. unfold vscale.
  destruct i as [|[|i]]; cbn; [field | field | lia].
Qed.

(** ** C75: a relaxation step keeps the particles inside the sphere *)
Lemma shorten_mu : forall fuel n b x a mu0 mu, shorten fuel n b x a mu0 = Some mu ->
  (norm n (moved x a mu) / b <= 101 / 100 \/ mu <= 1 / 10 ^ 10) /\ (exists k : nat, mu = mu0 * (1 / 2) ^ k).
Proof.
  induction fuel as [|f IH]; intros n b x a mu0 mu H; cbn [shorten] in H; [discriminate|].
  destruct (Rlt_b (101 / 100) (norm n (moved x a mu0) / b)) eqn:E1; cbn [andb] in H.
  - destruct (Rlt_b (1 / 10 ^ 10) mu0) eqn:E2.
    + destruct (IH _ _ _ _ _ _ H) as [H1 (k & Hk)]. split; [exact H1|]. exists (S k). rewrite Hk. cbn [pow]. ring.
    + injection H as <-. split; [right; apply Rlt_b_false; exact E2 | exists O; cbn; ring].
  - injection H as <-. split; [left; apply Rlt_b_false; exact E1 | exists O; cbn; ring].
Qed.
(** For every particle inside the sphere and every acceleration up to 10^8 boundary
    radii the new position is inside the sphere, in two and three dimensions. *)
Theorem C75_inside : forall fuel n b x a mu0 y, (n = 2 \/ n = 3)%nat -> 0 < b -> norm n x <= b -> 0 <= mu0 -> norm n a <= 10 ^ 8 * b ->
  displace fuel n b x a mu0 = Some y -> norm n y <= b.
Proof.
  intros fuel n b x a mu0 y Hn Hb Hx Hmu Ha H. unfold displace in H. destruct (shorten fuel n b x a mu0) as [mu|] eqn:E; [|discriminate].
  destruct (shorten_mu _ _ _ _ _ _ _ E) as [H1 (k & Hk)].
  assert (Hm0 : 0 <= mu) by (rewrite Hk; apply Rmult_le_pos; [exact Hmu | apply pow_le; lra]).
  set (rp := moved x a mu) in *.
  assert (HR : norm n rp <= 101 / 100 * b).
  { destruct H1 as [H1|H1].
    - apply (Rmult_le_compat_r b) in H1; [|lra]. replace (norm n rp / b * b) with (norm n rp) in H1 by (field; lra). exact H1.
    - unfold rp, moved. eapply Rle_trans; [apply norm_triangle|]. rewrite norm_scale, Rabs_pos_eq by exact Hm0.
      assert (mu * norm n a <= 1 / 10 ^ 10 * (10 ^ 8 * b)) by (apply Rmult_le_compat; [exact Hm0 | apply sqrt_pos | exact H1 | exact Ha]).
      replace (1 / 10 ^ 10 * (10 ^ 8 * b)) with (b / 100) in H0 by field. lra. }
  destruct (Rlt_b (norm n rp / b) 1) eqn:E1; injection H as <-.
  - apply Rlt_b_true in E1. apply (Rmult_lt_compat_r b) in E1; [|exact Hb]. replace (norm n rp / b * b) with (norm n rp) in E1 by (field; lra). lra.
  - apply Rlt_b_false in E1. apply (Rmult_le_compat_r b) in E1; [|lra]. replace (norm n rp / b * b) with (norm n rp) in E1 by (field; lra).
    pose proof (with_radius_scales n (fun r => r - 2 * (r - b)) rp Hn ltac:(lra)) as HW. cbv beta in HW.
    rewrite (norm_ext _ _ _ HW), norm_scale, Rabs_pos_eq by (apply Rmult_le_pos; [lra | apply Rlt_le, Rinv_0_lt_compat; lra]).
    replace ((norm n rp - 2 * (norm n rp - b)) / norm n rp * norm n rp) with (2 * b - norm n rp) by (field; lra). lra.
Qed.
(** The halving ends. *)
Theorem C75_ends : forall n b x a mu0, exists fuel, displace fuel n b x a mu0 <> None.
Proof.
  intros n b x a mu0.
  assert (HS : forall k mu, mu * (1 / 2) ^ k <= 1 / 10 ^ 10 -> shorten (S k) n b x a mu <> None).
  { induction k as [|k IH]; intros mu H.
    - cbn [shorten]. cbn [pow] in H. replace (Rlt_b (1 / 10 ^ 10) mu) with false; [rewrite Bool.andb_false_r; discriminate|].
      symmetry. apply Rlt_b_false. lra.
    - cbn [shorten]. destruct (Rlt_b _ _ && Rlt_b _ _)%bool; [|discriminate]. apply IH. cbn [pow] in H. lra. }
  destruct (pow_lt_1_zero (1 / 2) ltac:(rewrite Rabs_pos_eq; lra) (1 / 10 ^ 10 / (Rabs mu0 + 1))) as (N & HN).
  { apply Rdiv_lt_0_compat; [|pose proof (Rabs_pos mu0); lra]. apply Rdiv_lt_0_compat; [lra | apply pow_lt; lra]. }
  exists (S N). unfold displace. destruct (shorten (S N) n b x a mu0) eqn:E; [discriminate|]. exfalso. revert E. apply HS.
  specialize (HN N (le_n N)). pose proof (Rabs_pos mu0). rewrite Rabs_pos_eq in HN by (apply pow_le; lra).
  apply (Rmult_lt_compat_r (Rabs mu0 + 1)) in HN; [|lra]. unfold Rdiv at 2 in HN. rewrite Rmult_assoc, Rinv_l, Rmult_1_r in HN by lra.
  pose proof (Rle_abs mu0). assert (0 < (1 / 2) ^ N) by (apply pow_lt; lra). nra.
Qed.
(** In one dimension a particle leaving on the left comes back on the right. *)
Theorem C75_one_dimension_refuted : exists (x a y : point), norm 1 x <= 1 /\ displace 1 1 1 x a 1 = Some y /\ x 0%nat < - (9 / 10) /\ 9 / 10 < y 0%nat.
Proof.
  set (x := (fun _ => - (995 / 1000)) : point). set (a := (fun _ => - (1 / 100)) : point).
  assert (Ex : norm 1 x = 995 / 1000).
  { unfold norm, dot, x; cbn [sumn]. match goal with |- sqrt ?e = _ => replace e with ((995 / 1000) ^ 2) by ring end. apply sqrt_pow2. lra. }
  assert (Em : norm 1 (moved x a 1) = 1005 / 1000).
  { unfold norm, dot, moved, vadd, vscale, x, a; cbn [sumn]. match goal with |- sqrt ?e = _ => replace e with ((1005 / 1000) ^ 2) by field end. apply sqrt_pow2. lra. }
  eexists x, a, _. split; [lra|]. split.
  - unfold displace. cbn [shorten]. rewrite Em. replace (Rlt_b (101 / 100) (1005 / 1000 / 1)) with false by (symmetry; apply Rlt_b_false; lra). cbn [andb]. rewrite Em.
    replace (Rlt_b (1005 / 1000 / 1) 1) with false by (symmetry; apply Rlt_b_false; lra). reflexivity.
  - split; [unfold x; lra|]. unfold with_radius, spherical_to_cartesian, cartesian_to_spherical; cbn [Nat.eqb]. rewrite Em. lra.
Qed.
(** and a stronger acceleration throws it out of the sphere *)
Theorem C75_far_refuted : exists fuel (x a y : point), norm 2 x <= 1 /\ displace fuel 2 1 x a (1 / 10 ^ 10) = Some y /\ 1 < norm 2 y.
Proof.
  set (x := (fun _ => 0) : point). set (a := (fun i => if (i =? 0)%nat then 4 * 10 ^ 10 else 0) : point).
  assert (Em : norm 2 (moved x a (1 / 10 ^ 10)) = 4).
  { unfold norm, dot, moved, vadd, vscale, x, a; cbn [sumn Nat.eqb]. match goal with |- sqrt ?e = _ => replace e with (4 ^ 2) by field end. apply sqrt_pow2. lra. }
  exists 1%nat. eexists x, a, _. split.
  { unfold norm, dot, x; cbn [sumn]. replace (0 + 0 * 0 + 0 * 0) with 0 by ring. rewrite sqrt_0. lra. }
  split.
  - unfold displace. cbn [shorten]. replace (Rlt_b (1 / 10 ^ 10) (1 / 10 ^ 10)) with false by (symmetry; apply Rlt_b_false; lra). rewrite Bool.andb_false_r. cbv iota beta zeta.
    rewrite Em. replace (Rlt_b (4 / 1) 1) with false by (symmetry; apply Rlt_b_false; lra). reflexivity.
  - rewrite (norm_ext _ _ _ (with_radius_scales 2 _ _ (or_introl eq_refl) ltac:(rewrite Em; lra))), norm_scale, Em. rewrite Rabs_left by lra. lra.
Qed.
(** The cool-down factor falls to 0 and never below. *)
Theorem C75_cool_down : forall mu cd it, 0 <= mu -> (0 < cd)%Z -> (0 <= it)%Z ->
  0 <= start_mu mu (Some it) cd <= mu / 10 /\ ((cd <= it)%Z -> start_mu mu (Some it) cd = 0).
Proof.
  intros mu cd it Hmu Hcd Hit. apply IZR_lt in Hcd. apply IZR_le in Hit. unfold start_mu.
  assert (E : - (1 / 10) * mu / (IZR cd * 1) * IZR it + 1 / 10 * mu = mu / 10 * (1 - IZR it / IZR cd)) by (field; lra). rewrite E.
  assert (Q : 0 <= IZR it / IZR cd) by (apply Rmult_le_pos; [exact Hit | apply Rlt_le, Rinv_0_lt_compat, Hcd]).
  split; [rltb; split; try lra; nra|]. intros L. apply IZR_le in L.
  assert (1 <= IZR it / IZR cd) by (apply (Rmult_le_reg_r (IZR cd)); [exact Hcd|]; unfold Rdiv; rewrite Rmult_assoc, Rinv_l by lra; lra).
  rltb; [reflexivity|]. nra.
Qed.
Example C75_run : norm 2 (fun i => if (i =? 0)%nat then 1 / 2 else 0) <= 1 /\ norm 2 (fun i => if (i =? 0)%nat then 10 else 0) <= 10 ^ 8 * 1.
Proof.
  split; unfold norm, dot; cbn [sumn Nat.eqb].
  - replace (0 + 1 / 2 * (1 / 2) + 0 * 0) with ((1 / 2) ^ 2) by field. rewrite sqrt_pow2; lra.
  - replace (0 + 10 * 10 + 0 * 0) with (10 ^ 2) by ring. rewrite sqrt_pow2; lra.
Qed.

(** ** C74: the rescaled smoothing lengths *)
Lemma fold_volume : forall n hs v, fold_left (fun v h => v + volume n h) hs v = v + suml (volume n) hs.
Proof. induction hs as [|h hs IH]; intros v; cbn [fold_left suml]; [ring | rewrite IH; ring]. Qed.
Lemma allsum_suml : forall l, allsum l = suml (fun x => x) l.
Proof.
  intros l. unfold allsum. assert (H : forall l v, fold_left Rplus l v = v + suml (fun x => x) l) by (clear; induction l as [|a l IH]; intros v; cbn [fold_left suml]; [ring | rewrite IH; ring]).
  rewrite H. ring.
Qed.
Lemma total_volume : forall n ranks, allsum (map (local_volume n) ranks) = suml (volume n) (concat ranks).
Proof.
  intros n ranks. rewrite allsum_suml, suml_map. rewrite <- (map_id ranks) at 2. rewrite <- flat_map_concat_map, suml_flat_map.
  apply suml_ext. intros l _. unfold local_volume. rewrite fold_volume. ring.
Qed.
Definition ball (n : nat) (r : R) : R := match n with 1%nat => 2 * r | 2%nat => PI * r ^ 2 | _ => 4 / 3 * PI * r ^ 3 end.
(** After it the volumes of the neighbourhoods sum to wvt_ngb times that of the sphere, *)
Theorem C74_volume : forall n b ngb ranks, (1 <= n <= 3)%nat -> 0 < b -> 0 < ngb ->
  concat ranks <> [] -> (forall h, In h (concat ranks) -> 0 < h) ->
  suml (ball n) (concat (rescale n b ngb ranks)) = ngb * ball n b.
Proof.
  intros n b ngb ranks Hn Hb Hngb Hne Hpos. pose proof PI_RGT_0 as HPI.
  assert (HC : concat (rescale n b ngb ranks) = map (fun h => h * scaling n b ngb ranks) (concat ranks)) by (unfold rescale; rewrite concat_map; reflexivity).
  rewrite HC, suml_map. unfold scaling. rewrite total_volume. set (l := concat ranks) in *. set (v := suml (volume n) l).
  assert (HV : forall h, volume n h = ball n h) by (intros h; destruct n as [|[|[|[|n]]]]; try lia; unfold volume, ball; cbn [Nat.eqb]; field).
  assert (V0 : 0 < v).
  { apply suml_pos; [exact Hne|]. intros h Hh. rewrite HV. specialize (Hpos h Hh). destruct n as [|[|[|[|n]]]]; try lia; unfold ball; [lra | |].
    - apply Rmult_lt_0_compat; [exact HPI | apply pow_lt; exact Hpos].
    - apply Rmult_lt_0_compat; [lra | apply pow_lt; exact Hpos]. }
  assert (HS : forall s c, (forall h, ball n (h * s) = c * ball n h) -> suml (fun h => ball n (h * s)) l = c * v).
  { intros s c H. unfold v. rewrite (suml_ext _ (fun h => c * ball n h)) by (intros; apply H). rewrite suml_scal. f_equal. apply suml_ext. intros. symmetry. apply HV. }
  destruct n as [|[|[|[|n]]]]; try lia; cbn [Nat.eqb].
  - rewrite (HS _ (2 * b * ngb / v)) by (intros h; unfold ball; ring). unfold ball. field. lra.
  - assert (Q : 0 <= PI * (b * b) * ngb / v) by (apply Rlt_le, Rdiv_lt_0_compat; [apply Rmult_lt_0_compat; [apply Rmult_lt_0_compat; [exact HPI | nra] | exact Hngb] | exact V0]).
    rewrite (HS _ (PI * (b * b) * ngb / v)).
    + unfold ball. field. lra.
    + intros h. unfold ball. rewrite Rpow_mult_distr, pow2_sqrt by exact Q. ring.
  - assert (B3 : 0 < b * b * b) by (apply Rmult_lt_0_compat; nra).
    assert (Q : 0 < 4 * PI * (b * b * b) / 3 * ngb / v) by (apply Rdiv_lt_0_compat; [apply Rmult_lt_0_compat; [|exact Hngb]; apply Rdiv_lt_0_compat; [apply Rmult_lt_0_compat; lra | lra] | exact V0]).
    rewrite (HS _ (4 * PI * (b * b * b) / 3 * ngb / v)).
    + unfold ball. field. lra.
    + intros h. unfold ball. rewrite Rpow_mult_distr. rewrite <- (Rpower_pow 3 (Rpower _ _)) by apply exp_pos. rewrite Rpower_mult.
      replace (1 / 3 * INR 3) with 1 by (cbn [INR]; field). rewrite Rpower_1 by exact Q. ring.
Qed.
(** and the factor does not depend on how the particles are distributed. *)
Theorem C74_distribution : forall n b ngb ranks ranks', Permutation (concat ranks) (concat ranks') -> scaling n b ngb ranks = scaling n b ngb ranks'.
Proof. intros. unfold scaling. rewrite ! total_volume, (suml_perm _ _ _ H). reflexivity. Qed.
Example C74_run : concat (rescale 1 3 4 [[1]; [2; 3]]) = [2; 4; 6].
Proof.
  assert (E : scaling 1 3 4 [[1]; [2; 3]] = 2) by (unfold scaling; rewrite total_volume; cbn [Nat.eqb concat app suml]; unfold volume; cbn [Nat.eqb]; field).
  unfold rescale. rewrite <- concat_map, E. cbn [map concat app]. replace (1 * 2) with 2 by ring. replace (2 * 2) with 4 by ring. replace (3 * 2) with 6 by ring. reflexivity.
Qed.
