(** The time step of a particle: C81. *)
From Verif Require Import Base Key_model BuildTree_props Vec Geometry_model Geometry_props Kernel_model Kernel_props Sph_model Sph_props SphMore_props EForce_model
  Driver_model Driver_proofs Driver_tree Driver_props Dt_model.
From Coq Require Import FunctionalExtensionality Sorted.
Local Open Scope R_scope.

Lemma tiny_pos : 0 < dt_tiny.
Proof. unfold dt_tiny. apply Rinv_0_lt_compat, pow_lt. lra. Qed.

Lemma Rmin3 x y z : Rmin (Rmin x y) z <= x /\ Rmin (Rmin x y) z <= y /\ Rmin (Rmin x y) z <= z.
Proof. pose proof (Rmin_l (Rmin x y) z). pose proof (Rmin_r (Rmin x y) z). pose proof (Rmin_l x y). pose proof (Rmin_r x y). repeat split; lra. Qed.

Lemma quot_lt x y : 0 < x -> 0 <= y -> x / (y + dt_tiny) * y < x.
Proof.
  intros Hx Hy. pose proof tiny_pos. apply Rmult_lt_reg_r with (y + dt_tiny); [lra|].
  replace (x / (y + dt_tiny) * y * (y + dt_tiny)) with (x * y) by (field; lra). nra.
Qed.

Section C81.
Context (dp : dparams) (cfl : R) (b : dbody).
Notation n := (dp_dim dp).
Context (Hh : 0 < p_h (d_p b)) (Hw : 0 < dp_etaw dp) (Hc : 0 < cfl) (Ha : 0 <= v_alpha (dp_sph dp)) (Hs : 0 <= d_vsig b).
Notation acc := (vadd (d_acc b) (p_gacc (d_p b))).
Notation dx := (p_h (d_p b) / dp_etaw dp).

Lemma dx_pos : 0 < dx.
Proof. apply Rdiv_lt_0_compat; assumption. Qed.
Lemma norm_pos m v : 0 <= norm m v.
Proof. apply sqrt_pos. Qed.

Lemma base_bounds : 0 < dt_base dp cfl b /\ dt_base dp cfl b * norm n (p_vel (d_p b)) < cfl * dx /\
  dt_base dp cfl b * dt_base dp cfl b * norm n acc < cfl * cfl * dx /\ dt_base dp cfl b * (d_vsig b * (1 + 6 / 10 * v_alpha (dp_sph dp))) < cfl * dx.
Proof.
  pose proof tiny_pos as Ht. pose proof dx_pos as Hx. set (v := norm n (p_vel (d_p b))). set (a := norm n acc). set (c := d_vsig b * (1 + 6 / 10 * v_alpha (dp_sph dp))).
  assert (Hv : 0 <= v) by apply norm_pos. assert (Haa : 0 <= a) by apply norm_pos.
  assert (Hcc : 0 <= c) by (apply Rmult_le_pos; lra).
  assert (V : 0 < dt_v dp b) by (apply Rdiv_lt_0_compat; [exact Hx|fold v; lra]).
  assert (A : 0 < dt_a dp b) by (apply sqrt_lt_R0, Rdiv_lt_0_compat; [exact Hx|fold a; lra]).
  assert (C : 0 < dt_c dp b) by (apply Rdiv_lt_0_compat; [exact Hx|unfold dt_mc; fold c; lra]).
  unfold dt_base. set (m := Rmin (Rmin (dt_v dp b) (dt_a dp b)) (dt_c dp b)).
  assert (M : 0 < m) by (apply Rmin_glb_lt; [apply Rmin_glb_lt|]; assumption).
  destruct (Rmin3 (dt_v dp b) (dt_a dp b) (dt_c dp b)) as (M1 & M2 & M3). fold m in M1, M2, M3.
  assert (D1 : dt_v dp b * v < dx) by (unfold dt_v, dt_dx; fold v; exact (quot_lt dx v Hx Hv)).
  assert (D2 : dt_a dp b * dt_a dp b * a < dx).
  { unfold dt_a, dt_dx. fold a. rewrite sqrt_sqrt; [|apply Rlt_le, Rdiv_lt_0_compat; [exact Hx|lra]]. exact (quot_lt dx a Hx Haa). }
  assert (D3 : dt_c dp b * c < dx).
  { unfold dt_c, dt_dx, dt_mc. fold c. rewrite (Rplus_comm dt_tiny). exact (quot_lt dx c Hx Hcc). }
  assert (E1 : m * v < dx) by nra. assert (E3 : m * c < dx) by nra.
  assert (E2 : m * m * a < dx). { assert (m * m <= dt_a dp b * dt_a dp b) by nra. nra. }
  split; [nra|]. split; [|split].
  - replace (cfl * m * v) with (cfl * (m * v)) by ring. apply Rmult_lt_compat_l; assumption.
  - replace (cfl * m * (cfl * m) * a) with (cfl * cfl * (m * m * a)) by ring. apply Rmult_lt_compat_l; [nra|exact E2].
  - replace (cfl * m * c) with (cfl * (m * c)) by ring. apply Rmult_lt_compat_l; assumption.
Qed.

Lemma shorten_spec fuel : forall dt r, dt_shorten dp fuel b dt = Some r ->
  exists k, (k < fuel)%nat /\ r = dt * (1 / 4) ^ k /\ dt_gain dp b r < d_u b * (1 / 2) /\
  forall j, (j < k)%nat -> d_u b * (1 / 2) <= dt_gain dp b (dt * (1 / 4) ^ j).
Proof.
  induction fuel as [|f IH]; intros dt r H; [discriminate|]. cbn [dt_shorten] in H. destruct (Rltb _ _) eqn:E.
  - injection H as <-. exists 0%nat. apply Rltb_true in E. split; [lia|]. split; [cbn; ring|]. split; [exact E|]. intros j Hj. lia.
  - destruct (IH _ _ H) as (k & K1 & K2 & K3 & K4). exists (S k). split; [lia|]. split; [rewrite K2; cbn [pow]; ring|]. split; [exact K3|].
    intros [|j] Hj.
    + cbn. rewrite Rmult_1_r. apply Rltb_false in E. lra.
    + specialize (K4 j ltac:(lia)). cbn [pow]. replace (dt * (1 / 4 * (1 / 4) ^ j)) with (dt * (1 / 4) * (1 / 4) ^ j) by ring. exact K4.
Qed.

(** The time step is positive; during it a particle moves less than [cfl]
    particle separations, its acceleration displaces it less than [cfl]^2 of
    them and signals cross less than [cfl] of them. *)
Theorem C81_bounds dt : compute_dt dp cfl b = Some dt ->
  0 < dt /\ dt * norm n (p_vel (d_p b)) < cfl * dx /\ dt * dt * norm n acc < cfl * cfl * dx /\
  dt * (d_vsig b * (1 + 6 / 10 * v_alpha (dp_sph dp))) < cfl * dx.
Proof.
  destruct base_bounds as (B1 & B2 & B3 & B4). unfold compute_dt. destruct (dp_evolve dp && dp_thermo dp).
  - destruct (Rltb 0 (d_u b)); [|discriminate]. intro H. destruct (shorten_spec _ _ _ H) as (k & _ & -> & _).
    assert (Q : 0 < (1 / 4) ^ k <= 1).
    { split; [apply pow_lt; lra|]. rewrite <- (pow1 k) at 2. apply pow_incr. lra. }
    set (q := (1 / 4) ^ k) in *. set (m := dt_base dp cfl b) in *.
    assert (G : forall x, 0 <= x -> x * q <= x) by (intros; nra).
    pose proof (norm_pos n (p_vel (d_p b))). pose proof (norm_pos n acc).
    assert (0 <= d_vsig b * (1 + 6 / 10 * v_alpha (dp_sph dp))) by (apply Rmult_le_pos; lra).
    split; [nra|]. split; [|split].
    + eapply Rle_lt_trans; [|exact B2]. replace (m * q * norm n (p_vel (d_p b))) with (m * norm n (p_vel (d_p b)) * q) by ring. apply G. nra.
    + eapply Rle_lt_trans; [|exact B3]. replace (m * q * (m * q) * norm n acc) with (m * m * norm n acc * q * q) by ring.
      assert (P1 : 0 <= m * m * norm n acc) by (apply Rmult_le_pos; nra). pose proof (G _ P1). assert (P2 : 0 <= m * m * norm n acc * q) by (apply Rmult_le_pos; lra).
      pose proof (G _ P2). lra.
    + eapply Rle_lt_trans; [|exact B4]. set (c := d_vsig b * (1 + 6 / 10 * v_alpha (dp_sph dp))) in *.
      replace (m * q * c) with (m * c * q) by ring. apply G. nra.
  - intros [= <-]. auto.
Qed.

(** Without the thermokinetic formulation there always is a time step. *)
Theorem C81_defined : dp_evolve dp && dp_thermo dp = false -> exists dt, compute_dt dp cfl b = Some dt.
Proof. intro H. unfold compute_dt. rewrite H. eauto. Qed.

(** With it, the internal energy is positive and moving freely for the time
    step raises the potential energy by less than half of it; the step is the
    first of the base step and its divisions by four that does. *)
Theorem C81_energy dt : dp_evolve dp && dp_thermo dp = true -> compute_dt dp cfl b = Some dt ->
  let gain t := dp_pot dp (fun j => p_pos (d_p b) j + t * p_vel (d_p b) j) - dp_pot dp (p_pos (d_p b)) - t * dot n (p_vel (d_p b)) (p_gacc (d_p b)) in
  0 < d_u b /\ gain dt < 1 / 2 * d_u b /\
  exists k, (k < 20)%nat /\ dt = dt_base dp cfl b * (1 / 4) ^ k /\ forall j, (j < k)%nat -> 1 / 2 * d_u b <= gain (dt_base dp cfl b * (1 / 4) ^ j).
Proof.
  intros E H. cbv zeta. unfold compute_dt in H. rewrite E in H. destruct (Rltb 0 (d_u b)) eqn:U; [|discriminate]. apply Rltb_true in U.
  destruct (shorten_spec _ _ _ H) as (k & K1 & K2 & K3 & K4). split; [exact U|]. split.
  - unfold dt_gain, vadd, vscale in K3. lra.
  - exists k. split; [exact K1|]. split; [exact K2|]. intros j Hj. specialize (K4 j Hj). unfold dt_gain, vadd, vscale in K4. lra.
Qed.

(** Nor is it shorter than necessary: up to the divisions by four, one of the
    three criteria is met with equality (10^-24 keeps the divisors positive),
    and there is a division only if four times the step was too long. *)
Theorem C81_attained dt : compute_dt dp cfl b = Some dt -> exists k, (k < 20)%nat /\ (dp_evolve dp && dp_thermo dp = false -> k = 0%nat) /\
  (let T := dt * 4 ^ k in T * (norm n (p_vel (d_p b)) + / 10 ^ 24) = cfl * dx \/ T * T * (norm n acc + / 10 ^ 24) = cfl * cfl * dx \/
     T * (d_vsig b * (1 + 6 / 10 * v_alpha (dp_sph dp)) + / 10 ^ 24) = cfl * dx) /\
  (let gain t := dp_pot dp (fun j => p_pos (d_p b) j + t * p_vel (d_p b) j) - dp_pot dp (p_pos (d_p b)) - t * dot n (p_vel (d_p b)) (p_gacc (d_p b)) in
   k <> 0%nat -> 1 / 2 * d_u b <= gain (4 * dt)).
Proof.
  intro H.
  assert (B : dt_base dp cfl b * (norm n (p_vel (d_p b)) + / 10 ^ 24) = cfl * dx \/ dt_base dp cfl b * dt_base dp cfl b * (norm n acc + / 10 ^ 24) = cfl * cfl * dx \/
     dt_base dp cfl b * (d_vsig b * (1 + 6 / 10 * v_alpha (dp_sph dp)) + / 10 ^ 24) = cfl * dx).
  { pose proof tiny_pos as Ht. pose proof dx_pos as Hx. fold dt_tiny. unfold dt_base.
    pose proof (norm_pos n (p_vel (d_p b))) as Nv. pose proof (norm_pos n acc) as Na.
    assert (Hcc : 0 <= d_vsig b * (1 + 6 / 10 * v_alpha (dp_sph dp))) by (apply Rmult_le_pos; lra).
    assert (M : Rmin (Rmin (dt_v dp b) (dt_a dp b)) (dt_c dp b) = dt_v dp b \/ Rmin (Rmin (dt_v dp b) (dt_a dp b)) (dt_c dp b) = dt_a dp b \/
      Rmin (Rmin (dt_v dp b) (dt_a dp b)) (dt_c dp b) = dt_c dp b).
    { unfold Rmin. destruct (Rle_dec (dt_v dp b) (dt_a dp b)); match goal with |- context [Rle_dec ?x ?y] => destruct (Rle_dec x y) end; auto. }
    destruct M as [-> | [-> | ->]]; [left|right; left|right; right].
    - unfold dt_v, dt_dx. field. split; lra.
    - unfold dt_a, dt_dx. set (y := dx / (norm n acc + dt_tiny)).
      replace (cfl * sqrt y * (cfl * sqrt y) * (norm n acc + dt_tiny)) with (cfl * cfl * (sqrt y * sqrt y) * (norm n acc + dt_tiny)) by ring.
      rewrite sqrt_sqrt by (apply Rlt_le, Rdiv_lt_0_compat; lra). unfold y. field. split; lra.
    - unfold dt_c, dt_dx, dt_mc. field. split; lra. }
  unfold compute_dt in H. destruct (dp_evolve dp && dp_thermo dp).
  - destruct (Rltb 0 (d_u b)); [|discriminate]. destruct (shorten_spec _ _ _ H) as (k & K1 & K2 & K3 & K4).
    exists k. split; [exact K1|]. split; [discriminate|]. cbv zeta.
    assert (P4 : (1 / 4) ^ k * 4 ^ k = 1) by (rewrite <- Rpow_mult_distr; replace (1 / 4 * 4) with 1 by field; apply pow1).
    assert (E : dt * 4 ^ k = dt_base dp cfl b) by (rewrite K2, Rmult_assoc, P4; ring).
    split; [rewrite E; exact B|]. intro Hk. destruct k as [|j]; [contradiction|]. specialize (K4 j ltac:(lia)).
    replace (4 * dt) with (dt_base dp cfl b * (1 / 4) ^ j) by (rewrite K2; cbn [pow]; field).
    unfold dt_gain, vadd, vscale in K4. lra.
  - injection H as <-. exists 0%nat. split; [lia|]. split; [reflexivity|]. cbv zeta. cbn [pow]. rewrite Rmult_1_r. split; [exact B|]. contradiction.
Qed.

(** A step is found if the potential energy along the path grows at most with
    rate [L] and [L] times the base step over 4^19 is below half the internal
    energy. *)
Theorem C81_converges L : dp_evolve dp && dp_thermo dp = true -> 0 < d_u b ->
  (forall t, 0 <= t <= dt_base dp cfl b ->
     dp_pot dp (fun j => p_pos (d_p b) j + t * p_vel (d_p b) j) - dp_pot dp (p_pos (d_p b)) - t * dot n (p_vel (d_p b)) (p_gacc (d_p b)) <= L * t) ->
  L * dt_base dp cfl b < 1 / 2 * d_u b * 4 ^ 19 -> exists dt, compute_dt dp cfl b = Some dt.
Proof.
  intros E U G HL. unfold compute_dt. rewrite E, (proj2 (Rltb_true _ _) U). destruct base_bounds as (B1 & _).
  assert (K : forall f t, 0 <= t <= dt_base dp cfl b -> L * t < 1 / 2 * d_u b * 4 ^ f -> exists dt, dt_shorten dp (S f) b t = Some dt).
  { induction f as [|f IH]; intros t Ht Hl.
    - exists t. cbn [dt_shorten]. rewrite (proj2 (Rltb_true _ _)); [reflexivity|]. specialize (G t Ht). unfold dt_gain, vadd, vscale. cbn in Hl. lra.
    - cbn [dt_shorten]. destruct (Rltb _ _) eqn:X; [eauto|]. apply IH; [lra|]. cbn [pow] in Hl. lra. }
  apply (K 19%nat); [lra|exact HL].
Qed.
End C81.

(** The loop may give up: a particle about to enter a very steep wall. *)
Definition steep : ef_par := EfPar 2 0 0 1 (10 ^ 15) 0 0 0 0 0 0 0 0 0 0 0 0 0 0 0 0.
Definition cliff : dparams :=
  DParams (defaults wendland_c4 false) 1 ideal (acceleration_square_well steep 0) (potential_square_well steep 0) 0 0 0 0 0 true true 1 HFixed 1.
Definition cliff_body : dbody := DBody (Part (fun _ => 1) (fun _ => 1) vzero vzero 1 1 1 1 1 1 0 0) 0 vzero 0 1 0 0 0 0 0.
Theorem C81_defined_refuted : exists dp b, 0 < p_h (d_p b) /\ 0 < d_u b /\ 0 < dp_etaw dp /\
  (forall j, (j < dp_dim dp)%nat -> d_acc b j = dp_ext dp (p_pos (d_p b)) j) /\ compute_dt dp (1 / 4) b = None.
Proof.
  exists cliff, cliff_body. split; [cbn; lra|]. split; [cbn; lra|]. split; [cbn; lra|]. split.
  { intros j Hj. cbn in Hj. replace j with 0%nat by lia. cbn [cliff cliff_body d_acc dp_ext d_p p_pos]. unfold acceleration_square_well, half_box, vzero. cbn [steep box_length pw_n pw_a Nat.eqb].
    rewrite (proj2 (Rltb_false _ _)) by lra. rewrite (proj2 (Rltb_false _ _)) by lra. ring. }
  unfold compute_dt. cbn [cliff dp_evolve dp_thermo andb]. change (d_u cliff_body) with 1.
  rewrite (proj2 (Rltb_true _ _)) by lra. fold cliff.
  assert (P : 1 / 8 <= dt_base cliff (1 / 4) cliff_body).
  { unfold dt_base, dt_v, dt_a, dt_c, dt_dx. cbn [cliff cliff_body d_p p_h dp_etaw dp_dim p_vel d_acc p_gacc d_vsig dp_sph defaults v_alpha].
    assert (T : dt_tiny <= 1 / 4).
    { unfold dt_tiny. apply Rle_trans with (/ 4); [|lra]. apply Rinv_le_contravar; [lra|]. lra. }
    pose proof tiny_pos as Tp.
    assert (V : norm 1 (fun _ => 1) = 1) by (unfold norm, dot; cbn; replace (0 + 1 * 1) with 1 by ring; apply sqrt_1).
    assert (A : norm 1 (vadd vzero vzero) = 0) by (unfold norm, dot, vadd, vzero; cbn; replace (0 + (0 + 0) * (0 + 0)) with 0 by ring; apply sqrt_0).
    rewrite V, A. replace (1 / 1) with 1 by field.
    assert (X : 1 / 2 <= 1 / (1 + dt_tiny)) by (apply Rmult_le_reg_r with (1 + dt_tiny); [lra|]; unfold Rdiv at 2; rewrite Rmult_assoc, Rinv_l by lra; lra).
    assert (Y : 4 <= 1 / (0 + dt_tiny)) by (apply Rmult_le_reg_r with (0 + dt_tiny); [lra|]; unfold Rdiv; rewrite Rmult_assoc, Rinv_l by lra; lra).
    assert (Z : 1 / 2 <= 1 / (dt_tiny + 0 * (1 + dt_mc * 1))) by (replace (dt_tiny + 0 * (1 + dt_mc * 1)) with (0 + dt_tiny) by ring; lra).
    assert (Q : 1 / 2 <= sqrt (1 / (0 + dt_tiny))) by (rewrite <- sqrt_1 at 1; apply Rle_trans with (sqrt 1); [rewrite sqrt_1; lra|apply sqrt_le_1_alt; lra]).
    assert (M : 1 / 2 <= Rmin (Rmin (1 / (1 + dt_tiny)) (sqrt (1 / (0 + dt_tiny)))) (1 / (dt_tiny + 0 * (1 + dt_mc * 1)))) by (repeat apply Rmin_glb; assumption).
    lra. }
  assert (K : forall f t, 0 < t -> 1 / 2 * 4 ^ f <= 4 * 10 ^ 15 * t -> dt_shorten cliff f cliff_body t = None).
  { induction f as [|f IH]; intros t Ht HL; [reflexivity|]. cbn [dt_shorten]. cbn [pow] in HL.
    assert (1 <= 4 ^ f) by (apply pow_R1_Rle; lra).
    rewrite (proj2 (Rltb_false _ _)); [apply IH; lra|]. unfold dt_gain, vadd, vscale, dot.
    cbn [cliff dp_pot dp_dim cliff_body d_p p_pos p_vel p_gacc d_u sumn]. unfold potential_square_well, half_box. cbn [steep box_length pw_n pw_a].
    rewrite (proj2 (Rltb_false (1 + t * 1) _)) by lra. rewrite (proj2 (Rltb_true (1 / 2 * 2) (1 + t * 1))) by lra.
    rewrite (proj2 (Rltb_false 1 _)) by lra. rewrite (proj2 (Rltb_false (1 / 2 * 2) 1)) by lra. rewrite Rpower_1 by lra. unfold vzero. lra. }
  apply K; lra.
Qed.

(** The step does not keep the internal energy positive, although that is its
    purpose: it ignores the kinetic energy gained by the kick.  A particle just
    outside a linear wall, at rest and with little internal energy, has no
    next iteration. *)
Definition wall81 : ef_par := EfPar 2 0 0 1 1 0 0 0 0 0 0 0 0 0 0 0 0 0 0 0 0.
Definition par81 : dparams :=
  DParams (defaults wendland_c4 false) 1 ideal (acceleration_square_well wall81 0) (potential_square_well wall81 0) 0 0 0 0 0 true true 1 HFixed 1.
Definition x81 : point := fun _ => 1001 / 1000.
Definition part81 (rho P c alpha : R) : part := Part x81 vzero vzero vzero 1 (1 + dt_tiny) rho P c alpha 0 0.
Definition start81 (i : nat) : dbody := DBody (part81 1 (4 / 10000) 0 1) 0 vzero 0 0 0 0 0 0 0.

Lemma edge81 x : x 0%nat = 1001 / 1000 -> potential_square_well wall81 0 x = 1 / 1000 /\ acceleration_square_well wall81 0 x 0%nat = -1.
Proof.
  intro E. unfold potential_square_well, acceleration_square_well, half_box. cbn [wall81 box_length pw_n pw_a Nat.eqb]. rewrite E.
  rewrite (proj2 (Rltb_false (1001 / 1000) _)) by lra. rewrite (proj2 (Rltb_true (1 / 2 * 2) _)) by lra.
  replace (1 - 1) with 0 by ring. rewrite Rpower_O, Rpower_1 by lra. split; lra.
Qed.
Lemma inside81 x : -1 <= x 0%nat <= 1 -> potential_square_well wall81 0 x = 0.
Proof.
  intro E. unfold potential_square_well, half_box. cbn [wall81 box_length pw_n pw_a].
  rewrite (proj2 (Rltb_false _ _)) by lra. rewrite (proj2 (Rltb_false _ _)) by lra. lra.
Qed.

(** what the first iteration keeps *)
Definition at81 (b : dbody) : Prop := p_pos (d_p b) = x81 /\ p_vel (d_p b) = vzero /\ p_m (d_p b) = 1 /\ p_h (d_p b) = 1 + dt_tiny /\ d_e b = 2 / 1000.
Definition ready81 (b : dbody) : Prop := at81 b /\ d_acc b 0%nat = -1 /\ p_gacc (d_p b) = vzero.

Lemma recover81 b : at81 b -> recover_internal_energy par81 b = Some (set_u (1 / 1000) b).
Proof.
  intros (A1 & A2 & _ & _ & A5). unfold recover_internal_energy, ekin. cbv zeta. rewrite A1, A2, A5. cbn [par81 dp_pot dp_dim].
  destruct (edge81 x81 eq_refl) as (-> & _).
  assert (D : dot 1 vzero vzero = 0) by (unfold dot, vzero; cbn; ring). rewrite D.
  replace (2 / 1000 - 1 / 2 * 0 - 1 / 1000) with (1 / 1000) by lra. rewrite (proj2 (Rltb_true _ _)) by lra. reflexivity.
Qed.

Lemma self81 a : nb_mass 1 a a = 0.
Proof. unfold nb_mass. assert (same_pos 1 (p_pos a) (p_pos a) = true) as ->; [|cbn; ring]. apply same_upto_true. reflexivity. Qed.

Lemma own_list s nb : 0 < p_h (d_p (s 0%nat)) -> tree_lists 1 1 s nb -> forall q, In q (map d_p (map s (nb 0%nat))) -> q = d_p (s 0%nat).
Proof.
  intros Hh Hl q Hq. rewrite map_map in Hq. apply in_map_iff in Hq. destruct Hq as (j & <- & Hj).
  destruct (tree_lists_ok 1 1 s nb) with (i := 0%nat) as (_ & B & _); [unfold dim_ok; lia|lia|exact Hl|intros i Hi; replace i with 0%nat by lia; exact Hh|lia|].
  specialize (B j Hj). replace j with 0%nat by lia. reflexivity.
Qed.

Lemma self_acc a l ext : (forall q, In q l -> q = a) -> Sph_model.acceleration (dp_sph par81) 1 ext a l 0%nat = ext 0%nat.
Proof.
  intro H. unfold Sph_model.acceleration. rewrite (suml_ext _ (fun _ => 0)), suml_zero; [ring|].
  intros q Hq. rewrite (H q Hq), self81. ring.
Qed.
Lemma self_dedt a l : (forall q, In q l -> q = a) -> p_gacc a = vzero -> dedt (dp_sph par81) 1 a l = 0.
Proof.
  intros H G. unfold dedt. rewrite (suml_ext _ (fun _ => 0)), suml_zero, G; [unfold dot, vzero; cbn; ring|].
  intros q Hq. rewrite (H q Hq), self81. ring.
Qed.
Lemma self_vsig a l : (forall q, In q l -> p_pos q = p_pos a) -> signal_speed 1 a l = 0.
Proof.
  intro H. unfold signal_speed. match goal with |- fold_left ?f l 0 = 0 => enough (K : forall v, fold_left f l v = v) by apply K end.
  intro v. induction l as [|q l IH]; [reflexivity|]. cbn [fold_left].
  unfold same_pos. rewrite (proj2 (same_upto_true _ _ _)); [|rewrite (H q (or_introl eq_refl)); reflexivity]. apply IH. intros x Hx. apply H. right. exact Hx.
Qed.

Definition nograv : (nat -> dbody) -> (nat -> point * R) -> Prop := fun _ _ => False.

Lemma density81 dt s nb s' : at81 (s 0%nat) -> tree_lists 1 1 s nb -> density_pass par81 dt (s 0%nat) (map s (nb 0%nat)) = Some s' ->
  at81 s' /\ d_u s' = 1 / 1000 /\ d_vsig s' = 0.
Proof.
  intros A Hl H. assert (Hh : 0 < p_h (d_p (s 0%nat))) by (destruct A as (_ & _ & _ & -> & _); pose proof tiny_pos; lra).
  pose proof (own_list s nb Hh Hl) as O. unfold density_pass in H. cbv zeta in H. destruct (Rltb 0 _); [|discriminate].
  cbn [par81 dp_evolve dp_thermo andb] in H. fold par81 in H. rewrite recover81 in H by exact A. cbn [par81 dp_sph defaults cullen] in H. fold (defaults wendland_c4 false) in H. fold par81 in H.
  injection H as <-. split; [exact A|]. split; [reflexivity|]. cbn [set_vsig d_vsig]. apply self_vsig. intros q Hq. rewrite (O q Hq). reflexivity.
Qed.

Lemma first81 s : do_ops par81 1 (tree_lists 1 1) nograv (initial_ops par81 false 0 1 1) start81 s ->
  at81 (s 0%nat) /\ d_u (s 0%nat) = 1 / 1000 /\ d_vsig (s 0%nat) = 0 /\ d_acc (s 0%nat) 0%nat = -1 /\ p_gacc (d_p (s 0%nat)) = vzero /\ d_dedt (s 0%nat) = 0.
Proof.
  intro H. unfold initial_ops in H. cbn [par81 dp_relax dp_thermo dp_sph defaults cullen dp_evolve dp_updates Nat.ltb Nat.leb opt andb forces energy_rounds energy_round app] in H.
  fold (defaults wendland_c4 false) in H. fold par81 in H. cbn [Driver_model.do_ops] in H.
  destruct H as (a0 & H0 & a1 & H1 & a2 & H2 & a3 & H3 & a4 & H4 & a5 & H5 & a6 & H6 & a7 & H7 & a8 & H8 & a9 & H9 & H10).
  cbn [Driver_model.do_op all] in *. subst a0 a5.
  specialize (H1 0%nat Nat.lt_0_1). specialize (H2 0%nat Nat.lt_0_1).
  assert (A2 : at81 (a2 0%nat)).
  { injection H1 as E1. injection H2 as E2. rewrite <- E2, <- E1. clear. repeat split; try reflexivity.
    unfold set_total_energy, ekin, eos_init, start81, part81. cbn -[potential_square_well]. destruct (edge81 x81 eq_refl) as (-> & _). unfold dot, vzero. cbn. lra. }
  assert (pos81 : forall b, at81 b -> 0 < p_h (d_p b)) by (intros b (_ & _ & _ & -> & _); pose proof tiny_pos; lra).
  destruct H3 as (nb & Hl & H3). specialize (H3 0%nat Nat.lt_0_1). destruct (density81 _ _ _ _ A2 Hl H3) as (A3 & U3 & V3).
  specialize (H4 0%nat Nat.lt_0_1). injection H4 as E4.
  assert (A4 : at81 (a4 0%nat)) by (rewrite <- E4; exact A3). assert (V4 : d_vsig (a4 0%nat) = 0) by (rewrite <- E4; exact V3).
  destruct H6 as (nb6 & Hl6 & H6). specialize (H6 0%nat Nat.lt_0_1). pose proof (own_list _ _ (pos81 _ A4) Hl6) as O6.
  unfold acceleration_pass in H6. injection H6 as E6.
  assert (A6 : at81 (a6 0%nat)) by (rewrite <- E6; exact A4). assert (V6 : d_vsig (a6 0%nat) = 0) by (rewrite <- E6; exact V4).
  assert (B6 : d_acc (a6 0%nat) 0%nat = -1).
  { rewrite <- E6. etransitivity; [exact (self_acc _ _ _ O6)|].
    destruct A4 as (-> & _). apply (edge81 x81 eq_refl). }
  assert (G6 : p_gacc (d_p (a6 0%nat)) = vzero) by (rewrite <- E6; reflexivity).
  destruct H7 as (nb7 & Hl7 & H7). specialize (H7 0%nat Nat.lt_0_1). pose proof (own_list _ _ (pos81 _ A6) Hl7) as O7.
  unfold dedt_pass in H7. injection H7 as E7.
  assert (A7 : at81 (a7 0%nat)) by (rewrite <- E7; exact A6).
  assert (D7 : d_dedt (a7 0%nat) = 0).
  { rewrite <- E7. exact (self_dedt _ _ O7 G6). }
  assert (V7 : d_vsig (a7 0%nat) = 0) by (rewrite <- E7; exact V6). assert (B7 : d_acc (a7 0%nat) 0%nat = -1) by (rewrite <- E7; exact B6).
  assert (G7 : p_gacc (d_p (a7 0%nat)) = vzero) by (rewrite <- E7; exact G6).
  specialize (H8 0%nat Nat.lt_0_1). unfold recompute_thermo in H8. rewrite (recover81 _ A7) in H8. injection H8 as E8.
  subst s a9. change (new_h par81 1 a8) with a8. rewrite <- E8. repeat apply conj; try assumption; try reflexivity; apply A7.
Qed.

Lemma dt81 b : at81 b -> d_u b = 1 / 1000 -> d_vsig b = 0 -> d_acc b 0%nat = -1 -> p_gacc (d_p b) = vzero -> compute_dt par81 (1 / 4) b = Some (1 / 4).
Proof.
  intros (A1 & A2 & A3 & A4 & A5) U V B G. pose proof tiny_pos as T. unfold compute_dt. change (dp_evolve par81 && dp_thermo par81) with true. cbv iota.
  rewrite U, (proj2 (Rltb_true _ _)) by lra.
  assert (E : dt_base par81 (1 / 4) b = 1 / 4).
  { unfold dt_base, dt_v, dt_a, dt_c, dt_dx. rewrite A4, A2, V, G. change (dp_etaw par81) with 1. change (dp_dim par81) with 1%nat.
    assert (N0 : norm 1 vzero = 0) by (unfold norm, dot, vzero; cbn; replace (0 + 0 * 0) with 0 by ring; apply sqrt_0).
    assert (N1 : norm 1 (vadd (d_acc b) vzero) = 1).
    { unfold norm, dot, vadd, vzero. cbn. rewrite B. replace (0 + (-1 + 0) * (-1 + 0)) with 1 by ring. apply sqrt_1. }
    rewrite N0, N1. replace ((1 + dt_tiny) / 1 / (1 + dt_tiny)) with 1 by (field; lra). rewrite sqrt_1.
    assert (L : 1 <= (1 + dt_tiny) / 1 / (0 + dt_tiny)).
    { apply Rmult_le_reg_r with (0 + dt_tiny); [lra|]. replace ((1 + dt_tiny) / 1 / (0 + dt_tiny) * (0 + dt_tiny)) with (1 + dt_tiny) by (field; lra). lra. }
    rewrite (Rmin_right _ 1) by exact L.
    replace (dt_tiny + 0 * (1 + dt_mc * v_alpha (dp_sph par81))) with (0 + dt_tiny) by ring. rewrite Rmin_left by exact L. ring. }
  rewrite E. cbn [dt_shorten]. rewrite (proj2 (Rltb_true _ _)); [reflexivity|]. rewrite U. unfold dt_gain. rewrite A2, G.
  replace (vadd (p_pos (d_p b)) (vscale (1 / 4) vzero)) with (p_pos (d_p b)).
  - unfold dot, vzero. cbn. lra.
  - apply functional_extensionality. intro j. unfold vadd, vscale, vzero. ring.
Qed.

Theorem C81_suffices_refuted : exists dp s0 s dt,
  do_ops dp 1 (tree_lists 1 1) nograv (initial_ops dp false 0 1 1) s0 s /\
  0 < d_u (s 0%nat) /\ compute_dt dp (1 / 4) (s 0%nat) = Some dt /\
  forall s', ~ do_ops dp 1 (tree_lists 1 1) nograv (step_ops dp false 1 dt) s s'.
Proof.
  destruct (thermo_first par81 1 1 nograv) with (k := 0%nat) (dt := 1) (dt' := 1) (s := start81) as (s & H).
  - unfold dim_ok. auto.
  - reflexivity.
  - lia.
  - exists [2 ^ max_depth 1]%N. split; [reflexivity|]. split; [apply SSorted_cons; [apply SSorted_nil|apply Forall_nil]|].
    apply Forall_cons; [|apply Forall_nil]. split; vm_compute; (reflexivity || discriminate).
  - apply C66_case.
  - cbn. lra.
  - reflexivity.
  - reflexivity.
  - cbn. lia.
  - intros i Hi. cbn. lra.
  - intros i Hi. cbn. pose proof tiny_pos. lra.
  - intros i Hi. cbn. lra.
  - destruct (first81 s H) as (A & U & V & B & G & D). exists par81, start81, s, (1 / 4). split; [exact H|]. split; [rewrite U; lra|].
    split; [apply dt81; assumption|]. intros s' F. unfold step_ops in F.
    cbn [par81 dp_relax dp_thermo dp_sph defaults cullen dp_evolve dp_updates Nat.ltb Nat.leb opt andb forces energy_rounds energy_round app] in F.
    fold (defaults wendland_c4 false) in F. fold par81 in F. cbn [Driver_model.do_ops] in F.
    destruct F as (a0 & F0 & a1 & F1 & a2 & F2 & a3 & F3 & a4 & F4 & a5 & F5 & _). cbn [Driver_model.do_op all] in *. subst a4.
    specialize (F0 0%nat Nat.lt_0_1). specialize (F1 0%nat Nat.lt_0_1). specialize (F2 0%nat Nat.lt_0_1). specialize (F3 0%nat Nat.lt_0_1).
    injection F0 as E0. injection F1 as E1. injection F2 as E2. injection F3 as E3.
    destruct F5 as (nb & _ & F5). specialize (F5 0%nat Nat.lt_0_1). unfold density_pass in F5. cbv zeta in F5. destruct (Rltb 0 _); [|discriminate].
    change (dp_evolve par81 && dp_thermo par81) with true in F5. cbv iota in F5.
    assert (W : forall r, recover_internal_energy par81 (set_rho r (a3 0%nat)) = None); [|rewrite W in F5; discriminate].
    clear F5. intro r. destruct A as (A1 & A2 & A3 & A4 & A5).
    assert (Vh : p_vel (d_p (set_rho r (a3 0%nat))) 0%nat = - (1 / 8)).
    { rewrite <- E3, <- E2, <- E1, <- E0. unfold kick_e, kick_v, vadd, vscale. cbn. rewrite A2, B, G. unfold vzero. lra. }
    assert (Xh : p_pos (d_p (set_rho r (a3 0%nat))) 0%nat = 1001 / 1000 - 1 / 32).
    { rewrite <- E3, <- E2, <- E1, <- E0. unfold kick_e, kick_v, vadd, vscale. cbn. unfold vadd, vscale. rewrite A1, A2, B, G. unfold vzero, x81. lra. }
    assert (Eh : d_e (set_rho r (a3 0%nat)) = 2 / 1000).
    { rewrite <- E3, <- E2, <- E1, <- E0. cbn. rewrite A5, D. lra. }
    unfold recover_internal_energy, ekin. cbv zeta. rewrite Eh. change (dp_pot par81) with (potential_square_well wall81 0). rewrite inside81 by lra.
    change (dp_dim par81) with 1%nat. unfold dot. cbn [sumn]. rewrite Vh. rewrite (proj2 (Rltb_false _ _)) by lra. reflexivity.
Qed.

(** ** A concrete case: a particle with speed 3 flying up a linear slope with
    little internal energy; the base step is 1/12 (up to the offset), and it
    is shortened twice. *)
Definition slope : dparams :=
  DParams (defaults wendland_c4 false) 1 ideal (fun _ _ => - 10) (fun x => 10 * x 0%nat) 0 0 0 0 0 true true 1 HFixed 1.
Definition climber : dbody := DBody (Part vzero (fun _ => 3 - dt_tiny) vzero vzero 1 1 1 1 1 1 0 0) 0 vzero 0 (1 / 2) 0 0 0 0 1.

Example C81_case : (0 < p_h (d_p climber) /\ 0 < dp_etaw slope /\ 0 <= v_alpha (dp_sph slope) /\ 0 <= d_vsig climber) /\
  compute_dt slope (1 / 4) climber = Some (1 / 12 / 16) /\
  (forall t, 0 <= t -> dp_pot slope (fun j => p_pos (d_p climber) j + t * p_vel (d_p climber) j) - dp_pot slope (p_pos (d_p climber))
     - t * dot 1 (p_vel (d_p climber)) (p_gacc (d_p climber)) <= 30 * t) /\ 30 * dt_base slope (1 / 4) climber < 1 / 2 * d_u climber * 4 ^ 19.
Proof.
  pose proof tiny_pos as T. assert (T1 : dt_tiny <= 1 / 4) by (unfold dt_tiny; apply Rle_trans with (/ 4); [|lra]; apply Rinv_le_contravar; lra).
  assert (E : dt_base slope (1 / 4) climber = 1 / 12).
  { unfold dt_base, dt_v, dt_a, dt_c, dt_dx. cbn [slope climber d_p p_h dp_etaw dp_dim p_vel d_acc p_gacc d_vsig dp_sph defaults v_alpha].
    assert (V : norm 1 (fun _ => 3 - dt_tiny) = 3 - dt_tiny) by (unfold norm, dot; cbn; rewrite Rplus_0_l; apply sqrt_square; lra).
    assert (A : norm 1 (vadd vzero vzero) = 0) by (unfold norm, dot, vadd, vzero; cbn; replace (0 + (0 + 0) * (0 + 0)) with 0 by ring; apply sqrt_0).
    rewrite V, A. replace (3 - dt_tiny + dt_tiny) with 3 by ring. replace (1 / 1 / 3) with (1 / 3) by field.
    rewrite (Rmin_left (1 / 3)); [rewrite Rmin_left; [lra|]|].
    - unfold dt_mc. apply Rmult_le_reg_r with (dt_tiny + 1 * (1 + 6 / 10 * 1)); [lra|]. unfold Rdiv at 3. rewrite Rmult_assoc, Rinv_l by lra. lra.
    - apply Rle_trans with 1; [lra|]. rewrite <- sqrt_1 at 1. apply sqrt_le_1_alt. apply Rmult_le_reg_r with (0 + dt_tiny); [lra|].
      unfold Rdiv. rewrite Rmult_assoc, Rinv_l by lra. lra. }
  split; [cbn; lra|]. split; [|split].
  - unfold compute_dt. cbn [slope dp_evolve dp_thermo andb]. fold slope. change (d_u climber) with (1 / 2). rewrite (proj2 (Rltb_true _ _)) by lra. rewrite E.
    assert (G : forall t, dt_gain slope climber t = 10 * (t * (3 - dt_tiny))).
    { intro t. unfold dt_gain, vadd, vscale, dot, vzero. cbn [slope dp_pot dp_dim climber d_p p_pos p_vel p_gacc d_u sumn]. unfold vzero. ring. }
    assert (N1 : forall k t, 1 / 48 <= t -> dt_shorten slope (S k) climber t = dt_shorten slope k climber (t * (1 / 4))).
    { intros k t Ht. cbn [dt_shorten]. rewrite (proj2 (Rltb_false _ _)); [reflexivity|]. rewrite G. change (d_u climber) with (1 / 2). nra. }
    rewrite N1, N1 by lra. cbn [dt_shorten]. rewrite (proj2 (Rltb_true _ _)); [f_equal; lra|]. rewrite G. change (d_u climber) with (1 / 2). lra.
  - intros t Ht. unfold dot. cbn [slope dp_pot climber d_p p_pos p_vel p_gacc sumn]. unfold vzero. nra.
  - rewrite E. cbn [climber d_u]. lra.
Qed.

Print Assumptions C81_bounds.
Print Assumptions C81_attained.
Print Assumptions C81_energy.
Print Assumptions C81_converges.
Print Assumptions C81_suffices_refuted.
