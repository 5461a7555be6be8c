(** C110: the ideal gas in double precision. *)
From Coq Require Import Reals Lra.
From Flocq Require Import Core.
From Verif Require Import Base FCell_model FCell_lemmas FSearch_lemmas FForce_model FDens_model FDens_props FEos_model.
Local Open Scope R_scope.
Local Opaque bpow.

Lemma gm1_pos g : 1 <= g -> 0 <= rnd (g - 1).
Proof. intros H. apply rnd_pos. lra. Qed.
(** Pressure and sound speed are not negative, so that no root of a negative number is
    taken, whatever underflows. *)
Theorem C110_nonneg g rho u : 1 <= g -> 0 <= rho -> 0 <= u -> 0 <= pressure_fl g rho u /\ 0 <= rnd (rnd (g * rnd (g - 1)) * u) /\ 0 <= soundspeed_fl g u.
Proof.
  intros Hg Hr Hu. pose proof (gm1_pos g Hg). unfold pressure_fl, soundspeed_fl. repeat split.
  - apply rnd_pos, Rmult_le_pos; [apply rnd_pos, Rmult_le_pos; lra | lra].
  - apply rnd_pos, Rmult_le_pos; [apply rnd_pos, Rmult_le_pos; lra | lra].
  - apply rnd_pos, sqrt_pos.
Qed.
(** Rounding never turns the order round: denser or hotter gas has no lower pressure, and
    hotter gas no lower sound speed. *)
Theorem C110_monotone g g' rho rho' u u' : 1 <= g <= g' -> 0 <= rho <= rho' -> 0 <= u <= u' ->
  pressure_fl g rho u <= pressure_fl g' rho' u' /\ soundspeed_fl g u <= soundspeed_fl g' u'.
Proof.
  intros Hg Hr Hu. pose proof (gm1_pos g ltac:(lra)). assert (G : rnd (g - 1) <= rnd (g' - 1)) by (apply rnd_le; lra). unfold pressure_fl, soundspeed_fl. split.
  - apply rnd_le, Rmult_le_compat; [apply rnd_pos, Rmult_le_pos; lra | lra | apply rnd_le, Rmult_le_compat; lra | lra].
  - apply rnd_le, sqrt_le_1_alt, rnd_le, Rmult_le_compat; [apply rnd_pos, Rmult_le_pos; lra | lra | apply rnd_le, Rmult_le_compat; lra | lra].
Qed.

Lemma rel_step a A c : 0 < A -> 0 <= c <= / 1000 -> bpow radix2 (-901) <= a -> (1 - c) * A <= a <= (1 + c) * A -> (1 - (c + 11 / 10 * dl)) * A <= rnd a <= (1 + (c + 11 / 10 * dl)) * A.
Proof.
  intros HA Hc Ha H. assert (D : 0 < dl <= / 1000) by (unfold dl; lra). pose proof (rel_err a Ha) as E.
  assert (C1 : 0 <= dl * c <= / 1000 * dl) by (split; [apply Rmult_le_pos; lra | rewrite (Rmult_comm dl); apply Rmult_le_compat_r; lra]).
  assert (L : (1 - dl) * ((1 - c) * A) <= (1 - dl) * a) by (apply Rmult_le_compat_l; lra). assert (U : (1 + dl) * a <= (1 + dl) * ((1 + c) * A)) by (apply Rmult_le_compat_l; lra). split.
  - eapply Rle_trans; [|apply E]. eapply Rle_trans; [|exact L]. rewrite <- Rmult_assoc. apply Rmult_le_compat_r; lra.
  - eapply Rle_trans; [apply E|]. eapply Rle_trans; [exact U|]. rewrite <- Rmult_assoc. apply Rmult_le_compat_r; lra.
Qed.
Lemma rel_mul a A b lo hi : 0 <= b -> lo * A <= a <= hi * A -> lo * (A * b) <= a * b <= hi * (A * b).
Proof. intros Hb H. split; rewrite <- Rmult_assoc; apply Rmult_le_compat_r; lra. Qed.
Lemma low_mul x y a b c : bpow radix2 a <= x -> bpow radix2 b <= y -> (a + b = c)%Z -> bpow radix2 c <= x * y.
Proof. intros H1 H2 <-. rewrite bpow_plus. pose proof (bp a). pose proof (bp b). apply Rmult_le_compat; lra. Qed.

(** what the accuracy needs: nothing underflows *)
Definition good_gas (g rho u : R) : Prop := 1 + bpow radix2 (-40) <= g /\ bpow radix2 (-400) <= rho /\ bpow radix2 (-400) <= u.
Lemma gm1_rel g : 1 + bpow radix2 (-40) <= g -> bpow radix2 (-40) <= rnd (g - 1) /\ (1 - 11 / 10 * dl) * (g - 1) <= rnd (g - 1) <= (1 + 11 / 10 * dl) * (g - 1).
Proof.
  intros H. pose proof (bp (-40)). pose proof (bpow_le radix2 (-901) (-40) ltac:(lia)). split; [apply rnd_ge_bpow; [lia | lra]|].
  pose proof (rel_step (g - 1) (g - 1) 0 ltac:(lra) ltac:(lra) ltac:(lra) ltac:(lra)) as E. rewrite Rplus_0_l in E. exact E.
Qed.
(** the pressure is that of an ideal gas *)
Theorem C110_pressure g rho u : good_gas g rho u -> Rabs (pressure_fl g rho u - (g - 1) * rho * u) <= 4 * / 10 ^ 14 * ((g - 1) * rho * u).
Proof.
  intros (Hg & Hr & Hu). destruct (gm1_rel g Hg) as [L1 E1]. pose proof (bp (-40)). pose proof (bp (-400)). assert (D : 0 < dl <= / 100000000000000) by (unfold dl; lra). unfold pressure_fl.
  set (a := rnd (g - 1)) in *. clearbody a. assert (G1 : 0 < g - 1) by lra. assert (L2 : bpow radix2 (-440) <= a * rho) by (apply (low_mul a rho (-40) (-400) (-440) L1 Hr eq_refl)).
  pose proof (bpow_le radix2 (-901) (-440) ltac:(lia)). assert (P1 : 0 < (g - 1) * rho) by (apply Rmult_lt_0_compat; lra).
  pose proof (rel_step (a * rho) ((g - 1) * rho) (11 / 10 * dl) P1 ltac:(lra) ltac:(lra) (rel_mul _ _ rho _ _ ltac:(lra) E1)) as E2.
  apply (rnd_ge_bpow _ (-440) ltac:(lia)) in L2. set (b := rnd (a * rho)) in *. clearbody b. assert (L3 : bpow radix2 (-840) <= b * u) by (apply (low_mul b u (-440) (-400) (-840) L2 Hu eq_refl)).
  pose proof (bpow_le radix2 (-901) (-840) ltac:(lia)). assert (P2 : 0 < (g - 1) * rho * u) by (apply Rmult_lt_0_compat; lra).
  pose proof (rel_step (b * u) ((g - 1) * rho * u) (11 / 10 * dl + 11 / 10 * dl) P2 ltac:(lra) ltac:(lra) (rel_mul _ _ u _ _ ltac:(lra) E2)) as E3.
  set (P := (g - 1) * rho * u) in *. clearbody P. assert (0 < dl * P) by (apply Rmult_lt_0_compat; lra). replace (4 * / 10 ^ 14 * P) with (4 * (dl * P)) by (unfold dl; field). apply Rabs_le. lra.
Qed.
(** and its sound speed *)
Theorem C110_soundspeed g rho u : good_gas g rho u -> Rabs (soundspeed_fl g u - sqrt (g * (g - 1) * u)) <= 5 * / 10 ^ 14 * sqrt (g * (g - 1) * u).
Proof.
  intros (Hg & _ & Hu). destruct (gm1_rel g Hg) as [L1 E1]. pose proof (bp (-40)). pose proof (bp (-400)). assert (D : 0 < dl <= / 100000000000000) by (unfold dl; lra). unfold soundspeed_fl.
  set (a := rnd (g - 1)) in *. clearbody a. assert (G1 : 0 < g - 1) by lra. assert (L2 : bpow radix2 (-40) <= g * a) by (apply (low_mul g a 0 (-40) (-40)); [rewrite bpow_0; lra | exact L1 | reflexivity]).
  pose proof (bpow_le radix2 (-901) (-40) ltac:(lia)). assert (P1 : 0 < (g - 1) * g) by (apply Rmult_lt_0_compat; lra).
  pose proof (rel_step (a * g) ((g - 1) * g) (11 / 10 * dl) P1 ltac:(lra) ltac:(rewrite Rmult_comm; lra) (rel_mul _ _ g _ _ ltac:(lra) E1)) as E2. rewrite (Rmult_comm a g) in E2. rewrite (Rmult_comm (g - 1) g) in E2, P1.
  apply (rnd_ge_bpow _ (-40) ltac:(lia)) in L2. set (b := rnd (g * a)) in *. clearbody b. assert (L3 : bpow radix2 (-440) <= b * u) by (apply (low_mul b u (-40) (-400) (-440) L2 Hu eq_refl)).
  pose proof (bpow_le radix2 (-901) (-440) ltac:(lia)). assert (P2 : 0 < g * (g - 1) * u) by (apply Rmult_lt_0_compat; lra).
  pose proof (rel_step (b * u) (g * (g - 1) * u) (11 / 10 * dl + 11 / 10 * dl) P2 ltac:(lra) ltac:(lra) (rel_mul _ _ u _ _ ltac:(lra) E2)) as E3.
  apply (rnd_ge_bpow _ (-440) ltac:(lia)) in L3. set (s := rnd (b * u)) in *. clearbody s. set (S := g * (g - 1) * u) in *. clearbody S.
  set (c := 11 / 10 * dl + 11 / 10 * dl + 11 / 10 * dl) in *. assert (C : 0 <= c <= / 1000) by (unfold c; lra). pose proof (bp (-440)).
  assert (R1 : (1 - c) * sqrt S <= sqrt s <= (1 + c) * sqrt S).
  { assert (cS : 0 <= c * S) by (apply Rmult_le_pos; lra). assert (ccS : 0 <= c * (c * S) <= c * S) by (split; [apply Rmult_le_pos; lra | rewrite <- (Rmult_1_l (c * S)) at 2; apply Rmult_le_compat_r; lra]). split.
    - rewrite <- (sqrt_square (1 - c)) by lra. rewrite <- sqrt_mult_alt by (apply Rmult_le_pos; lra). apply sqrt_le_1_alt. lra.
    - rewrite <- (sqrt_square (1 + c)) by lra. rewrite <- sqrt_mult_alt by (apply Rmult_le_pos; lra). apply sqrt_le_1_alt. lra. }
  assert (L4 : bpow radix2 (-901) <= sqrt s).
  { apply (Rle_trans _ (bpow radix2 (-220))); [apply bpow_le; lia|]. pose proof (bp (-220)). rewrite <- (sqrt_square (bpow radix2 (-220))) by lra. rewrite <- bpow_plus. apply sqrt_le_1_alt. exact L3. }
  assert (S0 : 0 < sqrt S) by (apply sqrt_lt_R0; exact P2). pose proof (rel_step (sqrt s) (sqrt S) c S0 C L4 R1) as E4. unfold c in E4.
  set (r := sqrt S) in *. clearbody r. assert (0 < dl * r) by (apply Rmult_lt_0_compat; lra). replace (5 * / 10 ^ 14 * r) with (5 * (dl * r)) by (unfold dl; field). apply Rabs_le. lra.
Qed.
(** The two agree: c^2 rho is gamma P, the ideal gas law, up to 2e-13. *)
Theorem C110_consistent g rho u : good_gas g rho u -> Rabs (soundspeed_fl g u ^ 2 * rho - g * pressure_fl g rho u) <= 2 * / 10 ^ 13 * (g * pressure_fl g rho u).
Proof.
  intros H. pose proof (C110_pressure g rho u H) as HP. pose proof (C110_soundspeed g rho u H) as HC. destruct H as (Hg & Hr & Hu). pose proof (bp (-40)). pose proof (bp (-400)).
  set (P := pressure_fl g rho u) in *. clearbody P. set (c := soundspeed_fl g u) in *. clearbody c. apply Rabs_le_inv in HP. apply Rabs_le_inv in HC.
  assert (S0 : 0 < g * (g - 1) * u) by (apply Rmult_lt_0_compat; [apply Rmult_lt_0_compat|]; lra). pose proof (sqrt_lt_R0 _ S0) as R0. pose proof (sqrt_sqrt _ (Rlt_le _ _ S0)) as RR. set (r := sqrt (g * (g - 1) * u)) in *. clearbody r.
  assert (C1 : (1 - 5 * / 10 ^ 14) * r * ((1 - 5 * / 10 ^ 14) * r) <= c * c) by (assert (0 < (1 - 5 * / 10 ^ 14) * r) by (apply Rmult_lt_0_compat; lra); apply Rmult_le_compat; lra).
  assert (C0 : 0 <= c) by (assert (0 < (1 - 5 * / 10 ^ 14) * r) by (apply Rmult_lt_0_compat; lra); lra). assert (C2 : c * c <= (1 + 5 * / 10 ^ 14) * r * ((1 + 5 * / 10 ^ 14) * r)) by (apply Rmult_le_compat; lra).
  set (X := g * ((g - 1) * rho * u)). assert (X0 : 0 < X) by (unfold X; repeat apply Rmult_lt_0_compat; lra).
  assert (D1 : (1 - 5 * / 10 ^ 14) ^ 2 * X <= c ^ 2 * rho) by (apply (Rmult_le_compat_r rho) in C1; [|lra]; replace ((1 - 5 * / 10 ^ 14) ^ 2 * X) with ((1 - 5 * / 10 ^ 14) ^ 2 * (r * r) * rho) by (rewrite RR; unfold X; ring); lra).
  assert (D2 : c ^ 2 * rho <= (1 + 5 * / 10 ^ 14) ^ 2 * X) by (apply (Rmult_le_compat_r rho) in C2; [|lra]; replace ((1 + 5 * / 10 ^ 14) ^ 2 * X) with ((1 + 5 * / 10 ^ 14) ^ 2 * (r * r) * rho) by (rewrite RR; unfold X; ring); lra).
  assert (G1 : g * P <= (1 + 4 * / 10 ^ 14) * X) by (replace ((1 + 4 * / 10 ^ 14) * X) with (g * ((1 + 4 * / 10 ^ 14) * ((g - 1) * rho * u))) by (unfold X; ring); apply Rmult_le_compat_l; lra).
  assert (G2 : (1 - 4 * / 10 ^ 14) * X <= g * P) by (replace ((1 - 4 * / 10 ^ 14) * X) with (g * ((1 - 4 * / 10 ^ 14) * ((g - 1) * rho * u))) by (unfold X; ring); apply Rmult_le_compat_l; lra).
  set (Z := c ^ 2 * rho) in *. set (Y := g * P) in *. clearbody X Y Z. clear - X0 D1 D2 G1 G2. apply Rabs_le. lra.
Qed.

(** *** Example: gamma = 2, unit density and energy: every operation is exact but the root. *)
Example C110_case : good_gas 2 1 1 /\ pressure_fl 2 1 1 = 1 /\ soundspeed_fl 2 1 = rnd (sqrt 2).
Proof.
  assert (E : rnd (2 - 1) = 1) by (replace (2 - 1) with 1 by ring; apply rnd_1). split; [|split].
  - unfold good_gas. assert (bpow radix2 (-40) <= 1) by (rewrite <- bpow_0; apply bpow_le; lia). assert (bpow radix2 (-400) <= 1) by (rewrite <- bpow_0; apply bpow_le; lia). lra.
  - unfold pressure_fl. rewrite E, !Rmult_1_r, rnd_1, rnd_1. reflexivity.
  - unfold soundspeed_fl. rewrite E, !Rmult_1_r, !(rnd_id 2 fmt_2). reflexivity.
Qed.
Print Assumptions C110_nonneg.
Print Assumptions C110_monotone.
Print Assumptions C110_pressure.
Print Assumptions C110_soundspeed.
Print Assumptions C110_consistent.
