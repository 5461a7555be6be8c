(** Property C94: the clock in double precision. *)
From Coq Require Import Reals Lra.
From Flocq Require Import Core.
From Verif Require Import Base BuildTree_model Range_model FCell_model FCell_lemmas FSearch_model FSearch_lemmas Loop_model Loop_props FClock_model.
Local Open Scope R_scope.

Lemma rnd_half x m : (-1000 <= m)%Z -> Rabs x <= bpow radix2 (m + 1) -> Rabs (rnd x - x) <= bpow radix2 (m - 53).
Proof.
  intros Hm Hx. destruct (Rlt_or_le (Rabs x) (bpow radix2 (m + 1))) as [L|L].
  - destruct (Req_dec x 0) as [->|N]; [rewrite rnd_0, Rminus_0_r, Rabs_R0; apply bpow_ge_0|].
    unfold rnd. eapply Rle_trans; [apply error_le_half_ulp; apply FLT_exp_valid; reflexivity|].
    rewrite ulp_neq_0 by exact N. unfold cexp. replace (m - 53)%Z with (-1 + (m - 52))%Z by lia. rewrite bpow_plus.
    change (bpow radix2 (-1)) with (/ 2). apply Rmult_le_compat_l; [lra|]. apply bpow_le. unfold dexp, FLT_exp.
    assert (mag radix2 x <= m + 1)%Z by (apply mag_le_bpow; assumption). lia.
  - assert (E : Rabs x = bpow radix2 (m + 1)) by lra. assert (F : generic_format radix2 dexp x).
    { unfold Rabs in E. destruct (Rcase_abs x).
      - replace x with (- bpow radix2 (m + 1)) by lra. apply generic_format_opp. apply fmt_bpow. lia.
      - rewrite E. apply fmt_bpow. lia. }
    rewrite rnd_id by exact F. rewrite Rminus_eq_0, Rabs_R0. apply bpow_ge_0.
Qed.
Lemma bpow_nat_shift m : IZR (2 ^ 53) * bpow radix2 (m - 53) = bpow radix2 m.
Proof. rewrite (IZR_Zpower radix2) by lia. rewrite <- bpow_plus. f_equal. lia. Qed.

Lemma times_fl_err t0 dt m : (-1000 <= m <= 1022)%Z -> 0 <= t0 -> 0 <= dt -> forall k, (Z.of_nat k <= 2 ^ 53)%Z -> t0 + INR k * dt <= bpow radix2 m ->
  clock t0 dt k = Some (times_fl t0 dt k) /\ Rabs (times_fl t0 dt k - (t0 + INR k * dt)) <= INR k * bpow radix2 (m - 53).
Proof.
  intros Hm H0 Hd. induction k as [|k IH]; intros Hk HT.
  - split; [reflexivity|]. cbn [times_fl INR]. rewrite !Rmult_0_l, Rplus_0_r, Rminus_eq_0, Rabs_R0. lra.
  - rewrite S_INR in *. destruct IH as [I1 I2]; [lia|lra|]. cbn [clock times_fl]. rewrite I1.
    set (t := times_fl t0 dt k) in *. assert (B : INR (S k) * bpow radix2 (m - 53) <= bpow radix2 m).
    { rewrite <- (bpow_nat_shift m). apply Rmult_le_compat_r; [apply bpow_ge_0|]. rewrite INR_IZR_INZ. apply IZR_le. exact Hk. }
    rewrite S_INR in B. assert (P : 0 <= INR k) by apply pos_INR. assert (Q : 0 < bpow radix2 (m - 53)) by apply bpow_gt_0.
    assert (P0 : 0 <= INR k * dt) by (apply Rmult_le_pos; assumption).
    apply Rabs_le_inv in I2. assert (Bx : Rabs (t + dt) <= bpow radix2 (m + 1)).
    { rewrite bpow_plus. change (bpow radix2 1) with 2. apply Rabs_le. lra. }
    split; [apply fl_some with (m + 1)%Z; [lia|exact Bx]|].
    pose proof (rnd_half (t + dt) m ltac:(lia) Bx) as E. apply Rabs_le_inv in E. apply Rabs_le. lra.
Qed.

(** After k steps the clock is off by at most k times half an ulp of the largest time,
    and no addition overflows.  This holds of the output times as well. *)
Theorem C94_clock t0 dt m k : (-1000 <= m <= 1022)%Z -> 0 <= t0 -> 0 <= dt -> (Z.of_nat k <= 2 ^ 53)%Z -> t0 + INR k * dt <= bpow radix2 m ->
  exists t, clock t0 dt k = Some t /\ Rabs (t - (t0 + INR k * dt)) <= INR k * bpow radix2 (m - 53).
Proof. intros. eexists. apply times_fl_err; assumption. Qed.

(** A step of at least an ulp of the time moves the clock. *)
Theorem C94_advances t dt m : (-1000 <= m)%Z -> is_double t -> 0 <= t < bpow radix2 m -> bpow radix2 (m - 53) <= dt -> t < rnd (t + dt).
Proof.
  intros Hm [Ft _] [T0 T1] Hd. destruct (Req_dec t 0) as [->|N].
  - rewrite Rplus_0_l. eapply Rlt_le_trans; [apply (bpow_gt_0 radix2 (m - 53))|]. rewrite <- (rnd_id (bpow radix2 (m - 53))) by (apply fmt_bpow; lia).
    apply rnd_le. exact Hd.
  - assert (U : ulp radix2 dexp t <= dt).
    { eapply Rle_trans; [|exact Hd]. rewrite ulp_neq_0 by exact N. apply bpow_le. unfold cexp, dexp, FLT_exp.
      assert (mag radix2 t <= m)%Z; [|lia]. apply mag_le_bpow; [exact N|]. rewrite Rabs_pos_eq; assumption. }
    apply Rlt_le_trans with (succ radix2 dexp t); [apply succ_gt_id; exact N|].
    rewrite <- (rnd_id (succ radix2 dexp t)); [|apply generic_format_succ; [apply FLT_exp_valid; reflexivity|exact Ft]].
    apply rnd_le. rewrite succ_eq_pos by exact T0. lra.
Qed.
Lemma times_fl_fmt t0 dt : is_double t0 -> forall k, generic_format radix2 dexp (times_fl t0 dt k).
Proof. intros [H _] [|k]; [exact H|apply rnd_fmt]. Qed.

(** A run with a final time ends when a step is at least two ulps of that time. *)
Theorem C94_ends p t0 dt m : is_double t0 -> is_double dt -> 0 <= t0 -> 0 < l_final_time p <= bpow radix2 m -> bpow radix2 (m - 52) <= dt ->
  exists fuel l, loop p (times_fl t0 dt) fuel 0 = Some l.
Proof.
  intros D0 Dd H0 [F1 F2] Hd. assert (M : bpow radix2 (m - 52) = 2 * u53 * bpow radix2 m).
  { unfold u53. replace (m - 52)%Z with (1 + -53 + m)%Z by lia. rewrite !bpow_plus. reflexivity. }
  pose proof u53_small as US. pose proof u53_pos as UP. pose proof (bpow_gt_0 radix2 (m - 52)) as Bp.
  assert (St : forall k, 0 <= times_fl t0 dt k -> times_fl t0 dt k <= l_final_time p -> times_fl t0 dt k + dt / 4 <= times_fl t0 dt (S k)).
  { intros k Hk Hl. cbn [times_fl]. pose proof (rnd_plus_lo _ dt (times_fl_fmt t0 dt D0 k) (proj1 Dd) ltac:(lra)) as L.
    assert (u53 * times_fl t0 dt k <= u53 * bpow radix2 m) by (apply Rmult_le_compat_l; lra).
    assert (u53 * dt <= / 1000000 * dt) by (apply Rmult_le_compat_r; lra). lra. }
  assert (G : forall n, (exists j, (0 < j <= n)%nat /\ l_final_time p < times_fl t0 dt j) \/ (t0 <= times_fl t0 dt n /\ t0 + INR n * (dt / 4) <= times_fl t0 dt n) \/ l_final_time p < t0).
  { induction n as [|n IH].
    - right. left. cbn. lra.
    - destruct IH as [(j & Hj & O)|[[I0 I]|I]]; [left; exists j; split; [lia|exact O]| |right; right; exact I].
      destruct (Rlt_or_le (l_final_time p) (times_fl t0 dt n)) as [C|C].
      + destruct n as [|n]; [right; right; exact C|]. left. exists (S n). split; [lia|exact C].
      + right. left. pose proof (St n ltac:(lra) C). rewrite S_INR. lra. }
  assert (X : exists n j, (0 < j <= n)%nat /\ l_final_time p < times_fl t0 dt j).
  { destruct (Rlt_or_le (l_final_time p) t0) as [C|C].
    - exists 1%nat, 1%nat. split; [lia|]. cbn [times_fl]. apply Rlt_le_trans with t0; [exact C|].
      rewrite <- (rnd_id t0) at 1 by apply D0. apply rnd_le. lra.
    - set (n := Z.to_nat (Z.max 1 (up (l_final_time p / (dt / 4))))). exists n.
      destruct (G n) as [(j & Hj)|[[I0 I]|I]]; [exists j; exact Hj| |lra]. exists n. split; [unfold n; lia|].
      destruct (archimed (l_final_time p / (dt / 4))) as [A _].
      assert (B : l_final_time p / (dt / 4) < INR n) by (eapply Rlt_le_trans; [exact A|]; rewrite INR_IZR_INZ; apply IZR_le; unfold n; lia).
      apply (Rmult_lt_compat_r (dt / 4)) in B; [|lra]. unfold Rdiv at 1 in B. rewrite Rmult_assoc, Rinv_l, Rmult_1_r in B by lra. lra. }
  destruct X as (n & j & Hj & O). destruct (loop_stops p (times_fl t0 dt) n 0) as (l & E); [|exists n, l; exact E].
  exists j. split; [exact Hj|]. right. split; [exact F1|exact O].
Qed.

(** What the final time decides: the iterations done are those whose exact time is not
    later, up to the error of the clock. *)
Theorem C94_final_time_partial p t0 dt m fuel l : (-1000 <= m <= 1022)%Z -> 0 <= t0 -> 0 <= dt -> (l_final p <= 0)%Z -> loop p (times_fl t0 dt) fuel 0 = Some l ->
  (Z.of_nat (length l) <= 2 ^ 53)%Z -> t0 + INR (length l) * dt <= bpow radix2 m -> exists n, length l = S n /\
  (n <> 0%nat -> t0 + INR n * dt <= l_final_time p + INR n * bpow radix2 (m - 53)) /\ l_final_time p < t0 + INR (S n) * dt + INR (S n) * bpow radix2 (m - 53).
Proof.
  intros Hm H0 Hd Hf E Hn HT. destruct (C93_iterations p _ fuel l E) as (k & Hk & -> & O & N). rewrite map_length, seq_length in *.
  destruct k as [|n]; [lia|]. exists n. split; [reflexivity|]. split.
  - intros Hn0. destruct (times_fl_err t0 dt m Hm H0 Hd n) as [_ Er]; [lia| |].
    { rewrite S_INR in HT. lra. }
    apply Rabs_le_inv in Er. assert (~ (0 < l_final_time p < times_fl t0 dt n)) by (intros C; apply (N n ltac:(lia)); right; exact C).
    destruct O as [O|O]; [lia|]. lra.
  - destruct (times_fl_err t0 dt m Hm H0 Hd (S n) Hn HT) as [_ Er]. apply Rabs_le_inv in Er. destruct O as [O|O]; [lia|]. lra.
Qed.

Lemma fmt_mult (z e : Z) : (Z.abs z < 2 ^ 53)%Z -> (-1074 <= e)%Z -> generic_format radix2 dexp (IZR z * bpow radix2 e).
Proof.
  intros Hz He. apply generic_format_FLT. exists (Float radix2 z e); [reflexivity|exact Hz|exact He].
Qed.
Lemma double_mult (z e : Z) : (Z.abs z < 2 ^ 53)%Z -> (-1074 <= e <= 900)%Z -> is_double (IZR z * bpow radix2 e).
Proof.
  intros Hz He. split; [apply fmt_mult; lia|]. rewrite Rabs_mult, <- abs_IZR, (Rabs_pos_eq (bpow _ _)) by apply bpow_ge_0.
  apply Rlt_le_trans with (bpow radix2 53 * bpow radix2 e).
  - apply Rmult_lt_compat_r; [apply bpow_gt_0|]. rewrite <- (IZR_Zpower radix2) by lia. apply IZR_lt. exact Hz.
  - rewrite <- bpow_plus. apply bpow_le. lia.
Qed.
(** ties go to the even neighbour: 1 + an odd number of 2^-53 *)
Lemma tie_even (z : Z) : (2 ^ 52 <= z < 2 ^ 53 - 1)%Z -> rnd ((IZR z + / 2) * bpow radix2 (-52)) = IZR (if Z.even z then z else (z + 1)%Z) * bpow radix2 (-52).
Proof.
  intros Hz. unfold rnd, round, F2R. cbn [Fnum Fexp]. assert (C : cexp radix2 dexp ((IZR z + / 2) * bpow radix2 (-52)) = (-52)%Z).
  { unfold cexp, dexp, FLT_exp. rewrite (mag_unique radix2 _ 1); [reflexivity|]. rewrite Rabs_pos_eq.
    2:{ apply Rmult_le_pos; [|apply bpow_ge_0]. assert (0 <= IZR z) by (apply IZR_le; lia). lra. }
    change (bpow radix2 (1 - 1)) with 1. change (bpow radix2 1) with 2. change (bpow radix2 (-52)) with (/ 4503599627370496).
    assert (4503599627370496 <= IZR z) by (apply IZR_le; lia). assert (IZR z + 1 < 9007199254740992) by (rewrite <- plus_IZR; apply IZR_lt; lia). lra. }
  rewrite C. unfold scaled_mantissa. rewrite C. rewrite Rmult_assoc, <- bpow_plus. change (bpow radix2 (-52 + - -52)) with 1. rewrite Rmult_1_r.
  f_equal. f_equal. unfold Znearest. rewrite (Zfloor_imp z) by (rewrite plus_IZR; lra). rewrite Rcompare_Eq by lra. rewrite (Zceil_imp (z + 1)) by (rewrite plus_IZR, minus_IZR, plus_IZR; lra).
  destruct (Z.even z); reflexivity.
Qed.

(** A step below half an ulp leaves the clock where it is and the loop never ends. *)
Theorem C94_stall_refuted : exists p t0 dt, is_double t0 /\ is_double dt /\ is_double (l_final_time p) /\ 0 < dt /\ 0 <= t0 < l_final_time p /\
  forall fuel, loop p (times_fl t0 dt) fuel 0 = None.
Proof.
  exists (LPar 0 0 2 0), 1, (bpow radix2 (-53)). cbn [l_final_time].
  assert (D1 : is_double 1) by (replace 1 with (IZR 1 * bpow radix2 0) by (cbn; lra); apply double_mult; lia).
  assert (D2 : is_double 2) by (replace 2 with (IZR 2 * bpow radix2 0) by (cbn; lra); apply double_mult; lia).
  assert (D3 : is_double (bpow radix2 (-53))) by (replace (bpow radix2 (-53)) with (IZR 1 * bpow radix2 (-53)) by lra; apply double_mult; lia).
  split; [exact D1|]. split; [exact D3|]. split; [exact D2|]. split; [apply bpow_gt_0|]. split; [lra|].
  assert (F : forall k, times_fl 1 (bpow radix2 (-53)) k = 1).
  { induction k as [|k IH]; [reflexivity|]. cbn [times_fl]. rewrite IH.
    replace (1 + bpow radix2 (-53)) with ((IZR (2 ^ 52) + / 2) * bpow radix2 (-52)).
    - rewrite tie_even by lia. change (IZR (if Z.even (2 ^ 52) then (2 ^ 52)%Z else (2 ^ 52 + 1)%Z)) with 4503599627370496. change (bpow radix2 (-52)) with (/ 4503599627370496). lra.
    - change (IZR (2 ^ 52)) with 4503599627370496. change (bpow radix2 (-52)) with (/ 4503599627370496). change (bpow radix2 (-53)) with (/ 9007199254740992). lra. }
  intros fuel. destruct (loop _ _ fuel 0) as [l|] eqn:E; [|reflexivity]. destruct (C93_iterations _ _ _ _ E) as (m & _ & _ & [O|O] & _).
  - cbn in O. lia.
  - rewrite F in O. cbn [l_final_time] in O. lra.
Qed.

(** An iteration whose exact time is the final time need not be done. *)
Theorem C94_last_step_refuted : exists p t0 dt, is_double t0 /\ is_double dt /\ is_double (l_final_time p) /\ 0 <= t0 /\ 0 < dt /\ t0 + 2 * dt = l_final_time p /\
  (forall fuel l, loop p (fixed_times t0 dt) fuel 0 = Some l -> length l = 3%nat) /\ exists fuel l, loop p (times_fl t0 dt) fuel 0 = Some l /\ length l = 2%nat.
Proof.
  set (F := IZR (2 ^ 52 + 3) * bpow radix2 (-52)). exists (LPar 0 0 F 0), 1, (IZR 3 * bpow radix2 (-53)). cbn [l_final_time].
  assert (B52 : bpow radix2 (-52) = / 4503599627370496) by reflexivity. assert (B53 : bpow radix2 (-53) = / 9007199254740992) by reflexivity.
  assert (D1 : is_double 1) by (replace 1 with (IZR 1 * bpow radix2 0) by (cbn; lra); apply double_mult; lia).
  assert (D3 : is_double (IZR 3 * bpow radix2 (-53))) by (apply double_mult; lia).
  assert (DF : is_double F) by (apply double_mult; lia).
  assert (EF : 1 + 2 * (3 * bpow radix2 (-53)) = F) by (unfold F; change (IZR (2 ^ 52 + 3)) with 4503599627370499; rewrite B52, B53; lra).
  split; [exact D1|]. split; [exact D3|]. split; [exact DF|]. split; [lra|]. split; [rewrite B53; lra|]. split; [exact EF|]. split.
  - intros fuel l E. destruct (C93_iterations _ _ _ _ E) as (k & Hk & -> & [O|O] & N); [cbn in O; lia|]. rewrite map_length, seq_length.
    cbn [l_final_time] in O. destruct k as [|[|[|[|k]]]]; [lia| | |reflexivity|].
    + exfalso. cbn [fixed_times] in O. rewrite B53 in *. lra.
    + exfalso. cbn [fixed_times] in O. rewrite B53 in *. lra.
    + exfalso. apply (N 3%nat ltac:(lia)). right. cbn [l_final_time fixed_times]. rewrite B53 in *. lra.
  - assert (T1 : times_fl 1 (IZR 3 * bpow radix2 (-53)) 1 = IZR (2 ^ 52 + 2) * bpow radix2 (-52)).
    { cbn [times_fl]. replace (1 + IZR 3 * bpow radix2 (-53)) with ((IZR (2 ^ 52 + 1) + / 2) * bpow radix2 (-52)).
      - rewrite tie_even by lia. reflexivity.
      - change (IZR (2 ^ 52 + 1)) with 4503599627370497. rewrite B52, B53. lra. }
    assert (T2 : times_fl 1 (IZR 3 * bpow radix2 (-53)) 2 = IZR (2 ^ 52 + 4) * bpow radix2 (-52)).
    { change (times_fl 1 (IZR 3 * bpow radix2 (-53)) 2) with (rnd (times_fl 1 (IZR 3 * bpow radix2 (-53)) 1 + IZR 3 * bpow radix2 (-53))). rewrite T1.
      replace (IZR (2 ^ 52 + 2) * bpow radix2 (-52) + IZR 3 * bpow radix2 (-53)) with ((IZR (2 ^ 52 + 3) + / 2) * bpow radix2 (-52)).
      - rewrite tie_even by lia. reflexivity.
      - change (IZR (2 ^ 52 + 2)) with 4503599627370498. change (IZR (2 ^ 52 + 3)) with 4503599627370499. rewrite B52, B53. lra. }
    destruct (loop_stops (LPar 0 0 F 0) (times_fl 1 (IZR 3 * bpow radix2 (-53))) 2 0) as (l & E).
    { exists 2%nat. split; [lia|]. right. cbn [l_final_time Nat.add]. rewrite T2. unfold F. change (IZR (2 ^ 52 + 3)) with 4503599627370499. change (IZR (2 ^ 52 + 4)) with 4503599627370500. rewrite B52. lra. }
    exists 2%nat, l. split; [exact E|]. destruct (C93_iterations _ _ _ _ E) as (k & Hk & -> & [O|O] & N); [cbn in O; lia|]. rewrite map_length, seq_length. cbn [l_final_time] in O.
    destruct k as [|[|[|k]]]; [lia| |reflexivity|].
    + exfalso. rewrite T1 in O. unfold F in O. change (IZR (2 ^ 52 + 3)) with 4503599627370499 in O. change (IZR (2 ^ 52 + 2)) with 4503599627370498 in O. rewrite B52 in O. lra.
    + exfalso. apply (N 2%nat ltac:(lia)). right. cbn [l_final_time]. rewrite T2. unfold F. change (IZR (2 ^ 52 + 3)) with 4503599627370499. change (IZR (2 ^ 52 + 4)) with 4503599627370500. rewrite B52. lra.
Qed.

Example C94_case : is_double 0 /\ is_double (bpow radix2 (-10)) /\ 0 < l_final_time (LPar 0 0 1 0) <= bpow radix2 0 /\ bpow radix2 (0 - 52) <= bpow radix2 (-10) /\
  0 + INR 8 * bpow radix2 (-10) <= bpow radix2 0 /\ (Z.of_nat 8 <= 2 ^ 53)%Z /\ 0 <= 0 < bpow radix2 0.
Proof.
  assert (bpow radix2 0 = 1) by reflexivity.
  split; [replace 0 with (IZR 0 * bpow radix2 0) by lra; apply double_mult; lia|].
  split; [replace (bpow radix2 (-10)) with (IZR 1 * bpow radix2 (-10)) by lra; apply double_mult; lia|]. cbn [l_final_time].
  split; [lra|]. split; [apply bpow_le; lia|]. split; [|split; [lia|lra]].
  change (bpow radix2 (-10)) with (/ 1024). rewrite INR_IZR_INZ. cbn [Z.of_nat Pos.of_succ_nat Pos.succ]. lra.
Qed.

Print Assumptions C94_clock.
Print Assumptions C94_advances.
Print Assumptions C94_ends.
Print Assumptions C94_final_time_partial.
Print Assumptions C94_stall_refuted.
Print Assumptions C94_last_step_refuted.
