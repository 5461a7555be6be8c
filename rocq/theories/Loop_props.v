(** Property C93: the main loops of the drivers. *)
From Coq Require Import Reals Lra.
From Verif Require Import Base BuildTree_model Range_model Loop_model.
Local Open Scope R_scope.

(** The criteria, without the model's tests. *)
Definition over (p : lpar) (it : Z) (t : R) : Prop := ((0 < l_final p < it)%Z) \/ 0 < l_final_time p < t.
Lemma Rlt_b_spec a b : Rlt_b a b = true <-> a < b.
Proof. unfold Rlt_b. destruct (Rlt_dec a b); split; intros; try discriminate; try reflexivity; try assumption; contradiction. Qed.
Lemma over_spec p it t : termination_criteria p it t = true <-> over p it t.
Proof. unfold termination_criteria, over. rewrite orb_true_iff, !andb_true_iff, !Z.ltb_lt, !Rlt_b_spec. tauto. Qed.

Lemma loop_shape p times : forall fuel k l, loop p times fuel k = Some l -> exists m, (m < fuel)%nat /\
  l = map (fun j => (l_first p + Z.of_nat j, times j)%Z) (seq k (S m)) /\
  over p (l_first p + Z.of_nat (k + S m)) (times (k + S m)%nat) /\
  forall j, (0 < j <= m)%nat -> ~ over p (l_first p + Z.of_nat (k + j)) (times (k + j)%nat).
Proof.
  induction fuel as [|f IH]; intros k l H; [discriminate|]. cbn [loop] in H.
  destruct (termination_criteria p (l_first p + Z.of_nat k + 1) (times (S k))) eqn:E.
  - injection H as <-. exists 0%nat. split; [lia|]. split; [reflexivity|]. apply over_spec in E.
    replace (k + 1)%nat with (S k) by lia. replace (l_first p + Z.of_nat (S k))%Z with (l_first p + Z.of_nat k + 1)%Z by lia. split; [exact E|]. intros; lia.
  - destruct (loop p times f (S k)) as [r|] eqn:Er; [|discriminate]. injection H as <-. destruct (IH _ _ Er) as (m & Hm & -> & H1 & H2).
    exists (S m). split; [lia|]. split; [reflexivity|]. replace (k + S (S m))%nat with (S k + S m)%nat by lia. split; [exact H1|].
    intros j Hj. destruct (Nat.eq_dec j 1) as [->|Hn].
    + replace (k + 1)%nat with (S k) by lia. intros O. assert (termination_criteria p (l_first p + Z.of_nat k + 1) (times (S k)) = true); [|congruence].
      apply over_spec. replace (l_first p + Z.of_nat k + 1)%Z with (l_first p + Z.of_nat (S k))%Z by lia. exact O.
    + replace (k + j)%nat with (S k + (j - 1))%nat by lia. apply H2. lia.
Qed.
(** The iterations done are consecutive and start with the first; the loop ends at the
    first limit that is exceeded after an iteration. *)
Theorem C93_iterations p times fuel l : loop p times fuel 0 = Some l -> exists m, (1 <= m)%nat /\
  l = map (fun j => (l_first p + Z.of_nat j, times j)%Z) (seq 0 m) /\
  over p (l_first p + Z.of_nat m) (times m) /\ forall j, (0 < j < m)%nat -> ~ over p (l_first p + Z.of_nat j) (times j).
Proof.
  intros H. destruct (loop_shape p times fuel 0 l H) as (m & _ & -> & H1 & H2). exists (S m). split; [lia|]. split; [reflexivity|].
  split; [exact H1|]. intros j Hj. apply (H2 j). lia.
Qed.
Lemma loop_stops p times : forall fuel k, (exists j, (0 < j <= fuel)%nat /\ over p (l_first p + Z.of_nat (k + j)) (times (k + j)%nat)) -> exists l, loop p times fuel k = Some l.
Proof.
  induction fuel as [|f IH]; intros k (j & Hj & O); [lia|]. cbn [loop].
  destruct (termination_criteria p (l_first p + Z.of_nat k + 1) (times (S k))) eqn:E; [eexists; reflexivity|].
  destruct (IH (S k)) as (l & ->); [|eexists; reflexivity]. exists (j - 1)%nat. destruct (Nat.eq_dec j 1) as [->|Hn].
  - exfalso. replace (k + 1)%nat with (S k) in O by lia. apply over_spec in O. replace (l_first p + Z.of_nat (S k))%Z with (l_first p + Z.of_nat k + 1)%Z in O by lia. congruence.
  - split; [lia|]. replace (S k + (j - 1))%nat with (k + j)%nat by lia. exact O.
Qed.
(** With a limit on the iterations the loop ends, and without one on the time the
    last iteration is the final one (or the first if that is later). *)
Theorem C93_last p times : (0 < l_final p)%Z -> exists fuel l, loop p times fuel 0 = Some l /\
  (forall x, In x l -> (fst x <= Z.max (l_first p) (l_final p))%Z) /\
  (l_final_time p <= 0 -> forall i, (l_first p <= i <= Z.max (l_first p) (l_final p))%Z -> In i (map fst l)).
Proof.
  intros Hp. set (j := Z.to_nat (Z.max 1 (l_final p + 1 - l_first p))).
  destruct (loop_stops p times j 0) as (l & E).
  { exists j. split; [unfold j; lia|]. left. cbn [Nat.add]. unfold j. lia. }
  exists j, l. split; [exact E|]. destruct (C93_iterations p times j l E) as (m & Hm & -> & O & N). split.
  - intros x Hx. apply in_map_iff in Hx. destruct Hx as (i & <- & Hi). apply in_seq in Hi. cbn [fst].
    destruct (Nat.eq_dec i 0) as [->|Hi0]; [lia|]. assert (~ (l_final p < l_first p + Z.of_nat i)%Z); [|lia].
    intros C. apply (N i ltac:(lia)). left. lia.
  - intros Ht i Hi. rewrite map_map. cbn [fst]. apply in_map_iff. exists (Z.to_nat (i - l_first p)). split; [lia|]. apply in_seq.
    destruct O as [O|O]; [|lra]. lia.
Qed.
(** With a limit on the time and a fixed positive step it ends as well, and no iteration
    but the first is done after the final time. *)
Theorem C93_final_time p t0 dt : 0 < l_final_time p -> 0 < dt -> exists fuel l, loop p (fixed_times t0 dt) fuel 0 = Some l /\
  forall x, In x l -> snd x <= Rmax t0 (l_final_time p) /\ snd x = t0 + IZR (fst x - l_first p) * dt.
Proof.
  intros Ht Hd. assert (F : forall k, fixed_times t0 dt k = t0 + INR k * dt).
  { induction k as [|k IH]; [cbn; lra|]. cbn [fixed_times]. rewrite IH, S_INR. lra. }
  set (z := up ((l_final_time p - t0) / dt)). set (j := Z.to_nat (Z.max 1 z)).
  destruct (loop_stops p (fixed_times t0 dt) j 0) as (l & E).
  { exists j. split; [unfold j; lia|]. right. split; [exact Ht|]. cbn [Nat.add]. rewrite F. destruct (archimed ((l_final_time p - t0) / dt)) as [A _]. fold z in A.
    assert (B : (l_final_time p - t0) / dt < INR j).
    { eapply Rlt_le_trans; [exact A|]. rewrite INR_IZR_INZ. apply IZR_le. unfold j. lia. }
    apply (Rmult_lt_compat_r dt _ _ Hd) in B. unfold Rdiv in B. rewrite Rmult_assoc, Rinv_l, Rmult_1_r in B by lra. lra. }
  exists j, l. split; [exact E|]. destruct (C93_iterations p _ j l E) as (m & Hm & -> & O & N). intros x Hx. apply in_map_iff in Hx.
  destruct Hx as (i & <- & Hi). apply in_seq in Hi. cbn [fst snd]. split.
  - destruct (Nat.eq_dec i 0) as [->|Hi0]; [apply Rmax_l|]. eapply Rle_trans; [|apply Rmax_r]. apply Rnot_lt_le. intros C. apply (N i ltac:(lia)). right. lra.
  - rewrite F. replace (l_first p + Z.of_nat i - l_first p)%Z with (Z.of_nat i) by lia. rewrite <- INR_IZR_INZ. reflexivity.
Qed.
(** Without either limit (their default values are 0) it never ends. *)
Theorem C93_ends_refuted : exists p, forall times fuel, loop p times fuel 0 = None.
Proof.
  exists (LPar 0 0 0 0). intros times fuel. destruct (loop _ times fuel 0) as [l|] eqn:E; [|reflexivity].
  destruct (C93_iterations _ times fuel l E) as (m & _ & _ & [O|O] & _); cbn in O; [lia|lra].
Qed.

(** Output by iteration: at the multiples of a positive frequency, never otherwise. *)
Theorem C93_by_iteration o t_out x : o_dt o <= 0 -> writes o t_out x = true <-> (0 < o_every o)%Z /\ (o_every o | fst x)%Z.
Proof.
  intros H. unfold writes. destruct (Rlt_b 0 (o_dt o)) eqn:E; [apply Rlt_b_spec in E; lra|].
  rewrite negb_true_iff, orb_false_iff, negb_false_iff, Z.leb_gt, Z.eqb_eq. split; intros [H1 H2]; (split; [exact H1|]); apply Z.rem_divide; (lia || exact H2).
Qed.
Lemma first_time_start out t : 0 < out -> 0 <= t -> first_time out t = t.
Proof.
  intros Ho Ht. unfold first_time. assert (P : 0 <= t / out) by (apply Rmult_le_pos; [exact Ht|left; apply Rinv_0_lt_compat; exact Ho]).
  destruct (Rle_dec 0 (t / out)) as [_|C]; [|contradiction]. destruct (Rlt_b _ t) eqn:E; [reflexivity|].
  destruct (archimed (t / out)) as [A1 A2]. assert (L : out * IZR (up (t / out) - 1) <= t).
  { rewrite minus_IZR. apply Rle_trans with (out * (t / out)); [apply Rmult_le_compat_l; lra|]. unfold Rdiv. rewrite <- Rmult_assoc, (Rmult_comm out t), Rmult_assoc, Rinv_r; lra. }
  assert (~ out * IZR (up (t / out) - 1) < t) by (intros C; apply Rlt_b_spec in C; congruence). lra.
Qed.
(** Output by time without the adaptive step: every iteration writes, however long the
    interval between outputs. *)
Theorem C93_by_time o t0 dt p fuel l : 0 < o_dt o -> 0 <= t0 -> 0 <= dt -> loop p (fixed_times t0 dt) fuel 0 = Some l ->
  forall x, In x l -> writes o (first_time (o_dt o) t0) x = true.
Proof.
  intros Ho Ht Hd H x Hx. destruct (C93_iterations p _ fuel l H) as (m & _ & -> & _). apply in_map_iff in Hx. destruct Hx as (i & <- & _).
  unfold writes. rewrite (proj2 (Rlt_b_spec _ _) Ho). cbn [snd]. rewrite first_time_start by assumption. apply negb_true_iff.
  assert (G : t0 <= fixed_times t0 dt i) by (induction i as [|i IH]; cbn; lra). destruct (Rlt_b _ t0) eqn:E; [|reflexivity]. apply Rlt_b_spec in E. lra.
Qed.
Theorem C93_interval_refuted : exists o t0 dt p fuel l x y, 0 < o_dt o /\ 0 < dt /\ loop p (fixed_times t0 dt) fuel 0 = Some l /\ In x l /\ In y l /\
  writes o (first_time (o_dt o) t0) x = true /\ writes o (first_time (o_dt o) t0) y = true /\ snd x < snd y < snd x + o_dt o.
Proof.
  destruct (C93_last (LPar 0 1 0 0) (fixed_times 0 (1 / 10)) ltac:(reflexivity)) as (fuel & l & E & _).
  exists (OutPar 1 0), 0, (1 / 10), (LPar 0 1 0 0), fuel, l, (0%Z, 0), (1%Z, 0 + 1 / 10). cbn [o_dt snd].
  assert (I : In (0%Z, 0) l /\ In (1%Z, 0 + 1 / 10) l).
  { destruct (C93_iterations _ _ _ _ E) as (m & Hm & -> & [O|O] & _); cbn in O; [|lra]. split; apply in_map_iff.
    - exists 0%nat. split; [reflexivity|apply in_seq; lia].
    - exists 1%nat. split; [reflexivity|apply in_seq; lia]. }
  destruct I as [I1 I2]. split; [lra|]. split; [lra|]. split; [exact E|]. split; [exact I1|]. split; [exact I2|].
  split; [|split; [|lra]].
  - apply (C93_by_time (OutPar 1 0) 0 (1 / 10) (LPar 0 1 0 0) fuel l); cbn; try lra; assumption.
  - apply (C93_by_time (OutPar 1 0) 0 (1 / 10) (LPar 0 1 0 0) fuel l); cbn; try lra; assumption.
Qed.

(** ** the relaxation driver *)
Lemma wvt_shape p every check conv : forall fuel k l, wvt_loop p every check conv fuel k = Some l ->
  exists pre s, l = pre ++ [s] /\ map ws_iter l = map (fun j => l_first p + Z.of_nat j)%Z (seq k (length l)) /\
    ((l_first p + Z.of_nat k <= l_final p + l_cool p)%Z -> ws_reset s = true /\ ws_write s = true /\ (ws_iter s <= l_final p + l_cool p)%Z) /\
    (forall x, In x pre -> ws_reset x = false /\ (ws_write x = true <-> (0 < every)%Z /\ (every | ws_iter x)%Z)).
Proof.
  induction fuel as [|f IH]; intros k l H; [discriminate|]. cbn [wvt_loop] in H.
  set (it := (l_first p + Z.of_nat k)%Z) in *.
  set (cv := negb (it =? l_first p)%Z && (it <=? l_final p)%Z && ((l_first p <? it)%Z && check) && conv k) in *.
  set (last := (it =? l_final p + l_cool p)%Z) in *.
  destruct ((it + 1 <=? l_final p + l_cool p)%Z && negb cv) eqn:E.
  - destruct (wvt_loop p every check conv f (S k)) as [r|] eqn:Er; [|discriminate]. injection H as <-.
    destruct (IH _ _ Er) as (pre & s & -> & H1 & H2 & H3). apply andb_true_iff in E. destruct E as [E1 E2]. apply Z.leb_le in E1. apply negb_true_iff in E2.
    assert (L : last = false) by (unfold last; apply Z.eqb_neq; lia).
    exists (WStep it (cv || last) (((0 <? every)%Z && (Z.rem it every =? 0)%Z) || cv || last) :: pre), s. split; [reflexivity|]. split; [|split].
    + cbn [map ws_iter length seq app] in *. f_equal. exact H1.
    + intros _. apply H2. unfold it in E1. lia.
    + intros x [<-|Hx]; [|apply H3; exact Hx]. cbn [ws_reset ws_write ws_iter]. rewrite E2, L, !orb_false_r. split; [reflexivity|].
      rewrite andb_true_iff, Z.ltb_lt, Z.eqb_eq. split; intros [A B]; (split; [exact A|]); apply Z.rem_divide; (lia || exact B).
  - injection H as <-. exists [], (WStep it (cv || last) (((0 <? every)%Z && (Z.rem it every =? 0)%Z) || cv || last)).
    split; [reflexivity|]. split; [reflexivity|]. split; [|intros x []]. intros Hk. cbn [ws_reset ws_write ws_iter].
    assert (C : cv || last = true).
    { apply andb_false_iff in E. destruct E as [E|E]; [|apply negb_false_iff in E; rewrite E; reflexivity]. apply Z.leb_gt in E.
      assert (last = true) as -> by (unfold last; apply Z.eqb_eq; unfold it in *; lia). apply orb_true_r. }
    split; [exact C|]. split; [|exact Hk]. rewrite <- orb_assoc, C. apply orb_true_r.
Qed.
(** The loop ends; the last iteration is written and has its density set to the
    profile; no earlier iteration has, and those are written by frequency only. *)
Theorem C93_wvt_last p every check conv : (l_first p <= l_final p + l_cool p)%Z -> exists fuel pre s,
  wvt_loop p every check conv fuel 0 = Some (pre ++ [s]) /\ ws_reset s = true /\ ws_write s = true /\ (ws_iter s <= l_final p + l_cool p)%Z /\
  map ws_iter (pre ++ [s]) = map (fun j => l_first p + Z.of_nat j)%Z (seq 0 (S (length pre))) /\
  forall x, In x pre -> ws_reset x = false /\ (ws_write x = true <-> (0 < every)%Z /\ (every | ws_iter x)%Z).
Proof.
  intros H.
  assert (T : forall fuel k, (l_final p + l_cool p < l_first p + Z.of_nat (k + fuel))%Z -> (0 < fuel)%nat -> exists l, wvt_loop p every check conv fuel k = Some l).
  { induction fuel as [|f IH]; intros k Hk Hf; [lia|]. cbn [wvt_loop]. destruct (_ && _) eqn:E; [|eexists; reflexivity].
    apply andb_true_iff in E. destruct E as [E _]. apply Z.leb_le in E. destruct (IH (S k)) as (r & ->); [lia|lia|eexists; reflexivity]. }
  set (fuel := S (Z.to_nat (l_final p + l_cool p - l_first p))). destruct (T fuel 0%nat ltac:(unfold fuel; lia) ltac:(unfold fuel; lia)) as (l & E).
  destruct (wvt_shape p every check conv fuel 0 l E) as (pre & s & -> & H1 & H2 & H3). exists fuel, pre, s. split; [exact E|].
  destruct (H2 ltac:(lia)) as (A & B & C). rewrite app_length in H1. replace (length pre + length [s])%nat with (S (length pre)) in H1 by (cbn; lia). auto.
Qed.
(** When no relaxation step converges the last iteration is the end of the cool down. *)
Theorem C93_wvt_cool p every check conv fuel l : (l_first p <= l_final p + l_cool p)%Z -> (forall k, conv k = false) ->
  wvt_loop p every check conv fuel 0 = Some l -> length l = S (Z.to_nat (l_final p + l_cool p - l_first p)).
Proof.
  intros H Hc. assert (G : forall fuel k l, (l_first p + Z.of_nat k <= l_final p + l_cool p)%Z -> wvt_loop p every check conv fuel k = Some l ->
    length l = S (Z.to_nat (l_final p + l_cool p - l_first p - Z.of_nat k))).
  { clear fuel l. induction fuel as [|f IH]; intros k l Hk E; [discriminate|]. cbn [wvt_loop] in E. rewrite Hc, !andb_false_r in E. cbn [negb] in E.
    rewrite andb_true_r in E. destruct (_ <=? _)%Z eqn:El.
    - apply Z.leb_le in El. destruct (wvt_loop p every check conv f (S k)) as [r|] eqn:Er; [|discriminate]. injection E as <-. cbn [length].
      rewrite (IH (S k) r ltac:(lia) Er). lia.
    - apply Z.leb_gt in El. injection E as <-. cbn [length]. lia. }
  intros E. rewrite (G fuel 0%nat l ltac:(lia) E). lia.
Qed.
(** Started after its end, the driver does one iteration and writes nothing. *)
Theorem C93_wvt_late_refuted : exists p every check conv l, wvt_loop p every check conv 1 0 = Some l /\ l <> [] /\ forall s, In s l -> ws_write s = false /\ ws_reset s = false.
Proof. exists (LPar 5 2 0 1), 0%Z, true, (fun _ => false). eexists. split; [reflexivity|]. split; [discriminate|]. intros s [<-|[]]. split; reflexivity. Qed.

Example C93_case : (0 < l_final (LPar 0 10 1 5))%Z /\ 0 < l_final_time (LPar 0 10 1 5) /\ 0 < 1 / 10 /\ (l_first (LPar 0 10 1 5) <= l_final (LPar 0 10 1 5) + l_cool (LPar 0 10 1 5))%Z /\
  o_dt (OutPar 0 5) <= 0 /\ exists l, wvt_loop (LPar 0 10 1 5) 4 true (fun k => (k =? 7)%nat) 20 0 = Some l /\ map ws_iter (filter ws_write l) = [0; 4; 7]%Z.
Proof. cbn. repeat split; try lia; try lra. eexists. split; reflexivity. Qed.

Print Assumptions C93_iterations.
Print Assumptions C93_last.
Print Assumptions C93_final_time.
Print Assumptions C93_ends_refuted.
Print Assumptions C93_by_iteration.
Print Assumptions C93_by_time.
Print Assumptions C93_interval_refuted.
Print Assumptions C93_wvt_last.
Print Assumptions C93_wvt_cool.
Print Assumptions C93_wvt_late_refuted.
