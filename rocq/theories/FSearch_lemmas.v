(** Errors of the distances, tests and summaries in double precision. *)
From Coq Require Import Reals Lra Psatz.
From Flocq Require Import Core Relative Plus_error.
From Verif Require Import Base Key_model BuildTree_model Vec Geometry_model Geometry_props Cofm_model Cofm_proofs Search_model GSearch_model FCell_model
  FCell_lemmas FSearch_model.
Local Open Scope R_scope.

Notation fmt := (generic_format radix2 dexp).
Definition tau : R := / 2 * bpow radix2 (-1074).
Definition eta : R := bpow radix2 (-500).
Lemma u53_eq : u53 = / 9007199254740992.
Proof. reflexivity. Qed.
Lemma tau_pos : 0 < tau.
Proof. unfold tau. pose proof (bpow_gt_0 radix2 (-1074)). lra. Qed.
Lemma eta_pos : 0 < eta.
Proof. apply bpow_gt_0. Qed.
Lemma tau_eta : 1000 * tau <= eta * eta.
Proof.
  unfold tau, eta. rewrite <- bpow_plus. assert (H : 512 * bpow radix2 (-1074) <= bpow radix2 (-500 + -500)).
  { change 512 with (bpow radix2 9). rewrite <- bpow_plus. apply bpow_le. lia. }
  pose proof (bpow_gt_0 radix2 (-1074)). lra.
Qed.
Lemma eta_small : eta <= / 1000000.
Proof.
  unfold eta. apply Rle_trans with (bpow radix2 (-53)); [apply bpow_le; lia|]. apply u53_small.
Qed.
Lemma tau_small : tau <= eta.
Proof. pose proof tau_eta. pose proof eta_small. pose proof eta_pos. pose proof tau_pos. nra. Qed.

Lemma fmt_opp x : fmt x -> fmt (- x).
Proof. apply generic_format_opp. Qed.
Lemma fmt_max x y : fmt x -> fmt y -> fmt (Rmax x y).
Proof. intros. unfold Rmax. destruct (Rle_dec x y); assumption. Qed.
Lemma fmt_min x y : fmt x -> fmt y -> fmt (Rmin x y).
Proof. intros. unfold Rmin. destruct (Rle_dec x y); assumption. Qed.
Lemma fmt_abs x : fmt x -> fmt (Rabs x).
Proof. intros. unfold Rabs. destruct (Rcase_abs x); [apply fmt_opp|]; assumption. Qed.

(** sums of two doubles: no absolute error *)
Lemma rnd_plus_rel a b : fmt a -> fmt b -> exists e, Rabs e <= u53 /\ rnd (a + b) = (a + b) * (1 + e).
Proof.
  intros Ha Hb. destruct (FLT_plus_error_N_ex radix2 (-1074) 53 (fun x => negb (Z.even x)) a b Ha Hb) as (e & He & E).
  exists e. split; [apply ro_le; exact He|exact E].
Qed.
Lemma rnd_plus_lo a b : fmt a -> fmt b -> 0 <= a + b -> (1 - u53) * (a + b) <= rnd (a + b).
Proof. intros Ha Hb H. destruct (rnd_plus_rel a b Ha Hb) as (e & He & ->). apply Rabs_le_inv in He. nra. Qed.
Lemma rnd_plus_up a b : fmt a -> fmt b -> 0 <= a + b -> rnd (a + b) <= (1 + u53) * (a + b).
Proof. intros Ha Hb H. destruct (rnd_plus_rel a b Ha Hb) as (e & He & ->). apply Rabs_le_inv in He. nra. Qed.
Lemma rnd_lo x : 0 <= x -> (1 - u53) * x - tau <= rnd x.
Proof.
  intros H. destruct (rnd_rel x) as (e & t & He & Ht & ->). fold tau in Ht. apply Rabs_le_inv in He. apply Rabs_le_inv in Ht. nra.
Qed.
Lemma rnd_up x : 0 <= x -> rnd x <= (1 + u53) * x + tau.
Proof.
  intros H. destruct (rnd_rel x) as (e & t & He & Ht & ->). fold tau in Ht. apply Rabs_le_inv in He. apply Rabs_le_inv in Ht. nra.
Qed.
Lemma rnd_err x : Rabs (rnd x - x) <= u53 * Rabs x + tau.
Proof.
  destruct (rnd_rel x) as (e & t & He & Ht & ->). fold tau in Ht. replace (x * (1 + e) + t - x) with (x * e + t) by ring.
  eapply Rle_trans; [apply Rabs_triang|]. rewrite Rabs_mult. pose proof (Rabs_pos x). nra.
Qed.

(** one squared difference *)
Lemma sq_fl_bounds a b i : fmt (a i) -> fmt (b i) ->
  (1 - 4 * u53) * ((a i - b i) * (a i - b i)) - tau <= sq_fl a b i <= (1 + 4 * u53) * ((a i - b i) * (a i - b i)) + tau.
Proof.
  intros Ha Hb. unfold sq_fl. destruct (rnd_plus_rel (a i) (- b i) Ha (fmt_opp _ Hb)) as (e & He & E).
  assert (E' : rnd (a i - b i) = (a i - b i) * (1 + e)) by exact E. rewrite E'. set (v := a i - b i).
  pose proof u53_pos as U. pose proof u53_small as U'. apply Rabs_le_inv in He.
  assert (V : 0 <= v * v) by nra.
  assert (Q : (1 - 2 * u53) * (v * v) <= v * (1 + e) * (v * (1 + e)) <= (1 + (2 + / 2) * u53) * (v * v)).
  { replace (v * (1 + e) * (v * (1 + e))) with ((v * v) * ((1 + e) * (1 + e))) by ring.
    assert (1 - 2 * u53 <= (1 + e) * (1 + e) <= 1 + (2 + / 2) * u53) by nra. split; nra. }
  assert (0 <= v * (1 + e) * (v * (1 + e))) by nra.
  split.
  - eapply Rle_trans; [|apply rnd_lo; assumption]. assert ((1 - u53) * ((1 - 2 * u53) * (v * v)) <= (1 - u53) * (v * (1 + e) * (v * (1 + e)))) by nra.
    assert ((1 - 4 * u53) * (v * v) <= (1 - u53) * ((1 - 2 * u53) * (v * v))) by nra. lra.
  - eapply Rle_trans; [apply rnd_up; assumption|]. assert ((1 + u53) * (v * (1 + e) * (v * (1 + e))) <= (1 + u53) * ((1 + (2 + / 2) * u53) * (v * v))) by nra.
    assert ((1 + u53) * ((1 + (2 + / 2) * u53) * (v * v)) <= (1 + 4 * u53) * (v * v)) by nra. lra.
Qed.
Lemma sq_fl_pos a b i : 0 <= sq_fl a b i.
Proof. unfold sq_fl. apply rnd_pos. apply Rle_0_sqr. Qed.
Lemma dist2_fl_fmt n a b : fmt (dist2_fl n a b).
Proof. destruct n; cbn [dist2_fl]; [apply generic_format_0|apply rnd_fmt]. Qed.
Lemma dist2_fl_pos n a b : 0 <= dist2_fl n a b.
Proof. induction n; cbn [dist2_fl]; [lra|]. apply rnd_pos. pose proof (sq_fl_pos a b n). lra. Qed.
Lemma dist2_fl_bounds n a b : (n <= 3)%nat -> (forall i, (i < n)%nat -> fmt (a i) /\ fmt (b i)) ->
  (1 - (4 + 2 * INR n) * u53) * dist2 n a b - 2 * INR n * tau <= dist2_fl n a b <=
  (1 + (4 + 2 * INR n) * u53) * dist2 n a b + 2 * INR n * tau.
Proof.
  pose proof u53_pos as U. pose proof u53_small as U'. pose proof tau_pos as T.
  induction n as [|n IH]; intros Hn H.
  - unfold dist2. cbn [sumn dist2_fl INR]. lra.
  - assert (I : 0 <= INR n <= 2) by (split; [apply pos_INR|change 2 with (INR 2); apply le_INR; lia]).
    destruct (IH ltac:(lia) ltac:(intros; apply H; lia)) as [L1 L2]. clear IH.
    destruct (H n ltac:(lia)) as [Ha Hb]. destruct (sq_fl_bounds a b n Ha Hb) as [Q1 Q2].
    pose proof (sq_fl_pos a b n) as P1. pose proof (dist2_fl_pos n a b) as P2. pose proof (dist2_nonneg n a b) as D0.
    cbn [dist2_fl]. change (dist2 (S n) a b) with (dist2 n a b + (a n - b n) * (a n - b n)). rewrite S_INR.
    assert (V : 0 <= (a n - b n) * (a n - b n)) by apply Rle_0_sqr.
    set (D := dist2 n a b) in *. set (v := (a n - b n) * (a n - b n)) in *. set (f := dist2_fl n a b) in *. set (q := sq_fl a b n) in *.
    set (k := INR n) in *.
    assert (Fq : fmt q) by apply rnd_fmt. assert (Ff : fmt f) by apply dist2_fl_fmt.
    assert (KV : 0 <= k * (u53 * v)) by (apply Rmult_le_pos; [lra|apply Rmult_le_pos; lra]).
    assert (W1 : (1 - (4 + 2 * k) * u53) * (D + v) - (2 * k + 1) * tau <= f + q) by lra.
    assert (W2 : f + q <= (1 + (4 + 2 * k) * u53) * (D + v) + (2 * k + 1) * tau) by lra.
    assert (DV : 0 <= D + v) by lra. set (X := D + v) in *. clearbody X.
    split.
    + eapply Rle_trans; [|apply rnd_plus_lo; [exact Ff|exact Fq|lra]].
      assert (E1 : (1 - u53) * ((1 - (4 + 2 * k) * u53) * X - (2 * k + 1) * tau) <= (1 - u53) * (f + q)) by (apply Rmult_le_compat_l; lra).
      assert (E2 : 0 <= u53 * ((4 + 2 * k) * u53 * X)) by (apply Rmult_le_pos; [lra|apply Rmult_le_pos; [apply Rmult_le_pos; lra|lra]]).
      assert (E3 : 0 <= u53 * X) by (apply Rmult_le_pos; lra).
      assert (E4 : 0 <= u53 * ((2 * k + 1) * tau)) by (apply Rmult_le_pos; [lra|apply Rmult_le_pos; lra]).
      lra.
    + eapply Rle_trans; [apply rnd_plus_up; [exact Ff|exact Fq|lra]|].
      assert (E1 : (1 + u53) * (f + q) <= (1 + u53) * ((1 + (4 + 2 * k) * u53) * X + (2 * k + 1) * tau)) by (apply Rmult_le_compat_l; lra).
      assert (E2 : u53 * ((4 + 2 * k) * u53 * X) <= u53 * X).
      { apply Rmult_le_compat_l; [lra|]. rewrite <- (Rmult_1_l X) at 2. apply Rmult_le_compat_r; [exact DV|]. nra. }
      assert (E4 : u53 * ((2 * k + 1) * tau) <= tau).
      { rewrite <- Rmult_assoc. rewrite <- (Rmult_1_l tau) at 2. apply Rmult_le_compat_r; [lra|]. nra. }
      lra.
Qed.
Lemma dist2_fl_lo n a b : (n <= 3)%nat -> (forall i, (i < n)%nat -> fmt (a i) /\ fmt (b i)) ->
  (1 - 10 * u53) * dist2 n a b - 6 * tau <= dist2_fl n a b.
Proof.
  intros Hn H. destruct (dist2_fl_bounds n a b Hn H) as [L _]. pose proof u53_pos. pose proof tau_pos. pose proof (dist2_nonneg n a b).
  assert (I : INR n <= 3) by (change 3 with (INR 3) || replace 3 with (INR 3) by (cbn; lra); apply le_INR; lia).
  assert (0 <= (3 - INR n) * tau) by (apply Rmult_le_pos; lra).
  assert (0 <= (3 - INR n) * (u53 * dist2 n a b)) by (repeat apply Rmult_le_pos; lra). lra.
Qed.
Lemma dist2_fl_up n a b : (n <= 3)%nat -> (forall i, (i < n)%nat -> fmt (a i) /\ fmt (b i)) ->
  dist2_fl n a b <= (1 + 10 * u53) * dist2 n a b + 6 * tau.
Proof.
  intros Hn H. destruct (dist2_fl_bounds n a b Hn H) as [_ L]. pose proof u53_pos. pose proof tau_pos. pose proof (dist2_nonneg n a b).
  assert (I : INR n <= 3) by (change 3 with (INR 3) || replace 3 with (INR 3) by (cbn; lra); apply le_INR; lia).
  assert (0 <= (3 - INR n) * tau) by (apply Rmult_le_pos; lra).
  assert (0 <= (3 - INR n) * (u53 * dist2 n a b)) by (repeat apply Rmult_le_pos; lra). lra.
Qed.

Lemma dist_fl_fmt n a b : fmt (dist_fl n a b).
Proof.
  unfold dist_fl. destruct n as [|[|k]]; [apply rnd_fmt|apply fmt_abs, rnd_fmt|apply rnd_fmt].
Qed.
Lemma dist_fl_pos n a b : 0 <= dist_fl n a b.
Proof.
  unfold dist_fl. destruct n as [|[|k]]; [apply rnd_pos, sqrt_pos|apply Rabs_pos|apply rnd_pos, sqrt_pos].
Qed.

(** ** the test within_distance2 *)
Section Points.
Variables (n : nat) (a b : point).
Hypothesis Hn : (n <= 3)%nat.
Hypothesis Hab : forall i, (i < n)%nat -> fmt (a i) /\ fmt (b i).

Lemma within_sound r : 0 <= r -> within_distance2_fl n a b r = true -> dist n a b <= (1 + 12 * u53) * r + eta.
Proof using Hn Hab.
  intros Hr H. apply Rleb_true in H. pose proof (dist2_fl_lo n a b Hn Hab) as L. pose proof u53_pos. pose proof u53_small. pose proof tau_pos.
  pose proof tau_eta. pose proof eta_pos. assert (R0 : 0 <= r * r) by nra. pose proof (rnd_up (r * r) R0) as U.
  apply dist_le_iff; [nra|].
  assert (E1 : (1 - 10 * u53) * dist2 n a b <= (1 + u53) * (r * r) + 7 * tau) by lra.
  pose proof (dist2_nonneg n a b). set (D := dist2 n a b) in *. set (x := r * r) in *.
  assert (E2 : D <= (1 + 12 * u53) * x + 8 * tau).
  { apply (Rmult_le_reg_l (1 - 10 * u53)); [lra|].
    assert (F1 : (1 + u53) * x <= (1 - 10 * u53) * ((1 + 12 * u53) * x)).
    { rewrite <- Rmult_assoc. apply Rmult_le_compat_r; [exact R0|]. nra. }
    assert (F2 : 7 * tau <= (1 - 10 * u53) * (8 * tau)) by nra. lra. }
  assert (E3 : (1 + 12 * u53) * x <= (1 + 12 * u53) * r * ((1 + 12 * u53) * r)) by (unfold x; nra).
  assert (0 <= (1 + 12 * u53) * r * eta) by (repeat apply Rmult_le_pos; lra).
  nra.
Qed.
Lemma within_complete r : dist n a b <= (1 - 12 * u53) * r - eta -> within_distance2_fl n a b r = true.
Proof using Hn Hab.
  intros H. apply Rleb_true. pose proof (dist2_fl_up n a b Hn Hab) as L. pose proof u53_pos. pose proof u53_small. pose proof tau_pos.
  pose proof tau_eta. pose proof eta_pos. pose proof (dist_nonneg n a b) as D0. pose proof (dist_sqr n a b) as DS.
  set (A := (1 - 12 * u53) * r) in *.
  assert (Hr : 0 <= r). { apply Rnot_lt_le. intros N. assert (A < 0) by (unfold A; nra). lra. }
  assert (R0 : 0 <= r * r) by nra. pose proof (rnd_lo (r * r) R0) as U.
  assert (E1 : dist2 n a b <= A * A - eta * eta) by (rewrite <- DS; nra).
  assert (E2 : (1 + 10 * u53) * dist2 n a b <= (1 + 10 * u53) * (A * A) - eta * eta) by nra.
  assert (E3 : (1 + 10 * u53) * (A * A) <= (1 - u53) * (r * r)).
  { unfold A. replace ((1 + 10 * u53) * ((1 - 12 * u53) * r * ((1 - 12 * u53) * r))) with ((1 + 10 * u53) * ((1 - 12 * u53) * (1 - 12 * u53)) * (r * r)) by ring.
    apply Rmult_le_compat_r; [exact R0|]. nra. }
  lra.
Qed.

Lemma sqrt_le_plus x y : 0 <= x -> 0 <= y -> sqrt (x + y) <= sqrt x + sqrt y.
Proof using.
  intros Hx Hy. pose proof (sqrt_pos x). pose proof (sqrt_pos y). 
  rewrite <- (sqrt_square (sqrt x + sqrt y)) by lra. apply sqrt_le_1_alt.
  pose proof (sqrt_sqrt x Hx). pose proof (sqrt_sqrt y Hy). nra.
Qed.
Lemma sqrt_tau : sqrt (6 * tau) <= / 2 * eta.
Proof using.
  pose proof tau_eta. pose proof eta_pos. rewrite <- (sqrt_square (/ 2 * eta)) by lra. apply sqrt_le_1_alt. pose proof tau_pos. nra.
Qed.
Lemma dist_fl_sqrt : (1 - 12 * u53) * dist n a b - eta <= rnd (sqrt (dist2_fl n a b)) <= (1 + 12 * u53) * dist n a b + eta.
Proof using Hn Hab.
  pose proof (dist2_fl_up n a b Hn Hab) as Up. pose proof (dist2_fl_lo n a b Hn Hab) as Lo. pose proof (dist2_fl_pos n a b) as P.
  pose proof u53_pos. pose proof u53_small. pose proof tau_pos. pose proof eta_pos. pose proof sqrt_tau as ST.
  pose proof (dist_nonneg n a b) as D0. pose proof (dist_sqr n a b) as DS. pose proof (sqrt_pos (dist2_fl n a b)) as SP.
  pose proof tau_eta as TE. pose proof eta_small as ES.
  assert (T2 : tau <= / 4 * eta) by nra.
  split.
  - pose proof (rnd_lo _ SP) as R. assert (E1 : (1 - 10 * u53) * dist n a b <= sqrt (dist2_fl n a b) + / 2 * eta).
    { apply Rle_trans with (sqrt (dist2_fl n a b + 6 * tau)).
      - rewrite <- (sqrt_square ((1 - 10 * u53) * dist n a b)) by (apply Rmult_le_pos; lra). apply sqrt_le_1_alt.
        replace ((1 - 10 * u53) * dist n a b * ((1 - 10 * u53) * dist n a b)) with ((1 - 10 * u53) * (1 - 10 * u53) * dist2 n a b) by (rewrite <- DS; ring).
        pose proof (dist2_nonneg n a b). assert ((1 - 10 * u53) * (1 - 10 * u53) * dist2 n a b <= (1 - 10 * u53) * dist2 n a b).
        { rewrite Rmult_assoc. assert (0 <= (1 - 10 * u53) * dist2 n a b) by (apply Rmult_le_pos; lra). nra. }
        lra.
      - eapply Rle_trans; [apply sqrt_le_plus; lra|]. lra. }
    set (s := sqrt (dist2_fl n a b)) in *. set (d := dist n a b) in *. clearbody s d.
    assert ((1 - u53) * ((1 - 10 * u53) * d - / 2 * eta) <= (1 - u53) * s) by (apply Rmult_le_compat_l; lra).
    assert (0 <= u53 * d) by (apply Rmult_le_pos; lra). assert (0 <= u53 * (u53 * d)) by (apply Rmult_le_pos; lra).
    assert (0 <= u53 * eta) by (apply Rmult_le_pos; lra). lra.
  - pose proof (rnd_up _ SP) as R. assert (E1 : sqrt (dist2_fl n a b) <= (1 + 10 * u53) * dist n a b + / 2 * eta).
    { apply Rle_trans with (sqrt ((1 + 10 * u53) * dist2 n a b + 6 * tau)); [apply sqrt_le_1_alt; exact Up|].
      pose proof (dist2_nonneg n a b). eapply Rle_trans; [apply sqrt_le_plus; [apply Rmult_le_pos; lra|lra]|].
      apply Rplus_le_compat; [|exact ST]. rewrite <- (sqrt_square ((1 + 10 * u53) * dist n a b)) by (apply Rmult_le_pos; lra). apply sqrt_le_1_alt.
      replace ((1 + 10 * u53) * dist n a b * ((1 + 10 * u53) * dist n a b)) with ((1 + 10 * u53) * (1 + 10 * u53) * dist2 n a b) by (rewrite <- DS; ring).
      apply Rmult_le_compat_r; [assumption|]. nra. }
    set (s := sqrt (dist2_fl n a b)) in *. set (d := dist n a b) in *. clearbody s d.
    assert ((1 + u53) * s <= (1 + u53) * ((1 + 10 * u53) * d + / 2 * eta)) by (apply Rmult_le_compat_l; lra).
    assert (0 <= u53 * d) by (apply Rmult_le_pos; lra).
    assert (10 * u53 * (u53 * d) <= u53 * d).
    { assert (F : 10 * u53 * (u53 * d) <= 1 * (u53 * d)) by (apply Rmult_le_compat_r; lra). lra. }
    assert (u53 * eta <= / 2 * eta) by (apply Rmult_le_compat_r; lra). lra.
Qed.
Lemma dist_fl_bounds : (1 <= n)%nat -> (1 - 12 * u53) * dist n a b - eta <= dist_fl n a b <= (1 + 12 * u53) * dist n a b + eta.
Proof using Hn Hab.
  intros H1. pose proof dist_fl_sqrt as DSQ. destruct n as [|[|k]] eqn:En; [lia| |exact DSQ]. unfold dist_fl.
  destruct (Hab 0%nat ltac:(lia)) as [Ha Hb]. destruct (rnd_plus_rel (a 0%nat) (- b 0%nat) Ha (fmt_opp _ Hb)) as (e & He & E).
  assert (E' : rnd (a 0%nat - b 0%nat) = (a 0%nat - b 0%nat) * (1 + e)) by exact E. rewrite E', dist_1, Rabs_mult.
  apply Rabs_le_inv in He. pose proof u53_pos. pose proof u53_small. pose proof eta_pos. rewrite (Rabs_pos_eq (1 + e)) by lra.
  pose proof (Rabs_pos (a 0%nat - b 0%nat)). split; nra.
Qed.
End Points.
