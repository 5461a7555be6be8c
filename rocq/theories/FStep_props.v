(** C111: the time step in double precision. *)
From Coq Require Import Reals Lra.
From Flocq Require Import Core.
From Verif Require Import Base Vec Range_model FCell_model FCell_lemmas FSearch_lemmas FForce_model FDens_model FDens_props FStep_model.
Local Open Scope R_scope.
Local Opaque bpow.

(** parameters and particles of moderate size *)
Definition good_conf (c : sconf) : Prop :=
  bpow radix2 (-20) <= s_cfl c <= 1 /\ bpow radix2 (-10) <= s_eta c <= bpow radix2 10 /\ 1 <= s_width c <= 8 /\
  0 <= s_alpha c <= bpow radix2 50 /\ bpow radix2 (-80) <= s_tiny c <= 1 /\ 1 / 2 <= s_mc c <= 1.
Definition good_step (n : nat) (p : spart) : Prop :=
  bpow radix2 (-100) <= s_h p <= bpow radix2 100 /\ magnitude_fl n (s_vel p) <= bpow radix2 100 /\
  magnitude_fl n (vadd_fl (s_acc p) (s_gacc p)) <= bpow radix2 100 /\ 0 <= s_sig p <= bpow radix2 100.

Lemma dl_small : 0 < dl <= / 100000000000000. Proof. unfold dl. lra. Qed.
Lemma quo_low x y a b c : bpow radix2 a <= x -> 0 < y <= bpow radix2 b -> (a - b = c)%Z -> bpow radix2 c <= x / y.
Proof.
  intros Hx Hy <-. pose proof (bp a). pose proof (bp b). unfold Zminus. rewrite bpow_plus, bpow_opp. apply Rmult_le_compat; [lra | left; apply Rinv_0_lt_compat; lra | exact Hx | apply Rinv_le_contravar; lra].
Qed.
(** the denominators *)
Lemma den_ok m t : 0 <= m <= bpow radix2 199 -> bpow radix2 (-80) <= t <= 1 -> bpow radix2 (-80) <= rnd (m + t) <= bpow radix2 200 /\ (1 - dl) * m <= rnd (m + t).
Proof.
  intros Hm Ht. pose proof (bp (-80)). pose proof (bpow_le radix2 (-901) (-80) ltac:(lia)). pose proof (bpow_le radix2 0 199 ltac:(lia)) as B. rewrite bpow_0 in B.
  assert (B2 : bpow radix2 200 = 2 * bpow radix2 199) by (rewrite <- bpow_1', <- bpow_plus; reflexivity). pose proof dl_small. split.
  - split; [apply rnd_ge_bpow; [lia | lra] | apply rnd_le_bpow; [lia | lra]].
  - destruct (rel_err (m + t) ltac:(lra)) as [E _]. eapply Rle_trans; [|exact E]. apply Rmult_le_compat_l; lra.
Qed.
Lemma dx_ok c n p : good_conf c -> good_step n p -> bpow radix2 (-114) <= dx_fl c p /\ dx_fl c p <= (1 + 4 * dl) * (s_h p / (s_eta c * s_width c)).
Proof.
  intros (_ & He & Hw & _) (Hh & _). pose proof dl_small as D. pose proof (bp (-10)). pose proof (bp (-100)). unfold dx_fl. rewrite <- bpow_0, <- bpow_3 in Hw.
  pose proof (mul_range (s_eta c) (s_width c) (-10) 10 0 3 He Hw) as M. change (-10 + 0)%Z with (-10)%Z in M. change (10 + 3)%Z with 13%Z in M. pose proof (rnd_range _ (-10) 13 ltac:(lia) ltac:(lia) M) as M'.
  pose proof (bpow_le radix2 (-901) (-10) ltac:(lia)). destruct (rel_err (s_eta c * s_width c) ltac:(lra)) as [E _]. set (W := s_eta c * s_width c) in *. set (w := rnd W) in *. clearbody w. 
  assert (Q : bpow radix2 (-113) <= s_h p / w) by (apply (quo_low _ _ (-100) 13 (-113)); [lra | lra | reflexivity]). split.
  - apply (Rle_trans _ (bpow radix2 (-113))); [apply bpow_le; lia | apply rnd_ge_bpow; [lia | exact Q]].
  - pose proof (bpow_le radix2 (-901) (-113) ltac:(lia)). destruct (rel_err (s_h p / w) ltac:(lra)) as [_ U]. eapply Rle_trans; [exact U|].
    set (X := s_h p / W). assert (EX : s_h p = X * W) by (unfold X; field; lra). assert (X0 : 0 < X) by (apply Rmult_lt_0_compat; [lra | apply Rinv_0_lt_compat; lra]).
    assert (Y : s_h p / w <= (1 + 2 * dl) * X).
    { apply (Rmult_le_reg_r w); [lra|]. unfold Rdiv. rewrite Rmult_assoc, Rinv_l, Rmult_1_r by lra. apply (Rle_trans _ ((1 + 2 * dl) * X * ((1 - dl) * W))).
      - rewrite EX. replace ((1 + 2 * dl) * X * ((1 - dl) * W)) with (X * W * (1 + dl * (1 - 2 * dl))) by ring. assert (0 <= dl * (1 - 2 * dl)) by (apply Rmult_le_pos; lra). rewrite <- (Rmult_1_r (X * W)) at 1. apply Rmult_le_compat_l; [apply Rmult_le_pos; lra | lra].
      - apply Rmult_le_compat_l; [apply Rmult_le_pos; lra | exact E]. }
    apply (Rle_trans _ ((1 + dl) * ((1 + 2 * dl) * X))); [apply Rmult_le_compat_l; lra|]. rewrite <- Rmult_assoc. apply Rmult_le_compat_r; [lra|]. assert (dl * dl <= dl * / 1000) by (apply Rmult_le_compat_l; lra). lra.
Qed.
(** a quotient by such a denominator *)
Lemma quo_ok x d m k : bpow radix2 (-114) <= x -> bpow radix2 (-80) <= d <= bpow radix2 200 -> 0 <= m -> 0 <= k <= 10 -> (1 - k * dl) * m <= d -> bpow radix2 (-314) <= rnd (x / d) /\ rnd (x / d) * m <= (1 + (k + 2) * dl) * x.
Proof.
  intros Hx Hd Hm Hk H. pose proof dl_small as D. pose proof (bp (-114)). pose proof (bp (-80)). assert (Q : bpow radix2 (-314) <= x / d) by (apply (quo_low _ _ (-114) 200 (-314)); [lra | lra | reflexivity]).
  split; [apply rnd_ge_bpow; [lia | exact Q]|]. pose proof (bpow_le radix2 (-901) (-314) ltac:(lia)). pose proof (bp (-901)). destruct (rel_err (x / d) ltac:(lra)) as [_ U].
  assert (kd : 0 <= k * dl <= 10 * dl) by (split; [apply Rmult_le_pos; lra | apply Rmult_le_compat_r; lra]).
  set (e := k * dl) in *. assert (K : k * dl = e) by reflexivity. clearbody e. replace ((1 + (k + 2) * dl) * x) with ((1 + (e + 2 * dl)) * x) by (rewrite <- K; ring).
  assert (Y : x / d * m <= (1 + (e + dl / 2)) * x).
  { apply (Rmult_le_reg_r d); [lra|]. replace (x / d * m * d) with (x * m) by (field; lra). rewrite (Rmult_comm _ x), Rmult_assoc. apply Rmult_le_compat_l; [lra|].
    apply (Rle_trans _ ((1 + (e + dl / 2)) * ((1 - e) * m))); [|apply Rmult_le_compat_l; lra]. rewrite <- Rmult_assoc. rewrite <- (Rmult_1_l m) at 1. apply Rmult_le_compat_r; [lra|].
    assert (e * e <= e * (/ 1000000)) by (apply Rmult_le_compat_l; lra). assert (e * dl <= 1 * dl) by (apply Rmult_le_compat_r; lra). assert (E2 : e * e <= 10 * dl * (10 * dl)) by (apply Rmult_le_compat; lra). assert (dl * dl <= dl * / 10000) by (apply Rmult_le_compat_l; lra).
    assert (e * (dl / 2) <= 10 * dl * (dl / 2)) by (apply Rmult_le_compat_r; lra). lra. }
  apply (Rle_trans _ ((1 + dl) * (x / d) * m)); [apply Rmult_le_compat_r; assumption|]. rewrite Rmult_assoc. apply (Rle_trans _ ((1 + dl) * ((1 + (e + dl / 2)) * x))); [apply Rmult_le_compat_l; lra|].
  rewrite <- Rmult_assoc. apply Rmult_le_compat_r; [lra|]. assert (dl * (e + dl / 2) <= dl * / 10000) by (apply Rmult_le_compat_l; lra). lra.
Qed.
(** the denominator of the signal speed; products that underflow are below 1e-24 anyway *)
Lemma sig_ok c n p : good_conf c -> good_step n p ->
  bpow radix2 (-80) <= rnd (s_tiny c + rnd (s_sig p * rnd (1 + rnd (s_mc c * s_alpha c)))) <= bpow radix2 200 /\ 0 <= s_sig p * (1 + s_mc c * s_alpha c) /\
  (1 - 4 * dl) * (s_sig p * (1 + s_mc c * s_alpha c)) <= rnd (s_tiny c + rnd (s_sig p * rnd (1 + rnd (s_mc c * s_alpha c)))).
Proof.
  intros (_ & _ & _ & Ha & Ht & Hm) (_ & _ & _ & Hs). pose proof dl_small as D. pose proof (bp 50) as B50. pose proof (bp 100) as B100. pose proof (bp (-901)) as B9. pose proof (bp (-80)) as B8.
  set (x := s_mc c * s_alpha c). assert (X : 0 <= x <= bpow radix2 50) by (unfold x; split; [apply Rmult_le_pos; lra | rewrite <- (Rmult_1_l (bpow radix2 50)); apply Rmult_le_compat; lra]).
  assert (x1 : 0 <= rnd x <= bpow radix2 50) by (split; [apply rnd_pos; lra | apply rnd_le_bpow; [lia | lra]]).
  assert (S9 : bpow radix2 (-901) <= dl).
  { pose proof (bpow_le radix2 (-901) (-60) ltac:(lia)). pose proof bpow_m60. unfold dl. lra. }
  assert (x2 : (1 - dl) * (1 + x) <= 1 + rnd x).
  { assert (0 <= dl * x) by (apply Rmult_le_pos; lra). destruct (Rle_lt_dec (bpow radix2 (-901)) x) as [L|L]; [destruct (rel_err x L) as [E _]; lra | lra]. }
  pose proof (bpow_le radix2 0 50 ltac:(lia)) as B0. rewrite bpow_0 in B0. assert (B51 : bpow radix2 51 = 2 * bpow radix2 50) by (rewrite <- bpow_1', <- bpow_plus; reflexivity).
  pose proof (rnd_le_bpow (1 + rnd x) 51 ltac:(lia) ltac:(lra)) as A1. destruct (rel_err (1 + rnd x) ltac:(pose proof one_ok; lra)) as [A2 _].
  assert (A3 : (1 - 2 * dl) * (1 + x) <= rnd (1 + rnd x)).
  { eapply Rle_trans; [|exact A2]. apply (Rle_trans _ ((1 - dl) * ((1 - dl) * (1 + x)))); [|apply Rmult_le_compat_l; lra]. rewrite <- Rmult_assoc. apply Rmult_le_compat_r; [lra|]. assert (0 <= dl * dl) by (apply Rmult_le_pos; lra). lra. }
  assert (A0 : 0 <= rnd (1 + rnd x)) by (apply rnd_pos; lra). set (A := rnd (1 + rnd x)) in *. clearbody A.
  set (m := s_sig p * (1 + x)). assert (m0 : 0 <= m) by (unfold m; apply Rmult_le_pos; lra). set (v := s_sig p * A).
  assert (v1 : 0 <= v <= bpow radix2 151) by (unfold v; split; [apply Rmult_le_pos; lra | change 151%Z with (100 + 51)%Z; rewrite bpow_plus; apply Rmult_le_compat; lra]).
  assert (v2 : (1 - 2 * dl) * m <= v) by (unfold m, v; replace ((1 - 2 * dl) * (s_sig p * (1 + x))) with (s_sig p * ((1 - 2 * dl) * (1 + x))) by ring; apply Rmult_le_compat_l; lra).
  assert (w1 : 0 <= rnd v <= bpow radix2 199) by (split; [apply rnd_pos; lra | apply rnd_le_bpow; [lia|]; pose proof (bpow_le radix2 151 199 ltac:(lia)); lra]).
  destruct (den_ok (rnd v) (s_tiny c) w1 Ht) as [D1 D2]. rewrite (Rplus_comm (s_tiny c)). split; [exact D1|]. split; [exact m0|]. clearbody m v.
  destruct (Rle_lt_dec (bpow radix2 (-901)) v) as [L|L].
  - destruct (rel_err v L) as [E _]. assert (F1 : (1 - dl) * ((1 - dl) * v) <= (1 - dl) * rnd v) by (apply Rmult_le_compat_l; lra). assert (F2 : (1 - dl) * ((1 - dl) * ((1 - 2 * dl) * m)) <= (1 - dl) * ((1 - dl) * v)) by (apply Rmult_le_compat_l; [lra|]; apply Rmult_le_compat_l; lra).
    eapply Rle_trans; [|exact D2]. eapply Rle_trans; [|exact F1]. eapply Rle_trans; [|exact F2]. rewrite <- !Rmult_assoc. apply Rmult_le_compat_r; [exact m0|].
    assert (0 <= dl * dl) by (apply Rmult_le_pos; lra). assert (dl * (dl * dl) <= 1 * (dl * dl)) by (apply Rmult_le_compat_r; lra). lra.
  - assert (M : 0 <= dl * m <= / 1000 * m) by (split; [apply Rmult_le_pos; lra | apply Rmult_le_compat_r; lra]).
    assert (B900 : bpow radix2 (-900) = 2 * bpow radix2 (-901)) by (rewrite <- bpow_1', <- bpow_plus; reflexivity). pose proof (bpow_le radix2 (-900) (-80) ltac:(lia)). lra.
Qed.
Lemma grow a b z : 0 <= a <= 20 -> 0 <= b <= 20 -> 0 <= z -> (1 + a * dl) * ((1 + b * dl) * z) <= (1 + (a + b + / 10) * dl) * z.
Proof.
  intros Ha Hb Hz. pose proof dl_small as D. rewrite <- Rmult_assoc. apply Rmult_le_compat_r; [exact Hz|]. assert (ab : a * b <= 20 * 20) by (apply Rmult_le_compat; lra).
  assert (0 <= dl * dl <= dl * / 10000) by (split; [apply Rmult_le_pos; lra | apply Rmult_le_compat_l; lra]). assert (a * b * (dl * dl) <= 20 * 20 * (dl * / 10000)) by (apply Rmult_le_compat; try lra; apply Rmult_le_pos; lra). lra.
Qed.
Lemma sqrt_low q : bpow radix2 (-314) <= q -> bpow radix2 (-157) <= sqrt q.
Proof. intros H. pose proof (bp (-157)). rewrite <- (sqrt_square (bpow radix2 (-157))) by lra. rewrite <- bpow_plus. apply sqrt_le_1_alt. exact H. Qed.
Lemma parts c n p : good_conf c -> good_step n p -> let X := s_h p / (s_eta c * s_width c) in
  0 < X /\ bpow radix2 (-314) <= dtv_fl c n p /\ bpow radix2 (-314) <= dta_fl c n p /\ bpow radix2 (-314) <= dtc_fl c p /\
  dtv_fl c n p * magnitude_fl n (s_vel p) <= (1 + 8 * dl) * X /\
  dta_fl c n p * dta_fl c n p * magnitude_fl n (vadd_fl (s_acc p) (s_gacc p)) <= (1 + 11 * dl) * X /\
  dtc_fl c p * (s_sig p * (1 + s_mc c * s_alpha c)) <= (1 + 11 * dl) * X.
Proof.
  intros G H X. destruct (dx_ok c n p G H) as [D1 D2]. fold X in D2. destruct (sig_ok c n p G H) as (S1 & S2 & S3). pose proof dl_small as D. pose proof (bp (-114)).
  assert (X0 : 0 < X) by (apply (Rmult_lt_reg_l (1 + 4 * dl)); lra). destruct G as (_ & _ & _ & _ & Ht & _). destruct H as (_ & Hv & Ha & _). pose proof (bpow_le radix2 100 199 ltac:(lia)).
  pose proof (magnitude_pos n (s_vel p)) as V0. pose proof (magnitude_pos n (vadd_fl (s_acc p) (s_gacc p))) as A0. split; [exact X0|]. unfold dtv_fl, dta_fl, dtc_fl.
  set (vn := magnitude_fl n (s_vel p)) in *. set (ac := magnitude_fl n (vadd_fl (s_acc p) (s_gacc p))) in *. clearbody vn ac. set (d := dx_fl c p) in *. clearbody d. set (m := s_sig p * (1 + s_mc c * s_alpha c)) in *. clearbody m X.
  destruct (den_ok vn (s_tiny c) ltac:(lra) Ht) as [V1 V2]. destruct (den_ok ac (s_tiny c) ltac:(lra) Ht) as [A1 A2].
  destruct (quo_ok d (rnd (vn + s_tiny c)) vn 1 D1 V1 V0 ltac:(lra) ltac:(lra)) as [V3 V4]. destruct (quo_ok d (rnd (ac + s_tiny c)) ac 1 D1 A1 A0 ltac:(lra) ltac:(lra)) as [A3 A4]. destruct (quo_ok d _ m 4 D1 S1 S2 ltac:(lra) S3) as [S4 S5].
  assert (GR : forall k, 0 <= k <= 8 -> (1 + k * dl) * d <= (1 + (k + 4 + / 10) * dl) * X).
  { intros k Hk. assert (0 <= k * dl) by (apply Rmult_le_pos; lra). eapply Rle_trans; [|apply (grow k 4 X); lra]. apply Rmult_le_compat_l; lra. }
  split; [exact V3|]. set (q := rnd (d / rnd (ac + s_tiny c))) in *. clearbody q. pose proof (sqrt_low q A3) as Q1. pose proof (bp (-314)). pose proof (bp (-157)). pose proof (sqrt_sqrt q ltac:(lra)) as Q2.
  split; [apply rnd_ge_bpow; [lia|]; pose proof (bpow_le radix2 (-314) (-157) ltac:(lia)); lra|]. split; [exact S4|].
  assert (UP : forall a b, a <= b -> (1 + a * dl) * X <= (1 + b * dl) * X) by (intros a b L; apply Rmult_le_compat_r; [lra|]; assert (a * dl <= b * dl) by (apply Rmult_le_compat_r; lra); lra).
  split; [eapply Rle_trans; [exact V4|]; eapply Rle_trans; [apply GR; lra | apply UP; lra]|]. split; [|eapply Rle_trans; [exact S5|]; eapply Rle_trans; [apply GR; lra | apply UP; lra]].
  pose proof (bpow_le radix2 (-901) (-157) ltac:(lia)). destruct (rel_err (sqrt q) ltac:(lra)) as [_ U]. assert (U0 : 0 <= rnd (sqrt q)) by (apply rnd_pos; lra).
  assert (U2 : rnd (sqrt q) * rnd (sqrt q) <= (1 + 1 * dl) * ((1 + 1 * dl) * q)) by (apply (Rle_trans _ ((1 + dl) * sqrt q * ((1 + dl) * sqrt q))); [apply Rmult_le_compat; lra | replace ((1 + dl) * sqrt q * ((1 + dl) * sqrt q)) with ((1 + 1 * dl) * ((1 + 1 * dl) * (sqrt q * sqrt q))) by ring; rewrite Q2; apply Rle_refl]).
  pose proof (grow 1 1 q ltac:(lra) ltac:(lra) ltac:(lra)) as U3. apply (Rle_trans _ ((1 + (1 + 1 + / 10) * dl) * q * ac)); [apply Rmult_le_compat_r; lra|]. rewrite Rmult_assoc.
  apply (Rle_trans _ ((1 + (1 + 1 + / 10) * dl) * ((1 + (1 + 2) * dl) * d))); [apply Rmult_le_compat_l; lra|]. eapply Rle_trans; [apply grow; lra|]. eapply Rle_trans; [apply GR; lra | apply UP; lra].
Qed.
Lemma dt_parts c n p : good_conf c -> good_step n p -> bpow radix2 (-334) <= dt_fl c n p /\ forall z, (z = dtv_fl c n p \/ z = dta_fl c n p \/ z = dtc_fl c p) -> dt_fl c n p <= (1 + 1 * dl) * (s_cfl c * z).
Proof.
  intros G H. destruct (parts c n p G H) as (_ & V & A & C & _). destruct G as (Hc & _). pose proof dl_small. pose proof (bp (-20)). pose proof (bp (-314)). unfold dt_fl.
  set (a := dtv_fl c n p) in *. set (b := dta_fl c n p) in *. set (e := dtc_fl c p) in *. set (M := Rmin (Rmin a b) e).
  assert (M1 : bpow radix2 (-314) <= M) by (unfold M; apply Rmin_glb; [apply Rmin_glb; assumption | assumption]).
  assert (M2 : M <= a /\ M <= b /\ M <= e) by (unfold M; pose proof (Rmin_l (Rmin a b) e); pose proof (Rmin_r (Rmin a b) e); pose proof (Rmin_l a b); pose proof (Rmin_r a b); lra). clearbody M.
  assert (P : bpow radix2 (-334) <= s_cfl c * M) by (change (-334)%Z with (-20 + -314)%Z; rewrite bpow_plus; apply Rmult_le_compat; lra). split; [apply rnd_ge_bpow; [lia | exact P]|].
  intros z Hz. pose proof (bpow_le radix2 (-901) (-334) ltac:(lia)). destruct (rel_err (s_cfl c * M) ltac:(lra)) as [_ U]. eapply Rle_trans; [exact U|]. rewrite Rmult_1_l. apply Rmult_le_compat_l; [lra|]. apply Rmult_le_compat_l; [lra|]. destruct Hz as [->|[->| ->]]; lra.
Qed.

(** The step is positive: it does not underflow. *)
Theorem C111_positive c n p : good_conf c -> good_step n p -> bpow radix2 (-334) <= dt_fl c n p.
Proof. intros G H. apply (dt_parts c n p G H). Qed.
(** In one step a particle, a signal, and a particle accelerated from rest go no further
    than the fraction cfl of the separation h / (eta width), up to 2e-13 of it. *)
Theorem C111_courant c n p : good_conf c -> good_step n p -> let X := s_h p / (s_eta c * s_width c) in
  magnitude_fl n (s_vel p) * dt_fl c n p <= (1 + 2 * / 10 ^ 13) * (s_cfl c * X) /\
  s_sig p * (1 + s_mc c * s_alpha c) * dt_fl c n p <= (1 + 2 * / 10 ^ 13) * (s_cfl c * X) /\
  magnitude_fl n (vadd_fl (s_acc p) (s_gacc p)) * dt_fl c n p ^ 2 <= (1 + 2 * / 10 ^ 13) * (s_cfl c ^ 2 * X).
Proof.
  intros G H X. destruct (parts c n p G H) as (X0 & V & A & C & V1 & A1 & C1). fold X in X0, V1, A1, C1. destruct (dt_parts c n p G H) as [T0 T]. pose proof (T _ (or_introl eq_refl)) as TV. pose proof (T _ (or_intror (or_introl eq_refl))) as TA. pose proof (T _ (or_intror (or_intror eq_refl))) as TC. clear T.
  destruct (sig_ok c n p G H) as (_ & S2 & _). pose proof (magnitude_pos n (s_vel p)) as V0. pose proof (magnitude_pos n (vadd_fl (s_acc p) (s_gacc p))) as A0. destruct G as (Hc & _). pose proof dl_small as D. pose proof (bp (-20)). pose proof (bp (-334)). pose proof (bp (-314)).
  set (dt := dt_fl c n p) in *. set (a := dtv_fl c n p) in *. set (b := dta_fl c n p) in *. set (e := dtc_fl c p) in *. clearbody dt a b e. set (vn := magnitude_fl n (s_vel p)) in *. set (ac := magnitude_fl n (vadd_fl (s_acc p) (s_gacc p))) in *. set (m := s_sig p * (1 + s_mc c * s_alpha c)) in *. clearbody vn ac m X. set (k := s_cfl c) in *. clearbody k.
  assert (LIN : forall z w, 0 <= w -> 0 < z -> dt <= (1 + 1 * dl) * (k * z) -> z * w <= (1 + 11 * dl) * X -> w * dt <= (1 + 2 * / 10 ^ 13) * (k * X)).
  { intros z w Hw Hz T1 T2. apply (Rle_trans _ (w * ((1 + 1 * dl) * (k * z)))); [apply Rmult_le_compat_l; assumption|]. replace (w * ((1 + 1 * dl) * (k * z))) with ((1 + 1 * dl) * (k * (z * w))) by ring.
    apply (Rle_trans _ ((1 + 1 * dl) * (k * ((1 + 11 * dl) * X)))); [apply Rmult_le_compat_l; [lra|]; apply Rmult_le_compat_l; lra|]. replace (k * ((1 + 11 * dl) * X)) with ((1 + 11 * dl) * (k * X)) by ring.
    assert (0 < k * X) by (apply Rmult_lt_0_compat; lra). eapply Rle_trans; [apply grow; lra|]. apply Rmult_le_compat_r; [lra|]. unfold dl. lra. }
  split; [|split].
  - apply (LIN a vn V0 ltac:(lra) TV). eapply Rle_trans; [exact V1|]. apply Rmult_le_compat_r; lra.
  - apply (LIN e m S2 ltac:(lra) TC C1).
  - assert (kX : 0 < k * k * X) by (repeat apply Rmult_lt_0_compat; lra). assert (kb : 0 < k * b) by (apply Rmult_lt_0_compat; lra). assert (T2 : dt * dt <= (1 + 1 * dl) * (k * b) * ((1 + 1 * dl) * (k * b))) by (apply Rmult_le_compat; lra).
    replace (ac * dt ^ 2) with (dt * dt * ac) by ring. apply (Rle_trans _ ((1 + 1 * dl) * (k * b) * ((1 + 1 * dl) * (k * b)) * ac)); [apply Rmult_le_compat_r; assumption|].
    replace ((1 + 1 * dl) * (k * b) * ((1 + 1 * dl) * (k * b)) * ac) with ((1 + 1 * dl) * ((1 + 1 * dl) * (k * k * (b * b * ac)))) by ring.
    assert (B : k * k * (b * b * ac) <= (1 + 11 * dl) * (k * k * X)) by (replace ((1 + 11 * dl) * (k * k * X)) with (k * k * ((1 + 11 * dl) * X)) by ring; apply Rmult_le_compat_l; [apply Rmult_le_pos; lra | exact A1]).
    apply (Rle_trans _ ((1 + 1 * dl) * ((1 + 1 * dl) * ((1 + 11 * dl) * (k * k * X))))); [apply Rmult_le_compat_l; [lra|]; apply Rmult_le_compat_l; lra|].
    apply (Rle_trans _ ((1 + 1 * dl) * ((1 + (1 + 11 + / 10) * dl) * (k * k * X)))); [apply Rmult_le_compat_l; [lra|]; apply grow; lra|]. eapply Rle_trans; [apply grow; lra|].
    replace (k ^ 2 * X) with (k * k * X) by ring. apply Rmult_le_compat_r; [lra|]. unfold dl. lra.
Qed.
(** A particle that is faster, more accelerated, or has the larger signal speed never gets
    the longer step, whatever the rounding; nor does one with the smaller radius. *)
Theorem C111_monotone c n p p' : good_conf c -> good_step n p -> good_step n p' -> s_h p' <= s_h p ->
  magnitude_fl n (s_vel p) <= magnitude_fl n (s_vel p') -> magnitude_fl n (vadd_fl (s_acc p) (s_gacc p)) <= magnitude_fl n (vadd_fl (s_acc p') (s_gacc p')) -> s_sig p <= s_sig p' ->
  dt_fl c n p' <= dt_fl c n p.
Proof.
  intros G H H' Hh Hv Ha Hs. destruct (dx_ok c n p G H) as [D1 _]. destruct (dx_ok c n p' G H') as [D1' _]. destruct (sig_ok c n p G H) as (S1 & _). pose proof G as (Hc & He & Hw & Hal & Ht & Hm). pose proof (bp (-114)). pose proof (bp (-80)). pose proof (bp (-20)). pose proof (bp (-10)). pose proof (bp (-100)). pose proof (bpow_le radix2 100 199 ltac:(lia)).
  assert (QUO : forall x x' y y', 0 <= x' <= x -> 0 < y <= y' -> rnd (x' / y') <= rnd (x / y)).
  { intros x x' y y' X Y. apply rnd_le. apply Rmult_le_compat; [lra | left; apply Rinv_0_lt_compat; lra | lra | apply Rinv_le_contravar; lra]. }
  assert (W : 0 < rnd (s_eta c * s_width c)).
  { pose proof (rnd_ge_bpow (s_eta c * s_width c) (-10) ltac:(lia)) as B. assert (bpow radix2 (-10) <= s_eta c * s_width c) by (rewrite <- (Rmult_1_r (bpow radix2 (-10))); apply Rmult_le_compat; lra). specialize (B ltac:(assumption)). lra. }
  assert (DX : dx_fl c p' <= dx_fl c p) by (unfold dx_fl; apply QUO; [destruct H' as [B _]; lra | lra]).
  assert (DEN : forall m, 0 <= m <= bpow radix2 100 -> 0 < rnd (m + s_tiny c)) by (intros m Hm'; destruct (den_ok m (s_tiny c) ltac:(lra) Ht) as [B _]; lra).
  pose proof (magnitude_pos n (s_vel p)) as V0. pose proof (magnitude_pos n (vadd_fl (s_acc p) (s_gacc p))) as A0.
  unfold dt_fl. apply rnd_le, Rmult_le_compat_l; [lra|].
  assert (V : dtv_fl c n p' <= dtv_fl c n p) by (unfold dtv_fl; apply QUO; [lra | split; [apply DEN; split; [exact V0 | apply H] | apply rnd_le; lra]]).
  assert (A : dta_fl c n p' <= dta_fl c n p) by (unfold dta_fl; apply rnd_le, sqrt_le_1_alt, QUO; [lra | split; [apply DEN; split; [exact A0 | apply H] | apply rnd_le; lra]]).
  assert (C : dtc_fl c p' <= dtc_fl c p).
  { unfold dtc_fl. apply QUO; [lra|]. split; [lra|]. apply rnd_le, Rplus_le_compat_l, rnd_le, Rmult_le_compat_r; [apply rnd_pos; assert (0 <= rnd (s_mc c * s_alpha c)) by (apply rnd_pos, Rmult_le_pos; lra); lra | exact Hs]. }
  apply Rmin_glb; [apply Rmin_glb|]; pose proof (Rmin_l (Rmin (dtv_fl c n p') (dta_fl c n p')) (dtc_fl c p')); pose proof (Rmin_r (Rmin (dtv_fl c n p') (dta_fl c n p')) (dtc_fl c p')); pose proof (Rmin_l (dtv_fl c n p') (dta_fl c n p')); pose proof (Rmin_r (dtv_fl c n p') (dta_fl c n p')); lra.
Qed.

(** ** the step is not too short either *)
Lemma low_quo X x D0 d a b : 0 < X -> 0 < D0 -> 0 <= a <= 10 -> 0 <= b <= 10 -> (1 - a * dl) * X <= x -> 0 < d <= (1 + b * dl) * D0 -> bpow radix2 (-901) <= x / d ->
  (1 - (a + b + 1) * dl) * (X / D0) <= rnd (x / d).
Proof.
  intros HX HD Ha Hb Hx Hd L. pose proof dl_small as D. destruct (rel_err (x / d) L) as [E _]. eapply Rle_trans; [|exact E]. set (Y := X / D0). assert (EY : Y * D0 = X) by (unfold Y; field; lra). assert (Y0 : 0 < Y) by (apply Rmult_lt_0_compat; [lra | apply Rinv_0_lt_compat; lra]). clearbody Y.
  assert (e1 : 0 <= a * dl <= 10 * dl) by (split; [apply Rmult_le_pos; lra | apply Rmult_le_compat_r; lra]). assert (e2 : 0 <= b * dl <= 10 * dl) by (split; [apply Rmult_le_pos; lra | apply Rmult_le_compat_r; lra]).
  replace ((a + b + 1) * dl) with (a * dl + b * dl + dl) by ring. set (A := a * dl) in *. set (B := b * dl) in *. clearbody A B.
  assert (Q : (1 - (A + B)) * Y <= x / d).
  { apply (Rmult_le_reg_r d); [lra|]. replace (x / d * d) with x by (field; lra). eapply Rle_trans; [|exact Hx]. apply (Rle_trans _ ((1 - (A + B)) * Y * ((1 + B) * D0))); [apply Rmult_le_compat_l; [apply Rmult_le_pos; lra | lra]|].
    replace ((1 - (A + B)) * Y * ((1 + B) * D0)) with ((1 - A - B * (A + B)) * X) by (rewrite <- EY; ring). apply Rmult_le_compat_r; [lra|]. assert (0 <= B * (A + B)) by (apply Rmult_le_pos; lra). lra. }
  apply (Rle_trans _ ((1 - dl) * ((1 - (A + B)) * Y))); [|apply Rmult_le_compat_l; lra]. rewrite <- Rmult_assoc. apply Rmult_le_compat_r; [lra|]. assert (0 <= dl * (A + B)) by (apply Rmult_le_pos; lra). lra.
Qed.
Lemma rnd_up x t : 0 <= x -> bpow radix2 (-901) <= t -> rnd x <= (1 + dl) * x + t.
Proof.
  intros Hx Ht. pose proof dl_small as D. assert (0 <= dl * x) by (apply Rmult_le_pos; lra). destruct (Rle_lt_dec (bpow radix2 (-901)) x) as [L|L]; [destruct (rel_err x L) as [_ E]; pose proof (bp (-901)); lra|].
  pose proof (rnd_le_bpow x (-901) ltac:(lia) ltac:(lra)). lra.
Qed.
Lemma tiny_dl t : bpow radix2 (-80) <= t -> bpow radix2 (-901) <= dl * t.
Proof.
  intros H. apply (Rle_trans _ (bpow radix2 (-60 + -80))); [apply bpow_le; lia|]. rewrite bpow_plus. pose proof (bp (-60)). pose proof (bp (-80)). pose proof bpow_m60. unfold dl. apply Rmult_le_compat; lra.
Qed.
(** The step is the fraction cfl of the shortest of the three times, computed exactly from
    the norms, up to 2e-13. *)
Theorem C111_lower c n p : good_conf c -> good_step n p -> let X := s_h p / (s_eta c * s_width c) in
  (1 - 2 * / 10 ^ 13) * (s_cfl c * Rmin (Rmin (X / (magnitude_fl n (s_vel p) + s_tiny c)) (sqrt (X / (magnitude_fl n (vadd_fl (s_acc p) (s_gacc p)) + s_tiny c)))) (X / (s_tiny c + s_sig p * (1 + s_mc c * s_alpha c)))) <= dt_fl c n p.
Proof.
  intros G H X. pose proof dl_small as D. destruct (dx_ok c n p G H) as [D1 _]. destruct (sig_ok c n p G H) as (S1 & S2 & _). destruct (parts c n p G H) as (X0 & PV & PA & PC & _). fold X in X0. destruct G as (Hc & He & Hw & Hal & Ht & Hmc). destruct H as (Hh & Hv & Hac & Hs).
  pose proof (bp (-10)). pose proof (bp (-100)). pose proof (bp (-80)). pose proof (bp (-114)). pose proof (bp (-314)). pose proof (bp (-20)). pose proof (bpow_le radix2 100 199 ltac:(lia)). pose proof (bpow_le radix2 (-901) (-314) ltac:(lia)). pose proof (bpow_le radix2 (-901) (-80) ltac:(lia)). pose proof (bp (-901)).
  pose proof (tiny_dl (s_tiny c) ltac:(lra)) as TD. assert (S9 : bpow radix2 (-901) <= dl) by (pose proof (tiny_dl 1 ltac:(rewrite <- bpow_0; apply bpow_le; lia)); lra).
  assert (DX : (1 - 2 * dl) * X <= dx_fl c p).
  { rewrite <- bpow_0, <- bpow_3 in Hw. pose proof (mul_range (s_eta c) (s_width c) (-10) 10 0 3 He Hw) as M. change (-10 + 0)%Z with (-10)%Z in M. change (10 + 3)%Z with 13%Z in M. pose proof (rnd_range _ (-10) 13 ltac:(lia) ltac:(lia) M) as M'.
    pose proof (bpow_le radix2 (-901) (-10) ltac:(lia)). destruct (rel_err (s_eta c * s_width c) ltac:(lra)) as [_ E]. unfold dx_fl. replace 2 with (0 + 1 + 1) by ring. apply low_quo; try lra.
    apply (Rle_trans _ (bpow radix2 (-113))); [apply bpow_le; lia|]. apply (quo_low _ _ (-100) 13 (-113)); [lra | lra | reflexivity]. }
  assert (LQ : forall m b Dm, bpow radix2 (-80) <= m <= bpow radix2 200 -> 0 < Dm -> 0 <= b <= 10 -> m <= (1 + b * dl) * Dm -> (1 - (2 + b + 1) * dl) * (X / Dm) <= rnd (dx_fl c p / m)).
  { intros m b Dm Hm HD Hb Hu. apply low_quo; try lra. apply (Rle_trans _ (bpow radix2 (-314))); [lra|]. apply (quo_low _ _ (-114) 200 (-314)); [lra | lra | reflexivity]. }
  pose proof (magnitude_pos n (s_vel p)) as V0. pose proof (magnitude_pos n (vadd_fl (s_acc p) (s_gacc p))) as A0.
  destruct (den_ok (magnitude_fl n (s_vel p)) (s_tiny c) ltac:(lra) Ht) as [V1 _]. destruct (den_ok (magnitude_fl n (vadd_fl (s_acc p) (s_gacc p))) (s_tiny c) ltac:(lra) Ht) as [A1 _].
  assert (LV : (1 - 10 * dl) * (X / (magnitude_fl n (s_vel p) + s_tiny c)) <= dtv_fl c n p).
  { destruct (rel_err (magnitude_fl n (s_vel p) + s_tiny c) ltac:(lra)) as [_ E]. unfold dtv_fl. set (z := magnitude_fl n (s_vel p) + s_tiny c) in *. assert (z0 : 0 < z) by (unfold z; lra). eapply Rle_trans; [|apply (LQ _ 1 z V1 z0 ltac:(lra)); lra].
    apply Rmult_le_compat_r; [left; apply Rmult_lt_0_compat; [lra | apply Rinv_0_lt_compat; lra] | lra]. }
  assert (LA : (1 - 10 * dl) * sqrt (X / (magnitude_fl n (vadd_fl (s_acc p) (s_gacc p)) + s_tiny c)) <= dta_fl c n p).
  { destruct (rel_err (magnitude_fl n (vadd_fl (s_acc p) (s_gacc p)) + s_tiny c) ltac:(lra)) as [_ E]. unfold dta_fl. set (z := magnitude_fl n (vadd_fl (s_acc p) (s_gacc p)) + s_tiny c) in *. assert (z0 : 0 < z) by (unfold z; lra).
    pose proof (LQ _ 1 z A1 z0 ltac:(lra) ltac:(lra)) as Q. destruct (quo_ok (dx_fl c p) (rnd z) 0 1 D1 A1 ltac:(lra) ltac:(lra) ltac:(lra)) as [Q3 _]. set (q := rnd (dx_fl c p / rnd z)) in *. clearbody q.
    pose proof (sqrt_low q Q3) as Q4. pose proof (bpow_le radix2 (-901) (-157) ltac:(lia)). destruct (rel_err (sqrt q) ltac:(lra)) as [U _]. eapply Rle_trans; [|exact U].
    assert (Y0 : 0 < X / z) by (apply Rmult_lt_0_compat; [lra | apply Rinv_0_lt_compat; lra]). set (Y := X / z) in *. clearbody Y. pose proof (sqrt_pos Y) as YS.
    assert (R : (1 - 4 * dl) * sqrt Y <= sqrt q).
    { rewrite <- (sqrt_square (1 - 4 * dl)) by lra. rewrite <- sqrt_mult_alt by (apply Rmult_le_pos; lra). apply sqrt_le_1_alt. eapply Rle_trans; [|exact Q]. apply Rmult_le_compat_r; [lra|]. assert (0 <= dl * (1 - 4 * dl)) by (apply Rmult_le_pos; lra). lra. }
    apply (Rle_trans _ ((1 - dl) * ((1 - 4 * dl) * sqrt Y))); [|apply Rmult_le_compat_l; lra]. rewrite <- Rmult_assoc. apply Rmult_le_compat_r; [exact YS|]. assert (0 <= dl * dl) by (apply Rmult_le_pos; lra). lra. }
  assert (LC : (1 - 10 * dl) * (X / (s_tiny c + s_sig p * (1 + s_mc c * s_alpha c))) <= dtc_fl c p).
  { unfold dtc_fl. set (x := s_mc c * s_alpha c) in *. assert (x0 : 0 <= x) by (unfold x; apply Rmult_le_pos; lra). set (m := s_sig p * (1 + x)) in *. set (t := s_tiny c) in *. set (v := s_sig p * rnd (1 + rnd x)) in *.
    assert (D2 : 0 <= dl * dl <= dl * / 10000) by (split; [apply Rmult_le_pos; lra | apply Rmult_le_compat_l; lra]).
    assert (x1 : 1 + rnd x <= (1 + dl) * (1 + x)) by (pose proof (rnd_up x dl x0 S9); lra). assert (xp : 0 <= rnd x) by (apply rnd_pos; lra). destruct (rel_err (1 + rnd x) ltac:(pose proof one_ok; lra)) as [_ A2].
    assert (A3 : rnd (1 + rnd x) <= (1 + 3 * dl) * (1 + x)).
    { eapply Rle_trans; [exact A2|]. apply (Rle_trans _ ((1 + dl) * ((1 + dl) * (1 + x)))); [apply Rmult_le_compat_l; lra|]. rewrite <- Rmult_assoc. apply Rmult_le_compat_r; lra. }
    assert (v0 : 0 <= v) by (unfold v; apply Rmult_le_pos; [lra | apply rnd_pos; lra]). assert (v1 : v <= (1 + 3 * dl) * m) by (unfold v, m; replace ((1 + 3 * dl) * (s_sig p * (1 + x))) with (s_sig p * ((1 + 3 * dl) * (1 + x))) by ring; apply Rmult_le_compat_l; lra).
    pose proof (rnd_up v (dl * t) v0 TD) as W. assert (w0 : 0 <= rnd v) by (apply rnd_pos; lra). destruct (rel_err (t + rnd v) ltac:(lra)) as [_ E].
    assert (m1 : 0 <= dl * m) by (apply Rmult_le_pos; lra). assert (m2 : dl * (dl * m) <= / 10000 * (dl * m)) by (apply Rmult_le_compat_r; lra). assert (W1 : (1 + dl) * v <= (1 + dl) * ((1 + 3 * dl) * m)) by (apply Rmult_le_compat_l; lra).
    assert (W2 : t + rnd v <= (1 + 5 * dl) * (t + m)) by lra. assert (W3 : (1 + dl) * (t + rnd v) <= (1 + dl) * ((1 + 5 * dl) * (t + m))) by (apply Rmult_le_compat_l; lra).
    assert (W4 : rnd (t + rnd v) <= (1 + 7 * dl) * (t + m)).
    { eapply Rle_trans; [exact E|]. eapply Rle_trans; [exact W3|]. rewrite <- Rmult_assoc. apply Rmult_le_compat_r; lra. }
    pose proof (LQ _ 7 (t + m) S1 ltac:(lra) ltac:(lra) W4) as Q. replace (2 + 7 + 1) with 10 in Q by ring. exact Q. }
  unfold dt_fl. set (a := X / (magnitude_fl n (s_vel p) + s_tiny c)) in *. set (b := sqrt (X / (magnitude_fl n (vadd_fl (s_acc p) (s_gacc p)) + s_tiny c))) in *. set (e := X / (s_tiny c + s_sig p * (1 + s_mc c * s_alpha c))) in *.
  set (M := Rmin (Rmin (dtv_fl c n p) (dta_fl c n p)) (dtc_fl c p)). set (N := Rmin (Rmin a b) e).
  assert (N3 : N <= a /\ N <= b /\ N <= e) by (unfold N; pose proof (Rmin_l (Rmin a b) e); pose proof (Rmin_r (Rmin a b) e); pose proof (Rmin_l a b); pose proof (Rmin_r a b); lra).
  assert (N0 : 0 <= N).
  { unfold N. assert (I : forall z, 0 < z -> 0 <= X / z) by (intros z Hz; left; apply Rmult_lt_0_compat; [lra | apply Rinv_0_lt_compat; lra]). apply Rmin_glb; [apply Rmin_glb; [apply I; lra | apply sqrt_pos] | apply I; lra]. }
  assert (MM : (1 - 10 * dl) * N <= M).
  { assert (K : forall z, N <= z -> (1 - 10 * dl) * N <= (1 - 10 * dl) * z) by (intros z Hz; apply Rmult_le_compat_l; lra). destruct N3 as (K1 & K2 & K3). apply K in K1, K2, K3. unfold M. apply Rmin_glb; [apply Rmin_glb|]; lra. }
  assert (M0 : bpow radix2 (-314) <= M) by (unfold M; apply Rmin_glb; [apply Rmin_glb|]; assumption). clearbody M N.
  assert (P : bpow radix2 (-334) <= s_cfl c * M) by (change (-334)%Z with (-20 + -314)%Z; rewrite bpow_plus; apply Rmult_le_compat; lra). pose proof (bpow_le radix2 (-901) (-334) ltac:(lia)). destruct (rel_err (s_cfl c * M) ltac:(lra)) as [U _].
  eapply Rle_trans; [|exact U]. apply (Rle_trans _ ((1 - dl) * (s_cfl c * ((1 - 10 * dl) * N)))); [|apply Rmult_le_compat_l; [lra|]; apply Rmult_le_compat_l; lra].
  replace ((1 - dl) * (s_cfl c * ((1 - 10 * dl) * N))) with ((1 - dl) * (1 - 10 * dl) * (s_cfl c * N)) by ring. apply Rmult_le_compat_r; [apply Rmult_le_pos; lra|]. assert (0 <= dl * dl) by (apply Rmult_le_pos; lra). replace (2 * / 10 ^ 13) with (20 * dl) by (unfold dl; field). lra.
Qed.

(** *** Example: unit radius, velocity, acceleration and signal speed in one dimension *)
Definition c111 : sconf := SConf (1 / 4) (3 / 2) 2 1 (bpow radix2 (-80)) (1 / 2).
Definition p111 (v : R) : spart := SPart 1 (fun _ => v) (fun _ => 1) (fun _ => 0) 1.
Example C111_case : good_conf c111 /\ good_step 1 (p111 1) /\ good_step 1 (p111 2) /\ magnitude_fl 1 (s_vel (p111 1)) < magnitude_fl 1 (s_vel (p111 2)).
Proof.
  assert (B20 : bpow radix2 (-20) <= 1 / 4) by (replace (1 / 4) with (bpow radix2 (-1 + -1)) by (rewrite bpow_plus, bpow_m1; field); apply bpow_le; lia).
  assert (B10 : bpow radix2 (-10) <= 1) by (rewrite <- bpow_0; apply bpow_le; lia). assert (C10 : 2 <= bpow radix2 10) by (rewrite <- bpow_1'; apply bpow_le; lia).
  assert (B50 : 1 <= bpow radix2 50) by (rewrite <- bpow_0; apply bpow_le; lia). assert (B80 : bpow radix2 (-80) <= 1) by (rewrite <- bpow_0; apply bpow_le; lia).
  assert (B100 : bpow radix2 (-100) <= 1) by (rewrite <- bpow_0; apply bpow_le; lia). assert (C100 : 2 <= bpow radix2 100) by (rewrite <- bpow_1'; apply bpow_le; lia).
  assert (E : rnd (1 + 0) = 1) by (rewrite Rplus_0_r; apply rnd_1).
  unfold good_conf, good_step. cbn [s_cfl s_eta s_width s_alpha s_tiny s_mc c111 s_h s_vel s_acc s_gacc s_sig p111 magnitude_fl]. unfold vadd_fl. rewrite E, Rabs_R1, (Rabs_pos_eq 2) by lra. lra.
Qed.
Print Assumptions C111_positive.
Print Assumptions C111_courant.
Print Assumptions C111_monotone.
Print Assumptions C111_lower.
