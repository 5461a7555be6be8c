(** C109: the density in double precision. *)
From Coq Require Import Reals Lra Permutation.
From Flocq Require Import Core Relative Plus_error.
From Verif Require Import Base Vec Range_model FCell_model FCell_lemmas FSearch_model FSearch_lemmas FForce_model FDens_model.
Local Open Scope R_scope.

Lemma ltb_dec a b : (Rlt_b a b = true /\ a < b) \/ (Rlt_b a b = false /\ b <= a).
Proof. unfold Rlt_b. destruct (Rlt_dec a b); [left|right]; split; auto; lra. Qed.
Lemma rnd_1 : rnd 1 = 1. Proof. apply rnd_id, fmt_1. Qed.
Lemma bpow_0 : bpow radix2 0 = 1. Proof. reflexivity. Qed.
Lemma bpow_1' : bpow radix2 1 = 2. Proof. reflexivity. Qed.
Lemma bpow_3 : bpow radix2 3 = 8. Proof. reflexivity. Qed.
Lemma bpow_m1 : bpow radix2 (-1) = / 2. Proof. reflexivity. Qed.
Local Opaque bpow.
Lemma fmt_2 : generic_format radix2 dexp 2. Proof. rewrite <- bpow_1'. apply fmt_bpow. lia. Qed.

(** Doubles of moderate size, a kernel with its constants, and a pow that is not wrong
    by more than a factor of two. *)
Definition moderate (x : R) : Prop := generic_format radix2 dexp x /\ bpow radix2 (-300) <= x <= bpow radix2 300.
Definition good_kernel (k : dkern) : Prop :=
  (forall n, generic_format radix2 dexp (dk_sigma k n) /\ 1 <= dk_sigma k n <= 8) /\
  (forall h n, bpow radix2 (-300) <= h <= bpow radix2 300 -> (1 <= n <= 3)%nat -> h ^ n / 2 <= dk_pow k h n <= 2 * h ^ n).
Definition good_part (p : fpart) : Prop := moderate (f_h p) /\ generic_format radix2 dexp (f_m p) /\ bpow radix2 (-90) <= f_m p.

Lemma bp e : 0 < bpow radix2 e. Proof. apply bpow_gt_0. Qed.
Lemma rnd_ge_bpow x e : (-1074 <= e)%Z -> bpow radix2 e <= x -> bpow radix2 e <= rnd x.
Proof. intros He H. rewrite <- (rnd_id (bpow radix2 e)) by (apply fmt_bpow; exact He). apply rnd_le, H. Qed.
Lemma rnd_le_bpow x e : (-1074 <= e)%Z -> x <= bpow radix2 e -> rnd x <= bpow radix2 e.
Proof. intros He H. rewrite <- (rnd_id (bpow radix2 e)) by (apply fmt_bpow; exact He). apply rnd_le, H. Qed.
Lemma mul_range x y a b c d : bpow radix2 a <= x <= bpow radix2 b -> bpow radix2 c <= y <= bpow radix2 d -> bpow radix2 (a + c) <= x * y <= bpow radix2 (b + d).
Proof.
  intros Hx Hy. rewrite !bpow_plus. pose proof (bp a). pose proof (bp c). split; apply Rmult_le_compat; lra.
Qed.
Lemma rnd_range x a b : (-1074 <= a)%Z -> (-1074 <= b)%Z -> bpow radix2 a <= x <= bpow radix2 b -> bpow radix2 a <= rnd x <= bpow radix2 b.
Proof. intros Ha Hb H. split; [apply rnd_ge_bpow | apply rnd_le_bpow]; tauto. Qed.

(** the volume by which a kernel divides *)
Lemma hd_range n h : (1 <= n <= 3)%nat -> bpow radix2 (-300) <= h <= bpow radix2 300 -> bpow radix2 (-901) <= hd_fl n h <= bpow radix2 901.
Proof.
  intros Hn Hh. assert (W : forall a b x, (-901 <= a)%Z -> (b <= 901)%Z -> bpow radix2 a <= x <= bpow radix2 b -> bpow radix2 (-901) <= x <= bpow radix2 901).
  { intros a b x Ha Hb Hx. pose proof (bpow_le radix2 (-901) a ltac:(lia)). pose proof (bpow_le radix2 b 901 ltac:(lia)). lra. }
  pose proof (rnd_range _ (-600) 600 ltac:(lia) ltac:(lia) (mul_range h h _ _ _ _ Hh Hh)) as H2.
  pose proof (rnd_range _ (-900) 900 ltac:(lia) ltac:(lia) (mul_range _ h _ _ _ _ H2 Hh)) as H3.
  destruct n as [|[|[|n]]]; try lia; cbn [hd_fl]; [apply (W (-300)%Z 300%Z _ ltac:(lia) ltac:(lia) Hh) | apply (W (-600)%Z 600%Z _ ltac:(lia) ltac:(lia) H2) | apply (W (-900)%Z 900%Z _ ltac:(lia) ltac:(lia) H3)].
Qed.
Lemma pow_range k n h : good_kernel k -> (1 <= n <= 3)%nat -> bpow radix2 (-300) <= h <= bpow radix2 300 -> bpow radix2 (-901) <= dk_pow k h n <= bpow radix2 901.
Proof.
  intros [_ G] Hn Hh. specialize (G h n Hh Hn). pose proof (bp (-300)).
  assert (P : bpow radix2 (-900) <= h ^ n <= bpow radix2 900).
  { pose proof (mul_range h h (-300) 300 (-300) 300 Hh Hh) as H2. pose proof (mul_range _ h _ _ _ _ H2 Hh) as H3.
    assert (L : forall a b x, (-900 <= a)%Z -> (b <= 900)%Z -> bpow radix2 a <= x <= bpow radix2 b -> bpow radix2 (-900) <= x <= bpow radix2 900).
    { intros a b x Ha Hb Hx. pose proof (bpow_le radix2 (-900) a ltac:(lia)). pose proof (bpow_le radix2 b 900 ltac:(lia)). lra. }
    destruct n as [|[|[|[|n]]]]; try lia; cbn [pow]; [replace (h * 1) with h by ring; apply (L _ _ _ (ltac:(lia) : (-900 <= -300)%Z) (ltac:(lia) : (300 <= 900)%Z) Hh) | replace (h * (h * 1)) with (h * h) by ring; apply (L _ _ _ (ltac:(lia) : (-900 <= -300 + -300)%Z) (ltac:(lia) : (300 + 300 <= 900)%Z) H2) | replace (h * (h * (h * 1))) with (h * h * h) by ring; apply (L _ _ _ (ltac:(lia) : (-900 <= -300 + -300 + -300)%Z) (ltac:(lia) : (300 + 300 + 300 <= 900)%Z) H3)]. }
  replace (bpow radix2 (-901)) with (bpow radix2 (-900) / 2) by (change (-901)%Z with (-900 + -1)%Z; rewrite bpow_plus; rewrite bpow_m1; reflexivity).
  replace (bpow radix2 901) with (2 * bpow radix2 900) by (change 901%Z with (1 + 900)%Z; rewrite bpow_plus, bpow_1'; reflexivity). lra.
Qed.
Lemma over_range s v : 1 <= s <= 8 -> bpow radix2 (-901) <= v <= bpow radix2 901 -> bpow radix2 (-901) <= rnd (s / v) <= bpow radix2 904.
Proof.
  intros Hs Hv. apply rnd_range; try lia. pose proof (bp (-901)). pose proof (bp 901). unfold Rdiv.
  assert (I : bpow radix2 (-901) <= / v <= bpow radix2 901).
  { split; [change (-901)%Z with (- (901))%Z; rewrite bpow_opp | change 901%Z with (- (-901))%Z; rewrite bpow_opp]; apply Rinv_le_contravar; lra. }
  change (-901)%Z with (0 + -901)%Z. change 904%Z with (3 + 901)%Z. apply mul_range; [rewrite bpow_0, bpow_3; exact Hs | exact I].
Qed.
Definition front (k : dkern) (n : nat) (h : R) : R := rnd (dk_sigma k n / match dk_kind k with DCubic => dk_pow k h n | _ => hd_fl n h end).
Lemma front_range k n h : good_kernel k -> (1 <= n <= 3)%nat -> bpow radix2 (-300) <= h <= bpow radix2 300 -> bpow radix2 (-901) <= front k n h <= bpow radix2 904.
Proof.
  intros G Hn Hh. unfold front. destruct G as [S G]. destruct (S n) as [_ Hs]. apply over_range; [exact Hs|].
  destruct (dk_kind k); [apply (pow_range k n h (conj S G) Hn Hh)|..]; apply hd_range; assumption.
Qed.

(** ** the kernels *)
Lemma cubic_inner x : 0 <= x < 1 -> 0 <= rnd (rnd (1 - rnd (rnd (15 / 10 * x) * x)) + rnd (rnd (rnd (75 / 100 * x) * x) * x)).
Proof.
  intros Hx. apply rnd_pos. assert (Q0 : x * x <= x) by nra. assert (Q1 : 0 <= (1 - x) * (1 + x - x * x)) by (apply Rmult_le_pos; lra).
  assert (Q : 1 - 15 / 10 * x * x + 75 / 100 * x * x * x >= 25 / 100) by lra. clear Q0 Q1. set (e := / 1000000). assert (U : u53 <= e) by apply u53_small. pose proof u53_pos as UP. pose proof tau_pos as TP.
  assert (T : tau <= e) by (pose proof tau_small; pose proof eta_small; unfold e; lra).
  assert (E : forall y, Rabs y <= 3 -> Rabs (rnd y - y) <= 4 * e).
  { intros y Hy. pose proof (rnd_err y). pose proof (Rabs_pos y). assert (u53 * Rabs y <= e * 3) by (apply Rmult_le_compat; lra). lra. }
  assert (B : forall y, Rabs y <= 3 -> y - 4 * e <= rnd y <= y + 4 * e) by (intros y Hy; pose proof (E y Hy) as H; apply Rabs_le_inv in H; lra).
  assert (A : forall y, -3 <= y <= 3 -> Rabs y <= 3) by (intros y Hy; apply Rabs_le; lra).
  assert (HE : e = / 1000000) by reflexivity. clearbody e.
  assert (MX : forall y z d, 0 <= d -> z - d <= y <= z + d -> z * x - d <= y * x <= z * x + d).
  { intros y z d Hd [H1 H2]. assert (d * x <= d * 1) by (apply Rmult_le_compat_l; lra). pose proof (Rmult_le_compat_r x _ _ (proj1 Hx) H1). pose proof (Rmult_le_compat_r x _ _ (proj1 Hx) H2). lra. }
  assert (UB : forall y c, 0 <= y <= c -> 0 <= y * x <= c).
  { intros y c [H1 H2]. split; [apply Rmult_le_pos; lra|]. assert (y * x <= c * 1) by (apply Rmult_le_compat; lra). lra. }
  assert (E0 : 0 < e < / 1000) by (rewrite HE; lra).
  pose proof (B (15 / 10 * x) ltac:(apply A; lra)) as B1. assert (P1 : 0 <= rnd (15 / 10 * x)) by (apply rnd_pos; lra). set (a1 := rnd (15 / 10 * x)) in *. clearbody a1.
  pose proof (MX _ _ (4 * e) ltac:(lra) B1) as M1. pose proof (UB a1 2 ltac:(lra)) as U1. pose proof (B (a1 * x) ltac:(apply A; lra)) as B2. set (a2 := rnd (a1 * x)) in *. clearbody a2.
  pose proof (B (1 - a2) ltac:(apply A; lra)) as B3. set (a3 := rnd (1 - a2)) in *. clearbody a3.
  pose proof (B (75 / 100 * x) ltac:(apply A; lra)) as B4. assert (P4 : 0 <= rnd (75 / 100 * x)) by (apply rnd_pos; lra). set (a4 := rnd (75 / 100 * x)) in *. clearbody a4.
  pose proof (MX _ _ (4 * e) ltac:(lra) B4) as M4. pose proof (UB a4 1 ltac:(lra)) as U4. pose proof (B (a4 * x) ltac:(apply A; lra)) as B5. assert (P5 : 0 <= rnd (a4 * x)) by (apply rnd_pos; lra). set (a5 := rnd (a4 * x)) in *. clearbody a5.
  pose proof (MX a5 (75 / 100 * x * x) (8 * e) ltac:(lra) ltac:(lra)) as M5. pose proof (UB a5 2 ltac:(lra)) as U5.
  pose proof (B (a5 * x) ltac:(apply A; lra)) as B6. set (a6 := rnd (a5 * x)) in *. clearbody a6. lra.
Qed.
Ltac pos := repeat first [assumption | apply rnd_pos | apply Rmult_le_pos | apply Rplus_le_le_0_compat | lra].
Lemma W_nonneg k n r h : good_kernel k -> (1 <= n <= 3)%nat -> 0 <= r -> bpow radix2 (-300) <= h <= bpow radix2 300 -> 0 <= W_fl k n r h.
Proof.
  intros G Hn Hr Hh. pose proof (front_range k n h G Hn Hh) as F. pose proof (bp (-901)). pose proof (bp (-300)). assert (F0 : 0 <= front k n h) by lra. clear F.
  assert (Hq : 0 <= rnd (r / h)) by (apply rnd_pos; apply Rmult_le_pos; [exact Hr | left; apply Rinv_0_lt_compat; lra]).
  unfold W_fl. unfold front in F0. destruct (dk_kind k) eqn:Ek.
  - unfold W_cubic_fl. assert (H2 : 0 <= rnd (rnd (2 * r) / h)) by (apply rnd_pos; apply Rmult_le_pos; [apply rnd_pos; lra | left; apply Rinv_0_lt_compat; lra]).
    cbv zeta. set (rh := rnd (rnd (2 * r) / h)) in *. destruct (ltb_dec rh 2) as [[-> L2]|[-> L2]]; [|lra]. destruct (ltb_dec rh 1) as [[-> L1]|[-> L1]].
    + apply rnd_pos, Rmult_le_pos; [apply cubic_inner; lra | exact F0].
    + assert (0 <= rnd (2 - rh)) by (apply rnd_pos; lra). pos.
  - unfold W_c2_fl. cbv zeta. set (rh := rnd (r / h)) in *. destruct (ltb_dec rh 1) as [[-> L1]|[-> L1]]; cbn [b2r_fl]; [|rewrite Rmult_0_r, rnd_0; lra].
    assert (0 <= rnd (1 - rh)) by (apply rnd_pos; lra). destruct n as [|[|n]]; pos.
  - unfold W_c4_fl. cbv zeta. set (rh := rnd (r / h)) in *. destruct (ltb_dec rh 1) as [[-> L1]|[-> L1]]; cbn [b2r_fl]; [|rewrite Rmult_0_r, rnd_0; lra].
    assert (0 <= rnd (1 - rh)) by (apply rnd_pos; lra). assert (0 <= rnd (rnd (rh * 35) / 3)) by (apply rnd_pos; apply Rmult_le_pos; [pos | lra]). destruct n as [|[|n]]; pos.
  - unfold W_c6_fl. cbv zeta. set (rh := rnd (r / h)) in *. destruct (ltb_dec rh 1) as [[-> L1]|[-> L1]]; cbn [b2r_fl]; [|rewrite Rmult_0_r, rnd_0; lra].
    assert (0 <= rnd (1 - rh)) by (apply rnd_pos; lra). destruct n as [|[|n]]; pos.
Qed.
Lemma W_at_0 k n h : (1 <= n <= 3)%nat -> W_fl k n 0 h = front k n h.
Proof.
  intros Hn. assert (FF : rnd (front k n h) = front k n h) by (apply rnd_id, rnd_fmt).
  assert (Z : rnd (0 / h) = 0) by (unfold Rdiv; rewrite Rmult_0_l; apply rnd_0).
  assert (L1 : Rlt_b 0 1 = true) by (destruct (ltb_dec 0 1) as [[E _]|[_ E]]; [exact E|lra]). assert (L2 : Rlt_b 0 2 = true) by (destruct (ltb_dec 0 2) as [[E _]|[_ E]]; [exact E|lra]).
  assert (D3 : 0 / 3 = 0) by lra.
  unfold W_fl. unfold front in *. destruct (dk_kind k); [unfold W_cubic_fl | unfold W_c2_fl | unfold W_c4_fl | unfold W_c6_fl]; cbv zeta;
    (destruct n as [|[|[|[|n]]]]; try lia);
    repeat (rewrite ?Z, ?L1, ?L2, ?Rmult_0_r, ?Rmult_0_l, ?rnd_0, ?Rminus_0_r, ?Rplus_0_r, ?Rplus_0_l, ?rnd_1, ?Rmult_1_r, ?Rmult_1_l, ?D3, ?FF; cbn [b2r_fl]); reflexivity.
Qed.
Lemma mean_range x y : bpow radix2 (-300) <= x <= bpow radix2 300 -> bpow radix2 (-300) <= y <= bpow radix2 300 -> bpow radix2 (-300) <= mean_fl x y <= bpow radix2 300.
Proof.
  intros Hx Hy. unfold mean_fl. apply rnd_range; try lia.
  assert (S : bpow radix2 (-299) <= rnd (x + y) <= bpow radix2 301).
  { apply rnd_range; try lia. change (-299)%Z with (1 + -300)%Z. change 301%Z with (1 + 300)%Z. rewrite !bpow_plus. rewrite bpow_1'. lra. }
  change (-299)%Z with (1 + -300)%Z in S. change 301%Z with (1 + 300)%Z in S. rewrite !bpow_plus in S. rewrite bpow_1' in S. lra.
Qed.
Lemma mean_same x : generic_format radix2 dexp x -> mean_fl x x = x.
Proof.
  intros F. unfold mean_fl. replace (x + x) with (x * bpow radix2 1) by (rewrite bpow_1'; ring). rewrite (rnd_id (x * _)) by (apply fmt_scale; [lia|exact F]).
  rewrite bpow_1'. replace (1 / 2 * (x * 2)) with x by field. apply rnd_id, F.
Qed.
Lemma dot_zero n v : (forall i, (i < n)%nat -> v i = 0) -> dot_fl n v v = 0.
Proof. induction n as [|n IH]; intros H; [reflexivity|]. cbn [dot_fl]. rewrite IH by (intros; apply H; lia). rewrite (H n) by lia. rewrite Rmult_0_l, rnd_0, Rplus_0_l. apply rnd_0. Qed.
Lemma magnitude_zero n v : (1 <= n)%nat -> (forall i, (i < n)%nat -> v i = 0) -> magnitude_fl n v = 0.
Proof.
  intros Hn H. unfold magnitude_fl. pose proof (dot_zero n v H) as D. destruct n as [|[|n]]; [lia| rewrite H by lia; apply Rabs_R0|]. rewrite D, sqrt_0. apply rnd_0.
Qed.
Lemma magnitude_pos n v : 0 <= magnitude_fl n v.
Proof. unfold magnitude_fl. destruct n as [|[|n]]; [|apply Rabs_pos|]; apply rnd_pos, sqrt_pos. Qed.
Lemma term_nonneg k n a b : good_kernel k -> (1 <= n <= 3)%nat -> good_part a -> good_part b -> 0 <= dens_term_fl k n a b.
Proof.
  intros G Hn ((_ & Ha) & _) ((_ & Hb) & _ & Hm). unfold dens_term_fl. pose proof (bp (-90)). apply rnd_pos, Rmult_le_pos; [lra|]. apply W_nonneg; auto using magnitude_pos, mean_range.
Qed.
(** ** the sum *)
Lemma fold_grows (t : fpart -> R) : forall l s, generic_format radix2 dexp s -> (forall b, In b l -> 0 <= t b) ->
  generic_format radix2 dexp (fold_left (fun s b => rnd (s + t b)) l s) /\ s <= fold_left (fun s b => rnd (s + t b)) l s.
Proof.
  induction l as [|b l IH]; intros s F H; cbn [fold_left]; [split; [exact F|lra]|]. destruct (IH (rnd (s + t b)) (rnd_fmt _) (fun x Hx => H x (or_intror Hx))) as [A B]. split; [exact A|].
  assert (s <= rnd (s + t b)); [|lra]. rewrite <- (rnd_id s F) at 1. apply rnd_le. specialize (H b (or_introl eq_refl)). lra.
Qed.
Lemma fold_has (t : fpart -> R) x l s : generic_format radix2 dexp s -> 0 <= s -> generic_format radix2 dexp (t x) -> (forall b, In b l -> 0 <= t b) -> In x l -> t x <= fold_left (fun s b => rnd (s + t b)) l s.
Proof.
  intros F P Ft H I. apply in_split in I. destruct I as (l1 & l2 & ->). rewrite fold_left_app. cbn [fold_left].
  destruct (fold_grows t l1 s F ltac:(intros; apply H, in_or_app; auto)) as [A B]. set (s1 := fold_left _ l1 s) in *.
  destruct (fold_grows t l2 (rnd (s1 + t x)) (rnd_fmt _) ltac:(intros; apply H, in_or_app; cbn; auto)) as [_ C].
  assert (t x <= rnd (s1 + t x)); [|lra]. rewrite <- (rnd_id (t x) Ft) at 1. apply rnd_le. lra.
Qed.

(** The density computed is positive and the assertions do not fail: it is at least the
    contribution computed for any single neighbour, and that of the particle itself is at
    least 2^-991. *)
Theorem C109_positive k n a nbs : good_kernel k -> (1 <= n <= 3)%nat -> In a nbs -> (forall b, In b nbs -> good_part b) ->
  exists rho, density_fl k n a nbs = Some rho /\ bpow radix2 (-991) <= rho /\
    forall b, In b nbs -> 0 <= dens_term_fl k n a b <= rho.
Proof.
  intros G Hn Ia H. assert (T : forall b, In b nbs -> 0 <= dens_term_fl k n a b) by (intros b Hb; apply term_nonneg; auto).
  set (rho := fold_left (fun s b => rnd (s + dens_term_fl k n a b)) nbs 0).
  assert (F : generic_format radix2 dexp 0) by apply generic_format_0.
  assert (M : forall b, In b nbs -> dens_term_fl k n a b <= rho) by (intros b Hb; apply (fold_has (dens_term_fl k n a)); auto using rnd_fmt; [lra | unfold dens_term_fl; apply rnd_fmt]).
  assert (S : bpow radix2 (-991) <= dens_term_fl k n a a).
  { destruct (H a Ia) as ((Fh & Hh) & Fm & Hm). unfold dens_term_fl. rewrite magnitude_zero by (try lia; intros i _; unfold vsub_fl; replace (f_pos a i - f_pos a i) with 0 by ring; apply rnd_0).
    rewrite mean_same by exact Fh. rewrite W_at_0 by exact Hn. apply rnd_ge_bpow; [lia|]. pose proof (front_range k n _ G Hn Hh) as [B _].
    change (-991)%Z with (-90 + -901)%Z. rewrite bpow_plus. pose proof (bp (-90)). pose proof (bp (-901)). apply Rmult_le_compat; lra. }
  exists rho. specialize (M a Ia) as Ma. pose proof (bp (-991)). split.
  - unfold density_fl. destruct nbs as [|b0 nbs]; [destruct Ia|]. fold rho. destruct (ltb_dec 0 rho) as [[-> _]|[_ L]]; [reflexivity|lra].
  - split; [lra|]. intros b Hb. split; [apply T, Hb | apply M, Hb].
Qed.
(** Neighbours that are added never lower the density. *)
Theorem C109_monotone k n a nbs more rho rho' : good_kernel k -> (1 <= n <= 3)%nat -> good_part a -> (forall b, In b more -> good_part b) ->
  density_fl k n a nbs = Some rho -> density_fl k n a (nbs ++ more) = Some rho' -> rho <= rho'.
Proof.
  intros G Hn Ga H. unfold density_fl. destruct nbs as [|b0 nbs]; [discriminate|]. set (l := b0 :: nbs). cbn [app]. change (b0 :: nbs ++ more) with (l ++ more).
  destruct (ltb_dec 0 (fold_left (fun s b => rnd (s + dens_term_fl k n a b)) l 0)) as [[-> _]|[-> _]]; [|discriminate]. intros E. injection E as <-.
  destruct (Rlt_b 0 _); [|discriminate]. intros E. injection E as <-. rewrite fold_left_app.
  apply (fold_grows (dens_term_fl k n a)); [|intros b Hb; apply term_nonneg; auto].
  unfold l. cbn [fold_left]. generalize (rnd (0 + dens_term_fl k n a b0)) (rnd_fmt (0 + dens_term_fl k n a b0)). clear. induction nbs as [|b nbs IH]; intros s F; cbn [fold_left]; [exact F | apply IH, rnd_fmt].
Qed.
(** The weight of a pair is the same, to the last bit, from both sides. *)
Theorem C109_symmetric k n a b : f_m a = f_m b -> dens_term_fl k n a b = dens_term_fl k n b a.
Proof.
  intros Hm. unfold dens_term_fl. rewrite Hm. f_equal. f_equal.
  replace (magnitude_fl n (vsub_fl (f_pos a) (f_pos b))) with (magnitude_fl n (vsub_fl (f_pos b) (f_pos a))).
  - f_equal. unfold mean_fl. rewrite (Rplus_comm (f_h a)). reflexivity.
  - assert (O : forall i, vsub_fl (f_pos b) (f_pos a) i = - vsub_fl (f_pos a) (f_pos b) i) by (intros i; unfold vsub_fl; rewrite <- rnd_opp; f_equal; ring).
    assert (D : dot_fl n (vsub_fl (f_pos b) (f_pos a)) (vsub_fl (f_pos b) (f_pos a)) = dot_fl n (vsub_fl (f_pos a) (f_pos b)) (vsub_fl (f_pos a) (f_pos b))).
    { clear Hm. induction n as [|m IH]; [reflexivity|]. cbn [dot_fl]. rewrite IH, !O. f_equal. f_equal. f_equal. ring. }
    unfold magnitude_fl. destruct n as [|[|m]]; [rewrite D; reflexivity | rewrite O; apply Rabs_Ropp | rewrite D; reflexivity].
Qed.
(** Beyond the support, as computed, nothing is added. *)
Theorem C109_support k n a b : good_part a -> good_part b ->
  mean_fl (f_h a) (f_h b) <= magnitude_fl n (vsub_fl (f_pos a) (f_pos b)) -> dens_term_fl k n a b = 0.
Proof.
  intros ((_ & Ha) & _) ((_ & Hb) & _). pose proof (mean_range _ _ Ha Hb) as Hh. unfold dens_term_fl. set (h := mean_fl _ _) in *. set (r := magnitude_fl _ _). intros L. pose proof (bp (-300)).
  assert (Q : 1 <= r / h) by (apply (Rmult_le_reg_r h); [lra|]; unfold Rdiv; rewrite Rmult_assoc, Rinv_l by lra; lra).
  assert (Q1 : 1 <= rnd (r / h)) by (rewrite <- rnd_1; apply rnd_le, Q).
  assert (B1 : Rlt_b (rnd (r / h)) 1 = false) by (destruct (ltb_dec (rnd (r / h)) 1) as [[_ E]|[E _]]; [lra|exact E]).
  enough (E : W_fl k n r h = 0) by (rewrite E, Rmult_0_r; apply rnd_0).
  unfold W_fl. destruct (dk_kind k); [unfold W_cubic_fl | unfold W_c2_fl | unfold W_c4_fl | unfold W_c6_fl]; cbv zeta; [|rewrite B1; cbn [b2r_fl]; rewrite Rmult_0_r; apply rnd_0..].
  assert (Q2 : 2 <= rnd (rnd (2 * r) / h)).
  { rewrite <- (rnd_id 2 fmt_2) at 1. apply rnd_le. assert (F2 : generic_format radix2 dexp (h * bpow radix2 1)) by (apply fmt_scale; [lia | apply rnd_fmt]). rewrite bpow_1' in F2.
    assert (2 * h <= rnd (2 * r)) by (rewrite <- (rnd_id (2 * h)) at 1; [apply rnd_le; lra | rewrite Rmult_comm; exact F2]).
    apply (Rmult_le_reg_r h); [lra|]. unfold Rdiv. rewrite Rmult_assoc, Rinv_l by lra. lra. }
  destruct (ltb_dec (rnd (rnd (2 * r) / h)) 2) as [[_ E]|[-> _]]; [lra|reflexivity].
Qed.

(** ** accuracy of the Wendland kernels *)
Definition dl : R := / 100000000000000.
Lemma u53_num : u53 = / 9007199254740992. Proof. apply u53_eq. Qed.
Lemma tau_tiny : tau <= bpow radix2 (-1000).
Proof. unfold tau. pose proof (bp (-1074)). pose proof (bpow_le radix2 (-1074) (-1000) ltac:(lia)). lra. Qed.
Lemma bpow_m60 : bpow radix2 (-60) <= / 1000000000000000000.
Proof.
  change (-60)%Z with (- (60))%Z. rewrite bpow_opp. apply Rinv_le_contravar; [lra|]. replace (bpow radix2 60) with (IZR (2 ^ 60)); [apply IZR_le; vm_compute; discriminate|].
  change 2%Z with (radix_val radix2). rewrite IZR_Zpower by lia. reflexivity.
Qed.
(** [a] is within [p] of [b], which is at most [B] *)
Definition ap (a b B p : R) : Prop := Rabs b <= B /\ Rabs (a - b) <= p.
Lemma ap_const a B : 0 <= a <= B -> ap a a B 0.
Proof. intros H. split; [rewrite Rabs_pos_eq; lra|]. replace (a - a) with 0 by ring. rewrite Rabs_R0. lra. Qed.
Lemma ap_add a b B p a' b' B' p' : ap a b B p -> ap a' b' B' p' -> ap (a + a') (b + b') (B + B') (p + p').
Proof.
  intros [H1 H2] [H3 H4]. split; [eapply Rle_trans; [apply Rabs_triang|]; lra|]. replace (a + a' - (b + b')) with ((a - b) + (a' - b')) by ring. eapply Rle_trans; [apply Rabs_triang|]; lra.
Qed.
Lemma ap_mul a b B p a' b' B' p' : ap a b B p -> ap a' b' B' p' -> ap (a * a') (b * b') (B * B') (B * p' + p * B' + p * p').
Proof.
  intros [H1 H2] [H3 H4]. split; [rewrite Rabs_mult; apply Rmult_le_compat; auto using Rabs_pos|]. replace (a * a' - b * b') with (b * (a' - b') + ((a - b) * b' + (a - b) * (a' - b'))) by ring.
  eapply Rle_trans; [apply Rabs_triang|]. rewrite Rplus_assoc. apply Rplus_le_compat; [rewrite Rabs_mult; apply Rmult_le_compat; auto using Rabs_pos|].
  eapply Rle_trans; [apply Rabs_triang|]. apply Rplus_le_compat; rewrite Rabs_mult; apply Rmult_le_compat; auto using Rabs_pos.
Qed.
Lemma rnd_scaled F y : bpow radix2 (-901) <= F -> Rabs y <= 80 -> Rabs (rnd (F * y) - F * y) <= F * dl.
Proof.
  intros HF Hy. pose proof (bp (-901)). eapply Rle_trans; [apply rnd_err|]. rewrite Rabs_mult, (Rabs_pos_eq F) by lra.
  assert (T : tau <= F * / 1000000000000000000).
  { eapply Rle_trans; [apply tau_tiny|]. eapply Rle_trans; [apply (bpow_le radix2 (-1000) (-901 + -60)); lia|]. rewrite bpow_plus. pose proof (bp (-60)). pose proof bpow_m60. apply Rmult_le_compat; lra. }
  pose proof (Rabs_pos y). assert (u53 * (F * Rabs y) <= F * (80 * / 9007199254740992)).
  { rewrite u53_num. replace (/ 9007199254740992 * (F * Rabs y)) with (F * (Rabs y * / 9007199254740992)) by ring. apply Rmult_le_compat_l; lra. }
  assert (F * (80 * / 9007199254740992) + F * / 1000000000000000000 <= F * dl); [|lra]. rewrite <- Rmult_plus_distr_l. apply Rmult_le_compat_l; [lra|]. unfold dl. lra.
Qed.
Lemma one_ok : bpow radix2 (-901) <= 1. Proof. rewrite <- bpow_0. apply bpow_le. lia. Qed.
Lemma ap_rnd a b B p : ap a b B p -> B + p <= 80 -> ap (rnd a) b B (p + dl).
Proof.
  intros [H1 H2] H. split; [exact H1|]. assert (Ha : Rabs a <= 80) by (replace a with (b + (a - b)) by ring; eapply Rle_trans; [apply Rabs_triang|]; lra).
  pose proof (rnd_scaled 1 a one_ok Ha) as E. rewrite !Rmult_1_l in E. replace (rnd a - b) with ((rnd a - a) + (a - b)) by ring. eapply Rle_trans; [apply Rabs_triang|]. lra.
Qed.
(** the same for a multiple of [F] *)
Definition aF (F a b B p : R) : Prop := exists a', a = F * a' /\ ap a' b B p.
Lemma aF_one F : aF F F 1 1 0. Proof. exists 1. split; [ring|]. apply ap_const. lra. Qed.
Lemma aF_mul F a b B p a' b' B' p' : aF F a b B p -> ap a' b' B' p' -> aF F (a * a') (b * b') (B * B') (B * p' + p * B' + p * p').
Proof. intros (x & -> & H) H'. exists (x * a'). split; [ring|]. apply ap_mul; assumption. Qed.
Lemma aF_rnd F a b B p : bpow radix2 (-901) <= F -> aF F a b B p -> B + p <= 80 -> aF F (rnd a) b B (p + dl).
Proof.
  intros HF (x & -> & [H1 H2]) H. pose proof (bp (-901)). exists (rnd (F * x) / F). split; [field; lra|]. split; [exact H1|].
  assert (Hx : Rabs x <= 80) by (replace x with (b + (x - b)) by ring; eapply Rle_trans; [apply Rabs_triang|]; lra).
  pose proof (rnd_scaled F x HF Hx) as E. replace (rnd (F * x) / F - b) with ((rnd (F * x) - F * x) / F + (x - b)) by (field; lra).
  eapply Rle_trans; [apply Rabs_triang|].
  assert (Rabs ((rnd (F * x) - F * x) / F) <= dl); [|lra]. unfold Rdiv. rewrite Rabs_mult, (Rabs_pos_eq (/ F)) by (left; apply Rinv_0_lt_compat; lra).
  apply (Rmult_le_reg_r F); [lra|]. rewrite Rmult_assoc, Rinv_l by lra. lra.
Qed.
(** the shapes of the kernels, Dehnen and Aly (2012), table 1, for a distance of [x] supports *)
Definition shape (c : dkind) (n : nat) (x : R) : R :=
  match c, n with
  | DC2, 1%nat => (1 - x) ^ 3 * (1 + 3 * x) | DC2, _ => (1 - x) ^ 4 * (1 + 4 * x)
  | DC4, 1%nat => (1 - x) ^ 5 * (1 + 5 * x + 8 * x ^ 2) | DC4, _ => (1 - x) ^ 6 * (1 + 6 * x + 35 / 3 * x ^ 2)
  | DC6, 1%nat => (1 - x) ^ 7 * (1 + 7 * x + 19 * x ^ 2 + 21 * x ^ 3) | DC6, _ => (1 - x) ^ 8 * (1 + 8 * x + 25 * x ^ 2 + 32 * x ^ 3)
  | DCubic, _ => 0 (* not used *)
  end.
Lemma shape_near_1 c n x : c <> DCubic -> 1 - dl <= x <= 1 -> 0 <= shape c n x <= 70 * dl.
Proof.
  intros Hc Hx. set (y := 1 - x). assert (D : 0 < dl < / 1000) by (unfold dl; lra). assert (Hy : 0 <= y <= dl) by (unfold y; lra).
  assert (P : forall m, (1 <= m)%nat -> 0 <= y ^ m <= dl).
  { intros m Hm. destruct m as [|m]; [lia|]. assert (0 <= y ^ m <= 1) by (split; [apply pow_le; lra | rewrite <- (pow1 m); apply pow_incr; lra]). cbn [pow]. split; [apply Rmult_le_pos; lra|]. rewrite <- (Rmult_1_r dl). apply Rmult_le_compat; lra. }
  assert (X2 : 0 <= x ^ 2 <= 1) by (split; [apply pow_le; lra | rewrite <- (pow1 2); apply pow_incr; lra]). assert (X3 : 0 <= x ^ 3 <= 1) by (split; [apply pow_le; lra | rewrite <- (pow1 3); apply pow_incr; lra]).
  assert (M : forall a b, 0 <= a <= dl -> 0 <= b <= 70 -> 0 <= a * b <= 70 * dl) by (intros a b Ha Hb; split; [apply Rmult_le_pos; lra | rewrite (Rmult_comm 70); apply Rmult_le_compat; lra]).
  unfold shape. fold y. destruct c; [congruence|..]; (destruct n as [|[|n]]; (apply M; [apply P; lia | lra])).
Qed.
Lemma ap_weak a b B p B' p' : ap a b B p -> p <= p' -> B <= B' -> ap a b B' p'.
Proof. intros [H1 H2] Hp HB. split; lra. Qed.
Ltac aps := first [eassumption | lazymatch goal with
  | |- ap (rnd _) _ _ _ => eapply ap_rnd; [aps | unfold dl; lra]
  | |- ap (_ + _) _ _ _ => eapply ap_add; [aps | aps]
  | |- ap (_ * _) _ _ _ => eapply ap_mul; [aps | aps]
  | |- ap _ _ _ _ => eapply ap_const; split; [lra | apply Rle_refl]
  end].
Ltac aFs := lazymatch goal with H : forall a b B p, aF ?F a b B p -> B + p <= 80 -> _ |- _ => 
  lazymatch goal with
  | |- aF _ (rnd _) _ _ _ => first [eassumption | eapply H; [aFs | unfold dl; lra]]
  | |- aF _ (_ * _) _ _ _ => eapply aF_mul; [aFs | aps]
  | |- aF _ _ _ _ _ => eassumption
  end end.
(** The Wendland kernels as computed, relative to their value at the centre: within 1e-10
    of the exact shape at the exact quotient, also across the edge of the support. *)
Theorem C109_accuracy k n r h : good_kernel k -> dk_kind k <> DCubic -> (1 <= n <= 3)%nat -> 0 <= r -> bpow radix2 (-300) <= h <= bpow radix2 300 ->
  Rabs (W_fl k n r h - W_fl k n 0 h * (if Rlt_dec r h then shape (dk_kind k) n (r / h) else 0)) <= / 10 ^ 10 * W_fl k n 0 h.
Proof.
  intros G Hk Hn Hr Hh. rewrite W_at_0 by exact Hn. pose proof (front_range k n h G Hn Hh) as [HF _]. pose proof (bp (-901)). pose proof (bp (-300)).
  set (F := front k n h) in *. set (x := r / h). assert (X0 : 0 <= x) by (apply Rmult_le_pos; [exact Hr | left; apply Rinv_0_lt_compat; lra]).
  assert (D : 0 < dl <= / 100000000000000) by (unfold dl; lra).
  destruct (Rlt_dec r h) as [L|L].
  2:{ assert (Q : 1 <= x) by (apply (Rmult_le_reg_r h); [lra|]; unfold x, Rdiv; rewrite Rmult_assoc, Rinv_l by lra; lra).
    assert (Q1 : 1 <= rnd x) by (rewrite <- rnd_1; apply rnd_le, Q). assert (B1 : Rlt_b (rnd x) 1 = false) by (destruct (ltb_dec (rnd x) 1) as [[_ E]|[E _]]; [lra|exact E]).
    replace (W_fl k n r h) with 0; [rewrite Rmult_0_r, Rminus_0_r, Rabs_R0; apply Rmult_le_pos; [lra|lra]|].
    unfold W_fl. destruct (dk_kind k); [congruence|..]; [unfold W_c2_fl | unfold W_c4_fl | unfold W_c6_fl]; cbv zeta; fold x; rewrite B1; cbn [b2r_fl]; rewrite Rmult_0_r, rnd_0; reflexivity. }
  assert (X1 : x < 1) by (apply (Rmult_lt_reg_r h); [lra|]; unfold x, Rdiv; rewrite Rmult_assoc, Rinv_l by lra; lra).
  assert (AX : ap (rnd x) x 1 (0 + dl)) by (apply ap_rnd; [apply ap_const; lra | lra]).
  destruct (ltb_dec (rnd x) 1) as [[B1 L1]|[B1 L1]].
  2:{ pose proof AX as [_ A]. apply Rabs_le_inv in A. pose proof (shape_near_1 (dk_kind k) n x Hk ltac:(lra)) as S.
    replace (W_fl k n r h) with 0.
    - rewrite Rminus_0_l, Rabs_Ropp, Rabs_pos_eq by (apply Rmult_le_pos; lra). rewrite Rmult_comm. apply Rmult_le_compat_r; [lra|]. lra.
    - unfold W_fl. destruct (dk_kind k); [congruence|..]; [unfold W_c2_fl | unfold W_c4_fl | unfold W_c6_fl]; cbv zeta; fold x; rewrite B1; cbn [b2r_fl]; rewrite Rmult_0_r, rnd_0; reflexivity. }
  assert (AU : ap (rnd (1 - rnd x)) (1 - x) 1 (0 + dl + dl)).
  { apply ap_rnd; [|lra]. destruct AX as [_ A]. split; [rewrite Rabs_pos_eq; lra|]. replace (1 - rnd x - (1 - x)) with (- (rnd x - x)) by ring. rewrite Rabs_Ropp. exact A. }
  set (u := rnd (1 - rnd x)) in *. set (q := rnd x) in *.
  assert (FIN : forall a b B p, aF F a b B p -> p <= / 10 ^ 10 -> Rabs (a - F * b) <= / 10 ^ 10 * F).
  { intros a b B p (a' & -> & [_ A]) Hp. replace (F * a' - F * b) with (F * (a' - b)) by ring. rewrite Rabs_mult, (Rabs_pos_eq F) by lra. rewrite Rmult_comm. apply Rmult_le_compat_r; lra. }
  assert (AR : forall a b B p, aF F a b B p -> B + p <= 80 -> aF F (rnd a) b B (p + dl)) by (intros; apply aF_rnd; assumption).
  assert (H2 : ap (rnd (u * u)) ((1 - x) * (1 - x)) 1 (/ 10 ^ 13)) by (eapply ap_weak; [aps | unfold dl; lra | lra]). set (s2 := rnd (u * u)) in *.
  assert (H3 : ap (rnd (s2 * u)) ((1 - x) * (1 - x) * (1 - x)) 1 (2 * / 10 ^ 13)) by (eapply ap_weak; [aps | unfold dl; lra | lra]). set (s3 := rnd (s2 * u)) in *.
  assert (H4 : ap (rnd (s2 * s2)) ((1 - x) * (1 - x) * ((1 - x) * (1 - x))) 1 (3 * / 10 ^ 13)) by (eapply ap_weak; [aps | unfold dl; lra | lra]). set (s4 := rnd (s2 * s2)) in *.
  assert (H6 : ap (rnd (s4 * s2)) ((1 - x) * (1 - x) * ((1 - x) * (1 - x)) * ((1 - x) * (1 - x))) 1 (5 * / 10 ^ 13)) by (eapply ap_weak; [aps | unfold dl; lra | lra]). set (s6 := rnd (s4 * s2)) in *.
  assert (P1 : ap (rnd (rnd (3 * q) + 1)) (3 * x + 1) 4 (/ 10 ^ 12)) by (eapply ap_weak; [aps | unfold dl; lra | lra]).
  assert (P2 : ap (rnd (rnd (4 * q) + 1)) (4 * x + 1) 5 (/ 10 ^ 12)) by (eapply ap_weak; [aps | unfold dl; lra | lra]).
  assert (P3 : ap (rnd (1 + rnd (q * rnd (5 + rnd (q * 8))))) (1 + x * (5 + x * 8)) 14 (/ 10 ^ 12)) by (eapply ap_weak; [aps | unfold dl; lra | lra]).
  assert (P4 : ap (rnd (1 + rnd (q * rnd (6 + rnd (rnd (q * 35) * / 3))))) (1 + x * (6 + x * 35 * / 3)) 20 (/ 10 ^ 12)) by (eapply ap_weak; [aps | unfold dl; lra | lra]).
  assert (P5 : ap (rnd (1 + rnd (q * rnd (7 + rnd (q * rnd (19 + rnd (q * 21))))))) (1 + x * (7 + x * (19 + x * 21))) 48 (2 * / 10 ^ 12)) by (eapply ap_weak; [aps | unfold dl; lra | lra]).
  assert (P6 : ap (rnd (1 + rnd (q * rnd (8 + rnd (q * rnd (25 + rnd (q * 32))))))) (1 + x * (8 + x * (25 + x * 32))) 66 (2 * / 10 ^ 12)) by (eapply ap_weak; [aps | unfold dl; lra | lra]).
  assert (O : ap 1 1 1 0) by (apply ap_const; lra). assert (FO := aF_one F).
  assert (SOL : forall a b, (exists b' B p, aF F a b' B p /\ p <= / 10 ^ 10 /\ b' = b) -> Rabs (a - F * b) <= / 10 ^ 10 * F) by (intros a b (b' & B & p & A1 & A2 & <-); apply (FIN a b' B p); assumption).
  unfold W_fl. unfold F, front in *. unfold shape. destruct (dk_kind k) eqn:Ek; [congruence|..].
  - unfold W_c2_fl. cbv zeta. fold x q u s2. rewrite B1. cbn [b2r_fl]. set (FF := rnd (dk_sigma k n / hd_fl n h)) in *. clearbody FF. apply SOL.
    destruct n as [|[|n]]; eexists _, _, _; (split; [aFs | split; [unfold dl; lra | ring]]).
  - unfold W_c4_fl. cbv zeta. fold x q u s2. rewrite B1. cbn [b2r_fl]. set (FF := rnd (dk_sigma k n / hd_fl n h)) in *. clearbody FF. apply SOL. unfold Rdiv at 1 2 3 4.
    destruct n as [|[|n]]; eexists _, _, _; (split; [aFs | split; [unfold dl; lra | field]]).
  - unfold W_c6_fl. cbv zeta. fold x q u s2. rewrite B1. cbn [b2r_fl]. set (FF := rnd (dk_sigma k n / hd_fl n h)) in *. clearbody FF. apply SOL.
    destruct n as [|[|n]]; eexists _, _, _; (split; [aFs | split; [unfold dl; lra | ring]]).
Qed.
Lemma rel_err x : bpow radix2 (-901) <= x -> (1 - dl) * x <= rnd x <= (1 + dl) * x.
Proof.
  intros H. pose proof (rnd_scaled x 1 H ltac:(rewrite Rabs_R1; lra)) as E. rewrite Rmult_1_r in E. apply Rabs_le_inv in E. lra.
Qed.
(** The value at the centre is sigma / h^n up to 5e-14 of it. *)
Theorem C109_centre k n h : good_kernel k -> dk_kind k <> DCubic -> (1 <= n <= 3)%nat -> bpow radix2 (-300) <= h <= bpow radix2 300 ->
  Rabs (W_fl k n 0 h - dk_sigma k n / h ^ n) <= 5 * / 10 ^ 14 * (dk_sigma k n / h ^ n).
Proof.
  intros G Hk Hn Hh. rewrite W_at_0 by exact Hn. pose proof (bp (-901)). pose proof (bp (-300)). pose proof (bp 901). assert (D : 0 < dl <= / 100000000000000) by (unfold dl; lra).
  pose proof (hd_range n h Hn Hh) as HR. destruct G as [G _]. destruct (G n) as [_ Hs]. clear G.
  assert (HD : (1 - 3 * dl) * h ^ n <= hd_fl n h <= (1 + 3 * dl) * h ^ n).
  { pose proof (mul_range h h (-300) 300 (-300) 300 Hh Hh) as H2. change (-300 + -300)%Z with (-600)%Z in H2. change (300 + 300)%Z with 600%Z in H2. pose proof (rnd_range _ (-600) 600 ltac:(lia) ltac:(lia) H2) as H2'.
    pose proof (mul_range _ h (-600) 600 (-300) 300 H2' Hh) as H3. change (-600 + -300)%Z with (-900)%Z in H3. change (600 + 300)%Z with 900%Z in H3.
    pose proof (bpow_le radix2 (-901) (-600) ltac:(lia)). pose proof (bpow_le radix2 (-901) (-900) ltac:(lia)).
    assert (P2 : 0 < h * h) by lra. pose proof (rel_err (h * h) ltac:(lra)) as E2. pose proof (rel_err (rnd (h * h) * h) ltac:(lra)) as E3.
    assert (P3 : 0 < h * h * h) by (apply Rmult_lt_0_compat; lra).
    destruct n as [|[|[|[|n]]]]; try lia; cbn [hd_fl pow].
    - rewrite Rmult_1_r. split; [replace ((1 - 3 * dl) * h) with (h - 3 * (dl * h)) by ring | replace ((1 + 3 * dl) * h) with (h + 3 * (dl * h)) by ring]; (assert (0 < dl * h) by (apply Rmult_lt_0_compat; lra)); lra.
    - rewrite Rmult_1_r. assert (0 < dl * (h * h)) by (apply Rmult_lt_0_compat; lra). lra.
    - rewrite Rmult_1_r. replace (h * (h * h)) with (h * h * h) by ring. set (m := rnd (h * h)) in *. set (z := h * h * h) in *. assert (Z0 : 0 < dl * z) by (apply Rmult_lt_0_compat; lra).
      assert (M1 : (1 - dl) * z <= m * h) by (unfold z; rewrite <- Rmult_assoc; apply Rmult_le_compat_r; lra). assert (M2 : m * h <= (1 + dl) * z) by (unfold z; rewrite <- Rmult_assoc; apply Rmult_le_compat_r; lra).
      assert (M3 : (1 - dl) * ((1 - dl) * z) <= (1 - dl) * (m * h)) by (apply Rmult_le_compat_l; lra). assert (M4 : (1 + dl) * (m * h) <= (1 + dl) * ((1 + dl) * z)) by (apply Rmult_le_compat_l; lra).
      assert (M5 : 0 <= dl * (dl * z) <= dl * z) by (split; [apply Rmult_le_pos; lra | rewrite <- (Rmult_1_l (dl * z)) at 2; apply Rmult_le_compat_r; lra]). lra. }
  replace (front k n h) with (rnd (dk_sigma k n / hd_fl n h)) by (unfold front; destruct (dk_kind k); [congruence|reflexivity..]).
  set (v := hd_fl n h) in *. set (hn := h ^ n) in *. set (sg := dk_sigma k n) in *. clearbody v sg. assert (HH : 0 < hn) by (apply pow_lt; lra). clearbody hn.
  set (w := sg / v). set (P := sg / hn). assert (Ew : w * v = sg) by (unfold w; field; lra). assert (EP : P * hn = sg) by (unfold P; field; lra).
  assert (W0 : bpow radix2 (-901) <= w).
  { unfold w, Rdiv. rewrite <- (Rmult_1_l (bpow radix2 (-901))). apply Rmult_le_compat; try lra. change (-901)%Z with (- (901))%Z. rewrite bpow_opp. apply Rinv_le_contravar; lra. }
  pose proof (rel_err w W0) as E. assert (PP : 0 < P) by (apply Rmult_lt_0_compat; [lra | apply Rinv_0_lt_compat; lra]). clearbody w P.
  assert (V1 : (1 - 3 * dl) * sg <= P * v) by (rewrite <- EP; replace ((1 - 3 * dl) * (P * hn)) with (P * ((1 - 3 * dl) * hn)) by ring; apply Rmult_le_compat_l; lra).
  assert (V2 : P * v <= (1 + 3 * dl) * sg) by (rewrite <- EP; replace ((1 + 3 * dl) * (P * hn)) with (P * ((1 + 3 * dl) * hn)) by ring; apply Rmult_le_compat_l; lra).
  assert (D2 : 0 <= dl * dl <= dl / 1000) by (split; [apply Rmult_le_pos; lra | apply Rmult_le_compat_l; lra]).
  assert (W1 : w <= (1 + 38 / 10 * dl) * P).
  { apply (Rmult_le_reg_r v); [lra|]. rewrite Ew, Rmult_assoc. apply (Rle_trans _ ((1 + 38 / 10 * dl) * ((1 - 3 * dl) * sg))); [|apply Rmult_le_compat_l; lra].
    replace ((1 + 38 / 10 * dl) * ((1 - 3 * dl) * sg)) with (sg * (1 + (8 / 10 * dl - 114 / 10 * (dl * dl)))) by field. rewrite <- (Rmult_1_r sg) at 1. apply Rmult_le_compat_l; lra. }
  assert (W2 : (1 - 38 / 10 * dl) * P <= w).
  { apply (Rmult_le_reg_r v); [lra|]. rewrite Ew, Rmult_assoc. apply (Rle_trans _ ((1 - 38 / 10 * dl) * ((1 + 3 * dl) * sg))); [apply Rmult_le_compat_l; lra|].
    replace ((1 - 38 / 10 * dl) * ((1 + 3 * dl) * sg)) with (sg * (1 - (8 / 10 * dl + 114 / 10 * (dl * dl)))) by field. rewrite <- (Rmult_1_r sg) at 2. apply Rmult_le_compat_l; lra. }
  assert (DP : 0 < dl * P) by (apply Rmult_lt_0_compat; lra). assert (DDP : 0 <= dl * (dl * P) <= / 1000 * (dl * P)) by (split; [apply Rmult_le_pos; lra | apply Rmult_le_compat_r; lra]).
  assert (X1 : (1 + dl) * w <= (1 + dl) * ((1 + 38 / 10 * dl) * P)) by (apply Rmult_le_compat_l; lra). assert (X2 : (1 - dl) * ((1 - 38 / 10 * dl) * P) <= (1 - dl) * w) by (apply Rmult_le_compat_l; lra).
  replace (5 * / 10 ^ 14 * P) with (5 * (dl * P)) by (unfold dl; field). apply Rabs_le. lra.
Qed.

(** The cubic spline, Monaghan (1992), for a distance of [y] halves of the support. *)
Definition spline (y : R) : R := if Rlt_dec y 1 then 1 - 3 / 2 * y ^ 2 + 3 / 4 * y ^ 3 else if Rlt_dec y 2 then 1 / 4 * (2 - y) ^ 3 else 0.
Lemma cube_small d : 0 <= d <= 2 * dl -> 0 <= d * d * d <= dl.
Proof.
  intros H. assert (D : 0 < dl <= / 1000) by (unfold dl; lra). assert (0 <= d * d <= / 4 * 1) by (split; [apply Rmult_le_pos; lra | apply Rmult_le_compat; lra]).
  split; [apply Rmult_le_pos; lra|]. replace dl with (1 / 2 * (2 * dl)) by field. apply Rmult_le_compat; lra.
Qed.
Lemma spline_inner y : y <= 1 + 2 * dl -> Rabs (1 - 3 / 2 * y ^ 2 + 3 / 4 * y ^ 3 - spline y) <= dl.
Proof.
  intros H. assert (D : 0 < dl <= / 1000) by (unfold dl; lra). unfold spline. destruct (Rlt_dec y 1); [unfold Rminus; rewrite Rplus_opp_r, Rabs_R0; lra|]. destruct (Rlt_dec y 2); [|lra].
  pose proof (cube_small (y - 1) ltac:(lra)). replace (1 - 3 / 2 * y ^ 2 + 3 / 4 * y ^ 3 - 1 / 4 * (2 - y) ^ 3) with ((y - 1) * (y - 1) * (y - 1)) by field. rewrite Rabs_pos_eq; lra.
Qed.
Lemma spline_outer y : 1 - 2 * dl <= y <= 2 + 2 * dl -> Rabs (1 / 4 * (2 - y) ^ 3 - spline y) <= dl.
Proof.
  intros H. assert (D : 0 < dl <= / 1000) by (unfold dl; lra). unfold spline. destruct (Rlt_dec y 1).
  - pose proof (cube_small (1 - y) ltac:(lra)). replace (1 / 4 * (2 - y) ^ 3 - (1 - 3 / 2 * y ^ 2 + 3 / 4 * y ^ 3)) with ((1 - y) * (1 - y) * (1 - y)) by field. rewrite Rabs_pos_eq; lra.
  - destruct (Rlt_dec y 2); [unfold Rminus; rewrite Rplus_opp_r, Rabs_R0; lra|]. pose proof (cube_small (y - 2) ltac:(lra)). replace (1 / 4 * (2 - y) ^ 3 - 0) with (- (1 / 4 * ((y - 2) * (y - 2) * (y - 2)))) by field. rewrite Rabs_Ropp, Rabs_pos_eq; lra.
Qed.
Lemma spline_edge y : 2 - 2 * dl <= y -> 0 <= spline y <= dl.
Proof.
  intros H. assert (D : 0 < dl <= / 1000) by (unfold dl; lra). unfold spline. destruct (Rlt_dec y 1); [lra|]. destruct (Rlt_dec y 2); [|lra].
  pose proof (cube_small (2 - y) ltac:(lra)). replace (1 / 4 * (2 - y) ^ 3) with (1 / 4 * ((2 - y) * (2 - y) * (2 - y))) by field. lra.
Qed.
Lemma ap_sub a b B p a' b' B' p' : ap a b B p -> ap a' b' B' p' -> ap (a - a') (b - b') (B + B') (p + p').
Proof.
  intros [H1 H2] [H3 H4]. split; [unfold Rminus; eapply Rle_trans; [apply Rabs_triang|]; rewrite Rabs_Ropp; lra|]. replace (a - a' - (b - b')) with ((a - b) + - (a' - b')) by ring.
  eapply Rle_trans; [apply Rabs_triang|]. rewrite Rabs_Ropp. lra.
Qed.
Ltac apc := first [eassumption | lazymatch goal with
  | |- ap (rnd _) _ _ _ => eapply ap_rnd; [apc | unfold dl; lra]
  | |- ap (_ + _) _ _ _ => eapply ap_add; [apc | apc]
  | |- ap (_ - _) _ _ _ => eapply ap_sub; [apc | apc]
  | |- ap (_ * _) _ _ _ => eapply ap_mul; [apc | apc]
  | |- ap _ _ _ _ => eapply ap_const; split; [lra | apply Rle_refl]
  end].
(** the quotient of the spline *)
Lemma quotient_near r h : 0 <= r -> bpow radix2 (-300) <= h -> 2 * (r / h) <= 3 -> Rabs (rnd (rnd (2 * r) / h) - 2 * (r / h)) <= 2 * dl.
Proof.
  intros Hr Hh Hy. pose proof (bp (-300)). set (y := 2 * (r / h)) in *. assert (Y0 : 0 <= y) by (unfold y; apply Rmult_le_pos; [lra|]; apply Rmult_le_pos; [lra | left; apply Rinv_0_lt_compat; lra]).
  assert (E2 : 2 * r = h * y) by (unfold y; field; lra). pose proof (bpow_le radix2 (-901) (-300) ltac:(lia)) as HB.
  pose proof (rnd_scaled h y ltac:(lra) ltac:(rewrite Rabs_pos_eq; lra)) as E. rewrite <- E2 in E.
  assert (A : ap (rnd (2 * r) / h) y 3 dl).
  { split; [rewrite Rabs_pos_eq; lra|]. replace (rnd (2 * r) / h - y) with ((rnd (2 * r) - 2 * r) / h) by (rewrite E2; field; lra).
    unfold Rdiv. rewrite Rabs_mult, (Rabs_pos_eq (/ h)) by (left; apply Rinv_0_lt_compat; lra). apply (Rmult_le_reg_r h); [lra|]. rewrite Rmult_assoc, Rinv_l by lra. lra. }
  destruct (ap_rnd _ _ _ _ A ltac:(unfold dl; lra)) as [_ X]. lra.
Qed.
Lemma quotient_far r h : bpow radix2 (-300) <= h -> 3 < 2 * (r / h) -> 2 <= rnd (rnd (2 * r) / h).
Proof.
  intros Hh Hy. pose proof (bp (-300)). rewrite <- (rnd_id 2 fmt_2) at 1. apply rnd_le. assert (E : 3 * h < 2 * r) by (replace (2 * r) with (2 * (r / h) * h) by (field; lra); apply Rmult_lt_compat_r; lra).
  pose proof (bpow_le radix2 (-901) (-300) ltac:(lia)). destruct (rel_err (2 * r) ltac:(lra)) as [X _]. apply (Rmult_le_reg_r h); [lra|]. unfold Rdiv. rewrite Rmult_assoc, Rinv_l by lra. unfold dl in X. lra.
Qed.
(** The cubic spline as computed is within 1e-10 of its value at the centre of the exact
    one, also where its branches meet. *)
Theorem C109_accuracy_cubic k n r h : good_kernel k -> dk_kind k = DCubic -> (1 <= n <= 3)%nat -> 0 <= r -> bpow radix2 (-300) <= h <= bpow radix2 300 ->
  Rabs (W_fl k n r h - W_fl k n 0 h * spline (2 * (r / h))) <= / 10 ^ 10 * W_fl k n 0 h.
Proof.
  intros G Hk Hn Hr Hh. rewrite W_at_0 by exact Hn. pose proof (front_range k n h G Hn Hh) as [HF _]. pose proof (bp (-901)). unfold W_fl. rewrite Hk. unfold W_cubic_fl. cbv zeta.
  replace (rnd (dk_sigma k n / dk_pow k h n)) with (front k n h) by (unfold front; rewrite Hk; reflexivity). set (F := front k n h) in *. clearbody F.
  assert (Q : 2 * (r / h) <= 3 -> Rabs (rnd (rnd (2 * r) / h) - 2 * (r / h)) <= 2 * dl) by (apply quotient_near; tauto).
  assert (Q3 : 3 < 2 * (r / h) -> 2 <= rnd (rnd (2 * r) / h)) by (apply quotient_far; tauto).
  assert (Y0 : 0 <= 2 * (r / h)) by (apply Rmult_le_pos; [lra|]; apply Rmult_le_pos; [lra | left; apply Rinv_0_lt_compat; pose proof (bp (-300)); lra]).
  set (y := 2 * (r / h)) in *. clearbody y. set (q := rnd (rnd (2 * r) / h)) in *. clearbody q. assert (D : 0 < dl <= / 100000000000000) by (unfold dl; lra).
  assert (FIN : forall a b p, ap a b 60 p -> p <= / 10 ^ 11 -> Rabs (b - spline y) <= dl -> Rabs (rnd (a * F) - F * spline y) <= / 10 ^ 10 * F).
  { intros a b p [A1 A2] Hp Hb. assert (Ha : Rabs a <= 80) by (replace a with (b + (a - b)) by ring; eapply Rle_trans; [apply Rabs_triang|]; lra).
    pose proof (rnd_scaled F a HF Ha) as E. rewrite (Rmult_comm F a) in E. replace (rnd (a * F) - F * spline y) with ((rnd (a * F) - a * F) + F * ((a - b) + (b - spline y))) by ring.
    eapply Rle_trans; [apply Rabs_triang|]. rewrite Rabs_mult, (Rabs_pos_eq F) by lra. assert (S : Rabs (a - b + (b - spline y)) <= / 10 ^ 11 + dl) by (eapply Rle_trans; [apply Rabs_triang|]; lra).
    apply (Rmult_le_compat_l F) in S; [|lra]. assert (F * (dl + (/ 10 ^ 11 + dl)) <= F * / 10 ^ 10) by (apply Rmult_le_compat_l; lra). lra. }
  destruct (ltb_dec q 2) as [[-> L2]|[-> L2]].
  - assert (Y3 : y <= 3) by (destruct (Rle_lt_dec y 3) as [X|X]; [exact X | specialize (Q3 X); lra]). specialize (Q Y3). assert (AQ : ap q y 3 (2 * dl)) by (split; [rewrite Rabs_pos_eq; lra | exact Q]). apply Rabs_le_inv in Q.
    destruct (ltb_dec q 1) as [[-> L1]|[-> L1]].
    + apply (FIN _ (1 - 15 / 10 * y * y + 75 / 100 * y * y * y) (/ 10 ^ 11)); [|lra|].
      * eapply ap_weak; [apc | unfold dl; lra | lra].
      * replace (1 - 15 / 10 * y * y + 75 / 100 * y * y * y) with (1 - 3 / 2 * y ^ 2 + 3 / 4 * y ^ 3) by field. apply spline_inner. lra.
    + apply (FIN _ (25 / 100 * (2 - y) * (2 - y) * (2 - y)) (/ 10 ^ 11)); [|lra|].
      * eapply ap_weak; [apc | unfold dl; lra | lra].
      * replace (25 / 100 * (2 - y) * (2 - y) * (2 - y)) with (1 / 4 * (2 - y) ^ 3) by field. apply spline_outer. lra.
  - assert (Y2 : 2 - 2 * dl <= y) by (destruct (Rle_lt_dec y 3) as [X|X]; [specialize (Q X); apply Rabs_le_inv in Q; lra | lra]).
    pose proof (spline_edge y Y2) as S. rewrite Rminus_0_l, Rabs_Ropp, Rabs_pos_eq by (apply Rmult_le_pos; lra). rewrite Rmult_comm. apply Rmult_le_compat_r; lra.
Qed.

(** The term depends on the position and smoothing length of the particle only, not on its
    mass or its former density. *)
Theorem C109_own k n a a' b : f_pos a = f_pos a' -> f_h a = f_h a' -> dens_term_fl k n a b = dens_term_fl k n a' b.
Proof. intros E1 E2. unfold dens_term_fl. rewrite E1, E2. reflexivity. Qed.
(** ** the rounding of the sum *)
Lemma add_rel x y : generic_format radix2 dexp x -> generic_format radix2 dexp y -> 0 <= x -> 0 <= y -> (1 - u53) * (x + y) <= rnd (x + y) <= (1 + u53) * (x + y).
Proof.
  intros Fx Fy Hx Hy. destruct (FLT_plus_error_N_ex radix2 (-1074) 53 (fun z => negb (Z.even z)) x y Fx Fy) as (e & He & E).
  change (rnd (x + y) = (x + y) * (1 + e)) in E. rewrite E. assert (U : u_ro radix2 53 = u53) by (unfold u_ro, u53; rewrite <- bpow_m1, <- bpow_plus; reflexivity).
  rewrite U in He. assert (P : 0 < u53) by apply bp. assert (L : u53 / (1 + u53) <= u53).
  { apply (Rmult_le_reg_r (1 + u53)); [lra|]. unfold Rdiv. rewrite Rmult_assoc, Rinv_l by lra. assert (0 <= u53 * u53) by (apply Rmult_le_pos; lra). lra. }
  assert (H : - u53 <= e <= u53) by (apply Rabs_le_inv; lra). rewrite (Rmult_comm (x + y)). split; apply Rmult_le_compat_r; lra.
Qed.
Lemma u53_small : 0 < u53 < 1. Proof. rewrite u53_num. lra. Qed.
Lemma fold_sum (t : fpart -> R) : (forall b, generic_format radix2 dexp (t b)) -> forall l s, generic_format radix2 dexp s -> 0 <= s -> (forall b, In b l -> 0 <= t b) ->
  (1 - u53) ^ length l * (s + fold_right Rplus 0 (map t l)) <= fold_left (fun s b => rnd (s + t b)) l s <= (1 + u53) ^ length l * (s + fold_right Rplus 0 (map t l)).
Proof.
  intros Ft. pose proof u53_small as U. induction l as [|b l IH]; intros s Fs Hs H; cbn [fold_left length map fold_right pow]; [lra|].
  assert (Tb : 0 <= t b) by (apply H; left; reflexivity). pose proof (add_rel s (t b) Fs (Ft b) Hs Tb) as A.
  assert (Sl : 0 <= fold_right Rplus 0 (map t l)).
  { assert (X : forall x, In x l -> 0 <= t x) by (intros; apply H; right; assumption). clear - X. induction l as [|b l IH]; cbn [map fold_right]; [lra|].
    assert (0 <= t b) by (apply X; left; reflexivity). assert (0 <= fold_right Rplus 0 (map t l)) by (apply IH; intros; apply X; right; assumption). lra. }
  assert (Q0 : 0 <= (1 - u53) * (s + t b)) by (apply Rmult_le_pos; lra).
  destruct (IH (rnd (s + t b)) (rnd_fmt _) ltac:(lra) (fun x Hx => H x (or_intror Hx))) as [L1 L2]. set (S := fold_right Rplus 0 (map t l)) in *.
  assert (P1 : 0 <= (1 - u53) ^ length l) by (apply pow_le; lra). assert (P2 : 0 <= (1 + u53) ^ length l) by (apply pow_le; lra).
  assert (US : 0 <= u53 * S) by (apply Rmult_le_pos; lra). split.
  - eapply Rle_trans; [|exact L1]. rewrite (Rmult_comm (1 - u53)), Rmult_assoc. apply Rmult_le_compat_l; lra.
  - eapply Rle_trans; [exact L2|]. rewrite (Rmult_comm (1 + u53)), Rmult_assoc. apply Rmult_le_compat_l; lra.
Qed.
(** The sum computed is that of the terms computed, up to a factor of 1 +- 2^-53 for each
    neighbour, also where the terms underflow. *)
Theorem C109_sum k n a nbs rho : good_kernel k -> (1 <= n <= 3)%nat -> good_part a -> (forall b, In b nbs -> good_part b) -> density_fl k n a nbs = Some rho ->
  (1 - / 2 ^ 53) ^ length nbs * fold_right Rplus 0 (map (dens_term_fl k n a) nbs) <= rho <= (1 + / 2 ^ 53) ^ length nbs * fold_right Rplus 0 (map (dens_term_fl k n a) nbs).
Proof.
  intros G Hn Ga H E. replace (/ 2 ^ 53) with u53 by (rewrite u53_num; lra).
  destruct (fold_sum (dens_term_fl k n a) (fun b => rnd_fmt _) nbs 0 (generic_format_0 _ _) ltac:(lra) (fun b Hb => term_nonneg k n a b G Hn Ga (H b Hb))) as [L1 L2]. rewrite Rplus_0_l in L1, L2.
  unfold density_fl in E. destruct nbs as [|b0 l]; [discriminate|]. destruct (Rlt_b 0 _); [|discriminate]. injection E as <-. split; assumption.
Qed.
(** The order in which the neighbours are found changes the density by no more than that. *)
Theorem C109_order k n a nbs nbs' rho rho' : good_kernel k -> (1 <= n <= 3)%nat -> good_part a -> (forall b, In b nbs -> good_part b) -> Permutation nbs nbs' ->
  density_fl k n a nbs = Some rho -> density_fl k n a nbs' = Some rho' ->
  (1 - / 2 ^ 53) ^ length nbs * rho <= (1 + / 2 ^ 53) ^ length nbs * rho'.
Proof.
  intros G Hn Ga H P E E'. assert (H' : forall b, In b nbs' -> good_part b) by (intros b Hb; apply H; apply (Permutation_in b (Permutation_sym P)); exact Hb).
  pose proof (C109_sum k n a nbs rho G Hn Ga H E) as [_ A]. pose proof (C109_sum k n a nbs' rho' G Hn Ga H' E') as [B _]. rewrite <- (Permutation_length P) in B.
  assert (S : fold_right Rplus 0 (map (dens_term_fl k n a) nbs) = fold_right Rplus 0 (map (dens_term_fl k n a) nbs')).
  { clear - P. induction P; cbn [map fold_right]; [reflexivity | rewrite IHP; reflexivity | lra | congruence]. }
  rewrite <- S in B. set (Sm := fold_right Rplus 0 _) in *. set (N := length nbs) in *. pose proof u53_small as U. rewrite u53_num in U.
  assert (P1 : 0 <= (1 - / 2 ^ 53) ^ N) by (apply pow_le; lra). assert (P2 : 0 <= (1 + / 2 ^ 53) ^ N) by (apply pow_le; lra).
  eapply Rle_trans; [apply Rmult_le_compat_l; [exact P1 | exact A]|]. eapply Rle_trans; [|apply Rmult_le_compat_l; [exact P2 | exact B]]. right. ring.
Qed.

(** *** Examples: two particles of mass and smoothing length 1, at distance 1/2 *)
Definition p109 (x : R) : fpart := FPart (fun _ => x) (fun _ => 0) 1 1 0 0 0 0.
Definition k109 (c : dkind) : dkern := DKern c (fun _ => 1) (fun h n => h ^ n).
Lemma p109_ok x : good_part (p109 x).
Proof.
  split; [split|split]; cbn [f_h f_m p109]; [apply fmt_1 | split; (rewrite <- bpow_0; apply bpow_le; lia) | apply fmt_1 | rewrite <- bpow_0; apply bpow_le; lia].
Qed.
Example C109_case c : good_kernel (k109 c) /\ (forall x, good_part (p109 x)) /\ In (p109 0) [p109 (1 / 2); p109 0].
Proof.
  split; [|split; [apply p109_ok | right; left; reflexivity]]. split.
  - intros n. cbn [dk_sigma k109]. split; [apply fmt_1 | lra].
  - intros h n Hh Hn. cbn [dk_pow k109]. assert (0 < h ^ n) by (apply pow_lt; pose proof (bp (-300)); lra). lra.
Qed.
Example C109_support_case : mean_fl (f_h (p109 0)) (f_h (p109 2)) <= magnitude_fl 1 (vsub_fl (f_pos (p109 0)) (f_pos (p109 2))) /\
  magnitude_fl 1 (vsub_fl (f_pos (p109 0)) (f_pos (p109 0))) < mean_fl (f_h (p109 0)) (f_h (p109 0)).
Proof.
  cbn [f_h f_pos p109]. rewrite !mean_same by apply fmt_1. cbn [magnitude_fl]. unfold vsub_fl. split.
  - replace (0 - 2) with (Ropp 2) by ring. rewrite rnd_opp, (rnd_id 2 fmt_2), Rabs_Ropp, Rabs_pos_eq; lra.
  - replace (0 - 0) with 0 by ring. rewrite rnd_0, Rabs_R0. lra.
Qed.
Example C109_accuracy_case : good_kernel (k109 DC2) /\ dk_kind (k109 DC2) <> DCubic /\ bpow radix2 (-300) <= 1 <= bpow radix2 300 /\ shape DC2 2 (1 / 2) = 3 / 16.
Proof.
  split; [apply C109_case|]. split; [discriminate|]. split; [split; rewrite <- bpow_0; apply bpow_le; lia|]. unfold shape. try (rewrite Rmax_right by lra); try (destruct (Rlt_dec _ _)); lra.
Qed.
Example C109_accuracy_cubic_case : good_kernel (k109 DCubic) /\ dk_kind (k109 DCubic) = DCubic /\ spline (2 * (1 / 2 / 1)) = 1 / 4.
Proof. split; [apply C109_case|]. split; [reflexivity|]. unfold spline. destruct (Rlt_dec _ _); [lra|]. destruct (Rlt_dec _ _); [|lra]. replace (2 - 2 * (1 / 2 / 1)) with 1 by field. lra. Qed.
Example C109_order_case k : exists rho rho', Permutation [p109 (1 / 2); p109 0] [p109 0; p109 (1 / 2)] /\
  density_fl (k109 k) 2 (p109 0) [p109 (1 / 2); p109 0] = Some rho /\ density_fl (k109 k) 2 (p109 0) [p109 0; p109 (1 / 2)] = Some rho'.
Proof.
  assert (G : good_kernel (k109 k)) by apply C109_case.
  destruct (C109_positive (k109 k) 2 (p109 0) [p109 (1 / 2); p109 0] G ltac:(lia) ltac:(cbn; auto)) as (r1 & E1 & _); [intros b [<-|[<-|[]]]; apply p109_ok|].
  destruct (C109_positive (k109 k) 2 (p109 0) [p109 0; p109 (1 / 2)] G ltac:(lia) ltac:(cbn; auto)) as (r2 & E2 & _); [intros b [<-|[<-|[]]]; apply p109_ok|].
  exists r1, r2. split; [apply perm_swap | split; assumption].
Qed.
Print Assumptions C109_positive.
Print Assumptions C109_monotone.
Print Assumptions C109_symmetric.
Print Assumptions C109_support.
Print Assumptions C109_accuracy.
Print Assumptions C109_centre.
Print Assumptions C109_accuracy_cubic.
Print Assumptions C109_sum.
Print Assumptions C109_order.
Print Assumptions C109_own.
