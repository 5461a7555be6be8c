(** Bounds of pi, of exp (-9) and of the integral of exp (-t^2) from 0 to 3 by rational numbers. *)
From Coq Require Import Reals Machin QArith Qpower Qreals Lra Lia.
From Coquelicot Require Import Coquelicot.
Local Open Scope R_scope.
Local Ltac asR := match goal with |- ?a = ?b => change (@eq R a b) end.

(** ** pi, from Machin's formula of the standard library *)
Fixpoint machin (k : nat) : Q :=
  let t := ((if Nat.even k then 1 else -1) * ((2 * Qpower (1 # 3) (Z.of_nat (2 * k + 1)) + Qpower (1 # 7) (Z.of_nat (2 * k + 1))) / inject_Z (Z.of_nat (2 * k + 1))))%Q in
  match k with O => t | S j => Qred (machin j + t)%Q end.
Lemma Q2R_inject z : Q2R (inject_Z z) = IZR z.
Proof. unfold Q2R, inject_Z. cbn. field. Qed.
Lemma Q2R_pow (q : Q) n : ~ (q == 0)%Q -> Q2R (Qpower q (Z.of_nat n)) = Q2R q ^ n.
Proof.
  intros E. induction n as [|n IH]; [cbn; unfold Q2R; cbn; field|].
  rewrite Nat2Z.inj_succ, <- Z.add_1_r. rewrite (Qeq_eqR _ _ (Qpower_plus q (Z.of_nat n) 1 E)), Q2R_mult, IH. cbn. ring.
Qed.
Lemma alt_sign k : (-1) ^ k = Q2R (if Nat.even k then 1 else -1)%Q.
Proof. induction k as [|k IH]; [cbn; lra|]. rewrite Nat.even_succ, <- Nat.negb_even. cbn [pow]. rewrite IH. destruct (Nat.even k); cbn; lra. Qed.
Lemma machin_sum k : Q2R (machin k) = sum_f_R0 (tg_alt PI_2_3_7_tg) k.
Proof.
  assert (T : forall k, Q2R ((if Nat.even k then 1 else -1) * ((2 * Qpower (1 # 3) (Z.of_nat (2 * k + 1)) + Qpower (1 # 7) (Z.of_nat (2 * k + 1))) / inject_Z (Z.of_nat (2 * k + 1))))%Q = tg_alt PI_2_3_7_tg k).
  { intros j. rewrite Q2R_mult, Q2R_div, Q2R_plus, Q2R_mult, !Q2R_pow, Q2R_inject; try (intros E; unfold Qeq in E; cbn in E; lia).
    unfold tg_alt, PI_2_3_7_tg, Ratan_seq. rewrite alt_sign. rewrite <- INR_IZR_INZ. replace (Q2R (1 # 3)) with (/ 3) by (unfold Q2R; cbn; lra). replace (Q2R (1 # 7)) with (/ 7) by (unfold Q2R; cbn; lra). replace (Q2R 2) with 2 by (unfold Q2R; cbn; lra). unfold Rdiv. ring. }
  induction k as [|k IH].
  - cbn [sum_f_R0]. rewrite <- T. reflexivity.
  - cbn [sum_f_R0]. rewrite <- IH, <- T, <- Q2R_plus. cbn [machin]. apply Qeq_eqR, Qred_correct.
Qed.
Lemma PI_bounds : 3141592653589 / 10 ^ 12 <= PI <= 3141592653590 / 10 ^ 12.
Proof.
  destruct (PI_2_3_7_ineq 6) as [L U]. rewrite <- !machin_sum in L, U.
  assert (A : Q2R (3141592653589 # 4000000000000) <= Q2R (machin (S (2 * 6)))) by (apply Qle_Rle, Qle_bool_iff; vm_compute; reflexivity).
  assert (B : Q2R (machin (2 * 6)) <= Q2R (3141592653590 # 4000000000000)) by (apply Qle_Rle, Qle_bool_iff; vm_compute; reflexivity).
  revert L U A B. generalize (Q2R (machin (S (2 * 6)))) (Q2R (machin (2 * 6))). intros u v L U A B. unfold Q2R in A, B; cbn [Qnum Qden] in A, B. clear - L U A B. split; lra.
Qed.

(** ** exp (-x): the partial sums of the series are alternately above and below *)
Fixpoint esum (k : nat) (x : R) : R := match k with O => 1 | S j => esum j x + (-1) ^ k * x ^ k / INR (fact k) end.
Lemma grows (f f' : R -> R) : f 0 = 0 -> (forall x, 0 <= x -> is_derive f x (f' x)) -> (forall x, 0 <= x -> 0 <= f' x) -> forall x, 0 <= x -> 0 <= f x.
Proof.
  intros H0 Hd Hp x Hx. destruct Hx as [Hx|<-]; [|lra]. destruct (MVT_gen f 0 x f') as (c & Hc & E).
  - intros t Ht. rewrite Rmin_left in Ht by lra. apply Hd. lra.
  - intros t Ht. rewrite Rmin_left in Ht by lra. apply derivable_continuous_pt. exists (f' t). apply is_derive_Reals, Hd. lra.
  - rewrite Rmin_left in Hc by lra. specialize (Hp c ltac:(lra)). rewrite H0, Rminus_0_r, Rminus_0_r in E. rewrite E. apply Rmult_le_pos; lra.
Qed.
Lemma esum_0 k : esum k 0 = 1.
Proof. induction k as [|k IH]; [reflexivity|]. cbn [esum pow]. rewrite IH. unfold Rdiv. ring. Qed.
Lemma esum_deriv k x : is_derive (esum (S k)) x (- esum k x).
Proof.
  induction k as [|k IH].
  - apply (is_derive_ext (fun t => 1 - t)); [intros t; cbn; asR; field|]. cbn [esum]. auto_derive; [trivial | ring].
  - apply (is_derive_ext (fun t => esum (S k) t + (-1) ^ S (S k) * t ^ S (S k) / INR (fact (S (S k))))); [intros t; reflexivity|].
    replace (- esum (S k) x) with (- esum k x + - ((-1) ^ S k * x ^ S k / INR (fact (S k)))) by (cbn [esum]; ring).
    apply (is_derive_plus (esum (S k)) (fun t => (-1) ^ S (S k) * t ^ S (S k) / INR (fact (S (S k)))) x (- esum k x) (- ((-1) ^ S k * x ^ S k / INR (fact (S k))))); [exact IH|].
    assert (F : INR (fact (S k)) <> 0) by apply INR_fact_neq_0.
    assert (N0 : INR (S (S k)) <> 0) by (apply not_0_INR; lia).
    rewrite (fact_simpl (S k)), mult_INR.
    apply (is_derive_ext (fun t => (-1) ^ S (S k) / (INR (S (S k)) * INR (fact (S k))) * t ^ S (S k))); [intros t; asR; field; auto|].
    replace (- ((-1) ^ S k * x ^ S k / INR (fact (S k)))) with ((-1) ^ S (S k) / (INR (S (S k)) * INR (fact (S k))) * (INR (S (S k)) * 1 * x ^ pred (S (S k)))).
    + apply is_derive_scal. apply is_derive_pow. apply @is_derive_id.
    + cbn [pred]. rewrite <- (tech_pow_Rmult (-1) (S k)). field. auto.
Qed.
Lemma esum_sign k x : 0 <= x -> 0 <= (-1) ^ S k * (exp (- x) - esum k x).
Proof.
  revert x. induction k as [|k IH].
  - intros x Hx. cbn [esum pow]. assert (exp (- x) <= 1); [|lra]. rewrite <- exp_0. destruct Hx as [Hx|<-]; [apply Rlt_le, exp_increasing; lra | rewrite Ropp_0; lra].
  - apply (grows _ (fun x => (-1) ^ S k * (exp (- x) - esum k x))); [rewrite Ropp_0, exp_0, esum_0; ring | | exact IH].
    intros x _. replace ((-1) ^ S k * (exp (- x) - esum k x)) with ((-1) ^ S (S k) * (- exp (- x) - - esum k x)) by (rewrite <- (tech_pow_Rmult (-1) (S k)); ring).
    apply is_derive_scal. apply (is_derive_minus (fun t => exp (- t)) (esum (S k)) x (- exp (- x)) (- esum k x)); [auto_derive; [trivial | ring] | apply esum_deriv].
Qed.
(** ... and integrated, with t^2 for x *)
Fixpoint gsum (k : nat) (t : R) : R := match k with O => t | S j => gsum j t + (-1) ^ k * t ^ (2 * k + 1) / (INR (fact k) * INR (2 * k + 1)) end.
Lemma gsum_0 k : gsum k 0 = 0.
Proof. induction k as [|k IH]; [reflexivity|]. cbn [gsum]. rewrite IH, pow_i by lia. unfold Rdiv. ring. Qed.
Lemma gsum_deriv k t : is_derive (gsum k) t (esum k (t * t)).
Proof.
  induction k as [|k IH]; [cbn [esum gsum]; apply @is_derive_id|]. cbn [esum].
  apply (is_derive_plus (gsum k) (fun t => (-1) ^ S k * t ^ (2 * S k + 1) / (INR (fact (S k)) * INR (2 * S k + 1))) t (esum k (t * t)) ((-1) ^ S k * (t * t) ^ S k / INR (fact (S k)))); [exact IH|].
  assert (F : INR (fact (S k)) <> 0) by apply INR_fact_neq_0. assert (N0 : INR (2 * S k + 1) <> 0) by (apply not_0_INR; lia).
  apply (is_derive_ext (fun t => (-1) ^ S k / (INR (fact (S k)) * INR (2 * S k + 1)) * t ^ (2 * S k + 1))); [intros u; asR; field; auto|].
  replace ((-1) ^ S k * (t * t) ^ S k / INR (fact (S k))) with ((-1) ^ S k / (INR (fact (S k)) * INR (2 * S k + 1)) * (INR (2 * S k + 1) * 1 * t ^ pred (2 * S k + 1))).
  - apply is_derive_scal. apply is_derive_pow. apply @is_derive_id.
  - replace (pred (2 * S k + 1)) with (2 * S k)%nat by lia. rewrite pow_mult. replace (t ^ 2) with (t * t) by ring. field. auto.
Qed.
Definition gauss (t : R) : R := RInt (fun s => exp (- (s * s))) 0 t.
Lemma gauss_deriv t : is_derive gauss t (exp (- (t * t))).
Proof.
  unfold gauss. apply (is_derive_RInt (fun s => exp (- (s * s))) (fun t => RInt (fun s => exp (- (s * s))) 0 t) 0 t).
  - apply filter_forall. intros u. apply (RInt_correct (V := R_CompleteNormedModule)). apply (ex_RInt_continuous (V := R_CompleteNormedModule)). intros z _. apply (ex_derive_continuous (K := R_AbsRing) (V := R_NormedModule)). auto_derive. trivial.
  - apply (ex_derive_continuous (K := R_AbsRing) (V := R_NormedModule)). auto_derive. trivial.
Qed.
Lemma gauss_sign k t : 0 <= t -> 0 <= (-1) ^ S k * (gauss t - gsum k t).
Proof.
  revert t. apply (grows (fun t => (-1) ^ S k * (gauss t - gsum k t)) (fun t => (-1) ^ S k * (exp (- (t * t)) - esum k (t * t)))).
  - unfold gauss. rewrite RInt_point, gsum_0. unfold zero; cbn. ring.
  - intros u _. apply is_derive_scal. apply (is_derive_minus gauss (gsum k) u); [apply gauss_deriv | apply gsum_deriv].
  - intros u _. apply esum_sign. apply Rle_0_sqr.
Qed.

(** ** the numbers *)
Fixpoint term9 (k : nat) : Q := match k with O => 1%Q | S j => Qred (term9 j * (-9 # 1) / inject_Z (Z.of_nat k))%Q end.
Fixpoint esum9 (k : nat) : Q := match k with O => 1%Q | S j => Qred (esum9 j + term9 k)%Q end.
Fixpoint gsum3 (k : nat) : Q := match k with O => 3%Q | S j => Qred (gsum3 j + 3 * term9 k / inject_Z (Z.of_nat (2 * k + 1)))%Q end.
Lemma term9_ok k : Q2R (term9 k) = (-1) ^ k * 9 ^ k / INR (fact k).
Proof.
  induction k as [|k IH]; [cbn; lra|]. cbn [term9]. rewrite (Qeq_eqR _ _ (Qred_correct _)), Q2R_div, Q2R_mult, IH, Q2R_inject by (intros E; unfold Qeq in E; cbn in E; lia).
  rewrite <- INR_IZR_INZ, fact_simpl, mult_INR. replace (Q2R (-9 # 1)) with (-9) by (unfold Q2R; cbn; lra). cbn [pow]. field. split; first [apply INR_fact_neq_0 | apply not_0_INR; lia].
Qed.
Lemma esum9_ok k : Q2R (esum9 k) = esum k 9.
Proof. induction k as [|k IH]; [cbn; lra|]. cbn [esum9]. rewrite (Qeq_eqR _ _ (Qred_correct _)), Q2R_plus, IH, term9_ok. reflexivity. Qed.
Lemma gsum3_ok k : Q2R (gsum3 k) = gsum k 3.
Proof.
  induction k as [|k IH]; [cbn; lra|]. cbn [gsum3]. rewrite (Qeq_eqR _ _ (Qred_correct _)), Q2R_plus, IH, Q2R_div, Q2R_mult, term9_ok, Q2R_inject by (intros E; unfold Qeq in E; cbn in E; lia).
  cbn [gsum]. f_equal. rewrite <- INR_IZR_INZ. replace (Q2R 3) with 3 by (unfold Q2R; cbn; lra). rewrite (pow_add 3), pow_mult, pow_1. replace (3 ^ 2) with 9 by ring. field. split; first [apply INR_fact_neq_0 | apply not_0_INR; lia].
Qed.
Lemma exp9_bounds : Q2R (1234098040 # 10000000000000) <= exp (Ropp 9) <= Q2R (1234098041 # 10000000000000).
Proof.
  pose proof (esum_sign 49 9 ltac:(lra)) as L. pose proof (esum_sign 50 9 ltac:(lra)) as U. rewrite <- esum9_ok in L, U.
  assert (A : Q2R (1234098040 # 10000000000000) <= Q2R (esum9 49)) by (apply Qle_Rle, Qle_bool_iff; vm_compute; reflexivity).
  assert (B : Q2R (esum9 50) <= Q2R (1234098041 # 10000000000000)) by (apply Qle_Rle, Qle_bool_iff; vm_compute; reflexivity).
  rewrite (alt_sign 50) in L. rewrite (alt_sign 51) in U. cbn [Nat.even] in L, U. replace (Q2R 1) with 1 in L by (unfold Q2R; cbn; lra). replace (Q2R (-1)) with (-1) in U by (unfold Q2R; cbn; lra).
  revert L U A B. generalize (Q2R (esum9 49)) (Q2R (esum9 50)). intros u v L U A B.
  split; [apply (Rle_trans _ _ _ A) | refine (Rle_trans _ _ _ _ B)]; clear A B; lra.
Qed.
Lemma gauss3_bounds : Q2R (886207348259 # 1000000000000) <= gauss 3 <= Q2R (886207348260 # 1000000000000).
Proof.
  pose proof (gauss_sign 49 3 ltac:(lra)) as L. pose proof (gauss_sign 50 3 ltac:(lra)) as U. rewrite <- gsum3_ok in L, U.
  assert (A : Q2R (886207348259 # 1000000000000) <= Q2R (gsum3 49)) by (apply Qle_Rle, Qle_bool_iff; vm_compute; reflexivity).
  assert (B : Q2R (gsum3 50) <= Q2R (886207348260 # 1000000000000)) by (apply Qle_Rle, Qle_bool_iff; vm_compute; reflexivity).
  rewrite (alt_sign 50) in L. rewrite (alt_sign 51) in U. cbn [Nat.even] in L, U. replace (Q2R 1) with 1 in L by (unfold Q2R; cbn; lra). replace (Q2R (-1)) with (-1) in U by (unfold Q2R; cbn; lra).
  revert L U A B. generalize (Q2R (gsum3 49)) (Q2R (gsum3 50)). intros u v L U A B.
  split; [apply (Rle_trans _ _ _ A) | refine (Rle_trans _ _ _ _ B)]; clear A B; lra.
Qed.
