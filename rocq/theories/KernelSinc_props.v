(** C34 for the sinc kernel: for every whole index from 3 to 12 the fitted
    constants of set_sinc_kernel_normalization make the integral over the ball
    of radius h equal to one up to 5 * 10^-5.

    The sine is enclosed by its Taylor sums (Coq's sin_bound), the m-th power
    of the sum of ten terms is integrated exactly over the rationals. *)
From Coq Require Import Reals QArith Qreals Lra Lia List ZArith.
From Coquelicot Require Import Coquelicot.
From Verif Require Import Base Vec Geometry_model Geometry_props Kernel_model Kernel_props Numbers_lemmas.
Import ListNotations.
Local Open Scope R_scope.
Local Ltac asR := match goal with |- ?a = ?b => change (@eq R a b) end.

(** ** Polynomials with integer coefficients *)
Fixpoint pe (l : list Z) (y : R) : R := match l with [] => 0 | c :: r => IZR c + y * pe r y end.
Fixpoint padd (a b : list Z) : list Z :=
  match a, b with [], _ => b | _, [] => a | x :: r, y :: s => (x + y)%Z :: padd r s end.
Fixpoint pmul (a b : list Z) : list Z :=
  match a with [] => [] | x :: r => padd (map (Z.mul x) b) (0%Z :: pmul r b) end.
Lemma pe_add a : forall b y, pe (padd a b) y = pe a y + pe b y.
Proof.
  induction a as [|x r IH]; intros b y; [cbn; ring|]. destruct b as [|z s]; [cbn; ring|].
  cbn [padd pe]. rewrite IH, plus_IZR. ring.
Qed.
Lemma pe_scale x b y : pe (map (Z.mul x) b) y = IZR x * pe b y.
Proof. induction b as [|c r IH]; cbn [map pe]; [ring|]. rewrite IH, mult_IZR. ring. Qed.
Lemma pe_mul a b y : pe (pmul a b) y = pe a y * pe b y.
Proof. induction a as [|x r IH]; cbn [pmul pe]; [ring|]. rewrite pe_add, pe_scale. cbn [pe]. rewrite IH. ring. Qed.

(** the integral of x^(j-1) times the polynomial in x^2 *)
Fixpoint ge (l : list Z) (j : nat) (x : R) : R := match l with [] => 0 | c :: r => IZR c * x ^ j / INR j + ge r (j + 2) x end.
Lemma ge_deriv l : forall j x, (1 <= j)%nat -> is_derive (ge l j) x (x ^ (j - 1) * pe l (x * x)).
Proof.
  induction l as [|c r IH]; intros j x Hj; cbn [pe].
  - rewrite Rmult_0_r. apply (is_derive_const (V := R_NormedModule) 0).
  - replace (x ^ (j - 1) * (IZR c + x * x * pe r (x * x))) with (IZR c * x ^ (j - 1) + x ^ (j + 2 - 1) * pe r (x * x)).
    2:{ replace (j + 2 - 1)%nat with (S (S (j - 1)))%nat by lia. cbn [pow]. ring. }
    apply (is_derive_plus (fun x => IZR c * x ^ j / INR j) (ge r (j + 2)) x); [|apply IH; lia].
    assert (INR j <> 0) by (apply not_0_INR; lia).
    auto_derive; [trivial|]. replace (Init.Nat.pred j) with (j - 1)%nat by lia. asR. field. assumption.
Qed.
Lemma ge_0 l : forall j, (1 <= j)%nat -> ge l j 0 = 0.
Proof. induction l as [|c r IH]; intros j Hj; cbn [ge]; [reflexivity|]. rewrite IH, pow_i by lia. unfold Rdiv. ring. Qed.
(** the same at 1, with every quotient rounded down *)
Fixpoint gz (l : list Z) (j : nat) : Z := match l with [] => 0%Z | c :: r => (c / Z.of_nat j + gz r (j + 2))%Z end.
Lemma floor_near c j : (0 < j)%Z -> IZR (c / j) <= IZR c / IZR j <= IZR (c / j) + 1.
Proof.
  intros Hj. assert (0 < IZR j) by (apply IZR_lt; exact Hj).
  pose proof (Z.div_mod c j ltac:(lia)) as E. pose proof (Z.mod_pos_bound c j Hj) as [B1 B2]. apply IZR_le in B1. apply IZR_lt in B2.
  assert (EC : IZR c = IZR j * IZR (c / j) + IZR (c mod j)) by (rewrite <- mult_IZR, <- plus_IZR; f_equal; exact E).
  split; [apply Rle_div_r; nra | apply Rle_div_l; nra].
Qed.
Lemma gz_near l : forall j, (1 <= j)%nat -> IZR (gz l j) <= ge l j 1 <= IZR (gz l j) + INR (length l).
Proof.
  induction l as [|c r IH]; intros j Hj; cbn [gz ge length]; [cbn [INR]; lra|].
  specialize (IH (j + 2)%nat ltac:(lia)). pose proof (floor_near c (Z.of_nat j) ltac:(lia)) as B. rewrite <- INR_IZR_INZ in B.
  rewrite plus_IZR, S_INR, pow1, Rmult_1_r. lra.
Qed.

(** ** sin x / x on (0, pi) *)
(** 19! times the Taylor sum of ten terms *)
Definition f19 : Z := 121645100408832000.
Definition taylor : list Z := Eval vm_compute in
  map (fun k => ((if Nat.even k then 1 else -1) * (f19 / Z.of_nat 1 / fold_right Z.mul 1 (map Z.of_nat (seq 1 (2 * k + 1)))))%Z) (seq 0 10).
Definition ps (x : R) : R := pe taylor (x * x) / IZR f19.
Lemma fact_up n v (z : Z) : INR (fact n) = IZR v -> (v * (Z.of_nat n + 1) * (Z.of_nat n + 2) = z)%Z -> INR (fact (S (S n))) = IZR z.
Proof.
  intros E <-. rewrite (fact_simpl (S n)), (fact_simpl n), ! mult_INR, E, ! mult_IZR, ! plus_IZR, ! S_INR, <- INR_IZR_INZ. ring.
Qed.
Lemma fact_1 : INR (fact 1) = 1.
Proof. reflexivity. Qed.
Lemma fact_3 : INR (fact 3) = 6.
Proof. apply (fact_up 1 1); [apply fact_1 | reflexivity]. Qed.
Lemma fact_5 : INR (fact 5) = 120.
Proof. apply (fact_up 3 6); [apply fact_3 | reflexivity]. Qed.
Lemma fact_7 : INR (fact 7) = 5040.
Proof. apply (fact_up 5 120); [apply fact_5 | reflexivity]. Qed.
Lemma fact_9 : INR (fact 9) = 362880.
Proof. apply (fact_up 7 5040); [apply fact_7 | reflexivity]. Qed.
Lemma fact_11 : INR (fact 11) = 39916800.
Proof. apply (fact_up 9 362880); [apply fact_9 | reflexivity]. Qed.
Lemma fact_13 : INR (fact 13) = 6227020800.
Proof. apply (fact_up 11 39916800); [apply fact_11 | reflexivity]. Qed.
Lemma fact_15 : INR (fact 15) = 1307674368000.
Proof. apply (fact_up 13 6227020800); [apply fact_13 | reflexivity]. Qed.
Lemma fact_17 : INR (fact 17) = 355687428096000.
Proof. apply (fact_up 15 1307674368000); [apply fact_15 | reflexivity]. Qed.
Lemma fact_19 : INR (fact 19) = 121645100408832000.
Proof. apply (fact_up 17 355687428096000); [apply fact_17 | reflexivity]. Qed.
Lemma fact_21 : INR (fact 21) = 51090942171709440000.
Proof. apply (fact_up 19 121645100408832000); [apply fact_19 | reflexivity]. Qed.

Lemma ps_sum x : x * ps x = sin_approx x 9.
Proof.
  unfold ps, sin_approx, taylor, f19. cbn [pe sum_f_R0]. unfold sin_term.
  change (2 * 0 + 1)%nat with 1%nat. change (2 * 1 + 1)%nat with 3%nat. change (2 * 2 + 1)%nat with 5%nat. change (2 * 3 + 1)%nat with 7%nat.
  change (2 * 4 + 1)%nat with 9%nat. change (2 * 5 + 1)%nat with 11%nat. change (2 * 6 + 1)%nat with 13%nat. change (2 * 7 + 1)%nat with 15%nat.
  change (2 * 8 + 1)%nat with 17%nat. change (2 * 9 + 1)%nat with 19%nat.
  rewrite fact_1, fact_3, fact_5, fact_7, fact_9, fact_11, fact_13, fact_15, fact_17, fact_19. field.
Qed.
Lemma approx_2 x : sin_approx x 2 = x * (1 + x * x * (5 / 100 * (x * x) - 1) / 6).
Proof.
  unfold sin_approx. cbn [sum_f_R0]. unfold sin_term. change (2 * 0 + 1)%nat with 1%nat. change (2 * 1 + 1)%nat with 3%nat. change (2 * 2 + 1)%nat with 5%nat.
  rewrite fact_1, fact_3, fact_5. field.
Qed.
Lemma approx_10 x : sin_approx x 10 = x * ps x + x ^ 21 / 51090942171709440000.
Proof.
  rewrite ps_sum. unfold sin_approx. rewrite tech5. f_equal. unfold sin_term. change (2 * 10 + 1)%nat with 21%nat. rewrite fact_21.
  replace ((-1) ^ 10) with 1 by ring. unfold Rdiv. ring.
Qed.
Lemma approx_3 x : sin_approx x 3 = sin_approx x 2 - x ^ 7 / 5040.
Proof.
  unfold sin_approx. rewrite (tech5 (sin_term x) 2). unfold sin_term at 2. change (2 * 3 + 1)%nat with 7%nat. rewrite fact_7. unfold Rdiv. ring.
Qed.
Lemma approx_1 x : sin_approx x 1 = x - x ^ 3 / 6.
Proof.
  unfold sin_approx. cbn [sum_f_R0]. unfold sin_term. change (2 * 0 + 1)%nat with 1%nat. change (2 * 1 + 1)%nat with 3%nat. rewrite fact_1, fact_3. field.
Qed.
Definition err : R := 4 / 10 ^ 10.
Lemma below_pi x : 0 < x <= PI -> sin x / x - err / 2 <= ps x <= sin x / x.
Proof.
  intros [H0 H1]. pose proof (sin_bound x 4 ltac:(lra) H1) as [A B]. change (2 * 4 + 1)%nat with 9%nat in A. change (2 * (4 + 1))%nat with 10%nat in B.
  rewrite <- ps_sum in A. rewrite approx_10 in B.
  pose proof PI_bounds as [_ P]. assert (X : x * x <= 9869605 / 10 ^ 6).
  { apply Rle_trans with (3141592653590 / 10 ^ 12 * (3141592653590 / 10 ^ 12)); [apply Rmult_le_compat; lra | lra]. }
  assert (X20 : x ^ 20 <= (9869605 / 10 ^ 6) ^ 10).
  { replace (x ^ 20) with ((x * x) ^ 10) by ring. apply pow_incr. split; [nra | exact X]. }
  assert (N : (9869605 / 10 ^ 6) ^ 10 / 51090942171709440000 <= err / 2) by (unfold err; lra).
  split.
  - apply Rmult_le_reg_l with x; [exact H0|]. replace (x * (sin x / x - err / 2)) with (sin x - x * (err / 2)) by (field; lra).
    assert (x ^ 21 / 51090942171709440000 <= x * (err / 2)); [|lra].
    replace (x ^ 21 / 51090942171709440000) with (x * (x ^ 20 / 51090942171709440000)) by field. apply Rmult_le_compat_l; [lra|]. lra.
  - apply Rmult_le_reg_l with x; [exact H0|]. replace (x * (sin x / x)) with (sin x) by (field; lra). exact A.
Qed.
Lemma ps_0 : ps 0 = 1.
Proof. unfold ps, taylor, f19. cbn [pe]. field. Qed.

(** the sinc of the code, kernels.h L635-650 *)
Definition sc (x : R) : R :=
  if Rltb eps_root4 x then sin x / x else if Rltb eps x then 1 + x * x * (5 / 100 * (x * x) - 1) / 6 else 1.
Lemma root4 : eps_root4 = 1 / 10 ^ 6.
Proof.
  unfold eps_root4, eps. replace (1 / 10 ^ 24) with (1 / 10 ^ 12 * (1 / 10 ^ 12)) by field. rewrite sqrt_square by lra.
  replace (1 / 10 ^ 12) with (1 / 10 ^ 6 * (1 / 10 ^ 6)) by field. rewrite sqrt_square; lra.
Qed.
Lemma PI_3_4 : 3 < PI < 4.
Proof. pose proof PI_bounds. lra. Qed.
Lemma sinc_le x : 0 < x <= PI -> 0 <= sin x / x <= 1.
Proof.
  intros [H0 H1]. split.
  - apply Rmult_le_pos; [apply sin_ge_0; lra | left; apply Rinv_0_lt_compat; exact H0].
  - apply Rle_div_l; [lra|]. rewrite Rmult_1_l. left. apply sin_lt_x. exact H0.
Qed.
Lemma sc_near x : 0 <= x <= PI -> 0 <= sc x <= 1 /\ Rabs (ps x) <= 1 /\ Rabs (sc x - ps x) <= err.
Proof.
  intros [H0 H1]. pose proof PI_3_4 as PP. destruct (Req_dec x 0) as [->|N].
  - rewrite ps_0. unfold sc. rewrite root4. rewrite ! (proj2 (Rltb_false _ _)) by (unfold eps; lra).
    split; [lra|]. rewrite Rminus_diag_eq by reflexivity. rewrite Rabs_R0, Rabs_R1. unfold err. lra.
  - pose proof (below_pi x ltac:(lra)) as B. pose proof (sinc_le x ltac:(lra)) as S.
    assert (E1 : 0 < err < 1) by (unfold err; lra).
    split; [|split; [apply Rabs_le; lra|]].
    + unfold sc. destruct (Rltb eps_root4 x) eqn:R4; [exact S|]. apply Rltb_false in R4. rewrite root4 in R4.
      destruct (Rltb eps x) eqn:RE; [|lra]. assert (0 <= x * x <= 1) by nra. nra.
    + unfold sc. destruct (Rltb eps_root4 x) eqn:R4; [apply Rabs_le; lra|]. apply Rltb_false in R4. rewrite root4 in R4.
      destruct (Rltb eps x) eqn:RE.
      * pose proof (sin_bound x 0 ltac:(lra) H1) as [_ B2]. pose proof (sin_bound x 1 ltac:(lra) H1) as [B3 _].
        change (2 * (0 + 1))%nat with 2%nat in B2. change (2 * 1 + 1)%nat with 3%nat in B3. rewrite approx_3 in B3. rewrite approx_2 in B2, B3.
        set (T := 1 + x * x * (5 / 100 * (x * x) - 1) / 6) in *.
        assert (X : 0 <= x * x <= 1) by nra.
        assert (T1 : sin x / x <= T). { apply Rle_div_l; lra. }
        assert (T2 : T - x ^ 6 / 5040 <= sin x / x). { apply Rle_div_r; [lra|]. replace ((T - x ^ 6 / 5040) * x) with (x * T - x ^ 7 / 5040) by field. exact B3. }
        assert (X6 : x ^ 6 <= (1 / 10 ^ 6) ^ 6) by (apply pow_incr; lra).
        assert ((1 / 10 ^ 6) ^ 6 / 5040 <= err / 2) by (unfold err; lra).
        apply Rabs_le. lra.
      * apply Rltb_false in RE. pose proof (sin_bound x 0 ltac:(lra) H1) as [B1 _]. change (2 * 0 + 1)%nat with 1%nat in B1. rewrite approx_1 in B1.
        assert (T2 : 1 - x * x / 6 <= sin x / x). { apply Rle_div_r; [lra|]. replace ((1 - x * x / 6) * x) with (x - x ^ 3 / 6) by field. exact B1. }
        assert (x * x <= 1 / 10 ^ 6 * (1 / 10 ^ 6)) by (apply Rmult_le_compat; lra).
        assert (1 / 10 ^ 6 * (1 / 10 ^ 6) / 6 <= err / 2) by (unfold err; lra).
        apply Rabs_le. lra.
Qed.
(** ** The integral *)
(** the coefficients pi^(2k) / (2k+1)! with alternating signs, in units of 10^-13 *)
Definition unit_ : Z := 10000000000000.
Definition dz : list Z := [10000000000000; -16449340668482; 8117424252834; -1907518241221; 261478478177; -23460810355; 1484287930; -69758737; 2531217; -73047]%Z.
Definition err0 : R := 5 / 10 ^ 10.
Fixpoint close (w d : R) (a b : list Z) (k : nat) : Prop :=
  match a, b with
  | [], [] => True
  | x :: r, y :: s => Rabs (IZR x / IZR unit_ - IZR y / IZR f19 * w ^ k) <= d /\ close w d r s (S k)
  | _, _ => False
  end.
Lemma close_pe w d y : 0 <= y <= 1 -> 0 <= d -> forall a b k, close w d a b k ->
  Rabs (pe a y / IZR unit_ - w ^ k * (pe b (w * y) / IZR f19)) <= INR (length a) * d.
Proof.
  intros Hy Hd. assert (0 < IZR unit_) by (unfold unit_; lra). assert (0 < IZR f19) by (unfold f19; lra).
  induction a as [|x r IH]; intros [|z s] k; cbn [close]; try contradiction.
  - intros _. cbn [pe length INR]. replace (0 / IZR unit_ - w ^ k * (0 / IZR f19)) with 0 by (field; lra). rewrite Rabs_R0. lra.
  - intros [H1 H2]. specialize (IH s (S k) H2). cbn [pe length]. rewrite S_INR. cbn [pow] in IH.
    replace ((IZR x + y * pe r y) / IZR unit_ - w ^ k * ((IZR z + w * y * pe s (w * y)) / IZR f19))
      with ((IZR x / IZR unit_ - IZR z / IZR f19 * w ^ k) + y * (pe r y / IZR unit_ - w * w ^ k * (pe s (w * y) / IZR f19))) by (field; lra).
    eapply Rle_trans; [apply Rabs_triang|]. rewrite Rabs_mult, (Rabs_pos_eq y) by lra.
    set (q := Rabs (pe r y / _ - _)) in *. assert (0 <= q) by apply Rabs_pos. assert (0 <= INR (length r) * d) by (apply Rmult_le_pos; [apply pos_INR | exact Hd]). nra.
Qed.
Lemma dz_close : close (PI * PI) (3 / 10 ^ 12) dz taylor 0.
Proof.
  pose proof PI_bounds as [P1 P2]. set (l := 3141592653589 / 10 ^ 12) in *. set (u := 3141592653590 / 10 ^ 12) in *.
  assert (L0 : 0 <= l * l) by (unfold l; lra).
  assert (W : l * l <= PI * PI <= u * u) by (split; apply Rmult_le_compat; unfold l in *; lra).
  set (w := PI * PI) in *. clearbody w.
  assert (B : forall k, (l * l) ^ k <= w ^ k <= (u * u) ^ k) by (intros k; split; apply pow_incr; lra).
  unfold dz, taylor. cbn [close]. unfold unit_, f19.
  repeat (split; [match goal with |- Rabs (_ - _ * _ ^ ?k) <= _ => generalize (B k); generalize (w ^ k); intros q [Q1 Q2]; unfold l, u in Q1, Q2; cbn [pow] in Q1, Q2 end; apply Rabs_le; lra|]). exact I.
Qed.
Lemma dz_near t : 0 <= t <= 1 -> Rabs (pe dz (t * t) / IZR unit_ - sc (t * PI)) <= err0.
Proof.
  intros Ht. pose proof PI_3_4 as PP. destruct (sc_near (t * PI) ltac:(nra)) as (_ & _ & S).
  pose proof (close_pe (PI * PI) (3 / 10 ^ 12) (t * t) ltac:(nra) ltac:(lra) dz taylor 0 dz_close) as C. cbn [pow] in C. rewrite Rmult_1_l in C.
  replace (PI * PI * (t * t)) with (t * PI * (t * PI)) in C by ring. fold (ps (t * PI)) in C.
  replace (INR (length dz)) with 10 in C by (cbn; ring).
  replace (pe dz (t * t) / IZR unit_ - sc (t * PI)) with ((pe dz (t * t) / IZR unit_ - ps (t * PI)) - (sc (t * PI) - ps (t * PI))) by ring.
  unfold Rminus at 1. eapply Rle_trans; [apply Rabs_triang|]. rewrite Rabs_Ropp. unfold err, err0 in *. lra.
Qed.
Definition rnd (l : list Z) : list Z := map (fun c => c / unit_)%Z l.
Lemma rnd_near l y : 0 <= y <= 1 -> Rabs (pe (rnd l) y - pe l y / IZR unit_) <= INR (length l).
Proof.
  intros Hy. assert (0 < IZR unit_) by (unfold unit_; lra). induction l as [|c r IH]; cbn [rnd map pe length].
  - replace (0 - 0 / IZR unit_) with 0 by (field; lra). rewrite Rabs_R0. cbn. lra.
  - rewrite S_INR. fold (rnd r). pose proof (floor_near c unit_ ltac:(unfold unit_; lia)) as B.
    replace (IZR (c / unit_) + y * pe (rnd r) y - (IZR c + y * pe r y) / IZR unit_)
      with ((IZR (c / unit_) - IZR c / IZR unit_) + y * (pe (rnd r) y - pe r y / IZR unit_)) by (field; lra).
    eapply Rle_trans; [apply Rabs_triang|]. rewrite Rabs_mult, (Rabs_pos_eq y) by lra.
    assert (Rabs (IZR (c / unit_) - IZR c / IZR unit_) <= 1) by (apply Rabs_le; lra).
    set (q := Rabs (pe (rnd r) y - _)) in *. assert (0 <= q) by apply Rabs_pos. nra.
Qed.
(** the powers *)
Fixpoint pw (k : nat) : list Z := match k with O => [unit_] | S j => rnd (pmul dz (pw j)) end.
Definition step_err : R := 2 * err0 + 200 / IZR unit_.
Lemma rnd_length l : length (rnd l) = length l.
Proof. apply map_length. Qed.
Lemma pw_near t m : 0 <= t <= 1 -> (m <= 12)%nat -> (forall k, (k <= m)%nat -> (length (pw k) <= 200)%nat) ->
  Rabs (pe (pw m) (t * t) / IZR unit_ - sc (t * PI) ^ m) <= INR m * step_err.
Proof.
  intros Ht Hm HL. assert (U : 0 < IZR unit_) by (unfold unit_; lra). pose proof PI_3_4 as PP.
  pose proof (dz_near t Ht) as D. destruct (sc_near (t * PI) ltac:(nra)) as (S & _ & _). set (q := sc (t * PI)) in *. clearbody q.
  assert (Y : 0 <= t * t <= 1) by nra.
  assert (SE : 0 <= step_err <= 2 / 10 ^ 9) by (unfold step_err, err0, unit_; lra).
  induction m as [|m IH].
  - cbn [pw pe pow INR]. replace ((IZR unit_ + t * t * 0) / IZR unit_ - 1) with 0 by (field; lra). rewrite Rabs_R0. lra.
  - specialize (IH ltac:(lia) ltac:(intros; apply HL; lia)). pose proof (HL (Datatypes.S m) ltac:(lia)) as L. cbn [pw] in *. rewrite rnd_length in L.
    pose proof (rnd_near (pmul dz (pw m)) (t * t) Y) as R. rewrite pe_mul in R. apply le_INR in L. rewrite (INR_IZR_INZ 200) in L. change (Z.of_nat 200) with 200%Z in L.
    set (A := pe (rnd _) _) in *. set (d := pe dz (t * t)) in *. set (p := pe (pw m) (t * t)) in *. clearbody A d p.
    assert (Bq : 0 <= q ^ m <= 1) by (split; [apply pow_le; lra | rewrite <- (pow1 m); apply pow_incr; lra]).
    assert (Mb : INR m <= 12) by (change 12 with (IZR (Z.of_nat 12)); rewrite <- INR_IZR_INZ; apply le_INR; lia). pose proof (pos_INR m) as M0.
    assert (P1 : Rabs (p / IZR unit_) <= 2).
    { replace (p / IZR unit_) with ((p / IZR unit_ - q ^ m) + q ^ m) by ring. eapply Rle_trans; [apply Rabs_triang|]. rewrite (Rabs_pos_eq (q ^ m)) by lra. assert (INR m * step_err <= 12 * (2 / 10 ^ 9)) by (apply Rmult_le_compat; lra). lra. }
    replace (A / IZR unit_ - q ^ Datatypes.S m) with ((A - d * p / IZR unit_) / IZR unit_ + (d / IZR unit_ - q) * (p / IZR unit_) + q * (p / IZR unit_ - q ^ m)) by (cbn [pow]; field; lra).
    assert (T1 : Rabs ((A - d * p / IZR unit_) / IZR unit_) <= 200 / IZR unit_).
    { unfold Rdiv at 1. rewrite Rabs_mult, (Rabs_pos_eq (/ IZR unit_)) by (left; apply Rinv_0_lt_compat; exact U). apply Rmult_le_compat_r; [left; apply Rinv_0_lt_compat; exact U | lra]. }
    assert (T2 : Rabs ((d / IZR unit_ - q) * (p / IZR unit_)) <= err0 * 2) by (rewrite Rabs_mult; apply Rmult_le_compat; try apply Rabs_pos; assumption).
    assert (T3 : Rabs (q * (p / IZR unit_ - q ^ m)) <= 1 * (INR m * step_err)) by (rewrite Rabs_mult, (Rabs_pos_eq q) by lra; apply Rmult_le_compat; try apply Rabs_pos; lra).
    eapply Rle_trans; [apply Rabs_triang|]. eapply Rle_trans; [apply Rplus_le_compat_r, Rabs_triang|]. rewrite S_INR. unfold step_err in *. lra.
Qed.
Lemma scaled_int n h s c (G W : R -> R) :
  (1 <= n <= 3)%nat -> 0 < h -> 0 < c -> (forall t, is_derive G t (t ^ (n - 1) * W t)) -> (forall t, continuous W t) ->
  is_RInt (fun r => shell n r * (s / h ^ n * W (r / h * c))) 0 h (shell_c n * s / c ^ n * (G c - G 0)).
Proof.
  intros Hn Hh Hc HG HW.
  replace (shell_c n * s / c ^ n * (G c - G 0)) with (shell_c n * s / c ^ n * G (h / h * c) - shell_c n * s / c ^ n * G (0 / h * c)).
  2:{ replace (h / h * c) with c by (field; lra). replace (0 / h * c) with 0 by (field; lra). ring. }
  assert (E : forall r, shell n r * (s / h ^ n * W (r / h * c)) = shell_c n * s / c ^ n * (c / h * ((r / h * c) ^ (n - 1) * W (r / h * c)))).
  { intros r. destruct n as [|[|[|[|n]]]]; try lia; cbn [shell shell_c Nat.sub pow]; field; lra. }
  apply (is_RInt_derive (V := R_CompleteNormedModule) (fun r => shell_c n * s / c ^ n * G (r / h * c))).
  - intros r _. rewrite E. apply is_derive_scal. apply (is_derive_comp G (fun r => r / h * c) r); [apply HG|]. auto_derive; [lra|]. asR. field. lra.
  - intros r _. apply (continuous_ext (fun r => scal (shell_c n * s / c ^ n * (c / h)) (scal ((r / h * c) ^ (n - 1)) (W (r / h * c))))).
    + intros u. rewrite E. unfold scal; cbn. unfold mult; cbn. ring.
    + apply (continuous_scal_r (V := R_NormedModule)). apply (continuous_scal (V := R_NormedModule) (fun r => (r / h * c) ^ (n - 1)) (fun r => W (r / h * c))).
      * apply (ex_derive_continuous (K := R_AbsRing) (V := R_NormedModule)). auto_derive. lra.
      * apply (continuous_comp (fun r => r / h * c) W); [|apply HW]. apply (ex_derive_continuous (K := R_AbsRing) (V := R_NormedModule)). auto_derive. lra.
Qed.
Lemma pe_cont l y : continuous (pe l) y.
Proof.
  induction l as [|c r IH]; cbn [pe]; [apply continuous_const|].
  apply (continuous_plus (V := R_NormedModule) (fun _ => IZR c) (fun y => y * pe r y)); [apply continuous_const|].
  apply (continuous_mult (K := R_AbsRing) (fun y => y) (pe r)); [apply continuous_id | exact IH].
Qed.
Lemma ex_scaled (g : R -> R) m n c q r : (1 <= n <= 3)%nat -> ex_derive g (r * c) -> ex_derive (fun r => shell n r * (q * g (r * c) ^ m)) r.
Proof.
  intros Hn Hg. assert (S : ex_derive (shell n) r).
  { destruct n as [|[|[|[|k]]]]; try lia; unfold shell; [apply ex_derive_const | |]; auto_derive; trivial. }
  apply (ex_derive_mult (shell n) (fun r => q * g (r * c) ^ m) r S). apply (ex_derive_scal (fun r => g (r * c) ^ m) q r).
  apply (ex_derive_pow (fun r => g (r * c)) m r). apply (ex_derive_comp g (fun r => r * c) r Hg). auto_derive. trivial.
Qed.
Section Kernel.
Variables (m n : nat) (h : R).
Hypotheses (Hm : (1 <= m)%nat) (Hn : (1 <= n <= 3)%nat) (Hh : 0 < h).
Let s := sinc_sigma (INR m) n.
Let F (r : R) := shell n r * kernel (INR m) sinc_ker n r h.
Lemma scaled r : 0 <= r <= h -> 0 <= r / h * PI <= PI.
Proof.
  intros H. pose proof PI_3_4. assert (0 <= r / h <= 1) by (split; [apply Rle_div_r; lra | apply Rle_div_l; lra]). nra.
Qed.
Lemma kernel_sc r : 0 <= r <= h -> F r = shell n r * (s / h ^ n * sc (r / h * PI) ^ m).
Proof.
  intros H. unfold F. f_equal. cbn [kernel]. unfold W_sinc. pose proof PI_3_4 as PP. pose proof (scaled r H) as X.
  assert (Q : 0 <= r / h <= 1) by (split; [apply Rle_div_r; lra | apply Rle_div_l; lra]).
  rewrite Rabs_pos_eq by lra. destruct (Rltb (r / h) 1) eqn:E.
  - apply Rltb_true in E. change (sinc_sigma (INR m) n) with s. f_equal.
    set (x := r / h * PI) in *. assert (P : 0 < sc x).
    { unfold sc. destruct (Rltb eps_root4 x) eqn:R4.
      - apply Rltb_true in R4. rewrite root4 in R4. assert (x < PI) by (unfold x; nra). apply Rdiv_lt_0_compat; [apply sin_gt_0; lra | lra].
      - apply Rltb_false in R4. rewrite root4 in R4. destruct (Rltb eps x); [|lra]. assert (0 <= x * x <= 1) by nra. nra. }
    change (Rpower (sc x) (INR m) = sc x ^ m). apply Rpower_pow. exact P.
  - apply Rltb_false in E. replace (r / h) with 1 by lra. rewrite Rmult_1_l. unfold sc. rewrite root4, (proj2 (Rltb_true _ _)) by lra.
    rewrite sin_PI. unfold Rdiv at 2. rewrite Rmult_0_l, pow_i by lia. ring.
Qed.
Lemma ex_piece (g : R -> R) a b : 0 <= a <= b -> b <= h -> (forall r, a < r < b -> sc (r / h * PI) = g (r / h * PI)) ->
  (forall r, a <= r <= b -> ex_derive g (r / h * PI)) -> ex_RInt F a b.
Proof.
  intros Hab Hb Hg Hc. apply (ex_RInt_ext (fun r => shell n r * (s / h ^ n * g (r / h * PI) ^ m))).
  - intros r Hr. rewrite Rmin_left, Rmax_right in Hr by lra. rewrite kernel_sc by lra. rewrite Hg by lra. reflexivity.
  - apply (ex_RInt_continuous (V := R_CompleteNormedModule)). intros r Hr. rewrite Rmin_left, Rmax_right in Hr by lra.
    apply (ex_derive_continuous (K := R_AbsRing) (V := R_NormedModule)). specialize (Hc r Hr).
    apply (ex_derive_ext (fun r => shell n r * (s / h ^ n * g (r * (PI / h)) ^ m))); [intros t; replace (t / h * PI) with (t * (PI / h)) by (field; lra); reflexivity|].
    generalize (s / h ^ n). intros q. apply ex_scaled; [exact Hn|]. replace (r * (PI / h)) with (r / h * PI) by (field; lra). exact Hc.
Qed.
Lemma ex_kernel : ex_RInt F 0 h.
Proof.
  pose proof PI_3_4 as PP.
  set (e1 := eps * h / PI). set (e2 := eps_root4 * h / PI).
  assert (L : forall r t, (r < t * h / PI <-> r / h * PI < t) /\ (r <= t * h / PI <-> r / h * PI <= t)).
  { intros r t. replace (r / h * PI) with (r * PI / h) by (field; lra).
    split; [rewrite <- Rlt_div_r, <- Rlt_div_l by lra | rewrite <- Rle_div_r, <- Rle_div_l by lra]; reflexivity. }
  assert (L' : forall r t, (t * h / PI < r <-> t < r / h * PI) /\ (t * h / PI <= r <-> t <= r / h * PI)).
  { intros r t. replace (r / h * PI) with (r * PI / h) by (field; lra).
    split; [rewrite <- Rlt_div_r, <- Rlt_div_l by lra | rewrite <- Rle_div_r, <- Rle_div_l by lra]; reflexivity. }
  assert (E1 : 0 < e1) by (unfold e1, eps; apply Rdiv_lt_0_compat; nra).
  assert (E2 : e1 < e2) by (unfold e1, e2; rewrite root4; unfold eps; apply Rmult_lt_compat_r; [apply Rinv_0_lt_compat; lra | nra]).
  assert (E3 : e2 < h) by (unfold e2; rewrite root4; apply Rlt_div_l; nra).
  apply ex_RInt_Chasles with e1; [|apply ex_RInt_Chasles with e2].
  - apply (ex_piece (fun _ => 1)); [lra|lra| |intros; auto_derive; trivial].
    intros r Hr. unfold sc. assert (r / h * PI < eps) by (apply L; apply Hr). rewrite ! (proj2 (Rltb_false _ _)); [reflexivity|lra|].
    rewrite root4. unfold eps in *. lra.
  - apply (ex_piece (fun x => 1 + x * x * (5 / 100 * (x * x) - 1) / 6)); [lra|lra| |intros; auto_derive; trivial].
    intros r Hr. unfold sc. assert (r / h * PI < eps_root4) by (apply L; apply Hr). assert (eps < r / h * PI) by (apply L'; apply Hr).
    rewrite (proj2 (Rltb_false _ _)) by lra. rewrite (proj2 (Rltb_true _ _)) by lra. reflexivity.
  - apply (ex_piece (fun x => sin x / x)); [lra|lra| |].
    + intros r Hr. unfold sc. assert (eps_root4 < r / h * PI) by (apply L'; apply Hr). rewrite (proj2 (Rltb_true _ _)) by lra. reflexivity.
    + intros r Hr. assert (eps_root4 <= r / h * PI) by (apply L'; apply Hr). rewrite root4 in *. auto_derive. lra.
Qed.
Lemma kernel_near : 0 <= s -> (m <= 12)%nat -> (forall k, (k <= m)%nat -> (length (pw k) <= 200)%nat) -> exists I, is_RInt F 0 h I /\
  Rabs (I - shell_c n * s * (ge (pw m) n 1 / IZR unit_)) <= shell_c n * s * (INR m * step_err).
Proof.
  intros Hs Hm12 HL. pose proof PI_3_4 as PP. destruct ex_kernel as (I & HI). exists I. split; [exact HI|].
  assert (U : 0 < IZR unit_) by (unfold unit_; lra).
  set (J := shell_c n * s * (ge (pw m) n 1 / IZR unit_)).
  assert (HJ : is_RInt (fun r => shell n r * (s / h ^ n * (pe (pw m) (r / h * 1 * (r / h * 1)) / IZR unit_))) 0 h J).
  { replace J with (shell_c n * s / 1 ^ n * (/ IZR unit_ * ge (pw m) n 1 - / IZR unit_ * ge (pw m) n 0)) by (rewrite ge_0, pow1 by lia; unfold J; field; lra).
    apply (scaled_int n h s 1 (fun x => / IZR unit_ * ge (pw m) n x) (fun t => pe (pw m) (t * t) / IZR unit_) Hn Hh ltac:(lra)).
    - intros t. replace (t ^ (n - 1) * (pe (pw m) (t * t) / IZR unit_)) with (/ IZR unit_ * (t ^ (n - 1) * pe (pw m) (t * t))) by (field; lra).
      apply is_derive_scal. apply ge_deriv. lia.
    - intros t. apply (continuous_ext (fun t => scal (/ IZR unit_) (pe (pw m) (t * t)))); [intros u; unfold scal; cbn; unfold mult; cbn; field; lra|].
      apply (continuous_scal_r (V := R_NormedModule)). apply (continuous_comp (fun x => x * x) (pe (pw m))); [|apply pe_cont].
      apply (ex_derive_continuous (K := R_AbsRing) (V := R_NormedModule)). auto_derive. trivial. }
  pose proof (is_RInt_minus (V := R_NormedModule) _ _ _ _ _ _ HI HJ) as HD.
  replace (shell_c n * s * (INR m * step_err)) with ((h - 0) * (shell_c n * s * (INR m * step_err) / h)) by (field; lra).
  change (Hierarchy.norm (minus I J) <= (h - 0) * (shell_c n * s * (INR m * step_err) / h)).
  refine (norm_RInt_le_const (V := R_NormedModule) _ 0 h _ _ ltac:(lra) _ HD). intros r Hr.
  change (Rabs (F r - shell n r * (s / h ^ n * (pe (pw m) (r / h * 1 * (r / h * 1)) / IZR unit_))) <= shell_c n * s * (INR m * step_err) / h).
  rewrite kernel_sc by exact Hr. rewrite Rmult_1_r.
  assert (Q : 0 <= r / h <= 1) by (split; [apply Rle_div_r; lra | apply Rle_div_l; lra]).
  pose proof (pw_near (r / h) m Q Hm12 HL) as PN. set (p := pe (pw m) (r / h * (r / h)) / IZR unit_) in *. set (q := sc (r / h * PI) ^ m) in *.
  replace (shell n r * (s / h ^ n * q) - shell n r * (s / h ^ n * p)) with (shell n r * (s / h ^ n) * - (p - q)) by ring.
  rewrite Rabs_mult, Rabs_Ropp.
  assert (Sh : 0 <= shell n r * (s / h ^ n) <= shell_c n * s / h).
  { assert (E : shell n r * (s / h ^ n) = shell_c n * s / h * (r / h) ^ (n - 1)).
    { destruct n as [|[|[|[|k]]]]; try lia; cbn [shell shell_c Nat.sub pow]; field; lra. }
    assert (C : 0 <= shell_c n * s / h).
    { assert (0 <= shell_c n) by (destruct n as [|[|[|[|k]]]]; try lia; cbn [shell_c]; lra). apply Rmult_le_pos; [apply Rmult_le_pos; assumption | left; apply Rinv_0_lt_compat; exact Hh]. }
    assert (0 <= (r / h) ^ (n - 1) <= 1). { split; [apply pow_le; lra|]. rewrite <- (pow1 (n - 1)). apply pow_incr. exact Q. }
    rewrite E. split; [apply Rmult_le_pos; lra|]. rewrite <- (Rmult_1_r (shell_c n * s / h)) at 2. apply Rmult_le_compat_l; lra. }
  rewrite (Rabs_pos_eq (shell n r * (s / h ^ n))) by apply Sh.
  replace (shell_c n * s * (INR m * step_err) / h) with (shell_c n * s / h * (INR m * step_err)) by (field; lra).
  apply Rmult_le_compat; [apply Sh | apply Rabs_pos | apply Sh | exact PN].
Qed.
End Kernel.

(** ** The numbers *)
Definition sqlo (m : Z) : Q := Z.sqrt (m * 10 ^ 16) # (10 ^ 8).
Definition sqhi (m : Z) : Q := (Z.sqrt (m * 10 ^ 16) + 1) # (10 ^ 8).
Definition sigq (m : Z) (n : nat) (l u : Q) : Q :=
  match n with
  | 1%nat => 2 * ((-15404568 # 1000000000) + (36632876 # 100000000) * l + (-46519576 # 100000000000) * inject_Z m + (73658324 # 1000000000) * / u)
  | 2%nat => 4 * ((52245027 # 1000000000) + (13090245 # 100000000) * inject_Z m + (19358485 # 1000000000) * / inject_Z m + (-61642906 # 10000000000) * / (inject_Z m * inject_Z m))
  | _ => 8 * ((27012593 # 1000000000) + (20410827 # 1000000000) * l + (37451957 # 10000000000) * inject_Z m + (47013839 # 1000000000) * l * inject_Z m)
  end%Q.
Definition clo (n : nat) : Q := match n with 1%nat => 2 | 2%nat => 6283185307178 # 10 ^ 12 | _ => 12566370614356 # 10 ^ 12 end.
Definition chi (n : nat) : Q := match n with 1%nat => 2 | 2%nat => 6283185307180 # 10 ^ 12 | _ => 12566370614360 # 10 ^ 12 end.
Definition check (m : nat) (l : list Z) (n : nat) : bool :=
  let z := Z.of_nat m in
  let sl := sigq z n (sqlo z) (sqhi z) in
  let su := sigq z n (sqhi z) (sqlo z) in
  let g := gz l n # 10000000000000 in
  let e := (inject_Z z * (2 # 10 ^ 9) + (2 # 10 ^ 11))%Q in
  (Qle_bool 0 sl && Qle_bool 0 (g - e) && Qle_bool (1 - (5 # 10 ^ 5)) (clo n * sl * (g - e)) && Qle_bool (chi n * su * (g + e)) (1 + (5 # 10 ^ 5)))%bool%Q.
Definition test (m : nat) (l : list Z) : bool := ((length l <=? 200)%nat && ((m <? 3)%nat || forallb (check m l) [1; 2; 3]%nat))%bool.
Fixpoint chk (cnt m : nat) (l : list Z) : bool := match cnt with O => true | S c => (test m l && chk c (S m) (rnd (pmul dz l)))%bool end.
Lemma checked : chk 13 0 (pw 0) = true.
Proof. vm_compute. reflexivity. Qed.
Lemma chk_at : forall cnt m, chk cnt m (pw m) = true -> forall j, (m <= j < m + cnt)%nat -> test j (pw j) = true.
Proof.
  induction cnt as [|c IH]; intros m H j Hj; [lia|]. cbn [chk] in H. apply andb_prop in H. destruct H as [H1 H2].
  destruct (Nat.eq_dec j m) as [->|N]; [exact H1|]. apply (IH (S m)); [exact H2 | lia].
Qed.
Lemma tested m : (m <= 12)%nat -> (length (pw m) <= 200)%nat /\ ((3 <= m)%nat -> forall n, (1 <= n <= 3)%nat -> check m (pw m) n = true).
Proof.
  intros Hm. pose proof (chk_at 13 0 checked m ltac:(lia)) as T. unfold test in T. apply andb_prop in T. destruct T as [T1 T2].
  split; [apply Nat.leb_le; exact T1|]. intros H3 n Hn. apply orb_prop in T2. destruct T2 as [T2|T2]; [apply Nat.ltb_lt in T2; lia|].
  rewrite forallb_forall in T2. apply T2. destruct n as [|[|[|[|n]]]]; try lia; cbn; auto.
Qed.
Lemma Q2R_lit z p : Q2R (z # p) = IZR z / IZR (Zpos p).
Proof. reflexivity. Qed.
Lemma sq_bounds m : (1 <= m)%Z -> 1 <= Q2R (sqlo m) /\ Q2R (sqlo m) <= sqrt (IZR m) <= Q2R (sqhi m).
Proof.
  intros Hm. unfold sqlo, sqhi. rewrite ! Q2R_lit. change (Z.pos (10 ^ 8)) with 100000000%Z.
  pose proof (Z.sqrt_spec (m * 10 ^ 16) ltac:(lia)) as [A B]. pose proof (Z.sqrt_le_square (m * 10 ^ 16) (10 ^ 8) ltac:(lia) ltac:(lia)) as C.
  assert (D : (10 ^ 8 <= Z.sqrt (m * 10 ^ 16))%Z) by (apply C; lia). set (r := Z.sqrt (m * 10 ^ 16)) in *. clearbody r.
  apply IZR_le in A, D. apply IZR_lt in B. rewrite ! mult_IZR, ? succ_IZR in *. change (IZR (10 ^ 16)) with 10000000000000000 in *. change (IZR (10 ^ 8)) with 100000000 in *.
  split; [lra|]. split.
  - rewrite <- (sqrt_square (IZR r / 100000000)) by lra. apply sqrt_le_1_alt. nra.
  - rewrite plus_IZR. rewrite <- (sqrt_square ((IZR r + 1) / 100000000)) by lra. apply sqrt_le_1_alt. nra.
Qed.
Lemma sig_bounds m n : (3 <= m)%nat -> (1 <= n <= 3)%nat ->
  Q2R (sigq (Z.of_nat m) n (sqlo (Z.of_nat m)) (sqhi (Z.of_nat m))) <= sinc_sigma (INR m) n <= Q2R (sigq (Z.of_nat m) n (sqhi (Z.of_nat m)) (sqlo (Z.of_nat m))).
Proof.
  intros Hm Hn. pose proof (sq_bounds (Z.of_nat m) ltac:(lia)) as (B0 & B1 & B2). rewrite <- INR_IZR_INZ in B1, B2.
  assert (M : 3 <= INR m) by (change 3 with (IZR (Z.of_nat 3)); rewrite <- INR_IZR_INZ; apply le_INR; exact Hm).
  set (l := sqlo _) in *. set (u := sqhi _) in *. clearbody l u.
  assert (I1 : / Q2R u <= / sqrt (INR m) <= / Q2R l) by (split; apply Rinv_le_contravar; lra).
  assert (NQ : forall q : Q, 0 < Q2R q -> ~ (q == 0)%Q) by (intros q P E; apply Qeq_eqR in E; unfold Q2R in E at 2; cbn in E; lra).
  assert (IZ : Q2R (inject_Z (Z.of_nat m)) = INR m) by (rewrite Q2R_inject; symmetry; apply INR_IZR_INZ).
  destruct n as [|[|[|[|n]]]]; try lia; unfold sigq, sinc_sigma, pick, si_b0, si_b1, si_b2, si_b3, pick.
  - rewrite ! Q2R_mult, ! Q2R_plus, ! Q2R_mult, ! Q2R_inv, IZ, ! Q2R_lit by (apply NQ; lra). change (Q2R 2) with (IZR 2 * / 1). lra.
  - rewrite ! Q2R_mult, ! Q2R_plus, ! Q2R_mult, ! Q2R_inv, ? Q2R_mult, IZ, ! Q2R_lit by (apply NQ; rewrite ? Q2R_mult, IZ; nra). change (Q2R 4) with (IZR 4 * / 1). lra.
  - rewrite ! Q2R_mult, ! Q2R_plus, ! Q2R_mult, IZ, ! Q2R_lit. change (Q2R 8) with (IZR 8 * / 1).
    assert (Q2R l * INR m <= sqrt (INR m) * INR m <= Q2R u * INR m) by (split; apply Rmult_le_compat_r; lra). lra.
Qed.
Lemma c_bounds n : (1 <= n <= 3)%nat -> 0 <= Q2R (clo n) <= shell_c n /\ shell_c n <= Q2R (chi n).
Proof.
  intros Hn. pose proof PI_bounds as [P1 P2]. destruct n as [|[|[|[|n]]]]; try lia; unfold clo, chi, shell_c.
  - change (Q2R 2) with (IZR 2 * / 1). lra.
  - rewrite ! Q2R_lit. change (Z.pos (10 ^ 12)) with 1000000000000%Z. lra.
  - rewrite ! Q2R_lit. change (Z.pos (10 ^ 12)) with 1000000000000%Z. lra.
Qed.
Theorem C34_sinc m n h : (3 <= m <= 12)%nat -> (1 <= n <= 3)%nat -> 0 < h ->
  exists I, is_RInt (fun r => shell n r * kernel (INR m) sinc_ker n r h) 0 h I /\ Rabs (I - 1) <= 5 / 10 ^ 5.
Proof.
  intros Hm Hn Hh. destruct (tested m ltac:(lia)) as [_ T]. specialize (T ltac:(lia) n Hn). unfold check in T.
  pose proof (sig_bounds m n ltac:(lia) Hn) as [SL SU]. pose proof (c_bounds n Hn) as [[C0 CL] CU].
  set (sl := sigq _ n (sqlo _) _) in *. set (su := sigq _ n (sqhi _) _) in *. clearbody sl su.
  apply andb_prop in T. destruct T as [T T4]. apply andb_prop in T. destruct T as [T T3]. apply andb_prop in T. destruct T as [T1 T2].
  apply Qle_bool_iff in T1, T2, T3, T4. apply Qle_Rle in T1, T2, T3, T4.
  rewrite ! Q2R_mult, ! Q2R_minus in T3. rewrite ! Q2R_mult, (Q2R_plus 1), (Q2R_plus (_ # 10000000000000)) in T4. rewrite Q2R_minus in T2.
  set (cl := Q2R (clo n)) in *. set (cu := Q2R (chi n)) in *. set (s := sinc_sigma (INR m) n) in *.
  set (E := Q2R (inject_Z (Z.of_nat m) * (2 # 10 ^ 9) + (2 # 10 ^ 11))) in *.
  assert (EE : E = INR m * (2 / 10 ^ 9) + 2 / 10 ^ 11).
  { unfold E. rewrite Q2R_plus, Q2R_mult, Q2R_inject, <- INR_IZR_INZ, ! Q2R_lit. change (Z.pos (10 ^ 9)) with 1000000000%Z. change (Z.pos (10 ^ 11)) with 100000000000%Z. lra. }
  set (G := Q2R (gz (pw m) n # 10000000000000)) in *.
  assert (EG : G = IZR (gz (pw m) n) / IZR unit_) by reflexivity.
  rewrite ! Q2R_lit in T3. rewrite ! Q2R_lit in T4. change (Z.pos (10 ^ 5)) with 100000%Z in T3, T4.
  assert (Q0 : Q2R 0 = 0) by (unfold Q2R; cbn; ring). rewrite Q0 in T1, T2.
  destruct (kernel_near m n h ltac:(lia) Hn Hh) as (I & HI & B); [fold s; lra|lia|intros k Hk; apply tested; lia|].
  exists I. split; [exact HI|]. fold s in B.
  pose proof (gz_near (pw m) n ltac:(lia)) as [N1 N2]. destruct (tested m ltac:(lia)) as [L _]. apply le_INR in L. rewrite (INR_IZR_INZ 200) in L. change (Z.of_nat 200) with 200%Z in L.
  set (g := ge (pw m) n 1) in *. set (z := IZR (gz (pw m) n)) in *. clearbody g. pose proof (pos_INR m) as M0.
  assert (K : G - E <= g / IZR unit_ - INR m * step_err /\ g / IZR unit_ + INR m * step_err <= G + E).
  { rewrite EG, EE. unfold step_err, err0, unit_. split; lra. }
  assert (E0 : 0 <= E) by (rewrite EE; lra). clearbody G E cl cu. clear EG EE N1 N2 L.
  assert (B' := B). apply Rabs_le_between in B'.
  set (v := g / IZR unit_) in *. set (w := INR m * step_err) in *. clearbody v w.
  assert (X1 : cl * Q2R sl * (G - E) <= shell_c n * s * (v - w)).
  { apply Rmult_le_compat; [apply Rmult_le_pos; lra | lra | apply Rmult_le_compat; lra | lra]. }
  assert (X2 : shell_c n * s * (v + w) <= cu * Q2R su * (G + E)).
  { apply Rle_trans with (shell_c n * s * (G + E)).
    - apply Rmult_le_compat_l; [apply Rmult_le_pos; lra | lra].
    - apply Rmult_le_compat_r; [lra|]. apply Rmult_le_compat; lra. }
  apply Rabs_le. split; nra.
Qed.
(** the default index, params.h L231-233 *)
Example C34_sinc_case : exists I, is_RInt (fun r => shell 3 r * kernel (INR 4) sinc_ker 3 r (1 / 2)) 0 (1 / 2) I /\ Rabs (I - 1) <= 5 / 10 ^ 5.
Proof. apply C34_sinc; [lia|lia|lra]. Qed.

Print Assumptions C34_sinc.
