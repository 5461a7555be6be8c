(** Property C98: forces in double precision. *)
From Coq Require Import Reals Lra.
From Flocq Require Import Core.
From Verif Require Import Base BuildTree_model Vec Range_model FCell_model FCell_lemmas FSearch_model FSearch_lemmas FSearch_props FForce_model.
From Verif Require Sph_props.
Local Open Scope R_scope.

Definition noext : point := fun _ => 0.

(** ** symmetries *)
Lemma vsub_fl_opp a b i : vsub_fl b a i = - vsub_fl a b i.
Proof. unfold vsub_fl. rewrite <- rnd_opp. f_equal. ring. Qed.
Lemma dot_fl_opp n v v' x x' : (forall i, v' i = - v i) -> (forall i, x' i = - x i) -> dot_fl n v' x' = dot_fl n v x.
Proof. intros Hv Hx. induction n as [|n IH]; [reflexivity|]. cbn [dot_fl]. rewrite IH, Hv, Hx. do 3 f_equal. ring. Qed.
Lemma magnitude_fl_opp n x x' : (forall i, x' i = - x i) -> magnitude_fl n x' = magnitude_fl n x.
Proof.
  intros H. unfold magnitude_fl. destruct n as [|[|n]]; [reflexivity| |].
  - rewrite H. apply Rabs_Ropp.
  - rewrite (dot_fl_opp (S (S n)) x x' x x') by exact H. reflexivity.
Qed.
Lemma gradient_fl_opp cf n h x x' i : (forall i, x' i = - x i) -> gradient_fl cf n x' h i = - gradient_fl cf n x h i.
Proof.
  intros H. unfold gradient_fl. rewrite (magnitude_fl_opp n x x' H). destruct (fc_kernel cf) as [g|sg dw ins].
  - rewrite H, Ropp_mult_distr_l_reverse. apply rnd_opp.
  - destruct (ins _ _); [|ring]. rewrite H. unfold Rdiv. rewrite Ropp_mult_distr_l_reverse, rnd_opp, Ropp_mult_distr_l_reverse, rnd_opp, Ropp_mult_distr_l_reverse. apply rnd_opp.
Qed.
Lemma mean_fl_sym x y : mean_fl x y = mean_fl y x.
Proof. unfold mean_fl. rewrite Rplus_comm. reflexivity. Qed.
Lemma mu_fl_opp cf n h v v' x x' : (forall i, v' i = - v i) -> (forall i, x' i = - x i) -> mu_fl cf n h v' x' = mu_fl cf n h v x.
Proof. intros Hv Hx. unfold mu_fl. rewrite (dot_fl_opp n v v' x x' Hv Hx), (dot_fl_opp n x x' x x' Hx Hx). reflexivity. Qed.
Lemma DiW_fl_opp cf n a b i : DiW_fl cf n b a i = - DiW_fl cf n a b i.
Proof. unfold DiW_fl. rewrite (mean_fl_sym (f_h b)). apply gradient_fl_opp. intros j. apply vsub_fl_opp. Qed.
Lemma same_pos_sym n a b : same_pos_fl n a b = same_pos_fl n b a.
Proof.
  induction n as [|n IH]; [reflexivity|]. cbn [same_pos_fl]. rewrite IH. destruct (Req_EM_T (a n) (b n)), (Req_EM_T (b n) (a n)); congruence.
Qed.
(** The viscosity of a pair is the same number for both. *)
Theorem C98_viscosity cf n a b : Pi_fl cf n a b = Pi_fl cf n b a.
Proof.
  unfold Pi_fl. rewrite (mean_fl_sym (f_alpha b)), (mean_fl_sym (f_rho b)), (mean_fl_sym (f_c b)), (mean_fl_sym (f_h b)). f_equal. symmetry.
  apply mu_fl_opp; intros i; apply vsub_fl_opp.
Qed.
(** the part of a term that both particles share *)
Definition strength (cf : fconf) (n : nat) (a b : fpart) : R := rnd (rnd (Prho2_fl a + Prho2_fl b) + Pi_fl cf n a b).
Lemma strength_sym cf n a b : strength cf n b a = strength cf n a b.
Proof. unfold strength. rewrite (C98_viscosity cf n b a), (Rplus_comm (Prho2_fl b)). reflexivity. Qed.
Lemma term_fl_eq cf n a b d : term_fl cf n a b d = - rnd (DiW_fl cf n a b d * rnd (nb_mass_fl n a b * strength cf n a b)).
Proof.
  unfold term_fl. fold (strength cf n a b). rewrite Ropp_mult_distr_l_reverse, rnd_opp, Ropp_mult_distr_r_reverse. apply rnd_opp.
Qed.
Lemma term_fl_fmt cf n a b d : fmt (term_fl cf n a b d).
Proof. apply rnd_fmt. Qed.
Lemma single cf n a b d : acceleration_fl cf n noext a [b] d = term_fl cf n a b d.
Proof.
  unfold acceleration_fl, noext. cbn [fold_left]. rewrite Rplus_0_l, Rplus_0_r. rewrite (rnd_id (term_fl cf n a b d)) by apply term_fl_fmt. apply rnd_id, term_fl_fmt.
Qed.
(** Two particles of the same mass accelerate each other by exactly opposite amounts,
    whatever the kernel, the viscosity and the rounding errors. *)
Theorem C98_opposite cf n a b d : f_m a = f_m b -> acceleration_fl cf n noext a [b] d = - acceleration_fl cf n noext b [a] d.
Proof.
  intros Hm. rewrite !single, !term_fl_eq, (DiW_fl_opp cf n a b), (strength_sym cf n a b). unfold nb_mass_fl. rewrite (same_pos_sym n (f_pos a)), Hm.
  rewrite Ropp_mult_distr_l_reverse, rnd_opp. ring.
Qed.
(** A particle does not accelerate itself or one in the same place. *)
Theorem C98_self cf n a b d : (forall i, (i < n)%nat -> f_pos a i = f_pos b i) -> acceleration_fl cf n noext a [b] d = 0.
Proof.
  intros H. rewrite single, term_fl_eq. unfold nb_mass_fl. assert (S : same_pos_fl n (f_pos b) (f_pos a) = true).
  { induction n as [|n IH]; [reflexivity|]. cbn [same_pos_fl]. rewrite IH by (intros; apply H; lia). destruct (Req_EM_T (f_pos b n) (f_pos a n)) as [|C]; [reflexivity|]. exfalso. apply C. symmetry. apply H. lia. }
  rewrite S, Rmult_0_l, rnd_0, Rmult_0_r, rnd_0. ring.
Qed.

(** ** masses that differ *)
Lemma term_bound cf n a b d : 0 <= f_m a -> exists x, 0 <= f_m b ->
  Rabs (f_m a * term_fl cf n a b d - x) <= 3 * u53 * Rabs x + f_m a * (tau * (2 * Rabs (DiW_fl cf n a b d) + 1)) /\
  x = - (f_m a * (if same_pos_fl n (f_pos b) (f_pos a) then 0 else f_m b) * strength cf n a b * DiW_fl cf n a b d).
Proof.
  intros Ha. eexists. intros Hb. split; [|reflexivity]. rewrite term_fl_eq. unfold nb_mass_fl.
  set (m := if same_pos_fl n (f_pos b) (f_pos a) then 0 else f_m b). set (D := DiW_fl cf n a b d). set (S := strength cf n a b).
  destruct (rnd_rel (m * S)) as (e1 & t1 & He1 & Ht1 & ->). destruct (rnd_rel (D * (m * S * (1 + e1) + t1))) as (e2 & t2 & He2 & Ht2 & ->). fold tau in Ht1, Ht2.
  replace (f_m a * - (D * (m * S * (1 + e1) + t1) * (1 + e2) + t2) - - (f_m a * m * S * D))
    with (- (f_m a * m * S * D * (e1 + e2 + e1 * e2) + f_m a * (D * t1 * (1 + e2) + t2))) by ring.
  rewrite !Rabs_Ropp. pose proof u53_small as US. pose proof u53_pos as UP. pose proof tau_pos as TP.
  assert (E : Rabs (e1 + e2 + e1 * e2) <= 3 * u53).
  { eapply Rle_trans; [apply Rabs_triang|]. rewrite Rabs_mult. pose proof (Rabs_triang e1 e2). pose proof (Rabs_pos e1). pose proof (Rabs_pos e2). nra. }
  assert (T : Rabs (D * t1 * (1 + e2) + t2) <= tau * (2 * Rabs D + 1)).
  { eapply Rle_trans; [apply Rabs_triang|]. rewrite !Rabs_mult. assert (Rabs (1 + e2) <= 2) by (apply Rabs_le; apply Rabs_le_inv in He2; lra).
    pose proof (Rabs_pos D). pose proof (Rabs_pos t1). pose proof (Rabs_pos (1 + e2)).
    assert (Rabs D * Rabs t1 <= Rabs D * tau) by (apply Rmult_le_compat_l; lra).
    assert (Rabs D * Rabs t1 * Rabs (1 + e2) <= Rabs D * tau * 2) by (apply Rmult_le_compat; try lra; apply Rmult_le_pos; lra). lra. }
  eapply Rle_trans; [apply Rabs_triang|]. rewrite Rabs_mult, (Rabs_mult (f_m a)), (Rabs_pos_eq (f_m a)) by exact Ha. apply Rplus_le_compat.
  - rewrite Rmult_comm. apply Rmult_le_compat_r; [apply Rabs_pos|exact E].
  - apply Rmult_le_compat_l; [exact Ha|exact T].
Qed.
Lemma pair_bound cf n a b d : 0 <= f_m a -> 0 <= f_m b ->
  Rabs (f_m a * term_fl cf n a b d + f_m b * term_fl cf n b a d) <= 7 * u53 * Rabs (f_m a * term_fl cf n a b d) + 2 * (f_m a + f_m b) * (tau * (2 * Rabs (DiW_fl cf n a b d) + 1)).
Proof.
  intros Ha Hb. destruct (term_bound cf n a b d Ha) as (x & Hx). destruct (Hx Hb) as [B1 E1]. clear Hx.
  destruct (term_bound cf n b a d Hb) as (y & Hy). destruct (Hy Ha) as [B2 E2]. clear Hy.
  assert (E : y = - x). { rewrite E1, E2, (DiW_fl_opp cf n a b), (strength_sym cf n a b), (same_pos_sym n (f_pos a)). destruct (same_pos_fl _ _ _); ring. }
  clear E1 E2. subst y. rewrite (DiW_fl_opp cf n a b), Rabs_Ropp in B2. rewrite Rabs_Ropp in B2.
  set (A := f_m a * term_fl cf n a b d) in *. set (B := f_m b * term_fl cf n b a d) in *. set (T := tau * (2 * Rabs (DiW_fl cf n a b d) + 1)) in *.
  assert (TP : 0 <= T). { unfold T. pose proof tau_pos. pose proof (Rabs_pos (DiW_fl cf n a b d)). apply Rmult_le_pos; lra. }
  pose proof u53_small as US. pose proof u53_pos as UP.
  assert (X : Rabs x <= Rabs A + (3 * u53 * Rabs x + f_m a * T)).
  { replace x with (A - (A - x)) at 1 by ring. eapply Rle_trans; [apply Rabs_triang|]. rewrite Rabs_Ropp. lra. }
  assert (S : Rabs (A + B) <= 6 * u53 * Rabs x + (f_m a + f_m b) * T).
  { replace (A + B) with ((A - x) + (B - - x)) by ring. eapply Rle_trans; [apply Rabs_triang|]. lra. }
  assert (MT : 0 <= f_m a * T) by (apply Rmult_le_pos; assumption). assert (MT' : 0 <= f_m b * T) by (apply Rmult_le_pos; assumption).
  pose proof (Rabs_pos x) as Px. pose proof (Rabs_pos A) as PA.
  assert (X2 : Rabs x <= (1 + 6 * u53) * (Rabs A + f_m a * T)).
  { apply Rmult_le_reg_l with (1 - 3 * u53); [lra|]. replace ((1 - 3 * u53) * ((1 + 6 * u53) * (Rabs A + f_m a * T))) with ((1 + 3 * u53 * (1 - 6 * u53)) * (Rabs A + f_m a * T)) by ring.
    assert (0 <= 3 * u53 * (1 - 6 * u53) * (Rabs A + f_m a * T)) by (repeat apply Rmult_le_pos; lra). lra. }
  assert (X3 : 6 * u53 * Rabs x <= 6 * u53 * ((1 + 6 * u53) * (Rabs A + f_m a * T))) by (apply Rmult_le_compat_l; lra).
  assert (X4 : 6 * u53 * ((1 + 6 * u53) * (Rabs A + f_m a * T)) <= 7 * u53 * (Rabs A + f_m a * T)).
  { rewrite <- Rmult_assoc. apply Rmult_le_compat_r; [lra|]. nra. }
  assert (X5 : 7 * u53 * (f_m a * T) <= f_m a * T) by nra. lra.
Qed.
(** For any masses the two changes of momentum cancel up to 7 units of rounding and
    underflow. *)
Theorem C98_pair cf n a b d : 0 <= f_m a -> 0 <= f_m b ->
  Rabs (f_m a * acceleration_fl cf n noext a [b] d + f_m b * acceleration_fl cf n noext b [a] d) <=
    7 * u53 * Rabs (f_m a * acceleration_fl cf n noext a [b] d) + 2 * (f_m a + f_m b) * (tau * (2 * Rabs (DiW_fl cf n a b d) + 1)).
Proof. intros. rewrite !single. apply pair_bound; assumption. Qed.

(** ** the sum over the neighbours *)
Lemma pow_u k : INR k * u53 <= / 2 -> (1 + u53) ^ k <= 1 + 2 * INR k * u53.
Proof.
  pose proof u53_pos as UP. induction k as [|k IH]; intros H; [cbn; lra|]. rewrite S_INR in *. cbn [pow]. specialize (IH ltac:(nra)).
  pose proof (pos_INR k). apply Rle_trans with ((1 + u53) * (1 + 2 * INR k * u53)); [apply Rmult_le_compat_l; lra|]. nra.
Qed.
Lemma sum_fl {A} (f : A -> R) : (forall x, fmt (f x)) -> forall l,
  fmt (fold_left (fun s x => rnd (s + f x)) l 0) /\
  Rabs (fold_left (fun s x => rnd (s + f x)) l 0 - suml f l) <= ((1 + u53) ^ length l - 1) * suml (fun x => Rabs (f x)) l.
Proof.
  intros Hf. pose proof u53_pos as UP. induction l as [|x l IH] using rev_ind.
  - split; [apply generic_format_0|]. cbn. rewrite Rminus_0_r, Rabs_R0. lra.
  - rewrite fold_left_app, !suml_app, app_length. cbn [fold_left suml length]. rewrite !Rplus_0_r. destruct IH as [F I].
    set (s := fold_left (fun s x => rnd (s + f x)) l 0) in *. set (A0 := suml (fun x => Rabs (f x)) l) in *. set (S0 := suml f l) in *.
    split; [apply rnd_fmt|]. destruct (rnd_plus_rel s (f x) F (Hf x)) as (e & He & ->). rewrite Nat.add_1_r. cbn [pow].
    assert (P1 : 1 <= (1 + u53) ^ length l) by (apply pow_R1_Rle; lra). assert (PA : 0 <= A0).
    { unfold A0. clear. induction l as [|y l IH]; cbn [suml]; [lra|]. pose proof (Rabs_pos (f y)). lra. }
    assert (PS : Rabs S0 <= A0).
    { unfold S0, A0. clear. induction l as [|y l IH]; cbn [suml]; [rewrite Rabs_R0; lra|]. eapply Rle_trans; [apply Rabs_triang|]. lra. }
    set (p := (1 + u53) ^ length l) in *. assert (Bs : Rabs s <= p * A0).
    { replace s with ((s - S0) + S0) by ring. eapply Rle_trans; [apply Rabs_triang|]. lra. }
    replace ((s + f x) * (1 + e) - (S0 + f x)) with ((s - S0) + (s + f x) * e) by ring. eapply Rle_trans; [apply Rabs_triang|]. rewrite Rabs_mult.
    assert (Rabs (s + f x) <= p * A0 + Rabs (f x)) by (eapply Rle_trans; [apply Rabs_triang|]; lra).
    assert (Rabs (s + f x) * Rabs e <= (p * A0 + Rabs (f x)) * u53) by (apply Rmult_le_compat; try apply Rabs_pos; assumption).
    pose proof (Rabs_pos (f x)). assert (0 <= (p - 1) * Rabs (f x)) by (apply Rmult_le_pos; lra).
    assert (0 <= u53 * ((p - 1) * Rabs (f x))) by (apply Rmult_le_pos; lra). lra.
Qed.
Lemma acceleration_err cf n a nbs d : INR (length nbs) * u53 <= / 2 ->
  Rabs (acceleration_fl cf n noext a nbs d - suml (fun b => term_fl cf n a b d) nbs) <= 2 * INR (length nbs) * u53 * suml (fun b => Rabs (term_fl cf n a b d)) nbs.
Proof.
  intros H. unfold acceleration_fl, noext. destruct (sum_fl (fun b => term_fl cf n a b d) (fun b => term_fl_fmt cf n a b d) nbs) as [F E].
  rewrite Rplus_0_r, (rnd_id _ F). eapply Rle_trans; [exact E|]. apply Rmult_le_compat_r.
  - clear. induction nbs as [|y l IH]; cbn [suml]; [lra|]. pose proof (Rabs_pos (term_fl cf n a y d)). lra.
  - pose proof (pow_u _ H). lra.
Qed.

(** Lists of neighbours without repetition, in which one particle is listed by another
    exactly when it lists that one. *)
Definition mutual (N : nat) (nb : nat -> list nat) : Prop :=
  forall i, (i < N)%nat -> NoDup (nb i) /\ (forall j, In j (nb i) -> (j < N)%nat /\ In i (nb j)).
Definition in_b (j : nat) (l : list nat) : bool := if in_dec Nat.eq_dec j l then true else false.
Lemma over_all N nb i (f : nat -> R) : mutual N nb -> (i < N)%nat -> suml f (nb i) = sumn N (fun j => if in_b j (nb i) then f j else 0).
Proof.
  intros M Hi. destruct (M i Hi) as [Nd Hin]. rewrite <- (Sph_props.suml_full N (fun j => if in_b j (nb i) then f j else 0) (nb i) Nd).
  - assert (G : forall l, incl l (nb i) -> suml f l = suml (fun j => if in_b j (nb i) then f j else 0) l).
    { induction l as [|x l IH]; intros Hk; [reflexivity|]. cbn [suml]. rewrite <- IH by (intros y Hy; apply Hk; right; exact Hy).
      unfold in_b. destruct (in_dec Nat.eq_dec x (nb i)) as [_|C]; [reflexivity|]. exfalso. apply C, Hk. left. reflexivity. }
    apply G, incl_refl.
  - intros j Hj. apply (Hin j Hj).
  - intros j _ Hj. unfold in_b. destruct (in_dec Nat.eq_dec j (nb i)); [contradiction|reflexivity].
Qed.
Lemma in_b_sym N nb i j : mutual N nb -> (i < N)%nat -> (j < N)%nat -> in_b i (nb j) = in_b j (nb i).
Proof.
  intros M Hi Hj. unfold in_b. destruct (M i Hi) as [_ A], (M j Hj) as [_ B]. destruct (in_dec Nat.eq_dec i (nb j)) as [X|X], (in_dec Nat.eq_dec j (nb i)) as [Y|Y]; try reflexivity; exfalso.
  - apply Y, (B i X).
  - apply X, (A j Y).
Qed.
Lemma sumn_abs N f : Rabs (sumn N f) <= sumn N (fun i => Rabs (f i)).
Proof. induction N as [|N IH]; cbn [sumn]; [rewrite Rabs_R0; lra|]. eapply Rle_trans; [apply Rabs_triang|]. lra. Qed.
Lemma suml_le {A} (f g : A -> R) l : (forall x, f x <= g x) -> suml f l <= suml g l.
Proof. intros H. induction l as [|x l IH]; cbn [suml]; [lra|]. specialize (H x). lra. Qed.
Lemma suml_scale {A} c (f : A -> R) l : suml (fun x => c * f x) l = c * suml f l.
Proof. induction l as [|x l IH]; cbn [suml]; [ring|]. rewrite IH. ring. Qed.

(** The total momentum changes by no more than rounding: with at most L neighbours
    each, 2 L + 4 units of the sum of the sizes of all pair forces, and underflow. *)
Theorem C98_momentum cf n N p nb d L : (forall i, (i < N)%nat -> 0 <= f_m (p i)) -> mutual N nb -> (forall i, (i < N)%nat -> (length (nb i) <= L)%nat) -> INR L * u53 <= / 2 ->
  Rabs (sumn N (fun i => f_m (p i) * acceleration_fl cf n noext (p i) (map p (nb i)) d)) <=
    (2 * INR L + 4) * u53 * sumn N (fun i => suml (fun j => f_m (p i) * Rabs (acceleration_fl cf n noext (p i) [p j] d)) (nb i)) +
    2 * sumn N (fun i => suml (fun j => f_m (p i) * (tau * (2 * Rabs (DiW_fl cf n (p i) (p j) d) + 1))) (nb i)).
Proof.
  intros Hm M HL HU. pose proof u53_pos as UP. pose proof tau_pos as TP.
  set (c := fun i j => f_m (p i) * term_fl cf n (p i) (p j) d). set (w := fun i j => f_m (p i) * (tau * (2 * Rabs (DiW_fl cf n (p i) (p j) d) + 1))).
  set (F := fun i j => if in_b j (nb i) then c i j else 0). set (W := fun i j => if in_b j (nb i) then w i j else 0).
  assert (S1 : forall i, (i < N)%nat -> Rabs (f_m (p i) * acceleration_fl cf n noext (p i) (map p (nb i)) d - sumn N (F i)) <= 2 * INR L * u53 * sumn N (fun j => Rabs (F i j))).
  { intros i Hi. unfold F. rewrite <- (over_all N nb i (c i) M Hi).
    replace (sumn N (fun j => Rabs (if in_b j (nb i) then c i j else 0))) with (suml (fun j => Rabs (c i j)) (nb i)).
    2:{ rewrite (over_all N nb i _ M Hi). apply sumn_ext. intros j _. destruct (in_b j (nb i)); [reflexivity|]. rewrite Rabs_R0. reflexivity. }
    pose proof (acceleration_err cf n (p i) (map p (nb i)) d) as E. rewrite map_length, !suml_map in E.
    assert (Li : INR (length (nb i)) <= INR L) by (apply le_INR, HL, Hi). specialize (E ltac:(eapply Rle_trans; [|exact HU]; apply Rmult_le_compat_r; lra)).
    unfold c. rewrite (suml_scale (f_m (p i))), <- Rmult_minus_distr_l, Rabs_mult, (Rabs_pos_eq _ (Hm i Hi)).
    assert (Ab : suml (fun j => Rabs (f_m (p i) * term_fl cf n (p i) (p j) d)) (nb i) = f_m (p i) * suml (fun j => Rabs (term_fl cf n (p i) (p j) d)) (nb i)).
    { rewrite <- suml_scale. clear - Hm Hi. induction (nb i) as [|x l IH]; [reflexivity|]. cbn [suml]. rewrite IH, Rabs_mult, (Rabs_pos_eq _ (Hm i Hi)). reflexivity. }
    rewrite Ab. set (A0 := suml (fun j => Rabs (term_fl cf n (p i) (p j) d)) (nb i)) in *.
    assert (PA : 0 <= A0) by (unfold A0; clear; induction (nb i) as [|x l IH]; cbn [suml]; [lra|]; pose proof (Rabs_pos (term_fl cf n (p i) (p x) d)); lra).
    apply Rle_trans with (f_m (p i) * (2 * INR (length (nb i)) * u53 * A0)); [apply Rmult_le_compat_l; [apply Hm, Hi|exact E]|].
    assert (2 * INR (length (nb i)) * u53 * A0 <= 2 * INR L * u53 * A0) by (apply Rmult_le_compat_r; [exact PA|]; apply Rmult_le_compat_r; lra).
    pose proof (Rmult_le_compat_l _ _ _ (Hm i Hi) H). lra. }
  assert (S2 : 2 * Rabs (sumn N (fun i => sumn N (F i))) <= 7 * u53 * sumn N (fun i => sumn N (fun j => Rabs (F i j))) + 4 * sumn N (fun i => sumn N (W i))).
  { replace (2 * Rabs (sumn N (fun i => sumn N (F i)))) with (Rabs (sumn N (fun i => sumn N (fun j => F i j + F j i)))).
    2:{ rewrite (sumn_ext N _ (fun i => sumn N (F i) + sumn N (fun j => F j i))) by (intros i _; apply sumn_plus). rewrite sumn_plus, (Sph_props.sumn_swap N N (fun i j => F j i)).
        replace (sumn N (fun i => sumn N (F i)) + sumn N (fun j => sumn N (fun i => F j i))) with (2 * sumn N (fun i => sumn N (F i))) by (change (fun j => sumn N (fun i => F j i)) with (fun i => sumn N (F i)); ring).
        rewrite Rabs_mult, (Rabs_pos_eq 2) by lra. reflexivity. }
    eapply Rle_trans; [apply sumn_abs|].
    apply Rle_trans with (sumn N (fun i => sumn N (fun j => 7 * u53 * Rabs (F i j) + 2 * (W i j + W j i)))).
    - apply sumn_le. intros i Hi. eapply Rle_trans; [apply sumn_abs|]. apply sumn_le. intros j Hj. unfold F, W. rewrite (in_b_sym N nb i j M Hi Hj).
      destruct (in_b j (nb i)); [|rewrite Rplus_0_r, Rabs_R0; lra].
      pose proof (pair_bound cf n (p i) (p j) d (Hm i Hi) (Hm j Hj)) as B. unfold c, w. rewrite (DiW_fl_opp cf n (p i) (p j)), Rabs_Ropp. lra.
    - apply Req_le. rewrite (sumn_ext N _ (fun i => 7 * u53 * sumn N (fun j => Rabs (F i j)) + 2 * (sumn N (W i) + sumn N (fun j => W j i)))).
      2:{ intros i _. rewrite sumn_plus, !sumn_scal, sumn_plus. reflexivity. }
      rewrite sumn_plus, !sumn_scal, sumn_plus, (Sph_props.sumn_swap N N (fun i j => W j i)). change (fun j => sumn N (fun i => W j i)) with (fun i => sumn N (W i)). ring. }
  assert (S3 : Rabs (sumn N (fun i => f_m (p i) * acceleration_fl cf n noext (p i) (map p (nb i)) d) - sumn N (fun i => sumn N (F i))) <= 2 * INR L * u53 * sumn N (fun i => sumn N (fun j => Rabs (F i j)))).
  { rewrite <- sumn_minus, <- sumn_scal. eapply Rle_trans; [apply sumn_abs|]. apply sumn_le. exact S1. }
  replace (sumn N (fun i => suml (fun j => f_m (p i) * Rabs (acceleration_fl cf n noext (p i) [p j] d)) (nb i))) with (sumn N (fun i => sumn N (fun j => Rabs (F i j)))).
  2:{ apply sumn_ext. intros i Hi. rewrite (over_all N nb i _ M Hi). apply sumn_ext. intros j _. unfold F, c. rewrite single. destruct (in_b j (nb i)); [|apply Rabs_R0]. rewrite Rabs_mult, (Rabs_pos_eq _ (Hm i Hi)). reflexivity. }
  replace (sumn N (fun i => suml (fun j => f_m (p i) * (tau * (2 * Rabs (DiW_fl cf n (p i) (p j) d) + 1))) (nb i))) with (sumn N (fun i => sumn N (W i))).
  2:{ apply sumn_ext. intros i Hi. rewrite (over_all N nb i _ M Hi). reflexivity. }
  set (T := sumn N (fun i => sumn N (F i))) in *. set (Q := sumn N (fun i => sumn N (fun j => Rabs (F i j)))) in *. set (V := sumn N (fun i => sumn N (W i))) in *.
  assert (PQ : 0 <= Q) by (unfold Q; apply sumn_nonneg; intros; apply sumn_nonneg; intros; apply Rabs_pos).
  set (X := sumn N (fun i => f_m (p i) * acceleration_fl cf n noext (p i) (map p (nb i)) d)) in *.
  replace X with ((X - T) + T) by ring. eapply Rle_trans; [apply Rabs_triang|]. assert (0 <= u53 * Q) by (apply Rmult_le_pos; lra). lra.
Qed.

(** particles at rest on a line, a kernel whose gradient is -1 times the difference *)
Definition at_rest (x m pr : R) : fpart := FPart (fun _ => x) (fun _ => 0) m 1 1 pr 0 0.
Definition plain : fconf := FConf (FConstant 1 2) (ByFactor (fun _ _ => -1)) 0 (bpow radix2 (-900)).
Lemma rnd_int_id z : (Z.abs z < 2 ^ 53)%Z -> rnd (IZR z) = IZR z.
Proof. intros H. apply rnd_id, int_fmt, H. Qed.
Lemma rnd_1 : rnd 1 = 1. Proof. apply rnd_id, fmt_1. Qed.
Lemma plain_term ma mb pa pb : (Z.abs pa < 2 ^ 53)%Z -> (Z.abs pb < 2 ^ 53)%Z -> (Z.abs (pa + pb) < 2 ^ 53)%Z ->
  term_fl plain 1 (at_rest 0 ma (IZR pa)) (at_rest 1 mb (IZR pb)) 0%nat = - rnd (mb * IZR (pa + pb)).
Proof.
  intros Ha Hb Hab. rewrite term_fl_eq. f_equal.
  assert (E : strength plain 1 (at_rest 0 ma (IZR pa)) (at_rest 1 mb (IZR pb)) = IZR (pa + pb)).
  { unfold strength, Prho2_fl, Pi_fl, viscosity_fl, at_rest, plain. cbn [f_p f_rho fc_visc f_alpha f_c f_v12 f_pos f_h]. rewrite !Rmult_1_r, rnd_1. unfold Rdiv at 1 2. rewrite Rinv_1, !Rmult_1_r, (rnd_int_id pa Ha), (rnd_int_id pb Hb), <- plus_IZR, (rnd_int_id _ Hab).
    assert (M : forall h, mu_fl (FConf (FConstant 1 2) (ByFactor (fun _ _ => -1)) 0 (bpow radix2 (-900))) 1 h (vsub_fl (fun _ => 0) (fun _ => 0)) (vsub_fl (fun _ => 0) (fun _ => 1)) = 0).
    { intros h. unfold mu_fl, vsub_fl. cbn [dot_fl]. replace (0 - 0) with 0 by ring. rewrite rnd_0, Rmult_0_l, rnd_0, Rplus_0_r, rnd_0. unfold Rlt_b. destruct (Rlt_dec 0 0); [lra|reflexivity]. }
    rewrite M. rewrite !Rmult_0_r, rnd_0. unfold Rdiv. rewrite Rmult_0_l, rnd_0, Rplus_0_r. apply rnd_int_id, Hab. }
  rewrite E. unfold nb_mass_fl, at_rest. cbn [f_pos same_pos_fl f_m andb]. destruct (Req_EM_T 1 0) as [C|_]; [lra|].
  unfold DiW_fl, gradient_fl, plain, vsub_fl. cbn [fc_kernel f_pos]. replace (0 - 1) with (IZR (-1)) by (cbn; lra). rewrite (rnd_int_id (-1)) by (cbn; lia). replace (IZR (-1) * -1) with 1 by (cbn; lra). rewrite rnd_1, Rmult_1_l. apply rnd_id, rnd_fmt.
Qed.
(** With different masses the two changes of momentum need not cancel exactly. *)
Theorem C98_exact_refuted : exists cf n a b d, 0 < f_m a /\ 0 < f_m b /\ f_m a * acceleration_fl cf n noext a [b] d + f_m b * acceleration_fl cf n noext b [a] d <> 0.
Proof.
  exists plain, 1%nat, (at_rest 0 1 (IZR (2 ^ 53 - 2))), (at_rest 1 3 (IZR 1)), 0%nat. split; [cbn; lra|]. split; [cbn; lra|].
  rewrite !single. rewrite (plain_term 1 3 (2 ^ 53 - 2) 1) by (cbn; lia).
  assert (E : term_fl plain 1 (at_rest 1 3 (IZR 1)) (at_rest 0 1 (IZR (2 ^ 53 - 2))) 0%nat = IZR (2 ^ 53 - 1)).
  { pose proof (C98_opposite plain 1 (at_rest 0 1 (IZR (2 ^ 53 - 2))) (at_rest 1 1 (IZR 1)) 0%nat eq_refl) as H. rewrite !single, plain_term in H by (cbn; lia).
    rewrite Rmult_1_l, (rnd_int_id (2 ^ 53 - 2 + 1)) in H by (cbn; lia). apply Ropp_eq_compat in H. rewrite !Ropp_involutive in H.
    change (term_fl plain 1 (at_rest 1 3 (IZR 1)) (at_rest 0 1 (IZR (2 ^ 53 - 2))) 0%nat) with (term_fl plain 1 (at_rest 1 1 (IZR 1)) (at_rest 0 1 (IZR (2 ^ 53 - 2))) 0%nat). rewrite <- H. reflexivity. }
  rewrite E. cbn [f_m at_rest].
  assert (R3 : rnd (3 * IZR (2 ^ 53 - 2 + 1)) = IZR ((3 * 2 ^ 51 - 1) * 2 ^ 2)).
  { rewrite <- mult_IZR. apply rnd_int; [lia| | |]; vm_compute; try (split; [intros Q; discriminate Q|reflexivity]); reflexivity. }
  rewrite R3. intros H. assert (K : (- ((3 * 2 ^ 51 - 1) * 2 ^ 2) + 3 * (2 ^ 53 - 1) = 0)%Z).
  { apply eq_IZR. rewrite plus_IZR, opp_IZR, (mult_IZR 3 (2 ^ 53 - 1)). lra. }
  vm_compute in K. discriminate K.
Qed.

Example C98_case : mutual 3 (fun i => match i with 0 => [0; 1] | 1 => [2; 1; 0] | _ => [1; 2] end)%nat /\ INR 3 * u53 <= / 2 /\
  acceleration_fl plain 1 noext (at_rest 0 5 3) [at_rest 1 7 4] 0%nat = -49.
Proof.
  split.
  - intros [|[|[|i]]] Hi; try lia; (split; [repeat constructor; cbn; intuition lia|]); cbn; intros j Hj; repeat (destruct Hj as [<-|Hj]; [cbn; intuition lia|]); destruct Hj.
  - split; [rewrite u53_eq; cbn; lra|]. rewrite single, (plain_term 5 7 3 4) by (cbn; lia). rewrite <- mult_IZR, rnd_int_id by (cbn; lia). change (7 * (3 + 4))%Z with 49%Z. lra.
Qed.

Print Assumptions C98_viscosity.
Print Assumptions C98_opposite.
Print Assumptions C98_self.
Print Assumptions C98_pair.
Print Assumptions C98_momentum.
Print Assumptions C98_exact_refuted.
