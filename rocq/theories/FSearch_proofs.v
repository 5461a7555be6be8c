(** Summaries and pruning tests in double precision. *)
From Coq Require Import Reals Lra Psatz Permutation.
From Flocq Require Import Core Relative Plus_error.
From Verif Require Import Base Key_model BuildTree_model BuildTree_spec BuildTree_shape Vec Geometry_model Geometry_props Cofm_model Cofm_proofs
  Search_model Search_proofs GSearch_model FCell_model FCell_lemmas FSearch_model FSearch_spec FSearch_lemmas.
Local Open Scope R_scope.

Lemma rnd_scale k x : bpow radix2 (-1022) <= Rabs x -> bpow radix2 (-1022) <= Rabs (x * bpow radix2 k) ->
  rnd (x * bpow radix2 k) = rnd x * bpow radix2 k.
Proof.
  intros H1 H2. assert (N : x <> 0). { intros ->. rewrite Rabs_R0 in H1. pose proof (bpow_gt_0 radix2 (-1022)). lra. }
  pose proof (mag_mult_bpow radix2 x k N) as Em. pose proof (mag_ge_bpow radix2 x (-1021) H1) as M1.
  pose proof (mag_ge_bpow radix2 _ (-1021) H2) as M2. rewrite Em in M2.
  unfold rnd, round, scaled_mantissa, cexp. rewrite Em. unfold dexp, FLT_exp.
  rewrite !Z.max_l by lia. unfold F2R. cbn [Fnum Fexp].
  replace (x * bpow radix2 k * bpow radix2 (- (mag radix2 x + k - 53))) with (x * bpow radix2 (- (mag radix2 x - 53))).
  - replace (mag radix2 x + k - 53)%Z with (mag radix2 x - 53 + k)%Z by ring. rewrite bpow_plus. ring.
  - rewrite Rmult_assoc, <- bpow_plus. f_equal. f_equal. ring.
Qed.
Lemma rnd_abs_mono x y : Rabs x <= y -> Rabs (rnd x) <= rnd y.
Proof.
  intros H. apply Rabs_le_inv in H. apply Rabs_le. split; [rewrite <- rnd_opp|]; apply rnd_le; lra.
Qed.
Lemma fold_map {A B C} (g : A -> B) (f : C -> B -> C) l : forall a, fold_left (fun s x => f s (g x)) l a = fold_left f (map g l) a.
Proof. induction l; intros b; cbn; auto. Qed.

Lemma Rabs_sqr_eq' x : Rabs x * Rabs x = x * x.
Proof. rewrite <- Rabs_mult. apply Rabs_pos_eq. apply Rle_0_sqr. Qed.
Lemma Rabs_eq_0 x : Rabs x = 0 -> x = 0.
Proof. intros H. destruct (Req_dec x 0) as [|N]; [assumption|]. apply Rabs_no_R0 in N. congruence. Qed.

(** ** the centre of mass *)
Section Mass.
Variable m : Z.
Hypothesis Hm : (-400 <= m <= 400)%Z.
Notation M := (bpow radix2 m).
Definition mmin : R := bpow radix2 (-500).

Definition item (it : R * R) : Prop := fmt (fst it) /\ mmin <= fst it /\ Rabs (snd it) <= M.
Definition Inv (s t : R) : Prop := fmt t /\ Rabs s <= M * t /\ (t = 0 \/ mmin <= t).
Lemma big x : mmin <= x -> bpow radix2 (-1022) <= Rabs x /\ bpow radix2 (-1022) <= Rabs (x * M).
Proof using Hm.
  intros H. unfold mmin in H. pose proof (bpow_gt_0 radix2 (-500)). pose proof (bpow_gt_0 radix2 m).
  rewrite Rabs_mult, !Rabs_pos_eq by lra. split.
  - eapply Rle_trans; [|exact H]. apply bpow_le. lia.
  - apply Rle_trans with (bpow radix2 (-500) * M); [|apply Rmult_le_compat_r; lra]. rewrite <- bpow_plus. apply bpow_le. lia.
Qed.
Lemma Inv_step s t it : item it -> Inv s t -> Inv (rnd (s + rnd (fst it * snd it))) (rnd (t + fst it)).
Proof using Hm.
  intros (F1 & B1 & X1) (F2 & S2 & T2). destruct it as [w x]. cbn [fst snd] in *. unfold mmin in *.
  pose proof (bpow_gt_0 radix2 m) as MP. pose proof (bpow_gt_0 radix2 (-500)) as WP.
  assert (T0 : 0 <= t) by lra.
  assert (Rp : Rabs (rnd (w * x)) <= M * w).
  { replace (M * w) with (w * M) by ring. destruct (big w B1) as [G1 G2]. rewrite <- (rnd_id w F1) at 2. rewrite <- rnd_scale by assumption.
    apply rnd_abs_mono. rewrite Rabs_mult, (Rabs_pos_eq w) by lra. apply Rmult_le_compat_l; lra. }
  split; [apply rnd_fmt|]. destruct (big (t + w) ltac:(unfold mmin; lra)) as [G1 G2]. split.
  - replace (M * rnd (t + w)) with (rnd (t + w) * M) by ring. rewrite <- rnd_scale by assumption. apply rnd_abs_mono. eapply Rle_trans; [apply Rabs_triang|]. lra.
  - right. unfold mmin. rewrite <- (rnd_id (bpow radix2 (-500))) by (apply fmt_bpow; lia). apply rnd_le. lra.
Qed.
Lemma Inv_fold l : Forall item l -> forall s t, Inv s t ->
  Inv (fold_left (fun s it => rnd (s + rnd (fst it * snd it))) l s) (fold_left (fun t it => rnd (t + fst it)) l t).
Proof using Hm. induction 1; intros s t I; cbn [fold_left]; auto using Inv_step. Qed.
Lemma Inv_0 : Inv 0 0.
Proof using. split; [apply generic_format_0|]. rewrite Rabs_R0. split; [lra|auto]. Qed.
Lemma fold_mass_ge l : Forall (fun w => mmin <= w) l -> forall t, 0 <= t -> (mmin <= t \/ l <> []) -> mmin <= fold_left (fun t w => rnd (t + w)) l t.
Proof using.
  unfold mmin. pose proof (bpow_gt_0 radix2 (-500)) as WP.
  induction 1 as [|w l H _ IH]; intros t T0 HT; cbn [fold_left]; [destruct HT; [assumption|congruence]|].
  assert (G : mmin <= rnd (t + w)). { unfold mmin. rewrite <- (rnd_id (bpow radix2 (-500))) by (apply fmt_bpow; lia). apply rnd_le. lra. }
  unfold mmin in G. apply IH; [lra|auto].
Qed.
Lemma Inv_quot s t : Inv s t -> mmin <= t -> Rabs (rnd (s / t)) <= M.
Proof using Hm.
  intros (F & S & _) T. unfold mmin in T. pose proof (bpow_gt_0 radix2 (-500)) as WP. rewrite <- (rnd_id M) by (apply fmt_bpow; lia).
  apply rnd_abs_mono. unfold Rdiv. rewrite Rabs_mult, Rabs_inv, (Rabs_pos_eq t) by lra.
  apply (Rmult_le_reg_r t); [lra|]. rewrite Rmult_assoc, Rinv_l by lra. lra.
Qed.
End Mass.

(** ** upper bound of the mass *)
Lemma pow_u k : 1 <= (1 + u53) ^ k.
Proof. apply pow_R1_Rle. pose proof u53_pos. lra. Qed.
(** (rounded mass, number of particles, exact mass) *)
Definition witem (x : R * nat * R) : Prop := let '(w, j, s) := x in fmt w /\ 0 <= w <= (1 + u53) ^ (Nat.pred j) * s /\ 0 <= s /\ (1 <= j)%nat.
Lemma wfold l : Forall witem l -> forall t j s, fmt t -> 0 <= t <= (1 + u53) ^ (Nat.pred j) * s -> 0 <= s -> (j = 0%nat -> t = 0) ->
  exists j', fold_left (fun t x => rnd (t + fst (fst x))) l t <= (1 + u53) ^ (Nat.pred j') * (s + suml snd l) /\
    j' = (j + list_sum (map (fun x => snd (fst x)) l))%nat.
Proof.
  induction 1 as [|[[w i] z] l H _ IH]; intros t j s Ft Ht Hs Hj; cbn [fold_left suml map fst snd].
  - exists j. unfold list_sum. cbn [fold_right]. split; [|lia]. rewrite Rplus_0_r. lra.
  - destruct H as (Fw & Hw & Hz & Hi). pose proof u53_pos as U.
    assert (G : rnd (t + w) <= (1 + u53) ^ (Nat.pred (j + i)) * (s + z)).
    { destruct (Nat.eq_dec j 0) as [->|Nj].
      - rewrite (Hj eq_refl), Rplus_0_l, (rnd_id w Fw). cbn [Nat.add]. pose proof (pow_u (Nat.pred i)). nra.
      - eapply Rle_trans; [apply rnd_plus_up; [assumption|assumption|lra]|].
        assert (P1 : (1 + u53) ^ S (Nat.pred j) <= (1 + u53) ^ (Nat.pred (j + i))) by (apply Rle_pow; [lra|lia]).
        assert (P2 : (1 + u53) ^ S (Nat.pred i) <= (1 + u53) ^ (Nat.pred (j + i))) by (apply Rle_pow; [lra|lia]).
        cbn [pow] in P1, P2. pose proof (pow_u (Nat.pred j)). pose proof (pow_u (Nat.pred i)).
        assert ((1 + u53) * t <= (1 + u53) * ((1 + u53) ^ Nat.pred j * s)) by (apply Rmult_le_compat_l; lra).
        assert ((1 + u53) * w <= (1 + u53) * ((1 + u53) ^ Nat.pred i * z)) by (apply Rmult_le_compat_l; lra).
        assert ((1 + u53) * ((1 + u53) ^ Nat.pred j * s) <= (1 + u53) ^ Nat.pred (j + i) * s) by (rewrite <- Rmult_assoc; apply Rmult_le_compat_r; lra).
        assert ((1 + u53) * ((1 + u53) ^ Nat.pred i * z) <= (1 + u53) ^ Nat.pred (j + i) * z) by (rewrite <- Rmult_assoc; apply Rmult_le_compat_r; lra).
        lra. }
    destruct (IH (rnd (t + w)) (j + i)%nat (s + z)) as (j' & E & Ej).
    + apply rnd_fmt.
    + split; [apply rnd_pos; lra|exact G].
    + lra.
    + lia.
    + exists j'. split; [|unfold list_sum in *; cbn [fold_right]; lia]. rewrite Rplus_assoc in E. exact E.
Qed.

(** ** what a summary says *)
Definition lo_fl (b : body) (i : nat) : R := rnd (b_pos b i - rnd (b_rad b / 2)).
Definition hi_fl (b : body) (i : nat) : R := rnd (b_pos b i + rnd (b_rad b / 2)).
Record fsum (m : Z) (n k : nat) (s : cofm) (ps : list body) : Prop := {
  fs_ne : ps <> [];
  fs_mass : fmt (cm_mass s) /\ mmin <= cm_mass s <= (1 + u53) ^ (Nat.pred (length ps)) * suml b_mass ps;
  fs_pos : forall i, (i < n)%nat -> fmt (cm_pos s i) /\ Rabs (cm_pos s i) <= bpow radix2 m;
  fs_sub : cm_sub s = length ps;
  fs_rad : fmt (cm_rad s) /\ 0 <= cm_rad s <= 8 * INR k * bpow radix2 m;
  fs_lap : fmt (cm_lap s) /\ 0 <= cm_lap s <= 16 * INR k * INR k * bpow radix2 m;
  fs_box : forall b i, In b ps -> (i < n)%nat -> cm_min s i <= lo_fl b i /\ hi_fl b i <= cm_max s i;
  fs_boxf : forall i, (i < n)%nat -> fmt (cm_min s i) /\ fmt (cm_max s i) /\ - (2 * bpow radix2 m) <= cm_min s i /\ cm_max s i <= 2 * bpow radix2 m;
  fs_reach : forall b, In b ps -> (1 - 14 * INR k * u53) * dist n (cm_pos s) (b_pos b) - 2 * INR k * eta <= cm_rad s;
  fs_over : forall b, In b ps -> b_rad b <= cm_lap s }.

Lemma dbl_max_fmt : fmt dbl_max.
Proof.
  unfold dexp. apply generic_format_FLT. exists (Float radix2 (2 ^ 53 - 1) 971).
  - unfold F2R. cbn [Fnum Fexp]. rewrite <- (IZR_Zpower radix2) by lia. unfold dbl_max. rewrite !pow_IZR.
    change (Z.of_nat 52) with 52%Z. change (Z.of_nat 1023) with 1023%Z.
    replace (2 ^ 1023)%Z with (2 ^ 52 * 2 ^ 971)%Z by (rewrite <- Z.pow_add_r; [reflexivity|lia|lia]).
    change (Zpower radix2 971) with (2 ^ 971)%Z. rewrite mult_IZR, minus_IZR.
    replace (2 ^ 53)%Z with (2 * 2 ^ 52)%Z by reflexivity. rewrite mult_IZR.
    assert (IZR (2 ^ 52) <> 0) by (apply IZR_neq; lia). field. assumption.
  - vm_compute. reflexivity.
  - vm_compute. discriminate.
Qed.
Lemma dbl_max_big m : (m <= 400)%Z -> 2 * bpow radix2 m <= dbl_max.
Proof.
  intros H. assert (E : dbl_max = (2 - / 2 ^ 52) * bpow radix2 1023).
  { unfold dbl_max. f_equal. rewrite <- (IZR_Zpower radix2) by lia. rewrite pow_IZR. reflexivity. }
  rewrite E. pose proof (bpow_le radix2 (m + 1) 1023 ltac:(lia)) as B. rewrite bpow_plus in B. replace (bpow radix2 1) with 2 in B by reflexivity.
  pose proof (bpow_gt_0 radix2 1023). assert (/ 2 ^ 52 <= 1). { rewrite <- Rinv_1. apply Rinv_le; [lra|]. apply pow_R1_Rle. lra. }
  nra.
Qed.
Lemma fold_max_le {A} (f : A -> R) l c : (forall x, In x l -> f x <= c) -> forall a, a <= c -> fold_left (fun s x => Rmax s (f x)) l a <= c.
Proof.
  induction l as [|y l IH]; intros H a Ha; cbn; [assumption|]. apply IH; [intros; apply H; right; assumption|].
  apply Rmax_lub; [assumption|apply H; left; reflexivity].
Qed.
Lemma fold_min_ge {A} (f : A -> R) l c : (forall x, In x l -> c <= f x) -> forall a, c <= a -> c <= fold_left (fun s x => Rmin s (f x)) l a.
Proof.
  induction l as [|y l IH]; intros H a Ha; cbn; [assumption|]. apply IH; [intros; apply H; right; assumption|].
  apply Rmin_glb; [assumption|apply H; left; reflexivity].
Qed.
Lemma fold_max_fmt {A} (f : A -> R) l : (forall x, In x l -> fmt (f x)) -> forall a, fmt a -> fmt (fold_left (fun s x => Rmax s (f x)) l a).
Proof. intros H a Ha. destruct (fold_max_att f l a) as [->|(x & Hx & ->)]; auto. Qed.
Lemma fold_min_fmt {A} (f : A -> R) l : (forall x, In x l -> fmt (f x)) -> forall a, fmt a -> fmt (fold_left (fun s x => Rmin s (f x)) l a).
Proof. intros H a Ha. destruct (fold_min_att f l a) as [->|(x & Hx & ->)]; auto. Qed.

Fixpoint height (t : tree) : nat :=
  match t with Leaf _ => 0%nat | Node _ ch => S (fold_right (fun x h => Nat.max (height (snd x)) h) 0%nat ch) end.
Lemma height_kid (ch : list (N * tree)) x : In x ch -> (height (snd x) <= fold_right (fun x h => Nat.max (height (snd x)) h) 0 ch)%nat.
Proof. induction ch as [|y ch IH]; [intros []|]. intros [->|H]; cbn; [lia|]. specialize (IH H). lia. Qed.
Lemma ne_leaves t : ne t -> leaves t <> [].
Proof.
  induction t as [i|k ch IH] using tree_ind'; cbn [ne leaves]; [discriminate|]. intros [H1 H2]. apply fold_and_Forall in H2.
  destruct ch as [|x ch]; [congruence|]. inversion IH; subst. inversion H2; subst. cbn [flat_map].
  intros E. apply app_eq_nil in E. destruct E as [E _]. apply H3; assumption.
Qed.

Section Summary.
Variables (m : Z) (n : nat).
Hypothesis Hm : (-400 <= m <= 400)%Z.
Hypothesis Hn : (1 <= n <= 3)%nat.
Notation M := (bpow radix2 m).

Lemma M_pos : 0 < M. Proof using. apply bpow_gt_0. Qed.
Lemma eta_M : eta <= M * / 1152921504606846976.
Proof using Hm Hn.
  unfold eta. replace (/ 1152921504606846976) with (bpow radix2 (-60)) by reflexivity. rewrite <- bpow_plus. apply bpow_le. lia.
Qed.
Lemma dist_M a b : (forall i, (i < n)%nat -> Rabs (a i) <= M) -> (forall i, (i < n)%nat -> Rabs (b i) <= M) -> dist n a b <= 4 * M.
Proof using Hm Hn.
  intros Ha Hb. pose proof M_pos. apply dist_le_iff; [lra|]. unfold dist2.
  assert (Q : forall i, (i < n)%nat -> (a i - b i) * (a i - b i) <= 4 * (M * M)).
  { intros i Hi. specialize (Ha i Hi). specialize (Hb i Hi). apply Rabs_le_inv in Ha. apply Rabs_le_inv in Hb.
    assert (- (2 * M) <= a i - b i <= 2 * M) by lra. nra. }
  eapply Rle_trans; [apply (sumn_le n _ (fun _ => 4 * (M * M))); exact Q|].
  destruct n as [|[|[|[|k]]]]; cbn [sumn]; try lia; nra.
Qed.
Lemma box_M b i : fl_body m n b -> (i < n)%nat -> Rabs (lo_fl b i) <= 2 * M /\ Rabs (hi_fl b i) <= 2 * M.
Proof using Hm Hn.
  intros [Hp [_ Hr] _] Hi. destruct (Hp i Hi) as [_ Hx]. apply Rabs_le_inv in Hx. pose proof M_pos.
  assert (R0 : 0 <= rnd (b_rad b / 2) <= M).
  { split; [apply rnd_pos; lra|]. rewrite <- (rnd_id M) by (apply fmt_bpow; lia). apply rnd_le. lra. }
  replace (2 * M) with (bpow radix2 (m + 1)) by (rewrite bpow_plus; replace (bpow radix2 1) with 2 by reflexivity; ring).
  assert (B : bpow radix2 (m + 1) = 2 * M) by (rewrite bpow_plus; replace (bpow radix2 1) with 2 by reflexivity; ring).
  split; apply rnd_abs_le; try lia; rewrite B; apply Rabs_le; lra.
Qed.

Lemma compute_cofm_fl_ok k es ns pss : (k <= 64)%nat -> es ++ concat pss <> [] ->
  (forall b, In b (es ++ concat pss) -> fl_body m n b) ->
  Forall2 (fsum m n k) ns pss -> fsum m n (S k) (compute_cofm_fl n es ns) (es ++ concat pss).
Proof using Hm Hn.
  intros Hk Hne Hb HF. set (ps := es ++ concat pss) in *.
  pose proof M_pos as MP. pose proof u53_pos as U. pose proof u53_small as U'. pose proof eta_pos as Et. pose proof eta_M as EM.
  assert (Hes : forall b, In b es -> fl_body m n b) by (intros b H; apply Hb; unfold ps; apply in_or_app; auto).
  assert (Hns : forall c, In c ns -> exists q, In q pss /\ fsum m n k c q) by (intros c H; exact (in_ns2 _ _ _ _ HF H)).
  assert (Hcon : forall b, In b (concat pss) -> exists c q, In c ns /\ In b q /\ fsum m n k c q).
  { intros b H. destruct (in_concat2 _ _ _ _ HF H) as (c & q & ? & ? & ? & _). eauto. }
  assert (Kr : 0 <= INR k <= 64) by (split; [apply pos_INR|replace 64 with (INR 64) by (cbn; lra); apply le_INR; lia]).
  set (cm := compute_cofm_fl n es ns).
  (* the mass *)
  assert (Tm : mmin <= cm_mass cm).
  { unfold cm, compute_cofm_fl. cbn [cm_mass]. rewrite (fold_map cm_mass (fun s w => rnd (s + w))), (fold_map b_mass (fun s w => rnd (s + w))), <- fold_left_app.
    apply fold_mass_ge; [|lra|right].
    - apply Forall_app. split; apply Forall_forall; intros w Hw; apply in_map_iff in Hw; destruct Hw as (x & <- & Hx).
      + apply (fb_mass _ _ _ (Hes x Hx)).
      + destruct (Hns x Hx) as (q & _ & Hq). apply (fs_mass _ _ _ _ _ Hq).
    - intros E. apply app_eq_nil in E. destruct E as [E1 E2]. apply map_eq_nil in E1. apply map_eq_nil in E2. subst es ns.
      inversion HF; subst. apply Hne. reflexivity. }
  assert (Tu : cm_mass cm <= (1 + u53) ^ Nat.pred (length ps) * suml b_mass ps).
  { destruct (wfold (map (fun b => (b_mass b, 1%nat, b_mass b)) es ++ map (fun cq => (cm_mass (fst cq), length (snd cq), suml b_mass (snd cq))) (combine ns pss))
      ) with (t := 0) (j := 0%nat) (s := 0) as (j & E & Ej).
    - apply Forall_app. split; apply Forall_forall; intros w Hw; apply in_map_iff in Hw; destruct Hw as (x & <- & Hx).
      + destruct (fb_mass _ _ _ (Hes x Hx)) as [F B]. pose proof (bpow_gt_0 radix2 (-500)). unfold witem. cbn [Nat.pred pow]. split; [exact F|]. repeat split; try lra; lia.
      + destruct x as [c q]. assert (Hq : fsum m n k c q).
        { clear - HF Hx. induction HF; cbn in Hx; [destruct Hx|]. destruct Hx as [E|Hx]; [injection E as <- <-; assumption|auto]. }
        destruct (fs_mass _ _ _ _ _ Hq) as [F [B1 B2]]. unfold mmin in B1. pose proof (bpow_gt_0 radix2 (-500)). unfold witem. cbn [fst snd].
        assert (Q0 : 0 <= suml b_mass q).
        { apply suml_nonneg. intros b Hbq. assert (Hin : In b (concat pss)) by (apply in_concat; exists q; split; [exact (in_combine_r _ _ _ _ Hx)|exact Hbq]).
          destruct (fb_mass _ _ _ (Hb b (in_or_app _ _ _ (or_intror Hin)))). lra. }
        split; [exact F|]. split; [lra|]. split; [exact Q0|]. pose proof (fs_ne _ _ _ _ _ Hq). destruct q; [congruence|cbn; lia].
    - apply generic_format_0.
    - lra.
    - lra.
    - reflexivity.
    - assert (E1 : length ps = j).
      { rewrite Ej. cbn [Nat.add]. rewrite map_app, !map_map. cbn [fst snd]. unfold ps. rewrite app_length. clear - HF.
        assert (A : forall l : list body, list_sum (map (fun _ => 1%nat) l) = length l) by (induction l; cbn; auto).
        rewrite list_sum_app, A. f_equal. clear - HF. induction HF; cbn; [reflexivity|]. rewrite app_length, IHHF. reflexivity. }
      assert (E2 : suml b_mass ps = suml snd (map (fun b => (b_mass b, 1%nat, b_mass b)) es ++
        map (fun cq => (cm_mass (fst cq), length (snd cq), suml b_mass (snd cq))) (combine ns pss))).
      { unfold ps. rewrite !suml_app, !suml_map. cbn [snd]. f_equal. clear - HF. induction HF; cbn; [reflexivity|]. rewrite suml_app, IHHF. reflexivity. }
      rewrite E1, E2. rewrite Rplus_0_l in E. eapply Rle_trans; [|exact E]. right. unfold cm, compute_cofm_fl. cbn [cm_mass].
      rewrite fold_left_app, <- !fold_map. cbn [fst snd].
      clear - HF. generalize (fold_left (fun s b => rnd (s + b_mass b)) es 0). induction HF; intros r; cbn; [reflexivity|]. apply IHHF. }
  (* the centre *)
  assert (X : forall i, (i < n)%nat -> fmt (cm_pos cm i) /\ Rabs (cm_pos cm i) <= M).
  { intros i Hi. unfold cm, compute_cofm_fl. cbn [cm_pos]. split; [apply rnd_fmt|].
    pose proof (Inv_fold m Hm (map (fun b => (b_mass b, b_pos b i)) es ++ map (fun c => (cm_mass c, cm_pos c i)) ns)) as I.
    specialize (fun H => I H 0 0 (Inv_0 m)). rewrite !fold_left_app, <- !fold_map in I. cbn [fst snd] in I.
    apply (Inv_quot m Hm); [|exact Tm]. apply I.
    apply Forall_app. split; apply Forall_forall; intros w Hw; apply in_map_iff in Hw; destruct Hw as (x & <- & Hx); unfold item; cbn [fst snd].
    - destruct (fb_mass _ _ _ (Hes x Hx)) as [F B]. split; [exact F|]. split; [apply B|]. apply (fb_pos _ _ _ (Hes x Hx) i Hi).
    - destruct (Hns x Hx) as (q & _ & Hq). destruct (fs_mass _ _ _ _ _ Hq) as [F B]. split; [exact F|]. split; [apply B|].
      apply (fs_pos _ _ _ _ _ Hq i Hi). }
  set (P := cm_pos cm) in *.
  assert (DE : forall b, In b es -> fmt (dist_fl n P (b_pos b)) /\ 0 <= dist_fl n P (b_pos b) <= 5 * M /\
    (1 - 12 * u53) * dist n P (b_pos b) - eta <= dist_fl n P (b_pos b)).
  { intros b H. pose proof (fb_pos _ _ _ (Hes b H)) as Hp. split; [apply dist_fl_fmt|].
    destruct (dist_fl_bounds n P (b_pos b) ltac:(lia) ltac:(intros i Hi; split; [apply X|apply Hp]; exact Hi) ltac:(lia)) as [D1 D2].
    pose proof (dist_M P (b_pos b) ltac:(intros; apply X; assumption) ltac:(intros; apply Hp; assumption)) as D3.
    split; [|exact D1]. split; [apply dist_fl_pos|]. rewrite u53_eq in *. pose proof (dist_nonneg n P (b_pos b)). lra. }
  assert (DC : forall c q, In c ns -> fsum m n k c q -> fmt (dist_fl n P (cm_pos c)) /\ 0 <= dist_fl n P (cm_pos c) <= 5 * M /\
    (1 - 12 * u53) * dist n P (cm_pos c) - eta <= dist_fl n P (cm_pos c)).
  { intros c q H Hq. pose proof (fs_pos _ _ _ _ _ Hq) as Hp. split; [apply dist_fl_fmt|].
    destruct (dist_fl_bounds n P (cm_pos c) ltac:(lia) ltac:(intros i Hi; split; [apply X|apply Hp]; exact Hi) ltac:(lia)) as [D1 D2].
    pose proof (dist_M P (cm_pos c) ltac:(intros; apply X; assumption) ltac:(intros; apply Hp; assumption)) as D3.
    split; [|exact D1]. split; [apply dist_fl_pos|]. rewrite u53_eq in *. pose proof (dist_nonneg n P (cm_pos c)). lra. }
  assert (RC : forall c q, In c ns -> fsum m n k c q -> rnd (dist_fl n P (cm_pos c) + cm_rad c) <= 8 * INR (S k) * M).
  { intros c q H Hq. destruct (DC c q H Hq) as (F & D & _). destruct (fs_rad _ _ _ _ _ Hq) as [Fr Hr].
    eapply Rle_trans; [apply rnd_plus_up; [exact F|exact Fr|lra]|]. rewrite S_INR.
    assert (KM : INR k * M <= 64 * M) by (apply Rmult_le_compat_r; lra).
    assert (KM0 : 0 <= INR k * M) by (apply Rmult_le_pos; lra).
    rewrite u53_eq in *. lra. }
  assert (Er : cm_rad cm = fold_left (fun s c => Rmax s (rnd (dist_fl n P (cm_pos c) + cm_rad c))) ns
                  (fold_left (fun s b => Rmax s (dist_fl n P (b_pos b))) es 0)) by reflexivity.
  assert (El : cm_lap cm = fold_left (fun s c => Rmax s (rnd (rnd (dist_fl n P (cm_pos c) + cm_rad c) + cm_lap c))) ns
               (fold_left (fun s b => Rmax s (rnd (dist_fl n P (b_pos b) + b_rad b))) es 0)) by reflexivity.
  constructor.
  - exact Hne.
  - split; [|split; [exact Tm|exact Tu]]. unfold cm, compute_cofm_fl. cbn [cm_mass].
    rewrite (fold_map cm_mass (fun s w => rnd (s + w))), (fold_map b_mass (fun s w => rnd (s + w))), <- fold_left_app.
    generalize (map b_mass es ++ map cm_mass ns). intros l. assert (G : forall t, fmt t -> fmt (fold_left (fun s w => rnd (s + w)) l t)).
    { induction l as [|w l IH]; intros t Ht; cbn [fold_left]; [exact Ht|]. apply IH, rnd_fmt. }
    apply G, generic_format_0.
  - exact X.
  - unfold cm, compute_cofm_fl. cbn [cm_sub]. rewrite fold_len, fold_count. cbn [Nat.add]. unfold ps. rewrite app_length. f_equal.
    clear - HF. induction HF as [|c q ns pss H HF IH]; cbn; [reflexivity|].
    rewrite app_length, (fs_sub _ _ _ _ _ H), <- IH. reflexivity.
  - rewrite Er. split; [|split].
    + apply fold_max_fmt; [intros; apply rnd_fmt|]. apply fold_max_fmt; [intros x H; apply DE; exact H|apply generic_format_0].
    + eapply Rle_trans; [|apply fold_max_ge]. apply fold_max_ge.
    + rewrite S_INR. assert (KM0 : 0 <= INR k * M) by (apply Rmult_le_pos; lra). apply fold_max_le.
      * intros c H. destruct (Hns c H) as (q & _ & Hq). rewrite <- S_INR. exact (RC c q H Hq).
      * apply fold_max_le; [intros b H; destruct (DE b H) as (_ & D & _)|]; lra.
  - rewrite El. split; [|split].
    + apply fold_max_fmt; [intros; apply rnd_fmt|]. apply fold_max_fmt; [intros; apply rnd_fmt|apply generic_format_0].
    + eapply Rle_trans; [|apply fold_max_ge]. apply fold_max_ge.
    + assert (KM0 : 0 <= INR k * M) by (apply Rmult_le_pos; lra). assert (KK0 : 0 <= INR k * (INR k * M)) by (apply Rmult_le_pos; lra).
      assert (KK1 : INR k * (INR k * M) <= 64 * (INR k * M)) by (apply Rmult_le_compat_r; lra).
      assert (KM1 : INR k * M <= 64 * M) by (apply Rmult_le_compat_r; lra).
      apply fold_max_le.
      * intros c H. destruct (Hns c H) as (q & _ & Hq). pose proof (RC c q H Hq) as R. destruct (DC c q H Hq) as (F & D & _).
        destruct (fs_rad _ _ _ _ _ Hq) as [Fr Hr]. destruct (fs_lap _ _ _ _ _ Hq) as [Fl Hl].
        pose proof (rnd_pos (dist_fl n P (cm_pos c) + cm_rad c) ltac:(lra)) as R0.
        eapply Rle_trans; [apply rnd_plus_up; [apply rnd_fmt|exact Fl|lra]|]. rewrite S_INR in *. rewrite u53_eq in *. lra.
      * apply fold_max_le.
        -- intros b H. destruct (DE b H) as (F & D & _). destruct (fb_rad _ _ _ (Hes b H)) as [Fr Hr].
           eapply Rle_trans; [apply rnd_plus_up; [exact F|exact Fr|lra]|]. rewrite S_INR in *. rewrite u53_eq in *. lra.
        -- rewrite S_INR. lra.
  - intros b i H Hi. unfold ps in H. apply in_app_or in H. destruct H as [H|H].
    + split.
      * eapply Rle_trans; [apply fold_min_le|]. apply (fold_min_in (fun b => lo_fl b i)). assumption.
      * eapply Rle_trans; [|apply fold_max_ge]. apply (fold_max_in (fun b => hi_fl b i)). assumption.
    + destruct (Hcon b H) as (c & q & Hc & Hbq & Hq). destruct (fs_box _ _ _ _ _ Hq b i Hbq Hi) as [H1 H2]. split.
      * eapply Rle_trans; [|exact H1]. apply (fold_min_in (fun c => cm_min c i)). assumption.
      * eapply Rle_trans; [exact H2|]. apply (fold_max_in (fun c => cm_max c i)). assumption.
  - intros i Hi. pose proof (dbl_max_big m ltac:(lia)) as DB. split; [|split; [|split]].
    + apply fold_min_fmt; [intros c Hc; destruct (Hns c Hc) as (q & _ & Hq); apply (fs_boxf _ _ _ _ _ Hq i Hi)|].
      apply fold_min_fmt; [intros; apply rnd_fmt|apply dbl_max_fmt].
    + apply fold_max_fmt; [intros c Hc; destruct (Hns c Hc) as (q & _ & Hq); apply (fs_boxf _ _ _ _ _ Hq i Hi)|].
      apply fold_max_fmt; [intros; apply rnd_fmt|apply fmt_opp, dbl_max_fmt].
    + apply fold_min_ge; [intros c Hc; destruct (Hns c Hc) as (q & _ & Hq); apply (fs_boxf _ _ _ _ _ Hq i Hi)|].
      apply fold_min_ge; [|lra]. intros b H. destruct (box_M b i (Hes b H) Hi) as [B1 _]. apply Rabs_le_inv in B1. apply B1.
    + apply fold_max_le; [intros c Hc; destruct (Hns c Hc) as (q & _ & Hq); apply (fs_boxf _ _ _ _ _ Hq i Hi)|].
      apply fold_max_le; [|lra]. intros b H. destruct (box_M b i (Hes b H) Hi) as [_ B1]. apply Rabs_le_inv in B1. apply B1.
  - intros b H. rewrite Er, S_INR. unfold ps in H. apply in_app_or in H. destruct H as [H|H].
    + destruct (DE b H) as (_ & _ & D). apply Rle_trans with (dist_fl n P (b_pos b)).
      * pose proof (dist_nonneg n P (b_pos b)) as D0. change (cm_pos cm) with P.
        assert (0 <= INR k * (u53 * dist n P (b_pos b))) by (apply Rmult_le_pos; [lra|apply Rmult_le_pos; lra]).
        assert (0 <= u53 * dist n P (b_pos b)) by (apply Rmult_le_pos; lra).
        assert (0 <= INR k * eta) by (apply Rmult_le_pos; lra). lra.
      * eapply Rle_trans; [|apply fold_max_ge]. apply (fold_max_in (fun b => dist_fl n P (b_pos b))). assumption.
    + destruct (Hcon b H) as (c & q & Hc & Hbq & Hq). destruct (DC c q Hc Hq) as (F & D & D1). destruct (fs_rad _ _ _ _ _ Hq) as [Fr Hr].
      pose proof (fs_reach _ _ _ _ _ Hq b Hbq) as R1.
      apply Rle_trans with (rnd (dist_fl n P (cm_pos c) + cm_rad c)).
      * eapply Rle_trans; [|apply rnd_plus_lo; [exact F|exact Fr|lra]]. change (cm_pos cm) with P.
        pose proof (dist_triangle n P (cm_pos c) (b_pos b)) as Tr. pose proof (dist_nonneg n P (cm_pos c)) as N1. pose proof (dist_nonneg n (cm_pos c) (b_pos b)) as N2.
        set (d1 := dist n P (cm_pos c)) in *. set (d2 := dist n (cm_pos c) (b_pos b)) in *. set (d := dist n P (b_pos b)) in *.
        set (f := dist_fl n P (cm_pos c)) in *. clearbody d1 d2 d f.
        assert (A1 : 0 <= u53 * d1) by (apply Rmult_le_pos; lra). assert (A2 : 0 <= u53 * d2) by (apply Rmult_le_pos; lra).
        assert (A3 : 0 <= INR k * (u53 * d1)) by (apply Rmult_le_pos; lra). assert (A4 : 0 <= INR k * (u53 * d2)) by (apply Rmult_le_pos; lra).
        assert (A5 : 0 <= INR k * eta) by (apply Rmult_le_pos; lra). assert (A6 : 0 <= u53 * (INR k * eta)) by (apply Rmult_le_pos; lra).
        assert (A7 : 0 <= u53 * (u53 * d1)) by (apply Rmult_le_pos; lra). assert (A8 : 0 <= u53 * (INR k * (u53 * d2))) by (apply Rmult_le_pos; lra).
        assert (A9 : 0 <= u53 * eta) by (apply Rmult_le_pos; lra).
        assert (C1 : (1 - u53) * ((1 - 12 * u53) * d1 - eta + ((1 - 14 * INR k * u53) * d2 - 2 * INR k * eta)) <= (1 - u53) * (f + cm_rad c)) by (apply Rmult_le_compat_l; lra).
        assert (C0 : 0 <= 1 - 14 * (INR k + 1) * u53) by (rewrite u53_eq; lra).
        assert (C2 : (1 - 14 * (INR k + 1) * u53) * d <= (1 - 14 * (INR k + 1) * u53) * (d1 + d2)) by (apply Rmult_le_compat_l; lra).
        lra.
      * apply (fold_max_in (fun c => rnd (dist_fl n P (cm_pos c) + cm_rad c))). assumption.
  - intros b H. rewrite El. unfold ps in H. apply in_app_or in H. destruct H as [H|H].
    + destruct (DE b H) as (_ & D & _). destruct (fb_rad _ _ _ (Hes b H)) as [Fr Hr]. apply Rle_trans with (rnd (dist_fl n P (b_pos b) + b_rad b)).
      * rewrite <- (rnd_id _ Fr) at 1. apply rnd_le. lra.
      * eapply Rle_trans; [|apply fold_max_ge]. apply (fold_max_in (fun b => rnd (dist_fl n P (b_pos b) + b_rad b))). assumption.
    + destruct (Hcon b H) as (c & q & Hc & Hbq & Hq). destruct (DC c q Hc Hq) as (F & D & D1). destruct (fs_rad _ _ _ _ _ Hq) as [Fr Hr].
      destruct (fs_lap _ _ _ _ _ Hq) as [Fl Hl]. eapply Rle_trans; [apply (fs_over _ _ _ _ _ Hq b Hbq)|].
      apply Rle_trans with (rnd (rnd (dist_fl n P (cm_pos c) + cm_rad c) + cm_lap c)).
      * rewrite <- (rnd_id _ Fl) at 1. apply rnd_le. pose proof (rnd_pos (dist_fl n P (cm_pos c) + cm_rad c) ltac:(lra)). lra.
      * apply (fold_max_in (fun c => rnd (rnd (dist_fl n P (cm_pos c) + cm_rad c) + cm_lap c))). assumption.
Qed.

(** ** every node of a tree *)
Lemma fsum_perm k s ps ps' : Permutation ps ps' -> fsum m n k s ps -> fsum m n k s ps'.
Proof using.
  intros HP H. assert (HI : forall b, In b ps' -> In b ps) by (intros b; apply Permutation_in, Permutation_sym, HP).
  constructor.
  - intros ->. apply (fs_ne _ _ _ _ _ H). apply Permutation_nil, Permutation_sym, HP.
  - rewrite <- (Permutation_length HP), <- (suml_perm b_mass _ _ HP). apply (fs_mass _ _ _ _ _ H).
  - apply (fs_pos _ _ _ _ _ H).
  - rewrite (fs_sub _ _ _ _ _ H). apply Permutation_length, HP.
  - apply (fs_rad _ _ _ _ _ H).
  - apply (fs_lap _ _ _ _ _ H).
  - intros b i Hb. apply (fs_box _ _ _ _ _ H). auto.
  - apply (fs_boxf _ _ _ _ _ H).
  - intros b Hb. apply (fs_reach _ _ _ _ _ H). auto.
  - intros b Hb. apply (fs_over _ _ _ _ _ H). auto.
Qed.
Lemma eval_fl_ok bodies tr : forall k s, (height tr <= k <= 64)%nat -> ne tr ->
  (forall i, In i (leaves tr) -> fl_body m n (get_body bodies i)) ->
  eval (fcc_cofm_fl n bodies) tr = inr s -> fsum m n k s (map (get_body bodies) (leaves tr)).
Proof using Hm Hn.
  induction tr as [i|kk ch IH] using tree_ind'; intros k s Hk Hne Hb E; [discriminate|].
  pose proof (ne_leaves _ Hne) as Hle. destruct Hne as [_ Hnc]. apply fold_and_Forall in Hnc.
  destruct k as [|k]; [cbn in Hk; lia|]. cbn [height] in Hk.
  cbn [eval] in E. injection E as <-.
  set (es := map (fun x => eval (fcc_cofm_fl n bodies) (snd x)) ch).
  set (pss := flat_map (fun x => match snd x with Leaf _ => [] | Node _ _ => [map (get_body bodies) (leaves (snd x))] end) ch).
  assert (HP : Permutation (map (get_body bodies) (lefts es) ++ concat pss)
                           (map (get_body bodies) (leaves (Node kk ch)))).
  { unfold es, pss. clear IH Hb Hnc Hle Hk. cbn [leaves]. induction ch as [|[d t] ch IHc]; [constructor|].
    cbn [flat_map map lefts snd]. rewrite !map_app. destruct t as [i|k' ch'].
    - cbn [eval leaves map app]. constructor. exact IHc.
    - change (eval (fcc_cofm_fl n bodies) (Node k' ch')) with (inr nat (fcc_cofm_fl n bodies k'
        (lefts (map (fun x => eval (fcc_cofm_fl n bodies) (snd x)) ch')) (rights (map (fun x => eval (fcc_cofm_fl n bodies) (snd x)) ch')))).
      cbn [lefts flat_map app map concat]. eapply Permutation_trans; [apply Permutation_app_swap_app|].
      apply Permutation_app_head. exact IHc. }
  eapply fsum_perm; [exact HP|].
  unfold fcc_cofm_fl. apply compute_cofm_fl_ok.
  - lia.
  - intros E. rewrite E in HP. apply Permutation_nil in HP. apply map_eq_nil in HP. auto.
  - intros b Hin. apply (Permutation_in _ HP) in Hin. apply in_map_iff in Hin. destruct Hin as (i & <- & Hi). auto.
  - assert (Hh : Forall (fun x => (height (snd x) <= k)%nat) ch).
    { apply Forall_forall. intros x Hx. pose proof (height_kid ch x Hx). lia. }
    assert (K64 : (k <= 64)%nat) by lia.
    unfold es, pss. clear HP es pss Hk Hle. cbn [leaves] in Hb. induction ch as [|[d t] ch IHc]; [constructor|].
    inversion IH; subst. inversion Hnc; subst. inversion Hh; subst. cbn [flat_map map snd] in *.
    assert (Hb' : forall i, In i (flat_map (fun x => leaves (snd x)) ch) -> fl_body m n (get_body bodies i)).
    { intros i Hi. apply Hb. apply in_or_app. auto. }
    specialize (IHc H2 H4 Hb' H6). destruct t as [i|k' ch'].
    + exact IHc.
    + change (eval (fcc_cofm_fl n bodies) (Node k' ch')) with (inr nat (fcc_cofm_fl n bodies k'
        (lefts (map (fun x => eval (fcc_cofm_fl n bodies) (snd x)) ch')) (rights (map (fun x => eval (fcc_cofm_fl n bodies) (snd x)) ch')))).
      cbn [rights flat_map app]. constructor; [|exact IHc].
      apply H1; [lia|exact H3| |reflexivity]. intros i Hi. apply Hb. apply in_or_app. auto.
Qed.

(** ** the tests *)
(** what the search may miss or add *)
Definition slack : R := bpow radix2 (m - 40).
Lemma slack_eq : slack = M * / 1099511627776.
Proof using. unfold slack, Z.sub. rewrite bpow_plus. reflexivity. Qed.
Lemma rad_half b : fl_body m n b -> Rabs (rnd (b_rad b / 2) - b_rad b / 2) <= u53 * M + tau.
Proof using Hm Hn.
  intros Hb. destruct (fb_rad _ _ _ Hb) as [_ Hr]. eapply Rle_trans; [apply rnd_err|]. apply Rplus_le_compat_r.
  apply Rmult_le_compat_l; [left; apply u53_pos|]. rewrite Rabs_pos_eq; lra.
Qed.
Lemma box_err b i : fl_body m n b -> (i < n)%nat ->
  Rabs (lo_fl b i - (b_pos b i - b_rad b / 2)) <= M * / 281474976710656 /\ Rabs (hi_fl b i - (b_pos b i + b_rad b / 2)) <= M * / 281474976710656.
Proof using Hm Hn.
  intros Hb Hi. pose proof (rad_half b Hb) as H1. destruct (fb_pos _ _ _ Hb i Hi) as [_ Hx]. apply Rabs_le_inv in Hx.
  destruct (fb_rad _ _ _ Hb) as [_ Hr]. pose proof M_pos. pose proof eta_M. pose proof tau_small. apply Rabs_le_inv in H1. rewrite u53_eq in H1.
  unfold lo_fl, hi_fl. set (g := rnd (b_rad b / 2)) in *.
  pose proof (rnd_err (b_pos b i - g)) as E1. pose proof (rnd_err (b_pos b i + g)) as E2. rewrite u53_eq in *.
  assert (A1 : Rabs (b_pos b i - g) <= 3 * M) by (apply Rabs_le; lra). assert (A2 : Rabs (b_pos b i + g) <= 3 * M) by (apply Rabs_le; lra).
  assert (F1 : Rabs (rnd (b_pos b i - g) - (b_pos b i - g)) <= / 9007199254740992 * (3 * M) + tau) by lra.
  assert (F2 : Rabs (rnd (b_pos b i + g) - (b_pos b i + g)) <= / 9007199254740992 * (3 * M) + tau) by lra.
  apply Rabs_le_inv in F1. apply Rabs_le_inv in F2. split; apply Rabs_le; lra.
Qed.

(** a point close to a particle of the node is found close to the node *)
Lemma node_reached s ps b r y : fsum m n 64 s ps -> In b ps -> fl_body m n b -> fmt r -> 0 <= r <= M ->
  (forall i, (i < n)%nat -> fmt (y i) /\ Rabs (y i) <= M) ->
  dist n y (b_pos b) <= Rmax r (b_rad b) - slack ->
  dist n y (cm_pos s) <= (1 - 12 * u53) * rnd (Rmax r (cm_lap s) + cm_rad s) - eta.
Proof using Hm Hn.
  intros Hs Hb Fb Fr Hr Hy Hd. destruct (fs_rad _ _ _ _ _ Hs) as [Frad [R0 _]]. destruct (fs_lap _ _ _ _ _ Hs) as [Flap [L0 _]].
  pose proof (fs_reach _ _ _ _ _ Hs b Hb) as H1. pose proof (fs_over _ _ _ _ _ Hs b Hb) as H2. destruct (fb_rad _ _ _ Fb) as [_ Hrb].
  assert (G : Rmax r (b_rad b) <= Rmax r (cm_lap s)).
  { apply Rmax_lub; [apply Rmax_l|]. eapply Rle_trans; [exact H2|apply Rmax_r]. }
  pose proof (Rmax_l r (b_rad b)) as M1. assert (M2 : Rmax r (b_rad b) <= M) by (apply Rmax_lub; lra).
  pose proof (rnd_plus_lo (Rmax r (cm_lap s)) (cm_rad s) (fmt_max _ _ Fr Flap) Frad ltac:(lra)) as E.
  pose proof (dist_triangle n y (b_pos b) (cm_pos s)) as Tr. rewrite (dist_sym n (b_pos b)) in Tr.
  pose proof (dist_M (cm_pos s) (b_pos b) ltac:(intros; apply (fs_pos _ _ _ _ _ Hs); assumption) ltac:(intros; apply (fb_pos _ _ _ Fb); assumption)) as D4.
  pose proof (dist_nonneg n (cm_pos s) (b_pos b)) as D0. rewrite slack_eq in Hd. pose proof eta_M as EM. pose proof eta_pos. pose proof M_pos.
  replace (INR 64) with 64 in H1 by (cbn; lra). rewrite u53_eq in *. lra.
Qed.
Lemma half_sum_max a b : (a + b) / 2 <= Rmax a b.
Proof using. unfold Rmax. destruct (Rle_dec a b); lra. Qed.

(** two nodes with particles close to one another overlap *)
Lemma boxes_meet s ps s' ps' b b' : fsum m n 64 s ps -> fsum m n 64 s' ps' -> In b ps -> In b' ps' -> fl_body m n b -> fl_body m n b' ->
  dist n (b_pos b) (b_pos b') <= (b_rad b + b_rad b') / 2 - slack ->
  intersects_box_box n (cm_min s) (cm_max s) (cm_min s') (cm_max s') = true.
Proof using Hm Hn.
  intros Hs Hs' Hb Hb' Fb Fb' Hd. apply box_box_true. intros i Hi.
  destruct (fs_box _ _ _ _ _ Hs b i Hb Hi) as [A1 A2]. destruct (fs_box _ _ _ _ _ Hs' b' i Hb' Hi) as [A3 A4].
  pose proof (coord_le_dist n (b_pos b) (b_pos b') i Hi) as H3.
  destruct (box_err b i Fb Hi) as [B1 B2]. destruct (box_err b' i Fb' Hi) as [B3 B4].
  apply Rabs_le_inv in B1. apply Rabs_le_inv in B2. apply Rabs_le_inv in B3. apply Rabs_le_inv in B4.
  assert (C : Rabs (b_pos b i - b_pos b' i) <= (b_rad b + b_rad b') / 2 - slack) by lra. apply Rabs_le_inv in C.
  rewrite slack_eq in C. pose proof M_pos. split; lra.
Qed.

Lemma dist_err a b a' b' e : 0 <= e -> (forall i, (i < n)%nat -> Rabs (a i - b i) <= Rabs (a' i - b' i) + e) ->
  dist n a b <= dist n a' b' + 2 * e.
Proof using Hn.
  intros He H. set (v := fun i => Rabs (a' i - b' i)). set (w := fun i : nat => - e).
  apply Rle_trans with (dist n v w).
  - unfold dist. apply sqrt_le_1_alt. apply sumn_le. intros i Hi. cbv beta. unfold v, w. specialize (H i Hi).
    pose proof (Rabs_pos (a i - b i)) as P1. rewrite <- (Rabs_sqr_eq' (a i - b i)). apply Rmult_le_compat; lra.
  - eapply Rle_trans; [apply (dist_triangle n v vzero w)|]. apply Rplus_le_compat.
    + right. unfold dist, dist2. f_equal. apply sumn_ext. intros i Hi. unfold v, vzero. rewrite Rminus_0_r. apply Rabs_sqr_eq'.
    + apply dist_le_iff; [lra|]. unfold dist2, vzero, w.
      destruct n as [|[|[|[|k]]]]; cbn [sumn]; try lia; nra.
Qed.

(** a particle close to a particle of the node meets its box *)
Lemma box_met s ps b c r : fsum m n 64 s ps -> In b ps -> fl_body m n b -> fmt r -> 0 <= r <= M ->
  (forall i, (i < n)%nat -> fmt (c i) /\ Rabs (c i) <= M) ->
  dist n c (b_pos b) <= (r + b_rad b) / 2 - slack ->
  sphere_box_fl n (cm_min s) (cm_max s) c r = true.
Proof using Hm Hn.
  intros Hs Hb Fb Fr Hr Hc Hd. pose proof M_pos as MP. pose proof eta_M as EM. pose proof eta_pos as EP. pose proof slack_eq as SE.
  destruct (fb_rad _ _ _ Fb) as [_ Hrb].
  set (y := closest (cm_min s) (cm_max s) c).
  assert (Bx : forall i, (i < n)%nat -> cm_min s i <= b_pos b i - b_rad b / 2 + M * / 281474976710656 /\
      b_pos b i + b_rad b / 2 - M * / 281474976710656 <= cm_max s i /\ cm_min s i <= cm_max s i).
  { intros i Hi. destruct (fs_box _ _ _ _ _ Hs b i Hb Hi) as [A1 A2]. destruct (box_err b i Fb Hi) as [B1 B2].
    apply Rabs_le_inv in B1. apply Rabs_le_inv in B2. split; [lra|]. split; [lra|].
    eapply Rle_trans; [exact A1|]. eapply Rle_trans; [|exact A2]. unfold lo_fl, hi_fl. apply rnd_le.
    pose proof (rnd_pos (b_rad b / 2) ltac:(lra)). lra. }
  assert (Fy : forall i, (i < n)%nat -> fmt (y i) /\ fmt (c i)).
  { intros i Hi. split; [|apply Hc; exact Hi]. destruct (fs_boxf _ _ _ _ _ Hs i Hi) as (F1 & F2 & _).
    apply fmt_max; [exact F1|apply fmt_min; [apply Hc; exact Hi|exact F2]]. }
  assert (K : dist n y c = 0 \/ dist n y c <= r / 2 + 2 * (M * / 281474976710656) /\ slack < r).
  { destruct (Rle_lt_dec r slack) as [Lr|Lr].
    - left. unfold dist. rewrite <- sqrt_0. f_equal. unfold dist2. rewrite <- (sumn_zero n). apply sumn_ext. intros i Hi.
      destruct (Bx i Hi) as (B1 & B2 & B3). pose proof (coord_le_dist n c (b_pos b) i Hi) as H3.
      assert (C : Rabs (c i - b_pos b i) <= (r + b_rad b) / 2 - slack) by lra. apply Rabs_le_inv in C.
      assert (E : y i = c i).
      { unfold y, closest. rewrite Rmin_left by lra. apply Rmax_right. lra. }
      rewrite E. ring.
    - right. split; [|exact Lr].
      destruct (proj2 (balls_meet n c (r / 2) (b_pos b) (b_rad b / 2) ltac:(lra) ltac:(lra)) ltac:(lra)) as (z & H1 & H2). unfold ball in *.
      eapply Rle_trans; [apply (dist_err y c z c (M * / 281474976710656)); [lra|]|lra].
      intros i Hi. destruct (Bx i Hi) as (B1 & B2 & B3). pose proof (coord_le_dist n z (b_pos b) i Hi) as H3.
      assert (C : Rabs (z i - b_pos b i) <= b_rad b / 2) by lra. apply Rabs_le_inv in C.
      unfold y, closest, Rmax, Rmin. pose proof (Rle_abs (z i - c i)) as Q1. pose proof (Rle_abs (- (z i - c i))) as Q2. rewrite Rabs_Ropp in Q2.
      destruct (Rle_dec (c i) (cm_max s i)); destruct (Rle_dec _ _); apply Rabs_le; lra. }
  assert (D : dist_fl n y c <= r).
  { destruct (dist_fl_bounds n y c ltac:(lia) Fy ltac:(lia)) as [_ D]. destruct K as [K|[K K']].
    - assert (E : forall i, (i < n)%nat -> y i = c i).
      { intros i Hi. pose proof (coord_le_dist n y c i Hi) as Q. rewrite K in Q. pose proof (Rabs_pos (y i - c i)).
        assert (Z : Rabs (y i - c i) = 0) by lra. apply Rabs_eq_0 in Z. lra. }
      assert (E2 : forall k, (k <= n)%nat -> dist2_fl k y c = 0).
      { induction k as [|k IH]; intros Hk; cbn [dist2_fl]; [reflexivity|]. rewrite IH by lia. unfold sq_fl. rewrite (E k) by lia.
        rewrite Rminus_diag_eq, rnd_0, Rmult_0_l, rnd_0, Rplus_0_r, rnd_0 by reflexivity. reflexivity. }
      unfold dist_fl. rewrite (E 0%nat), (E2 n) by lia. rewrite Rminus_diag_eq, rnd_0, Rabs_R0, sqrt_0, rnd_0 by reflexivity. destruct n as [|[|k]]; lra.
    - rewrite u53_eq in D. lra. }
  assert (W : Rleb (rnd (dist_fl n y c - r)) tol = true).
  { apply Rleb_true. apply Rle_trans with 0; [rewrite <- rnd_0; apply rnd_le; lra|]. unfold tol. apply Rmult_le_pos; [lra|].
    left. apply Rinv_0_lt_compat, pow_lt. lra. }
  assert (W3 : dist n y c = 0 -> dist2_fl n y c = 0).
  { intros K0. assert (E : forall i, (i < n)%nat -> y i = c i).
      { intros i Hi. pose proof (coord_le_dist n y c i Hi) as Q. rewrite K0 in Q. pose proof (Rabs_pos (y i - c i)).
        assert (Z : Rabs (y i - c i) = 0) by lra. apply Rabs_eq_0 in Z. lra. }
    assert (E2 : forall k, (k <= n)%nat -> dist2_fl k y c = 0).
      { induction k as [|k IH]; intros Hk; cbn [dist2_fl]; [reflexivity|]. rewrite IH by lia. unfold sq_fl. rewrite (E k) by lia.
        rewrite Rminus_diag_eq, rnd_0, Rmult_0_l, rnd_0, Rplus_0_r, rnd_0 by reflexivity. reflexivity. }
    apply E2. lia. }
  unfold sphere_box_fl. destruct n as [|[|[|[|k]]]] eqn:En; try exact W; try lia.
  assert (E3 : dist2_fl 3 (closest3 (cm_min s) (cm_max s) c) c = dist2_fl 3 y c).
  { cbn [dist2_fl]. unfold sq_fl. rewrite !closest3_eq by (apply Bx; lia). reflexivity. }
  rewrite E3. destruct K as [K|[K K']].
  - rewrite (W3 K). apply Rleb_true. apply rnd_pos. apply Rle_0_sqr.
  - apply (within_complete 3 y c ltac:(lia) Fy). rewrite u53_eq. lra.
Qed.
End Summary.
