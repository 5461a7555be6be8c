(** Property C95: smoothing lengths. *)
From Coq Require Import Reals Lra Permutation.
From Verif Require Import Base BuildTree_model Hlen_model.
Local Open Scope R_scope.

Definition good (b : R * R) : Prop := 0 < fst b /\ 0 < snd b.

Lemma cbrt_pos x : 0 < x -> 0 < cbrt x /\ cbrt x ^ 3 = x.
Proof.
  intros Hx. unfold cbrt. destruct (Rlt_dec 0 x) as [_|C]; [|contradiction]. split; [unfold Rpower; apply exp_pos|].
  rewrite <- Rpower_pow by (unfold Rpower; apply exp_pos). rewrite Rpower_mult. replace (/ 3 * INR 3) with 1 by (cbn; lra). apply Rpower_1. exact Hx.
Qed.
Lemma hroot_pos dim x : (1 <= dim <= 3)%nat -> 0 < x -> exists r, hroot dim x = Some r /\ 0 < r /\ r ^ dim = x.
Proof.
  intros Hd Hx. destruct dim as [|[|[|[|?]]]]; try lia; cbn [hroot].
  - exists x. split; [reflexivity|]. split; [exact Hx|]. apply pow_1.
  - destruct (Rlt_dec x 0) as [C|_]; [lra|]. exists (sqrt x). split; [reflexivity|]. split; [apply sqrt_lt_R0, Hx|]. apply pow2_sqrt. lra.
  - exists (cbrt x). split; [reflexivity|]. apply cbrt_pos, Hx.
Qed.

(** The radius is positive, and the density times the volume of a cube of side
    radius / (sph_eta kernel_width) is the mass of the particle; so a ball of that
    radius holds the same number of masses at any density. *)
Theorem C95_relation dim eta width b : (1 <= dim <= 3)%nat -> 0 < eta -> 0 < width -> good b -> exists h, radius_of dim eta width b = Some h /\ 0 < h /\
  snd b * (h / (eta * width)) ^ dim = fst b.
Proof.
  intros Hd He Hw [Hm Hr]. unfold radius_of. destruct (Req_EM_T (snd b) 0) as [C|_]; [lra|].
  destruct (hroot_pos dim (fst b / snd b) Hd) as (r & -> & Rp & Er); [apply Rdiv_lt_0_compat; assumption|].
  exists (r * eta * width). split; [reflexivity|]. split; [repeat apply Rmult_lt_0_compat; assumption|].
  replace (r * eta * width / (eta * width)) with r by (field; lra). rewrite Er. field. lra.
Qed.
Lemma pow_lt_inv x y n : 0 <= x -> 0 <= y -> x ^ n < y ^ n -> x < y.
Proof. intros Hx Hy H. apply Rnot_le_lt. intros C. pose proof (pow_incr y x n (conj Hy C)). lra. Qed.
Lemma pow_lt_mono x y n : 0 < x -> x < y -> (1 <= n)%nat -> x ^ n < y ^ n.
Proof.
  intros Hx Hy Hn. destruct n as [|n]; [lia|]. clear Hn. induction n as [|n IH]; [rewrite !pow_1; exact Hy|].
  cbn [pow] in *. apply Rmult_gt_0_lt_compat; try assumption; [apply Rlt_gt, Rmult_lt_0_compat; [exact Hx|apply pow_lt; exact Hx]|lra].
Qed.
(** Of two particles the one with the larger volume mass / density has the larger
    radius, and the radius scales with the dimension-th root. *)
Theorem C95_order dim eta width b b' h h' : (1 <= dim <= 3)%nat -> 0 < eta -> 0 < width -> good b -> good b' ->
  radius_of dim eta width b = Some h -> radius_of dim eta width b' = Some h' ->
  (h < h' <-> fst b / snd b < fst b' / snd b') /\ h' ^ dim * (fst b / snd b) = h ^ dim * (fst b' / snd b').
Proof.
  intros Hd He Hw G G' E E'. destruct (C95_relation dim eta width b Hd He Hw G) as (k & Ek & Kp & Rk). destruct (C95_relation dim eta width b' Hd He Hw G') as (k' & Ek' & Kp' & Rk').
  rewrite E in Ek. injection Ek as <-. rewrite E' in Ek'. injection Ek' as <-. destruct G as [M1 D1], G' as [M2 D2].
  set (c := eta * width) in *. assert (Cp : 0 < c) by (apply Rmult_lt_0_compat; assumption).
  assert (V : fst b / snd b = (h / c) ^ dim) by (rewrite <- Rk; field; lra). assert (V' : fst b' / snd b' = (h' / c) ^ dim) by (rewrite <- Rk'; field; lra).
  assert (I : 0 < / c) by (apply Rinv_0_lt_compat; exact Cp). rewrite V, V'. split.
  - split; intros H.
    + assert (H0 : h / c < h' / c) by (apply Rmult_lt_compat_r; assumption). assert (H1 : 0 < h / c) by (apply Rmult_lt_0_compat; assumption).
      apply pow_lt_mono; [exact H1|exact H0|lia].
    + apply pow_lt_inv in H; [|left; apply Rmult_lt_0_compat; assumption|left; apply Rmult_lt_0_compat; assumption].
      apply Rmult_lt_reg_r with (/ c); assumption.
  - unfold Rdiv. rewrite !Rpow_mult_distr. ring.
Qed.
(** Without density the code divides by zero. *)
Theorem C95_empty_refuted : exists dim eta width b, (1 <= dim <= 3)%nat /\ 0 < eta /\ 0 < width /\ 0 < fst b /\ 0 <= snd b /\ radius_of dim eta width b = None.
Proof. exists 3%nat, 1, 1, (1, 0). cbn [fst snd]. repeat split; try lra; try lia. unfold radius_of. cbn [snd]. destruct (Req_EM_T 0 0) as [_|C]; [reflexivity|contradiction]. Qed.

(** ** the average over all processes *)
Lemma mapM_spec {A B} (f : A -> option B) : forall l r, mapM f l = Some r <-> Forall2 (fun x y => f x = Some y) l r.
Proof.
  induction l as [|x l IH]; intros r; cbn [mapM].
  - split; [intros [= <-]; constructor|intros H; inversion H; reflexivity].
  - destruct (f x) as [y|] eqn:E; [|split; [discriminate|intros H; inversion H; congruence]].
    destruct (mapM f l) as [ys|] eqn:El.
    + split.
      * intros [= <-]. constructor; [exact E|]. apply IH. reflexivity.
      * intros H. inversion H; subst. assert (y0 = y) by congruence. subst. apply IH in H4. injection H4 as ->. reflexivity.
    + split; [discriminate|]. intros H. inversion H; subst. apply IH in H4. discriminate.
Qed.
Lemma F2_length {A B} (P : A -> B -> Prop) l r : Forall2 P l r -> length l = length r.
Proof. induction 1; cbn; congruence. Qed.
Fixpoint rsum (l : list R) : R := match l with [] => 0 | x :: r => x + rsum r end.
Lemma fold_rsum l : forall a, fold_left Rplus l a = a + rsum l.
Proof. induction l as [|x l IH]; intros a; cbn; [lra|]. rewrite IH. lra. Qed.
Lemma rsum_app l k : rsum (l ++ k) = rsum l + rsum k.
Proof. induction l as [|x l IH]; cbn; lra. Qed.
Lemma rsum_perm l k : Permutation l k -> rsum l = rsum k.
Proof. induction 1; cbn; lra. Qed.
Lemma rsum_concat ll : rsum (map sum_radii ll) = rsum (concat ll).
Proof. induction ll as [|l ll IH]; cbn [map concat rsum]; [reflexivity|]. rewrite rsum_app, IH. unfold sum_radii. rewrite fold_rsum. lra. Qed.
Lemma radii_exist dim eta width bs : (1 <= dim <= 3)%nat -> 0 < eta -> 0 < width -> Forall good bs -> exists hs, mapM (radius_of dim eta width) bs = Some hs /\ Forall (fun h => 0 < h) hs.
Proof.
  intros Hd He Hw. induction 1 as [|b bs G Gs IH]; cbn [mapM]; [exists []; split; [reflexivity|constructor]|].
  destruct IH as (hs & -> & P). destruct (C95_relation dim eta width b Hd He Hw G) as (h & -> & Hp & _). exists (h :: hs). split; [reflexivity|]. constructor; assumption.
Qed.
Lemma mapM_concat {A B} (f : A -> option B) : forall ll rr, mapM (mapM f) ll = Some rr -> mapM f (concat ll) = Some (concat rr).
Proof.
  induction ll as [|l ll IH]; intros rr H; apply mapM_spec in H; inversion H; subst; [reflexivity|]. cbn [concat]. apply mapM_spec.
  apply Forall2_app; [apply mapM_spec; assumption|]. apply mapM_spec, IH, mapM_spec. assumption.
Qed.
Lemma ranks_exist dim eta width ranks : (1 <= dim <= 3)%nat -> 0 < eta -> 0 < width -> Forall good (concat ranks) -> exists rr, mapM (compute_smoothinglength dim eta width) ranks = Some rr.
Proof.
  intros Hd He Hw. induction ranks as [|l ll IH]; intros G; cbn [mapM]; [exists []; reflexivity|]. cbn [concat] in G. apply Forall_app in G. destruct G as [G1 G2].
  unfold compute_smoothinglength at 1. destruct (radii_exist dim eta width l Hd He Hw G1) as (hs & -> & _). destruct (IH G2) as (rr & ->). eexists. reflexivity.
Qed.
(** A number that is the mean of the radii of all particles of all processes. *)
Definition mean_radius (dim : nat) (eta width : R) (bs : list (R * R)) (h : R) : Prop :=
  exists hs, Forall2 (fun b x => radius_of dim eta width b = Some x) bs hs /\ INR (length bs) * h = rsum hs.
(** Every particle of every process gets the mean of all radii; it is positive and
    between the least and the largest. *)
Theorem C95_average dim eta width ranks : (1 <= dim <= 3)%nat -> 0 < eta -> 0 < width -> Forall good (concat ranks) -> exists out h,
  compute_average dim eta width (length (concat ranks)) ranks = Some out /\ map (@length R) out = map (@length (R * R)) ranks /\ (forall x, In x (concat out) -> x = h) /\
  (concat ranks <> [] -> 0 < h /\ mean_radius dim eta width (concat ranks) h /\
     (exists b x, In b (concat ranks) /\ radius_of dim eta width b = Some x /\ x <= h) /\ exists b x, In b (concat ranks) /\ radius_of dim eta width b = Some x /\ h <= x).
Proof.
  intros Hd He Hw G. destruct (ranks_exist dim eta width ranks Hd He Hw G) as (rr & Er). unfold compute_average. rewrite Er.
  set (h := 1 / INR (length (concat ranks)) * fold_left Rplus (map sum_radii rr) 0). exists (map (map (fun _ => h)) rr), h. split; [reflexivity|].
  pose proof (mapM_concat _ _ _ Er) as Ec. apply mapM_spec in Ec. apply mapM_spec in Er. split; [|split].
  - rewrite map_map. clearbody h. clear - Er. induction Er as [|l r ll rr E Er IH]; [reflexivity|]. cbn [map]. rewrite IH, map_length. f_equal. apply mapM_spec in E.
    symmetry. apply (F2_length _ _ _ E).
  - intros x Hx. apply in_concat in Hx. destruct Hx as (l & Hl & Hx). apply in_map_iff in Hl. destruct Hl as (r & <- & _). apply in_map_iff in Hx. destruct Hx as (_ & <- & _). reflexivity.
  - intros Hne. set (bs := concat ranks) in *. set (hs := concat rr) in *.
    assert (Ln : length hs = length bs) by (symmetry; apply (F2_length _ _ _ Ec)).
    assert (Np : 0 < INR (length bs)) by (apply lt_0_INR; destruct bs; [contradiction|cbn; lia]).
    assert (Hh : INR (length bs) * h = rsum hs).
    { unfold h. rewrite fold_rsum, rsum_concat. fold hs. field. lra. }
    assert (Ps : Forall (fun x => 0 < x) hs).
    { destruct (radii_exist dim eta width bs Hd He Hw G) as (hs' & E' & P'). apply mapM_spec in Ec. fold bs in Ec. assert (hs' = hs) by congruence. subst. exact P'. }
    assert (Bd : forall c l, (forall x, In x l -> c < x) -> l <> [] -> INR (length l) * c < rsum l).
    { intros c l. induction l as [|x l IH]; [contradiction|]. intros Hx _. cbn [rsum length]. rewrite S_INR. destruct l as [|y l].
      - cbn [length rsum INR]. specialize (Hx x (or_introl eq_refl)). lra.
      - pose proof (IH (fun z Hz => Hx z (or_intror Hz)) ltac:(discriminate)). specialize (Hx x (or_introl eq_refl)). lra. }
    assert (Bu : forall c l, (forall x, In x l -> x < c) -> l <> [] -> rsum l < INR (length l) * c).
    { intros c l. induction l as [|x l IH]; [contradiction|]. intros Hx _. cbn [rsum length]. rewrite S_INR. destruct l as [|y l].
      - cbn [length rsum INR]. specialize (Hx x (or_introl eq_refl)). lra.
      - pose proof (IH (fun z Hz => Hx z (or_intror Hz)) ltac:(discriminate)). specialize (Hx x (or_introl eq_refl)). lra. }
    assert (Nh : hs <> []) by (destruct hs; [destruct bs; [contradiction|discriminate]|discriminate]).
    assert (Src : forall x, In x hs -> exists b, In b bs /\ radius_of dim eta width b = Some x).
    { intros x Hx. clear - Ec Hx. induction Ec as [|b y bs' hs' E Ec IH]; [destruct Hx|]. destruct Hx as [<-|Hx]; [exists b; split; [left; reflexivity|exact E]|].
      destruct (IH Hx) as (b' & Hb & E'). exists b'. split; [right; exact Hb|exact E']. }
    split; [|split; [|split]].
    + rewrite Forall_forall in Ps. pose proof (Bd 0 hs Ps Nh) as P. rewrite Rmult_0_r, <- Hh in P. apply Rmult_lt_reg_l with (INR (length bs)); lra.
    + exists hs. split; [exact Ec|exact Hh].
    + destruct (Exists_dec (fun x => x <= h) hs (fun x => Rle_dec x h)) as [X|X].
      * apply Exists_exists in X. destruct X as (x & Hx & Lx). destruct (Src x Hx) as (b & Hb & Eb). exists b, x. auto.
      * exfalso. assert (forall x, In x hs -> h < x). { intros x Hx. apply Rnot_le_lt. intros C. apply X. apply Exists_exists. exists x. auto. }
        pose proof (Bd h hs H Nh). rewrite Ln in *. lra.
    + destruct (Exists_dec (fun x => h <= x) hs (fun x => Rle_dec h x)) as [X|X].
      * apply Exists_exists in X. destruct X as (x & Hx & Lx). destruct (Src x Hx) as (b & Hb & Eb). exists b, x. auto.
      * exfalso. assert (forall x, In x hs -> x < h). { intros x Hx. apply Rnot_le_lt. intros C. apply X. apply Exists_exists. exists x. auto. }
        pose proof (Bu h hs H Nh). rewrite Ln in *. lra.
Qed.
Lemma mapM_perm {A B} (f : A -> option B) l l' : Permutation l l' -> forall r, mapM f l = Some r -> exists r', mapM f l' = Some r' /\ Permutation r r'.
Proof.
  induction 1 as [|x l l' P IH|x y l|l l' l'' P1 IH1 P2 IH2]; intros r E; cbn [mapM] in *.
  - exists r. split; [exact E|reflexivity].
  - destruct (f x) as [y|]; [|discriminate]. destruct (mapM f l) as [ys|]; [|discriminate]. injection E as <-. destruct (IH ys eq_refl) as (r' & -> & P'). exists (y :: r'). split; [reflexivity|]. constructor. exact P'.
  - destruct (f y) as [b|]; [|discriminate]. destruct (f x) as [a|]; [|discriminate]. destruct (mapM f l) as [ys|]; [|discriminate]. injection E as <-. exists (a :: b :: ys). split; [reflexivity|]. constructor.
  - destruct (IH1 r E) as (r1 & E1 & P1'). destruct (IH2 r1 E1) as (r2 & E2 & P2'). exists r2. split; [exact E2|]. etransitivity; eassumption.
Qed.
(** The result does not depend on the processes the particles are on. *)
Theorem C95_distribution dim eta width ranks ranks' out out' : (1 <= dim <= 3)%nat -> 0 < eta -> 0 < width -> Forall good (concat ranks) -> Permutation (concat ranks) (concat ranks') ->
  compute_average dim eta width (length (concat ranks)) ranks = Some out -> compute_average dim eta width (length (concat ranks')) ranks' = Some out' -> concat out = concat out'.
Proof.
  intros Hd He Hw G P E E'. assert (G' : Forall good (concat ranks')) by (rewrite <- P; exact G).
  unfold compute_average in *. rewrite <- (Permutation_length P) in E'.
  destruct (ranks_exist dim eta width ranks Hd He Hw G) as (rr & Er). destruct (ranks_exist dim eta width ranks' Hd He Hw G') as (rr' & Er'). rewrite Er in E. rewrite Er' in E'. injection E as <-. injection E' as <-.
  pose proof (mapM_concat _ _ _ Er) as Ec. pose proof (mapM_concat _ _ _ Er') as Ec'. destruct (mapM_perm _ _ _ P _ Ec) as (hs & E1 & P1). assert (hs = concat rr') by congruence. subst hs.
  rewrite <- !concat_map. rewrite !fold_rsum, !rsum_concat, (rsum_perm _ _ P1). generalize (1 / INR (length (concat ranks)) * (0 + rsum (concat rr'))). intros h.
  pose proof (Permutation_length P1) as L. revert L. generalize (concat rr) (concat rr'). clear. intros l. induction l as [|x l IH]; intros [|y k] L; try discriminate; [reflexivity|]. cbn [map]. f_equal. apply IH. cbn in L. lia.
Qed.
(** Particles of the same mass and density keep the radius of the relation. *)
Theorem C95_uniform dim eta width ranks b out h : (1 <= dim <= 3)%nat -> 0 < eta -> 0 < width -> good b -> (forall x, In x (concat ranks) -> x = b) ->
  radius_of dim eta width b = Some h -> compute_average dim eta width (length (concat ranks)) ranks = Some out -> forall x, In x (concat out) -> x = h.
Proof.
  intros Hd He Hw G Hall Eh E x Hx. assert (Gs : Forall good (concat ranks)) by (apply Forall_forall; intros y Hy; rewrite (Hall y Hy); exact G).
  destruct (C95_average dim eta width ranks Hd He Hw Gs) as (out' & h' & E' & L' & A & B). rewrite E in E'. injection E' as <-.
  assert (Ne : concat ranks <> []).
  { intros C. assert (length (concat out) = length (concat ranks)).
    { clear - L'. revert ranks L'. induction out as [|o out IH]; intros [|r rk] L; try discriminate; [reflexivity|]. cbn in L. injection L as L1 L2. cbn [concat]. rewrite !app_length, (IH rk L2), L1. reflexivity. }
    rewrite C in H. destruct (concat out); [destruct Hx|discriminate]. }
  destruct (B Ne) as (_ & _ & (b1 & x1 & H1 & E1 & L1) & b2 & x2 & H2 & E2 & L2). rewrite (Hall b1 H1) in E1. rewrite (Hall b2 H2) in E2. rewrite (A x Hx). rewrite Eh in E1, E2. injection E1 as <-. injection E2 as <-. lra.
Qed.

Example C95_case : good (1, 8) /\ Forall good (concat [[(1, 8); (1, 1)]; []; [(8, 1)]]) /\ compute_average 1 1 2 3 [[(1, 2); (1, 1)]; []; [(8, 1)]] = Some [[19 / 3; 19 / 3]; []; [19 / 3]].
Proof.
  unfold good. split; [cbn; lra|]. split; [repeat constructor; cbn; lra|]. unfold compute_average, compute_smoothinglength, radius_of. cbn [mapM fst snd hroot].
  destruct (Req_EM_T 2 0); [lra|]. destruct (Req_EM_T 1 0); [lra|]. cbn [map sum_radii fold_left]. unfold sum_radii. cbn [fold_left INR].
  assert (E : 1 / (1 + 1 + 1) * (0 + (0 + 1 / 2 * 1 * 2 + 1 / 1 * 1 * 2) + 0 + (0 + 8 / 1 * 1 * 2)) = 19 / 3) by lra. rewrite E. reflexivity.
Qed.

Print Assumptions C95_relation.
Print Assumptions C95_order.
Print Assumptions C95_empty_refuted.
Print Assumptions C95_average.
Print Assumptions C95_distribution.
Print Assumptions C95_uniform.
