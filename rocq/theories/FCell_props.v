(** C90: keys and ranges in double precision. *)
From Coq Require Import Reals Lra.
From Flocq Require Import Core Relative Plus_error.
From Verif Require Import Base Key_model BuildTree_model BuildTree_props Morton_model Morton_proofs Morton_qproofs
  Range_model Range_props FCell_model FCell_lemmas.
Local Open Scope R_scope.

(** The cell of a coordinate inside the range exists and is at most the last one. *)
Theorem C90_defined dim mn mx p : dim_ok dim -> is_double mn -> is_double mx -> mn < mx -> mn <= p <= mx -> mx - mn <= bpow radix2 1023 ->
  exists c, cell_fl dim mn mx p = Some c /\ (c <= 2 ^ max_depth dim - 1)%N.
Proof.
  intros Hd Hn Hx H Hp Ho. eexists. split; [apply cell_fl_eq; assumption|]. rewrite <- max_val_eq by assumption. lia.
Qed.

(** Cells are in the order of the coordinates. *)
Theorem C90_monotone dim mn mx p p' c c' : dim_ok dim -> is_double mn -> is_double mx -> mn < mx -> mx - mn <= bpow radix2 1023 ->
  mn <= p -> p <= p' -> p' <= mx -> cell_fl dim mn mx p = Some c -> cell_fl dim mn mx p' = Some c' -> (c <= c')%N.
Proof.
  intros Hd Hn Hx H Ho H1 H2 H3. rewrite !cell_fl_eq by (auto; lra). intros E E'. injection E as <-. injection E' as <-.
  apply N.min_le_compat_l. pose proof (quot_bounds mn mx p Hn Hx ltac:(lra) H) as Q.
  pose proof (bpow_gt_0 radix2 (depthZ dim)) as B. pose proof (rnd_minus_pos mx mn Hx Hn H) as P.
  assert (L : quot mn mx p <= quot mn mx p').
  { apply rnd_le. apply Rmult_le_compat_r; [left; apply Rinv_0_lt_compat; exact P|]. apply rnd_le. lra. }
  apply Z2N.inj_le; try (apply Zfloor_lub; nra). apply Zfloor_le. nra.
Qed.

(** The ends of the range are in the first and the last cell. *)
Theorem C90_ends dim mn mx : dim_ok dim -> is_double mn -> is_double mx -> mn < mx -> mx - mn <= bpow radix2 1023 ->
  cell_fl dim mn mx mn = Some 0%N /\ cell_fl dim mn mx mx = Some (2 ^ max_depth dim - 1)%N.
Proof.
  intros Hd Hn Hx H Ho. rewrite !cell_fl_eq by (auto; lra). pose proof (rnd_minus_pos mx mn Hx Hn H) as P. split; f_equal.
  - unfold quot. replace (mn - mn) with 0 by ring. rewrite rnd_0. unfold Rdiv. rewrite Rmult_0_l, rnd_0, Rmult_0_l.
    change 0 with (IZR 0). rewrite Zfloor_IZR. apply N.min_0_r.
  - unfold quot. replace (rnd (mx - mn) / rnd (mx - mn)) with 1 by (field; lra). rewrite (rnd_id 1 fmt_1), Rmult_1_l.
    pose proof (depth_bounds dim Hd). rewrite <- IZR_Zpower, Zfloor_IZR by lia. rewrite <- max_val_eq by assumption. apply N.min_l.
    pose proof (max_val_Z dim Hd) as E. change (radix_val radix2) with 2%Z. lia.
Qed.

(** How far the scaled coordinate is from the exact one. *)
Lemma quot_close mn mx p : is_double mn -> is_double mx -> is_double p -> mn < mx -> mn <= p <= mx ->
  Rabs (quot mn mx p - (p - mn) / (mx - mn)) <= bpow radix2 (-51).
Proof.
  intros Hn Hx Hp H Hr. unfold quot.
  destruct (rnd_minus_rel p mn Hp Hn) as (e1 & B1 & ->). destruct (rnd_minus_rel mx mn Hx Hn) as (e2 & B2 & ->).
  set (t := (p - mn) / (mx - mn)).
  assert (T : 0 <= t <= 1).
  { unfold t. split; [apply Rmult_le_pos; [lra|left; apply Rinv_0_lt_compat; lra]|].
    apply (Rmult_le_reg_r (mx - mn)); [lra|]. unfold Rdiv. rewrite Rmult_assoc, Rinv_l by lra. lra. }
  pose proof u53_pos as U0. pose proof u53_small as U1. apply Rabs_le_inv in B1, B2.
  destruct (rnd_rel ((p - mn) * (1 + e1) / ((mx - mn) * (1 + e2)))) as (e3 & s & B3 & Bs & ->). apply Rabs_le_inv in B3.
  replace ((p - mn) * (1 + e1) / ((mx - mn) * (1 + e2)) * (1 + e3) + s - t)
    with (t * ((e1 + e3 + e1 * e3 - e2) / (1 + e2)) + s) by (unfold t; field; lra).
  assert (S : Rabs s <= / 2 * u53).
  { eapply Rle_trans; [exact Bs|]. apply Rmult_le_compat_l; [lra|]. unfold u53. apply bpow_le. lia. }
  assert (E4 : bpow radix2 (-51) = 4 * u53).
  { unfold u53. change (-51)%Z with (2 + -53)%Z. rewrite bpow_plus. replace (bpow radix2 2) with 4 by reflexivity. reflexivity. }
  rewrite E4. eapply Rle_trans; [apply Rabs_triang|]. rewrite Rabs_mult, (Rabs_pos_eq t) by lra.
  assert (W : Rabs ((e1 + e3 + e1 * e3 - e2) / (1 + e2)) <= (7 / 2) * u53).
  { unfold Rdiv at 1. rewrite Rabs_mult, Rabs_inv, (Rabs_pos_eq (1 + e2)) by lra.
    apply (Rmult_le_reg_r (1 + e2)); [lra|]. rewrite Rmult_assoc, Rinv_l, Rmult_1_r by lra.
    assert (Rabs (e1 + e3 + e1 * e3 - e2) <= 3 * u53 + u53 * u53) by (apply Rabs_le; split; nra). nra. }
  pose proof (Rabs_pos ((e1 + e3 + e1 * e3 - e2) / (1 + e2))). nra.
Qed.
(** The cell is at most one and a bit away from the exact position measured in
    cells; in two and three dimensions the bit is below a millionth. *)
Theorem C90_close dim mn mx p c : dim_ok dim -> is_double mn -> is_double mx -> is_double p -> mn < mx -> mn <= p <= mx ->
  mx - mn <= bpow radix2 1023 -> cell_fl dim mn mx p = Some c ->
  let x := (p - mn) / (mx - mn) * bpow radix2 (Z.of_N (max_depth dim)) in
  let err := bpow radix2 (Z.of_N (max_depth dim) - 51) in
  x - 1 - err <= IZR (Z.of_N c) <= x + err /\ (dim <> 1%N -> err < / 1000000).
Proof.
  intros Hd Hn Hx Hp H Hr Ho E x err. rewrite cell_fl_eq in E by assumption. injection E as <-.
  pose proof (depth_bounds dim Hd) as D. change (Z.of_N (max_depth dim)) with (depthZ dim) in *.
  set (y := quot mn mx p * bpow radix2 (depthZ dim)). pose proof (bpow_gt_0 radix2 (depthZ dim)) as B.
  pose proof (quot_bounds mn mx p Hn Hx Hr H) as Q.
  assert (Y : 0 <= y <= bpow radix2 (depthZ dim)) by (unfold y; nra).
  assert (C : Rabs (y - x) <= err).
  { unfold y, x, err. rewrite <- Rmult_minus_distr_r, Rabs_mult, (Rabs_pos_eq (bpow _ _)) by lra.
    unfold Z.sub. rewrite bpow_plus, (Rmult_comm (bpow radix2 (depthZ dim))). apply Rmult_le_compat_r; [lra|].
    apply quot_close; assumption. }
  apply Rabs_le_inv in C. pose proof (min_floor_le dim y (proj1 Y)). pose proof (min_floor_gt dim y Hd Y). split; [lra|].
  intros N1. unfold err. apply Rle_lt_trans with (bpow radix2 (-20)).
  - apply bpow_le. destruct Hd as [->|[->| ->]]; [congruence| |]; vm_compute; discriminate.
  - replace (bpow radix2 (-20)) with (/ 1048576) by reflexivity. apply Rinv_lt_contravar; lra.
Qed.

(** Coordinates more than a cell and a bit apart are in different cells. *)
Theorem C90_separated dim mn mx p p' c c' : dim_ok dim -> is_double mn -> is_double mx -> is_double p -> is_double p' -> mn < mx ->
  mx - mn <= bpow radix2 1023 -> mn <= p -> p' <= mx ->
  (1 + bpow radix2 (Z.of_N (max_depth dim) - 50)) * ((mx - mn) / bpow radix2 (Z.of_N (max_depth dim))) < p' - p ->
  cell_fl dim mn mx p = Some c -> cell_fl dim mn mx p' = Some c' -> (c < c')%N.
Proof.
  intros Hd Hn Hx Hp Hp' H Ho H1 H2 Hs. change (Z.of_N (max_depth dim)) with (depthZ dim) in *.
  pose proof (bpow_gt_0 radix2 (depthZ dim)) as B. pose proof (bpow_gt_0 radix2 (depthZ dim - 50)) as B5.
  assert (Hpp : p < p').
  { assert (0 < (1 + bpow radix2 (depthZ dim - 50)) * ((mx - mn) / bpow radix2 (depthZ dim))); [|lra].
    apply Rmult_lt_0_compat; [lra|]. apply Rmult_lt_0_compat; [lra|apply Rinv_0_lt_compat; exact B]. }
  rewrite !cell_fl_eq by (auto; lra). intros E E'. injection E as <-. injection E' as <-.
  set (y := quot mn mx p * bpow radix2 (depthZ dim)). set (y' := quot mn mx p' * bpow radix2 (depthZ dim)).
  pose proof (quot_bounds mn mx p Hn Hx ltac:(lra) H) as Q. pose proof (quot_bounds mn mx p' Hn Hx ltac:(lra) H) as Q'.
  assert (Y : 0 <= y <= bpow radix2 (depthZ dim)) by (unfold y; nra).
  assert (Y' : 0 <= y' <= bpow radix2 (depthZ dim)) by (unfold y'; nra).
  assert (G : 1 < y' - y).
  { pose proof (quot_close mn mx p Hn Hx Hp H ltac:(lra)) as C. pose proof (quot_close mn mx p' Hn Hx Hp' H ltac:(lra)) as C'.
    apply Rabs_le_inv in C, C'. unfold y, y'.
    assert (E5 : bpow radix2 (depthZ dim - 50) = 2 * bpow radix2 (-51) * bpow radix2 (depthZ dim)).
    { replace (depthZ dim - 50)%Z with (1 + -51 + depthZ dim)%Z by lia. rewrite !bpow_plus. replace (bpow radix2 1) with 2 by reflexivity. reflexivity. }
    rewrite E5 in Hs.
    assert (F : (p' - p) / (mx - mn) * bpow radix2 (depthZ dim) > 1 + 2 * bpow radix2 (-51) * bpow radix2 (depthZ dim)).
    { apply Rlt_gt. apply (Rmult_lt_reg_r ((mx - mn) / bpow radix2 (depthZ dim))).
      - apply Rmult_lt_0_compat; [lra|apply Rinv_0_lt_compat; exact B].
      - replace ((p' - p) / (mx - mn) * bpow radix2 (depthZ dim) * ((mx - mn) / bpow radix2 (depthZ dim))) with (p' - p) by (field; lra). exact Hs. }
    replace ((p' - p) / (mx - mn)) with ((p' - mn) / (mx - mn) - (p - mn) / (mx - mn)) in F by (field; lra).
    assert (quot mn mx p' - quot mn mx p >= (p' - mn) / (mx - mn) - (p - mn) / (mx - mn) - 2 * bpow radix2 (-51)) by lra.
    nra. }
  assert (F0 : (0 <= Zfloor y)%Z) by (apply Zfloor_lub; apply Y).
  assert (F1 : (Zfloor y < Zfloor y')%Z).
  { apply lt_IZR. pose proof (Zfloor_lb y). pose proof (Zfloor_ub y').
    destruct (Z_lt_le_dec (Zfloor y) (Zfloor y')) as [L|L]; [apply IZR_lt; exact L|]. apply IZR_le in L. lra. }
  assert (F2 : (Zfloor y < Z.of_N (max_val dim))%Z).
  { apply lt_IZR. rewrite max_val_R by assumption. pose proof (Zfloor_lb y). lra. }
  lia.
Qed.

(** It is not always the cell the coordinate is in: here the point is to the left
    of its cell by 2^-60, and outside of the box range() gives for the ancestor of
    its key at depth one. *)
Lemma rnd_near_1 x : 1 - bpow radix2 (-54) < x < 1 + bpow radix2 (-53) -> rnd x = 1.
Proof.
  intros [L U]. apply Rle_antisym.
  - assert (S : succ radix2 dexp 1 = 1 + 2 * bpow radix2 (-53)).
    { rewrite succ_eq_pos by lra. f_equal. change 1 with (bpow radix2 0). rewrite ulp_bpow.
      change (bpow radix2 (dexp (0 + 1))) with (bpow radix2 (1 + -53)). rewrite bpow_plus. reflexivity. }
    apply (round_N_le_midp radix2 dexp (fun x => negb (Z.even x)) 1 x fmt_1). rewrite S. lra.
  - assert (P : pred radix2 dexp 1 = 1 - 2 * bpow radix2 (-54)).
    { change 1 with (bpow radix2 0). rewrite pred_bpow. f_equal.
      change (bpow radix2 (dexp 0)) with (bpow radix2 (1 + -54)). rewrite bpow_plus. reflexivity. }
    apply (round_N_ge_midp radix2 dexp (fun x => negb (Z.even x)) 1 x fmt_1). rewrite P. lra.
Qed.
Lemma double_bpow e : (-1074 <= e < 1024)%Z -> is_double (bpow radix2 e).
Proof. intros H. split; [apply fmt_bpow; lia|]. rewrite Rabs_pos_eq by apply bpow_ge_0. apply bpow_lt. lia. Qed.
Lemma double_opp x : is_double x -> is_double (- x).
Proof. intros [F B]. split; [apply generic_format_opp; exact F|rewrite Rabs_Ropp; exact B]. Qed.
Theorem C90_wrong_box_refuted : exists mn mx p c lo hi,
  is_double mn /\ is_double mx /\ is_double p /\ mn < p < mx /\ cell_fl 3 mn mx p = Some c /\
  (p - mn) / (mx - mn) * bpow radix2 (Z.of_N (max_depth 3)) < IZR (Z.of_N c) /\
  halve_fl 1 (N.shiftr c (max_depth 3 - 1)) mn mx = Some (lo, hi) /\ p < lo.
Proof.
  assert (D1 : is_double 1) by (change 1 with (bpow radix2 0); apply double_bpow; lia).
  assert (S60 : 0 < bpow radix2 (-60) < bpow radix2 (-54)) by (split; [apply bpow_gt_0|apply bpow_lt; lia]).
  assert (S54 : bpow radix2 (-54) < 1) by (change 1 with (bpow radix2 0); apply bpow_lt; lia).
  assert (E21 : bpow radix2 (depthZ 3) = 2097152) by reflexivity.
  assert (F2 : rnd 2 = 2) by (apply rnd_id; change 2 with (bpow radix2 1); apply fmt_bpow; lia).
  assert (Fh : rnd (1 / 2) = 1 / 2).
  { apply rnd_id. replace (1 / 2) with (bpow radix2 (-1)); [apply fmt_bpow; lia|]. change (bpow radix2 (-1)) with (/ 2). lra. }
  exists (-1), 1, (- bpow radix2 (-60)), 1048576%N, 0, 1.
  split; [apply double_opp; exact D1|]. split; [exact D1|]. split; [apply double_opp, double_bpow; lia|]. split; [lra|]. split; [|split; [|split]].
  - rewrite cell_fl_eq; [|right; right; reflexivity|apply double_opp; exact D1|exact D1|lra|lra|].
    + unfold quot. replace (1 - -1) with 2 by ring. rewrite F2, (rnd_near_1 (- bpow radix2 (-60) - -1)), Fh, E21 by (pose proof (bpow_gt_0 radix2 (-53)); lra).
      replace (1 / 2 * 2097152) with (IZR 1048576) by lra. rewrite Zfloor_IZR. reflexivity.
    + replace (1 - -1) with (bpow radix2 1) by (change (bpow radix2 1) with 2; ring). apply bpow_le. lia.
  - change (Z.of_N (max_depth 3)) with (depthZ 3). rewrite E21. change (Z.of_N 1048576) with 1048576%Z. lra.
  - cbn [halve_fl]. replace (-1 + 1) with 0 by ring. rewrite (fl_some 0 0) by (try lia; rewrite Rabs_R0; cbn; lra). rewrite rnd_0.
    replace (0 / 2) with 0 by field. rewrite (fl_some 0 0) by (try lia; rewrite Rabs_R0; cbn; lra). rewrite rnd_0.
    replace (negb (N.land (N.shiftr 1048576 (max_depth 3 - 1)) (N.shiftl 1 (N.of_nat 0)) =? 0)%N) with true by (vm_compute; reflexivity).
    reflexivity.
  - lra.
Qed.

(** The boxes of range() stay inside the range and nested: the box is not turned
    inside out and the box of a child is within that of its parent. *)
Lemma mid_between lo hi s nu : is_double lo -> is_double hi -> lo <= hi -> fl (lo + hi) = Some s -> fl (s / 2) = Some nu -> lo <= nu <= hi.
Proof.
  intros [Fl _] [Fh _] H Es En. apply fl_inv in Es. destruct Es as [-> _]. apply fl_inv in En. destruct En as [-> _].
  assert (A : forall x, generic_format radix2 dexp x -> rnd (rnd (x + x) / 2) = x).
  { intros x Fx. replace (x + x) with (x * bpow radix2 1) by (change (bpow radix2 1) with 2; ring).
    rewrite (rnd_id (x * bpow radix2 1)) by (apply fmt_scale; [lia|exact Fx]). change (bpow radix2 1) with 2.
    replace (x * 2 / 2) with x by field. apply rnd_id. exact Fx. }
  assert (M : forall x y, x <= y -> rnd (rnd x / 2) <= rnd (rnd y / 2)).
  { intros x y L. apply rnd_le. apply Rmult_le_compat_r; [lra|]. apply rnd_le. exact L. }
  pose proof (M (lo + lo) (lo + hi) ltac:(lra)) as M1. pose proof (M (lo + hi) (hi + hi) ltac:(lra)) as M2.
  rewrite (A lo Fl) in M1. rewrite (A hi Fh) in M2. lra.
Qed.
Theorem C90_box_nested j : forall c lo hi lo' hi', is_double lo -> is_double hi -> lo <= hi -> halve_fl j c lo hi = Some (lo', hi') ->
  is_double lo' /\ is_double hi' /\ lo <= lo' /\ lo' <= hi' /\ hi' <= hi.
Proof.
  induction j as [|j IH]; intros c lo hi lo' hi' Dl Dh H E; cbn [halve_fl] in E.
  - injection E as <- <-. repeat split; try apply Dl; try apply Dh; lra.
  - destruct (fl (lo + hi)) as [s|] eqn:Es; [|discriminate]. destruct (fl (s / 2)) as [nu|] eqn:En; [|discriminate].
    pose proof (mid_between lo hi s nu Dl Dh H Es En) as M. pose proof (proj2 (fl_inv _ _ En)) as Dn.
    destruct (negb _).
    + destruct (IH c nu hi lo' hi' Dn Dh ltac:(lra) E) as (A1 & A2 & A3 & A4 & A5). repeat split; try apply A1; try apply A2; lra.
    + destruct (IH c lo nu lo' hi' Dl Dn ltac:(lra) E) as (A1 & A2 & A3 & A4 & A5). repeat split; try apply A1; try apply A2; lra.
Qed.
Theorem C90_box_exists j c lo hi : is_double lo -> is_double hi -> lo <= hi -> Rabs lo <= bpow radix2 1022 -> Rabs hi <= bpow radix2 1022 ->
  exists r, halve_fl j c lo hi = Some r.
Proof.
  revert c lo hi. induction j as [|j IH]; intros c lo hi Dl Dh H Bl Bh; cbn [halve_fl]; [eauto|].
  assert (B3 : bpow radix2 1023 = 2 * bpow radix2 1022).
  { change 1023%Z with (1 + 1022)%Z. rewrite bpow_plus. reflexivity. }
  assert (P3 : 0 < bpow radix2 1023) by apply bpow_gt_0.
  apply Rabs_le_inv in Bl as Bl'. apply Rabs_le_inv in Bh as Bh'.
  assert (Es : fl (lo + hi) = Some (rnd (lo + hi))) by (apply (fl_some _ 1023); [lia|apply Rabs_le; lra]).
  pose proof (rnd_abs_le (lo + hi) 1023 ltac:(lia) ltac:(apply Rabs_le; lra)) as Bs. apply Rabs_le_inv in Bs.
  assert (En : fl (rnd (lo + hi) / 2) = Some (rnd (rnd (lo + hi) / 2))) by (apply (fl_some _ 1022); [lia|apply Rabs_le; lra]).
  rewrite Es, En. pose proof (proj2 (fl_inv _ _ En)) as Dn. pose proof (mid_between lo hi _ _ Dl Dh H Es En) as M.
  assert (Bn : Rabs (rnd (rnd (lo + hi) / 2)) <= bpow radix2 1022) by (apply Rabs_le; lra).
  destruct (negb _); apply IH; auto; lra.
Qed.

(** The range in double precision. *)
Lemma widen_fl_spec rg b d : fst (widen_fl rg b) d = Rmin (fst rg d) (rnd (rb_x b d - rb_h b)) /\
  snd (widen_fl rg b) d = Rmax (snd rg d) (rnd (rb_x b d + rb_h b)).
Proof.
  unfold widen_fl, Rlt_b. cbn. split.
  - destruct (Rlt_dec (rnd (rb_x b d - rb_h b)) (fst rg d)); [rewrite Rmin_right by lra|rewrite Rmin_left by lra]; reflexivity.
  - destruct (Rlt_dec (snd rg d) (rnd (rb_x b d + rb_h b))); [rewrite Rmax_right by lra|rewrite Rmax_left by lra]; reflexivity.
Qed.
Lemma fold_widen_fl l : forall rg d,
  is_lower (fun v => v = fst rg d \/ exists b, In b l /\ v = rnd (rb_x b d - rb_h b)) (fst (fold_left widen_fl l rg) d) /\
  is_upper (fun v => v = snd rg d \/ exists b, In b l /\ v = rnd (rb_x b d + rb_h b)) (snd (fold_left widen_fl l rg) d).
Proof.
  induction l as [|b l IH]; intros rg d; cbn [fold_left].
  - split; split; [left; reflexivity| |left; reflexivity|]; intros v [->|(x & [] & _)]; lra.
  - destruct (IH (widen_fl rg b) d) as [[L1 L2] [U1 U2]]. destruct (widen_fl_spec rg b d) as [W1 W2]. rewrite W1 in L1, L2. rewrite W2 in U1, U2. split; split.
    + destruct L1 as [->|(x & Hx & ->)]; [|right; exists x; split; [right; exact Hx|reflexivity]].
      unfold Rmin. destruct (Rle_dec (fst rg d) (rnd (rb_x b d - rb_h b))); [left; reflexivity|right; exists b; split; [left; reflexivity|reflexivity]].
    + intros v [->|(x & [<-|Hx] & ->)].
      * eapply Rle_trans; [apply L2; left; reflexivity|apply Rmin_l].
      * eapply Rle_trans; [apply L2; left; reflexivity|apply Rmin_r].
      * apply L2. right. exists x. auto.
    + destruct U1 as [->|(x & Hx & ->)]; [|right; exists x; split; [right; exact Hx|reflexivity]].
      unfold Rmax. destruct (Rle_dec (snd rg d) (rnd (rb_x b d + rb_h b))); [right; exists b; split; [left; reflexivity|reflexivity]|left; reflexivity].
    + intros v [->|(x & [<-|Hx] & ->)].
      * eapply Rle_trans; [apply Rmax_l|apply U2; left; reflexivity].
      * eapply Rle_trans; [apply Rmax_r|apply U2; left; reflexivity].
      * apply U2. right. exists x. auto.
Qed.
(** a particle whose data are doubles well below the overflow threshold *)
Definition sound_body (n : nat) (b : rbody) : Prop :=
  is_double (rb_h b) /\ 0 <= rb_h b <= bpow radix2 1021 /\
  forall d, (d < n)%nat -> is_double (rb_x b d) /\ Rabs (rb_x b d) <= bpow radix2 1021.
Lemma sound_ends n b d : sound_body n b -> (d < n)%nat ->
  fl (rb_x b d + rb_h b) = Some (rnd (rb_x b d + rb_h b)) /\ fl (rb_x b d - rb_h b) = Some (rnd (rb_x b d - rb_h b)) /\
  - bpow radix2 1022 <= rnd (rb_x b d - rb_h b) /\ rnd (rb_x b d - rb_h b) <= rb_x b d /\
  rb_x b d <= rnd (rb_x b d + rb_h b) /\ rnd (rb_x b d + rb_h b) <= bpow radix2 1022.
Proof.
  intros (Dh & Hh & Hx) Hd. destruct (Hx d Hd) as [[Fx _] Bx]. apply Rabs_le_inv in Bx.
  assert (E : bpow radix2 1022 = 2 * bpow radix2 1021).
  { change 1022%Z with (1 + 1021)%Z. rewrite bpow_plus. reflexivity. }
  pose proof (rnd_abs_le (rb_x b d + rb_h b) 1022 ltac:(lia) ltac:(apply Rabs_le; lra)) as A1.
  pose proof (rnd_abs_le (rb_x b d - rb_h b) 1022 ltac:(lia) ltac:(apply Rabs_le; lra)) as A2. apply Rabs_le_inv in A1, A2.
  pose proof (rnd_le (rb_x b d - rb_h b) (rb_x b d) ltac:(lra)) as M1. pose proof (rnd_le (rb_x b d) (rb_x b d + rb_h b) ltac:(lra)) as M2.
  rewrite (rnd_id _ Fx) in M1, M2.
  repeat split; try lra; apply (fl_some _ 1022); try lia; apply Rabs_le; lra.
Qed.
Lemma sound_ok n b : sound_body n b -> body_ok_fl n b = true.
Proof.
  intros H. assert (G : forall m, (m <= n)%nat -> body_ok_fl m b = true); [|apply G; lia].
  induction m as [|m IH]; intros Hm; cbn [body_ok_fl]; [reflexivity|].
  destruct (sound_ends n b m H ltac:(lia)) as (-> & -> & _). apply IH. lia.
Qed.
Lemma local_fl_ok n bodies : bodies <> [] -> (forall b, In b bodies -> sound_body n b) -> exists rg, local_range_fl n bodies = Some rg /\
  forall d, (d < n)%nat -> is_double (fst rg d) /\ is_double (snd rg d) /\ - bpow radix2 1022 <= fst rg d /\ snd rg d <= bpow radix2 1022 /\
  forall b, In b bodies -> fst rg d <= rnd (rb_x b d - rb_h b) /\ rnd (rb_x b d + rb_h b) <= snd rg d.
Proof.
  intros H Hs. destruct (back_in bodies H) as (b0 & E & Hb). unfold local_range_fl. rewrite E.
  replace (forallb (body_ok_fl n) bodies) with true by (symmetry; apply forallb_forall; intros b Hin; apply sound_ok; auto).
  eexists. split; [reflexivity|]. intros d Hd.
  destruct (fold_widen_fl bodies (rb_x b0, rb_x b0) d) as [[L1 L2] [U1 U2]]. cbn [fst snd] in L1, L2, U1, U2.
  set (lo := fst (fold_left widen_fl bodies (rb_x b0, rb_x b0)) d) in *. set (hi := snd (fold_left widen_fl bodies (rb_x b0, rb_x b0)) d) in *.
  destruct (Hs b0 Hb) as (_ & _ & X0). destruct (X0 d Hd) as [D0 _].
  assert (B0 : Rabs (rb_x b0 d) <= bpow radix2 1022).
  { eapply Rle_trans; [apply (X0 d Hd)|]. apply bpow_le. lia. }
  apply Rabs_le_inv in B0. repeat split.
  - destruct L1 as [->|(x & Hx & ->)]; [apply D0|apply rnd_fmt].
  - destruct L1 as [->|(x & Hx & ->)]; [apply D0|]. destruct (sound_ends n x d (Hs x Hx) Hd) as (_ & F & _). apply (fl_inv _ _ F).
  - destruct U1 as [->|(x & Hx & ->)]; [apply D0|apply rnd_fmt].
  - destruct U1 as [->|(x & Hx & ->)]; [apply D0|]. destruct (sound_ends n x d (Hs x Hx) Hd) as (F & _). apply (fl_inv _ _ F).
  - destruct L1 as [->|(x & Hx & ->)]; [lra|]. destruct (sound_ends n x d (Hs x Hx) Hd) as (_ & _ & F & _). exact F.
  - destruct U1 as [->|(x & Hx & ->)]; [lra|]. destruct (sound_ends n x d (Hs x Hx) Hd) as (_ & _ & _ & _ & _ & F). exact F.
  - apply L2. right. eauto.
  - apply U2. right. eauto.
Qed.
Lemma locals_fl_ok n ranks : (forall r, In r ranks -> r <> []) -> (forall r b, In r ranks -> In b r -> sound_body n b) ->
  exists l, locals_fl n ranks = Some l /\ length l = length ranks /\
  (forall b, In b ranks -> exists rg, local_range_fl n b = Some rg /\ In rg l) /\ (forall rg, In rg l -> exists b, In b ranks /\ local_range_fl n b = Some rg).
Proof.
  induction ranks as [|b ranks IH]; intros H Hs; [exists []; cbn; repeat split; intros ? []|].
  destruct (local_fl_ok n b (H b (or_introl eq_refl)) ltac:(intros; eapply Hs; [left; reflexivity|assumption])) as (rg & E & _).
  destruct (IH (fun r Hr => H r (or_intror Hr)) ltac:(intros r c Hr Hc; eapply Hs; [right; exact Hr|exact Hc])) as (l & El & Ln & L1 & L2).
  exists (rg :: l). cbn [locals_fl]. rewrite E, El. split; [reflexivity|]. split; [cbn; lia|]. split.
  - intros c [<-|Hc]; [exists rg; split; [exact E|left; reflexivity]|]. destruct (L1 c Hc) as (x & Ex & Hx). exists x. split; [exact Ex|right; exact Hx].
  - intros x [<-|Hx]; [exists b; split; [left; reflexivity|exact E]|]. destruct (L2 x Hx) as (c & Hc & Ec). exists c. split; [right; exact Hc|exact Ec].
Qed.
(** When no rank is empty the range exists and contains every particle of every
    rank, together with the rounded ends of its neighbourhood. *)
Theorem C90_range n ranks : ranks <> [] -> (forall r, In r ranks -> r <> []) -> (forall r b, In r ranks -> In b r -> sound_body n b) ->
  exists rg, compute_range_fl n ranks = Some rg /\ forall d, (d < n)%nat ->
    is_double (fst rg d) /\ is_double (snd rg d) /\ snd rg d - fst rg d <= bpow radix2 1023 /\
    forall r b, In r ranks -> In b r ->
      fst rg d <= rnd (rb_x b d - rb_h b) /\ rnd (rb_x b d - rb_h b) <= rb_x b d <= rnd (rb_x b d + rb_h b) /\ rnd (rb_x b d + rb_h b) <= snd rg d.
Proof.
  intros Hn Hne Hs. unfold compute_range_fl. destruct (locals_fl_ok n ranks Hne Hs) as (l & El & Ln & L1 & L2). rewrite El.
  assert (l <> []) by (intros ->; destruct ranks; [contradiction|discriminate]).
  destruct (allreduce_ok l H) as (rg & E & G). exists rg. split; [exact E|]. intros d Hd. destruct (G d) as (G1 & (x & Hx & Ex) & (y & Hy & Ey)).
  assert (Q : forall r, In r ranks -> forall z, local_range_fl n r = Some z -> is_double (fst z d) /\ is_double (snd z d) /\
    - bpow radix2 1022 <= fst z d /\ snd z d <= bpow radix2 1022 /\
    forall b, In b r -> fst z d <= rnd (rb_x b d - rb_h b) /\ rnd (rb_x b d + rb_h b) <= snd z d).
  { intros r Hr z Ez. destruct (local_fl_ok n r (Hne r Hr) ltac:(intros; eapply Hs; eauto)) as (z' & Ez' & Q). assert (z' = z) by congruence. subst z'. apply Q. exact Hd. }
  destruct (L2 x Hx) as (rx & Hrx & Erx). destruct (L2 y Hy) as (ry & Hry & Ery).
  destruct (Q rx Hrx x Erx) as (D1 & _ & B1 & _). destruct (Q ry Hry y Ery) as (_ & D2 & _ & B2 & _).
  rewrite Ex, Ey. split; [exact D1|]. split; [exact D2|]. split.
  - assert (E3 : bpow radix2 1023 = 2 * bpow radix2 1022) by (change 1023%Z with (1 + 1022)%Z; rewrite bpow_plus; reflexivity). lra.
  - intros r b Hr Hb. destruct (L1 r Hr) as (z & Ez & Hz). destruct (Q r Hr z Ez) as (_ & _ & _ & _ & Qb). specialize (Qb b Hb). specialize (G1 z Hz).
    destruct (sound_ends n b d (Hs r b Hr Hb) Hd) as (_ & _ & _ & S1 & S2 & _). lra.
Qed.

Lemma cells_fl_some dim rg p : dim_ok dim ->
  (forall d, (d < N.to_nat dim)%nat -> exists c, cell_fl dim (fst rg d) (snd rg d) (p d) = Some c) ->
  exists cs, cells_fl dim (N.to_nat dim) rg p = Some cs /\ forall d, (d < N.to_nat dim)%nat -> cell_fl dim (fst rg d) (snd rg d) (p d) = Some (cs (N.of_nat d)).
Proof.
  intros Hd. generalize (N.to_nat dim) as n. induction n as [|n IH]; intros H; cbn [cells_fl].
  - exists (fun _ => 0%N). split; [reflexivity|]. intros d L. lia.
  - destruct IH as (cs & -> & Hc); [intros d L; apply H; lia|]. destruct (H n ltac:(lia)) as (c & Ec). rewrite Ec.
    eexists. split; [reflexivity|]. intros d L. cbv beta. destruct (N.eqb_spec (N.of_nat d) (N.of_nat n)) as [E|E].
    + assert (d = n) by lia. subst d. exact Ec.
    + apply Hc. lia.
Qed.
(** Every particle gets a key of full depth, when no side of the range is empty. *)
Theorem C90_keys dim ranks rg : dim_ok dim -> (forall r, In r ranks -> r <> []) -> (forall r b, In r ranks -> In b r -> sound_body (N.to_nat dim) b) ->
  compute_range_fl (N.to_nat dim) ranks = Some rg -> (forall d, (d < N.to_nat dim)%nat -> fst rg d < snd rg d) ->
  forall r b, In r ranks -> In b r -> exists k, key_fl dim rg (rb_x b) = Some k /\ full_key dim k.
Proof.
  intros Hd Hne Hs E Hside r b Hr Hb. destruct (C90_range (N.to_nat dim) ranks) as (rg' & E' & G); auto.
  { intros ->. destruct Hr. }
  assert (rg' = rg) by congruence. subst rg'. unfold key_fl.
  destruct (cells_fl_some dim rg (rb_x b) Hd) as (cs & -> & _).
  - intros d L. destruct (G d L) as (D1 & D2 & Ho & Gb). specialize (Gb r b Hr Hb).
    destruct (C90_defined dim (fst rg d) (snd rg d) (rb_x b d) Hd D1 D2 (Hside d L) ltac:(lra) Ho) as (c & Ec & _). eauto.
  - eexists. split; [reflexivity|]. unfold full_key. rewrite N.mul_comm. apply morton_key_lt. exact Hd.
Qed.

(** Larger coordinates on every axis never give a smaller Morton key. *)
Lemma top_bit a b : (a < b)%N -> exists i, N.testbit a i = false /\ N.testbit b i = true /\ forall j, (i < j)%N -> N.testbit a j = N.testbit b j.
Proof.
  intros H. assert (X : N.lxor a b <> 0%N) by (intros E; apply N.lxor_eq in E; lia).
  set (i := N.log2 (N.lxor a b)).
  assert (U : forall j, (i < j)%N -> N.testbit a j = N.testbit b j).
  { intros j Hj. pose proof (N.bits_above_log2 (N.lxor a b) j Hj) as E. rewrite N.lxor_spec in E. destruct (N.testbit a j), (N.testbit b j); auto; discriminate. }
  pose proof (N.bit_log2 (N.lxor a b) X) as T. fold i in T. rewrite N.lxor_spec in T.
  exists i. destruct (N.testbit a i) eqn:Ea, (N.testbit b i) eqn:Eb; try discriminate; [exfalso|auto].
  assert (L : (N.shiftr a (i + 1) = N.shiftr b (i + 1))%N).
  { apply N.bits_inj. intros j. rewrite !N.shiftr_spec'. apply U. lia. }
  rewrite !N.shiftr_div_pow2 in L.
  assert (Hi : forall x, (x / 2 ^ i = 2 * (x / 2 ^ (i + 1)) + N.b2n (N.testbit x i))%N).
  { intros x. rewrite N.pow_add_r, N.pow_1_r, <- N.div_div by (try apply N.pow_nonzero; lia).
    rewrite N.testbit_spec'. apply N.div_mod. lia. }
  pose proof (Hi a) as Ha. pose proof (Hi b) as Hb. rewrite Ea in Ha. rewrite Eb in Hb. cbn [N.b2n] in Ha, Hb.
  assert (a / 2 ^ i <= b / 2 ^ i)%N by (apply N.div_le_mono; [apply N.pow_nonzero; lia|lia]). lia.
Qed.
Lemma bit_lt a b i : N.testbit a i = false -> N.testbit b i = true -> (forall j, (i < j)%N -> N.testbit a j = N.testbit b j) -> (a < b)%N.
Proof.
  intros Ha Hb H. destruct (N.lt_trichotomy a b) as [L|[->|L]]; [exact L|congruence|]. exfalso.
  destruct (top_bit b a L) as (k & Kb & Ka & Ku).
  destruct (N.lt_trichotomy i k) as [C|[->|C]]; [specialize (H k C); congruence|congruence|specialize (Ku i C); congruence].
Qed.
Lemma morton_mono dim c c' : dim_ok dim -> (forall j, (j < dim)%N -> (c j < 2 ^ max_depth dim)%N /\ (c' j < 2 ^ max_depth dim)%N) ->
  (forall j, (j < dim)%N -> (c j <= c' j)%N) -> (morton_key dim c <= morton_key dim c')%N.
Proof.
  intros Hd Hb H. apply N.nlt_ge. intros L. destruct (top_bit _ _ L) as (i & I1 & I2 & I3).
  assert (D0 : (dim <> 0)%N) by (unfold dim_ok in Hd; lia).
  rewrite morton_bits in I1, I2 by assumption. destruct (N.eqb_spec i (max_depth dim * dim)) as [|Ni]; [discriminate|].
  destruct (N.ltb_spec i (max_depth dim * dim)) as [Li|]; [|discriminate]. cbn [orb andb] in I1, I2.
  pose proof (N.mod_lt i dim D0) as Lm. specialize (H (i mod dim)%N Lm). destruct (Hb _ Lm) as [B1 B2].
  assert (c' (i mod dim) < c (i mod dim))%N; [|lia]. apply (bit_lt _ _ (i / dim)%N I1 I2). intros j Lj.
  destruct (N.lt_ge_cases j (max_depth dim)) as [Jd|Jd].
  - specialize (I3 (j * dim + i mod dim)%N). rewrite !morton_bits in I3 by assumption.
    assert (E1 : ((j * dim + i mod dim) mod dim = i mod dim)%N) by (rewrite N.add_comm, N.mod_add, N.mod_mod by assumption; reflexivity).
    assert (E2 : ((j * dim + i mod dim) / dim = j)%N) by (rewrite N.div_add_l, N.div_small by assumption; lia).
    rewrite E1, E2 in I3.
    assert (L2 : (j * dim + i mod dim < max_depth dim * dim)%N) by nia.
    replace (j * dim + i mod dim =? max_depth dim * dim)%N with false in I3 by (symmetry; apply N.eqb_neq; lia).
    replace (j * dim + i mod dim <? max_depth dim * dim)%N with true in I3 by (symmetry; apply N.ltb_lt; lia).
    cbn [orb andb] in I3. apply I3. pose proof (N.div_mod i dim D0). nia.
  - rewrite (testbit_high _ _ j B1 Jd), (testbit_high _ _ j B2 Jd). reflexivity.
Qed.
Theorem C90_key_order dim rg p p' k k' : dim_ok dim ->
  (forall d, (d < N.to_nat dim)%nat -> is_double (fst rg d) /\ is_double (snd rg d) /\ fst rg d < snd rg d /\
     snd rg d - fst rg d <= bpow radix2 1023 /\ fst rg d <= p d /\ p d <= p' d /\ p' d <= snd rg d) ->
  key_fl dim rg p = Some k -> key_fl dim rg p' = Some k' -> (k <= k')%N.
Proof.
  intros Hd H. unfold key_fl.
  destruct (cells_fl_some dim rg p Hd) as (c & -> & Hc).
  { intros d L. destruct (H d L) as (D1 & D2 & S & O & P). destruct (C90_defined dim _ _ (p d) Hd D1 D2 S ltac:(lra) O) as (x & Ex & _). eauto. }
  destruct (cells_fl_some dim rg p' Hd) as (c' & -> & Hc').
  { intros d L. destruct (H d L) as (D1 & D2 & S & O & P). destruct (C90_defined dim _ _ (p' d) Hd D1 D2 S ltac:(lra) O) as (x & Ex & _). eauto. }
  intros E E'. injection E as <-. injection E' as <-.
  assert (M : (max_val dim < 2 ^ max_depth dim)%N) by (destruct Hd as [->|[->| ->]]; reflexivity).
  apply morton_mono; [exact Hd| |]; intros j Lj; assert (L : (N.to_nat j < N.to_nat dim)%nat) by lia;
    destruct (H _ L) as (D1 & D2 & S & O & P); pose proof (Hc _ L) as Cj; pose proof (Hc' _ L) as Cj'; rewrite N2Nat.id in Cj, Cj'.
  - destruct (C90_defined dim _ _ (p (N.to_nat j)) Hd D1 D2 S ltac:(lra) O) as (x & Ex & Bx).
    destruct (C90_defined dim _ _ (p' (N.to_nat j)) Hd D1 D2 S ltac:(lra) O) as (x' & Ex' & Bx'). rewrite <- max_val_eq in Bx, Bx' by assumption.
    assert (x = c j) by congruence. assert (x' = c' j) by congruence. lia.
  - eapply (C90_monotone dim (fst rg (N.to_nat j)) (snd rg (N.to_nat j)) (p (N.to_nat j)) (p' (N.to_nat j))); eauto; lra.
Qed.

(** A side of the range can be empty although every radius is positive: the radius
    vanishes in the rounding, and there is no key. *)
Theorem C90_absorbed_radius_refuted : exists b rg, sound_body 1 b /\ 0 < rb_h b /\ compute_range_fl 1 [[b]] = Some rg /\ key_fl 1 rg (rb_x b) = None.
Proof.
  assert (S : 0 < bpow radix2 (-60) < bpow radix2 (-54)) by (split; [apply bpow_gt_0|apply bpow_lt; lia]).
  assert (S3 : bpow radix2 (-54) < bpow radix2 (-53)) by (apply bpow_lt; lia).
  set (b := RBody (fun _ => 1) (bpow radix2 (-60))).
  assert (Sb : sound_body 1 b).
  { unfold sound_body. cbn [rb_x rb_h b]. split; [apply double_bpow; lia|]. split.
    - split; [lra|]. apply bpow_le. lia.
    - intros d _. change 1 with (bpow radix2 0). split; [apply double_bpow; lia|]. rewrite Rabs_pos_eq by apply bpow_ge_0. apply bpow_le. lia. }
  assert (E1 : rnd (1 - bpow radix2 (-60)) = 1) by (apply rnd_near_1; lra).
  assert (E2 : rnd (1 + bpow radix2 (-60)) = 1) by (apply rnd_near_1; lra).
  exists b. eexists. split; [exact Sb|]. split; [cbn [rb_h b]; lra|]. split.
  - unfold compute_range_fl. cbn [locals_fl]. unfold local_range_fl. cbn [back forallb]. rewrite (sound_ok 1 b Sb). cbn [andb fold_left allreduce]. reflexivity.
  - unfold key_fl. change (N.to_nat 1) with 1%nat. cbn [cells_fl]. destruct (widen_fl_spec (rb_x b, rb_x b) b 0%nat) as [W1 W2].
    rewrite W1, W2. cbn [fst snd rb_x rb_h b]. rewrite E1, E2, Rmin_left, Rmax_left by lra. unfold cell_fl.
    replace (1 - 1) with 0 by ring. rewrite (fl_some 0 0) by (try lia; rewrite Rabs_R0; cbn; lra). rewrite rnd_0.
    destruct (Req_EM_T 0 0); [reflexivity|congruence].
Qed.

(** Two ranks with three particles in the plane. *)
Definition ranks90 : list (list rbody) :=
  [[RBody (fun d => INR d) (1/2); RBody (fun d => 3) (1/4)]; [RBody (fun d => - INR d) 1]].
Lemma double_1 : is_double 1. Proof. change 1 with (bpow radix2 0). apply double_bpow. lia. Qed.
Lemma double_3 : is_double 3.
Proof.
  split; [|rewrite Rabs_pos_eq by lra; apply Rlt_trans with (bpow radix2 2); [change (bpow radix2 2) with 4; lra|apply bpow_lt; lia]].
  apply generic_format_FLT. exists (Float radix2 3 0); [unfold F2R; cbn [Fnum Fexp bpow]; ring|vm_compute; reflexivity|vm_compute; discriminate].
Qed.
Lemma ranks90_sound r b : In r ranks90 -> In b r -> sound_body 2 b.
Proof.
  assert (B : 4 <= bpow radix2 1021) by (change 4 with (bpow radix2 2); apply bpow_le; lia).
  assert (Q : is_double (1/2)) by (replace (1/2) with (bpow radix2 (-1)); [apply double_bpow; lia|change (bpow radix2 (-1)) with (/2); lra]).
  assert (Q4 : is_double (1/4)) by (replace (1/4) with (bpow radix2 (-2)); [apply double_bpow; lia|change (bpow radix2 (-2)) with (/4); lra]).
  assert (Z0 : is_double 0) by (split; [apply generic_format_0|rewrite Rabs_R0; apply bpow_gt_0]).
  intros [<-|[<-|[]]]; [intros [<-|[<-|[]]]|intros [<-|[]]]; (split; [|split]); cbn [rb_x rb_h]; try lra; auto using double_1.
  - intros [|[|d]] L; [| |lia]; cbn [INR]; (split; [auto using double_1|apply Rabs_le; lra]).
  - intros d _. split; [apply double_3|apply Rabs_le; lra].
  - intros [|[|d]] L; [| |lia]; cbn [INR]; (split; [apply double_opp; auto using double_1|apply Rabs_le; lra]).
Qed.
Example C90_case : exists rg, compute_range_fl 2 ranks90 = Some rg /\ forall r b, In r ranks90 -> In b r -> exists k, key_fl 2 rg (rb_x b) = Some k /\ full_key 2 k.
Proof.
  assert (NE : forall r, In r ranks90 -> r <> []) by (intros r [<-|[<-|[]]]; discriminate).
  destruct (C90_range 2 ranks90 ltac:(discriminate) NE ranks90_sound) as (rg & E & G). exists rg. split; [exact E|].
  apply C90_keys; [right; left; reflexivity|exact NE|exact ranks90_sound|exact E|].
  intros d L. destruct (G d L) as (_ & _ & _ & Gb).
  pose proof (Gb _ _ (or_introl eq_refl) (or_intror (or_introl eq_refl))) as B3. pose proof (Gb _ _ (or_intror (or_introl eq_refl)) (or_introl eq_refl)) as B1.
  cbn [rb_x rb_h] in B1, B3. pose proof (pos_INR d). lra.
Qed.
(** The cell of 0 in the range from -1 to 1. *)
Example C90_case_cell : exists c, cell_fl 2 (-1) 1 0 = Some c /\ cell_fl 2 (-1) 1 1 = Some (2 ^ 31 - 1)%N /\ (c < 2 ^ 31 - 1)%N.
Proof.
  pose proof double_1 as D. pose proof (double_opp 1 D) as D'.
  assert (Z0 : is_double 0) by (split; [apply generic_format_0|rewrite Rabs_R0; apply bpow_gt_0]).
  assert (B : 1 - -1 <= bpow radix2 1023) by (replace (1 - -1) with (bpow radix2 1) by (change (bpow radix2 1) with 2; ring); apply bpow_le; lia).
  destruct (C90_defined 2 (-1) 1 0 ltac:(right; left; reflexivity) D' D ltac:(lra) ltac:(lra) B) as (c & Ec & _). exists c. split; [exact Ec|].
  destruct (C90_ends 2 (-1) 1 ltac:(right; left; reflexivity) D' D ltac:(lra) B) as [_ E1]. split; [exact E1|].
  apply (C90_separated 2 (-1) 1 0 1 c _ ltac:(right; left; reflexivity) D' D Z0 D ltac:(lra) B ltac:(lra) ltac:(lra)); [|exact Ec|exact E1].
  change (Z.of_N (max_depth 2)) with 31%Z. replace (bpow radix2 31) with 2147483648 by reflexivity.
  assert (bpow radix2 (31 - 50) < 1) by (change 1 with (bpow radix2 0); apply bpow_lt; lia). lra.
Qed.
Print Assumptions C90_defined.
Print Assumptions C90_monotone.
Print Assumptions C90_ends.
Print Assumptions C90_close.
Print Assumptions C90_separated.
Print Assumptions C90_wrong_box_refuted.
Print Assumptions C90_box_nested.
Print Assumptions C90_box_exists.
Print Assumptions C90_range.
Print Assumptions C90_keys.
Print Assumptions C90_key_order.
Print Assumptions C90_absorbed_radius_refuted.
