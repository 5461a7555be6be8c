(** C47: interpolation of tabulated profiles. *)
From Verif Require Import Base BuildTree_model Vec Geometry_model Geometry_props Profile_model.
Local Open Scope R_scope.

Definition increasing (xp : list R) : Prop := forall i j, (i < j < length xp)%nat -> nth i xp 0 < nth j xp 0.

Lemma vec_at_ok xp i : (0 <= i < Z.of_nat (length xp))%Z -> vec_at xp i = Some (nth (Z.to_nat i) xp 0).
Proof. intros H. unfold vec_at. rewrite (proj2 (Z.ltb_ge _ _)) by lia. apply nth_error_nth'. lia. Qed.

Section Search.
Variables (x : R) (xp : list R).
Notation len := (Z.of_nat (length xp)).
Notation xat i := (nth (Z.to_nat i) xp 0).

Lemma interval_loop_ok : forall fuel i1 i2, (0 <= i1 < i2)%Z -> (i2 < len)%Z -> (i2 - i1 <= Z.of_nat fuel + 1)%Z ->
  (i1 = 0%Z \/ xat i1 <= x) -> (i2 = (len - 1)%Z \/ x < xat i2) ->
  exists i, interval_loop fuel x xp i1 i2 = Some i /\ (0 <= i)%Z /\ (i + 1 < len)%Z /\
    (i = 0%Z \/ xat i <= x) /\ ((i + 1 = len - 1)%Z \/ x < xat (i + 1)%Z).
Proof.
  induction fuel as [|fuel IH]; intros i1 i2 H1 H2 Hf L U; cbn [interval_loop].
  - rewrite (proj2 (Z.ltb_ge _ _)) by lia. exists i1. assert (i2 = i1 + 1)%Z by lia. subst i2. split; [reflexivity|]. split; [lia|]. split; [lia|]. auto.
  - destruct (Z.ltb_spec 1 (i2 - i1)) as [Hlt|Hge].
    + assert (Hi : (i1 < (i1 + i2) / 2 < i2)%Z) by (split; [apply Z.lt_le_trans with (i1 + 1)%Z; [lia|apply Z.div_le_lower_bound; lia]|apply Z.div_lt_upper_bound; lia]).
      set (i := ((i1 + i2) / 2)%Z) in *.
      assert (Hh : (2 * i <= i1 + i2 < 2 * i + 2)%Z).
      { pose proof (Z.div_mod (i1 + i2) 2 ltac:(lia)). pose proof (Z.mod_pos_bound (i1 + i2) 2 ltac:(lia)). fold i in H. lia. }
      cbv zeta. fold i. rewrite vec_at_ok by lia. destruct (Rltb x (xat i)) eqn:B.
      * apply Rltb_true in B. apply IH; auto; lia.
      * apply Rltb_false in B. apply IH; auto; lia.
    + exists i1. assert (i2 = i1 + 1)%Z by lia. subst i2. split; [reflexivity|]. split; [lia|]. split; [lia|]. auto.
Qed.

Lemma index_ok : (2 <= length xp)%nat -> nth 0 xp 0 <= x * (1 + / 10 ^ 15) -> exists i, get_interval_index x xp = Some i /\ (0 <= i < len)%Z /\
  (x * (1 - / 10 ^ 15) <= nth (length xp - 1) xp 0 -> (i + 1 < len)%Z /\ (i = 0%Z \/ xat i <= x) /\ ((i + 1 = len - 1)%Z \/ x < xat (i + 1)%Z)).
Proof.
  intros Hl H0. unfold get_interval_index. rewrite (vec_at_ok xp 0) by lia. cbn [Z.to_nat].
  rewrite (proj2 (Rltb_false _ _)) by assumption. rewrite (vec_at_ok xp (len - 1)) by lia.
  replace (Z.to_nat (len - 1)) with (length xp - 1)%nat by lia.
  destruct (Rltb _ _) eqn:B.
  - apply Rltb_true in B. exists (len - 1)%Z. split; [reflexivity|]. split; [lia|]. intros Hc. lra.
  - destruct (interval_loop_ok (length xp) 0 (len - 1) ltac:(lia) ltac:(lia) ltac:(lia) (or_introl eq_refl) (or_introl eq_refl))
      as (i & E & H1 & H2 & H3). exists i. split; [exact E|]. split; [lia|]. intros _. auto.
Qed.
End Search.

(** The located interval contains the argument. *)
Theorem C47_interval x xp : increasing xp -> (2 <= length xp)%nat -> 0 <= nth 0 xp 0 <= x -> x < nth (length xp - 1) xp 0 ->
  exists i : nat, get_interval_index x xp = Some (Z.of_nat i) /\ (S i < length xp)%nat /\ nth i xp 0 <= x < nth (S i) xp 0.
Proof.
  intros Hi Hl Hx Hx'. assert (He : 0 < / 10 ^ 15 < 1) by (split; [apply Rinv_0_lt_compat; lra|lra]).
  destruct (index_ok x xp Hl ltac:(nra)) as (i & E & H1 & H2). destruct (H2 ltac:(nra)) as (H3 & H4 & H5).
  exists (Z.to_nat i). rewrite Z2Nat.id by lia. split; [exact E|]. split; [lia|].
  replace (S (Z.to_nat i)) with (Z.to_nat (i + 1)) by lia. split.
  - destruct H4 as [->|H4]; [apply Hx|exact H4].
  - destruct H5 as [H5|H5]; [|exact H5]. replace (Z.to_nat (i + 1)) with (length xp - 1)%nat by lia. exact Hx'.
Qed.

(** The interpolation formula on four consecutive points. *)
Definition lagrange (x x1 x2 x3 x4 y1 y2 y3 y4 : R) : R :=
  y1 * (x - x2) / (x1 - x2) * (x - x3) / (x1 - x3) * (x - x4) / (x1 - x4) +
  y2 * (x - x1) / (x2 - x1) * (x - x3) / (x2 - x3) * (x - x4) / (x2 - x4) +
  y3 * (x - x1) / (x3 - x1) * (x - x2) / (x3 - x2) * (x - x4) / (x3 - x4) +
  y4 * (x - x1) / (x4 - x1) * (x - x2) / (x4 - x2) * (x - x3) / (x4 - x3).

(** Reading the table is safe for every argument not below the first point, and
    the four points used surround the located interval. *)
Lemma interp_window x xp yp : increasing xp -> (4 <= length xp)%nat -> length yp = length xp -> nth 0 xp 0 <= x * (1 + / 10 ^ 15) ->
  exists m, (m + 3 < length xp)%nat /\
    cubic_interp x xp yp = Some (lagrange x (nth m xp 0) (nth (m + 1) xp 0) (nth (m + 2) xp 0) (nth (m + 3) xp 0)
      (nth m yp 0) (nth (m + 1) yp 0) (nth (m + 2) yp 0) (nth (m + 3) yp 0)) /\
    (x * (1 - / 10 ^ 15) <= nth (length xp - 1) xp 0 -> exists i, (m <= i <= m + 2)%nat /\
      (i = 0%nat \/ nth i xp 0 <= x) /\ ((S i = length xp - 1)%nat \/ x < nth (S i) xp 0)).
Proof.
  intros Hi Hl Hy H0. destruct (index_ok x xp ltac:(lia) H0) as (i & E & H1 & H2). unfold cubic_interp. rewrite E.
  set (n := Z.of_nat (length xp)) in *.
  set (i2' := if (i =? 0)%Z then 1%Z else i). set (i2 := if (n - 3 <? i2')%Z then (n - 3)%Z else i2').
  assert (R2 : (1 <= i2 <= n - 3)%Z /\ (i - 1 <= i2 \/ i2 = n - 3)%Z /\ (i2 - 1 <= i)%Z /\ (i + 1 < n -> i <= i2 + 1)%Z).
  { unfold i2, i2'. destruct (Z.eqb_spec i 0); [destruct (Z.ltb_spec (n - 3) 1)|destruct (Z.ltb_spec (n - 3) i)]; lia. }
  cbv zeta. fold i2' i2. exists (Z.to_nat (i2 - 1)). split; [lia|]. split.
  - rewrite !vec_at_ok by lia.
    replace (Z.to_nat i2) with (Z.to_nat (i2 - 1) + 1)%nat by lia.
    replace (Z.to_nat (i2 + 1)) with (Z.to_nat (i2 - 1) + 2)%nat by lia.
    replace (Z.to_nat (i2 + 2)) with (Z.to_nat (i2 - 1) + 3)%nat by lia.
    set (m := Z.to_nat (i2 - 1)). f_equal. unfold lagrange.
    assert (Hd : forall a b : R, x - a - (x - b) = b - a) by (intros; ring). rewrite !Hd. reflexivity.
  - intros Hx. destruct (H2 Hx) as (H3 & H4 & H5). exists (Z.to_nat i). split; [lia|]. split.
    + destruct H4 as [->|H4]; [left; reflexivity|right; exact H4].
    + replace (S (Z.to_nat i)) with (Z.to_nat (i + 1)) by lia. destruct H5 as [H5|H5]; [left; lia|right; exact H5].
Qed.

Lemma window_distinct xp m : increasing xp -> (m + 3 < length xp)%nat ->
  nth m xp 0 < nth (m + 1) xp 0 < nth (m + 2) xp 0 /\ nth (m + 2) xp 0 < nth (m + 3) xp 0.
Proof. intros H Hm. repeat split; apply H; lia. Qed.

Theorem C47_no_bad_access x xp yp : increasing xp -> (4 <= length xp)%nat -> length yp = length xp -> nth 0 xp 0 <= x * (1 + / 10 ^ 15) ->
  exists y, cubic_interp x xp yp = Some y.
Proof. intros H1 H2 H3 H4. destruct (interp_window x xp yp H1 H2 H3 H4) as (m & _ & E & _). eauto. Qed.

(** At a tabulated point the tabulated value is returned. *)
Theorem C47_tabulated_points xp yp k : increasing xp -> (4 <= length xp)%nat -> length yp = length xp -> 0 <= nth 0 xp 0 -> (k < length xp)%nat ->
  cubic_interp (nth k xp 0) xp yp = Some (nth k yp 0).
Proof.
  intros Hi Hl Hy H0 Hk. assert (He : 0 < / 10 ^ 15 < 1) by (split; [apply Rinv_0_lt_compat; lra|lra]).
  assert (Hge : nth 0 xp 0 <= nth k xp 0) by (destruct k; [lra|apply Rlt_le, Hi; lia]).
  assert (Hle : nth k xp 0 <= nth (length xp - 1) xp 0).
  { destruct (Nat.eq_dec k (length xp - 1)) as [->|Hne]; [lra|apply Rlt_le, Hi; lia]. }
  destruct (interp_window (nth k xp 0) xp yp Hi Hl Hy ltac:(nra)) as (m & Hm & E & W). rewrite E.
  destruct (W ltac:(nra)) as (i & Him & HL & HU).
  assert (Hki : (m <= k <= m + 3)%nat).
  { split.
    - destruct HL as [->|HL]; [lia|]. destruct (Nat.le_gt_cases i k) as [L|L]; [lia|]. exfalso.
      assert (nth k xp 0 < nth i xp 0) by (apply Hi; lia). lra.
    - destruct HU as [HU|HU]; [lia|]. destruct (Nat.le_gt_cases (S i) k) as [L|L]; [|lia]. exfalso.
      destruct (Nat.eq_dec (S i) k) as [Ek|Ek]; [rewrite Ek in HU; lra|]. assert (nth (S i) xp 0 < nth k xp 0) by (apply Hi; lia). lra. }
  destruct (window_distinct xp m Hi Hm) as [[D1 D2] D3]. f_equal. unfold lagrange.
  assert (K : k = m \/ k = (m + 1)%nat \/ k = (m + 2)%nat \/ k = (m + 3)%nat) by lia.
  destruct K as [->|[->|[->| ->]]];
  generalize dependent (nth (m + 1) xp 0); generalize dependent (nth (m + 2) xp 0); generalize dependent (nth (m + 3) xp 0); generalize dependent (nth m xp 0);
  intros; field; lra.
Qed.

(** Cubic data are reproduced between (and beyond) the points. *)
Theorem C47_reproduces_cubics x xp c0 c1 c2 c3 : increasing xp -> (4 <= length xp)%nat -> nth 0 xp 0 <= x * (1 + / 10 ^ 15) ->
  let f := fun t => c0 + c1 * t + c2 * (t * t) + c3 * (t * t * t) in
  cubic_interp x xp (map f xp) = Some (f x).
Proof.
  intros Hi Hl H0. cbv zeta. set (f := fun t => c0 + c1 * t + c2 * (t * t) + c3 * (t * t * t)).
  destruct (interp_window x xp (map f xp) Hi Hl (map_length f xp) H0) as (m & Hm & E & _). rewrite E. f_equal.
  assert (N0 : forall k, (k < length xp)%nat -> nth k (map f xp) 0 = f (nth k xp 0)).
  { intros k Hk. rewrite (nth_indep _ 0 (f 0)) by (rewrite map_length; assumption). apply map_nth. }
  rewrite !N0 by lia. destruct (window_distinct xp m Hi Hm) as [[D1 D2] D3]. unfold lagrange, f.
  generalize dependent (nth (m + 1) xp 0); generalize dependent (nth (m + 2) xp 0); generalize dependent (nth (m + 3) xp 0); generalize dependent (nth m xp 0).
  intros. field. lra.
Qed.

(** Below the first point the table is read outside its bounds; the comment of
    the function promises zero. *)
Theorem C47_below_table_refuted : exists x xp yp, increasing xp /\ (4 <= length xp)%nat /\ length yp = length xp /\ 0 < x /\
  cubic_interp x xp yp = None.
Proof.
  exists (1 / 2), [1; 2; 3; 4], [1; 1; 1; 1].
  assert (He : / 10 ^ 15 < 1) by lra.
  split.
  { intros i j Hij. cbn [length] in Hij. do 4 (destruct i as [|i]; [do 4 (destruct j as [|j]; [first [lia|cbn; lra]|]); lia|]). lia. }
  split; [cbn; lia|]. split; [reflexivity|]. split; [lra|].
  unfold cubic_interp, get_interval_index. cbn [vec_at Z.ltb Z.compare nth_error Z.to_nat].
  rewrite (proj2 (Rltb_true _ _)) by lra. reflexivity.
Qed.

(** Beyond the last point it extrapolates instead of returning zero. *)
Theorem C47_above_table_refuted : exists x xp yp y, increasing xp /\ (4 <= length xp)%nat /\ length yp = length xp /\
  (forall i, (i < length xp)%nat -> nth i xp 0 < x) /\ cubic_interp x xp yp = Some y /\ y <> 0.
Proof.
  assert (Hi : increasing [1; 2; 3; 4]).
  { intros i j Hij. cbn [length] in Hij. do 4 (destruct i as [|i]; [do 4 (destruct j as [|j]; [first [lia|cbn; lra]|]); lia|]). lia. }
  assert (He : 0 < / 10 ^ 15) by (apply Rinv_0_lt_compat; lra).
  exists 9, [1; 2; 3; 4], (map (fun t => 0 + 1 * t + 0 * (t * t) + 0 * (t * t * t)) [1; 2; 3; 4]), (0 + 1 * 9 + 0 * (9 * 9) + 0 * (9 * 9 * 9)).
  split; [assumption|]. split; [cbn; lia|]. split; [reflexivity|]. split.
  { intros i Hl. cbn [length] in Hl. do 4 (destruct i as [|i]; [cbn; lra|]). lia. }
  split; [|lra]. apply (C47_reproduces_cubics 9 [1; 2; 3; 4] 0 1 0 0 Hi); [cbn; lia|cbn [nth]; lra].
Qed.

(** A concrete case. *)
Example C47_case : increasing [0; 1; 3; 4; 10] /\ (4 <= length [0; 1; 3; 4; 10])%nat /\ 0 <= nth 0 [0; 1; 3; 4; 10] 0 <= 2 /\ 2 < nth 4 [0; 1; 3; 4; 10] 0.
Proof.
  split.
  { intros i j Hij. cbn [length] in Hij. do 5 (destruct i as [|i]; [do 5 (destruct j as [|j]; [first [lia|cbn; lra]|]); lia|]). lia. }
  cbn. split; [lia|lra].
Qed.

Print Assumptions C47_interval.
Print Assumptions C47_no_bad_access.
Print Assumptions C47_tabulated_points.
Print Assumptions C47_reproduces_cubics.
Print Assumptions C47_below_table_refuted.
Print Assumptions C47_above_table_refuted.
