(** Proofs about Morton keys of points (rational coordinates). *)
From Coq Require Import QArith Qround Qfield Lqa.
From Verif Require Import Base Key_model Key_spec Key_proofs Morton_model Morton_proofs.
Local Open Scope N_scope.

(** Specification: the number of the cell of relative position [q] (in [0,1])
    in a grid of 2^d cells per axis; cells are half open, the last is closed. *)
Definition grid_cell (d : N) (q : Q) : N :=
  N.min (2 ^ d - 1) (Z.to_N (Qfloor (q * inject_Z (2 ^ Z.of_N d)))).

Lemma pow2Z_pos n : (0 < 2 ^ Z.of_N n)%Z.
Proof. apply Z.pow_pos_nonneg; lia. Qed.

Lemma Qfloor_unique x z : (inject_Z z <= x)%Q -> (x < inject_Z (z + 1))%Q -> Qfloor x = z.
Proof.
  intros H1 H2.
  pose proof (Qfloor_le x) as F1. pose proof (Qlt_floor x) as F2.
  assert (A : (inject_Z z < inject_Z (Qfloor x + 1))%Q) by (eapply Qle_lt_trans; eassumption).
  assert (B : (inject_Z (Qfloor x) < inject_Z (z + 1))%Q) by (eapply Qle_lt_trans; eassumption).
  rewrite <- Zlt_Qlt in A, B. lia.
Qed.

Lemma Qfloor_nonneg x : (0 <= x)%Q -> (0 <= Qfloor x)%Z.
Proof. intros H. change 0%Z with (Qfloor 0). apply Qfloor_resp_le. exact H. Qed.

(** floor(x) / n = floor(x / n) *)
Lemma Qfloor_div x n : (0 < n)%Z -> Qfloor (x / inject_Z n) = (Qfloor x / n)%Z.
Proof.
  intros Hn. apply Qfloor_unique.
  - apply Qle_shift_div_l; [change 0%Q with (inject_Z 0); rewrite <- Zlt_Qlt; exact Hn|].
    apply Qle_trans with (inject_Z (Qfloor x)); [|apply Qfloor_le].
    rewrite <- inject_Z_mult, <- Zle_Qle.
    pose proof (Z.mul_div_le (Qfloor x) n Hn). lia.
  - apply Qlt_shift_div_r; [change 0%Q with (inject_Z 0); rewrite <- Zlt_Qlt; exact Hn|].
    apply Qlt_le_trans with (inject_Z (Qfloor x + 1)); [apply Qlt_floor|].
    rewrite <- inject_Z_mult, <- Zle_Qle.
    pose proof (Z.mul_succ_div_gt (Qfloor x) n Hn). lia.
Qed.

Lemma grid_cell_shift md d q : d <= md -> (0 <= q)%Q ->
  N.shiftr (grid_cell md q) (md - d) = grid_cell d q.
Proof.
  intros Hd Hq. unfold grid_cell. rewrite shiftr_div.
  set (s := md - d). pose proof (pow2_pos s) as Ps. pose proof (pow2_pos d) as Pd.
  assert (EM : 2 ^ md = 2 ^ d * 2 ^ s).
  { rewrite <- N.pow_add_r. f_equal. unfold s. lia. }
  assert (Efl : Qfloor (q * inject_Z (2 ^ Z.of_N d))
                = (Qfloor (q * inject_Z (2 ^ Z.of_N md)) / 2 ^ Z.of_N s)%Z).
  { rewrite <- Qfloor_div by apply pow2Z_pos. apply Qfloor_comp.
    assert (EZ : (2 ^ Z.of_N md = 2 ^ Z.of_N d * 2 ^ Z.of_N s)%Z).
    { rewrite <- Z.pow_add_r by lia. f_equal. unfold s. lia. }
    rewrite EZ, inject_Z_mult. field.
    pose proof (pow2Z_pos s) as P. intros X.
    change 0%Q with (inject_Z 0) in X. unfold Qeq in X. cbn in X. lia. }
  rewrite Efl.
  pose proof (Qfloor_nonneg (q * inject_Z (2 ^ Z.of_N md))) as Hf.
  assert (Hx : (0 <= q * inject_Z (2 ^ Z.of_N md))%Q).
  { apply Qmult_le_0_compat; auto. change 0%Q with (inject_Z 0). rewrite <- Zle_Qle.
    pose proof (pow2Z_pos md). lia. }
  specialize (Hf Hx).
  set (f := Qfloor (q * inject_Z (2 ^ Z.of_N md))) in *.
  assert (Ed : Z.to_N (f / 2 ^ Z.of_N s) = Z.to_N f / 2 ^ s).
  { rewrite Z2N.inj_div by (try apply Z.pow_nonneg; lia).
    f_equal. rewrite Z2N.inj_pow by lia. rewrite N2Z.id. reflexivity. }
  rewrite Ed. set (a := Z.to_N f). rewrite EM.
  destruct (N.le_ge_cases a (2 ^ d * 2 ^ s - 1)) as [H|H].
  - rewrite N.min_r by assumption.
    rewrite N.min_r; [reflexivity|].
    apply N.lt_succ_r. replace (N.succ (2 ^ d - 1)) with (2 ^ d) by lia.
    apply N.div_lt_upper_bound; nia.
  - rewrite N.min_l by assumption.
    assert (E1 : (2 ^ d * 2 ^ s - 1) / 2 ^ s = 2 ^ d - 1).
    { symmetry. apply N.div_unique with (2 ^ s - 1); nia. }
    rewrite E1. rewrite N.min_l; [reflexivity|].
    rewrite <- E1. apply N.div_le_mono; lia.
Qed.

Lemma max_val_eq dim : dim_ok dim -> max_val dim = 2 ^ max_depth dim - 1.
Proof. intros [->|[->| ->]]; vm_compute; reflexivity. Qed.

(** The relative position of [p] in [mn, mx]. *)
Definition rel (mn mx p : Q) : Q := ((p - mn) / (mx - mn))%Q.

Lemma rel_bounds mn mx p : (mn < mx)%Q -> (mn <= p <= mx)%Q -> (0 <= rel mn mx p <= 1)%Q.
Proof.
  intros H [H1 H2]. unfold rel. split.
  - apply Qle_shift_div_l; lra.
  - apply Qle_shift_div_r; lra.
Qed.

Lemma cell_of_grid dim mn mx p : dim_ok dim -> (mn < mx)%Q -> (mn <= p <= mx)%Q ->
  cell_of dim mn mx p = Some (grid_cell (max_depth dim) (rel mn mx p)).
Proof.
  intros Hd H Hp. pose proof (rel_bounds mn mx p H Hp) as [R1 R2].
  unfold cell_of. fold (rel mn mx p).
  destruct (Qeq_bool (mx - mn) 0) eqn:E0.
  { apply Qeq_bool_iff in E0. lra. }
  set (M := inject_Z (2 ^ Z.of_N (max_depth dim))).
  assert (HM : (0 < M /\ M < inject_Z (2 ^ 64))%Q).
  { unfold M. change 0%Q with (inject_Z 0). rewrite <- !Zlt_Qlt.
    destruct Hd as [->|[->| ->]]; vm_compute; auto. }
  destruct HM as [HM1 HM2].
  assert (Hx : (0 <= rel mn mx p * M <= M)%Q) by (split; nra).
  destruct (Qle_bool (rel mn mx p * M) (-1)) eqn:E1.
  { apply Qle_bool_iff in E1. lra. }
  destruct (Qle_bool (inject_Z (2 ^ 64)) (rel mn mx p * M)) eqn:E2.
  { apply Qle_bool_iff in E2. lra. }
  unfold grid_cell. rewrite max_val_eq by assumption. reflexivity.
Qed.

Lemma grid_cell_lt d q : grid_cell d q < 2 ^ d.
Proof. unfold grid_cell. pose proof (pow2_pos d). lia. Qed.

(** Re-encoding the point of a cell. *)
Lemma cell_of_point dim mn mx c : dim_ok dim -> (mn < mx)%Q -> c < 2 ^ max_depth dim ->
  cell_of dim mn mx (morton_point dim mn mx c) = Some c.
Proof.
  intros Hd H Hc.
  set (Mz := (2 ^ Z.of_N (max_depth dim))%Z).
  assert (HMz : (2 <= Mz)%Z) by (unfold Mz; destruct Hd as [->|[->| ->]]; vm_compute; discriminate).
  assert (HcM : (Z.of_N c <= Mz - 1)%Z).
  { unfold Mz. assert (Z.of_N c < Z.of_N (2 ^ max_depth dim))%Z by lia.
    rewrite N2Z.inj_pow in H0. cbn in H0. lia. }
  set (C := inject_Z (Z.of_N c)).
  set (M1 := inject_Z (Mz - 1)).
  assert (HM1 : (0 < M1)%Q) by (unfold M1; change 0%Q with (inject_Z 0); rewrite <- Zlt_Qlt; lia).
  assert (HC : (0 <= C <= M1)%Q).
  { unfold C, M1. change 0%Q with (inject_Z 0). rewrite <- !Zle_Qle. lia. }
  assert (Erel : (rel mn mx (morton_point dim mn mx c) == C / M1)%Q).
  { unfold rel, morton_point. fold Mz C M1. field. split; lra. }
  assert (Hp : (mn <= morton_point dim mn mx c <= mx)%Q).
  { unfold morton_point. fold Mz C M1.
    assert (Hq : (0 <= C / M1 <= 1)%Q).
    { split; [apply Qle_shift_div_l|apply Qle_shift_div_r]; lra. }
    assert (Ex : (mn + (mx - mn) * C / M1 == mn + (mx - mn) * (C / M1))%Q) by (field; lra).
    rewrite Ex. split; nra. }
  rewrite cell_of_grid by assumption. f_equal.
  unfold grid_cell. fold Mz.
  assert (Ex : (rel mn mx (morton_point dim mn mx c) * inject_Z Mz == C + C / M1)%Q).
  { rewrite Erel. replace Mz with ((Mz - 1) + 1)%Z by lia. rewrite inject_Z_plus. fold M1.
    change (inject_Z 1) with 1%Q. field. lra. }
  rewrite (Qfloor_comp _ _ Ex).
  destruct (Z.eq_dec (Z.of_N c) (Mz - 1)) as [Ec|Ec].
  - assert (EC : (C == M1)%Q) by (unfold C, M1; rewrite Ec; reflexivity).
    assert (Ef : Qfloor (C + C / M1) = Mz).
    { apply Qfloor_unique.
      - replace Mz with ((Mz - 1) + 1)%Z by lia. rewrite inject_Z_plus. fold M1.
        rewrite EC. change (inject_Z 1) with 1%Q.
        assert (E1 : (M1 / M1 == 1)%Q) by (field; lra). rewrite E1. apply Qle_refl.
      - rewrite EC. assert (E1 : (M1 / M1 == 1)%Q) by (field; lra). rewrite E1.
        rewrite inject_Z_plus. replace Mz with ((Mz - 1) + 1)%Z by lia. rewrite inject_Z_plus.
        fold M1. change (inject_Z 1) with 1%Q. lra. }
    rewrite Ef. unfold Mz in *.
    assert (Z.of_N c = Z.of_N (2 ^ max_depth dim) - 1)%Z by (rewrite N2Z.inj_pow; cbn; lia).
    assert (Z.to_N (2 ^ Z.of_N (max_depth dim)) = 2 ^ max_depth dim).
    { rewrite Z2N.inj_pow by lia. rewrite N2Z.id. reflexivity. }
    lia.
  - assert (Hlt : (C < M1)%Q) by (unfold C, M1; rewrite <- Zlt_Qlt; lia).
    assert (Hq : (0 <= C / M1 < 1)%Q).
    { split; [apply Qle_shift_div_l|apply Qlt_shift_div_r]; lra. }
    assert (Ef : Qfloor (C + C / M1) = Z.of_N c).
    { apply Qfloor_unique.
      - fold C. lra.
      - rewrite inject_Z_plus. fold C. change (inject_Z 1) with 1%Q. lra. }
    rewrite Ef, N2Z.id. lia.
Qed.

(** ** range() *)

Lemma range_loop_decode dim fuel (n : N) id d coords : 0 < dim ->
  2 ^ (n * dim) <= id < 2 * 2 ^ (n * dim) ->
  morton_range_loop fuel dim id d coords = morton_decode_loop fuel dim id d coords.
Proof.
  intros Hd. revert n id d coords. induction fuel as [|f IH]; intros n id d coords Hid; [reflexivity|].
  cbn [morton_range_loop morton_decode_loop]. unfold key_root.
  destruct (N.eq_dec n 0) as [->|Hn].
  - rewrite N.mul_0_l, N.pow_0_r in Hid. assert (id = 1) by lia. subst id.
    rewrite shiftr_div, N.div_small by (apply N.pow_gt_1; lia). reflexivity.
  - assert (E : 2 ^ (n * dim) = 2 ^ ((n - 1) * dim) * 2 ^ dim).
    { rewrite <- N.pow_add_r. f_equal. nia. }
    pose proof (pow2_pos ((n - 1) * dim)) as P1. pose proof (pow2_pos dim) as P2.
    assert (Hg : 1 < 2 ^ dim) by (apply N.pow_gt_1; lia).
    assert (B : 2 ^ ((n - 1) * dim) <= N.shiftr id dim < 2 * 2 ^ ((n - 1) * dim)).
    { rewrite shiftr_div. split; [apply N.div_le_lower_bound|apply N.div_lt_upper_bound]; nia. }
    replace (id =? 1) with false by nia.
    replace (N.shiftr id dim =? 0) with false by lia.
    apply IH with (n - 1). exact B.
Qed.

Lemma land_pow2_zero c j : (N.land c (N.shiftl 1 j) =? 0) = negb (N.testbit c j).
Proof.
  destruct (N.testbit c j) eqn:E; cbn.
  - apply N.eqb_neq. intros H.
    assert (B : N.testbit (N.land c (N.shiftl 1 j)) j = true).
    { rewrite N.land_spec, E, N.shiftl_1_l, N.pow2_bits_true. reflexivity. }
    rewrite H, N.bits_0 in B. discriminate.
  - apply N.eqb_eq. apply N.bits_inj. intros m. rewrite N.land_spec, N.bits_0, N.shiftl_1_l, N.pow2_bits_eqb.
    destruct (j =? m) eqn:Em; [apply N.eqb_eq in Em; subst; rewrite E; reflexivity|apply andb_false_r].
Qed.

Definition low (c : N) (j : nat) : Q := inject_Z (Z.of_N (c mod 2 ^ N.of_nat j)).
Definition p2 (j : nat) : Q := inject_Z (2 ^ Z.of_nat j).

Lemma p2_S j : (p2 (S j) == 2 * p2 j)%Q.
Proof.
  unfold p2. rewrite Nat2Z.inj_succ, Z.pow_succ_r by lia. rewrite inject_Z_mult. reflexivity.
Qed.
Lemma p2_pos j : (0 < p2 j)%Q.
Proof. unfold p2. change 0%Q with (inject_Z 0). rewrite <- Zlt_Qlt. apply Z.pow_pos_nonneg; lia. Qed.

Lemma mod_pow2_S c (j : nat) :
  c mod 2 ^ N.of_nat (S j) = N.b2n (N.testbit c (N.of_nat j)) * 2 ^ N.of_nat j + c mod 2 ^ N.of_nat j.
Proof.
  replace (N.of_nat (S j)) with (N.of_nat j + 1) by lia.
  rewrite N.pow_add_r. change (2 ^ 1) with 2.
  rewrite N.mod_mul_r by (try apply N.pow_nonzero; lia).
  rewrite N.testbit_spec' . rewrite N.add_comm. f_equal. rewrite N.mul_comm. reflexivity.
Qed.

Lemma low_S c j : (low c (S j) == (if N.testbit c (N.of_nat j) then p2 j else 0) + low c j)%Q.
Proof.
  unfold low, p2. rewrite mod_pow2_S, N2Z.inj_add, inject_Z_plus.
  assert (E : Z.of_N (2 ^ N.of_nat j) = (2 ^ Z.of_nat j)%Z).
  { rewrite N2Z.inj_pow, nat_N_Z. reflexivity. }
  destruct (N.testbit c (N.of_nat j)); cbn [N.b2n].
  - rewrite N.mul_1_l, E. reflexivity.
  - rewrite N.mul_0_l. reflexivity.
Qed.

Lemma halve_loop_spec j c lo hi :
  (fst (halve_loop j c lo hi) == lo + (hi - lo) * low c j / p2 j)%Q /\
  (snd (halve_loop j c lo hi) == lo + (hi - lo) * (low c j + 1) / p2 j)%Q.
Proof.
  revert lo hi. induction j as [|j IH]; intros lo hi.
  - cbn [halve_loop fst snd]. unfold low, p2. cbn [N.of_nat Z.of_nat]. 
    rewrite N.mod_1_r. change (inject_Z (Z.of_N 0)) with 0%Q. change (inject_Z (2 ^ 0)) with 1%Q.
    split; field.
  - cbn [halve_loop]. rewrite land_pow2_zero, negb_involutive.
    pose proof (p2_pos j) as P.
    destruct (N.testbit c (N.of_nat j)) eqn:E.
    + destruct (IH ((lo + hi) / 2)%Q hi) as [-> ->]. rewrite low_S, p2_S, E.
      split; field; lra.
    + destruct (IH lo ((lo + hi) / 2)%Q) as [-> ->]. rewrite low_S, p2_S, E.
      split; field; lra.
Qed.

(** Decoding an ancestor of a Morton key gives the shifted cell coordinates. *)
Lemma decode_ancestor dim c d : dim_ok dim -> d <= max_depth dim ->
  (forall j, j < dim -> c j < 2 ^ max_depth dim) ->
  exists cs, morton_decode_loop 65 dim (N.shiftr (morton_key dim c) ((max_depth dim - d) * dim)) 0 (fun _ => 0)
             = Some (cs, d)
    /\ (forall j, j < dim -> cs j = N.shiftr (c j) (max_depth dim - d))
    /\ 2 ^ (d * dim) <= N.shiftr (morton_key dim c) ((max_depth dim - d) * dim) < 2 * 2 ^ (d * dim).
Proof.
  intros Hd Hdd Hc. assert (Hd0 : 0 < dim) by (unfold dim_ok in Hd; lia).
  set (s := max_depth dim - d).
  set (k := N.shiftr (morton_key dim c) (s * dim)).
  destruct (morton_key_lt dim c Hd) as [K1 K2].
  assert (E : 2 ^ (max_depth dim * dim) = 2 ^ (d * dim) * 2 ^ (s * dim)).
  { rewrite <- N.pow_add_r. f_equal. unfold s. nia. }
  pose proof (pow2_pos (s * dim)) as Ps.
  assert (Bk : 2 ^ (d * dim) <= k < 2 * 2 ^ (d * dim)).
  { unfold k. rewrite shiftr_div. split; [apply N.div_le_lower_bound|apply N.div_lt_upper_bound]; nia. }
  destruct (morton_decode_loop_total dim 65 k 0 (fun _ => 0)) as ([cs d'] & Ed); auto; [|lia|].
  { apply N.le_lt_trans with (morton_key dim c).
    - unfold k. rewrite shiftr_div. apply N.div_le_upper_bound; [lia|]. nia.
    - change (2 ^ N.of_nat 65) with (2 * 2 ^ 64). lia. }
  pose proof (decode_depth dim _ d _ _ _ Hd0 Bk Ed) as ->.
  exists cs. split; [exact Ed|]. split; [|exact Bk].
  apply morton_decode_loop_bits in Ed; auto. destruct Ed as (_ & _ & Ed).
  intros j Hj. apply N.bits_inj. intros n. rewrite Ed by assumption. rewrite N.bits_0. cbn [orb].
  replace (0 <=? n) with true by lia. cbn [andb]. rewrite N.sub_0_r, N.shiftr_spec'.
  destruct (n <? d) eqn:En.
  - cbn [andb]. unfold k. rewrite N.shiftr_spec'.
    replace (n * dim + j + s * dim) with ((n + s) * dim + j) by nia.
    rewrite morton_bits by assumption.
    assert (Em : ((n + s) * dim + j) mod dim = j) by (symmetry; apply N.mod_unique with (n + s); nia).
    assert (Edv : ((n + s) * dim + j) / dim = n + s) by (symmetry; apply N.div_unique with j; nia).
    rewrite Em, Edv.
    replace ((n + s) * dim + j =? max_depth dim * dim) with false by nia.
    replace ((n + s) * dim + j <? max_depth dim * dim) with true by nia. reflexivity.
  - cbn. symmetry. apply testbit_high with (max_depth dim); auto. lia.
Qed.

Lemma low_small c j : c < 2 ^ N.of_nat j -> low c j = inject_Z (Z.of_N c).
Proof. intros H. unfold low. rewrite N.mod_small by assumption. reflexivity. Qed.

Lemma grid_cell_bounds d q : (0 <= q <= 1)%Q ->
  (inject_Z (Z.of_N (grid_cell d q)) <= q * inject_Z (2 ^ Z.of_N d))%Q /\
  (q * inject_Z (2 ^ Z.of_N d) <= inject_Z (Z.of_N (grid_cell d q)) + 1)%Q.
Proof.
  intros [H1 H2]. unfold grid_cell. set (M := (2 ^ Z.of_N d)%Z).
  pose proof (pow2Z_pos d) as PM. fold M in PM.
  assert (HM : (0 < inject_Z M)%Q) by (change 0%Q with (inject_Z 0); rewrite <- Zlt_Qlt; exact PM).
  set (x := (q * inject_Z M)%Q).
  assert (Hx : (0 <= x <= inject_Z M)%Q) by (unfold x; split; nra).
  pose proof (Qfloor_le x) as F1. pose proof (Qlt_floor x) as F2.
  pose proof (Qfloor_nonneg x (proj1 Hx)) as F0.
  assert (EM : Z.of_N (2 ^ d) = M) by (unfold M; rewrite N2Z.inj_pow; reflexivity).
  rewrite inject_Z_plus in F2. change (inject_Z 1) with 1%Q in F2.
  destruct (N.le_ge_cases (Z.to_N (Qfloor x)) (2 ^ d - 1)) as [H|H].
  - rewrite N.min_r by assumption. rewrite Z2N.id by assumption. lra.
  - rewrite N.min_l by assumption.
    assert (E : Z.of_N (2 ^ d - 1) = (M - 1)%Z) by (pose proof (pow2_pos d); lia).
    rewrite E. replace (M - 1)%Z with (M + -1)%Z by lia. rewrite inject_Z_plus. change (inject_Z (-1)) with (-1)%Q.
    destruct Hx as [Hx0 Hx1]; split; [|lra].
    assert (Hf : (M - 1 <= Qfloor x)%Z) by lia.
    replace (M - 1)%Z with (M + -1)%Z in Hf by lia.
    rewrite Zle_Qle in Hf. rewrite inject_Z_plus in Hf. change (inject_Z (-1)) with (-1)%Q in Hf.
    lra.
Qed.

(** The box of the depth-d ancestor of a point's key. *)
Lemma range_of_ancestor dim d (mn mx p : N -> Q) : dim_ok dim -> d <= max_depth dim ->
  (forall j, j < dim -> (mn j < mx j)%Q /\ (mn j <= p j <= mx j)%Q) ->
  forall c, (forall j, j < dim -> cell_of dim (mn j) (mx j) (p j) = Some (c j)) ->
  exists box,
    morton_range dim (N.shiftr (morton_key dim c) ((max_depth dim - d) * dim)) mn mx = Some box /\
    forall j, j < dim ->
      (fst (box j) <= p j <= snd (box j))%Q /\
      (snd (box j) - fst (box j) == (mx j - mn j) / inject_Z (2 ^ Z.of_N d))%Q.
Proof.
  intros Hd Hdd Hp c Hc. assert (Hd0 : 0 < dim) by (unfold dim_ok in Hd; lia).
  assert (Hcl : forall j, j < dim -> c j = grid_cell (max_depth dim) (rel (mn j) (mx j) (p j))).
  { intros j Hj. destruct (Hp j Hj) as [A B]. specialize (Hc j Hj).
    rewrite cell_of_grid in Hc by assumption. congruence. }
  destruct (decode_ancestor dim c d Hd Hdd) as (cs & E & Ecs & B).
  { intros j Hj. rewrite Hcl by assumption. apply grid_cell_lt. }
  unfold morton_range.
  rewrite (range_loop_decode dim 65 d) by (auto; exact B). rewrite E.
  eexists; split; [reflexivity|]. intros j Hj. cbn beta.
  destruct (halve_loop_spec (N.to_nat d) (cs j) (mn j) (mx j)) as [-> ->].
  destruct (Hp j Hj) as [A Bp]. pose proof (rel_bounds _ _ _ A Bp) as R.
  assert (Eg : cs j = grid_cell d (rel (mn j) (mx j) (p j))).
  { rewrite Ecs, Hcl by assumption. apply grid_cell_shift; [assumption|apply R]. }
  rewrite low_small by (rewrite Eg, N2Nat.id; apply grid_cell_lt).
  pose proof (p2_pos (N.to_nat d)) as P.
  assert (EP : p2 (N.to_nat d) = inject_Z (2 ^ Z.of_N d)) by (unfold p2; rewrite N_nat_Z; reflexivity).
  destruct (grid_cell_bounds d _ R) as [G1 G2]. rewrite <- Eg, <- EP in *.
  set (C := inject_Z (Z.of_N (cs j))) in *. set (PP := p2 (N.to_nat d)) in *.
  set (q := rel (mn j) (mx j) (p j)) in *.
  assert (Epj : (p j == mn j + (mx j - mn j) * q)%Q) by (unfold q, rel; field; lra).
  assert (E1 : (mn j + (mx j - mn j) * C / PP == mn j + (mx j - mn j) * (C / PP))%Q) by (field; lra).
  assert (E2 : (mn j + (mx j - mn j) * (C + 1) / PP == mn j + (mx j - mn j) * ((C + 1) / PP))%Q) by (field; lra).
  assert (Q1 : (C / PP <= q)%Q) by (apply Qle_shift_div_r; lra).
  assert (Q2 : (q <= (C + 1) / PP)%Q) by (apply Qle_shift_div_l; lra).
  rewrite E1, E2, Epj. repeat split; [nra|nra|]. field. lra.
Qed.
