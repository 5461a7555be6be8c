(** Proofs about Morton keys. *)
From Coq Require Import QArith Qround Qfield Lqa.
From Verif Require Import Base Key_model Key_spec Key_proofs Morton_model.
Local Open Scope N_scope.

Lemma in_nrange lo n x : In x (nrange lo n) <-> lo <= x < lo + n.
Proof.
  unfold nrange. rewrite in_map_iff. split.
  - intros (i & <- & Hi). apply in_seq in Hi. lia.
  - intros H. exists (N.to_nat (x - lo)). split; [lia|]. apply in_seq. lia.
Qed.

Lemma nrange_succ lo n : nrange lo (n + 1) = nrange lo n ++ [lo + n].
Proof.
  unfold nrange. replace (N.to_nat (n + 1)) with (S (N.to_nat n)) by lia.
  rewrite seq_S, map_app. cbn [map]. do 2 f_equal. lia.
Qed.

Lemma bit_extract c i : N.shiftr (N.land c (N.shiftl 1 i)) i = N.b2n (N.testbit c i).
Proof.
  apply N.bits_inj; intros m.
  rewrite N.shiftr_spec', N.land_spec, N.shiftl_1_l, N.pow2_bits_eqb.
  destruct m as [|p].
  - rewrite N.add_0_l, N.eqb_refl, andb_true_r.
    destruct (N.testbit c i); reflexivity.
  - replace (i =? N.pos p + i) with false by lia. rewrite andb_false_r.
    symmetry. apply N.bits_above_log2.
    destruct (N.testbit c i); cbn; lia.
Qed.

Lemma testbit_b2n_shift b p n : N.testbit (N.shiftl (N.b2n b) p) n = (n =? p) && b.
Proof.
  destruct (n =? p) eqn:E.
  - apply N.eqb_eq in E. subst. rewrite N.shiftl_spec_high' by lia.
    rewrite N.sub_diag. destruct b; reflexivity.
  - apply N.eqb_neq in E. cbn. destruct (N.lt_ge_cases n p) as [H|H].
    + apply N.shiftl_spec_low; assumption.
    + rewrite N.shiftl_spec_high' by lia.
      apply N.bits_above_log2. destruct b; cbn; lia.
Qed.

Lemma digit_loop_bits dim coords i k v n :
  N.testbit (morton_digit_loop dim coords i k v) n
  = N.testbit v n || existsb (fun j => (n =? k * dim + j) && N.testbit (coords j) i) (nrange 0 dim).
Proof.
  unfold morton_digit_loop. generalize (nrange 0 dim) as js.
  intros js. revert v. induction js as [|j js IH]; intros v; cbn [fold_left existsb].
  - rewrite orb_false_r. reflexivity.
  - rewrite IH, N.lor_spec, bit_extract, testbit_b2n_shift, orb_assoc. reflexivity.
Qed.

Lemma outer_loop_bits dim coords (is : list N) v k n :
  N.testbit (fst (fold_left (fun '(v, k) i => (morton_digit_loop dim coords i k v, k + 1)) is (v, k))) n
  = N.testbit v n ||
    existsb (fun '(m, i) => existsb (fun j => (n =? (k + m) * dim + j) && N.testbit (coords j) i) (nrange 0 dim))
            (combine (nrange 0 (N.of_nat (length is))) is).
Proof.
  revert v k. induction is as [|i is IH]; intros v k.
  - cbn. rewrite orb_false_r. reflexivity.
  - cbn [fold_left]. rewrite IH, digit_loop_bits.
    set (js := nrange 0 dim). clearbody js.
    unfold nrange. rewrite !Nnat.Nat2N.id. cbn [length seq map combine existsb].
    rewrite <- seq_shift, map_map.
    rewrite orb_assoc. f_equal.
    + f_equal. replace (k + (0 + N.of_nat 0)) with k by lia. reflexivity.
    + clear. generalize 0%nat as b.
      induction is as [|i' is IH]; intros b; [reflexivity|].
      cbn [length seq map combine existsb]. rewrite IH. f_equal.
      replace (k + 1 + (0 + N.of_nat b)) with (k + (0 + N.of_nat (S b))) by lia. reflexivity.
Qed.

Lemma combine_nrange n : combine (nrange 0 n) (nrange 0 n) = map (fun i => (i, i)) (nrange 0 n).
Proof. induction (nrange 0 n) as [|x xs IH]; cbn; congruence. Qed.

Lemma length_nrange lo n : length (nrange lo n) = N.to_nat n.
Proof. unfold nrange. rewrite map_length, seq_length. reflexivity. Qed.

Lemma key_min_pow dim : dim_ok dim -> key_min dim = 2 ^ (max_depth dim * dim).
Proof. intros [->|[->| ->]]; vm_compute; reflexivity. Qed.

(** The bits of a Morton key: bit i of axis j is at position i*dim + j, below a
    leading one. *)
Lemma morton_bits dim coords n : dim_ok dim ->
  N.testbit (morton_key dim coords) n
  = (n =? max_depth dim * dim)
    || ((n <? max_depth dim * dim) && N.testbit (coords (n mod dim)) (n / dim)).
Proof.
  intros Hd. unfold morton_key, morton_key_depth.
  rewrite N.sub_diag, outer_loop_bits, length_nrange, N2Nat.id, combine_nrange.
  rewrite key_min_pow, N.pow2_bits_eqb by assumption.
  rewrite (N.eqb_sym (max_depth dim * dim) n). f_equal.
  assert (Hd0 : dim <> 0) by (unfold dim_ok in Hd; lia).
  set (md := max_depth dim).
  match goal with |- ?a = ?b => destruct b eqn:E end.
  - apply andb_true_iff in E. destruct E as [E1 E2]. apply N.ltb_lt in E1.
    apply existsb_exists. exists (n / dim, n / dim). split.
    + apply in_map_iff. exists (n / dim). split; [reflexivity|].
      apply in_nrange. split; [apply N.le_0_l|]. rewrite N.add_0_l.
      apply N.div_lt_upper_bound; lia.
    + apply existsb_exists. exists (n mod dim). split.
      * apply in_nrange. pose proof (N.mod_lt n dim Hd0). lia.
      * rewrite E2, andb_true_r. apply N.eqb_eq.
        rewrite N.add_0_l, N.mul_comm. apply N.div_mod; exact Hd0.
  - apply not_true_is_false. intros T.
    apply existsb_exists in T. destruct T as ([m i] & Hin & T).
    apply in_map_iff in Hin. destruct Hin as (i' & Ei & Hin).
    injection Ei as E1 E2. subst i' i. apply in_nrange in Hin.
    apply existsb_exists in T. destruct T as (j & Hj & T). apply in_nrange in Hj.
    apply andb_true_iff in T. destruct T as [T1 T2]. apply N.eqb_eq in T1.
    assert (Em : n mod dim = j) by (symmetry; apply N.mod_unique with m; nia).
    assert (Ed : n / dim = m) by (symmetry; apply N.div_unique with j; nia).
    rewrite Em, Ed, T2, andb_true_r in E. apply N.ltb_ge in E. nia.
Qed.

(** Cells of a shallower grid: two cells agree after dropping the low bits. *)
Lemma shiftr_eq_bits a b s :
  (forall n, s <= n -> N.testbit a n = N.testbit b n) -> N.shiftr a s = N.shiftr b s.
Proof.
  intros H. apply N.bits_inj. intros m. rewrite !N.shiftr_spec'. apply H. lia.
Qed.

Lemma testbit_high c md n : c < 2 ^ md -> md <= n -> N.testbit c n = false.
Proof.
  intros Hc Hn. destruct (N.eq_dec c 0) as [->|H0]; [apply N.bits_0|].
  apply N.bits_above_log2. apply N.lt_le_trans with md; auto. apply N.log2_lt_pow2; lia.
Qed.

Lemma morton_prefix dim c1 c2 s : dim_ok dim ->
  (forall j, j < dim -> c1 j < 2 ^ max_depth dim) ->
  (forall j, j < dim -> c2 j < 2 ^ max_depth dim) ->
  (N.shiftr (morton_key dim c1) (s * dim) = N.shiftr (morton_key dim c2) (s * dim)
   <-> forall j, j < dim -> N.shiftr (c1 j) s = N.shiftr (c2 j) s).
Proof.
  intros Hd H1 H2. assert (Hd0 : dim <> 0) by (unfold dim_ok in Hd; lia).
  split.
  - intros E j Hj. apply shiftr_eq_bits. intros i Hi.
    destruct (N.lt_ge_cases i (max_depth dim)) as [Hm|Hm].
    2:{ rewrite !(testbit_high _ (max_depth dim)); auto. }
    assert (Ei : N.testbit (morton_key dim c1) (i * dim + j) = N.testbit (morton_key dim c2) (i * dim + j)).
    { replace (i * dim + j) with ((i * dim + j - s * dim) + s * dim) by nia.
      rewrite <- !N.shiftr_spec', E. reflexivity. }
    rewrite !morton_bits in Ei by assumption.
    assert (Em : (i * dim + j) mod dim = j) by (symmetry; apply N.mod_unique with i; nia).
    assert (Ed : (i * dim + j) / dim = i) by (symmetry; apply N.div_unique with j; nia).
    rewrite Em, Ed in Ei.
    replace (i * dim + j =? max_depth dim * dim) with false in Ei by nia.
    replace (i * dim + j <? max_depth dim * dim) with true in Ei by nia.
    exact Ei.
  - intros E. apply shiftr_eq_bits. intros n Hn.
    rewrite !morton_bits by assumption.
    pose proof (N.mod_lt n dim Hd0) as Hm.
    assert (Hq : s <= n / dim) by (apply N.div_le_lower_bound; lia).
    specialize (E _ Hm).
    assert (Eb : N.testbit (c1 (n mod dim)) (n / dim) = N.testbit (c2 (n mod dim)) (n / dim)).
    { replace (n / dim) with ((n / dim - s) + s) by lia.
      rewrite <- !N.shiftr_spec', E. reflexivity. }
    rewrite Eb. reflexivity.
Qed.

(** ** Decoding *)

(** Number of digits of a full-depth key. *)
Lemma morton_decode_loop_bits dim fuel id d coords cs d' : 0 < dim ->
  morton_decode_loop fuel dim id d coords = Some (cs, d') ->
  d <= d' /\ N.shiftr (N.shiftr id ((d' - d) * dim)) dim = 0 /\
  forall j n, j < dim ->
    N.testbit (cs j) n = N.testbit (coords j) n
      || ((d <=? n) && (n <? d') && N.testbit id ((n - d) * dim + j)).
Proof.
  intros Hd. revert id d coords. induction fuel as [|f IH]; intros id d coords E; [discriminate|].
  cbn [morton_decode_loop] in E.
  destruct (N.shiftr id dim =? 0) eqn:Ez.
  - injection E as <- <-. apply N.eqb_eq in Ez.
    repeat split; [lia| |].
    + rewrite N.sub_diag, N.mul_0_l, N.shiftr_0_r. exact Ez.
    + intros j n _. destruct (d <=? n) eqn:E1, (n <? d) eqn:E2; cbn; try lia; now rewrite orb_false_r.
  - apply IH in E. destruct E as (H1 & H2 & H3). repeat split; [lia| |].
    + rewrite !N.shiftr_shiftr in H2. rewrite N.shiftr_shiftr, <- H2. f_equal. nia.
    + intros j n Hj. rewrite H3 by assumption.
      rewrite N.lor_spec.
      assert (Eb : N.shiftr (N.land (N.shiftl 1 j) id) j = N.b2n (N.testbit id j))
        by (rewrite N.land_comm; apply bit_extract).
      rewrite Eb, testbit_b2n_shift, N.shiftr_spec'. rewrite <- orb_assoc. f_equal.
      destruct (n =? d) eqn:End.
      * apply N.eqb_eq in End. subst n.
        replace (d + 1 <=? d) with false by lia. replace (d <=? d) with true by lia.
        replace (d <? d') with true by lia. cbn. rewrite N.sub_diag, N.mul_0_l, N.add_0_l, orb_false_r.
        reflexivity.
      * apply N.eqb_neq in End. cbn.
        destruct (d + 1 <=? n) eqn:E1.
        -- replace (d <=? n) with true by lia.
           replace ((n - (d + 1)) * dim + j + dim) with ((n - d) * dim + j) by nia. reflexivity.
        -- replace (d <=? n) with false by lia. reflexivity.
Qed.

Lemma morton_decode_loop_total dim fuel id d coords : 0 < dim ->
  id < 2 ^ (N.of_nat fuel) -> (0 < fuel)%nat ->
  exists r, morton_decode_loop fuel dim id d coords = Some r.
Proof.
  intros Hd. revert id d coords. induction fuel as [|f IH]; intros id d coords Hid Hf; [lia|].
  cbn [morton_decode_loop]. destruct (N.shiftr id dim =? 0) eqn:E; [eauto|].
  apply N.eqb_neq in E. rewrite shiftr_div in E.
  assert (Hle : N.shiftr id dim < 2 ^ N.of_nat f).
  { rewrite shiftr_div. apply N.div_lt_upper_bound; [apply N.pow_nonzero; lia|].
    rewrite <- N.pow_add_r. apply N.lt_le_trans with (1 := Hid).
    apply N.pow_le_mono_r; lia. }
  destruct f as [|f'].
  - change (2 ^ N.of_nat 0) with 1 in Hle. rewrite shiftr_div in Hle. apply N.lt_1_r in Hle. contradiction.
  - apply IH; auto. lia.
Qed.

Lemma morton_key_lt dim c : dim_ok dim -> morton_key dim c < 2 ^ 64 /\ 2 ^ (max_depth dim * dim) <= morton_key dim c < 2 * 2 ^ (max_depth dim * dim).
Proof.
  intros Hd.
  assert (Hlog : N.log2 (morton_key dim c) = max_depth dim * dim).
  { assert (Hb : N.testbit (morton_key dim c) (max_depth dim * dim) = true)
      by (rewrite morton_bits, N.eqb_refl by assumption; reflexivity).
    assert (Hnz : morton_key dim c <> 0) by (intros Hz; rewrite Hz, N.bits_0 in Hb; discriminate).
    destruct (N.lt_trichotomy (N.log2 (morton_key dim c)) (max_depth dim * dim)) as [H|[H|H]]; [|exact H|].
    - apply N.bits_above_log2 in H. congruence.
    - pose proof (N.bit_log2 _ Hnz) as B. rewrite morton_bits in B by assumption.
      replace (N.log2 (morton_key dim c) =? max_depth dim * dim) with false in B by lia.
      replace (N.log2 (morton_key dim c) <? max_depth dim * dim) with false in B by lia.
      discriminate. }
  assert (Hnz : 0 < morton_key dim c).
  { apply N.neq_0_lt_0. intros Hz.
    assert (Hb : N.testbit (morton_key dim c) (max_depth dim * dim) = true)
      by (rewrite morton_bits, N.eqb_refl by assumption; reflexivity).
    rewrite Hz, N.bits_0 in Hb. discriminate. }
  pose proof (N.log2_spec _ Hnz) as S. rewrite Hlog in S. rewrite N.pow_succ_r in S by lia.
  split; [|exact S].
  apply N.lt_le_trans with (2 * 2 ^ (max_depth dim * dim)); [lia|].
  destruct Hd as [->|[->| ->]]; vm_compute; discriminate.
Qed.

(** Decoding loop on a key of exact depth [n] digits. *)
Lemma decode_depth dim k (n : N) fuel cs d' : 0 < dim ->
  2 ^ (n * dim) <= k < 2 * 2 ^ (n * dim) ->
  morton_decode_loop fuel dim k 0 (fun _ => 0) = Some (cs, d') -> d' = n.
Proof.
  intros Hd Hk E.
  assert (Hmin : forall fuel id d coords, 
    (forall m, m < d' - d -> N.shiftr (N.shiftr id (m * dim)) dim <> 0) \/
    morton_decode_loop fuel dim id d coords <> Some (cs, d')).
  { induction fuel0 as [|f IH]; intros id d coords; [right; discriminate|].
    cbn [morton_decode_loop]. destruct (N.shiftr id dim =? 0) eqn:Ez.
    - destruct (N.eq_dec d d') as [->|Hne].
      + left. intros m Hm. lia.
      + right. intros X. injection X as _ X. contradiction.
    - destruct (IH (N.shiftr id dim) (d + 1)
        (fun j => N.lor (coords j) (N.shiftl (N.shiftr (N.land (N.shiftl 1 j) id) j) d))) as [H|H]; [|right; exact H].
      left. intros m Hm. destruct (N.eq_dec m 0) as [->|Hm0].
      + rewrite N.mul_0_l, N.shiftr_0_r. now apply N.eqb_neq.
      + specialize (H (m - 1) ltac:(lia)). rewrite !N.shiftr_shiftr in H.
        rewrite N.shiftr_shiftr. intros X. apply H. rewrite <- X. f_equal. nia. }
  destruct (Hmin fuel k 0 (fun _ => 0)) as [Hm|Hm]; [|congruence].
  apply morton_decode_loop_bits in E; [|assumption]. destruct E as (_ & Hz & _).
  rewrite N.sub_0_r in *.
  rewrite N.shiftr_shiftr, shiftr_div in Hz.
  apply N.div_small_iff in Hz; [|apply N.pow_nonzero; lia].
  destruct (N.lt_trichotomy d' n) as [H|[H|H]]; [|exact H|].
  - exfalso. assert (2 ^ (d' * dim + dim) <= 2 ^ (n * dim)) by (apply N.pow_le_mono_r; nia). lia.
  - exfalso. apply (Hm n H). rewrite N.shiftr_shiftr, shiftr_div.
    apply N.div_small. apply N.lt_le_trans with (2 * 2 ^ (n * dim)); [lia|].
    rewrite N.pow_add_r.
    assert (2 ^ 1 <= 2 ^ dim) by (apply N.pow_le_mono_r; lia). change (2 ^ 1) with 2 in *. nia.
Qed.

(** Encode then decode: the cell coordinates come back. *)
Lemma morton_cell_key dim c : dim_ok dim ->
  (forall j, j < dim -> c j < 2 ^ max_depth dim) ->
  exists cs, morton_cell dim (morton_key dim c) = Some cs /\ forall j, j < dim -> cs j = c j.
Proof.
  intros Hd Hc. assert (Hd0 : 0 < dim) by (unfold dim_ok in Hd; lia).
  destruct (morton_key_lt dim c Hd) as [K1 K2].
  destruct (morton_decode_loop_total dim 65 (morton_key dim c) 0 (fun _ => 0)) as ([cs d'] & E); auto; [|lia|].
  { change (2 ^ N.of_nat 65) with (2 * 2 ^ 64). lia. }
  pose proof (decode_depth dim _ (max_depth dim) _ _ _ Hd0 K2 E) as ->.
  unfold morton_cell. rewrite E, N.sub_diag.
  eexists; split; [reflexivity|]. intros j Hj. cbn beta. rewrite N.shiftl_0_r.
  apply morton_decode_loop_bits in E; auto. destruct E as (_ & _ & E).
  apply N.bits_inj. intros n. rewrite E by assumption. rewrite N.bits_0. cbn [orb].
  replace (0 <=? n) with true by lia. cbn [andb]. rewrite N.sub_0_r.
  destruct (n <? max_depth dim) eqn:En.
  - cbn [andb]. rewrite morton_bits by assumption.
    assert (Em : (n * dim + j) mod dim = j) by (symmetry; apply N.mod_unique with n; nia).
    assert (Ed : (n * dim + j) / dim = n) by (symmetry; apply N.div_unique with j; nia).
    rewrite Em, Ed.
    replace (n * dim + j =? max_depth dim * dim) with false by nia.
    replace (n * dim + j <? max_depth dim * dim) with true by nia. reflexivity.
  - cbn. symmetry. apply testbit_high with (max_depth dim); auto. lia.
Qed.

(** Decode then encode: the key comes back. *)
Lemma morton_key_cell dim k : dim_ok dim ->
  2 ^ (max_depth dim * dim) <= k < 2 * 2 ^ (max_depth dim * dim) ->
  exists cs, morton_cell dim k = Some cs /\ (forall j, j < dim -> cs j < 2 ^ max_depth dim)
   /\ morton_key dim cs = k.
Proof.
  intros Hd Hk. assert (Hd0 : 0 < dim) by (unfold dim_ok in Hd; lia).
  assert (K1 : k < 2 ^ 65).
  { apply N.lt_le_trans with (2 * 2 ^ (max_depth dim * dim)); [lia|].
    destruct Hd as [->|[->| ->]]; vm_compute; discriminate. }
  destruct (morton_decode_loop_total dim 65 k 0 (fun _ => 0)) as ([cs d'] & E); auto; [lia|].
  pose proof (decode_depth dim _ (max_depth dim) _ _ _ Hd0 Hk E) as ->.
  unfold morton_cell. rewrite E, N.sub_diag.
  apply morton_decode_loop_bits in E; auto. destruct E as (_ & _ & E).
  eexists; split; [reflexivity|].
  assert (Hb : forall j, j < dim -> N.shiftl (cs j) 0 < 2 ^ max_depth dim).
  { intros j Hj. rewrite N.shiftl_0_r.
    destruct (N.eq_dec (cs j) 0) as [->|H0]; [apply pow2_pos|].
    apply N.log2_lt_pow2; [lia|].
    apply N.nle_gt. intros Hle.
    pose proof (N.bit_log2 _ H0) as B. rewrite E in B by assumption.
    rewrite N.bits_0 in B. cbn [orb] in B.
    replace (N.log2 (cs j) <? max_depth dim) with false in B by lia.
    rewrite andb_false_r in B. discriminate. }
  split; [exact Hb|].
  apply N.bits_inj. intros n. rewrite morton_bits by assumption.
  pose proof (N.mod_lt n dim ltac:(lia)) as Hm.
  rewrite N.shiftl_0_r, E by assumption. rewrite N.bits_0. cbn [orb].
  replace (0 <=? n / dim) with true by (symmetry; apply N.leb_le, N.le_0_l). cbn [andb]. rewrite N.sub_0_r.
  replace (n / dim * dim + n mod dim) with n by (rewrite N.mul_comm; apply N.div_mod; lia).
  destruct (n =? max_depth dim * dim) eqn:E1.
  - apply N.eqb_eq in E1. subst n. cbn. symmetry.
    assert (Hl : N.log2 k = max_depth dim * dim).
    { apply N.log2_unique; [lia|]. rewrite N.pow_succ_r by lia. exact Hk. }
    rewrite <- Hl. apply N.bit_log2. pose proof (pow2_pos (max_depth dim * dim)). lia.
  - apply N.eqb_neq in E1. cbn [orb].
    destruct (n <? max_depth dim * dim) eqn:E2.
    + cbn [andb]. replace (n / dim <? max_depth dim) with true; [reflexivity|].
      symmetry. apply N.ltb_lt. apply N.div_lt_upper_bound; lia.
    + cbn [andb]. symmetry. apply testbit_high with (N.succ (max_depth dim * dim)).
      * rewrite N.pow_succ_r by lia. lia.
      * lia.
Qed.
