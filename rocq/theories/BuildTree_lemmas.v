(** Lemmas about ancestors of keys and about the table operations. *)
From Verif Require Import Base Key_model Key_spec Key_proofs HCell_model HCell_props BuildTree_model BuildTree_spec.
Local Open Scope N_scope.

(** ** table *)
Lemma tfind_tset t k c q : tfind (tset t k c) q =
  if q =? k then match tfind t k with Some _ => Some c | None => None end else tfind t q.
Proof.
  induction t as [|[k' c'] t IH]; cbn [tset tfind].
  - destruct (q =? k); reflexivity.
  - destruct (N.eqb_spec k' k) as [Ek|Hk]; cbn [tfind].
    + subst k'. destruct (N.eqb_spec q k) as [Eq|Hq].
      * subst q. rewrite N.eqb_refl. reflexivity.
      * destruct (N.eqb_spec k q); [congruence|reflexivity].
    + rewrite IH. destruct (N.eqb_spec q k) as [Eq|Hq]; [|reflexivity].
      subst q. destruct (N.eqb_spec k' k); [congruence|]. reflexivity.
Qed.

Lemma tfind_templace t k c q : tfind (templace t k c) q =
  match tfind t q with Some x => Some x | None => if q =? k then Some c else None end.
Proof.
  unfold templace. destruct (tfind t k) eqn:E.
  - destruct (N.eqb_spec q k) as [->|]; [rewrite E; reflexivity|destruct (tfind t q); reflexivity].
  - cbn [tfind]. destruct (N.eqb_spec k q) as [->|].
    + rewrite E, N.eqb_refl. reflexivity.
    + destruct (N.eqb_spec q k); [congruence|]. destruct (tfind t q); reflexivity.
Qed.

Lemma testbit_add_child w c d : N.testbit (add_child w c) d = N.testbit w d || (d =? c).
Proof.
  unfold add_child. rewrite N.lor_spec, N.shiftl_1_l, N.pow2_bits_eqb, (N.eqb_sym c d). reflexivity.
Qed.

Section Up.
Variable dim : N.
Hypothesis Hdim : dim_ok dim.
Let D := max_depth dim.
Let B := 2 ^ dim.

Lemma B_ge2 : 2 <= B.
Proof. unfold B. destruct Hdim as [->|[->| ->]]; vm_compute; discriminate. Qed.

Lemma D_ge1 : 21 <= D.
Proof. unfold D. destruct Hdim as [->|[->| ->]]; vm_compute; discriminate. Qed.

Lemma D_le : D <= 63.
Proof. unfold D. destruct Hdim as [->|[->| ->]]; vm_compute; discriminate. Qed.

Lemma Dd_lt64 r : r <= D -> r * dim < 64.
Proof.
  intros H. apply N.le_lt_trans with (D * dim); [nia|].
  unfold D. destruct Hdim as [->|[->| ->]]; vm_compute; reflexivity.
Qed.

Lemma popn_up r k : r <= D -> key_popn dim r k = Some (up dim r k).
Proof.
  intros H. unfold key_popn. pose proof (Dd_lt64 r H). change bits_ with 64.
  replace (r * dim <? 64) with true by lia. rewrite shiftr_div. reflexivity.
Qed.

(** full-depth keys *)
Definition full (k : N) : Prop := B ^ D <= k < 2 * B ^ D.

Lemma pow_B r : 2 ^ (r * dim) = B ^ r.
Proof. unfold B. rewrite N.mul_comm, N.pow_mul_r. reflexivity. Qed.

Lemma powB_pos r : 0 < B ^ r.
Proof. apply N.neq_0_lt_0, N.pow_nonzero. pose proof B_ge2. lia. Qed.

Lemma up_eq r k : up dim r k = k / B ^ r.
Proof. unfold up. rewrite pow_B. reflexivity. Qed.

Lemma up_0 k : up dim 0 k = k.
Proof. rewrite up_eq. change (B ^ 0) with 1. apply N.div_1_r. Qed.

Lemma up_S r k : up dim (r + 1) k = up dim r k / B.
Proof.
  rewrite !up_eq. rewrite N.pow_add_r, N.pow_1_r. symmetry.
  pose proof B_ge2. pose proof (powB_pos r). apply N.div_div; lia.
Qed.

Lemma up_mono r k k' : k <= k' -> up dim r k <= up dim r k'.
Proof. intros H. rewrite !up_eq. pose proof (powB_pos r). apply N.div_le_mono; lia. Qed.

Lemma up_zero r : up dim r 0 = 0.
Proof. rewrite up_eq. pose proof (powB_pos r). apply N.div_0_l. lia. Qed.

Lemma powB_split r : r <= D -> B ^ D = B ^ (D - r) * B ^ r.
Proof. intros. rewrite <- N.pow_add_r. f_equal. lia. Qed.

Lemma up_range r k : r <= D -> full k -> B ^ (D - r) <= up dim r k < 2 * B ^ (D - r).
Proof.
  intros Hr [H1 H2]. rewrite up_eq. pose proof (powB_pos r) as P.
  rewrite (powB_split r Hr) in H1, H2. split.
  - apply N.div_le_lower_bound; lia.
  - apply N.div_lt_upper_bound; lia.
Qed.

Lemma up_root k : full k -> up dim D k = 1.
Proof.
  intros H. pose proof (up_range D k (N.le_refl _) H) as R. rewrite N.sub_diag in R.
  change (B ^ 0) with 1 in R. lia.
Qed.

(** numbers at a level *)
Definition at_level (r p : N) : Prop := B ^ (D - r) <= p < 2 * B ^ (D - r).

Lemma level_unique r r' p : r <= D -> r' <= D -> at_level r p -> at_level r' p -> r = r'.
Proof.
  assert (G : forall r r', r < r' -> r' <= D -> at_level r p -> at_level r' p -> False).
  { clear r r'. intros r r' Hl Hr [A1 A2] [B1 B2].
    assert (E : B ^ (D - r) = B ^ (D - r') * B ^ (r' - r)) by (rewrite <- N.pow_add_r; f_equal; lia).
    assert (P : 2 <= B ^ (r' - r)).
    { pose proof B_ge2. apply N.le_trans with (B ^ 1); [rewrite N.pow_1_r; lia|].
      apply N.pow_le_mono_r; lia. }
    pose proof (powB_pos (D - r')). nia. }
  intros H1 H2 L1 L2. destruct (N.lt_trichotomy r r') as [H|[H|H]]; auto; exfalso; eauto.
Qed.

Lemma up_level r r' k k' : r <= D -> r' <= D -> full k -> full k' -> up dim r k = up dim r' k' -> r = r'.
Proof.
  intros Hr Hr' H H' E. apply (level_unique r r' (up dim r k)); auto.
  - apply up_range; auto.
  - unfold at_level. rewrite E. apply up_range; auto.
Qed.

Lemma up_up r s k : up dim (r + s) k = up dim s (up dim r k).
Proof.
  rewrite !up_eq, N.pow_add_r. symmetry. pose proof (powB_pos r). pose proof (powB_pos s).
  apply N.div_div; lia.
Qed.

Lemma up_eq_mono r s k k' : r <= s -> up dim r k = up dim r k' -> up dim s k = up dim s k'.
Proof. intros H E. replace s with (r + (s - r)) by lia. rewrite !up_up, E. reflexivity. Qed.

(** digits *)
Lemma last_value_mod q : key_last_value dim q = q mod B.
Proof. unfold key_last_value. apply land_mask. Qed.

Lemma up_digit r k : up dim r k = up dim (r + 1) k * B + key_last_value dim (up dim r k).
Proof.
  rewrite last_value_mod, up_S. pose proof B_ge2. rewrite N.mul_comm. apply N.div_mod. lia.
Qed.

Lemma last_value_lt q : key_last_value dim q < B.
Proof. rewrite last_value_mod. apply N.mod_lt. pose proof B_ge2. lia. Qed.

Lemma child_parent p d : d < B -> (p * B + d) / B = p.
Proof. intros. symmetry. apply N.div_unique with d; [assumption|]. rewrite N.mul_comm. reflexivity. Qed.

Lemma child_digit p q d d' : d < B -> d' < B -> p * B + d = q * B + d' -> p = q /\ d = d'.
Proof.
  intros H H' E. assert (p = q) by (rewrite <- (child_parent p d H), <- (child_parent q d' H'), E; reflexivity).
  subst q. split; [reflexivity|]. apply (proj1 (N.add_cancel_l _ _ _) E).
Qed.

Lemma push_child r p d : 1 <= r <= D -> at_level r p -> d < B -> key_push dim p d = Some (p * B + d).
Proof.
  intros Hr [L1 L2] Hd. unfold key_push. rewrite N.shiftl_1_l. fold B.
  replace (d <? B) with true by lia. f_equal.
  rewrite N.shiftl_mul_pow2. fold B.
  assert (S1 : p * B + B <= w64).
  { assert (E : B ^ D = B ^ (D - r) * B ^ r) by (apply powB_split; lia).
    assert (P : B <= B ^ r).
    { rewrite <- (N.pow_1_r B) at 1. apply N.pow_le_mono_r; pose proof B_ge2; lia. }
    assert (W : 2 * B ^ D <= w64).
    { unfold B, D. destruct Hdim as [->|[->| ->]]; vm_compute; discriminate. }
    pose proof (powB_pos (D - r)). nia. }
  pose proof B_ge2. unfold wrap64. rewrite N.mod_small by lia.
  unfold B in *. apply lor_add. lia.
Qed.

Lemma digits_in d : In d (digits dim) <-> d < B.
Proof.
  unfold digits. rewrite in_map_iff, N.shiftl_1_l. fold B. split.
  - intros (x & <- & H). apply in_seq in H. lia.
  - intros H. exists (N.to_nat d). split; [lia|]. apply in_seq. lia.
Qed.

Lemma digits_eq : digits dim = map N.of_nat (seq 0 (N.to_nat (2 ^ dim))).
Proof. unfold digits. rewrite N.shiftl_1_l. reflexivity. Qed.
End Up.
