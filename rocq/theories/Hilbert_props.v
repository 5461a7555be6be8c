(** Properties C04 (Hilbert part), C05, C06, C07 and C62: Hilbert keys.
    Cells are given by their integer coordinates; [cell_of] (the conversion of
    a position to a cell) and its relation to the grid are in Morton_props.v
    and are shared by both curves. *)
From Coq Require Import QArith Qround.
From Verif Require Import Base Key_model Key_spec Key_proofs Morton_model Morton_proofs Morton_qproofs
  Hilbert_model Hilbert_proofs Hilbert3_proofs.
Local Open Scope N_scope.

Definition lt2 (n : N) (c : N * N) : Prop := fst c < n /\ snd c < n.
Definition lt3 (n : N) (c : coord3) : Prop := fst (fst c) < n /\ snd (fst c) < n /\ snd c < n.

Local Opaque hilbert_loop2 hilbert_loop3 h2 h3 d2 d3.

(** Specification: the cell of the depth-d grid (2^d cells per axis) holding a
    cell of the finest grid (2^m cells per axis). *)
Definition coarse2 (m d : N) (c : N * N) : N * N := (fst c / 2 ^ (m - d), snd c / 2 ^ (m - d)).
Definition coarse3 (m d : N) (c : coord3) : coord3 :=
  (fst (fst c) / 2 ^ (m - d), snd (fst c) / 2 ^ (m - d), snd c / 2 ^ (m - d)).

(** Specification: two cells of a grid share an edge (2D) or a face (3D). *)
Definition absdiff (a b : N) : N := (a - b) + (b - a).
Definition share_edge (p q : N * N) : Prop :=
  absdiff (fst p) (fst q) + absdiff (snd p) (snd q) = 1.
Definition share_face (p q : coord3) : Prop :=
  absdiff (fst (fst p)) (fst (fst q)) + absdiff (snd (fst p)) (snd (fst q))
  + absdiff (snd p) (snd q) = 1.

Lemma key2_h2 d c : d <= 31 -> lt2 (2 ^ 31) c ->
  hilbert2_key_depth d c = 4 ^ d + h2 (N.to_nat d) (coarse2 31 d c).
Proof.
  intros Hd [A B]. unfold hilbert2_key_depth.
  change (max_depth 2) with 31. rewrite loop2_h2 by lia.
  change (2 ^ N.of_nat (N.to_nat 31)) with (2 ^ 31).
  replace (mod2 (2 ^ 31) c) with c.
  2:{ destruct c as [x y]. unfold mod2. cbn [fst snd] in *. rewrite !N.mod_small by assumption. reflexivity. }
  change (key_min 2) with (4 ^ 31).
  rewrite shiftr_div.
  replace (2 ^ ((31 - d) * 2)) with (4 ^ (31 - d)) by (rewrite N.mul_comm, N.pow_mul_r; reflexivity).
  assert (P : 4 ^ (31 - d) <> 0) by (apply N.pow_nonzero; lia).
  replace (4 ^ 31) with (4 ^ d * 4 ^ (31 - d)) by (rewrite <- N.pow_add_r; f_equal; lia).
  rewrite N.div_add_l by assumption. f_equal.
  replace (N.to_nat 31) with (N.to_nat d + N.to_nat (31 - d))%nat by lia.
  pose proof (h2_prefix (N.to_nat d) (N.to_nat (31 - d)) c) as H.
  rewrite N2Nat.id in H. rewrite H. reflexivity.
Qed.

Lemma key3_h3 d c : d <= 21 -> lt3 (2 ^ 21) c ->
  hilbert3_key_depth d c = 8 ^ d + h3 (N.to_nat d) (coarse3 21 d c).
Proof.
  intros Hd (A & B & C). unfold hilbert3_key_depth.
  change (max_depth 3) with 21. rewrite loop3_h3 by lia.
  change (2 ^ N.of_nat (N.to_nat 21)) with (2 ^ 21).
  replace (mod3 (2 ^ 21) c) with c.
  2:{ destruct c as [[x y] z]. unfold mod3, map3. cbn [fst snd] in *. rewrite !N.mod_small by assumption. reflexivity. }
  change (key_min 3) with (8 ^ 21).
  rewrite shiftr_div.
  replace (2 ^ ((21 - d) * 3)) with (8 ^ (21 - d)) by (rewrite N.mul_comm, N.pow_mul_r; reflexivity).
  assert (P : 8 ^ (21 - d) <> 0) by (apply N.pow_nonzero; lia).
  replace (8 ^ 21) with (8 ^ d * 8 ^ (21 - d)) by (rewrite <- N.pow_add_r; f_equal; lia).
  rewrite N.div_add_l by assumption. f_equal.
  replace (N.to_nat 21) with (N.to_nat d + N.to_nat (21 - d))%nat by lia.
  pose proof (h3_prefix (N.to_nat d) (N.to_nat (21 - d)) c) as H.
  rewrite N2Nat.id in H. rewrite H. destruct c as [[x y] z]. reflexivity.
Qed.

Lemma coarse2_lt d c : d <= 31 -> lt2 (2 ^ 31) c -> lt2 (2 ^ d) (coarse2 31 d c).
Proof.
  intros Hd [A B]. unfold lt2, coarse2. cbn [fst snd].
  split; (apply N.div_lt_upper_bound; [apply N.pow_nonzero; lia|]; rewrite <- N.pow_add_r;
    replace (31 - d + d) with 31 by lia; assumption).
Qed.
Lemma coarse3_lt d c : d <= 21 -> lt3 (2 ^ 21) c -> lt3 (2 ^ d) (coarse3 21 d c).
Proof.
  intros Hd (A & B & C). unfold lt3, coarse3. cbn [fst snd].
  repeat split; (apply N.div_lt_upper_bound; [apply N.pow_nonzero; lia|]; rewrite <- N.pow_add_r;
    replace (21 - d + d) with 21 by lia; assumption).
Qed.

(** C05/C07, dimension 2.  Two cells of the finest grid have the same depth-d
    key exactly when they lie in the same cell of the depth-d grid (d = 31:
    different cells have different keys). *)
Theorem C07_hilbert2_nested_cells d c1 c2 : d <= max_depth 2 ->
  lt2 (2 ^ max_depth 2) c1 -> lt2 (2 ^ max_depth 2) c2 ->
  (hilbert2_key_depth d c1 = hilbert2_key_depth d c2
   <-> coarse2 (max_depth 2) d c1 = coarse2 (max_depth 2) d c2).
Proof.
  change (max_depth 2) with 31. intros Hd H1 H2. rewrite !key2_h2 by assumption.
  split; [|intros ->; reflexivity].
  intros E. assert (E' : h2 (N.to_nat d) (coarse2 31 d c1) = h2 (N.to_nat d) (coarse2 31 d c2)) by lia.
  pose proof (coarse2_lt d c1 Hd H1) as [A1 B1]. pose proof (coarse2_lt d c2 Hd H2) as [A2 B2].
  destruct (coarse2 31 d c1) as [x1 y1], (coarse2 31 d c2) as [x2 y2]. cbn [fst snd] in *.
  rewrite <- (d2_h2 (N.to_nat d) x1 y1), <- (d2_h2 (N.to_nat d) x2 y2) by (rewrite N2Nat.id; assumption).
  rewrite E'. reflexivity.
Qed.

Theorem C07_hilbert2_injective c1 c2 :
  lt2 (2 ^ max_depth 2) c1 -> lt2 (2 ^ max_depth 2) c2 -> c1 <> c2 ->
  hilbert2_key c1 <> hilbert2_key c2.
Proof.
  intros H1 H2 Hne E. unfold hilbert2_key in E.
  destruct (C07_hilbert2_nested_cells (max_depth 2) c1 c2 (N.le_refl _) H1 H2) as [I _].
  specialize (I E). clear E. rename I into E.
  apply Hne. unfold coarse2 in E. rewrite N.sub_diag, !N.pow_0_r, !N.div_1_r in E.
  destruct c1, c2. assumption.
Qed.

(** C05.  Every depth-d key between 4^d and 2*4^d - 1 is the key of a cell. *)
Theorem C05_hilbert2_onto d k : d <= max_depth 2 -> 4 ^ d <= k < 2 * 4 ^ d ->
  exists c, lt2 (2 ^ max_depth 2) c /\ hilbert2_key_depth d c = k.
Proof.
  change (max_depth 2) with 31. intros Hd Hk.
  pose proof (d2_lt (N.to_nat d) (k - 4 ^ d)) as [A B]. rewrite N2Nat.id in A, B.
  pose proof (h2_d2 (N.to_nat d) (k - 4 ^ d)) as E. rewrite N2Nat.id in E. specialize (E ltac:(lia)).
  destruct (d2 (N.to_nat d) (k - 4 ^ d)) as [x y]. cbn [fst snd] in *.
  set (e := 2 ^ (31 - d)).
  assert (He : 2 ^ 31 = 2 ^ d * e) by (unfold e; rewrite <- N.pow_add_r; f_equal; lia).
  assert (Pe : 0 < e) by apply pow2_pos.
  exists (x * e, y * e).
  assert (L : lt2 (2 ^ 31) (x * e, y * e)) by (unfold lt2; cbn [fst snd]; rewrite He; nia).
  split; [exact L|]. rewrite key2_h2 by assumption.
  unfold coarse2. cbn [fst snd]. fold e. rewrite !N.div_mul by lia. rewrite E. lia.
Qed.

(** C05.  Depth-d keys lie in that interval (with the previous theorems: the
    keys are in bijection with the cells of the depth-d grid). *)
Theorem C05_hilbert2_range d c : d <= max_depth 2 -> lt2 (2 ^ max_depth 2) c ->
  4 ^ d <= hilbert2_key_depth d c < 2 * 4 ^ d.
Proof.
  change (max_depth 2) with 31. intros Hd Hc. rewrite key2_h2 by assumption.
  pose proof (h2_lt (N.to_nat d) (coarse2 31 d c)) as H. rewrite N2Nat.id in H. lia.
Qed.

(** C05.  Cells of the depth-d grid with consecutive keys share an edge. *)
Theorem C05_hilbert2_adjacent d c1 c2 : d <= max_depth 2 ->
  lt2 (2 ^ max_depth 2) c1 -> lt2 (2 ^ max_depth 2) c2 ->
  hilbert2_key_depth d c2 = hilbert2_key_depth d c1 + 1 ->
  share_edge (coarse2 (max_depth 2) d c1) (coarse2 (max_depth 2) d c2).
Proof.
  change (max_depth 2) with 31. intros Hd H1 H2. rewrite !key2_h2 by assumption. intros E.
  pose proof (coarse2_lt d c1 Hd H1) as [A1 B1]. pose proof (coarse2_lt d c2 Hd H2) as [A2 B2].
  set (q1 := coarse2 31 d c1) in *. set (q2 := coarse2 31 d c2) in *.
  pose proof (d2_adj (N.to_nat d) (h2 (N.to_nat d) q1)) as J. rewrite N2Nat.id in J.
  pose proof (h2_lt (N.to_nat d) q2) as L2. rewrite N2Nat.id in L2.
  specialize (J ltac:(lia)).
  replace (h2 (N.to_nat d) q1 + 1) with (h2 (N.to_nat d) q2) in J by lia.
  destruct q1 as [x1 y1], q2 as [x2 y2]. cbn [fst snd] in *.
  rewrite !d2_h2 in J by (rewrite N2Nat.id; assumption).
  exact J.
Qed.

(** C04, Hilbert part: the key built at depth d is the depth-d ancestor of the
    full key, and has depth d. *)
Theorem C04_hilbert_depth_partial :
  (forall d c, d <= max_depth 1 -> c < 2 ^ max_depth 1 ->
     key_popn 1 (max_depth 1 - d) (hilbert1_key c) = Some (hilbert1_key_depth d c)) /\
  (forall d c, d <= max_depth 2 -> lt2 (2 ^ max_depth 2) c ->
     key_popn 2 (max_depth 2 - d) (hilbert2_key c) = Some (hilbert2_key_depth d c)) /\
  (forall d c, d <= max_depth 3 -> lt3 (2 ^ max_depth 3) c ->
     key_popn 3 (max_depth 3 - d) (hilbert3_key c) = Some (hilbert3_key_depth d c)).
Proof.
  unfold key_popn. change (max_depth 1) with 63. change (max_depth 2) with 31. change (max_depth 3) with 21.
  change bits_ with 64.
  split; [|split]; intros d c Hd _.
  - replace ((63 - d) * 1 <? 64) with true by lia. apply (f_equal Some).
    unfold hilbert1_key, hilbert1_key_depth. change (max_depth 1) with 63.
    rewrite N.sub_diag, N.shiftr_0_r. f_equal. lia.
  - replace ((31 - d) * 2 <? 64) with true by lia. apply (f_equal Some).
    unfold hilbert2_key, hilbert2_key_depth. change (max_depth 2) with 31.
    rewrite N.sub_diag, N.mul_0_l, N.shiftr_0_r. reflexivity.
  - replace ((21 - d) * 3 <? 64) with true by lia. apply (f_equal Some).
    unfold hilbert3_key, hilbert3_key_depth. change (max_depth 3) with 21.
    rewrite N.sub_diag, N.mul_0_l, N.shiftr_0_r. reflexivity.
Qed.

(** C07, dimension 3. *)
Theorem C07_hilbert3_nested_cells d c1 c2 : d <= max_depth 3 ->
  lt3 (2 ^ max_depth 3) c1 -> lt3 (2 ^ max_depth 3) c2 ->
  (hilbert3_key_depth d c1 = hilbert3_key_depth d c2
   <-> coarse3 (max_depth 3) d c1 = coarse3 (max_depth 3) d c2).
Proof.
  change (max_depth 3) with 21. intros Hd H1 H2. rewrite !key3_h3 by assumption.
  split; [|intros ->; reflexivity].
  intros E. assert (E' : h3 (N.to_nat d) (coarse3 21 d c1) = h3 (N.to_nat d) (coarse3 21 d c2)) by lia.
  pose proof (coarse3_lt d c1 Hd H1) as A1. pose proof (coarse3_lt d c2 Hd H2) as A2.
  rewrite <- (d3_h3 (N.to_nat d) (coarse3 21 d c1)), <- (d3_h3 (N.to_nat d) (coarse3 21 d c2)).
  - rewrite E'. reflexivity.
  - destruct (coarse3 21 d c2) as [[x y] z]. rewrite N2Nat.id. exact A2.
  - destruct (coarse3 21 d c1) as [[x y] z]. rewrite N2Nat.id. exact A1.
Qed.

Theorem C07_hilbert3_injective c1 c2 :
  lt3 (2 ^ max_depth 3) c1 -> lt3 (2 ^ max_depth 3) c2 -> c1 <> c2 ->
  hilbert3_key c1 <> hilbert3_key c2.
Proof.
  intros H1 H2 Hne E. unfold hilbert3_key in E.
  destruct (C07_hilbert3_nested_cells (max_depth 3) c1 c2 (N.le_refl _) H1 H2) as [I _].
  specialize (I E). clear E. rename I into E.
  apply Hne. unfold coarse3 in E. rewrite N.sub_diag, !N.pow_0_r, !N.div_1_r in E.
  destruct c1 as [[]], c2 as [[]]. assumption.
Qed.

Theorem C07_hilbert3_onto k : 8 ^ max_depth 3 <= k < 2 * 8 ^ max_depth 3 ->
  exists c, lt3 (2 ^ max_depth 3) c /\ hilbert3_key c = k.
Proof.
  intros Hk. change (max_depth 3) with 21 in *.
  pose proof (d3_lt 21 (k - 8 ^ 21)) as A. pose proof (h3_d3 21 (k - 8 ^ 21)) as E.
  change (N.of_nat 21) with 21 in *. specialize (E ltac:(lia)).
  exists (d3 21 (k - 8 ^ 21)).
  assert (L : lt3 (2 ^ 21) (d3 21 (k - 8 ^ 21))).
  { destruct (d3 21 (k - 8 ^ 21)) as [[x y] z]. exact A. }
  split; [exact L|]. unfold hilbert3_key. change (max_depth 3) with 21. rewrite key3_h3 by (auto; lia).
  replace (coarse3 21 21 (d3 21 (k - 8 ^ 21))) with (d3 21 (k - 8 ^ 21)).
  2:{ unfold coarse3. rewrite N.sub_diag, N.pow_0_r, !N.div_1_r.
      destruct (d3 21 (k - 8 ^ 21)) as [[x y] z]. reflexivity. }
  change (N.to_nat 21) with 21%nat. rewrite E. lia.
Qed.

(** C07, dimension 1: refuted.  The lowest bit of the cell is dropped, so two
    different cells get the same key. *)
Theorem C07_hilbert1_refuted : exists c1 c2,
  c1 < 2 ^ max_depth 1 /\ c2 < 2 ^ max_depth 1 /\ c1 <> c2 /\ hilbert1_key c1 = hilbert1_key c2.
Proof. exists 4, 5. repeat split; [vm_compute; reflexivity.. | discriminate]. Qed.

(** What dimension 1 does guarantee: cells whose numbers differ after dropping
    the lowest bit get different keys, in increasing order. *)
Theorem C07_hilbert1_partial c1 c2 :
  c1 < 2 ^ max_depth 1 -> c2 < 2 ^ max_depth 1 -> c1 / 2 < c2 / 2 ->
  hilbert1_key c1 < hilbert1_key c2.
Proof.
  change (max_depth 1) with 63. intros H1 H2 H.
  unfold hilbert1_key, hilbert1_key_depth. change (max_depth 1) with 63.
  rewrite N.sub_diag, !N.shiftr_0_r, !shiftr_div. change (2 ^ 1) with 2.
  change (key_min 1) with (1 * 2 ^ 63).
  rewrite !lor_add; [lia| |]; apply N.div_lt_upper_bound; lia.
Qed.

(** C06, dimension 2: coordinates() of a full-depth key gives the cell with
    that key, and the returned point is converted back to that cell. *)
Theorem C06_hilbert2_round_trip_partial k mn0 mx0 mn1 mx1 :
  key_min 2 <= k <= key_max 2 -> (mn0 < mx0)%Q -> (mn1 < mx1)%Q ->
  exists c, hilbert2_cell k = Some c /\
    cell_of 2 mn0 mx0 (hilbert_point 2 mn0 mx0 (fst c)) = Some (fst c) /\
    cell_of 2 mn1 mx1 (hilbert_point 2 mn1 mx1 (snd c)) = Some (snd c) /\
    hilbert2_key c = k.
Proof.
  change (key_min 2) with (4 ^ 31). change (key_max 2) with (2 * 4 ^ 31 - 1).
  intros Hk H0 H1. unfold hilbert2_cell. change (N.to_nat (max_depth 2)) with 31%nat.
  pose proof (decode2_spec 31 0 k ltac:(lia)) as D.
  change (2 ^ N.of_nat 0) with 1 in D. change (4 ^ N.of_nat 0) with 1 in D.
  Local Transparent d2. change (d2 0 k) with (0, 0) in D. Local Opaque d2. change (0 + 31)%nat with 31%nat in D.
  rewrite N.div_1_r in D. rewrite D.
  change (N.of_nat 31) with 31.
  assert (K1 : k / 4 ^ 31 = 1) by (symmetry; apply N.div_unique with (k - 4 ^ 31); lia).
  assert (K2 : k mod 4 ^ 31 = k - 4 ^ 31) by (symmetry; apply N.mod_unique with 1; lia).
  rewrite K1. change (1 =? 1) with true.
  exists (d2 31 k). split; [reflexivity|].
  pose proof (d2_lt 31 k) as [A B]. change (N.of_nat 31) with 31 in *.
  pose proof (cell_of_hilbert_point 2 mn0 mx0 (fst (d2 31 k)) (or_intror (or_introl eq_refl)) H0 A) as P0.
  pose proof (cell_of_hilbert_point 2 mn1 mx1 (snd (d2 31 k)) (or_intror (or_introl eq_refl)) H1 B) as P1.
  split; [exact P0|]. split; [exact P1|].
  unfold hilbert2_key. change (max_depth 2) with 31. rewrite key2_h2 by (try split; auto; lia).
  unfold coarse2. rewrite N.sub_diag, N.pow_0_r, !N.div_1_r.
  rewrite <- surjective_pairing. change (N.to_nat 31) with 31%nat.
  rewrite <- d2_mod. change (N.of_nat 31) with 31. rewrite K2.
  pose proof (h2_d2 31 (k - 4 ^ 31)) as E. change (N.of_nat 31) with 31 in E. rewrite E by lia. lia.
Qed.

Local Transparent hilbert_loop2 hilbert_loop3 h2 h3 d2 d3.

(** C06, dimension 3: refuted.  coordinates() returns the cell of another key. *)
Theorem C06_hilbert3_refuted : exists k c,
  key_min 3 <= k <= key_max 3 /\ hilbert3_cell k = Some c /\ lt3 (2 ^ max_depth 3) c /\
  hilbert3_key c <> k.
Proof.
  exists (key_min 3 + 8).
  destruct (hilbert3_cell (key_min 3 + 8)) as [c|] eqn:E; [|vm_compute in E; discriminate].
  exists c. vm_compute in E. injection E as <-.
  split; [vm_compute; split; discriminate|]. split; [reflexivity|].
  split; [vm_compute; repeat split; reflexivity|]. vm_compute. discriminate.
Qed.

(** C62: refuted.  In dimension 3 two cells with consecutive keys need not
    share a face. *)
Theorem C62_hilbert3_adjacent_refuted : exists c1 c2,
  lt3 (2 ^ max_depth 3) c1 /\ lt3 (2 ^ max_depth 3) c2 /\
  hilbert3_key c2 = hilbert3_key c1 + 1 /\ ~ share_face c1 c2.
Proof.
  exists (d3 21 7), (d3 21 8).
  split; [vm_compute; repeat split; reflexivity|].
  split; [vm_compute; repeat split; reflexivity|].
  split; [vm_compute; reflexivity|]. vm_compute. discriminate.
Qed.

(** Concrete cases. *)
Example C05_case : hilbert2_key (5, 1000000) = 4 ^ 31 + 1095485362195
  /\ hilbert2_cell (4 ^ 31 + 1095485362195) = Some (5, 1000000)
  /\ hilbert2_key_depth 2 (2 ^ 30, 2 ^ 29) = 29.
Proof. vm_compute. repeat split; reflexivity. Qed.
Example C07_case : hilbert3_key (1, 2, 3) = 8 ^ 21 + 32 /\ hilbert3_key (3, 2, 1) <> hilbert3_key (1, 2, 3).
Proof. vm_compute. split; [reflexivity|discriminate]. Qed.
(** the cells that coordinates() returns for the first keys of dimension 3 and the keys of these cells *)
Example C06_hilbert3_case : map (fun i => hilbert3_cell (key_min 3 + i)) [0; 1; 2; 3; 5; 8] = [Some (0, 0, 0); Some (1, 0, 0); Some (1, 0, 1); Some (0, 0, 1); Some (1, 1, 1); Some (0, 2, 0)] /\ map (fun i => option_map hilbert3_key (hilbert3_cell (key_min 3 + i))) [0; 1; 2; 3; 5; 8] = map (fun d => Some (key_min 3 + d)) [0; 3; 4; 7; 5; 62].
Proof. vm_compute. split; reflexivity. Qed.

Print Assumptions C04_hilbert_depth_partial.
Print Assumptions C05_hilbert2_onto.
Print Assumptions C05_hilbert2_range.
Print Assumptions C05_hilbert2_adjacent.
Print Assumptions C06_hilbert2_round_trip_partial.
Print Assumptions C06_hilbert3_refuted.
Print Assumptions C07_hilbert2_nested_cells.
Print Assumptions C07_hilbert2_injective.
Print Assumptions C07_hilbert3_nested_cells.
Print Assumptions C07_hilbert3_injective.
Print Assumptions C07_hilbert3_onto.
Print Assumptions C07_hilbert1_refuted.
Print Assumptions C07_hilbert1_partial.
Print Assumptions C62_hilbert3_adjacent_refuted.
