(** Proofs about tree keys. *)
From Verif Require Import Base Key_model Key_spec.
Local Open Scope N_scope.

Lemma pow2_pos n : 0 < 2 ^ n.
Proof. apply N.neq_0_lt_0, N.pow_nonzero; lia. Qed.

Lemma shiftr_div a n : N.shiftr a n = a / 2 ^ n.
Proof. apply N.shiftr_div_pow2. Qed.

Lemma lor_add a c n : c < 2 ^ n -> N.lor (a * 2 ^ n) c = a * 2 ^ n + c.
Proof.
  intros Hc.
  assert (Hland : N.land (a * 2 ^ n) c = 0).
  { apply N.bits_inj; intros m. rewrite N.land_spec, N.bits_0.
    destruct (N.lt_ge_cases m n) as [Hm|Hm].
    - rewrite N.mul_pow2_bits_low by assumption. reflexivity.
    - rewrite andb_comm.
      replace (N.testbit c m) with false; [reflexivity|].
      symmetry. destruct (N.eq_dec c 0) as [->|Hc0]; [apply N.bits_0|].
      apply N.bits_above_log2.
      apply N.lt_le_trans with n; [|assumption].
      apply N.log2_lt_pow2; lia. }
  rewrite N.add_nocarry_lxor by assumption.
  symmetry. apply N.lxor_lor; assumption.
Qed.

Lemma land_mask k n : N.land k (N.shiftl 1 n - 1) = k mod 2 ^ n.
Proof.
  replace (N.shiftl 1 n - 1) with (N.ones n).
  - apply N.land_ones.
  - rewrite N.ones_equiv, N.shiftl_1_l. lia.
Qed.

(** ** key_of_path *)

Lemma kop_fold dim ds a :
  fold_left (fun k d => k * 2 ^ dim + d) ds a
  = a * 2 ^ (dim * N.of_nat (length ds)) + (key_of_path dim ds - 2 ^ (dim * N.of_nat (length ds)))
  /\ 2 ^ (dim * N.of_nat (length ds)) <= key_of_path dim ds.
Proof.
  unfold key_of_path. revert a.
  induction ds as [|d ds IH]; intros a; cbn [fold_left length].
  - rewrite N.mul_0_r, N.pow_0_r. lia.
  - destruct (IH (a * 2 ^ dim + d)) as [-> _].
    destruct (IH (1 * 2 ^ dim + d)) as [-> Hle].
    replace (dim * N.of_nat (S (length ds))) with (dim + dim * N.of_nat (length ds)) by lia.
    rewrite N.pow_add_r.
    set (P := 2 ^ (dim * N.of_nat (length ds))) in *.
    set (Q := 2 ^ dim). nia.
Qed.

Lemma kop_ge dim ds : 2 ^ (dim * N.of_nat (length ds)) <= key_of_path dim ds.
Proof. apply (kop_fold dim ds 1). Qed.

Lemma kop_snoc dim ds d :
  key_of_path dim (ds ++ [d]) = key_of_path dim ds * 2 ^ dim + d.
Proof. unfold key_of_path. rewrite fold_left_app. reflexivity. Qed.

Lemma kop_lt dim ds : Forall (fun d => d < 2 ^ dim) ds ->
  key_of_path dim ds < 2 * 2 ^ (dim * N.of_nat (length ds)).
Proof.
  induction ds as [|d ds IH] using rev_ind; intros H.
  - cbn. lia.
  - apply Forall_app in H. destruct H as [H1 H2].
    inversion_clear H2 as [|? ? Hd _].
    rewrite kop_snoc, app_length. cbn [length].
    specialize (IH H1).
    replace (dim * N.of_nat (length ds + 1)) with (dim * N.of_nat (length ds) + dim) by lia.
    rewrite N.pow_add_r.
    pose proof (pow2_pos dim) as Hq.
    set (P := 2 ^ (dim * N.of_nat (length ds))) in *. set (Q := 2 ^ dim) in *. nia.
Qed.

Lemma kop_cons dim d ds :
  key_of_path dim (d :: ds)
  = (2 ^ dim + d) * 2 ^ (dim * N.of_nat (length ds))
    + (key_of_path dim ds - 2 ^ (dim * N.of_nat (length ds))).
Proof.
  unfold key_of_path at 1. cbn [fold_left].
  destruct (kop_fold dim ds (1 * 2 ^ dim + d)) as [-> _]. f_equal. f_equal. lia.
Qed.

(** the log2 of a key of path: dim * length *)
Lemma kop_log2 dim ds : Forall (fun d => d < 2 ^ dim) ds ->
  N.log2 (key_of_path dim ds) = dim * N.of_nat (length ds).
Proof.
  intros H. apply N.log2_unique; [lia|].
  split; [apply kop_ge|].
  rewrite N.pow_succ_r by lia. apply kop_lt; assumption.
Qed.

Lemma kop_lt_64 dim ds : dim_ok dim -> path_ok dim ds -> key_of_path dim ds < w64.
Proof.
  intros Hd [H1 H2].
  pose proof (kop_lt dim ds H1) as Hlt.
  assert (Hle : 2 ^ (dim * N.of_nat (length ds)) <= 2 ^ 63)
    by (apply N.pow_le_mono_r; lia).
  unfold w64. change (2 ^ 64) with (2 * 2 ^ 63). lia.
Qed.

Lemma kop_length_inj dim xs ys : 0 < dim ->
  Forall (fun d => d < 2 ^ dim) xs -> Forall (fun d => d < 2 ^ dim) ys ->
  key_of_path dim xs = key_of_path dim ys -> length xs = length ys.
Proof.
  intros Hd Hx Hy E.
  pose proof (kop_log2 dim xs Hx) as Lx. pose proof (kop_log2 dim ys Hy) as Ly.
  rewrite E in Lx. nia.
Qed.

Lemma kop_inj dim xs ys : 0 < dim ->
  Forall (fun d => d < 2 ^ dim) xs -> Forall (fun d => d < 2 ^ dim) ys ->
  key_of_path dim xs = key_of_path dim ys -> xs = ys.
Proof.
  intros Hd. revert ys.
  induction xs as [|x xs IH] using rev_ind; intros ys Hx Hy E.
  - pose proof (kop_length_inj dim [] ys Hd Hx Hy E) as L.
    destruct ys; [reflexivity|discriminate].
  - pose proof (kop_length_inj dim _ _ Hd Hx Hy E) as L.
    destruct ys as [|y ys _] using rev_ind.
    { rewrite app_length in L. cbn in L. lia. }
    rewrite !kop_snoc in E.
    apply Forall_app in Hx, Hy. destruct Hx as [Hx1 Hx2], Hy as [Hy1 Hy2].
    inversion_clear Hx2 as [|? ? Hxd _]. inversion_clear Hy2 as [|? ? Hyd _].
    pose proof (pow2_pos dim) as Hq.
    assert (E1 : key_of_path dim xs = key_of_path dim ys).
    { rewrite (N.mul_comm (key_of_path dim xs)), (N.mul_comm (key_of_path dim ys)) in E.
      apply (N.div_mod_unique (2 ^ dim)) in E; tauto. }
    assert (E2 : x = y).
    { rewrite E1 in E. lia. }
    rewrite (IH ys Hx1 Hy1 E1), E2. reflexivity.
Qed.

(** Existence of a path: every key whose leading bit is at a digit boundary. *)
Lemma kop_surj dim (n : nat) k : 0 < dim ->
  2 ^ (dim * N.of_nat n) <= k < 2 * 2 ^ (dim * N.of_nat n) ->
  exists ds, length ds = n /\ Forall (fun d => d < 2 ^ dim) ds /\ key_of_path dim ds = k.
Proof.
  intros Hd. revert k. induction n as [|n IH]; intros k Hk.
  - exists []. rewrite N.mul_0_r, N.pow_0_r in Hk. cbn. repeat split; auto.
    unfold key_of_path; cbn. lia.
  - replace (dim * N.of_nat (S n)) with (dim * N.of_nat n + dim) in Hk by lia.
    rewrite N.pow_add_r in Hk.
    pose proof (pow2_pos dim) as Hq.
    set (P := 2 ^ (dim * N.of_nat n)) in *. set (Q := 2 ^ dim) in *.
    pose proof (N.div_mod k Q ltac:(lia)) as Edm.
    pose proof (N.mod_lt k Q ltac:(lia)) as Hm.
    destruct (IH (k / Q)) as (ds & L & F & E).
    { split; [apply N.div_le_lower_bound; lia|apply N.div_lt_upper_bound; lia]. }
    exists (ds ++ [k mod Q]). rewrite app_length, L. split; [cbn; lia|]. split.
    + apply Forall_app; split; [assumption|]. constructor; auto.
    + rewrite kop_snoc, E. fold Q. lia.
Qed.

(** dropping digits *)
Lemma kop_div dim ds1 ds2 : Forall (fun d => d < 2 ^ dim) ds2 ->
  key_of_path dim (ds1 ++ ds2) / 2 ^ (N.of_nat (length ds2) * dim) = key_of_path dim ds1.
Proof.
  intros H.
  unfold key_of_path at 1. rewrite fold_left_app.
  fold (key_of_path dim ds1).
  destruct (kop_fold dim ds2 (key_of_path dim ds1)) as [-> Hge].
  pose proof (kop_lt dim ds2 H) as Hlt.
  rewrite (N.mul_comm (N.of_nat (length ds2)) dim).
  pose proof (pow2_pos (dim * N.of_nat (length ds2))) as Hp.
  set (P := 2 ^ (dim * N.of_nat (length ds2))) in *.
  rewrite N.div_add_l by lia.
  rewrite N.div_small by lia. lia.
Qed.

(** order *)
Lemma kop_lt_lex dim xs ys : 0 < dim -> length xs = length ys ->
  Forall (fun d => d < 2 ^ dim) xs -> Forall (fun d => d < 2 ^ dim) ys ->
  (key_of_path dim xs < key_of_path dim ys <-> lex_lt xs ys).
Proof.
  intros Hd. revert ys. induction xs as [|x xs IH]; intros [|y ys] L Hx Hy; try discriminate.
  - cbn. lia.
  - injection L as L.
    pose proof (Forall_inv Hx) as Hx0. pose proof (Forall_inv_tail Hx) as Hx1.
    pose proof (Forall_inv Hy) as Hy0. pose proof (Forall_inv_tail Hy) as Hy1.
    specialize (IH ys L Hx1 Hy1).
    rewrite !kop_cons, <- L.
    pose proof (kop_lt dim xs Hx1) as X1. pose proof (kop_ge dim xs) as X2.
    pose proof (kop_lt dim ys Hy1) as Y1. pose proof (kop_ge dim ys) as Y2.
    rewrite <- L in Y1, Y2.
    cbn [lex_lt]. cbn beta in Hx0, Hy0. rewrite <- IH.
    clear IH Hx Hy Hx1 Hy1.
    set (P := 2 ^ (dim * N.of_nat (length xs))) in *. set (Q := 2 ^ dim) in *.
    set (a := key_of_path dim xs) in *. set (b := key_of_path dim ys) in *.
    destruct (N.lt_trichotomy x y) as [H|[H|H]].
    + split; [intros _; left; exact H|intros _]. nia.
    + subst y. split; intros; [right; split; lia|]. lia.
    + split; [intros|]; nia.
Qed.

(** ** the code's functions on keys of paths *)

Lemma depth_loop_kop dim ds fuel d : 0 < dim ->
  Forall (fun d => d < 2 ^ dim) ds -> (length ds < fuel)%nat ->
  depth_loop fuel dim (key_of_path dim ds) d = Some (d + N.of_nat (length ds)).
Proof.
  intros Hd. revert fuel d.
  induction ds as [|c ds IH] using rev_ind; intros fuel d H Hf.
  - destruct fuel as [|f]; [cbn in Hf; lia|]. cbn [depth_loop].
    unfold key_of_path; cbn [fold_left]. rewrite shiftr_div.
    rewrite N.div_small.
    2:{ apply N.pow_gt_1; lia. }
    cbn. f_equal. lia.
  - destruct fuel as [|f]; [lia|]. cbn [depth_loop].
    apply Forall_app in H. destruct H as [H1 H2].
    assert (E : N.shiftr (key_of_path dim (ds ++ [c])) dim = key_of_path dim ds).
    { rewrite shiftr_div.
      pose proof (kop_div dim ds [c] H2) as K. cbn [length] in K.
      change (N.of_nat 1) with 1 in K. rewrite N.mul_1_l in K. exact K. }
    rewrite E.
    pose proof (kop_ge dim ds) as G. pose proof (pow2_pos (dim * N.of_nat (length ds))) as P.
    replace (key_of_path dim ds =? 0) with false by lia.
    rewrite app_length in *. cbn [length] in *.
    rewrite IH by (auto; lia). f_equal. lia.
Qed.

Lemma path_len_63 dim ds : dim_ok dim -> path_ok dim ds -> (length ds <= 63)%nat.
Proof. intros Hd [_ H]. unfold dim_ok in Hd. nia. Qed.

Lemma key_depth_kop dim ds : dim_ok dim -> path_ok dim ds ->
  key_depth dim (key_of_path dim ds) = Some (N.of_nat (length ds)).
Proof.
  intros Hd Hp. pose proof (path_len_63 dim ds Hd Hp) as L. destruct Hp as [H1 H2].
  unfold key_depth. rewrite depth_loop_kop; [f_equal; lia| | |lia]; auto.
  unfold dim_ok in Hd; lia.
Qed.

Lemma key_push_kop dim ds c : dim_ok dim -> path_ok dim (ds ++ [c]) ->
  key_push dim (key_of_path dim ds) c = Some (key_of_path dim (ds ++ [c])).
Proof.
  intros Hd Hp. pose proof (kop_lt_64 dim _ Hd Hp) as Hlt.
  destruct Hp as [H1 _]. apply Forall_app in H1. destruct H1 as [H1 H2].
  inversion_clear H2 as [|? ? Hc _].
  unfold key_push. rewrite N.shiftl_1_l.
  replace (c <? 2 ^ dim) with true by lia.
  rewrite kop_snoc in *. unfold wrap64.
  rewrite N.shiftl_mul_pow2, N.mod_small by lia.
  rewrite lor_add by assumption. reflexivity.
Qed.

Lemma key_shiftr_kop dim ds1 ds2 : Forall (fun d => d < 2 ^ dim) ds2 ->
  N.shiftr (key_of_path dim (ds1 ++ ds2)) (N.of_nat (length ds2) * dim) = key_of_path dim ds1.
Proof. intros H. rewrite shiftr_div. apply kop_div; assumption. Qed.

Lemma path_ok_app dim xs ys : path_ok dim (xs ++ ys) -> path_ok dim xs /\ Forall (fun d => d < 2 ^ dim) ys.
Proof.
  intros [H1 H2]. apply Forall_app in H1. destruct H1 as [Ha Hb].
  rewrite app_length in H2. repeat split; auto. nia.
Qed.

Lemma key_shiftr1_kop dim ds c : c < 2 ^ dim ->
  N.shiftr (key_of_path dim (ds ++ [c])) dim = key_of_path dim ds.
Proof.
  intros H. pose proof (key_shiftr_kop dim ds [c]) as K. cbn [length] in K.
  change (N.of_nat 1) with 1 in K. rewrite N.mul_1_l in K. apply K. constructor; auto.
Qed.

Lemma key_last_kop dim ds c : c < 2 ^ dim ->
  key_last_value dim (key_of_path dim (ds ++ [c])) = c.
Proof.
  intros H. unfold key_last_value. rewrite land_mask, kop_snoc.
  rewrite N.add_comm, N.mod_add by (pose proof (pow2_pos dim); lia).
  apply N.mod_small; assumption.
Qed.

Lemma key_pop1_kop dim ds c : dim_ok dim -> path_ok dim (ds ++ [c]) ->
  key_pop1 dim (key_of_path dim (ds ++ [c])) = Some (key_of_path dim ds).
Proof.
  intros Hd Hp. unfold key_pop1. rewrite key_depth_kop by assumption.
  rewrite app_length. cbn [length].
  replace (0 <? N.of_nat (length ds + 1)) with true by lia.
  apply path_ok_app in Hp. destruct Hp as [_ H]. inversion_clear H as [|? ? Hc _].
  rewrite key_shiftr1_kop by assumption. reflexivity.
Qed.

Lemma key_pop_value_kop dim ds c : dim_ok dim -> path_ok dim (ds ++ [c]) ->
  key_pop_value dim (key_of_path dim (ds ++ [c])) = Some (c, key_of_path dim ds).
Proof.
  intros Hd Hp. unfold key_pop_value. rewrite key_depth_kop by assumption.
  rewrite app_length. cbn [length].
  replace (0 <? N.of_nat (length ds + 1)) with true by lia.
  apply path_ok_app in Hp. destruct Hp as [_ H]. inversion_clear H as [|? ? Hc _].
  rewrite key_shiftr1_kop by assumption.
  pose proof (key_last_kop dim ds c Hc) as K. unfold key_last_value in K. rewrite K. reflexivity.
Qed.

Lemma key_popn_kop dim ds1 ds2 : dim_ok dim -> path_ok dim (ds1 ++ ds2) ->
  key_popn dim (N.of_nat (length ds2)) (key_of_path dim (ds1 ++ ds2)) = Some (key_of_path dim ds1).
Proof.
  intros Hd Hp. unfold key_popn, bits_.
  assert (H64 : N.of_nat (length ds2) * dim < 64).
  { destruct Hp as [_ H]. rewrite app_length in H. nia. }
  replace (N.of_nat (length ds2) * dim <? 64) with true by lia.
  apply path_ok_app in Hp. destruct Hp as [_ H].
  rewrite key_shiftr_kop by assumption. reflexivity.
Qed.

Lemma key_truncate_kop dim ds n : dim_ok dim -> path_ok dim ds ->
  key_truncate dim (N.of_nat n) (key_of_path dim ds) = Some (key_of_path dim (firstn n ds)).
Proof.
  intros Hd Hp. unfold key_truncate. rewrite key_depth_kop by assumption.
  destruct (N.of_nat (length ds) <? N.of_nat n) eqn:E.
  - rewrite firstn_all2 by lia. reflexivity.
  - f_equal. rewrite <- (firstn_skipn n ds) at 1.
    replace (N.of_nat (length ds) - N.of_nat n) with (N.of_nat (length (skipn n ds)))
      by (rewrite skipn_length; lia).
    apply key_shiftr_kop.
    destruct Hp as [H _]. rewrite <- (firstn_skipn n ds) in H.
    apply Forall_app in H. tauto.
Qed.

Lemma key_root_kop dim : key_root = key_of_path dim [].
Proof. reflexivity. Qed.

Lemma key_min_kop dim : dim_ok dim ->
  key_min dim = key_of_path dim (repeat 0 (N.to_nat (max_depth dim))).
Proof. intros [->|[->| ->]]; vm_compute; reflexivity. Qed.

Lemma key_max_kop dim : dim_ok dim ->
  key_max dim = key_of_path dim (repeat (2 ^ dim - 1) (N.to_nat (max_depth dim))).
Proof. intros [->|[->| ->]]; vm_compute; reflexivity. Qed.

(** min and max bound every full-depth key *)
Lemma lex_lt_zeros n ds : length ds = n -> ~ lex_lt ds (repeat 0 n).
Proof.
  revert ds; induction n as [|n IH]; intros [|d ds] L; try discriminate; cbn; [tauto|].
  injection L as L. intros [H|[_ H]]; [lia|]. exact (IH ds L H).
Qed.
Lemma lex_lt_tops n m ds : length ds = n -> Forall (fun d => d <= m) ds -> ~ lex_lt (repeat m n) ds.
Proof.
  revert ds; induction n as [|n IH]; intros [|d ds] L F; try discriminate; cbn; [tauto|].
  injection L as L. inversion_clear F as [|? ? F1 F2]. intros [H|[_ H]]; [lia|]. exact (IH ds L F2 H).
Qed.

Lemma full_key_bounds dim ds : dim_ok dim -> Forall (fun d => d < 2 ^ dim) ds ->
  length ds = N.to_nat (max_depth dim) ->
  key_min dim <= key_of_path dim ds <= key_max dim.
Proof.
  intros Hd F L. rewrite key_min_kop, key_max_kop by assumption.
  assert (Hd0 : 0 < dim) by (unfold dim_ok in Hd; lia).
  pose proof (pow2_pos dim) as P.
  split; apply N.nlt_ge; intros H; apply kop_lt_lex in H;
    rewrite ?repeat_length; auto; try (apply Forall_forall; intros x Hx; apply repeat_spec in Hx; lia).
  - apply lex_lt_zeros in H; auto.
  - apply lex_lt_tops in H; auto. apply Forall_impl with (2 := F). intros; lia.
Qed.
