(** C22: redistribution by sampled splitters. *)
From Coq Require Import Permutation Sorted.
From Verif Require Import Base BuildTree_model Exchange_model Exchange_props PSort_model PSort_proofs PSort_props QSort_model Key_model.

Lemma all_some_ok {B C} (f : B -> option C) (g : B -> C) l : (forall x, In x l -> f x = Some (g x)) -> all_some (map f l) = Some (map g l).
Proof. induction l as [|x l IH]; intros H; [reflexivity|]. cbn. rewrite H by (left; reflexivity). rewrite IH by (intros; apply H; right; assumption). reflexivity. Qed.
Lemma all_some_ex {B C} (f : B -> option C) l : (forall x, In x l -> exists y, f x = Some y) -> exists ys, all_some (map f l) = Some ys /\ length ys = length l /\
  (forall k x, nth_error l k = Some x -> exists y, nth_error ys k = Some y /\ f x = Some y).
Proof.
  induction l as [|x l IH]; intros H; [exists []; repeat split; intros [|k] ?; discriminate|].
  destruct (H x (or_introl eq_refl)) as [y Ey]. destruct (IH (fun z Hz => H z (or_intror Hz))) as (ys & E & L & N).
  exists (y :: ys). cbn. rewrite Ey, E. repeat split; [cbn; lia|]. intros [|k] z Hz; cbn in *; [injection Hz as <-; exists y; auto|apply N; exact Hz].
Qed.
Lemma incr_map (f : nat -> Z) n a i : i < n -> incr i (map f (seq a n)) = Some (map (fun p => if p =? a + i then (f p + 1)%Z else f p) (seq a n)).
Proof.
  revert a i. induction n as [|n IH]; intros a i H; [lia|]. cbn [seq map]. destruct i as [|i]; cbn [incr].
  - rewrite Nat.add_0_r, Nat.eqb_refl. f_equal. f_equal. apply map_ext_in. intros p Hp. apply in_seq in Hp. rewrite (proj2 (Nat.eqb_neq _ _)) by lia. reflexivity.
  - rewrite IH by lia. rewrite (proj2 (Nat.eqb_neq a (a + S i))) by lia. f_equal. f_equal. apply map_ext. intros p. replace (S a + i) with (a + S i) by lia. reflexivity.
Qed.
Lemma nth_error_split_skip {B} (l : list B) k x : nth_error l k = Some x -> skipn k l = x :: skipn (S k) l.
Proof. revert l. induction k as [|k IH]; intros [|y l] H; try discriminate; cbn in *; [congruence|]. apply IH. exact H. Qed.

Section Buckets.
Context (size : nat) (sp : list N) (data : list sbody).
Hypothesis (Hlen : length sp = S size) (Hsize : 1 <= size).
Hypothesis (Hsp : forall u v a b, u <= v -> nth_error sp u = Some a -> nth_error sp v = Some b -> (a <= b)%N).
Hypothesis (Hsorted : forall p p' x y, p < p' -> nth_error data p = Some x -> nth_error data p' = Some y -> (sb_key x <= sb_key y)%N).
Hypothesis (Hlo : forall x lo, In x data -> nth_error sp 0 = Some lo -> (lo <= sb_key x)%N).
Hypothesis (Hhi : forall x hi, In x data -> nth_error sp size = Some hi -> (sb_key x < hi)%N).
Definition spn (u : nat) : N := nth u sp 0%N.
(** number of bodies before splitter u *)
Definition before (u : nat) : nat := length (takewhile (fun b => (sb_key b <? spn u)%N) data).
Lemma sp_nth u : u <= size -> nth_error sp u = Some (spn u).
Proof. intros H. unfold spn. apply nth_error_nth'. lia. Qed.
Lemma before_lt u p x : nth_error data p = Some x -> (p < before u <-> (sb_key x < spn u)%N).
Proof.
  intros E. split.
  - intros H. apply N.ltb_lt. apply (takewhile_nth (fun b => (sb_key b <? spn u)%N) data p x H E).
  - intros H. destruct (Nat.lt_ge_cases p (before u)) as [|L]; [assumption|]. exfalso.
    assert (exists y, nth_error data (before u) = Some y) as [y Ey].
    { destruct (nth_error data (before u)) eqn:Q; [eauto|]. apply nth_error_None in Q. assert (nth_error data p <> None) by congruence. apply nth_error_Some in H0. lia. }
    pose proof (takewhile_stop (fun b => (sb_key b <? spn u)%N) data y Ey) as Q. cbv beta in Q. apply N.ltb_ge in Q.
    destruct (Nat.eq_dec p (before u)) as [->|]; [assert (x = y) by congruence; subst; lia|].
    pose proof (Hsorted (before u) p y x ltac:(lia) Ey E). lia.
Qed.
Lemma before_len u : before u <= length data.
Proof. apply takewhile_len. Qed.
Lemma before_mono u v : u <= v -> v <= size -> before u <= before v.
Proof. intros H Hv. apply takewhile_imp. intros x Q. apply N.ltb_lt in Q. apply N.ltb_lt. pose proof (Hsp u v _ _ H (sp_nth u ltac:(lia)) (sp_nth v Hv)). lia. Qed.
Lemma before_0 : before 0 = 0.
Proof.
  destruct (Nat.eq_dec (before 0) 0) as [|Q]; [assumption|]. pose proof (before_len 0).
  destruct (nth_error data 0) as [x|] eqn:E; [|apply nth_error_None in E; lia].
  pose proof (proj1 (before_lt 0 0 x E) ltac:(lia)). pose proof (Hlo x (spn 0) (nth_error_In _ _ E) (sp_nth 0 ltac:(lia))). lia.
Qed.
Lemma before_size : before size = length data.
Proof.
  pose proof (before_len size). destruct (Nat.eq_dec (before size) (length data)) as [|Q]; [assumption|].
  destruct (nth_error data (before size)) as [x|] eqn:E; [|apply nth_error_None in E; lia].
  assert (before size < before size); [|lia]. apply (before_lt size _ x E). apply (Hhi x); [apply nth_error_In in E; exact E|apply sp_nth; lia].
Qed.
Definition part (cur k p : nat) : Z :=
  Z.of_nat (if p <? cur then before (S p) - before p else if p =? cur then k - before cur else 0).
Definition row : list Z := map (fun p => (Z.of_nat (before (S p)) - Z.of_nat (before p))%Z) (seq 0 size).

Lemma bucket_ok : forall fuel k cur, k <= length data -> cur < size -> before cur <= k <= before (S cur) -> length data - k + (size - cur) <= fuel + 1 ->
  bucket fuel sp (skipn k data) cur (map (part cur k) (seq 0 size)) = Some row.
Proof.
  induction fuel as [|fuel IH]; intros k cur Hk Hc Hb Hf.
  - assert (k = length data) by lia. subst k. rewrite skipn_all. cbn [bucket]. f_equal. apply map_ext_in. intros p Hp. apply in_seq in Hp. unfold part.
    pose proof (before_len (S cur)). destruct (Nat.ltb_spec p cur); [pose proof (before_mono p (S p) ltac:(lia) ltac:(lia)); lia|].
    destruct (Nat.eqb_spec p cur) as [->|]; [lia|]. pose proof (before_mono (S cur) p ltac:(lia) ltac:(lia)). pose proof (before_len p). pose proof (before_mono p (S p) ltac:(lia) ltac:(lia)). pose proof (before_len (S p)). lia.
  - destruct (nth_error data k) as [x|] eqn:E.
    + rewrite (nth_error_split_skip data k x E). cbn [bucket]. rewrite (sp_nth cur) by lia. rewrite (sp_nth (S cur)) by lia.
      assert (k < length data) by (apply nth_error_Some; congruence).
      assert (L : (spn cur <=? sb_key x)%N = true).
      { apply N.leb_le. pose proof (before_lt cur k x E). lia. }
      rewrite L. cbn [andb]. pose proof (before_lt (S cur) k x E) as Q. destruct (N.ltb_spec (sb_key x) (spn (S cur))) as [Lt|Ge].
      * rewrite incr_map by exact Hc. cbn [Nat.add].
        rewrite (map_ext_in _ (part cur (S k))); [apply IH; lia|]. intros p Hp. unfold part. destruct (Nat.eqb_spec p cur) as [->|].
        -- rewrite Nat.ltb_irrefl. lia.
        -- reflexivity.
      * assert (Ek : before (S cur) = k) by lia.
        assert (S cur < size). { destruct (Nat.eq_dec (S cur) size) as [Es|]; [|lia]. rewrite Es, before_size in Ek. lia. }
        rewrite <- (nth_error_split_skip data k x E). rewrite (map_ext_in _ (part (S cur) k)); [apply IH; try lia|].
        { pose proof (before_mono (S cur) (S (S cur)) ltac:(lia) ltac:(lia)). lia. }
        intros p Hp. unfold part. destruct (Nat.ltb_spec p cur), (Nat.ltb_spec p (S cur)); try lia; destruct (Nat.eqb_spec p cur), (Nat.eqb_spec p (S cur)); subst; lia.
    + apply nth_error_None in E. assert (k = length data) by lia. subst k. rewrite skipn_all. cbn [bucket]. f_equal. apply map_ext_in. intros p Hp. apply in_seq in Hp. unfold part.
      pose proof (before_len (S cur)). destruct (Nat.ltb_spec p cur); [pose proof (before_mono p (S p) ltac:(lia) ltac:(lia)); lia|].
      destruct (Nat.eqb_spec p cur) as [->|]; [lia|]. pose proof (before_mono (S cur) p ltac:(lia) ltac:(lia)). pose proof (before_len p). pose proof (before_mono p (S p) ltac:(lia) ltac:(lia)). pose proof (before_len (S p)). lia.
Qed.
Lemma scount_ok : scount size sp data = Some row.
Proof.
  unfold scount. pose proof (bucket_ok (length data + size) 0 0 ltac:(lia) ltac:(lia)) as Q. rewrite before_0 in Q. specialize (Q ltac:(lia) ltac:(lia)). cbn [skipn] in Q.
  replace (map (part 0 0) (seq 0 size)) with (repeat 0%Z size) in Q.
  - rewrite Q. rewrite fold_zsum. unfold row. rewrite (zsum_telescope before), before_0, before_size. rewrite (proj2 (Z.eqb_eq _ _)) by lia. reflexivity.
  - rewrite (map_ext_in _ (fun _ => 0%Z)).
    + generalize 0%nat. generalize size. clear. intros n. induction n as [|n IH]; intros a; [reflexivity|]. cbn. rewrite <- IH. reflexivity.
    + intros q _. unfold part. destruct (q <? 0) eqn:E; [apply Nat.ltb_lt in E; lia|]. destruct (q =? 0); reflexivity.
Qed.
End Buckets.

Lemma sorted_keys l : StronglySorted (fun x y => body_comp y x = false) l ->
  forall p p' x y, p <= p' -> nth_error l p = Some x -> nth_error l p' = Some y -> (sb_key x <= sb_key y)%N.
Proof.
  intros H p p' x y Hp Ex Ey. destruct (Nat.eq_dec p p') as [->|]; [assert (x = y) by congruence; subst; lia|].
  pose proof (sorted_local body_comp l H p p' x y ltac:(lia) Ex Ey) as Q. unfold le in Q. apply body_comp_false in Q. lia.
Qed.

Section Splitters.
Context (kmin kmax : N) (size total : nat) (want : nat -> nat) (sortA : list sbody -> list sbody) (data : nat -> list sbody).
Hypothesis (HS : sorts body_comp sortA) (Hsize : 2 <= size).
Hypothesis (Hkeys : forall r x, r < size -> In x (data r) -> (kmin < sb_key x < kmax)%N).
Hypothesis (Htot : total = sumto size (fun r => length (data r))).
Hypothesis (Hone : exists r, r < size /\ 0 < want r /\ data r <> []).

Lemma samples_ok r : exists l, samples want data r = Some l /\ length l = nsample want data r /\ incl l (data r).
Proof.
  destruct (all_some_ex (fun i => nth_error (data r) (length (data r) * (i + 1) / (nsample want data r + 1))) (seq 0 (nsample want data r))) as (ys & E & L & N).
  - intros i Hi. apply in_seq in Hi. set (ns := nsample want data r) in *. assert (ns <= length (data r)) by (unfold ns, nsample; lia).
    destruct (nth_error (data r) (length (data r) * (i + 1) / (ns + 1))) eqn:Q; [eauto|]. apply nth_error_None in Q.
    assert (length (data r) * (i + 1) / (ns + 1) < length (data r)); [|lia]. apply Nat.div_lt_upper_bound; [lia|]. nia.
  - exists ys. split; [exact E|]. split; [rewrite L, seq_length; reflexivity|]. intros y Hy. apply In_nth_error in Hy. destruct Hy as [k Hk].
    assert (k < length ys) by (apply nth_error_Some; congruence). rewrite L, seq_length in H.
    destruct (N k k) as (y' & Ey & Ef); [rewrite (nth_error_nth' _ 0) by (rewrite seq_length; exact H); rewrite seq_nth by exact H; reflexivity|].
    assert (y' = y) by congruence. subst. apply nth_error_In in Ef. exact Ef.
Qed.
Lemma concat_len {B} (ll : list (list B)) : length (concat ll) = nsum (map (@length B) ll).
Proof. induction ll as [|l ll IH]; [reflexivity|]. cbn. rewrite app_length, IH. reflexivity. Qed.

(** The splitters: size + 1 of them, in order, from kmin to kmax. *)
Lemma splitters_ok : exists sp, splitters kmin kmax size total want sortA data = Some sp /\ length sp = S size /\
  nth_error sp 0 = Some kmin /\ nth_error sp size = Some kmax /\
  (forall u v a b, u <= v -> nth_error sp u = Some a -> nth_error sp v = Some b -> (a <= b)%N).
Proof.
  unfold splitters. destruct (all_some_ex (samples want data) (seq 0 size)) as (per & E & L & N).
  { intros r _. destruct (samples_ok r) as (l & El & _). eauto. }
  rewrite E. cbv zeta. rewrite seq_length in L.
  assert (P : forall r, r < size -> exists l, nth_error per r = Some l /\ length l = nsample want data r /\ incl l (data r)).
  { intros r Hr. destruct (N r r) as (l & El & Es); [rewrite (nth_error_nth' _ 0) by (rewrite seq_length; exact Hr); rewrite seq_nth by exact Hr; reflexivity|].
    destruct (samples_ok r) as (l' & E' & Q). assert (l' = l) by congruence. subst. eauto. }
  set (g := concat per).
  assert (Lg : length g = sumto size (nsample want data)).
  { unfold g. rewrite concat_len, <- nsum_seq. f_equal. clear -L P.
    apply nth_ext with (d := 0) (d' := 0); [rewrite !map_length, seq_length; exact L|]. intros k Hk. rewrite map_length in Hk. rewrite L in Hk.
    rewrite map_seq_nth by (exact Hk). destruct (P k Hk) as (l & El & Ll & _). rewrite (nth_indep _ 0 (@length sbody [])) by (rewrite map_length; lia). rewrite map_nth.
    rewrite (nth_error_nth _ _ _ El). exact Ll. }
  assert (Lt : length g <= total).
  { rewrite Lg, Htot. apply sumto_le. intros r _. unfold nsample. lia. }
  assert (Gpos : 0 < length g).
  { rewrite Lg. destruct Hone as (r & Hr & Hw & Hd). rewrite <- (sumto_zero size). apply (sumto_lt size (fun _ => 0) _ r); [intros; lia|exact Hr|].
    unfold nsample. destruct (data r); [contradiction|cbn [length]; lia]. }
  rewrite (proj2 (Nat.leb_le _ _) Lt). replace (Nat.min total (length g)) with (length g) by lia.
  set (m := sortA g). assert (Lm : length m = length g) by (apply Permutation_length, HS).
  assert (Pos : forall i, i < size - 1 -> length g / size * (i + 1) < length g).
  { intros i Hi. pose proof (Nat.mul_div_le (length g) size ltac:(lia)). set (q := length g / size) in *. destruct (Nat.eq_dec q 0) as [->|]; [lia|]. nia. }
  destruct (all_some_ex (fun i => nth_error m (length g / size * (i + 1))) (seq 0 (size - 1))) as (ch & Ec & Lc & Nc).
  { intros i Hi. apply in_seq in Hi. specialize (Pos i ltac:(lia)). destruct (nth_error m (length g / size * (i + 1))) eqn:Q; [eauto|]. apply nth_error_None in Q. lia. }
  rewrite Ec. rewrite seq_length in Lc.
  assert (C : forall i, i < size - 1 -> exists b, nth_error ch i = Some b /\ nth_error m (length g / size * (i + 1)) = Some b).
  { intros i Hi. apply (Nc i i). rewrite (nth_error_nth' _ 0) by (rewrite seq_length; exact Hi). rewrite seq_nth by exact Hi. reflexivity. }
  assert (K : forall i b, nth_error ch i = Some b -> (kmin < sb_key b < kmax)%N).
  { intros i b Eb. assert (i < length ch) by (apply nth_error_Some; congruence). destruct (C i ltac:(lia)) as (b' & E1 & E2). assert (b' = b) by congruence. subst b'.
    apply nth_error_In in E2. apply (Permutation_in _ (proj1 (HS g))) in E2. unfold g in E2. apply in_concat in E2. destruct E2 as (l & Hl & Hb).
    apply In_nth_error in Hl. destruct Hl as [r El]. assert (r < length per) by (apply nth_error_Some; congruence). destruct (P r ltac:(lia)) as (l' & E' & _ & I').
    assert (l' = l) by congruence. subst. apply (Hkeys r); [lia|apply I'; exact Hb]. }
  assert (F : forallb (fun b => (kmin <? sb_key b)%N && (sb_key b <? kmax)%N) ch = true).
  { apply forallb_forall. intros b Hb. apply In_nth_error in Hb. destruct Hb as [i Ei]. specialize (K i b Ei). apply andb_true_iff. split; apply N.ltb_lt; lia. }
  rewrite F. eexists. split; [reflexivity|].
  assert (Mk : forall u, nth_error (map sb_key ch ++ [kmax]) u = if u <? size - 1 then option_map sb_key (nth_error ch u) else if u =? size - 1 then Some kmax else None).
  { intros u. destruct (Nat.ltb_spec u (size - 1)).
    - rewrite nth_error_app1 by (rewrite map_length; lia). apply nth_error_map.
    - rewrite nth_error_app2 by (rewrite map_length; lia). rewrite map_length, Lc. destruct (Nat.eqb_spec u (size - 1)) as [->|]; [rewrite Nat.sub_diag; reflexivity|].
      apply nth_error_None. cbn. lia. }
  split; [cbn; rewrite app_length, map_length, Lc; cbn; lia|]. split; [reflexivity|].
  assert (Top : nth_error (kmin :: map sb_key ch ++ [kmax]) size = Some kmax).
  { destruct size as [|n]; [lia|]. cbn. rewrite Mk. replace (n <? S n - 1) with false by (symmetry; apply Nat.ltb_ge; lia). replace (n =? S n - 1) with true by (symmetry; apply Nat.eqb_eq; lia). reflexivity. }
  split; [exact Top|]. assert (kmm : (kmin <= kmax)%N). { destruct (C 0 ltac:(lia)) as (b & E1 & _). specialize (K 0 b E1). lia. }
  intros u v a b Huv Ea Eb. destruct u as [|u], v as [|v]; cbn [nth_error] in Ea, Eb.
  - injection Ea as <-. injection Eb as <-. lia.
  - injection Ea as <-. rewrite Mk in Eb. destruct (v <? size - 1).
    + destruct (nth_error ch v) as [c|] eqn:Q; [|discriminate]. cbn in Eb. injection Eb as <-. specialize (K v c Q). lia.
    + destruct (v =? size - 1); [|discriminate]. injection Eb as <-. exact kmm.
  - lia.
  - rewrite Mk in Ea, Eb. destruct (Nat.ltb_spec u (size - 1)) as [Lu|Lu], (Nat.ltb_spec v (size - 1)) as [Lv|Lv].
    + destruct (C u Lu) as (x & E1 & E2), (C v Lv) as (y & E3 & E4). rewrite E1 in Ea. rewrite E3 in Eb. injection Ea as <-. injection Eb as <-.
      apply (sorted_keys m (proj2 (HS g)) (length g / size * (u + 1)) (length g / size * (v + 1)) x y); [apply Nat.mul_le_mono_l; lia|exact E2|exact E4].
    + destruct (C u Lu) as (x & E1 & E2). rewrite E1 in Ea. injection Ea as <-. destruct (v =? size - 1); [|discriminate]. injection Eb as <-. specialize (K u x E1). lia.
    + lia.
    + destruct (u =? size - 1); [|discriminate]. destruct (v =? size - 1); [|discriminate]. injection Ea as <-. injection Eb as <-. lia.
Qed.
End Splitters.

(** Redistribution: from particles whose keys lie strictly inside the key range,
    with at least one sample and byte counts that fit in int, every rank computes
    its counts, the exchange cannot get stuck, and in its final state nothing is
    lost, every rank's particles are sorted, and a lower rank's keys are below a
    higher rank's. *)
Theorem C22_qsort kmin kmax size want sortA vec sz : sorts body_comp sortA -> 2 <= size -> (0 < sz)%Z ->
  (forall r x, r < size -> In x (vec r) -> (kmin < sb_key x < kmax)%N) ->
  (exists r, r < size /\ 0 < want r /\ vec r <> []) ->
  (Z.of_nat (sumto size (fun r => length (vec r))) * sz < 2 ^ 31)%Z ->
  exists counts bufs, qsort_exchange kmin kmax size (sumto size (fun r => length (vec r))) want sortA vec = Some (counts, bufs) /\
  forall eager s, preach sz counts bufs eager s ->
    (pfinal counts s \/ exists s', pstep sz counts bufs eager s s') /\
    (pfinal counts s -> exists out,
      (forall i, i < size -> qsort_finish sortA (p_buf s i) = Some (out i)) /\
      Permutation (flat_map out (seq 0 size)) (flat_map vec (seq 0 size)) /\
      StronglySorted (fun x y => body_comp y x = false) (flat_map out (seq 0 size)) /\
      (forall i j x y, i < j < size -> In x (out i) -> In y (out j) -> (sb_key x < sb_key y)%N)).
Proof.
  intros HS Hsize Hsz Hkeys Hone Hbytes. set (data := fun r => sortA (vec r)). set (total := sumto size (fun r => length (vec r))) in *.
  assert (Ld : forall r, length (data r) = length (vec r)) by (intros r; apply Permutation_length, HS).
  assert (Din : forall r x, In x (data r) -> In x (vec r)) by (intros r x; apply Permutation_in, HS).
  assert (Htot : total = sumto size (fun r => length (data r))) by (apply sumto_ext; intros; symmetry; apply Ld).
  assert (Hone' : exists r, r < size /\ 0 < want r /\ data r <> []).
  { destruct Hone as (r & H1 & H2 & H3). exists r. repeat split; auto. intros Q. apply H3. apply length_zero_iff_nil. rewrite <- Ld, Q. reflexivity. }
  assert (Hk' : forall r x, r < size -> In x (data r) -> (kmin < sb_key x < kmax)%N) by (intros r x Hr Hx; apply (Hkeys r); auto).
  destruct (splitters_ok kmin kmax size total want sortA data HS Hsize Hk' Htot Hone') as (sp & Es & Lsp & S0 & S1 & Smono).
  assert (Hsort : forall r p p' x y, p < p' -> nth_error (data r) p = Some x -> nth_error (data r) p' = Some y -> (sb_key x <= sb_key y)%N).
  { intros r p p' x y Hp. apply sorted_keys; [apply HS|lia]. }
  assert (Hlo : forall r x lo, r < size -> In x (data r) -> nth_error sp 0 = Some lo -> (lo <= sb_key x)%N).
  { intros r x lo Hr Hx E. specialize (Hk' r x Hr Hx). assert (lo = kmin) by congruence. subst. lia. }
  assert (Hhi : forall r x hi, r < size -> In x (data r) -> nth_error sp size = Some hi -> (sb_key x < hi)%N).
  { intros r x hi Hr Hx E. specialize (Hk' r x Hr Hx). assert (hi = kmax) by congruence. subst. lia. }
  set (re := fun u r => before sp (data r) u).
  assert (H1s : 1 <= size) by lia.
  assert (R0 : forall r, r < size -> re 0 r = 0) by (intros r Hr; exact (before_0 size sp (data r) Lsp H1s Smono (Hsort r) (fun x lo => Hlo r x lo Hr) (fun x hi => Hhi r x hi Hr))).
  assert (Rs : forall r, r < size -> re size r = length (data r)) by (intros r Hr; exact (before_size size sp (data r) Lsp H1s Smono (Hsort r) (fun x lo => Hlo r x lo Hr) (fun x hi => Hhi r x hi Hr))).
  assert (Rm : forall r u v, r < size -> u <= v -> v <= size -> re u r <= re v r) by (intros r u v Hr; exact (before_mono size sp (data r) Lsp H1s Smono (Hsort r) (fun x lo => Hlo r x lo Hr) (fun x hi => Hhi r x hi Hr) u v)).
  set (rowf := fun r => map (fun i => (Z.of_nat (re (S i) r) - Z.of_nat (re i r))%Z) (seq 0 size)).
  set (counts := map rowf (seq 0 size)). set (bufs := map data (seq 0 size)).
  exists counts, bufs. split.
  { unfold qsort_exchange. fold data. cbv zeta. rewrite Es. rewrite (all_some_ok _ rowf); [reflexivity|].
    intros r Hr. apply in_seq in Hr. assert (Hr' : r < size) by lia. clear Hr. rename Hr' into Hr. exact (scount_ok size sp (data r) Lsp H1s Smono (Hsort r) (fun x lo => Hlo r x lo Hr) (fun x hi => Hhi r x hi Hr)). }
  assert (Ln : length counts = size) by (unfold counts; rewrite map_length, seq_length; reflexivity).
  assert (Lrow : forall r, r < size -> nth r counts [] = rowf r) by (intros r Hr; unfold counts; apply (map_seq_nth rowf); exact Hr).
  assert (Lbuf : forall r, r < size -> nth r bufs [] = data r) by (intros r Hr; unfold bufs; apply map_seq_nth; exact Hr).
  assert (Lcol : forall i, i < size -> zsum (map (fun row => nth i row 0%Z) counts) = (Z.of_nat (sumto size (re (S i))) - Z.of_nat (sumto size (re i)))%Z).
  { intros i Hi. unfold counts. rewrite map_map. rewrite (zsum_map_ext _ (fun r => (Z.of_nat (re (S i) r) - Z.of_nat (re i r))%Z)); [apply zsum_seq_sub|].
    intros r _. unfold rowf. apply (map_seq_nth (fun i => (Z.of_nat (re (S i) r) - Z.of_nat (re i r))%Z)). exact Hi. }
  assert (Lsum : forall r, r < size -> zsum (nth r counts []) = Z.of_nat (length (data r))).
  { intros r Hr. rewrite Lrow by exact Hr. unfold rowf. rewrite (zsum_telescope (fun u => re u r)), Rs, R0 by exact Hr. lia. }
  assert (Rlen : forall u r, re u r <= length (data r)) by (intros; apply before_len).
  assert (X : exchange_ok sz counts bufs).
  { constructor; rewrite ?Ln.
    - exact Hsz.
    - unfold bufs. rewrite map_length, seq_length. reflexivity.
    - intros r Hr. split; [|split].
      + rewrite Lrow by exact Hr. unfold rowf. rewrite map_length, seq_length. reflexivity.
      + rewrite Lrow by exact Hr. apply Forall_forall. intros c Hc. apply in_map_iff in Hc. destruct Hc as (i & <- & Hi). apply in_seq in Hi. pose proof (Rm r i (S i) ltac:(lia) ltac:(lia) ltac:(lia)). lia.
      + rewrite Lsum by exact Hr. assert (length (data r) <= total); [|nia]. rewrite Htot. clear -Hr.
        induction size as [|n IH]; [lia|]. cbn. destruct (Nat.eq_dec r n) as [->|]; [lia|]. specialize (IH ltac:(lia)). lia.
    - intros r Hr. rewrite Lbuf, Lsum by exact Hr. reflexivity.
    - intros i Hi. rewrite Lcol by exact Hi. assert (sumto size (re (S i)) <= total); [rewrite Htot; apply sumto_le; intros; apply Rlen|]. nia. }
  set (got := fun i => flat_map (fun r => segment counts bufs r i) (seq 0 size)).
  assert (Sg : forall r i, r < size -> i < size -> segment counts bufs r i = firstn (re (S i) r - re i r) (skipn (re i r) (data r))).
  { intros r i Hr Hi. unfold segment. cbv zeta. rewrite Lrow, Lbuf by exact Hr. unfold rowf.
    rewrite (map_seq_nth (fun i => (Z.of_nat (re (S i) r) - Z.of_nat (re i r))%Z) size i 0%Z Hi). rewrite firstn_map, firstn_seq by lia. rewrite (zsum_telescope (fun u => re u r)), R0 by exact Hr.
    f_equal; [lia|f_equal; lia]. }
  assert (Key : forall i x, i < size -> In x (got i) -> (spn sp i <= sb_key x < spn sp (S i))%N).
  { intros i x Hi Hx. apply in_flat_map in Hx. destruct Hx as (r & Hr & Hx). apply in_seq in Hr. assert (Hr' : r < size) by lia. clear Hr. rename Hr' into Hr. rewrite Sg in Hx by lia. apply in_sub_nth in Hx. destruct Hx as (p & Hp & Ex).
    pose proof (Rm r i (S i) ltac:(lia) ltac:(lia) ltac:(lia)).
    pose proof (before_lt size sp (data r) Lsp H1s Smono (Hsort r) (fun x lo => Hlo r x lo Hr) (fun x hi => Hhi r x hi Hr) i p x Ex) as B1. pose proof (before_lt size sp (data r) Lsp H1s Smono (Hsort r) (fun x lo => Hlo r x lo Hr) (fun x hi => Hhi r x hi Hr) (S i) p x Ex) as B2. unfold re in *. lia. }
  assert (Sep : forall i j x y, i < j < size -> In x (got i) -> In y (got j) -> (sb_key x < sb_key y)%N).
  { intros i j x y Hij Hx Hy. pose proof (Key i x ltac:(lia) Hx). pose proof (Key j y ltac:(lia) Hy).
    pose proof (Smono (S i) j _ _ ltac:(lia) (sp_nth size sp (data 0) Lsp H1s Smono (Hsort 0) (S i) ltac:(lia)) (sp_nth size sp (data 0) Lsp H1s Smono (Hsort 0) j ltac:(lia))). lia. }
  intros eager s Hr. split; [apply (C24_p2p_no_deadlock sz counts bufs X); exact Hr|]. intros Hf. exists (fun i => sortA (got i)).
  split; [|split; [|split]].
  - intros i Hi. unfold qsort_finish. rewrite (C24_p2p_result sz counts bufs X eager s i Hr Hf) by lia. rewrite Ln. fold (got i). rewrite all_some_map. reflexivity.
  - etransitivity; [apply (flat_map_perm _ got); intros; apply HS|]. unfold got. etransitivity; [apply (flat_map_swap (fun i r => segment counts bufs r i))|].
    apply flat_map_perm. intros r Hr'. apply in_seq in Hr'. pose proof (C24_segments_partition sz counts bufs X r) as Q. rewrite Ln in Q. cbv beta. rewrite Lbuf in Q by lia. specialize (Q ltac:(lia)).
    eapply Permutation_trans; [apply Permutation_refl'; exact Q|apply HS].
  - apply ssorted_blocks; [intros; apply HS|]. intros i j x y Hij Hx Hy.
    apply (Permutation_in _ (proj1 (HS (got i)))) in Hx. apply (Permutation_in _ (proj1 (HS (got j)))) in Hy. apply body_comp_false. left. apply (Sep i j); assumption.
  - intros i j x y Hij Hx Hy. apply (Permutation_in _ (proj1 (HS (got i)))) in Hx. apply (Permutation_in _ (proj1 (HS (got j)))) in Hy. apply (Sep i j); assumption.
Qed.

(** A particle with the largest key runs off the splitters; one with the smallest
    key can fail the assertion. *)
Definition qs2 (a b : list sbody) := qsort_exchange (key_min 3) (key_max 3) 2 (length a + length b) (fun _ => 4) (isort body_comp) (fun r => nth r [a; b] []).
Example C22_case : qs2 [SBody (key_min 3 + 5) 1; SBody (key_min 3 + 9) 2] [SBody (key_min 3 + 5) 3; SBody (key_max 3 - 1) 4] =
  Some ([[1; 1]; [1; 1]]%Z, [[SBody (key_min 3 + 5) 1; SBody (key_min 3 + 9) 2]; [SBody (key_min 3 + 5) 3; SBody (key_max 3 - 1) 4]]).
Proof. vm_compute. reflexivity. Qed.
Theorem C22_max_key_refuted : exists a b, (forall x, In x (a ++ b) -> (key_min 3 <= sb_key x <= key_max 3)%N) /\ qs2 a b = None /\
  (forall x, In x (a ++ b) -> sb_key x <> key_min 3).
Proof.
  exists [SBody (key_min 3 + 5) 1; SBody (key_min 3 + 9) 2], [SBody (key_min 3 + 5) 3; SBody (key_max 3) 4]. split; [|split; [vm_compute; reflexivity|]].
  - cbn [app In]. intros x [<-|[<-|[<-|[<-|[]]]]]; vm_compute; split; discriminate.
  - cbn [app In]. intros x [<-|[<-|[<-|[<-|[]]]]]; vm_compute; discriminate.
Qed.
Theorem C22_min_key_refuted : exists a b, (forall x, In x (a ++ b) -> (key_min 3 <= sb_key x < key_max 3)%N) /\ qs2 a b = None.
Proof.
  exists [SBody (key_min 3) 1; SBody (key_min 3) 2], [SBody (key_min 3) 3; SBody (key_min 3 + 9) 4]. split; [|vm_compute; reflexivity].
  cbn [app In]. intros x [<-|[<-|[<-|[<-|[]]]]]; vm_compute; split; (discriminate || reflexivity).
Qed.
Print Assumptions C22_qsort.
Print Assumptions C22_max_key_refuted.
Print Assumptions C22_min_key_refuted.
