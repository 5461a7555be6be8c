(** Lemmas for Comms_props: words, keys, and what the reply handlers do to a table. *)
From Verif Require Import Base Key_model Key_proofs Morton_qproofs HCell_model HCell_props BuildTree_model Comms_model.
Local Open Scope N_scope.

(** ** Words *)
Definition wf_w (dim w : N) : Prop := exists ch sh rq n, n < 16 /\ bits_ok dim w ch sh rq n.
Lemma digits_in dim d : In d (digits dim) <-> d < 2 ^ dim.
Proof.
  unfold digits. rewrite N.shiftl_1_l. rewrite in_map_iff. split.
  - intros (x & <- & Hx). apply in_seq in Hx. lia.
  - intros H. exists (N.to_nat d). split; [lia|]. apply in_seq. lia.
Qed.
Lemma digits_nodup dim : NoDup (digits dim).
Proof.
  unfold digits. generalize (N.to_nat (N.shiftl 1 dim)). intros m. assert (H : NoDup (seq 0 m)) by apply seq_NoDup.
  induction H as [|x l Hx H IH]; [constructor|]. cbn [map]. constructor; [|exact IH]. rewrite in_map_iff. intros (y & E & Hy). apply Nat2N.inj in E. subst. contradiction.
Qed.
Lemma has_child_n dim w : has_child dim w = negb (nchildren dim w =? 0).
Proof.
  unfold has_child. f_equal. rewrite land_mask, N.shiftl_1_l. unfold nchildren. rewrite nchildren_loop_filter, N.shiftl_1_l. pose proof (pow2_pos dim) as P.
  destruct (N.eqb_spec (w mod 2 ^ 2 ^ dim) 0) as [E|E].
  - replace (filter _ _) with (@nil N); [reflexivity|]. symmetry. destruct (filter (N.testbit w) _) as [|a l] eqn:F; [reflexivity|]. exfalso.
    assert (Ha : In a (a :: l)) by (left; reflexivity). rewrite <- F in Ha. apply filter_In in Ha. destruct Ha as [Ha Hb]. apply in_map_iff in Ha. destruct Ha as (x & <- & Hx). apply in_seq in Hx.
    rewrite <- (N.mod_pow2_bits_low w (2 ^ dim)) in Hb by lia. rewrite E, N.bits_0 in Hb. discriminate.
  - symmetry. apply N.eqb_neq. intros E'. apply E.
    assert (F : filter (N.testbit w) (map N.of_nat (seq 0 (N.to_nat (2 ^ dim)))) = []) by (destruct (filter _ _); [reflexivity | cbn in E'; lia]).
    apply N.bits_inj. intros i. rewrite N.bits_0. destruct (N.lt_ge_cases i (2 ^ dim)) as [Hi|Hi].
    + rewrite N.mod_pow2_bits_low by assumption. destruct (N.testbit w i) eqn:T; [|reflexivity]. exfalso.
      assert (I : In i (filter (N.testbit w) (map N.of_nat (seq 0 (N.to_nat (2 ^ dim)))))) by (apply filter_In; split; [apply in_map_iff; exists (N.to_nat i); split; [lia | apply in_seq; lia] | exact T]).
      rewrite F in I. destruct I.
    + apply N.mod_pow2_bits_high. assumption.
Qed.
Lemma nchildren_filter dim w : nchildren dim w = N.of_nat (length (filter (get_child w) (digits dim))).
Proof. unfold nchildren, digits. rewrite nchildren_loop_filter. do 2 f_equal. apply filter_ext. intros a. symmetry. apply get_child_testbit. Qed.
Lemma bits_getters dim w ch sh rq n : n < 16 -> bits_ok dim w ch sh rq n ->
  (forall c, c < 2 ^ dim -> get_child w c = ch c) /\ requested dim w = rq /\ nchildren_to_receive dim w = n.
Proof.
  intros Hn H. pose proof (pow2_pos dim) as P. split; [|split].
  - intros c Hc. rewrite get_child_testbit, (H c). replace (c <? 2 ^ dim) with true by lia. reflexivity.
  - unfold requested, requested_mask, requested_displ. rewrite land_pow2_zero, negb_involutive, N.shiftl_1_l, (H _).
    replace (2 ^ dim + 2 <? 2 ^ dim) with false by lia. replace (2 ^ dim + 2 =? 2 ^ dim) with false by lia. replace (2 ^ dim + 2 =? 2 ^ dim + 1) with false by lia. rewrite N.eqb_refl. reflexivity.
  - unfold nchildren_to_receive, nchild_recv_displ. rewrite N.shiftl_1_l. apply N.bits_inj. intros i. rewrite N.land_spec, N.shiftr_spec', testbit_15, (H _).
    replace (i + (2 ^ dim + 3) <? 2 ^ dim) with false by lia. replace (i + (2 ^ dim + 3) =? 2 ^ dim) with false by lia. replace (i + (2 ^ dim + 3) =? 2 ^ dim + 1) with false by lia.
    replace (i + (2 ^ dim + 3) =? 2 ^ dim + 2) with false by lia. replace (i + (2 ^ dim + 3) - (2 ^ dim + 3)) with i by lia.
    destruct (N.ltb_spec i 4); [apply andb_true_r|]. rewrite testbit_small by assumption. reflexivity.
Qed.
Lemma op_getters dim w o : wf_w dim w -> op_ok dim o ->
  wf_w dim (exec1 dim w o) /\
  (forall c, c < 2 ^ dim -> get_child (exec1 dim w o) c = get_child w c || match o with AddChild d => d =? c | _ => false end) /\
  requested dim (exec1 dim w o) = (match o with SetRequested => true | UnsetRequested => false | _ => requested dim w end) /\
  nchildren_to_receive dim (exec1 dim w o) = (match o with SetRecv m => m | _ => nchildren_to_receive dim w end).
Proof.
  intros (ch & sh & rq & m & Hm & H) Ho. pose proof (exec1_ok dim w ch sh rq m o Ho Hm H) as H1.
  assert (Hm1 : match o with SetRecv m' => m' | _ => m end < 16) by (destruct o; assumption).
  destruct (bits_getters _ _ _ _ _ _ Hm H) as (A & B & C). destruct (bits_getters _ _ _ _ _ _ Hm1 H1) as (A1 & B1 & C1).
  split; [eexists _, _, _, _; split; [exact Hm1 | exact H1]|]. split; [intros c Hc; rewrite A1, A by exact Hc; reflexivity|]. split; [rewrite B1, B; destruct o; reflexivity | rewrite C1, C; destruct o; reflexivity].
Qed.
Lemma wf_new dim : wf_w dim hcell_new.
Proof. exists (fun _ => false), false, false, 0. split; [lia|]. intros i. unfold hcell_new. rewrite !N.bits_0. cases_i; reflexivity. Qed.
Lemma new_child d : get_child hcell_new d = false.
Proof. rewrite get_child_testbit. apply N.bits_0. Qed.
Lemma add_child_idem w d : get_child w d = true -> add_child w d = w.
Proof.
  rewrite get_child_testbit. intros H. unfold add_child. apply N.bits_inj. intros i. rewrite N.lor_spec, N.shiftl_1_l, N.pow2_bits_eqb. destruct (N.eqb_spec d i) as [->|]; [rewrite H; reflexivity | apply orb_false_r].
Qed.
Lemma empty_spec dim w : is_empty_node dim w = (nchildren dim w =? 0) || (nchildren dim w <? nchildren_to_receive dim w).
Proof. unfold is_empty_node. rewrite has_child_n, negb_involutive. reflexivity. Qed.

(** ** Keys *)
Definition ck (dim k d : N) : N := k * 2 ^ dim + d.
Definition okkey (dim k : N) : Prop := 1 <= k /\ k * 2 ^ dim < 2 ^ 64.
Lemma ck_push dim k d : okkey dim k -> d < 2 ^ dim -> key_push dim k d = Some (ck dim k d).
Proof.
  intros [H1 H2] Hd. unfold key_push. rewrite N.shiftl_1_l. replace (d <? 2 ^ dim) with true by lia. f_equal. unfold wrap64, w64, ck. rewrite N.shiftl_mul_pow2, N.mod_small by exact H2.
  rewrite <- N.lxor_lor, <- N.add_nocarry_lxor; [reflexivity | |].
  all: apply N.bits_inj; intros i; rewrite N.land_spec, N.bits_0; destruct (N.lt_ge_cases i dim) as [Hi|Hi].
  all: try (rewrite N.mul_pow2_bits_low by exact Hi; reflexivity).
  all: assert (E : N.testbit d i = false) by (destruct (N.eq_dec d 0) as [->|]; [apply N.bits_0 | apply N.bits_above_log2; apply N.log2_lt_pow2; [lia|]; apply N.lt_le_trans with (2 ^ dim); [exact Hd | apply N.pow_le_mono_r; lia]]); rewrite E; apply andb_false_r.
Qed.
Lemma ck_parent dim k d : d < 2 ^ dim -> key_parent dim (ck dim k d) = k.
Proof. intros Hd. unfold key_parent, ck. rewrite N.shiftr_div_pow2, N.div_add_l, N.div_small by lia. lia. Qed.
Lemma ck_last dim k d : d < 2 ^ dim -> key_last_value dim (ck dim k d) = d.
Proof. intros Hd. unfold key_last_value, ck. rewrite land_mask, N.add_comm, N.mod_add, N.mod_small by lia. reflexivity. Qed.
Lemma ck_inj dim k d k' d' : d < 2 ^ dim -> d' < 2 ^ dim -> ck dim k d = ck dim k' d' -> k = k' /\ d = d'.
Proof. intros H H' E. split; [rewrite <- (ck_parent dim k d H), E; apply ck_parent, H' | rewrite <- (ck_last dim k d H), E; apply ck_last, H']. Qed.
Lemma ck_gt dim k d : 1 <= k -> 1 <= dim -> k < ck dim k d.
Proof. intros Hk Hd. unfold ck. assert (2 ^ 1 <= 2 ^ dim) by (apply N.pow_le_mono_r; lia). change (2 ^ 1) with 2 in *. nia. Qed.

(** ** The tree of the traversal *)
Record world (D : Type) := mkw { w_kid : N -> N -> bool; w_isn : N -> bool; w_dat : N -> D }.
Arguments mkw {D}. Arguments w_kid {D}. Arguments w_isn {D}. Arguments w_dat {D}.
Section W.
Context {D : Type} (dim : N) (n : nat) (W : world D).
Notation B := (2 ^ dim).
Definition kids (k : N) : list N := filter (w_kid W k) (digits dim).
Definition nkids (k : N) : N := N.of_nat (length (kids k)).
Definition wf_world : Prop := 1 <= dim <= 3 /\ forall k, w_isn W k = true -> okkey dim k /\ kids k <> [].
Definition is_ent (k d : N) : bool := w_kid W k d && negb (w_isn W (ck dim k d)).
Definition is_nd (k d : N) : bool := w_kid W k d && w_isn W (ck dim k d).
Definition hasent (k : N) : bool := existsb (is_ent k) (digits dim).
Hypothesis HW : wf_world.
Lemma kids_in k d : In d (kids k) <-> d < B /\ w_kid W k d = true.
Proof. unfold kids. rewrite filter_In, digits_in. reflexivity. Qed.
Lemma nkids_bound k : nkids k <= 8.
Proof.
  unfold nkids, kids. assert (H : (length (filter (w_kid W k) (digits dim)) <= length (digits dim))%nat).
  { generalize (digits dim). intros l. induction l as [|x l IH]; cbn; [lia|]. destruct (w_kid W k x); cbn; lia. }
  unfold digits in H at 2. rewrite map_length, seq_length, N.shiftl_1_l in H. destruct HW as [Hd _]. assert (2 ^ dim <= 2 ^ 3) by (apply N.pow_le_mono_r; lia). change (2 ^ 3) with 8 in *. lia.
Qed.
(** the children of a cell, all of them, some, none *)
Definition full (k : N) (w : N) : Prop := forall d, d < B -> get_child w d = w_kid W k d.
Definition bare (w : N) : Prop := forall d, d < B -> get_child w d = false.
Definition within (k : N) (w : N) : Prop := forall d, d < B -> get_child w d = true -> w_kid W k d = true.
Definition half (k : N) (w : N) : Prop := forall d, d < B -> get_child w d = is_nd k d.
Lemma full_count k w : full k w -> nchildren dim w = nkids k.
Proof. intros H. rewrite nchildren_filter. unfold nkids, kids. do 2 f_equal. apply filter_ext_in. intros d Hd. apply H, digits_in, Hd. Qed.
Lemma bare_count w : bare w -> nchildren dim w = 0.
Proof.
  intros H. rewrite nchildren_filter. replace (filter (get_child w) (digits dim)) with (@nil N); [reflexivity|]. symmetry. destruct (filter (get_child w) (digits dim)) as [|a l] eqn:E; [reflexivity|].
  assert (Ha : In a (a :: l)) by (left; reflexivity). rewrite <- E in Ha. apply filter_In in Ha. destruct Ha as [Ha Hb]. rewrite H in Hb by (apply digits_in, Ha). discriminate.
Qed.
Lemma within_count k w : within k w -> ~ full k w -> nchildren dim w < nkids k.
Proof.
  intros Hw Hf. rewrite nchildren_filter. unfold nkids. assert (I : incl (filter (get_child w) (digits dim)) (kids k)).
  { intros d Hd. apply filter_In in Hd. destruct Hd as [Hd Hg]. apply kids_in. apply digits_in in Hd. split; [exact Hd | apply Hw; assumption]. }
  assert (ND : NoDup (filter (get_child w) (digits dim))) by apply NoDup_filter, digits_nodup.
  pose proof (NoDup_incl_length ND I) as L. destruct (Nat.eq_dec (length (filter (get_child w) (digits dim))) (length (kids k))) as [E|E]; [|lia]. exfalso. apply Hf. intros d Hd.
  assert (I2 : incl (kids k) (filter (get_child w) (digits dim))) by (apply NoDup_length_incl; [exact ND | lia | exact I]).
  destruct (get_child w d) eqn:G; [symmetry; apply Hw; assumption|]. destruct (w_kid W k d) eqn:K; [|reflexivity].
  assert (Hk : In d (kids k)) by (apply kids_in; tauto). apply I2, filter_In in Hk. destruct Hk. congruence.
Qed.
Lemma full_not_empty k w : w_isn W k = true -> full k w -> nchildren_to_receive dim w <= nkids k -> is_empty_node dim w = false.
Proof.
  intros Hk Hf Hn. rewrite empty_spec, (full_count k w Hf). destruct HW as [_ HW']. destruct (HW' k Hk) as [_ Hne]. unfold nkids in *.
  destruct (kids k) eqn:E; [congruence|]. cbn [length] in *. lia.
Qed.
Lemma bare_empty w : bare w -> is_empty_node dim w = true.
Proof. intros H. rewrite empty_spec, (bare_count w H). reflexivity. Qed.
Lemma half_empty k w : half k w -> hasent k = true -> nchildren_to_receive dim w = nkids k -> is_empty_node dim w = true.
Proof.
  intros H He Hn. rewrite empty_spec, Hn. assert (L : nchildren dim w < nkids k).
  { apply within_count.
    - intros d Hd Hg. rewrite H in Hg by exact Hd. unfold is_nd in Hg. apply andb_true_iff in Hg. tauto.
    - intros Hf. unfold hasent in He. apply existsb_exists in He. destruct He as (d & Hd & He). apply digits_in in Hd. specialize (H d Hd). specialize (Hf d Hd). unfold is_ent, is_nd in *.
      destruct (w_kid W k d), (w_isn W (ck dim k d)); cbn in *; congruence. }
  apply orb_true_iff. right. apply N.ltb_lt. exact L.
Qed.
Lemma half_full k w : half k w -> hasent k = false -> full k w.
Proof.
  intros H He d Hd. rewrite H by exact Hd. unfold is_nd. destruct (w_kid W k d) eqn:K; [|reflexivity]. destruct (w_isn W (ck dim k d)) eqn:I; [reflexivity|]. exfalso.
  assert (X : hasent k = true) by (unfold hasent; apply existsb_exists; exists d; split; [apply digits_in, Hd | unfold is_ent; rewrite K, I; reflexivity]). congruence.
Qed.

(** ** Tables *)
Section Tables.
Variable V : nat -> N -> Prop.
Record tok (T : rtable D) : Prop := mktok
  { tk_cell : forall k c, T k = Some c -> r_node c = w_isn W k /\ r_data c = w_dat W k /\ wf_w dim (r_word c) /\ (r_owner c < n)%nat /\ V (r_owner c) k;
    tk_down : forall k c d, T k = Some c -> w_isn W k = true -> d < B -> get_child (r_word c) d = true -> w_kid W k d = true /\ exists c', T (ck dim k d) = Some c';
    tk_up : forall k c, T k = Some c -> k <> key_root -> exists p cp d, k = ck dim p d /\ d < B /\ w_isn W p = true /\ w_kid W p d = true /\ T p = Some cp /\ get_child (r_word cp) d = true;
    tk_root : exists c, T key_root = Some c /\ w_isn W key_root = true /\ full key_root (r_word c) }.
(** contents of a reply *)
Definition kid_entry (k d : N) (e : nent D) : Prop := ne_key e = ck dim k d /\ ne_data e = w_dat W (ck dim k d) /\ (ne_owner e < n)%nat /\ V (ne_owner e) (ck dim k d) /\ ne_nch e < 16.
Definition ent_entry (k d : N) (e : eent D) : Prop := ee_key e = ck dim k d /\ ee_data e = w_dat W (ck dim k d) /\ (ee_owner e < n)%nat /\ V (ee_owner e) (ck dim k d).
Definition own_entry (k : N) (e : nent D) : Prop := ne_key e = k /\ ne_data e = w_dat W k /\ (ne_owner e < n)%nat /\ V (ne_owner e) k /\ ne_nch e = nkids k.
Inductive nodesok : list N -> list (nent D) -> Prop :=
| no_nil : nodesok [] []
| no_cons k ks e g rest : own_entry k e -> Forall2 (kid_entry k) (filter (is_nd k) (digits dim)) g -> nodesok ks rest -> nodesok (k :: ks) (e :: g ++ rest).
Inductive entsok : list N -> list (eent D) -> Prop :=
| eo_nil : entsok [] []
| eo_cons k ks g rest : Forall2 (ent_entry k) (filter (is_ent k) (digits dim)) g -> entsok ks rest -> entsok (k :: ks) (g ++ rest).

Definition same_but (T T' : rtable D) (ks : list N) : Prop := forall k, ~ In k ks -> T' k = T k.
(** node entries of the children of a cell *)
Lemma load_kids : forall ds g k T c, Forall2 (kid_entry k) ds g -> okkey dim k -> NoDup ds -> (forall d, In d ds -> d < B /\ w_kid W k d = true /\ w_isn W (ck dim k d) = true) ->
  T k = Some c -> wf_w dim (r_word c) -> (forall d, In d ds -> T (ck dim k d) = None) ->
  exists T' c', load_all (load_node dim) T g = Some T' /\ T' k = Some c' /\ r_node c' = r_node c /\ r_owner c' = r_owner c /\ r_data c' = r_data c /\ wf_w dim (r_word c') /\
    (forall d, d < B -> get_child (r_word c') d = get_child (r_word c) d || existsb (N.eqb d) ds) /\ requested dim (r_word c') = requested dim (r_word c) /\ nchildren_to_receive dim (r_word c') = nchildren_to_receive dim (r_word c) /\
    same_but T T' (k :: map (ck dim k) ds) /\
    (forall d, In d ds -> exists x, T' (ck dim k d) = Some x /\ r_node x = true /\ r_data x = w_dat W (ck dim k d) /\ (r_owner x < n)%nat /\ V (r_owner x) (ck dim k d) /\ wf_w dim (r_word x) /\ bare (r_word x) /\ requested dim (r_word x) = false).
Proof.
  induction ds as [|d ds IH]; intros g k T c HF Hk ND Hd Hc Hwf Habs.
  - inversion HF; subst. exists T, c. cbn [load_all]. split; [reflexivity|]. split; [exact Hc|]. repeat (split; [reflexivity|]). split; [exact Hwf|]. split; [intros x _; rewrite orb_false_r; reflexivity|]. repeat (split; [reflexivity|]). split; [intros x _; reflexivity | intros x []].
  - inversion HF as [|d' e ds' g' He HF' E1 E2]; subst. inversion ND as [|? ? Hnd ND']; subst. destruct (Hd d (or_introl eq_refl)) as (Hd1 & Hd2 & Hd3). destruct He as (K1 & K2 & K3 & K4 & K5).
    cbn [load_all]. unfold load_node at 1. rewrite K1, (ck_parent dim k d Hd1), Hc, (Habs d (or_introl eq_refl)). cbv iota beta.
    destruct HW as [Hdim _]. assert (Hne : k <> ck dim k d) by (pose proof (ck_gt dim k d (proj1 Hk) (proj1 Hdim)); lia).
    set (x := mkr (set_nchildren_to_receive dim (set_shared dim hcell_new) (ne_nch e)) true (ne_owner e) (ne_data e)). unfold parent_add. rewrite (ck_parent dim k d Hd1), (ck_last dim k d Hd1).
    unfold rset at 1. replace (k =? ck dim k d) with false by (symmetry; apply N.eqb_neq; exact Hne). rewrite Hc. cbv iota beta.
    set (T1 := rset (rset T (ck dim k d) x) k (map_word (fun w => add_child w d) c)).
    assert (O1 : op_ok dim (AddChild d)) by exact Hd1. destruct (op_getters dim (r_word c) (AddChild d) Hwf O1) as (A1 & A2 & A3 & A4). cbn [exec1] in A1, A2, A3, A4.
    assert (T1k : T1 k = Some (map_word (fun w => add_child w d) c)) by (unfold T1, rset; rewrite N.eqb_refl; reflexivity).
    assert (T1d : forall k', k' <> k -> k' <> ck dim k d -> T1 k' = T k').
    { intros k' N1 N2. unfold T1, rset. replace (k' =? k) with false by (symmetry; apply N.eqb_neq; exact N1). replace (k' =? ck dim k d) with false by (symmetry; apply N.eqb_neq; exact N2). reflexivity. }
    assert (Hck : forall d', In d' ds -> ck dim k d' <> k /\ ck dim k d' <> ck dim k d).
    { intros d' Hin. split; [pose proof (ck_gt dim k d' (proj1 Hk) (proj1 Hdim)); lia|]. intros E. apply ck_inj in E; [|apply (Hd d' (or_intror Hin)) | exact Hd1]. destruct E as [_ ->]. contradiction. }
    destruct (IH g' k T1 _ HF' Hk ND' (fun d' H => Hd d' (or_intror H)) T1k) as (T' & c' & L & Tk & N1 & N2 & N3 & N4 & N5 & N6 & N7 & N8 & N9).
    + exact A1.
    + intros d' Hin. destruct (Hck d' Hin). rewrite T1d by assumption. apply Habs. right. exact Hin.
    + exists T', c'. split; [exact L|]. split; [exact Tk|]. split; [exact N1|]. split; [exact N2|]. split; [exact N3|]. split; [exact N4|].
      split; [intros d' Hd'; rewrite N5 by exact Hd'; cbn [map_word r_word existsb]; rewrite A2 by exact Hd'; rewrite (N.eqb_sym d d'), <- orb_assoc; reflexivity|].
      split; [rewrite N6; exact A3|]. split; [rewrite N7; exact A4|]. split.
      * intros k' Hn. cbn [map In] in Hn. transitivity (T1 k'); [apply N8; intros [E|E]; apply Hn; [left; exact E | right; right; exact E]|].
        apply T1d; intros E; apply Hn; [left | right; left]; congruence.
      * intros d' [<-|Hin]; [|apply N9, Hin]. exists x. split.
        { rewrite N8; [|intros [E|E]; [congruence|]; apply in_map_iff in E; destruct E as (y & Ey & Hy); destruct (Hck y Hy); congruence].
          unfold T1, rset. replace (ck dim k d =? k) with false by (symmetry; apply N.eqb_neq; congruence). rewrite N.eqb_refl. reflexivity. }
        unfold x. cbn [r_node r_data r_owner r_word].
        destruct (op_getters dim hcell_new SetShared (wf_new dim) I) as (S1 & S2 & S3 & S4). cbn [exec1] in S1, S2, S3, S4.
        destruct (op_getters dim _ (SetRecv (ne_nch e)) S1 K5) as (R1 & R2 & R3 & R4). cbn [exec1] in R1, R2, R3, R4.
        split; [reflexivity|]. split; [exact K2|]. split; [exact K3|]. split; [exact K4|]. split; [exact R1|]. split.
        -- intros y Hy. rewrite R2, S2 by exact Hy. rewrite new_child. reflexivity.
        -- rewrite R3, S3. unfold requested, hcell_new. rewrite N.land_0_l. reflexivity.
Qed.
Lemma load_entkids : forall ds g k T c, Forall2 (ent_entry k) ds g -> okkey dim k -> NoDup ds -> (forall d, In d ds -> d < B /\ w_kid W k d = true /\ w_isn W (ck dim k d) = false) ->
  T k = Some c -> wf_w dim (r_word c) -> (forall d, In d ds -> T (ck dim k d) = None) ->
  exists T' c', load_all (load_ent dim) T g = Some T' /\ T' k = Some c' /\ r_node c' = r_node c /\ r_owner c' = r_owner c /\ r_data c' = r_data c /\ wf_w dim (r_word c') /\
    (forall d, d < B -> get_child (r_word c') d = get_child (r_word c) d || existsb (N.eqb d) ds) /\ requested dim (r_word c') = requested dim (r_word c) /\ nchildren_to_receive dim (r_word c') = nchildren_to_receive dim (r_word c) /\
    same_but T T' (k :: map (ck dim k) ds) /\
    (forall d, In d ds -> exists x, T' (ck dim k d) = Some x /\ r_node x = false /\ r_data x = w_dat W (ck dim k d) /\ (r_owner x < n)%nat /\ V (r_owner x) (ck dim k d) /\ wf_w dim (r_word x)).
Proof.
  induction ds as [|d ds IH]; intros g k T c HF Hk ND Hd Hc Hwf Habs.
  - inversion HF; subst. exists T, c. cbn [load_all]. split; [reflexivity|]. split; [exact Hc|]. repeat (split; [reflexivity|]). split; [exact Hwf|]. split; [intros x _; rewrite orb_false_r; reflexivity|]. repeat (split; [reflexivity|]). split; [intros x _; reflexivity | intros x []].
  - inversion HF as [|d' e ds' g' He HF' E1 E2]; subst. inversion ND as [|? ? Hnd ND']; subst. destruct (Hd d (or_introl eq_refl)) as (Hd1 & Hd2 & Hd3). destruct He as (K1 & K2 & K3 & K4).
    cbn [load_all]. unfold load_ent at 1. rewrite K1, (ck_parent dim k d Hd1), Hc, (Habs d (or_introl eq_refl)). cbv iota beta.
    destruct HW as [Hdim _]. assert (Hne : k <> ck dim k d) by (pose proof (ck_gt dim k d (proj1 Hk) (proj1 Hdim)); lia).
    cbv zeta. set (x := mkr (set_shared dim hcell_new) false (ee_owner e) (ee_data e)). unfold parent_add. rewrite (ck_parent dim k d Hd1), (ck_last dim k d Hd1).
    unfold rset at 1. replace (k =? ck dim k d) with false by (symmetry; apply N.eqb_neq; exact Hne). rewrite Hc. cbv iota beta.
    set (T1 := rset (rset T (ck dim k d) x) k (map_word (fun w => add_child w d) c)).
    assert (O1 : op_ok dim (AddChild d)) by exact Hd1. destruct (op_getters dim (r_word c) (AddChild d) Hwf O1) as (A1 & A2 & A3 & A4). cbn [exec1] in A1, A2, A3, A4.
    assert (T1k : T1 k = Some (map_word (fun w => add_child w d) c)) by (unfold T1, rset; rewrite N.eqb_refl; reflexivity).
    assert (T1d : forall k', k' <> k -> k' <> ck dim k d -> T1 k' = T k').
    { intros k' N1 N2. unfold T1, rset. replace (k' =? k) with false by (symmetry; apply N.eqb_neq; exact N1). replace (k' =? ck dim k d) with false by (symmetry; apply N.eqb_neq; exact N2). reflexivity. }
    assert (Hck : forall d', In d' ds -> ck dim k d' <> k /\ ck dim k d' <> ck dim k d).
    { intros d' Hin. split; [pose proof (ck_gt dim k d' (proj1 Hk) (proj1 Hdim)); lia|]. intros E. apply ck_inj in E; [|apply (Hd d' (or_intror Hin)) | exact Hd1]. destruct E as [_ ->]. contradiction. }
    destruct (IH g' k T1 _ HF' Hk ND' (fun d' H => Hd d' (or_intror H)) T1k) as (T' & c' & L & Tk & N1 & N2 & N3 & N4 & N5 & N6 & N7 & N8 & N9).
    + exact A1.
    + intros d' Hin. destruct (Hck d' Hin). rewrite T1d by assumption. apply Habs. right. exact Hin.
    + exists T', c'. split; [exact L|]. split; [exact Tk|]. split; [exact N1|]. split; [exact N2|]. split; [exact N3|]. split; [exact N4|].
      split; [intros d' Hd'; rewrite N5 by exact Hd'; cbn [map_word r_word existsb]; rewrite A2 by exact Hd'; rewrite (N.eqb_sym d d'), <- orb_assoc; reflexivity|].
      split; [rewrite N6; exact A3|]. split; [rewrite N7; exact A4|]. split.
      * intros k' Hn. cbn [map In] in Hn. transitivity (T1 k'); [apply N8; intros [E|E]; apply Hn; [left; exact E | right; right; exact E]|].
        apply T1d; intros E; apply Hn; [left | right; left]; congruence.
      * intros d' [<-|Hin]; [|apply N9, Hin]. exists x. split.
        { rewrite N8; [|intros [E|E]; [congruence|]; apply in_map_iff in E; destruct E as (y & Ey & Hy); destruct (Hck y Hy); congruence].
          unfold T1, rset. replace (ck dim k d =? k) with false by (symmetry; apply N.eqb_neq; congruence). rewrite N.eqb_refl. reflexivity. }
        unfold x. cbn [r_node r_data r_owner r_word].
        destruct (op_getters dim hcell_new SetShared (wf_new dim) I) as (S1 & _). cbn [exec1] in S1. split; [reflexivity|]. split; [exact K2|]. split; [exact K3|]. split; [exact K4 | exact S1].
Qed.
Lemma load_all_app : forall {E} (f : rtable D -> E -> option (rtable D)) a b T, load_all f T (a ++ b) = match load_all f T a with Some T1 => load_all f T1 b | None => None end.
Proof. intros E f. induction a as [|x a IH]; intros b T; cbn [load_all app]; [reflexivity|]. destruct (f T x); [apply IH | reflexivity]. Qed.
Lemma okkey_of k : w_isn W k = true -> okkey dim k. Proof. intros H. apply HW, H. Qed.
Lemma bare_not_root T k c : tok T -> T k = Some c -> bare (r_word c) -> k <> key_root.
Proof.
  intros HT Hc Hb ->. destruct (tk_root T HT) as (c0 & H0 & Hi & Hf). rewrite Hc in H0. injection H0 as <-. destruct HW as [_ HW']. destruct (HW' _ Hi) as [_ Hne]. apply Hne.
  destruct (kids key_root) as [|d l] eqn:E; [reflexivity|]. exfalso. assert (Hd : In d (kids key_root)) by (rewrite E; left; reflexivity). apply kids_in in Hd. destruct Hd as [Hd Hk]. rewrite <- (Hf d Hd), (Hb d Hd) in Hk. discriminate.
Qed.
(** a child that is in the table is known to its parent *)
Lemma child_known T k c d c' : tok T -> T k = Some c -> okkey dim k -> d < B -> T (ck dim k d) = Some c' -> get_child (r_word c) d = true.
Proof.
  intros HT Hc Hk Hd Hc'. destruct HW as [Hdim _]. destruct (tk_up T HT _ _ Hc') as (p & cp & d' & E & Hd' & _ & _ & Hp & Hg).
  - pose proof (ck_gt dim k d (proj1 Hk) (proj1 Hdim)). unfold key_root. destruct Hk. lia.
  - apply ck_inj in E; [|exact Hd | exact Hd']. destruct E as [-> ->]. congruence.
Qed.
Lemma filter_nodup f : NoDup (filter f (digits dim)). Proof. apply NoDup_filter, digits_nodup. Qed.
Lemma filter_digits f d : In d (filter f (digits dim)) <-> d < B /\ f d = true.
Proof. rewrite filter_In, digits_in. reflexivity. Qed.
Lemma existsb_digits f d : d < B -> existsb (N.eqb d) (filter f (digits dim)) = f d.
Proof.
  intros Hd. destruct (f d) eqn:E.
  - apply existsb_exists. exists d. split; [apply filter_digits; tauto | apply N.eqb_refl].
  - destruct (existsb (N.eqb d) (filter f (digits dim))) eqn:X; [|reflexivity]. apply existsb_exists in X. destruct X as (y & Hy & Ey). apply N.eqb_eq in Ey. subst y. apply filter_digits in Hy. destruct Hy. congruence.
Qed.
Lemma load_group_ok T k c e g : tok T -> T k = Some c -> w_isn W k = true -> bare (r_word c) -> own_entry k e -> Forall2 (kid_entry k) (filter (is_nd k) (digits dim)) g ->
  exists T' c', load_all (load_node dim) T (e :: g) = Some T' /\ tok T' /\ T' k = Some c' /\ half k (r_word c') /\ nchildren_to_receive dim (r_word c') = nkids k /\ requested dim (r_word c') = requested dim (r_word c) /\
    same_but T T' (k :: map (ck dim k) (filter (is_nd k) (digits dim))) /\
    (forall d, In d (filter (is_nd k) (digits dim)) -> T (ck dim k d) = None /\ exists x, T' (ck dim k d) = Some x /\ bare (r_word x) /\ requested dim (r_word x) = false).
Proof.
  intros HT Hc Hi Hb He Hg. pose proof (okkey_of k Hi) as Hk. pose proof (bare_not_root T k c HT Hc Hb) as Hnr. destruct He as (E1 & E2 & E3 & E4 & E5). destruct HW as [Hdim _].
  destruct (tk_up T HT k c Hc Hnr) as (p & cp & d0 & Ek & Hd0 & Hip & Hkp & Hp & Hgp). destruct (tk_cell T HT k c Hc) as (C1 & C2 & C3 & C4 & C5).
  assert (Hpk : p <> k) by (pose proof (ck_gt dim p d0 (proj1 (okkey_of p Hip)) (proj1 Hdim)); lia).
  set (c1 := mkr (set_nchildren_to_receive dim (set_shared dim (r_word c)) (ne_nch e)) true (ne_owner e) (ne_data e)).
  set (T1 := rset (rset T k c1) p (map_word (fun w => add_child w d0) cp)).
  assert (L1 : load_node dim T e = Some T1).
  { unfold load_node. rewrite E1. assert (EP : key_parent dim k = p) by (rewrite Ek; apply ck_parent, Hd0). assert (EL : key_last_value dim k = d0) by (rewrite Ek; apply ck_last, Hd0).
    rewrite EP, Hp, Hc, C1, Hi. cbv iota beta. unfold parent_add. rewrite EP, EL. unfold rset at 1. replace (p =? k) with false by (symmetry; apply N.eqb_neq; exact Hpk). rewrite Hp. reflexivity. }
  assert (T1k : T1 k = Some c1) by (unfold T1, rset; replace (k =? p) with false by (symmetry; apply N.eqb_neq; congruence); rewrite N.eqb_refl; reflexivity).
  assert (T1o : forall k', k' <> k -> T1 k' = T k').
  { intros k' Hn. unfold T1, rset. destruct (N.eqb_spec k' p) as [->|]; [|replace (k' =? k) with false by (symmetry; apply N.eqb_neq; exact Hn); reflexivity].
    rewrite Hp. unfold map_word. rewrite (add_child_idem _ _ Hgp). destruct cp; reflexivity. }
  destruct (op_getters dim (r_word c) SetShared C3 I) as (S1 & S2 & S3 & S4). cbn [exec1] in S1, S2, S3, S4.
  assert (Hnk : ne_nch e < 16) by (rewrite E5; pose proof (nkids_bound k); lia).
  destruct (op_getters dim _ (SetRecv (ne_nch e)) S1 Hnk) as (R1 & R2 & R3 & R4). cbn [exec1] in R1, R2, R3, R4.
  assert (Habs : forall d, d < B -> T (ck dim k d) = None).
  { intros d Hd. destruct (T (ck dim k d)) as [x|] eqn:X; [|reflexivity]. pose proof (child_known T k c d x HT Hc Hk Hd X). rewrite Hb in H by exact Hd. discriminate. }
  assert (Hck : forall d, ck dim k d <> k) by (intros d; pose proof (ck_gt dim k d (proj1 Hk) (proj1 Hdim)); lia).
  destruct (load_kids (filter (is_nd k) (digits dim)) g k T1 c1 Hg Hk (filter_nodup _)) as (T' & c' & L & Tk & N1 & N2 & N3 & N4 & N5 & N6 & N7 & N8 & N9).
  { intros d Hd. apply filter_digits in Hd. destruct Hd as [Hd Hn]. unfold is_nd in Hn. apply andb_true_iff in Hn. tauto. }
  { exact T1k. }
  { exact R1. }
  { intros d Hd. apply filter_digits in Hd. rewrite T1o by apply Hck. apply Habs. tauto. }
  assert (HS : same_but T T' (k :: map (ck dim k) (filter (is_nd k) (digits dim)))) by (intros k' Hn; rewrite (N8 k' Hn); apply T1o; intros ->; apply Hn; left; reflexivity).
  assert (HH : half k (r_word c')).
  { intros d Hd. rewrite N5 by exact Hd. unfold c1. cbn [r_word]. rewrite R2, S2, Hb by exact Hd. cbn [orb]. apply existsb_digits, Hd. }
  assert (cases : forall k' x, T' k' = Some x -> (k' = k /\ x = c') \/ (exists d, In d (filter (is_nd k) (digits dim)) /\ k' = ck dim k d) \/ (T k' = Some x /\ k' <> k)).
  { intros k' x Hx. destruct (N.eq_dec k' k) as [->|Hn]; [left; split; [reflexivity | congruence]|]. right. destruct (in_dec N.eq_dec k' (map (ck dim k) (filter (is_nd k) (digits dim)))) as [Hin|Hin].
    - left. apply in_map_iff in Hin. destruct Hin as (d & <- & Hd). exists d. tauto.
    - right. rewrite (HS k') in Hx; [tauto|]. intros [E|E]; [congruence | contradiction]. }
  assert (old : forall k' x, T k' = Some x -> k' <> k -> T' k' = Some x).
  { intros k' x Hx Hn. rewrite (HS k'); [exact Hx|]. intros [E|E]; [congruence|]. apply in_map_iff in E. destruct E as (d & <- & Hd). apply filter_digits in Hd. rewrite Habs in Hx by tauto. discriminate. }
  exists T', c'. split; [cbn [load_all]; rewrite L1; exact L|]. split; [constructor|].
  - intros k' x Hx. destruct (cases k' x Hx) as [[-> ->]|[(d & Hd & ->)|[Ho _]]].
    + rewrite N1, N2, N3. unfold c1. cbn [r_node r_owner r_data]. rewrite Hi. split; [reflexivity|]. split; [exact E2|]. split; [exact N4|]. split; [exact E3 | exact E4].
    + destruct (N9 d Hd) as (y & Hy & Y1 & Y2 & Y3 & Y4 & Y5 & Y6 & Y7). rewrite Hx in Hy. injection Hy as <-. apply filter_digits in Hd. unfold is_nd in Hd. rewrite andb_true_iff in Hd. destruct Hd as (_ & _ & Hd). rewrite Y1, Hd. tauto.
    + apply (tk_cell T HT k' x Ho).
  - intros k' x d Hx Hn Hd Hgd. destruct (cases k' x Hx) as [[-> ->]|[(d' & Hd' & ->)|[Ho Hne]]].
    + rewrite (HH d Hd) in Hgd. assert (Hf : In d (filter (is_nd k) (digits dim))) by (apply filter_digits; tauto). destruct (N9 d Hf) as (y & Hy & _). unfold is_nd in Hgd. apply andb_true_iff in Hgd. split; [tauto | exists y; exact Hy].
    + destruct (N9 d' Hd') as (y & Hy & Y1 & Y2 & Y3 & Y4 & Y5 & Y6 & Y7). rewrite Hx in Hy. injection Hy as <-. rewrite Y6 in Hgd by exact Hd. discriminate.
    + destruct (tk_down T HT k' x d Ho Hn Hd Hgd) as [K1 (y & Hy)]. split; [exact K1|]. destruct (N.eq_dec (ck dim k' d) k) as [E|E]; [rewrite E; exists c'; exact Tk | exists y; apply old; assumption].
  - intros k' x Hx Hr. destruct (cases k' x Hx) as [[-> ->]|[(d & Hd & ->)|[Ho Hne]]].
    + exists p, cp, d0. split; [exact Ek|]. repeat (split; [assumption|]). split; [apply old; assumption | exact Hgp].
    + apply filter_digits in Hd. exists k, c', d. split; [reflexivity|]. split; [tauto|]. split; [exact Hi|]. split; [unfold is_nd in Hd; rewrite andb_true_iff in Hd; tauto|]. split; [exact Tk|]. rewrite (HH d (proj1 Hd)). tauto.
    + destruct (tk_up T HT k' x Ho Hr) as (q & cq & d & Eq & Hd & Q1 & Q2 & Q3 & Q4). exists q, cq, d. split; [exact Eq|]. repeat (split; [assumption|]). split; [|exact Q4]. apply old; [exact Q3|]. intros ->. rewrite Hc in Q3. injection Q3 as <-. rewrite Hb in Q4 by exact Hd. discriminate.
  - destruct (tk_root T HT) as (c0 & H0 & H1 & H2). exists c0. split; [apply old; [exact H0 | congruence] | tauto].
  - split; [exact Tk|]. split; [exact HH|]. split; [rewrite N7; unfold c1; cbn [r_word]; rewrite R4; exact E5|]. split; [rewrite N6; unfold c1; cbn [r_word]; rewrite R3, S3; reflexivity|]. split; [exact HS|].
    intros d Hd. split; [apply Habs; apply filter_digits in Hd; tauto|]. destruct (N9 d Hd) as (y & Hy & _ & _ & _ & _ & _ & Y6 & Y7). exists y. tauto.
Qed.
Lemma load_nodes_ok : forall ks ns, nodesok ks ns -> forall T, tok T -> NoDup ks -> (forall k, In k ks -> w_isn W k = true /\ exists c, T k = Some c /\ bare (r_word c)) ->
  exists T', load_all (load_node dim) T ns = Some T' /\ tok T' /\
    (forall k c, T k = Some c -> ~ In k ks -> T' k = Some c) /\
    (forall k c, In k ks -> T k = Some c -> exists c', T' k = Some c' /\ half k (r_word c') /\ nchildren_to_receive dim (r_word c') = nkids k /\ requested dim (r_word c') = requested dim (r_word c)) /\
    (forall k x, T k = None -> T' k = Some x -> bare (r_word x) /\ requested dim (r_word x) = false).
Proof.
  induction 1 as [|k ks e g rest He Hg Hrest IH]; intros T HT ND Hks.
  - exists T. cbn [load_all]. split; [reflexivity|]. split; [exact HT|]. split; [tauto|]. split; [intros k c []|]. intros k x Hx Hy. congruence.
  - inversion ND as [|? ? Hnin ND']; subst. destruct (Hks k (or_introl eq_refl)) as (Hi & c & Hc & Hb).
    destruct (load_group_ok T k c e g HT Hc Hi Hb He Hg) as (T1 & c1 & L1 & HT1 & Tk & Hh & Hn & Hr & HS & HN).
    assert (old : forall k' x, T k' = Some x -> k' <> k -> T1 k' = Some x).
    { intros k' x Hx Hne. rewrite (HS k'); [exact Hx|]. intros [E|E]; [congruence|]. apply in_map_iff in E. destruct E as (d & <- & Hd). destruct (HN d Hd) as [X _]. congruence. }
    destruct (IH T1 HT1 ND') as (T' & L & HT' & P1 & P2 & P3).
    { intros k' Hk'. destruct (Hks k' (or_intror Hk')) as (Hi' & c' & Hc' & Hb'). split; [exact Hi'|]. exists c'. split; [apply old; [exact Hc' | intros ->; contradiction] | exact Hb']. }
    exists T'. split.
    { change (e :: g ++ rest) with ((e :: g) ++ rest). rewrite load_all_app, L1. exact L. }
    split; [exact HT'|]. split.
    { intros k' x Hx Hni. apply P1; [apply old; [exact Hx | intros ->; apply Hni; left; reflexivity] | intros X; apply Hni; right; exact X]. }
    split.
    { intros k' x [<-|Hin] Hx.
      - rewrite Hc in Hx. injection Hx as <-. exists c1. split; [apply P1; assumption|]. tauto.
      - apply (P2 k' x Hin). apply old; [exact Hx | intros ->; contradiction]. }
    intros k' x Hx Hy. destruct (T1 k') as [y|] eqn:EY; [|apply (P3 k' x EY Hy)].
    assert (Hin : In k' (k :: map (ck dim k) (filter (is_nd k) (digits dim)))) by (destruct (in_dec N.eq_dec k' (k :: map (ck dim k) (filter (is_nd k) (digits dim)))) as [X|X]; [exact X | rewrite (HS k' X) in EY; congruence]).
    destruct Hin as [E|Hin]; [congruence|]. apply in_map_iff in Hin. destruct Hin as (d & <- & Hd). destruct (HN d Hd) as [X (z & Z1 & Z2 & Z3)]. rewrite Z1 in EY. injection EY as <-.
    assert (NI : ~ In (ck dim k d) ks) by (intros Y; destruct (Hks _ (or_intror Y)) as (_ & y & Y1 & _); congruence). rewrite (P1 _ _ Z1 NI) in Hy. injection Hy as <-. tauto.
Qed.
Lemma load_entgroup_ok T k c g : tok T -> T k = Some c -> w_isn W k = true -> half k (r_word c) -> Forall2 (ent_entry k) (filter (is_ent k) (digits dim)) g ->
  exists T' c', load_all (load_ent dim) T g = Some T' /\ tok T' /\ T' k = Some c' /\ full k (r_word c') /\ nchildren_to_receive dim (r_word c') = nchildren_to_receive dim (r_word c) /\ requested dim (r_word c') = requested dim (r_word c) /\
    same_but T T' (k :: map (ck dim k) (filter (is_ent k) (digits dim))) /\ (forall d, In d (filter (is_ent k) (digits dim)) -> T (ck dim k d) = None /\ w_isn W (ck dim k d) = false).
Proof.
  intros HT Hc Hi Hh Hg. pose proof (okkey_of k Hi) as Hk. destruct HW as [Hdim _]. destruct (tk_cell T HT k c Hc) as (C1 & C2 & C3 & C4 & C5).
  assert (Hck : forall d, ck dim k d <> k) by (intros d; pose proof (ck_gt dim k d (proj1 Hk) (proj1 Hdim)); lia).
  assert (Habs : forall d, In d (filter (is_ent k) (digits dim)) -> T (ck dim k d) = None).
  { intros d Hd. apply filter_digits in Hd. destruct (T (ck dim k d)) as [x|] eqn:X; [|reflexivity]. pose proof (child_known T k c d x HT Hc Hk (proj1 Hd) X) as H. rewrite Hh in H by tauto. unfold is_ent, is_nd in *. destruct Hd as [_ Hd].
    destruct (w_kid W k d), (w_isn W (ck dim k d)); discriminate. }
  assert (Hent : forall d, In d (filter (is_ent k) (digits dim)) -> d < B /\ w_kid W k d = true /\ w_isn W (ck dim k d) = false).
  { intros d Hd. apply filter_digits in Hd. destruct Hd as [Hd He]. unfold is_ent in He. apply andb_true_iff in He. destruct He as [He1 He2]. apply negb_true_iff in He2. tauto. }
  destruct (load_entkids (filter (is_ent k) (digits dim)) g k T c Hg Hk (filter_nodup _) Hent Hc C3 Habs) as (T' & c' & L & Tk & N1 & N2 & N3 & N4 & N5 & N6 & N7 & N8 & N9).
  assert (HF : full k (r_word c')).
  { intros d Hd. rewrite N5, Hh by exact Hd. rewrite existsb_digits by exact Hd. unfold is_nd, is_ent. destruct (w_kid W k d), (w_isn W (ck dim k d)); reflexivity. }
  assert (cases : forall k' x, T' k' = Some x -> (k' = k /\ x = c') \/ (exists d, In d (filter (is_ent k) (digits dim)) /\ k' = ck dim k d) \/ (T k' = Some x /\ k' <> k)).
  { intros k' x Hx. destruct (N.eq_dec k' k) as [->|Hn]; [left; split; [reflexivity | congruence]|]. right. destruct (in_dec N.eq_dec k' (map (ck dim k) (filter (is_ent k) (digits dim)))) as [Hin|Hin].
    - left. apply in_map_iff in Hin. destruct Hin as (d & <- & Hd). exists d. tauto.
    - right. rewrite (N8 k') in Hx; [tauto|]. intros [E|E]; [congruence | contradiction]. }
  assert (old : forall k' x, T k' = Some x -> k' <> k -> T' k' = Some x).
  { intros k' x Hx Hn. rewrite (N8 k'); [exact Hx|]. intros [E|E]; [congruence|]. apply in_map_iff in E. destruct E as (d & <- & Hd). rewrite (Habs d Hd) in Hx. discriminate. }
  exists T', c'. split; [exact L|]. split; [constructor|].
  - intros k' x Hx. destruct (cases k' x Hx) as [[-> ->]|[(d & Hd & ->)|[Ho _]]].
    + rewrite N1, N2, N3. tauto.
    + destruct (N9 d Hd) as (y & Hy & Y1 & Y2 & Y3 & Y4 & Y5). rewrite Hx in Hy. injection Hy as <-. destruct (Hent d Hd) as (_ & _ & Hf). rewrite Y1, Hf. tauto.
    + apply (tk_cell T HT k' x Ho).
  - intros k' x d Hx Hn Hd Hgd. destruct (cases k' x Hx) as [[-> ->]|[(d' & Hd' & ->)|[Ho Hne]]].
    + rewrite N5, Hh, existsb_digits in Hgd by exact Hd. destruct (is_nd k d) eqn:X.
      * assert (Hg0 : get_child (r_word c) d = true) by (rewrite Hh by exact Hd; exact X). destruct (tk_down T HT k c d Hc Hi Hd Hg0) as [K1 (y & Hy)]. split; [exact K1|]. exists y. apply old; [exact Hy | apply Hck].
      * cbn [orb] in Hgd. assert (Hf : In d (filter (is_ent k) (digits dim))) by (apply filter_digits; tauto). destruct (N9 d Hf) as (y & Hy & _). split; [apply (Hent d Hf) | exists y; exact Hy].
    + destruct (Hent d' Hd') as (_ & _ & Hf). congruence.
    + destruct (tk_down T HT k' x d Ho Hn Hd Hgd) as [K1 (y & Hy)]. split; [exact K1|]. destruct (N.eq_dec (ck dim k' d) k) as [E|E]; [rewrite E; exists c'; exact Tk | exists y; apply old; assumption].
  - assert (upk : forall k' p cp d, k' = ck dim p d -> d < B -> T p = Some cp -> get_child (r_word cp) d = true -> exists cp', T' p = Some cp' /\ get_child (r_word cp') d = true).
    { intros k' p cp d Ek Hd Hp Hgd. destruct (N.eq_dec p k) as [->|Hn]; [|exists cp; split; [apply old; assumption | exact Hgd]]. exists c'. split; [exact Tk|]. rewrite Hc in Hp. injection Hp as <-. rewrite N5 by exact Hd. rewrite Hgd. reflexivity. }
    intros k' x Hx Hr. destruct (cases k' x Hx) as [[-> ->]|[(d & Hd & ->)|[Ho Hne]]].
    + destruct (tk_up T HT k c Hc Hr) as (q & cq & d & Eq & Hd & Q1 & Q2 & Q3 & Q4). destruct (upk k q cq d Eq Hd Q3 Q4) as (cp' & P1 & P2). exists q, cp', d. tauto.
    + destruct (Hent d Hd) as (D1 & D2 & D3). exists k, c', d. split; [reflexivity|]. split; [exact D1|]. split; [exact Hi|]. split; [exact D2|]. split; [exact Tk|]. rewrite (HF d D1). exact D2.
    + destruct (tk_up T HT k' x Ho Hr) as (q & cq & d & Eq & Hd & Q1 & Q2 & Q3 & Q4). destruct (upk k' q cq d Eq Hd Q3 Q4) as (cp' & P1 & P2). exists q, cp', d. tauto.
  - destruct (tk_root T HT) as (c0 & H0 & H1 & H2). destruct (N.eq_dec key_root k) as [E|E]; [exists c'; rewrite E; split; [exact Tk|]; split; [exact Hi | exact HF] | exists c0; split; [apply old; assumption | tauto]].
  - split; [exact Tk|]. split; [exact HF|]. split; [exact N7|]. split; [exact N6|]. split; [exact N8|]. intros d Hd. split; [apply Habs, Hd | apply (Hent d Hd)].
Qed.
Lemma load_ents_ok : forall ks es, entsok ks es -> forall T, tok T -> NoDup ks -> (forall k, In k ks -> w_isn W k = true /\ exists c, T k = Some c /\ half k (r_word c)) ->
  exists T', load_all (load_ent dim) T es = Some T' /\ tok T' /\
    (forall k c, T k = Some c -> ~ In k ks -> T' k = Some c) /\
    (forall k c, In k ks -> T k = Some c -> exists c', T' k = Some c' /\ full k (r_word c') /\ nchildren_to_receive dim (r_word c') = nchildren_to_receive dim (r_word c) /\ requested dim (r_word c') = requested dim (r_word c)) /\
    (forall k x, T k = None -> T' k = Some x -> w_isn W k = false).
Proof.
  induction 1 as [|k ks g rest Hg Hrest IH]; intros T HT ND Hks.
  - exists T. cbn [load_all]. split; [reflexivity|]. split; [exact HT|]. split; [tauto|]. split; [intros k c []|]. intros k x Hx Hy. congruence.
  - inversion ND as [|? ? Hnin ND']; subst. destruct (Hks k (or_introl eq_refl)) as (Hi & c & Hc & Hb).
    destruct (load_entgroup_ok T k c g HT Hc Hi Hb Hg) as (T1 & c1 & L1 & HT1 & Tk & Hf & Hn & Hr & HS & HN).
    assert (old : forall k' x, T k' = Some x -> k' <> k -> T1 k' = Some x).
    { intros k' x Hx Hne. rewrite (HS k'); [exact Hx|]. intros [E|E]; [congruence|]. apply in_map_iff in E. destruct E as (d & <- & Hd). destruct (HN d Hd) as [X _]. congruence. }
    destruct (IH T1 HT1 ND') as (T' & L & HT' & P1 & P2 & P3).
    { intros k' Hk'. destruct (Hks k' (or_intror Hk')) as (Hi' & c' & Hc' & Hb'). split; [exact Hi'|]. exists c'. split; [apply old; [exact Hc' | intros ->; contradiction] | exact Hb']. }
    exists T'. split; [rewrite load_all_app, L1; exact L|]. split; [exact HT'|]. split.
    { intros k' x Hx Hni. apply P1; [apply old; [exact Hx | intros ->; apply Hni; left; reflexivity] | intros X; apply Hni; right; exact X]. }
    split.
    { intros k' x [<-|Hin] Hx.
      - rewrite Hc in Hx. injection Hx as <-. exists c1. split; [apply P1; assumption|]. tauto.
      - apply (P2 k' x Hin). apply old; [exact Hx | intros ->; contradiction]. }
    intros k' x Hx Hy. destruct (T1 k') as [y|] eqn:EY; [|apply (P3 k' x EY Hy)].
    assert (Hin : In k' (k :: map (ck dim k) (filter (is_ent k) (digits dim)))) by (destruct (in_dec N.eq_dec k' (k :: map (ck dim k) (filter (is_ent k) (digits dim)))) as [X|X]; [exact X | rewrite (HS k' X) in EY; congruence]).
    destruct Hin as [E|Hin]; [congruence|]. apply in_map_iff in Hin. destruct Hin as (d & <- & Hd). apply (HN d Hd).
Qed.

(** ** Replies *)
Lemma kid_nodes_ok T k c : tok T -> T k = Some c -> w_isn W k = true -> full k (r_word c) -> forall ds, (forall d, In d ds -> d < B) ->
  exists g, kid_nodes dim T k (r_word c) ds = Some g /\ Forall2 (kid_entry k) (filter (is_nd k) ds) g.
Proof.
  intros HT Hc Hi Hf. induction ds as [|d ds IH]; intros Hd; cbn [kid_nodes filter]; [exists []; split; [reflexivity | constructor]|].
  destruct (IH (fun x H => Hd x (or_intror H))) as (g & E & F). pose proof (Hd d (or_introl eq_refl)) as Hd0. rewrite (Hf d Hd0). unfold is_nd. destruct (w_kid W k d) eqn:K; cbn [andb]; [|exists g; tauto].
  rewrite (ck_push dim k d (okkey_of k Hi) Hd0). assert (Hg : get_child (r_word c) d = true) by (rewrite (Hf d Hd0); exact K). destruct (tk_down T HT k c d Hc Hi Hd0 Hg) as [_ (x & Hx)]. rewrite Hx, E.
  destruct (tk_cell T HT _ _ Hx) as (X1 & X2 & X3 & X4 & X5). rewrite X1. destruct (w_isn W (ck dim k d)) eqn:I; [|exists g; tauto].
  eexists. split; [reflexivity|]. constructor; [|exact F]. repeat split; cbn [ne_key ne_data ne_owner ne_nch]; [exact X2 | exact X4 | exact X5|].
  rewrite nchildren_filter. destruct HW as [Hdim _]. assert (L : (length (filter (get_child (r_word x)) (digits dim)) <= length (digits dim))%nat).
  { generalize (digits dim). intros l. induction l as [|y l IHl]; cbn; [lia|]. destruct (get_child (r_word x) y); cbn; lia. }
  unfold digits in L at 2. rewrite map_length, seq_length, N.shiftl_1_l in L. assert (2 ^ dim <= 2 ^ 3) by (apply N.pow_le_mono_r; lia). change (2 ^ 3) with 8 in *. lia.
Qed.
Lemma kid_ents_ok T k c : tok T -> T k = Some c -> w_isn W k = true -> full k (r_word c) -> forall ds, (forall d, In d ds -> d < B) ->
  exists g, kid_ents dim T k (r_word c) ds = Some g /\ Forall2 (ent_entry k) (filter (is_ent k) ds) g.
Proof.
  intros HT Hc Hi Hf. induction ds as [|d ds IH]; intros Hd; cbn [kid_ents filter]; [exists []; split; [reflexivity | constructor]|].
  destruct (IH (fun x H => Hd x (or_intror H))) as (g & E & F). pose proof (Hd d (or_introl eq_refl)) as Hd0. rewrite (Hf d Hd0). unfold is_ent. destruct (w_kid W k d) eqn:K; cbn [andb]; [|exists g; tauto].
  rewrite (ck_push dim k d (okkey_of k Hi) Hd0). assert (Hg : get_child (r_word c) d = true) by (rewrite (Hf d Hd0); exact K). destruct (tk_down T HT k c d Hc Hi Hd0 Hg) as [_ (x & Hx)]. rewrite Hx, E.
  destruct (tk_cell T HT _ _ Hx) as (X1 & X2 & X3 & X4 & X5). rewrite X1. destruct (w_isn W (ck dim k d)) eqn:I; cbn [negb]; [exists g; tauto|].
  eexists. split; [reflexivity|]. constructor; [|exact F]. repeat split; cbn [ee_key ee_data ee_owner]; [exact X2 | exact X4 | exact X5].
Qed.
Lemma replies_ok : forall ks T, tok T -> (forall k, In k ks -> w_isn W k = true /\ exists c, T k = Some c /\ full k (r_word c)) ->
  exists ns es, reply_nodes dim T ks = Some ns /\ reply_ents dim T ks = Some es /\ nodesok ks ns /\ entsok (filter hasent ks) es /\ ent_keys dim T ks = filter hasent ks /\ (ks <> [] -> ns <> []) /\ (es = [] <-> filter hasent ks = []).
Proof.
  induction ks as [|k ks IH]; intros T HT Hks; cbn [reply_nodes reply_ents filter ent_keys].
  - exists [], []. repeat split; try constructor; tauto.
  - destruct (IH T HT (fun x H => Hks x (or_intror H))) as (ns & es & E1 & E2 & N1 & N2 & N3 & N4 & N5). destruct (Hks k (or_introl eq_refl)) as (Hi & c & Hc & Hf).
    assert (HB : forall d, In d (digits dim) -> d < B) by (intros d Hd; apply digits_in, Hd).
    destruct (kid_nodes_ok T k c HT Hc Hi Hf _ HB) as (g & G1 & G2). destruct (kid_ents_ok T k c HT Hc Hi Hf _ HB) as (h & H1 & H2). rewrite Hc, G1, E1, H1, E2.
    destruct (tk_cell T HT k c Hc) as (C1 & C2 & C3 & C4 & C5).
    assert (HH : hasent k = match h with [] => false | _ => true end).
    { unfold hasent. destruct h as [|x h].
      - inversion H2 as [E|]. destruct (existsb (is_ent k) (digits dim)) eqn:X; [|reflexivity]. apply existsb_exists in X. destruct X as (d & Hd & Y). assert (In d (filter (is_ent k) (digits dim))) by (apply filter_In; tauto). rewrite <- E in H. destruct H.
      - inversion H2 as [|d y ds' h' _ _ E]. subst. apply existsb_exists. assert (Hd : In d (filter (is_ent k) (digits dim))) by (rewrite <- E; left; reflexivity). apply filter_In in Hd. exists d. exact Hd. }
    eexists _, _. split; [reflexivity|]. split; [reflexivity|]. split; [constructor; [|exact G2 | exact N1]|].
    + repeat split; cbn [ne_key ne_data ne_owner ne_nch]; [exact C2 | exact C4 | exact C5 | apply full_count, Hf].
    + split.
      { rewrite HH. destruct h as [|x h]; [exact N2|]. constructor; [exact H2 | exact N2]. }
      split; [fold (ent_keys dim T ks); rewrite N3, HH; destruct h; reflexivity|]. split; [discriminate|]. rewrite HH. destruct h; cbn [app]; [exact N5 | split; discriminate].
Qed.
End Tables.
End W.
