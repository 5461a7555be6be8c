(** What a table holds while the branches are shared, and what loading an item does to it. *)
From Coq Require Import Sorted.
From Verif Require Import Base Key_model Key_spec Key_proofs HCell_model HCell_props
  BuildTree_model BuildTree_spec BuildTree_lemmas BuildTree_inv BuildTree_turn BuildTree_proofs BuildTree_shape.
From Verif Require Import Share_model Share_lemmas Share_sums.
From Verif Require Comms_lemmas.
Local Open Scope N_scope.
Notation wf_w := Comms_lemmas.wf_w.

Lemma depth_loop_some dim : 1 <= dim -> forall n q d, q < 2 ^ N.of_nat n -> exists d', depth_loop (S n) dim q d = Some d' /\ d <= d' /\ (2 ^ dim <= q -> d < d').
Proof.
  intros Hd. induction n as [|n IH]; intros q d Hq.
  - cbn [depth_loop]. assert (q = 0) by (change (2 ^ N.of_nat 0) with 1 in Hq; lia). subst. rewrite N.shiftr_0_l. exists d. split; [reflexivity|]. split; [lia|]. pose proof (N.pow_nonzero 2 dim). lia.
  - cbn [depth_loop]. rewrite N.shiftr_div_pow2. destruct (N.eqb_spec (q / 2 ^ dim) 0) as [E|E].
    + exists d. split; [reflexivity|]. split; [lia|]. intros H. exfalso. assert (1 <= q / 2 ^ dim); [|lia]. apply N.div_le_lower_bound; [apply N.pow_nonzero; lia | lia].
    + destruct (IH (q / 2 ^ dim) (d + 1)) as (d' & E1 & E2 & _); [|exists d'; split; [exact E1 | lia]].
      apply N.div_lt_upper_bound; [apply N.pow_nonzero; lia|]. apply N.lt_le_trans with (1 := Hq). rewrite Nat2N.inj_succ, N.pow_succ_r'. apply N.mul_le_mono_r. rewrite <- (N.pow_1_r 2) at 1. apply N.pow_le_mono_r; lia.
Qed.
Lemma pop_value_some dim q : 1 <= dim -> 2 ^ dim <= q -> q < 2 ^ 64 -> key_pop_value dim q = Some (key_last_value dim q, q / 2 ^ dim).
Proof.
  intros Hd H1 H2. unfold key_pop_value, key_depth. destruct (depth_loop_some dim Hd 64 q 0) as (d & E & _ & H); [exact H2|]. rewrite E. replace (0 <? d) with true by (specialize (H H1); lia). unfold key_last_value. rewrite N.shiftr_div_pow2. reflexivity.
Qed.

Set Default Proof Using "All".
Section Tab.
Context {Ent Sum : Type} (dim : N) (Hdim : dim_ok dim) (f : N -> list Ent -> list Sum -> Sum).
Context (pss : list (list (N * Ent))).
Notation D := (max_depth dim).
Notation B := (2 ^ dim).
Notation up := (up dim).
Notation full := (full dim).
Notation has := (has dim).
Notation many := (many dim).
Notation internal := (internal dim).
Notation cell_ex := (cell_ex dim).
Notation P := (P pss).
Notation K := (K pss).
Notation ks := (ks pss).
Notation nr := (nr pss).
Notation solo := (solo dim pss).
Notation lone := (lone dim pss).
Notation gdat := (gdat dim f pss).
Notation stable := (stable Ent Sum).
Notation scell := (scell Ent Sum).
Implicit Types (t : stable) (c : scell) (X L F : N -> N -> Prop).
Hypothesis Hne : forall ps, In ps pss -> ps <> [].
Hypothesis Hsort : StronglySorted N.lt K.
Hypothesis Hfull : Forall full K.

Lemma dim_ge1 : 1 <= dim <= 3. Proof. destruct Hdim as [->|[->| ->]]; lia. Qed.
Lemma has_level l q : l <= D -> has K l q -> at_level dim l q.
Proof. intros Hl (k & Hk & <-). apply (up_range dim Hdim); [exact Hl|]. rewrite Forall_forall in Hfull. apply Hfull, Hk. Qed.
Lemma has_unique l l' q : l <= D -> l' <= D -> has K l q -> has K l' q -> l = l'.
Proof. intros H H' A A'. apply (level_unique dim Hdim l l' q); auto; apply has_level; assumption. Qed.
Lemma level_word l q : l <= D -> at_level dim l q -> q < 2 ^ 64 /\ (l < D -> B <= q) /\ 1 <= q.
Proof.
  intros Hl [H1 H2]. unfold at_level in *. pose proof dim_ge1 as Hd.
  assert (HB : 2 ^ 1 <= B) by (apply N.pow_le_mono_r; lia). change (2 ^ 1) with 2 in HB.
  assert (H3 : B ^ (D - l) <= B ^ D) by (apply N.pow_le_mono_r; lia).
  assert (H4 : 2 * B ^ D <= 2 ^ 64) by (destruct Hdim as [->|[->| ->]]; vm_compute; discriminate).
  split; [lia|]. split.
  - intros Hlt. apply N.le_trans with (2 := H1). rewrite <- (N.pow_1_r B) at 1. apply N.pow_le_mono_r; lia.
  - assert (B ^ (D - l) <> 0) by (apply N.pow_nonzero; lia). lia.
Qed.
Lemma pop_up l k : l < D -> In k K -> key_pop_value dim (up l k) = Some (key_last_value dim (up l k), up (l + 1) k).
Proof.
  intros Hl Hk. assert (Hlv : at_level dim l (up l k)) by (apply has_level; [lia | exists k; split; [exact Hk | reflexivity]]). destruct (level_word l (up l k) ltac:(lia) Hlv) as (H1 & H2 & _).
  rewrite pop_value_some; [rewrite (up_S dim Hdim); reflexivity | apply dim_ge1 | apply H2, Hl | exact H1].
Qed.

Record cok (L F : N -> N -> Prop) (l q : N) (c : scell) : Prop := mkcok
  { ck_w : wf_w dim (s_word c);
    ck_rq : requested dim (s_word c) = false;
    ck_nr : nchildren_to_receive dim (s_word c) = 0;
    ck_kid : forall d, d < B -> (get_child (s_word c) d = true <-> 1 <= l /\ L (l - 1) (q * B + d));
    ck_set : match s_set c with Some x => F l q /\ x = gdat l q | None => ~ F l q end;
    ck_own : has (ks (s_owner c)) l q }.
(** [X]: the cells (level, key) of the table; [L]: those linked from their parent; [F]: those with a content *)
Record TI (X L F : N -> N -> Prop) (t : stable) : Prop := mkTI
  { ti_sound : forall q c, t q = Some c -> exists l, l <= D /\ X l q;
    ti_cell : forall l q, l <= D -> X l q -> exists c, t q = Some c /\ cok L F l q c }.
Definition inK X : Prop := forall l q, X l q -> l <= D /\ has K l q.
Lemma cok_ext L L' F F' l q c : l <= D -> (forall d, d < B -> 1 <= l -> (L (l - 1) (q * B + d) <-> L' (l - 1) (q * B + d))) -> (F l q <-> F' l q) -> cok L F l q c -> cok L' F' l q c.
Proof.
  intros Hl HL HF [A1 A2 A3 A4 A5 A6]. constructor; try assumption.
  - intros d Hd. rewrite (A4 d Hd). split; intros [H1 H2]; (split; [exact H1|]); apply (HL d Hd H1), H2.
  - destruct (s_set c); [rewrite <- HF; exact A5 | rewrite <- HF; exact A5].
Qed.
Lemma TI_ext X X' L L' F F' t : (forall l q, l <= D -> (X l q <-> X' l q)) -> (forall l q, l <= D -> (L l q <-> L' l q)) -> (forall l q, l <= D -> X l q -> (F l q <-> F' l q)) -> TI X L F t -> TI X' L' F' t.
Proof.
  intros HX HL HF [A1 A2]. constructor.
  - intros q c Hc. destruct (A1 q c Hc) as (l & Hl & H). exists l. split; [exact Hl | apply HX; assumption].
  - intros l q Hl H. apply HX in H; [|exact Hl]. destruct (A2 l q Hl H) as (c & Hc & Hk). exists c. split; [exact Hc|]. apply (cok_ext L L' F F' l q c Hl); [|apply HF; assumption | exact Hk]. intros d _ H1. apply HL. lia.
Qed.
Lemma TI_put X X' L L' F F' t l q c : inK X -> l <= D -> has K l q ->
  (forall l' q', X' l' q' <-> X l' q' \/ (l' = l /\ q' = q)) ->
  (forall l' q' d, X l' q' -> q' <> q -> d < B -> 1 <= l' -> (L (l' - 1) (q' * B + d) <-> L' (l' - 1) (q' * B + d))) ->
  (forall l' q', X l' q' -> q' <> q -> (F l' q' <-> F' l' q')) ->
  cok L' F' l q c -> TI X L F t -> TI X' L' F' (sput t q c).
Proof.
  intros HK Hl Hq HX HL HF Hc [A1 A2]. constructor.
  - intros q' c'. unfold sput. destruct (N.eqb_spec q' q) as [->|Hn].
    + intros _. exists l. split; [exact Hl | apply HX; right; tauto].
    + intros H. destruct (A1 q' c' H) as (l' & Hl' & Hx). exists l'. split; [exact Hl' | apply HX; left; exact Hx].
  - intros l' q' Hl' H. unfold sput. destruct (N.eqb_spec q' q) as [->|Hn].
    + exists c. split; [reflexivity|]. assert (l' = l); [|subst; exact Hc]. apply HX in H. destruct H as [H|[H _]]; [|exact H]. destruct (HK _ _ H) as [_ H1]. apply (has_unique l' l q); assumption.
    + apply HX in H. destruct H as [H|[_ H]]; [|congruence]. destruct (A2 l' q' Hl' H) as (c' & Hc' & Hk). exists c'. split; [exact Hc'|]. apply (cok_ext L L' F F' l' q' c' Hl'); [|apply HF; assumption | exact Hk]. intros d Hd H1. apply HL; assumption.
Qed.

(** ** Loading one branch *)
Section Load.
Variables (X : N -> N -> Prop) (rank s : nat) (k l0 : N).
Hypothesis HX : inK X.
Hypothesis Hroot : X D 1.
Hypothesis Hup : forall l q, X l q -> l < D -> X (l + 1) (q / B).
Hypothesis Hk : In k (ks s).
Hypothesis Hl0 : l0 < D.
Hypothesis Hsolo : solo s l0 (up l0 k).
Hypothesis Hpar : ~ lone (l0 + 1) (up (l0 + 1) k).
Lemma kK : In k K. Proof. apply (ks_in dim Hdim pss Hne Hsort Hfull) in Hk. tauto. Qed.
Lemma above_not_lone l : l0 < l -> ~ lone l (up l k).
Proof.
  intros Hl (s' & H). apply Hpar. exists s'. apply (solo_down dim Hdim pss Hne Hsort Hfull s' l (l0 + 1) k); [lia | apply kK | exact H].
Qed.
Definition XJ (j : N) : N -> N -> Prop := fun l q => X l q \/ (l0 <= l <= j /\ q = up l k).
Definition LJ (j : N) : N -> N -> Prop := fun l q => X l q \/ (l0 <= l < j /\ q = up l k).
Lemma XJ_inK j : j <= D -> inK (XJ j).
Proof. intros Hj l q [H|[H ->]]; [apply HX, H|]. split; [lia|]. exists k. split; [apply kK | reflexivity]. Qed.
Lemma path_key l q d : 1 <= l -> d < B -> (q * B + d = up (l - 1) k <-> q = up l k /\ d = key_last_value dim (up (l - 1) k)).
Proof.
  intros Hl Hd. rewrite (up_digit dim Hdim (l - 1) k) at 1. replace (l - 1 + 1) with l by lia. split.
  - intros E. apply (child_digit dim) in E; [|exact Hd | apply (last_value_lt dim Hdim)]. exact E.
  - intros [-> ->]. reflexivity.
Qed.
Lemma wf_add c d : d < B -> wf_w dim (s_word c) -> wf_w dim (add_child (s_word c) d) /\ (forall x, x < B -> get_child (add_child (s_word c) d) x = get_child (s_word c) x || (d =? x)) /\
  requested dim (add_child (s_word c) d) = requested dim (s_word c) /\ nchildren_to_receive dim (add_child (s_word c) d) = nchildren_to_receive dim (s_word c).
Proof. intros Hd Hw. destruct (Comms_lemmas.op_getters dim (s_word c) (AddChild d) Hw) as (A & A1 & A2 & A3); [exact Hd|]. cbn [HCell_props.exec1] in *. repeat split; assumption. Qed.
Lemma wf_shared w : wf_w dim w -> wf_w dim (set_shared dim w) /\ (forall x, x < B -> get_child (set_shared dim w) x = get_child w x) /\
  requested dim (set_shared dim w) = requested dim w /\ nchildren_to_receive dim (set_shared dim w) = nchildren_to_receive dim w.
Proof. intros Hw. destruct (Comms_lemmas.op_getters dim w SetShared Hw) as (A & A1 & A2 & A3); [exact I|]. cbn [HCell_props.exec1] in *. split; [exact A|]. split; [|split; assumption]. intros x Hx. rewrite (A1 x Hx). apply orb_false_r. Qed.

Lemma add_parent_ok : forall m j t fuel, j + N.of_nat m = D -> l0 <= j -> (m < fuel)%nat -> TI (XJ j) (LJ j) lone t ->
  j < D -> exists t', add_parent dim fuel rank t (up (j + 1) k) (key_last_value dim (up j k)) s = Some t' /\ TI (XJ D) (XJ D) lone t'.
Proof.
  induction m as [|m IH]; intros j t fuel Hj Hlj Hf HT Hjd; [lia|]. destruct fuel as [|fuel]; [lia|]. cbn [add_parent].
  assert (Hdg : key_last_value dim (up j k) < B) by apply (last_value_lt dim Hdim).
  assert (HKj : has K (j + 1) (up (j + 1) k)) by (exists k; split; [apply kK | reflexivity]).
  (* the links after the bit is set *)
  assert (HLj : forall l' q' d, XJ j l' q' -> q' <> up (j + 1) k -> d < B -> 1 <= l' -> (LJ j (l' - 1) (q' * B + d) <-> LJ (j + 1) (l' - 1) (q' * B + d))).
  { intros l' q' d Hx Hn Hd H1. unfold LJ. split; (intros [H|[H2 H3]]; [left; exact H|]).
    - right. split; [lia | exact H3].
    - apply path_key in H3; [|assumption..]. destruct H3 as [H3 H4]. destruct (N.eq_dec (l' - 1) j) as [E|E]; [exfalso; apply Hn; replace (j + 1) with l' by lia; exact H3|]. right. split; [lia|]. apply path_key; tauto. }
  destruct (t (up (j + 1) k)) as [p|] eqn:Ep.
  - (* found *)
    destruct (ti_sound _ _ _ _ HT _ _ Ep) as (l & Hl & Hx).
    assert (l = j + 1) by (apply (has_unique l (j + 1) (up (j + 1) k)); [exact Hl | lia | apply (XJ_inK j ltac:(lia)) in Hx; tauto | exact HKj]). subst l.
    assert (HXp : X (j + 1) (up (j + 1) k)) by (destruct Hx as [Hx|[Hx _]]; [exact Hx | lia]).
    assert (HXall : forall l, j + 1 <= l -> l <= D -> X l (up l k)).
    { intros l Hl1. replace l with ((j + 1) + (l - (j + 1))) by lia. generalize (l - (j + 1)). intros a. induction a as [|a IHa] using N.peano_ind; intros Ha; [replace (j + 1 + 0) with (j + 1) by lia; exact HXp|].
      replace (j + 1 + N.succ a) with (j + 1 + a + 1) by lia. rewrite (up_S dim Hdim). apply Hup; [apply IHa; lia | lia]. }
    destruct (ti_cell _ _ _ _ HT _ _ Hl Hx) as (p' & Ep' & Cp). rewrite Ep in Ep'. injection Ep' as <-.
    destruct Cp as [A1 A2 A3 A4 A5 A6]. destruct (wf_add p (key_last_value dim (up j k)) Hdg A1) as (B1 & B2 & B3 & B4).
    eexists. split; [reflexivity|].
    apply (TI_ext (XJ j) (XJ D) (LJ (j + 1)) (XJ D) lone lone).
    + intros l q Hl'. unfold XJ. split; (intros [H|[H1 H2]]; [left; exact H|]); [right; split; [lia | exact H2]|]. destruct (N.le_gt_cases l j); [right; split; [lia | exact H2]|]. left. subst q. apply HXall; lia.
    + intros l q Hl'. unfold XJ, LJ. split; (intros [H|[H1 H2]]; [left; exact H|]); [right; split; [lia | exact H2]|]. destruct (N.le_gt_cases l j); [right; split; [lia | exact H2]|]. left. subst q. apply HXall; lia.
    + intros. reflexivity.
    + apply (TI_put (XJ j) (XJ j) (LJ j) (LJ (j + 1)) lone lone t (j + 1) (up (j + 1) k)).
      * apply XJ_inK. lia.
      * lia.
      * exact HKj.
      * intros l' q'. split; [tauto|]. intros [H|[-> ->]]; [exact H | exact Hx].
      * exact HLj.
      * intros. reflexivity.
      * constructor; cbn [s_word s_set s_owner]; try assumption; [rewrite B3; exact A2 | rewrite B4; exact A3|].
        intros d Hd. rewrite (B2 d Hd), orb_true_iff, (A4 d Hd), N.eqb_eq. replace (j + 1 - 1) with j by lia. unfold LJ. split.
        -- intros [[H1 [H2|[H2 _]]]| <-]; [split; [lia | left; exact H2] | lia |]. split; [lia|]. right. split; [lia|]. rewrite (up_digit dim Hdim j k) at 2. reflexivity.
        -- intros [H1 [H2|[H2 H3]]]; [left; split; [lia | left; exact H2]|]. right. rewrite (up_digit dim Hdim j k) in H3. apply (child_digit dim) in H3; [|exact Hd | exact Hdg]. symmetry. apply H3.
      * exact HT.
  - (* created *)
    assert (Hj1 : j + 1 < D).
    { destruct (N.eq_dec (j + 1) D) as [E|]; [|lia]. exfalso. destruct (ti_cell _ _ _ _ HT D 1) as (c & Hc & _); [lia | left; exact Hroot|]. rewrite E, (up_root dim Hdim) in Ep; [congruence|]. apply (K_full dim Hdim pss Hne Hsort Hfull), kK. }
    rewrite (pop_up (j + 1) k Hj1 kK). cbn [fst snd].
    assert (HnX : ~ X (j + 1) (up (j + 1) k)) by (intros H; destruct (ti_cell _ _ _ _ HT (j + 1) (up (j + 1) k)) as (c & Hc & _); [lia | left; exact H | congruence]).
    destruct (wf_shared hcell_new (Comms_lemmas.wf_new dim)) as (B1 & B2 & B3 & B4).
    destruct (wf_add (@mks Ent Sum (set_shared dim hcell_new) None s) (key_last_value dim (up j k)) Hdg B1) as (C1 & C2 & C3 & C4). cbn [s_word] in *.
    apply IH; [lia | lia | lia | | lia].
    apply (TI_put (XJ j) (XJ (j + 1)) (LJ j) (LJ (j + 1)) lone lone t (j + 1) (up (j + 1) k)).
    + apply XJ_inK. lia.
    + lia.
    + exact HKj.
    + intros l' q'. unfold XJ. split.
      * intros [H|[H1 H2]]; [left; left; exact H|]. destruct (N.eq_dec l' (j + 1)) as [->|]; [right; split; [reflexivity | exact H2] | left; right; split; [lia | exact H2]].
      * intros [[H|[H1 H2]]|[-> ->]]; [left; exact H | right; split; [lia | exact H2] | right; split; [lia | reflexivity]].
    + exact HLj.
    + intros. reflexivity.
    + constructor; cbn [s_word s_set s_owner]; [exact C1 | rewrite C3, B3; vm_compute; destruct Hdim as [->|[->| ->]]; reflexivity | rewrite C4, B4; destruct Hdim as [->|[->| ->]]; reflexivity | | |].
      * intros d Hd. rewrite (C2 d Hd), (B2 d Hd), Comms_lemmas.new_child, orb_false_l, N.eqb_eq. replace (j + 1 - 1) with j by lia. unfold LJ. split.
        -- intros <-. split; [lia|]. right. split; [lia|]. rewrite (up_digit dim Hdim j k) at 2. reflexivity.
        -- intros [H1 [H2|[H2 H3]]].
           ++ exfalso. apply HnX. replace (up (j + 1) k) with ((up (j + 1) k * B + d) / B) by (apply (child_parent dim), Hd). apply Hup; [exact H2 | lia].
           ++ rewrite (up_digit dim Hdim j k) in H3. apply (child_digit dim) in H3; [|exact Hd | exact Hdg]. symmetry. apply H3.
      * apply above_not_lone. lia.
      * exists k. split; [exact Hk | reflexivity].
    + exact HT.
Qed.
Lemma TI_pt X0 L0 F0 t t' : (forall q, t' q = t q) -> TI X0 L0 F0 t -> TI X0 L0 F0 t'.
Proof. intros H [A1 A2]. constructor; [intros q c; rewrite H; apply A1 | intros l q Hl Hx; rewrite H; apply A2; assumption]. Qed.
Definition q0 : N := up l0 k.
Lemma put_ok t : TI X X lone t -> TI (XJ l0) (LJ l0) lone (sput t q0 (mks (set_shared dim (match t q0 with Some c => s_word c | None => hcell_new end)) (Some (gdat l0 q0)) s)).
Proof.
  intros HT. assert (Hh : has K l0 q0) by (exists k; split; [apply kK | reflexivity]).
  assert (HL : forall l q, LJ l0 l q <-> X l q) by (intros l q; unfold LJ; split; [intros [H|[H _]]; [exact H | lia] | left; assumption]).
  apply (TI_put X (XJ l0) X (LJ l0) lone lone t l0 q0).
  - exact HX.
  - lia.
  - exact Hh.
  - intros l' q'. unfold XJ, q0. split; (intros [H|[H1 H2]]; [left; exact H | right]); [assert (l' = l0) by lia; subst; split; reflexivity | subst; split; [lia | reflexivity]].
  - intros. symmetry. apply HL.
  - intros. reflexivity.
  - assert (W : exists w, (match t q0 with Some c => s_word c | None => hcell_new end) = w /\ wf_w dim w /\ requested dim w = false /\ nchildren_to_receive dim w = 0 /\ forall d, d < B -> (get_child w d = true <-> 1 <= l0 /\ LJ l0 (l0 - 1) (q0 * B + d))).
    { destruct (t q0) as [c|] eqn:E.
      - destruct (ti_sound _ _ _ _ HT _ _ E) as (l & Hl & Hx). assert (l = l0) by (destruct (HX _ _ Hx); apply (has_unique l l0 q0); [assumption | lia | assumption..]). subst l.
        destruct (ti_cell _ _ _ _ HT _ _ Hl Hx) as (c' & Hc' & [A1 A2 A3 A4 _ _]). rewrite E in Hc'. injection Hc' as <-. exists (s_word c). repeat (split; [first [reflexivity | assumption]|]). intros d Hd. rewrite HL. apply A4, Hd.
      - exists hcell_new. split; [reflexivity|]. split; [apply Comms_lemmas.wf_new|]. split; [destruct Hdim as [->|[->| ->]]; reflexivity|]. split; [destruct Hdim as [->|[->| ->]]; reflexivity|].
        intros d Hd. rewrite Comms_lemmas.new_child. split; [discriminate|]. intros [H1 H2]. exfalso. apply HL in H2. apply Hup in H2; [|lia]. replace (l0 - 1 + 1) with l0 in H2 by lia. rewrite (child_parent dim) in H2 by exact Hd.
        destruct (ti_cell _ _ _ _ HT l0 q0) as (c & Hc & _); [lia | exact H2 | congruence]. }
    destruct W as (w & -> & W1 & W2 & W3 & W4). destruct (wf_shared w W1) as (B1 & B2 & B3 & B4).
    constructor; cbn [s_word s_set s_owner]; [exact B1 | rewrite B3; exact W2 | rewrite B4; exact W3 | | |].
    + intros d Hd. rewrite (B2 d Hd). apply W4, Hd.
    + split; [exists s; exact Hsolo | reflexivity].
    + exists k. split; [exact Hk | reflexivity].
  - exact HT.
Qed.
Lemma finish_load t t2 : TI X X lone t -> (forall q, t2 q = sput t q0 (mks (set_shared dim (match t q0 with Some c => s_word c | None => hcell_new end)) (Some (gdat l0 q0)) s) q) ->
  exists t', (x <- key_pop_value dim q0 ;; add_parent dim 66 rank t2 (snd x) (fst x) s) = Some t' /\ TI (XJ D) (XJ D) lone t'.
Proof.
  intros HT E2. unfold q0 at 1. rewrite (pop_up l0 k Hl0 kK). cbn [fst snd].
  apply (add_parent_ok (N.to_nat (D - l0)) l0); [lia | lia | | | exact Hl0].
  - pose proof (D_le dim Hdim). lia.
  - apply (TI_pt _ _ _ _ _ E2), put_ok, HT.
Qed.
Lemma present t c : TI X X lone t -> t q0 = Some c -> s_set c = Some (gdat l0 q0).
Proof.
  intros HT E. destruct (ti_sound _ _ _ _ HT _ _ E) as (l & Hl & Hx).
  assert (l = l0) by (destruct (HX _ _ Hx); apply (has_unique l l0 q0); [assumption | lia | assumption | exists k; split; [apply kK | reflexivity]]). subst l.
  destruct (ti_cell _ _ _ _ HT _ _ Hl Hx) as (c' & Hc' & C). rewrite E in Hc'. injection Hc' as <-. pose proof (ck_set _ _ _ _ _ C) as S. destruct (s_set c) as [x|]; [destruct S as [_ ->]; reflexivity|]. exfalso. apply S. exists s. exact Hsolo.
Qed.
Lemma load_entity_ok t e : gdat l0 q0 = inl e -> TI X X lone t -> exists t', load_entity dim rank t (mki s q0 e) = Some t' /\ TI (XJ D) (XJ D) lone t'.
Proof.
  intros He HT. unfold load_entity. cbn [i_key i_val i_owner]. unfold semplace. destruct (t q0) as [c|] eqn:E.
  - rewrite E. apply (finish_load t); [exact HT|]. intros q. rewrite E, (present t c HT E). reflexivity.
  - replace (sput t q0 (snew rank (Some (inl e))) q0) with (Some (@snew Ent Sum rank (Some (inl e)))) by (unfold sput; rewrite N.eqb_refl; reflexivity).
    apply (finish_load t); [exact HT|]. intros q. rewrite E, He. unfold sput. destruct (q =? q0); reflexivity.
Qed.
Lemma load_node_ok t v : gdat l0 q0 = inr v -> TI X X lone t -> exists t', load_node dim rank t (mki s q0 v) = Some t' /\ TI (XJ D) (XJ D) lone t'.
Proof.
  intros He HT. unfold load_node. cbn [i_key i_val i_owner]. unfold semplace. destruct (t q0) as [c|] eqn:E.
  - rewrite E, (present t c HT E), He. apply (finish_load t); [exact HT|]. intros q. rewrite E, He. reflexivity.
  - replace (sput t q0 (snew rank None) q0) with (Some (@snew Ent Sum rank None)) by (unfold sput; rewrite N.eqb_refl; reflexivity). cbn [s_set snew].
    apply (finish_load t); [exact HT|]. intros q. rewrite E, He. unfold sput. destruct (q =? q0); reflexivity.
Qed.
End Load.
End Tab.
