(** The tables of the ranks during a traversal compared with the whole tree. *)
From Coq Require Import Sorted.
From Verif Require Import Base Key_model Key_spec Key_proofs HCell_model HCell_props
  BuildTree_model BuildTree_spec BuildTree_lemmas BuildTree_inv BuildTree_turn BuildTree_proofs BuildTree_shape.
From Verif Require Import Share_model Share_lemmas Share_sums Share_table Share_steps Share_update Share_local Share_rounds Share_final Share_world.
From Verif Require Comms_model Comms_lemmas Comms_inv Comms_steps.
Local Open Scope N_scope.
Import Comms_model.

Lemma word_full {D} dim n (W : world D) s r k c : inv dim n W s -> (r < n)%nat -> g_tab s r k = Some c -> r_node c = true -> empty_node dim c = false -> Comms_lemmas.full dim W k (r_word c).
Proof.
  intros H Hr Hc Hn He. destruct (Comms_lemmas.tk_cell _ _ _ _ _ (Comms_inv.i_tok _ _ _ _ H r Hr) k c Hc) as (C1 & _). rewrite Hn in C1.
  assert (NP : ~ In k (Comms_inv.pend n s r)) by (intros X; destruct (Comms_inv.pend_empty dim n W s r k H Hr X) as (c' & Hc' & He' & _); rewrite Hc in Hc'; injection Hc' as <-; congruence).
  destruct (Comms_inv.i_rest _ _ _ _ H r k c Hr Hc NP (eq_sym C1)) as [[F _]|[F _]]; [exact F|]. unfold empty_node in He. rewrite Hn, (Comms_lemmas.bare_empty dim _ F) in He. discriminate.
Qed.

Set Default Proof Using "All".
Section Reach.
Context {Ent Sum : Type} (dim : N) (Hdim : dim_ok dim) (f : N -> list Ent -> list Sum -> Sum).
Context (pss : list (list (N * Ent))).
Notation D := (max_depth dim).
Notation B := (2 ^ dim).
Notation K := (K pss).
Notation nr := (nr pss).
Notation cell_ex := (cell_ex dim).
Notation internal := (internal dim).
Hypothesis Hne : forall ps, In ps pss -> ps <> [].
Hypothesis Hsort : StronglySorted N.lt K.
Hypothesis Hfull : Forall (full dim) K.
Hypothesis Hn0 : (0 < nr)%nat.
Variables (one : stable Ent Sum).
Hypothesis H1 : one_ok dim f pss one.
Notation W := (tree_of one).
Lemma one_word q c : one q = Some c -> q < 2 ^ 64.
Proof.
  intros Hc. destruct (one_sound _ _ _ _ H1 q c Hc) as (l & Hl & He). pose proof (cell_ex_level dim Hdim K K l q Hfull Hl He) as Hlv. apply (level_word dim Hdim f pss Hne Hsort Hfull l q Hl Hlv).
Qed.
Lemma one_kid q c d : one q = Some c -> d < B -> get_child (s_word c) d = true -> exists c', one (q * B + d) = Some c'.
Proof.
  intros Hc Hd Hg. destruct (one_sound _ _ _ _ H1 q c Hc) as (l & Hl & He). destruct (one_cell _ _ _ _ H1 l q Hl He) as (c1 & Hc1 & _ & _ & _ & _ & _ & Hk). rewrite Hc in Hc1. injection Hc1 as <-. apply (Hk d Hd) in Hg. destruct Hg as [Hl1 Hg].
  destruct (one_cell _ _ _ _ H1 (l - 1) (q * B + d) ltac:(lia) Hg) as (c' & Hc' & _). exists c'. exact Hc'.
Qed.
Lemma one_node q c : one q = Some c -> isn (s_set c) = true -> Comms_lemmas.okkey dim q /\ is_empty_node dim (s_word c) = false.
Proof.
  intros Hc Hi. assert (Hw : w_isn W q = true) by (unfold Comms_lemmas.w_isn, tree_of; rewrite Hc; exact Hi). pose proof (w_wf dim Hdim f pss Hne Hsort Hfull Hn0 one H1) as HW. destruct HW as [W1 W2]. split; [apply (W2 q Hw)|].
  destruct (one_sound _ _ _ _ H1 q c Hc) as (l & Hl & He). destruct (one_cell _ _ _ _ H1 l q Hl He) as (c1 & Hc1 & _ & _ & _ & _ & Hn & _). rewrite Hc in Hc1. injection Hc1 as <-.
  apply (Comms_lemmas.full_not_empty dim W (conj W1 W2) q); [exact Hw | intros d Hd; unfold Comms_lemmas.w_kid, tree_of; rewrite Hc; reflexivity | rewrite Hn; lia].
Qed.
Section State.
Context (s : gstate (option (Ent + Sum))).
Hypothesis HI : inv dim nr W s.
Lemma in_one r k c : (r < nr)%nat -> g_tab s r k = Some c -> exists c1, one k = Some c1.
Proof.
  intros Hr Hc. pose proof (Comms_inv.i_tok _ _ _ _ HI r Hr) as T. destruct (N.eq_dec k key_root) as [->|Hk].
  - destruct (one_cell _ _ _ _ H1 D 1 (N.le_refl _)) as (c1 & Hc1 & _); [left; split; reflexivity|]. exists c1. exact Hc1.
  - destruct (Comms_lemmas.tk_up _ _ _ _ _ T k c Hc Hk) as (p & cp & d & -> & Hd & _ & Hw & _ & _). unfold Comms_lemmas.w_kid, tree_of in Hw. destruct (one p) as [cp1|] eqn:Ep; [|discriminate]. apply (one_kid p cp1 d Ep Hd Hw).
Qed.
Lemma state_cell r k c : (r < nr)%nat -> g_tab s r k = Some c -> exists c1, one k = Some c1 /\ r_data c = s_set c1 /\ r_node c = isn (s_set c1) /\
  (r_node c = true -> empty_node dim c = false -> forall d, d < B -> get_child (r_word c) d = get_child (s_word c1) d /\ (get_child (r_word c) d = true -> g_tab s r (k * B + d) <> None)).
Proof.
  intros Hr Hc. destruct (in_one r k c Hr Hc) as (c1 & Hc1). exists c1. split; [exact Hc1|]. pose proof (Comms_inv.i_tok _ _ _ _ HI r Hr) as T. destruct (Comms_lemmas.tk_cell _ _ _ _ _ T k c Hc) as (A1 & A2 & _).
  unfold Comms_lemmas.w_isn, Comms_lemmas.w_dat, tree_of in A1, A2. rewrite Hc1 in A1, A2. split; [exact A2|]. split; [exact A1|]. intros Hn He d Hd. pose proof (word_full dim nr W s r k c HI Hr Hc Hn He d Hd) as F. unfold Comms_lemmas.w_kid, tree_of in F. rewrite Hc1 in F. split; [exact F|].
  intros Hg. destruct (Comms_lemmas.tk_down _ _ _ _ _ T k c d Hc) as (_ & c' & Hc'); [unfold Comms_lemmas.w_isn, tree_of; rewrite Hc1; congruence | exact Hd | exact Hg|]. unfold Comms_lemmas.ck in Hc'. congruence.
Qed.
Lemma state_root r : (r < nr)%nat -> exists c, g_tab s r key_root = Some c.
Proof. intros Hr. destruct (Comms_lemmas.tk_root _ _ _ _ _ (Comms_inv.i_tok _ _ _ _ HI r Hr)) as (c & Hc & _). exists c. exact Hc. Qed.
End State.
End Reach.
