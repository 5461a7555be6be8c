(** The search of a rank in any state of a traversal. *)
From Coq Require Import Sorted.
From Verif Require Import Base Key_model Key_spec Key_proofs HCell_model HCell_props
  BuildTree_model BuildTree_spec BuildTree_lemmas BuildTree_inv BuildTree_turn BuildTree_proofs BuildTree_shape BuildTree_props.
From Verif Require Import Share_model Share_lemmas Share_sums Share_table Share_steps Share_update Share_local Share_rounds Share_final Share_world Share_reach.
From Verif Require Import Comms_model Vec Geometry_model Cofm_model Dist_model Dist_lemmas.
From Verif Require Comms_lemmas Comms_inv.
Local Open Scope N_scope.

Set Default Proof Using "All".
Section Reach.
Context {Ent : Type} (dim : N) (Hdim : dim_ok dim) (f : N -> list Ent -> list cofm -> cofm).
Context (pss : list (list (N * Ent))).
Notation B := (2 ^ dim).
Notation K := (K pss).
Notation nr := (nr pss).
Hypothesis Hne : forall ps, In ps pss -> ps <> [].
Hypothesis Hsort : StronglySorted N.lt K.
Hypothesis Hfull : Forall (BuildTree_lemmas.full dim) K.
Hypothesis Hn0 : (0 < nr)%nat.
Variables (one : stable Ent cofm).
Hypothesis H1 : one_ok dim f pss one.
Lemma look_one k w x : look_s one k = Some (w, x) <-> exists c, one k = Some c /\ s_word c = w /\ s_set c = Some x.
Proof.
  clear. unfold look_s. destruct (one k) as [c|]; [|split; [discriminate | intros (c & E & _); discriminate]]. destruct (s_set c) as [y|] eqn:E; split.
  - intros X. injection X as <- <-. exists c. tauto.
  - intros (c' & E' & <- & E2). injection E' as <-. congruence.
  - discriminate.
  - intros (c' & E' & _ & E2). injection E' as <-. congruence.
Qed.
Lemma one_set k c : one k = Some c -> s_set c <> None.
Proof.
  intros Hc. destruct (one_sound _ _ _ _ H1 k c Hc) as (l & Hl & He). destruct (one_cell _ _ _ _ H1 l k Hl He) as (c1 & Hc1 & _ & Hs & _). rewrite Hc in Hc1. injection Hc1 as <-. congruence.
Qed.
Lemma one_there k : one k <> None -> look_s one k <> None.
Proof. intros Hk. destruct (one k) as [c|] eqn:Hc; [|congruence]. unfold look_s. rewrite Hc. pose proof (one_set k c Hc). destruct (s_set c); congruence. Qed.
Lemma one_node_facts k w m : look_s one k = Some (w, inr m) -> Comms_lemmas.okkey dim k /\ is_empty_node dim w = false /\ forall d, d < B -> get_child w d = true -> look_s one (ck dim k d) <> None.
Proof.
  intros E. apply look_one in E. destruct E as (c & Hc & <- & Hs). destruct (one_node dim Hdim f pss Hne Hsort Hfull Hn0 one H1 k c Hc) as [A1 A2]; [rewrite Hs; reflexivity|]. split; [exact A1|]. split; [exact A2|].
  intros d Hd Hg. apply one_there. destruct (one_kid dim Hdim f pss Hne Hsort Hfull Hn0 one H1 k c d Hc Hd Hg) as (c' & Hc'). unfold Comms_lemmas.ck. congruence.
Qed.
Lemma agrees_one : agrees dim (look_s one) (look_s one).
Proof.
  split.
  - intros k w x E. split; [|exists w; exact E]. apply look_one in E. destruct E as (c & Hc & _). apply (one_word dim Hdim f pss Hne Hsort Hfull Hn0 one H1 k c Hc).
  - intros k w w1 m E E'. assert (w1 = w) by congruence. subst w1. destruct (one_node_facts k w m E) as (A1 & A2 & A3). split; [exact A1|]. split; [exact A2|]. split; [exact A3|]. intros _ d Hd. split; [reflexivity | apply (A3 d Hd)].
Qed.
Section State.
Context (s : gstate (option (Ent + cofm))).
Hypothesis HI : inv dim nr (tree_of one) s.
Variable r : nat.
Hypothesis Hr : (r < nr)%nat.
Lemma look_rank k w x : look_r (g_tab s r) k = Some (w, x) <-> exists c, g_tab s r k = Some c /\ r_word c = w /\ r_data c = Some x.
Proof.
  clear. unfold look_r. destruct (g_tab s r k) as [c|]; [|split; [discriminate | intros (c & E & _); discriminate]]. destruct (r_data c) as [y|] eqn:E; split.
  - intros X. injection X as <- <-. exists c. tauto.
  - intros (c' & E' & <- & E2). injection E' as <-. congruence.
  - discriminate.
  - intros (c' & E' & _ & E2). injection E' as <-. congruence.
Qed.
Lemma rank_there k : g_tab s r k <> None -> look_r (g_tab s r) k <> None.
Proof.
  intros Hk. destruct (g_tab s r k) as [c|] eqn:Hc; [|congruence]. destruct (state_cell dim Hdim f pss Hne Hsort Hfull Hn0 one H1 s HI r k c Hr Hc) as (c1 & Hc1 & E & _). unfold look_r. rewrite Hc, E. pose proof (one_set k c1 Hc1). destruct (s_set c1); congruence.
Qed.
Lemma agrees_rank : agrees dim (look_r (g_tab s r)) (look_s one).
Proof.
  split.
  - intros k w x E. apply look_rank in E. destruct E as (c & Hc & Hw & Hx). destruct (state_cell dim Hdim f pss Hne Hsort Hfull Hn0 one H1 s HI r k c Hr Hc) as (c1 & Hc1 & Ed & _). split; [apply (one_word dim Hdim f pss Hne Hsort Hfull Hn0 one H1 k c1 Hc1)|].
    exists (s_word c1). apply look_one. exists c1. split; [exact Hc1|]. split; [reflexivity | congruence].
  - intros k w w1 m E E'. destruct (one_node_facts k w1 m E') as (A1 & A2 & A3). split; [exact A1|]. split; [exact A2|]. split; [exact A3|]. apply look_rank in E. destruct E as (c & Hc & <- & Hx). apply look_one in E'. destruct E' as (c1 & Hc1 & <- & Hx1).
    intros He d Hd. destruct (state_cell dim Hdim f pss Hne Hsort Hfull Hn0 one H1 s HI r k c Hr Hc) as (c1' & Hc1' & Ed & En & Hk). rewrite Hc1 in Hc1'. injection Hc1' as <-. rewrite Hx1 in En. cbn [isn] in En.
    destruct (Hk En ltac:(unfold empty_node; rewrite En; exact He) d Hd) as [F1 F2]. split; [exact F1|]. intros Hg. apply rank_there. apply F2, Hg.
Qed.
Lemma root_there : look_r (g_tab s r) key_root <> None.
Proof. apply rank_there. destruct (state_root dim Hdim f pss Hne Hsort Hfull Hn0 one H1 s HI r Hr) as (c & ->). discriminate. Qed.
Lemma search_sim (eb : Ent -> body) cur nbs : exists res, dist_queue eb dim (look_r (g_tab s r)) 66 cur [key_root] nbs = Some res /\
  (forall nbs', res = Some nbs' -> dist_queue eb dim (look_s one) 66 cur [key_root] nbs = Some (Some nbs')) /\
  ((forall k w m, look_r (g_tab s r) k = Some (w, inr m) -> is_empty_node dim w = false) -> res <> None).
Proof.
  apply (dist_queue_sim eb dim _ _ ltac:(destruct Hdim as [->|[->| ->]]; lia) agrees_rank cur 66 0); [lia|]. intros k [<-|[]]. split; [apply root_there | unfold key_root; cbn; lia].
Qed.
End State.
Lemma search_one (eb : Ent -> body) cur nbs : exists nbs', dist_queue eb dim (look_s one) 66 cur [key_root] nbs = Some (Some nbs').
Proof.
  destruct (dist_queue_sim eb dim _ _ ltac:(destruct Hdim as [->|[->| ->]]; lia) agrees_one cur 66 0 [key_root] nbs) as (res & E & _ & Z); [lia | intros k [<-|[]]; split; [|unfold key_root; cbn; lia]|].
  - apply one_there. destruct (one_cell _ _ _ _ H1 (max_depth dim) 1 (N.le_refl _)) as (c1 & Hc1 & _); [left; split; reflexivity|]. change key_root with 1. congruence.
  - destruct res as [nbs'|]; [exists nbs'; exact E|]. exfalso. apply Z; [|reflexivity]. intros k w m Ek. apply (one_node_facts k w m Ek).
Qed.
End Reach.
