(** The shared flag of entity cells: after the share rounds an entity cell is shared exactly
    when another rank owns it. *)
From Coq Require Import Sorted.
From Verif Require Import Base Key_model Key_spec Key_proofs HCell_model HCell_props
  BuildTree_model BuildTree_spec BuildTree_lemmas BuildTree_inv BuildTree_turn BuildTree_proofs BuildTree_shape.
From Verif Require Import Share_model Share_lemmas Share_sums Share_table Share_steps Share_update Share_local Share_rounds Share_final.
From Verif Require Comms_flags.
Local Open Scope N_scope.

Lemma pop_small dim k x : key_pop_value dim k = Some x -> fst x < 2 ^ dim.
Proof.
  unfold key_pop_value. destruct (key_depth dim k) as [d|]; [|discriminate]. destruct (0 <? d); [|discriminate]. intros H. injection H as <-. cbn [fst]. apply (Comms_flags.last_small dim).
Qed.
Lemma low_unshared dim w : (forall d, N.testbit w d = true -> d < 2 ^ dim) -> is_shared dim w = false.
Proof. intros H. rewrite Comms_flags.loc_bits. destruct (N.testbit w (2 ^ dim + 1)) eqn:E; [apply H in E; lia | apply andb_false_r]. Qed.
Section Flags.
Context {Ent Sum : Type} (dim : N) (f : N -> list Ent -> list Sum -> Sum).
Implicit Types (t : stable Ent Sum).
Definition flagged (r : nat) t : Prop := forall k c e, t k = Some c -> s_set c = Some (inl e) -> is_shared dim (s_word c) = negb (s_owner c =? r)%nat.
Lemma flag_put r t k c : flagged r t -> (forall e, s_set c = Some (inl e) -> is_shared dim (s_word c) = negb (s_owner c =? r)%nat) -> flagged r (sput t k c).
Proof. intros H Hc k' c' e Hk He. unfold sput in Hk. destruct (k' =? k); [injection Hk as <-; apply (Hc e He) | apply (H k' c' e Hk He)]. Qed.
Lemma flag_parent r : forall fuel t k d o t', d < 2 ^ dim -> flagged r t -> add_parent dim fuel r t k d o = Some t' -> flagged r t'.
Proof.
  induction fuel as [|g IH]; intros t k d o t' Hd H E; cbn [add_parent] in E; [discriminate|]. destruct (t k) as [p|] eqn:Ep.
  - injection E as <-. apply flag_put; [exact H|]. cbn [s_set s_word s_owner]. intros e He. rewrite Comms_flags.shared_add by exact Hd. apply (H k p e Ep He).
  - destruct (key_pop_value dim k) as [x|] eqn:Ex; [|discriminate]. apply (IH _ _ _ _ _ (pop_small dim k x Ex)) with (2 := E). apply flag_put; [exact H|]. discriminate.
Qed.
Lemma flag_entity r t it t' : i_owner it <> r -> flagged r t -> load_entity dim r t it = Some t' -> flagged r t'.
Proof.
  intros Ho H E. unfold load_entity in E. destruct (semplace t (i_key it) (snew r (Some (inl (i_val it)))) (i_key it)) as [c|] eqn:Ec; [|discriminate]. destruct (key_pop_value dim (i_key it)) as [x|] eqn:Ex; [|discriminate].
  apply (flag_parent r _ _ _ _ _ _ (pop_small dim _ x Ex)) with (2 := E).
  assert (forall k' c' e, k' <> i_key it -> semplace t (i_key it) (snew r (Some (inl (i_val it)))) k' = Some c' -> s_set c' = Some (inl e) -> is_shared dim (s_word c') = negb (s_owner c' =? r)%nat).
  { intros k' c' e Hk Hc He. unfold semplace in Hc. destruct (t (i_key it)); [apply (H k' c' e Hc He)|]. unfold sput in Hc. destruct (N.eqb_spec k' (i_key it)); [contradiction | apply (H k' c' e Hc He)]. }
  intros k' c' e Hk He. unfold sput in Hk. destruct (N.eqb_spec k' (i_key it)) as [->|Hn]; [|apply (H0 k' c' e Hn Hk He)].
  injection Hk as <-. cbn [s_word s_owner]. rewrite Comms_flags.shared_set. destruct (Nat.eqb_spec (i_owner it) r); [contradiction | reflexivity].
Qed.
Lemma flag_node r t it t' : flagged r t -> load_node dim r t it = Some t' -> flagged r t'.
Proof.
  intros H E. unfold load_node in E. set (t1 := semplace t (i_key it) (snew r None)) in *.
  assert (H1 : flagged r t1) by (unfold t1, semplace; destruct (t (i_key it)); [exact H | apply flag_put; [exact H | discriminate]]).
  destruct (t1 (i_key it)) as [c|]; [|discriminate]. destruct (s_set c) as [[e|s]|]; [discriminate| |]; (destruct (key_pop_value dim (i_key it)) as [x|] eqn:Ex; [|discriminate]); apply (flag_parent r _ _ _ _ _ _ (pop_small dim _ x Ex)) with (2 := E); (apply flag_put; [exact H1 | discriminate]).
Qed.
Lemma flag_items {A} (ld : stable Ent Sum -> item A -> option (stable Ent Sum)) r : (forall t it t', i_owner it <> r -> flagged r t -> ld t it = Some t' -> flagged r t') ->
  forall l t t', flagged r t -> load_items ld r t l = Some t' -> flagged r t'.
Proof.
  intros Hl. induction l as [|it l IH]; intros t t' H E; cbn [load_items] in E; [injection E as <-; exact H|]. destruct (Nat.eqb_spec (i_owner it) r) as [|Hn]; [apply (IH t t' H E)|].
  destruct (ld t it) as [t1|] eqn:E1; [|discriminate]. apply (IH t1 t' (Hl t it t1 Hn H E1) E).
Qed.
Lemma flag_update r lo hi : forall fuel t k t', flagged r t -> cofm_update dim f fuel lo hi t k = Some t' -> flagged r t'.
Proof.
  induction fuel as [|g IH]; intros t k t' H E; cbn [cofm_update] in E; [discriminate|]. destruct (t k) as [c|]; [|discriminate]. destruct (key_boundary dim 66 k k) as [b|]; [|discriminate]. destruct ((lo <=? fst b) && (snd b <=? hi)); [|injection E as <-; exact H].
  destruct (s_set c); [injection E as <-; exact H|]. destruct (skids dim t k (s_word c) (digits dim)) as [ds|]; [|discriminate].
  assert (FO : forall ds a t1, (forall u, a = Some u -> flagged r u) -> fold_left (fun a d => match a with Some u => cofm_update dim f g lo hi u d | None => None end) ds a = Some t1 -> flagged r t1).
  { induction ds0 as [|d ds0 IHd]; intros a t1 Ha Ef; cbn [fold_left] in Ef; [apply Ha, Ef|]. apply (IHd _ t1) with (2 := Ef). intros u Hu. destruct a as [u0|]; [|discriminate]. apply (IH u0 d u (Ha u0 eq_refl) Hu). }
  destruct (fold_left _ ds (Some t)) as [t1|] eqn:Ef; [|discriminate]. assert (H1 : flagged r t1) by (apply (FO ds (Some t) t1); [intros u Hu; injection Hu as <-; exact H | exact Ef]).
  destruct (t1 k) as [c1|]; [|discriminate]. destruct (kid_data dim t1 k (s_word c1) (digits dim)) as [xs|]; [|discriminate]. injection E as <-. apply flag_put; [exact H1 | discriminate].
Qed.
Lemma flag_exchange r me other st : flagged r (k_tab me) -> exchange dim f r me other = Some st -> flagged r (k_tab st).
Proof.
  intros H E. unfold exchange in E. destruct (find_nodes dim 66 (k_tab other) [key_root]) as [x|]; [|discriminate]. destruct (load_items (load_entity dim r) r (k_tab me) (snd x)) as [t1|] eqn:E1; [|discriminate].
  destruct (load_items (load_node dim r) r t1 (fst x)) as [t2|] eqn:E2; [|discriminate]. destruct (cofm_update dim f 66 _ _ t2 key_root) as [t3|] eqn:E3; [|discriminate]. injection E as <-. cbn [k_tab].
  apply (flag_update r _ _ _ t2 key_root t3) with (2 := E3). apply (flag_items (load_node dim r) r (fun t it t' _ => flag_node r t it t') (fst x) t1 t2) with (2 := E2). apply (flag_items (load_entity dim r) r (flag_entity r) (snd x) (k_tab me) t1 H E1).
Qed.
Lemma mapo_nth {A C} (g : A -> option C) : forall l l', mapo g l = Some l' -> forall i y, nth_error l' i = Some y -> exists x, nth_error l i = Some x /\ g x = Some y.
Proof.
  induction l as [|a l IH]; intros l' E i y Hy; cbn [mapo] in E; [injection E as <-; destruct i; discriminate|]. destruct (g a) as [x|] eqn:Ea; [|discriminate]. destruct (mapo g l) as [rest|]; [|discriminate]. injection E as <-.
  destruct i as [|i]; [injection Hy as <-; exists a; split; [reflexivity | exact Ea] | apply (IH rest eq_refl i y Hy)].
Qed.
Lemma seq_nth n i x : nth_error (seq 0 n) i = Some x -> x = i.
Proof. intros H. assert (Hi : (i < length (seq 0 n))%nat) by (apply nth_error_Some; congruence). rewrite seq_length in Hi. rewrite (nth_error_nth' _ 0%nat) in H by (rewrite seq_length; exact Hi). rewrite seq_nth in H by exact Hi. injection H as <-. reflexivity. Qed.
Definition all_flagged (l : list (rank_st Ent Sum)) : Prop := forall r st, nth_error l r = Some st -> flagged r (k_tab st).
Lemma flag_rounds n : forall m i l l', all_flagged l -> share_rounds dim f n m i l = Some l' -> all_flagged l'.
Proof.
  induction m as [|m IH]; intros i l l' H E; cbn [share_rounds] in E; [injection E as <-; exact H|]. destruct (share_round dim f n i l) as [l1|] eqn:E1; [|discriminate]. apply (IH (S i) l1 l') with (2 := E).
  intros r st Hst. unfold share_round in E1. destruct (mapo_nth _ _ _ E1 r st Hst) as (r' & Hr & Es). apply seq_nth in Hr. subst r'. destruct (nth_error l r) as [me|] eqn:Em; [|discriminate]. destruct (Nat.lxor r (2 ^ i) <? n)%nat; [|injection Es as <-; apply (H r me Em)].
  destruct (nth_error l (Nat.lxor r (2 ^ i))) as [o|]; [|discriminate]. apply (flag_exchange r me o st (H r me Em) Es).
Qed.
End Flags.
Section Build.
Context {Ent Sum : Type} (dim : N) (Hdim : dim_ok dim) (f : N -> list Ent -> list Sum -> Sum) (pss : list (list (N * Ent))).
Hypothesis Hne : forall ps, In ps pss -> ps <> [].
Hypothesis Hsort : StronglySorted N.lt (K pss).
Hypothesis Hfull : Forall (full dim) (K pss).
Lemma flag_all l : build_all dim f pss = Some l -> all_flagged dim l.
Proof.
  intros E. unfold build_all in E. destruct (mapo (rank_build dim f pss) (seq 0 (length pss))) as [l0|] eqn:E0; [|discriminate]. apply (flag_rounds dim f _ _ _ l0 l) with (2 := E).
  intros r st Hst. destruct (mapo_nth _ _ _ E0 r st Hst) as (r' & Hr & Es). pose proof Hr as Hr'. apply seq_nth in Hr'. subst r'. apply nth_error_In, in_seq in Hr.
  destruct (rank_build_ok dim Hdim f pss Hne Hsort Hfull r) as (st' & A1 & _ & _ & _ & A5); [unfold nr; lia|]. rewrite Es in A1. injection A1 as <-. intros k c e Hc He. destruct (A5 k c Hc) as [-> A6]. rewrite Nat.eqb_refl. apply (low_unshared dim _ A6).
Qed.
End Build.
