(** Every step keeps the invariant of Comms_inv. *)
From Coq Require Import Permutation.
From Verif Require Import Base Key_model HCell_model HCell_props BuildTree_model Comms_model Comms_lemmas Comms_inv.
Local Open Scope N_scope.

Section Steps.
Context {D : Type} (dim : N) (n : nat).
Notation B := (2 ^ dim).
Implicit Types (W : world D) (s : gstate D) (V : nat -> N -> Prop).
Local Notation inv := (inv dim n).
Local Notation pend := (pend n).
Local Notation early := (early n).
Local Notation late := (late n).

Lemma pend_same s s' r : (forall o, (o < n)%nat -> piece s' r o = piece s r o) -> pend s' r = pend s r.
Proof. intros H. apply flat_map_same. exact H. Qed.
(** steps that change neither tables nor channels *)
Lemma inv_start W s r : (r < n)%nat -> g_ph s r = Idle -> inv W s ->
  inv W (mkg (g_tab s) (g_chan s) (upd (g_ph s) r Working) (upd (g_done s) r (fun _ => false)) (g_all s) (upd (g_wait s) r [])).
Proof.
  intros Hr Hph H. destruct H. constructor; cbn [g_tab g_chan g_ph g_done g_all g_wait]; try assumption.
  - intros r' Hr' Hw. change (pend _ r') with (pend s r'). destruct (upd_cases (g_wait s) r [] r') as [[-> E]|[N1 E]]; rewrite E.
    + rewrite (i_quiet r Hr) by congruence. intros x [].
    + apply i_wait; [exact Hr'|]. rewrite upd_other in Hw by exact N1. exact Hw.
  - intros r' k Hr' Hw Hk. destruct (upd_cases (g_wait s) r [] r') as [[-> E]|[N1 E]]; rewrite E in Hk; [destruct Hk|]. apply i_ask; [exact Hr' | | exact Hk]. rewrite upd_other in Hw by exact N1. exact Hw.
  - intros r' Hr' Hw. change (pend _ r') with (pend s r'). destruct (upd_cases (g_ph s) r Working r') as [[-> E]|[N1 E]]; rewrite E in Hw; [congruence | apply i_quiet; assumption].
  - intros p q Hp Hq. specialize (i_done p q Hp Hq). unfold seen in *. cbn [g_ph g_done].
    assert (E1 : has_sent (upd (g_ph s) r Working p) = has_sent (g_ph s p)) by (destruct (upd_cases (g_ph s) r Working p) as [[-> E]|[_ E]]; rewrite E; [rewrite Hph|]; reflexivity). rewrite E1.
    destruct (Nat.eq_dec q r) as [->|Hne]; [rewrite ! upd_same; rewrite Hph in i_done; cbn [b2n]; exact i_done | rewrite ! upd_other by exact Hne; exact i_done].
  - intros q Hq Hw. destruct (upd_cases (g_ph s) r Working q) as [[-> E]|[N1 E]]; rewrite E in Hw; [congruence|]. rewrite upd_other by exact N1. apply i_all; assumption.
  - intros q p Hq Hp Hw. destruct (upd_cases (g_ph s) r Working q) as [[-> E]|[N1 E]]; rewrite E in Hw; [destruct Hw; congruence|]. rewrite upd_other by exact N1. apply i_left; assumption.
  - intros p q Hp Hq Hw. destruct (upd_cases (g_ph s) r Working p) as [[-> E]|[N1 E]]; rewrite E in Hw; [congruence|]. apply i_bar; assumption.
Qed.
Lemma inv_leave W s r : (r < n)%nat -> g_ph s r = Waiting -> g_all s r = true -> inv W s -> inv W (set_ph s r Left).
Proof.
  intros Hr Hph Hall H. destruct H. constructor; cbn [g_tab g_chan g_ph g_done g_all g_wait set_ph]; try assumption.
  - intros r' Hr' Hw. change (pend _ r') with (pend s r'). destruct (upd_cases (g_ph s) r Left r') as [[-> E]|[N1 E]]; rewrite E in Hw; [discriminate | apply i_wait; assumption].
  - intros r' k Hr' Hw Hk. destruct (upd_cases (g_ph s) r Left r') as [[-> E]|[N1 E]]; rewrite E in Hw; [discriminate | apply i_ask; assumption].
  - intros r' Hr' Hw. change (pend _ r') with (pend s r'). apply i_quiet; [exact Hr'|]. destruct (upd_cases (g_ph s) r Left r') as [[-> E]|[N1 E]]; rewrite E in Hw; congruence.
  - intros p q Hp Hq. specialize (i_done p q Hp Hq). unfold seen in *. cbn [g_ph g_done set_ph].
    assert (E1 : has_sent (upd (g_ph s) r Left p) = has_sent (g_ph s p)) by (destruct (upd_cases (g_ph s) r Left p) as [[-> E]|[_ E]]; rewrite E; [rewrite Hph|]; reflexivity). rewrite E1.
    destruct (Nat.eq_dec q r) as [->|Hne]; [rewrite ! upd_same; rewrite Hph in i_done; exact i_done | rewrite ! upd_other by exact Hne; exact i_done].
  - intros q Hq Hw. destruct (upd_cases (g_ph s) r Left q) as [[-> E]|[N1 E]]; rewrite E in Hw; [discriminate|]. apply i_all; assumption.
  - intros q p Hq Hp Hw. destruct (upd_cases (g_ph s) r Left q) as [[-> E]|[N1 E]]; rewrite E in Hw; [|apply i_left; assumption].
    rewrite (i_all r Hr Hph) in Hall. rewrite forallb_forall in Hall. apply Hall, in_ranks, Hp.
  - intros p q Hp Hq Hw. destruct (upd_cases (g_ph s) r Left p) as [[-> E]|[N1 E]]; rewrite E in Hw; [discriminate|]. apply i_bar; assumption.
Qed.
Lemma ndone_0 (l : list (msg D)) : ~ In MDone l -> ndone l = 0%nat.
Proof. induction l as [|m l IH]; intros H; [reflexivity|]. unfold ndone in *. cbn [filter]. destruct m; cbn [is_done]; try (apply IH; intros X; apply H; right; exact X). exfalso. apply H. left. reflexivity. Qed.
Lemma inv_waitall W s r : (r < n)%nat -> g_ph s r = Left -> (forall q, (q < n)%nat -> ~ In MDone (g_chan s r q)) -> inv W s -> inv W (set_ph s r AtBarrier).
Proof.
  intros Hr Hph Hd H. destruct H. constructor; cbn [g_tab g_chan g_ph g_done g_all g_wait set_ph]; try assumption.
  - intros r' Hr' Hw. change (pend _ r') with (pend s r'). destruct (upd_cases (g_ph s) r AtBarrier r') as [[-> E]|[N1 E]]; rewrite E in Hw; [discriminate | apply i_wait; assumption].
  - intros r' k Hr' Hw Hk. destruct (upd_cases (g_ph s) r AtBarrier r') as [[-> E]|[N1 E]]; rewrite E in Hw; [discriminate | apply i_ask; assumption].
  - intros r' Hr' Hw. change (pend _ r') with (pend s r'). apply i_quiet; [exact Hr'|]. destruct (upd_cases (g_ph s) r AtBarrier r') as [[-> E]|[N1 E]]; rewrite E in Hw; congruence.
  - intros p q Hp Hq. specialize (i_done p q Hp Hq). unfold seen in *. cbn [g_ph g_done set_ph].
    assert (E1 : has_sent (upd (g_ph s) r AtBarrier p) = has_sent (g_ph s p)) by (destruct (upd_cases (g_ph s) r AtBarrier p) as [[-> E]|[_ E]]; rewrite E; [rewrite Hph|]; reflexivity). rewrite E1.
    destruct (Nat.eq_dec q r) as [->|Hne]; [rewrite ! upd_same; rewrite Hph in i_done; exact i_done | rewrite ! upd_other by exact Hne; exact i_done].
  - intros q Hq Hw. destruct (upd_cases (g_ph s) r AtBarrier q) as [[-> E]|[N1 E]]; rewrite E in Hw; [discriminate|]. apply i_all; assumption.
  - intros q p Hq Hp Hw. destruct (upd_cases (g_ph s) r AtBarrier q) as [[-> E]|[N1 E]]; rewrite E in Hw; [|apply i_left; assumption]. apply i_left; tauto.
  - intros p q Hp Hq Hw. destruct (upd_cases (g_ph s) r AtBarrier p) as [[-> E]|[N1 E]]; rewrite E in Hw; [apply ndone_0, Hd, Hq|]. apply i_bar; assumption.
Qed.
(** nothing between two ranks that are both done, once the DONE has arrived *)
Lemma pend_nil_chan s p q : (p < n)%nat -> (q < n)%nat -> pend s p = [] -> reqs (g_chan s p q) = [] /\ headents (g_chan s q p) = [] /\ nods (g_chan s q p) = [].
Proof.
  intros Hp Hq H. assert (E : piece s p q = []).
  { destruct (piece s p q) as [|k l] eqn:E; [reflexivity|]. exfalso. assert (X : In k (pend s p)) by (apply in_flat_map; exists q; split; [apply in_ranks, Hq | rewrite E; left; reflexivity]). rewrite H in X. destruct X. }
  unfold piece in E. apply app_eq_nil in E. destruct E as [E1 E]. apply app_eq_nil in E. tauto.
Qed.
Lemma quiet_chan W s p q : inv W s -> (p < n)%nat -> (q < n)%nat -> g_ph s p <> Working -> g_ph s q <> Working -> ndone (g_chan s p q) = 0%nat -> g_chan s p q = [].
Proof.
  intros H Hp Hq Np Nq Hd. destruct (pend_nil_chan s p q Hp Hq (i_quiet _ _ _ _ H p Hp Np)) as (R & _ & _). destruct (pend_nil_chan s q p Hq Hp (i_quiet _ _ _ _ H q Hq Nq)) as (_ & He & No).
  apply (chan_nil dim n W (valid dim n W (g_tab s)) p q); try assumption. apply (i_chan _ _ _ _ H p q Hp Hq).
Qed.
Lemma inv_barrier W W' s t' : (forall r, (r < n)%nat -> g_ph s r = AtBarrier) -> start_ok dim n W' t' -> inv W s -> inv W' (mkg t' (g_chan s) (fun _ => Idle) (g_done s) (g_all s) (g_wait s)).
Proof.
  intros Hb [HW HT] H. assert (C0 : forall p q, (p < n)%nat -> (q < n)%nat -> g_chan s p q = []).
  { intros p q Hp Hq. apply (quiet_chan W s p q H Hp Hq); [rewrite Hb by assumption; discriminate..|]. apply (i_bar _ _ _ _ H p q Hp Hq). apply Hb, Hp. }
  assert (P0 : forall r, (r < n)%nat -> pend (mkg t' (g_chan s) (fun _ => Idle) (g_done s) (g_all s) (g_wait s)) r = []).
  { intros r Hr. change (pend _ r) with (pend s r). apply (i_quiet _ _ _ _ H r Hr). rewrite Hb by exact Hr. discriminate. }
  constructor; cbn [g_tab g_chan g_ph g_done g_all g_wait]; try assumption.
  - intros r Hr. apply (HT r Hr).
  - intros p q Hp Hq. rewrite (C0 p q Hp Hq). exact I.
  - intros r Hr. rewrite P0 by exact Hr. constructor.
  - intros r k Hr (o & Ho & Hk). cbn [g_chan] in Hk. rewrite (C0 r o Hr Ho), (C0 o r Ho Hr) in Hk. destruct Hk as [[]|[]].
  - intros r k Hr (o & Ho & Hk). cbn [g_chan] in Hk. rewrite (C0 o r Ho Hr) in Hk. destruct Hk.
  - intros r k c Hr Hc _. apply (proj2 (HT r Hr) k c Hc).
  - intros r Hr Hw. discriminate.
  - intros r k Hr Hw. discriminate.
  - intros r Hr _. apply P0, Hr.
  - intros p q Hp Hq. rewrite (C0 p q Hp Hq). reflexivity.
  - intros q Hq Hw. discriminate.
  - intros q p Hq Hp [Hw|Hw]; discriminate.
  - intros p q Hp Hq Hw. discriminate.
Qed.
Lemma inv_init W t dn al w : start_ok dim n W t -> inv W (g_init t dn al w).
Proof.
  intros [HW HT]. assert (P0 : forall r, pend (g_init t dn al w) r = []).
  { intros r. unfold pend, Comms_inv.pend, piece, g_init. cbn [g_chan]. induction (ranks n) as [|x l IH]; [reflexivity|]. exact IH. }
  constructor; cbn [g_init g_tab g_chan g_ph g_done g_all g_wait]; try assumption.
  - intros r Hr. apply (HT r Hr).
  - intros p q _ _. exact I.
  - intros r Hr. rewrite P0. constructor.
  - intros r k Hr (o & Ho & [[]|[]]).
  - intros r k Hr (o & Ho & []).
  - intros r k c Hr Hc _. apply (proj2 (HT r Hr) k c Hc).
  - discriminate.
  - discriminate.
  - intros r Hr _. apply P0.
  - reflexivity.
  - discriminate.
  - intros q p _ _ [X|X]; discriminate.
  - discriminate.
Qed.
Lemma inv_finish W s r : (r < n)%nat -> g_ph s r = Working -> (forall k c, In k (g_wait s r) -> g_tab s r k = Some c -> empty_node dim c = false) -> inv W s ->
  inv W (mkg (g_tab s) (fun p q => if (p =? r)%nat && (q <? n)%nat then g_chan s p q ++ [MDone] else g_chan s p q)
             (upd (g_ph s) r Waiting) (g_done s) (upd (g_all s) r false) (g_wait s)).
Proof.
  intros Hr Hph Hfin H. set (s' := mkg _ _ _ _ _ _).
  assert (P0 : pend s r = []).
  { destruct (pend s r) as [|k l] eqn:E; [reflexivity|]. exfalso. assert (Hk : In k (pend s r)) by (rewrite E; left; reflexivity). destruct (pend_empty dim n W s r k H Hr Hk) as (c & Hc & He & _).
    rewrite (Hfin k c) in He; [discriminate | apply (i_wait _ _ _ _ H r Hr Hph), Hk | exact Hc]. }
  assert (NE : no_ents_head [@MDone D]) by exact I.
  assert (CR : forall p q, reqs (g_chan s' p q) = reqs (g_chan s p q)) by (intros p q; unfold s'; cbn [g_chan]; destruct ((p =? r)%nat && (q <? n)%nat); [rewrite reqs_app; apply app_nil_r | reflexivity]).
  assert (CN : forall p q, nods (g_chan s' p q) = nods (g_chan s p q)) by (intros p q; unfold s'; cbn [g_chan]; destruct ((p =? r)%nat && (q <? n)%nat); [rewrite nods_app; apply app_nil_r | reflexivity]).
  assert (CH : forall p q, headents (g_chan s' p q) = headents (g_chan s p q)) by (intros p q; unfold s'; cbn [g_chan]; destruct ((p =? r)%nat && (q <? n)%nat); [apply headents_app, NE | reflexivity]).
  assert (PS : forall r', pend s' r' = pend s r') by (intros r'; apply pend_same; intros o _; unfold piece; rewrite CR, CH, CN; reflexivity).
  destruct H. constructor.
  - exact i_wf.
  - exact i_tok.
  - intros p q Hp Hq. unfold s'. cbn [g_tab g_chan]. destruct ((p =? r)%nat && (q <? n)%nat); [|apply i_chan; assumption]. apply chan_app; [apply i_chan; assumption | exact I | exact NE].
  - intros r' Hr'. rewrite PS. apply i_nodup, Hr'.
  - intros r' k Hr' (o & Ho & Hk). rewrite CR, CN in Hk. apply (i_early r' k Hr'). exists o. tauto.
  - intros r' k Hr' (o & Ho & Hk). rewrite CH in Hk. apply (i_late r' k Hr'). exists o. tauto.
  - intros r' k c Hr' Hc Hn. rewrite PS in Hn. apply (i_rest r' k c Hr' Hc Hn).
  - intros r' Hr' Hw. rewrite PS. unfold s' in *. cbn [g_ph g_wait] in *. destruct (upd_cases (g_ph s) r Waiting r') as [[-> E]|[N1 E]]; rewrite E in Hw; [discriminate | apply i_wait; assumption].
  - intros r' k Hr' Hw Hk. unfold s' in *. cbn [g_ph g_wait g_tab] in *. destruct (upd_cases (g_ph s) r Waiting r') as [[-> E]|[N1 E]]; rewrite E in Hw; [discriminate | apply i_ask; assumption].
  - intros r' Hr' Hw. rewrite PS. unfold s' in *. cbn [g_ph] in *. destruct (upd_cases (g_ph s) r Waiting r') as [[-> E]|[N1 E]]; rewrite E in Hw; [exact P0 | apply i_quiet; assumption].
  - intros p q Hp Hq. specialize (i_done p q Hp Hq). unfold seen, s' in *. cbn [g_chan g_ph g_done] in *.
    assert (ES : match upd (g_ph s) r Waiting q with Idle => 0%nat | _ => b2n (g_done s q p) end = match g_ph s q with Idle => 0%nat | _ => b2n (g_done s q p) end)
      by (destruct (upd_cases (g_ph s) r Waiting q) as [[-> E]|[N1 E]]; rewrite E; [rewrite Hph|]; reflexivity). rewrite ES.
    destruct (Nat.eqb_spec p r) as [->|N1]; cbn [andb].
    + replace (q <? n)%nat with true by (symmetry; apply Nat.ltb_lt; exact Hq). rewrite upd_same, ndone_app. rewrite Hph in i_done. cbn [has_sent b2n] in *. change (ndone [@MDone D]) with 1%nat. lia.
    + rewrite upd_other by exact N1. exact i_done.
  - intros q Hq Hw. unfold s' in *. cbn [g_ph g_all g_done] in *. destruct (Nat.eq_dec q r) as [->|N1].
    + rewrite upd_same. symmetry. destruct (forallb (g_done s r) (ranks n)) eqn:E; [|reflexivity]. rewrite forallb_forall in E. specialize (i_done r r Hr Hr). unfold seen in i_done. rewrite Hph, (E r) in i_done by (apply in_ranks, Hr). cbn [has_sent b2n] in i_done. lia.
    + rewrite upd_other in Hw by exact N1; rewrite upd_other by exact N1. apply i_all; assumption.
  - intros q p Hq Hp Hw. unfold s' in *. cbn [g_ph g_done] in *. destruct (upd_cases (g_ph s) r Waiting q) as [[-> E]|[N1 E]]; rewrite E in Hw; [destruct Hw; discriminate | apply i_left; assumption].
  - intros p q Hp Hq Hw. unfold s' in *. cbn [g_ph g_chan] in *. destruct (Nat.eq_dec p r) as [->|N1]; [rewrite upd_same in Hw; discriminate|]. rewrite upd_other in Hw by exact N1. replace (p =? r)%nat with false by (symmetry; apply Nat.eqb_neq; exact N1). apply i_bar; assumption.
Qed.

(** *** Sending a request *)
Definition same_bits (T T' : rtable D) : Prop := forall k, match T k, T' k with
  | Some c, Some c' => r_node c' = r_node c /\ r_data c' = r_data c /\ r_owner c' = r_owner c /\ wf_w dim (r_word c') /\ (forall d, d < B -> get_child (r_word c') d = get_child (r_word c) d)
  | None, None => True | _, _ => False end.
Lemma tok_same W V T T' : same_bits T T' -> tok dim n W V T -> tok dim n W V T'.
Proof.
  intros HS [A1 A2 A3 A4].
  assert (F : forall k c', T' k = Some c' -> exists c, T k = Some c /\ r_node c' = r_node c /\ r_data c' = r_data c /\ r_owner c' = r_owner c /\ wf_w dim (r_word c') /\ (forall d, d < B -> get_child (r_word c') d = get_child (r_word c) d))
    by (intros k c' Hc'; specialize (HS k); rewrite Hc' in HS; destruct (T k) as [c|]; [exists c; tauto | destruct HS]).
  assert (G : forall k c, T k = Some c -> exists c', T' k = Some c' /\ (forall d, d < B -> get_child (r_word c') d = get_child (r_word c) d))
    by (intros k c Hc; specialize (HS k); rewrite Hc in HS; destruct (T' k) as [c'|]; [exists c'; tauto | destruct HS]).
  constructor.
  - intros k c' Hc'. destruct (F k c' Hc') as (c & Hc & E1 & E2 & E3 & E4 & E5). rewrite E1, E2, E3. destruct (A1 k c Hc) as (B1 & B2 & B3 & B4). tauto.
  - intros k c' d Hc' Hi Hd Hg. destruct (F k c' Hc') as (c & Hc & _ & _ & _ & _ & E5). rewrite E5 in Hg by exact Hd. destruct (A2 k c d Hc Hi Hd Hg) as [K (y & Hy)]. split; [exact K|]. destruct (G _ _ Hy) as (y' & Hy' & _). exists y'. exact Hy'.
  - intros k c' Hc' Hr. destruct (F k c' Hc') as (c & Hc & _). destruct (A3 k c Hc Hr) as (p & cp & d & E & Hd & I1 & I2 & Hp & Hg). destruct (G _ _ Hp) as (cp' & Hp' & Eb). exists p, cp', d. rewrite Eb by exact Hd. tauto.
  - destruct A4 as (c & Hc & Hi & Hf). destruct (G _ _ Hc) as (c' & Hc' & Eb). exists c'. split; [exact Hc'|]. split; [exact Hi|]. intros d Hd. rewrite Eb by exact Hd. apply Hf, Hd.
Qed.
Lemma same_grows W T T' : same_bits T T' -> grows dim W T T'.
Proof.
  intros HS k c Hc. specialize (HS k). rewrite Hc in HS. destruct (T' k) as [c'|]; [|destruct HS]. exists c'. split; [reflexivity|]. intros _ Hf d Hd. destruct HS as (_ & _ & _ & _ & E). rewrite E by exact Hd. apply Hf, Hd.
Qed.
Lemma existsb_in k ks : existsb (N.eqb k) ks = true <-> In k ks.
Proof. rewrite existsb_exists. split; [intros (x & Hx & E); apply N.eqb_eq in E; subst; exact Hx | intros H; exists k; split; [exact H | apply N.eqb_refl]]. Qed.
Lemma mark_same W V T ks : tok dim n W V T -> same_bits T (mark_requested dim T ks).
Proof.
  intros HT k. unfold mark_requested. destruct (T k) as [c|] eqn:E.
  - destruct (tk_cell _ _ _ _ _ HT k c E) as (_ & _ & Hw & _). destruct (existsb (N.eqb k) ks).
    + destruct (op_getters dim (r_word c) SetRequested Hw I) as (A1 & A2 & _). cbn [exec1] in A1, A2. cbn [map_word r_node r_data r_owner r_word]. repeat (split; [reflexivity|]). split; [exact A1|]. intros d Hd. rewrite A2 by exact Hd. apply orb_false_r.
    + repeat (split; [reflexivity|]). split; [exact Hw | reflexivity].
  - destruct (existsb (N.eqb k) ks); exact I.
Qed.
Lemma bare_not_full W k w : wf_world dim W -> w_isn W k = true -> bare dim w -> ~ full dim W k w.
Proof. intros HW Hi Hb Hf. destruct (proj2 HW k Hi) as [_ Hne]. apply Hne. destruct (kids dim W k) as [|d l] eqn:E; [reflexivity|]. exfalso. assert (Hd : In d (kids dim W k)) by (rewrite E; left; reflexivity). apply kids_in in Hd. destruct Hd as [Hd Hk]. rewrite <- (Hf d Hd), (Hb d Hd) in Hk. discriminate. Qed.
Lemma ask_facts W s r o ks : inv W s -> (r < n)%nat -> askable dim (g_tab s r) o ks ->
  forall k, In k ks -> ~ In k (pend s r) /\ w_isn W k = true /\ valid dim n W (g_tab s) o k /\ o <> r /\ exists c, g_tab s r k = Some c /\ bare dim (r_word c).
Proof.
  intros H Hr (Hne & ND & Hk) k Hin. destruct (Hk k Hin) as (c & Hc & He & Hq & Ho). pose proof (i_wf _ _ _ _ H) as HW.
  assert (NP : ~ In k (pend s r)) by (intros X; destruct (pend_empty dim n W s r k H Hr X) as (c' & Hc' & _ & Hq'); rewrite Hc in Hc'; injection Hc' as <-; congruence).
  destruct (tk_cell _ _ _ _ _ (i_tok _ _ _ _ H r Hr) k c Hc) as (C1 & C2 & C3 & C4 & C5). unfold empty_node in He. apply andb_true_iff in He. destruct He as [He1 He2]. rewrite C1 in He1.
  assert (Hb : bare dim (r_word c)).
  { destruct (i_rest _ _ _ _ H r k c Hr Hc NP He1) as [[F1 F2]|[F1 _]]; [|exact F1]. rewrite (full_not_empty dim W HW k _ He1 F1 F2) in He2. discriminate. }
  split; [exact NP|]. split; [exact He1|]. rewrite Ho in C5. split; [exact C5|]. split; [|exists c; tauto]. intros ->. destruct C5 as [_ (c' & Hc' & Hf)]. rewrite Hc in Hc'. injection Hc' as <-. apply (bare_not_full W k _ HW He1 Hb (Hf He1)).
Qed.
Lemma inv_request W s r o ks : (r < n)%nat -> (o < n)%nat -> g_ph s r = Working -> askable dim (g_tab s r) o ks -> inv W s ->
  inv W (mkg (upd (g_tab s) r (mark_requested dim (g_tab s r) ks)) (upd2 (g_chan s) r o (g_chan s r o ++ [MReq ks])) (g_ph s) (g_done s) (g_all s) (upd (g_wait s) r (ks ++ g_wait s r))).
Proof.
  intros Hr Ho Hph Hask H. set (s' := mkg _ _ _ _ _ _). pose proof (ask_facts W s r o ks H Hr Hask) as HF. destruct Hask as (Hne & ND & Hk).
  assert (Hor : o <> r) by (destruct ks as [|k0 ks0]; [congruence|]; destruct (HF k0 (or_introl eq_refl)) as (_ & _ & _ & X & _); exact X).
  pose proof (i_tok _ _ _ _ H r Hr) as HTr. pose proof (mark_same W _ (g_tab s r) ks HTr) as HSB.
  assert (HV : forall o' k', valid dim n W (g_tab s) o' k' -> valid dim n W (g_tab s') o' k') by (apply valid_grows, same_grows, HSB).
  assert (NE : no_ents_head [@MReq D ks]) by exact I.
  assert (CR : forall p q, reqs (g_chan s' p q) = reqs (g_chan s p q) ++ (if (p =? r)%nat && (q =? o)%nat then ks else [])).
  { intros p q. unfold s'. cbn [g_chan]. destruct (upd2_cases (g_chan s) r o (g_chan s r o ++ [MReq ks]) p q) as [(-> & -> & E)|(N1 & E)]; rewrite E.
    - rewrite ! Nat.eqb_refl, reqs_app. cbn [andb reqs flat_map]. rewrite app_nil_r. reflexivity.
    - replace ((p =? r)%nat && (q =? o)%nat) with false; [rewrite app_nil_r; reflexivity|]. symmetry. apply andb_false_iff. destruct N1; [left | right]; apply Nat.eqb_neq; assumption. }
  assert (CN : forall p q, nods (g_chan s' p q) = nods (g_chan s p q)) by (intros p q; unfold s'; cbn [g_chan]; destruct (upd2_cases (g_chan s) r o (g_chan s r o ++ [MReq ks]) p q) as [(-> & -> & E)|(N1 & E)]; rewrite E; [rewrite nods_app; apply app_nil_r | reflexivity]).
  assert (CH : forall p q, headents (g_chan s' p q) = headents (g_chan s p q)) by (intros p q; unfold s'; cbn [g_chan]; destruct (upd2_cases (g_chan s) r o (g_chan s r o ++ [MReq ks]) p q) as [(-> & -> & E)|(N1 & E)]; rewrite E; [apply headents_app, NE | reflexivity]).
  assert (PO : forall r', r' <> r -> pend s' r' = pend s r').
  { intros r' Hn. apply pend_same. intros o' _. unfold piece. rewrite CR, CH, CN. replace (r' =? r)%nat with false by (symmetry; apply Nat.eqb_neq; exact Hn). cbn [andb]. rewrite app_nil_r. reflexivity. }
  assert (PR : Permutation (pend s' r) (ks ++ pend s r)).
  { destruct (fm_split n (piece s' r) (piece s r) o Ho) as (X & P1 & P2 & _).
    - intros x _ Hx. unfold piece. rewrite CR, CH, CN. replace (x =? o)%nat with false by (symmetry; apply Nat.eqb_neq; exact Hx). rewrite andb_false_r, app_nil_r. reflexivity.
    - unfold pend, Comms_inv.pend. rewrite P1, P2. unfold piece. rewrite CR, CH, CN, ! Nat.eqb_refl. cbn [andb]. rewrite <- ! app_assoc. apply Permutation_app_swap_app. }
  assert (TB : forall r' k, g_tab s' r' k = if (r' =? r)%nat then mark_requested dim (g_tab s r) ks k else g_tab s r' k).
  { intros r' k. unfold s'. cbn [g_tab]. destruct (Nat.eqb_spec r' r) as [->|N1]; [rewrite upd_same | rewrite upd_other by exact N1]; reflexivity. }
  assert (TM : forall k, ~ In k ks -> mark_requested dim (g_tab s r) ks k = g_tab s r k).
  { intros k Hn. unfold mark_requested. destruct (existsb (N.eqb k) ks) eqn:E; [apply existsb_in in E; contradiction | reflexivity]. }
  assert (PI : forall k, In k (pend s' r) <-> In k ks \/ In k (pend s r)) by (intros k; rewrite <- in_app_iff; split; apply Permutation_in; [exact PR | symmetry; exact PR]).
  assert (EA : forall r' k, early s' r' k -> early s r' k \/ (r' = r /\ In k ks)).
  { intros r' k (o' & Ho' & Hk'). rewrite CR, CN in Hk'. destruct (((r' =? r)%nat && (o' =? o)%nat)) eqn:X; [|left; exists o'; rewrite app_nil_r in Hk'; tauto].
    apply andb_true_iff in X. destruct X as [X1 X2]. apply Nat.eqb_eq in X1, X2. subst. rewrite in_app_iff in Hk'. destruct Hk' as [[Hk'|Hk']|Hk']; [left; exists o; tauto | right; tauto | left; exists o; tauto]. }
  assert (NK : forall k, In k (pend s r) -> ~ In k ks) by (intros k X Y; destruct (HF k Y) as [Z _]; contradiction).
  constructor.
  - exact (i_wf _ _ _ _ H).
  - intros r' Hr'. apply (tok_mono dim n W _ _ _ HV). unfold s'. cbn [g_tab]. destruct (upd_cases (g_tab s) r (mark_requested dim (g_tab s r) ks) r') as [[-> E]|[_ E]]; rewrite E; [apply (tok_same W _ _ _ HSB HTr) | apply (i_tok _ _ _ _ H r' Hr')].
  - intros p q Hp Hq. unfold s' at 2. cbn [g_chan]. destruct (upd2_cases (g_chan s) r o (g_chan s r o ++ [MReq ks]) p q) as [(-> & -> & E)|(N1 & E)]; rewrite E.
    + apply chan_app; [apply (chan_mono dim n W _ _ r o _ HV), (i_chan _ _ _ _ H r o Hr Ho) | | exact NE]. cbn [shaped]. split; [congruence|]. split; [exact Hne|]. split; [|exact I]. intros k Hin. destruct (HF k Hin) as (_ & A & C & _). split; [exact A | apply HV, C].
    + apply (chan_mono dim n W _ _ p q _ HV), (i_chan _ _ _ _ H p q Hp Hq).
  - intros r' Hr'. destruct (Nat.eq_dec r' r) as [->|N1]; [|rewrite PO by exact N1; apply (i_nodup _ _ _ _ H r' Hr')].
    apply (Permutation_NoDup (Permutation_sym PR)). assert (ND2 : NoDup (pend s r)) by apply (i_nodup _ _ _ _ H r Hr).
    clear - ND ND2 HF. induction ks as [|k ks IH]; [exact ND2|]. inversion ND; subst. cbn [app]. constructor; [rewrite in_app_iff; intros [X|X]; [contradiction|]; destruct (HF k (or_introl eq_refl)) as [Y _]; contradiction|]. apply IH; [assumption|]. intros k' Hk'. apply HF. right. exact Hk'.
  - intros r' k Hr' He. destruct (EA r' k He) as [He'|[-> Hin]].
    + destruct (i_early _ _ _ _ H r' k Hr' He') as (A & c & Hc & Hb & Hq). split; [exact A|]. exists c. split; [|tauto]. rewrite TB. destruct (Nat.eqb_spec r' r) as [->|_]; [|exact Hc]. rewrite TM; [exact Hc|]. apply NK. apply pend_in. left. exact He'.
    + destruct (HF k Hin) as (_ & A & _ & _ & c & Hc & Hb). split; [exact A|]. rewrite TB, Nat.eqb_refl. unfold mark_requested. replace (existsb (N.eqb k) ks) with true by (symmetry; apply existsb_in, Hin). rewrite Hc. eexists. split; [reflexivity|]. cbn [map_word r_word].
      destruct (tk_cell _ _ _ _ _ HTr k c Hc) as (_ & _ & Hw & _). destruct (op_getters dim (r_word c) SetRequested Hw I) as (A1 & A2 & A3 & _). cbn [exec1] in A1, A2, A3. split; [intros d Hd; rewrite A2, Hb by exact Hd; reflexivity | exact A3].
  - intros r' k Hr' (o' & Ho' & Hl). rewrite CH in Hl. assert (Hl' : late s r' k) by (exists o'; tauto). destruct (i_late _ _ _ _ H r' k Hr' Hl') as (A & A2 & c & Hc & Hb). split; [exact A|]. split; [exact A2|]. exists c. split; [|exact Hb].
    rewrite TB. destruct (Nat.eqb_spec r' r) as [->|_]; [|exact Hc]. rewrite TM; [exact Hc|]. apply NK. apply pend_in. right. exact Hl'.
  - intros r' k c Hr' Hc Hn. rewrite TB in Hc. destruct (Nat.eqb_spec r' r) as [->|N1].
    + rewrite PI in Hn. rewrite TM in Hc by tauto. intros Hi. apply (i_rest _ _ _ _ H r k c Hr Hc); [tauto | exact Hi].
    + rewrite PO in Hn by exact N1. intros Hi. apply (i_rest _ _ _ _ H r' k c Hr' Hc Hn Hi).
  - intros r' Hr' Hw. unfold s' at 2. cbn [g_wait]. destruct (Nat.eq_dec r' r) as [->|N1].
    + rewrite upd_same. intros k Hk'. apply PI in Hk'. apply in_app_iff. destruct Hk' as [Hk'|Hk']; [left; exact Hk' | right; apply (i_wait _ _ _ _ H r Hr Hph), Hk'].
    + rewrite upd_other, PO by exact N1. apply (i_wait _ _ _ _ H r' Hr' Hw).
  - intros r' k Hr' Hw Hin. rewrite TB. unfold s' in Hin. cbn [g_wait] in Hin. destruct (Nat.eqb_spec r' r) as [->|N1].
    + rewrite upd_same in Hin. unfold mark_requested. destruct (existsb (N.eqb k) ks) eqn:Q.
      * apply existsb_in in Q. destruct (HF k Q) as (_ & A & _ & _ & c & Hc & Hb). split; [exact A|]. rewrite Hc. eexists. split; [reflexivity|]. cbn [map_word r_word]. destruct (tk_cell _ _ _ _ _ HTr k c Hc) as (_ & _ & Hw2 & _). destruct (op_getters dim (r_word c) SetRequested Hw2 I) as (_ & _ & A3 & _). exact A3.
      * apply in_app_iff in Hin. destruct Hin as [Hin|Hin]; [apply existsb_in in Hin; congruence|]. apply (i_ask _ _ _ _ H r k Hr Hph Hin).
    + rewrite upd_other in Hin by exact N1. apply (i_ask _ _ _ _ H r' k Hr' Hw Hin).
  - intros r' Hr' Hw. rewrite PO; [apply (i_quiet _ _ _ _ H r' Hr' Hw)|]. intros ->. apply Hw, Hph.
  - intros p q Hp Hq. pose proof (i_done _ _ _ _ H p q Hp Hq) as X. replace (ndone (g_chan s' p q)) with (ndone (g_chan s p q)); [exact X|]. unfold s'. cbn [g_chan].
    destruct (upd2_cases (g_chan s) r o (g_chan s r o ++ [MReq ks]) p q) as [(-> & -> & E)|(N1 & E)]; rewrite E; [rewrite ndone_app; cbn; lia | reflexivity].
  - exact (i_all _ _ _ _ H).
  - exact (i_left _ _ _ _ H).
  - intros p q Hp Hq Hw. pose proof (i_bar _ _ _ _ H p q Hp Hq Hw) as X. rewrite <- X. unfold s'. cbn [g_chan].
    destruct (upd2_cases (g_chan s) r o (g_chan s r o ++ [MReq ks]) p q) as [(-> & -> & E)|(N1 & E)]; rewrite E; [rewrite ndone_app; cbn; lia | reflexivity].
Qed.

(** *** Receiving *)
Lemma nodup_app_l (a b : list N) : NoDup (a ++ b) -> NoDup a.
Proof. induction a as [|x a IH]; intros H; [constructor|]. inversion H; subst. constructor; [intros X; apply H2, in_or_app; left; exact X | apply IH; assumption]. Qed.
Lemma nodup_app_r (a b : list N) : NoDup (a ++ b) -> NoDup b.
Proof. induction a as [|x a IH]; intros H; [exact H|]. inversion H; subst. apply IH; assumption. Qed.
Lemma nodup_app_x (a b : list N) k : NoDup (a ++ b) -> In k a -> ~ In k b.
Proof. induction a as [|x a IH]; intros H Ha; [destruct Ha|]. inversion H; subst. destruct Ha as [->|Ha]; [intros X; apply H2, in_or_app; right; exact X | apply IH; assumption]. Qed.
Lemma inv_load W s r src m rest T' ks F : (r < n)%nat -> (src < n)%nat -> g_chan s src r = m :: rest -> inv W s ->
  reqs [m] = [] -> ndone [m] = 0%nat -> chan_ok dim n W (valid dim n W (g_tab s)) src r rest ->
  headents (m :: rest) ++ nods (m :: rest) = ks ++ nods rest -> headents rest = F -> NoDup F -> incl F ks -> ks <> [] ->
  tok dim n W (valid dim n W (g_tab s)) T' -> (forall k c, g_tab s r k = Some c -> ~ In k ks -> T' k = Some c) ->
  (forall k, In k F -> w_isn W k = true /\ hasent dim W k = true /\ exists c, T' k = Some c /\ half dim W k (r_word c) /\ nchildren_to_receive dim (r_word c) = nkids dim W k /\ requested dim (r_word c) = true) ->
  (forall k c, In k ks -> ~ In k F -> T' k = Some c -> settled dim W T' k c) ->
  (forall k x, g_tab s r k = None -> T' k = Some x -> settled dim W T' k x) -> grows dim W (g_tab s r) T' ->
  (forall k c, In k ks -> g_tab s r k = Some c -> exists c', T' k = Some c' /\ requested dim (r_word c') = requested dim (r_word c)) ->
  inv W (mkg (upd (g_tab s) r T') (upd2 (g_chan s) src r rest) (g_ph s) (g_done s) (g_all s) (g_wait s)).
Proof.
  intros Hr Hs HC H M1 M2 HCok E1 E2 NDF HFk Hks HT HFr HF1 HF2 HF3 HG HQ. set (s' := mkg _ _ _ _ _ _).
  assert (HV : forall o' k', valid dim n W (g_tab s) o' k' -> valid dim n W (g_tab s') o' k') by (apply valid_grows, HG).
  assert (RR : reqs (m :: rest) = reqs rest) by (change (m :: rest) with ([m] ++ rest); rewrite reqs_app, M1; reflexivity).
  assert (RN : forall k, In k (nods rest) -> In k (nods (m :: rest))) by (intros k X; change (m :: rest) with ([m] ++ rest); rewrite nods_app; apply in_or_app; right; exact X).
  assert (CR : forall p q, reqs (g_chan s' p q) = reqs (g_chan s p q)) by (intros p q; unfold s'; cbn [g_chan]; destruct (upd2_cases (g_chan s) src r rest p q) as [(-> & -> & E)|(N1 & E)]; rewrite E; [rewrite HC; symmetry; exact RR | reflexivity]).
  assert (CD : forall p q, ndone (g_chan s' p q) = ndone (g_chan s p q)) by (intros p q; unfold s'; cbn [g_chan]; destruct (upd2_cases (g_chan s) src r rest p q) as [(-> & -> & E)|(N1 & E)]; rewrite E; [rewrite HC; change (m :: rest) with ([m] ++ rest); rewrite ndone_app, M2; reflexivity | reflexivity]).
  assert (CO : forall p q, p <> src \/ q <> r -> g_chan s' p q = g_chan s p q) by (intros p q Hpq; unfold s'; cbn [g_chan]; apply upd2_other, Hpq).
  assert (CS : g_chan s' src r = rest) by (unfold s'; cbn [g_chan]; apply upd2_same).
  assert (PO : forall r', r' <> r -> pend s' r' = pend s r').
  { intros r' Hn. apply pend_same. intros o' _. unfold piece. rewrite CR, (CO o' r') by tauto. reflexivity. }
  assert (PX : exists X, Permutation (pend s r) (ks ++ X) /\ Permutation (pend s' r) (F ++ X) /\ (forall k, In k (reqs (g_chan s r src)) \/ In k (nods rest) -> In k X) /\ (forall o k, (o < n)%nat -> o <> src -> In k (piece s r o) -> In k X)).
  { destruct (fm_split n (piece s r) (piece s' r) src Hs) as (X & P1 & P2 & P3).
    - intros x _ Hx. unfold piece. rewrite CR, (CO x r) by tauto. reflexivity.
    - exists (reqs (g_chan s r src) ++ nods rest ++ X). unfold pend, Comms_inv.pend. rewrite P1, P2. unfold piece. rewrite CR, CS, HC, E1, E2. rewrite <- ! app_assoc. split; [apply Permutation_app_swap_app|]. split; [apply Permutation_app_swap_app|]. split.
      + intros k Hk. rewrite ! in_app_iff. tauto.
      + intros o k Ho Hne Hk. rewrite ! in_app_iff. right. right. apply (P3 o k Ho Hne Hk). }
  destruct PX as (X & P1 & P2 & X1 & X2). pose proof (Permutation_NoDup P1 (i_nodup _ _ _ _ H r Hr)) as NDK.
  assert (NX : forall k, In k ks -> ~ In k X) by (intros k; apply nodup_app_x, NDK).
  assert (PI : forall k, In k (pend s r) <-> In k ks \/ In k X) by (intros k; rewrite <- in_app_iff; split; apply Permutation_in; [exact P1 | symmetry; exact P1]).
  assert (PI' : forall k, In k (pend s' r) <-> In k F \/ In k X) by (intros k; rewrite <- in_app_iff; split; apply Permutation_in; [exact P2 | symmetry; exact P2]).
  assert (HW : g_ph s r = Working).
  { destruct (g_ph s r) eqn:E; [| reflexivity | | |]; exfalso; destruct ks as [|k0 ks0]; try congruence; assert (Y : In k0 (pend s r)) by (apply PI; left; left; reflexivity); rewrite (i_quiet _ _ _ _ H r Hr) in Y by congruence; destruct Y. }
  assert (TB : forall r' k, g_tab s' r' k = if (r' =? r)%nat then T' k else g_tab s r' k).
  { intros r' k. unfold s'. cbn [g_tab]. destruct (Nat.eqb_spec r' r) as [->|N1]; [rewrite upd_same | rewrite upd_other by exact N1]; reflexivity. }
  assert (EA : forall r' k, (r' < n)%nat -> early s' r' k -> early s r' k /\ (r' = r -> ~ In k ks)).
  { intros r' k Hr' (o' & Ho' & Hk'). rewrite CR in Hk'. destruct (Nat.eq_dec o' src) as [->|No]; [destruct (Nat.eq_dec r' r) as [->|Nr]|].
    - rewrite CS in Hk'. split; [exists src; rewrite HC; intuition auto | intros _ Y; apply (NX k Y), X1, Hk'].
    - rewrite (CO src r') in Hk' by tauto. split; [exists src; tauto | congruence].
    - rewrite (CO o' r') in Hk' by tauto. split; [exists o'; tauto|]. intros -> Y. apply (NX k Y), (X2 o' k Ho' No). unfold piece. rewrite ! in_app_iff. tauto. }
  constructor.
  - exact (i_wf _ _ _ _ H).
  - intros r' Hr'. apply (tok_mono dim n W _ _ _ HV). unfold s'. cbn [g_tab]. destruct (upd_cases (g_tab s) r T' r') as [[-> E]|[_ E]]; rewrite E; [exact HT | apply (i_tok _ _ _ _ H r' Hr')].
  - intros p q Hp Hq. apply (chan_mono dim n W _ _ p q _ HV). destruct (Nat.eq_dec p src) as [->|Np]; [destruct (Nat.eq_dec q r) as [->|Nq]; [rewrite CS; exact HCok|]|]; rewrite CO by tauto; apply (i_chan _ _ _ _ H); assumption.
  - intros r' Hr'. destruct (Nat.eq_dec r' r) as [->|N1]; [|rewrite PO by exact N1; apply (i_nodup _ _ _ _ H r' Hr')].
    apply (Permutation_NoDup (Permutation_sym P2)). pose proof (nodup_app_r _ _ NDK) as NDX. clear - NDF NDX HFk NX. induction F as [|k F IH]; [exact NDX|]. inversion NDF; subst. cbn [app]. constructor; [rewrite in_app_iff; intros [Y|Y]; [contradiction|]; apply (NX k); [apply HFk; left; reflexivity | exact Y]|]. apply IH; [assumption|]. intros k' Hk'. apply HFk. right. exact Hk'.
  - intros r' k Hr' He. destruct (EA r' k Hr' He) as [He' Hn]. destruct (i_early _ _ _ _ H r' k Hr' He') as (A & c & Hc & Hb & Hq). split; [exact A|]. exists c. split; [|tauto]. rewrite TB. destruct (Nat.eqb_spec r' r) as [->|_]; [|exact Hc]. apply HFr; [exact Hc | apply Hn; reflexivity].
  - intros r' k Hr' (o' & Ho' & Hl). rewrite TB. destruct (Nat.eq_dec o' src) as [->|No]; [destruct (Nat.eq_dec r' r) as [->|Nr]|].
    + rewrite CS, E2 in Hl. rewrite Nat.eqb_refl. apply HF1, Hl.
    + rewrite (CO src r') in Hl by tauto. replace (r' =? r)%nat with false by (symmetry; apply Nat.eqb_neq; exact Nr). apply (i_late _ _ _ _ H r' k Hr'). exists src. tauto.
    + rewrite (CO o' r') in Hl by tauto. assert (Hl' : late s r' k) by (exists o'; tauto). destruct (i_late _ _ _ _ H r' k Hr' Hl') as (A & A2 & c & Hc & Hb). split; [exact A|]. split; [exact A2|]. exists c. split; [|exact Hb].
      destruct (Nat.eqb_spec r' r) as [->|_]; [|exact Hc]. apply HFr; [exact Hc|]. intros Y. apply (NX k Y), (X2 o' k Ho' No). unfold piece. rewrite ! in_app_iff. tauto.
  - intros r' k c Hr' Hc Hn. rewrite TB in Hc. destruct (Nat.eqb_spec r' r) as [->|N1].
    + rewrite PI' in Hn. destruct (in_dec N.eq_dec k ks) as [Hi|Hi]; [intros Z; apply (HF2 k c Hi); [tauto | exact Hc | exact Z]|].
      destruct (g_tab s r k) as [c0|] eqn:E0; [|intros Z; apply (HF3 k c E0 Hc Z)]. rewrite (HFr k c0 E0 Hi) in Hc. injection Hc as <-. intros Z. apply (i_rest _ _ _ _ H r k c0 Hr E0); [rewrite PI; tauto | exact Z].
    + rewrite PO in Hn by exact N1. intros Z. apply (i_rest _ _ _ _ H r' k c Hr' Hc Hn Z).
  - intros r' Hr' Hw. change (g_wait s' r') with (g_wait s r'). destruct (Nat.eq_dec r' r) as [->|N1]; [|rewrite PO by exact N1; apply (i_wait _ _ _ _ H r' Hr' Hw)].
    intros k Hk. apply (i_wait _ _ _ _ H r Hr Hw). rewrite PI' in Hk. rewrite PI. destruct Hk as [Hk|Hk]; [left; apply HFk, Hk | right; exact Hk].
  - intros r' k Hr' Hw Hin. destruct (i_ask _ _ _ _ H r' k Hr' Hw Hin) as (A & c & Hc & Hq). split; [exact A|]. rewrite TB. destruct (Nat.eqb_spec r' r) as [->|N1]; [|exists c; tauto].
    destruct (in_dec N.eq_dec k ks) as [Hi|Hi]; [destruct (HQ k c Hi Hc) as (c' & Hc' & E); exists c'; rewrite E; tauto | exists c; split; [apply HFr; assumption | exact Hq]].
  - intros r' Hr' Hw. change (g_ph s' r') with (g_ph s r') in Hw. rewrite PO; [apply (i_quiet _ _ _ _ H r' Hr' Hw)|]. intros ->. apply Hw, HW.
  - intros p q Hp Hq. rewrite CD. exact (i_done _ _ _ _ H p q Hp Hq).
  - exact (i_all _ _ _ _ H).
  - exact (i_left _ _ _ _ H).
  - intros p q Hp Hq Hw. rewrite CD. exact (i_bar _ _ _ _ H p q Hp Hq Hw).
Qed.
Lemma fil_empty {A} (f : A -> bool) l x : filter f l = [] -> In x l -> f x = false.
Proof. intros H Hx. destruct (f x) eqn:E; [|reflexivity]. assert (Y : In x (filter f l)) by (apply filter_In; tauto). rewrite H in Y. destruct Y. Qed.
Lemma inv_nodes W s r src ks ns rest : (r < n)%nat -> (src < n)%nat -> g_chan s src r = MNodes ks ns :: rest -> inv W s ->
  exists t, load_all (load_node dim) (g_tab s r) ns = Some t /\ inv W (mkg (upd (g_tab s) r t) (upd2 (g_chan s) src r rest) (g_ph s) (g_done s) (g_all s) (g_wait s)).
Proof.
  intros Hr Hs HC H. pose proof (i_chan _ _ _ _ H src r Hs Hr) as HO. rewrite HC in HO. cbn [chan_ok shaped] in HO. destruct HO as (Hks & HN & HR). pose proof (i_wf _ _ _ _ H) as HW.
  assert (HE : forall k, In k ks -> early s r k) by (intros k Hk; exists src; split; [exact Hs|]; right; rewrite HC; unfold nods; cbn [flat_map]; apply in_or_app; left; exact Hk).
  assert (ND : NoDup ks).
  { assert (Y : In src (ranks n)) by (apply in_ranks, Hs). pose proof (i_nodup _ _ _ _ H r Hr) as Z. unfold Comms_inv.pend in Z. destruct (in_split _ _ Y) as (a & b & E). rewrite E, flat_map_app in Z. cbn [flat_map] in Z. apply nodup_app_r, nodup_app_l in Z. unfold piece in Z. apply nodup_app_r, nodup_app_r in Z. rewrite HC in Z. exact (nodup_app_l _ _ Z). }
  destruct (load_nodes_ok dim n W HW _ ks ns HN (g_tab s r) (i_tok _ _ _ _ H r Hr) ND) as (T' & HL & HT & HFr & HK & HNew).
  { intros k Hk. destruct (i_early _ _ _ _ H r k Hr (HE k Hk)) as (A & c & Hc & Hb & _). split; [exact A|]. exists c. tauto. }
  exists T'. split; [exact HL|].
  assert (HR2 : chan_ok dim n W (valid dim n W (g_tab s)) src r rest /\ headents rest = filter (hasent dim W) ks).
  { destruct rest as [|x rest]; [destruct HR as [HR _]; rewrite HR; split; [exact I | reflexivity]|]. destruct x as [k1|k1|k1 n1|eks es|]; try (destruct HR as [HR1 HR2]; rewrite HR1; apply (shaped_chan dim n W _ src r _ HR2)). destruct HR as (A1 & A2 & A3 & A4). split; [cbn [chan_ok]; tauto | exact A1]. }
  destruct HR2 as [HR1 HR2].
  apply (inv_load W s r src (MNodes ks ns) rest T' ks (filter (hasent dim W) ks) Hr Hs HC H); try assumption; try reflexivity.
  - apply NoDup_filter, ND.
  - intros k Hk. apply filter_In in Hk. tauto.
  - intros k Hk. apply filter_In in Hk. destruct Hk as [Hk He]. destruct (i_early _ _ _ _ H r k Hr (HE k Hk)) as (A & c & Hc & Hb & Hq). split; [exact A|]. split; [exact He|]. destruct (HK k c Hk Hc) as (c' & Hc' & Q1 & Q2 & Q3). exists c'. rewrite Q3. tauto.
  - intros k c Hk Hn Hc Hi. left. destruct (i_early _ _ _ _ H r k Hr (HE k Hk)) as (A & c0 & Hc0 & Hb & Hq). destruct (HK k c0 Hk Hc0) as (c' & Hc' & Q1 & Q2 & Q3). rewrite Hc in Hc'. injection Hc' as <-. split; [|rewrite Q2; apply N.le_refl]. apply half_full; [exact Q1|]. destruct (hasent dim W k) eqn:E; [|reflexivity]. exfalso. apply Hn, filter_In. tauto.
  - intros k x HN0 Hx Hi. right. apply (HNew k x HN0 Hx).
  - intros k c Hc. destruct (in_dec N.eq_dec k ks) as [Hi|Hi].
    + destruct (HK k c Hi Hc) as (c' & Hc' & _). exists c'. split; [exact Hc'|]. intros I1 Hf. exfalso. destruct (i_early _ _ _ _ H r k Hr (HE k Hi)) as (_ & c0 & Hc0 & Hb & _). rewrite Hc in Hc0. injection Hc0 as <-. apply (bare_not_full W k _ HW I1 Hb Hf).
    + exists c. split; [apply HFr; assumption | tauto].
  - intros k c Hi Hc. destruct (HK k c Hi Hc) as (c' & Hc' & _ & _ & Q3). exists c'. tauto.
Qed.
Lemma inv_ents W s r src ks es rest : (r < n)%nat -> (src < n)%nat -> g_chan s src r = MEnts ks es :: rest -> inv W s ->
  exists t, load_all (load_ent dim) (g_tab s r) es = Some t /\ inv W (mkg (upd (g_tab s) r t) (upd2 (g_chan s) src r rest) (g_ph s) (g_done s) (g_all s) (g_wait s)).
Proof.
  intros Hr Hs HC H. pose proof (i_chan _ _ _ _ H src r Hs Hr) as HO. rewrite HC in HO. cbn [chan_ok] in HO. destruct HO as (Hks & HN & HR). pose proof (i_wf _ _ _ _ H) as HW.
  assert (HE : forall k, In k ks -> late s r k) by (intros k Hk; exists src; split; [exact Hs|]; rewrite HC; exact Hk).
  assert (ND : NoDup ks).
  { assert (Y : In src (ranks n)) by (apply in_ranks, Hs). pose proof (i_nodup _ _ _ _ H r Hr) as Z. unfold Comms_inv.pend in Z. destruct (in_split _ _ Y) as (a & b & E). rewrite E, flat_map_app in Z. cbn [flat_map] in Z. apply nodup_app_r, nodup_app_l in Z. unfold piece in Z. apply nodup_app_r, nodup_app_l in Z. rewrite HC in Z. exact Z. }
  destruct (load_ents_ok dim n W HW _ ks es HN (g_tab s r) (i_tok _ _ _ _ H r Hr) ND) as (T' & HL & HT & HFr & HK & HNew).
  { intros k Hk. destruct (i_late _ _ _ _ H r k Hr (HE k Hk)) as (A & _ & c & Hc & Hb & _). split; [exact A|]. exists c. tauto. }
  exists T'. split; [exact HL|]. destruct (shaped_chan dim n W _ src r _ HR) as [HR1 HR2].
  apply (inv_load W s r src (MEnts ks es) rest T' ks [] Hr Hs HC H); try assumption; try reflexivity.
  - constructor.
  - intros k [].
  - intros k [].
  - intros k c Hk Hn Hc Hi. left. destruct (i_late _ _ _ _ H r k Hr (HE k Hk)) as (A & _ & c0 & Hc0 & Hb & Hnc & Hq). destruct (HK k c0 Hk Hc0) as (c' & Hc' & Q1 & Q2 & Q3). rewrite Hc in Hc'. injection Hc' as <-. split; [exact Q1 | rewrite Q2, Hnc; apply N.le_refl].
  - intros k x HN0 Hx Hi. rewrite (HNew k x HN0 Hx) in Hi. discriminate.
  - intros k c Hc. destruct (in_dec N.eq_dec k ks) as [Hi|Hi].
    + destruct (HK k c Hi Hc) as (c' & Hc' & Hf & _). exists c'. tauto.
    + exists c. split; [apply HFr; assumption | tauto].
  - intros k c Hi Hc. destruct (HK k c Hi Hc) as (c' & Hc' & _ & _ & Q3). exists c'. tauto.
Qed.
Lemma inv_reqs W s r src ks rest : (r < n)%nat -> (src < n)%nat -> g_chan s src r = MReq ks :: rest -> inv W s ->
  exists ms, recv_requests dim (g_tab s r) ks = Some ms /\ inv W (mkg (g_tab s) (upd2 (upd2 (g_chan s) src r rest) r src (upd2 (g_chan s) src r rest r src ++ ms)) (g_ph s) (g_done s) (g_all s) (g_wait s)).
Proof.
  intros Hr Hs HC H. pose proof (i_chan _ _ _ _ H src r Hs Hr) as HO. rewrite HC in HO. cbn [chan_ok shaped] in HO. destruct HO as (Hne & Hks & HV & HR). pose proof (i_wf _ _ _ _ H) as HW.
  destruct (replies_ok dim n W HW _ ks (g_tab s r) (i_tok _ _ _ _ H r Hr)) as (ns & es & R1 & R2 & R3 & R4 & R5 & R6 & R7).
  { intros k Hk. destruct (HV k Hk) as [A [_ (c & Hc & Hf)]]. split; [exact A|]. exists c. split; [exact Hc | apply Hf, A]. }
  unfold recv_requests. rewrite R1, R2. cbv iota beta. eexists. split; [reflexivity|]. rewrite upd2_other by tauto. rewrite R5. set (F := filter (hasent dim W) ks) in *. set (ms := replies ks F ns es).
  assert (MS : ms = MNodes ks ns :: match es with [] => [] | _ => [MEnts F es] end) by (unfold ms, replies; destruct ns; [exfalso; apply (R6 Hks); reflexivity | reflexivity]).
  assert (MSH : shaped dim n W (valid dim n W (g_tab s)) r src ms).
  { rewrite MS. cbn [shaped]. split; [exact Hks|]. split; [exact R3|]. destruct es as [|e es]; [split; [apply R7; reflexivity | exact I]|]. split; [reflexivity|]. split; [intros Y; apply R7 in Y; discriminate|]. split; [exact R4 | exact I]. }
  assert (MN : nods ms = ks) by (rewrite MS; destruct es; unfold nods; cbn [flat_map app]; rewrite app_nil_r; reflexivity).
  assert (MR : reqs ms = []) by (rewrite MS; destruct es; reflexivity).
  assert (MD : ndone ms = 0%nat) by (rewrite MS; destruct es; reflexivity).
  assert (NE : no_ents_head ms) by (rewrite MS; exact I).
  clearbody ms. set (s' := mkg _ _ _ _ _ _).
  assert (CS : g_chan s' src r = rest) by (unfold s'; cbn [g_chan]; rewrite upd2_other by tauto; apply upd2_same).
  assert (CT : g_chan s' r src = g_chan s r src ++ ms) by (unfold s'; cbn [g_chan]; apply upd2_same).
  assert (CO : forall p q, (p <> src \/ q <> r) -> (p <> r \/ q <> src) -> g_chan s' p q = g_chan s p q) by (intros p q A1 A2; unfold s'; cbn [g_chan]; rewrite ! upd2_other by assumption; reflexivity).
  destruct (shaped_chan dim n W _ src r _ HR) as [HR1 HR2].
  assert (CC : forall p q, (p = src /\ q = r) \/ (p = r /\ q = src) \/ ((p <> src \/ q <> r) /\ (p <> r \/ q <> src))) by (intros p q; clear; lia).
  assert (CH : forall p q, headents (g_chan s' p q) = headents (g_chan s p q)).
  { intros p q. destruct (CC p q) as [[-> ->]|[[-> ->]|[A1 A2]]]; [rewrite CS, HC, HR2; reflexivity | rewrite CT; apply headents_app, NE | rewrite CO by assumption; reflexivity]. }
  assert (CD : forall p q, ndone (g_chan s' p q) = ndone (g_chan s p q)).
  { intros p q. destruct (CC p q) as [[-> ->]|[[-> ->]|[A1 A2]]]; [rewrite CS, HC; reflexivity | rewrite CT, ndone_app, MD; lia | rewrite CO by assumption; reflexivity]. }
  assert (EA : forall r' k, early s' r' k -> early s r' k).
  { intros r' k (o & Ho & [Hk|Hk]).
    - destruct (CC r' o) as [[-> ->]|[[-> ->]|[A1 A2]]]; [rewrite CS in Hk; exists r; rewrite HC; split; [exact Ho|]; left; unfold reqs; cbn [flat_map]; apply in_or_app; right; exact Hk | rewrite CT, reqs_app, MR, app_nil_r in Hk; exists src; tauto | rewrite CO in Hk by assumption; exists o; tauto].
    - destruct (CC o r') as [[-> ->]|[[-> ->]|[A1 A2]]].
      + rewrite CS in Hk. exists src. rewrite HC. split; [exact Ho|]. right. exact Hk.
      + rewrite CT, nods_app, MN in Hk. exists r. split; [exact Ho|]. apply in_app_iff in Hk. destruct Hk as [Hk|Hk]; [right; exact Hk | left; rewrite HC; unfold reqs; cbn [flat_map]; apply in_or_app; left; exact Hk].
      + rewrite CO in Hk by assumption. exists o. tauto. }
  assert (PO : forall r', r' <> src -> pend s' r' = pend s r').
  { intros r' Hn. apply pend_same. intros o' _. unfold piece. rewrite CH. f_equal; [|f_equal].
    - destruct (CC r' o') as [[-> ->]|[[-> ->]|[A1 A2]]]; [congruence | rewrite CT, reqs_app, MR, app_nil_r; reflexivity | rewrite CO by assumption; reflexivity].
    - destruct (CC o' r') as [[-> ->]|[[-> ->]|[A1 A2]]]; [rewrite CS, HC; reflexivity | congruence | rewrite CO by assumption; reflexivity]. }
  assert (PS : Permutation (pend s' src) (pend s src)).
  { destruct (fm_split n (piece s' src) (piece s src) r Hr) as (X & P1 & P2 & _).
    - intros x _ Hx. unfold piece. rewrite CH, (CO src x), (CO x src) by tauto. reflexivity.
    - unfold pend, Comms_inv.pend. rewrite P1, P2. apply Permutation_app_tail. unfold piece. rewrite CH, CS, CT, HC, nods_app, MN. change (reqs (MReq ks :: rest)) with (ks ++ reqs rest). rewrite <- ! app_assoc.
      rewrite (Permutation_app_comm ks). rewrite <- ! app_assoc. reflexivity. }
  assert (PI : forall r' k, In k (pend s' r') <-> In k (pend s r')).
  { intros r' k. destruct (Nat.eq_dec r' src) as [->|N1]; [split; apply Permutation_in; [exact PS | symmetry; exact PS] | rewrite PO by exact N1; reflexivity]. }
  constructor.
  - exact HW.
  - exact (i_tok _ _ _ _ H).
  - intros p q Hp Hq. change (g_tab s') with (g_tab s). destruct (CC p q) as [[-> ->]|[[-> ->]|[A1 A2]]]; [rewrite CS; exact HR1 | rewrite CT; apply chan_app; [apply (i_chan _ _ _ _ H r src Hr Hs) | exact MSH | exact NE] | rewrite CO by assumption; apply (i_chan _ _ _ _ H p q Hp Hq)].
  - intros r' Hr'. destruct (Nat.eq_dec r' src) as [->|N1]; [apply (Permutation_NoDup (Permutation_sym PS)) | rewrite PO by exact N1]; apply (i_nodup _ _ _ _ H _ Hr').
  - intros r' k Hr' He. apply (i_early _ _ _ _ H r' k Hr' (EA r' k He)).
  - intros r' k Hr' (o & Ho & Hl). rewrite CH in Hl. apply (i_late _ _ _ _ H r' k Hr'). exists o. tauto.
  - intros r' k c Hr' Hc Hn. rewrite PI in Hn. apply (i_rest _ _ _ _ H r' k c Hr' Hc Hn).
  - intros r' Hr' Hw k Hk. apply PI in Hk. apply (i_wait _ _ _ _ H r' Hr' Hw k Hk).
  - exact (i_ask _ _ _ _ H).
  - intros r' Hr' Hw. pose proof (i_quiet _ _ _ _ H r' Hr' Hw) as Q. destruct (pend s' r') as [|k l] eqn:E; [reflexivity|]. exfalso. assert (Y : In k (pend s' r')) by (rewrite E; left; reflexivity). apply PI in Y. rewrite Q in Y. destruct Y.
  - intros p q Hp Hq. rewrite CD. exact (i_done _ _ _ _ H p q Hp Hq).
  - exact (i_all _ _ _ _ H).
  - exact (i_left _ _ _ _ H).
  - intros p q Hp Hq Hw. rewrite CD. exact (i_bar _ _ _ _ H p q Hp Hq Hw).
Qed.
Lemma inv_donemsg W s r src rest : (r < n)%nat -> (src < n)%nat -> listening s r -> g_chan s src r = MDone :: rest -> inv W s ->
  inv W (mkg (g_tab s) (upd2 (g_chan s) src r rest) (g_ph s) (upd2 (g_done s) r src true) (upd (g_all s) r (forallb (upd2 (g_done s) r src true r) (ranks n))) (g_wait s)).
Proof.
  intros Hr Hs Hl HC H. pose proof (i_chan _ _ _ _ H src r Hs Hr) as HO. rewrite HC in HO. cbn [chan_ok shaped] in HO. destruct (shaped_chan dim n W _ src r _ HO) as [HR1 HR2].
  set (s' := mkg _ _ _ _ _ _).
  assert (CR : forall p q, reqs (g_chan s' p q) = reqs (g_chan s p q)) by (intros p q; unfold s'; cbn [g_chan]; destruct (upd2_cases (g_chan s) src r rest p q) as [(-> & -> & E)|(N1 & E)]; rewrite E; [rewrite HC|]; reflexivity).
  assert (CN : forall p q, nods (g_chan s' p q) = nods (g_chan s p q)) by (intros p q; unfold s'; cbn [g_chan]; destruct (upd2_cases (g_chan s) src r rest p q) as [(-> & -> & E)|(N1 & E)]; rewrite E; [rewrite HC|]; reflexivity).
  assert (CH : forall p q, headents (g_chan s' p q) = headents (g_chan s p q)) by (intros p q; unfold s'; cbn [g_chan]; destruct (upd2_cases (g_chan s) src r rest p q) as [(-> & -> & E)|(N1 & E)]; rewrite E; [rewrite HC, HR2|]; reflexivity).
  assert (PS : forall r', pend s' r' = pend s r') by (intros r'; apply pend_same; intros o _; unfold piece; rewrite CR, CH, CN; reflexivity).
  assert (NI : g_ph s r <> Idle /\ g_ph s r <> Left /\ g_ph s r <> AtBarrier) by (destruct Hl as [Hl|[Hl _]]; rewrite Hl; repeat split; discriminate).
  constructor.
  - exact (i_wf _ _ _ _ H).
  - exact (i_tok _ _ _ _ H).
  - intros p q Hp Hq. unfold s'. cbn [g_tab g_chan]. destruct (upd2_cases (g_chan s) src r rest p q) as [(-> & -> & E)|(N1 & E)]; rewrite E; [exact HR1 | apply (i_chan _ _ _ _ H p q Hp Hq)].
  - intros r' Hr'. rewrite PS. apply (i_nodup _ _ _ _ H r' Hr').
  - intros r' k Hr' (o & Ho & Hk). rewrite CR, CN in Hk. apply (i_early _ _ _ _ H r' k Hr'). exists o. tauto.
  - intros r' k Hr' (o & Ho & Hk). rewrite CH in Hk. apply (i_late _ _ _ _ H r' k Hr'). exists o. tauto.
  - intros r' k c Hr' Hc Hn. rewrite PS in Hn. apply (i_rest _ _ _ _ H r' k c Hr' Hc Hn).
  - intros r' Hr' Hw. rewrite PS. apply (i_wait _ _ _ _ H r' Hr' Hw).
  - exact (i_ask _ _ _ _ H).
  - intros r' Hr' Hw. rewrite PS. apply (i_quiet _ _ _ _ H r' Hr' Hw).
  - intros p q Hp Hq. pose proof (i_done _ _ _ _ H p q Hp Hq) as X. unfold seen, s' in *. cbn [g_chan g_ph g_done].
    destruct (upd2_cases (g_chan s) src r rest p q) as [(-> & -> & E)|(N1 & E)]; rewrite E.
    + rewrite upd2_same. rewrite HC in X. change (ndone (MDone :: rest)) with (S (ndone rest)) in X. assert (b2n (has_sent (g_ph s src)) <= 1)%nat by (destruct (has_sent (g_ph s src)); cbn; lia). destruct (g_ph s r); try tauto; cbn [b2n] in *; lia.
    + rewrite upd2_other by tauto. exact X.
  - intros q Hq Hw. unfold s' in *. cbn [g_ph g_all g_done] in *. destruct (upd_cases (g_all s) r (forallb (upd2 (g_done s) r src true r) (ranks n)) q) as [[-> E]|[N1 E]]; rewrite E; [reflexivity|].
    rewrite (i_all _ _ _ _ H q Hq Hw). replace (upd2 (g_done s) r src true q) with (g_done s q); [reflexivity|]. unfold upd2. rewrite upd_other by exact N1. reflexivity.
  - intros q p Hq Hp Hw. unfold s' in *. cbn [g_ph g_done] in *. destruct (upd2_cases (g_done s) r src true q p) as [(-> & -> & E)|(N1 & E)]; rewrite E; [reflexivity | apply (i_left _ _ _ _ H q p Hq Hp Hw)].
  - intros p q Hp Hq Hw. pose proof (i_bar _ _ _ _ H p q Hp Hq Hw) as X. unfold s'. cbn [g_chan]. destruct (upd2_cases (g_chan s) src r rest p q) as [(-> & -> & E)|(N1 & E)]; rewrite E; [rewrite HC in X; discriminate | exact X].
Qed.
(** no receive can fault *)
Lemma recv_ok W s r src m rest fuel : (r < n)%nat -> (src < n)%nat -> listening s r -> g_chan s src r = m :: rest -> inv W s ->
  exists s', handle dim n fuel s r src m rest = Some s' /\ inv W s'.
Proof.
  intros Hr Hs Hl HC H. destruct m as [ks|ks|ks ns|ks es|]; unfold handle.
  - destruct (inv_reqs W s r src ks rest Hr Hs HC H) as (ms & E & X). rewrite E. cbv iota beta. eexists. split; [reflexivity | exact X].
  - exfalso. pose proof (i_chan _ _ _ _ H src r Hs Hr) as HO. rewrite HC in HO. exact HO.
  - destruct (inv_nodes W s r src ks ns rest Hr Hs HC H) as (t & E & X). rewrite E. cbv iota beta. eexists. split; [reflexivity | exact X].
  - destruct (inv_ents W s r src ks es rest Hr Hs HC H) as (t & E & X). rewrite E. cbv iota beta. eexists. split; [reflexivity | exact X].
  - eexists. split; [reflexivity|]. apply inv_donemsg; assumption.
Qed.
Lemma inv_step W s s' fuel : step dim n false (newtabs dim n) fuel s s' -> inv W s -> exists W', inv W' s'.
Proof.
  intros St H. destruct St as [s r Hr Hp|s r o ks Hr Ho Hp Ha|s r o ks Hsub Hr Ho Hp Ha|s s' r src m rest Hr Hs Hl HC Hh|s r Hr Hp Hf|s r Hr Hp Ha|s r Hr Hp Hd|s t' Hb (W' & HN)].
  - exists W. apply inv_start; assumption.
  - exists W. apply inv_request; assumption.
  - discriminate.
  - exists W. destruct (recv_ok W s r src m rest fuel Hr Hs Hl HC H) as (s2 & E & X). rewrite Hh in E. injection E as <-. exact X.
  - exists W. apply inv_finish; assumption.
  - exists W. apply inv_leave; assumption.
  - exists W. apply inv_waitall; assumption.
  - exists W'. apply (inv_barrier W W' s t' Hb HN H).
Qed.
Lemma inv_steps s s' fuel W : steps dim n false (newtabs dim n) fuel s s' -> inv W s -> exists W', inv W' s'.
Proof. induction 1 as [s|s s1 s2 H1 IH H2]; intros H; [exists W; exact H|]. destruct (IH H) as (W1 & X). apply (inv_step W1 s1 s2 fuel H2 X). Qed.
End Steps.
