(** What a rank waits for can always be brought to it: the requests, the answers and the
    deliveries that fill given empty nodes of its table.  The messages are those of
    Comms_model, the states those that meet [inv]. *)
From Coq Require Import Permutation.
From Verif Require Import Base Key_model HCell_model HCell_props BuildTree_model Comms_model Comms_lemmas Comms_inv Comms_steps Comms_flags Comms_props Share_world.
Local Open Scope N_scope.

Section Await.
Context {D : Type} (dim : N) (n : nat) (fuel : nat) (W : world D).
Implicit Types (s : gstate D) (c : rcell D).
Notation run := (steps dim n false keeps fuel).
Notation inv := (Comms_inv.inv dim n W).

Lemma steps_trans s s1 s2 : run s s1 -> run s1 s2 -> run s s2.
Proof. intros A B. induction B as [|x y z B IH C]; [exact A | exact (st_step _ _ _ _ _ _ _ _ (IH A) C)]. Qed.
Lemma steps_one s s' : step dim n false keeps fuel s s' -> run s s'.
Proof. intros H. exact (st_step _ _ _ _ _ _ _ _ (st_refl _ _ _ _ _ _) H). Qed.
Lemma inv_run s s' : run s s' -> inv s -> inv s'.
Proof. induction 1 as [|x y z B IH C]; intros H; [exact H | apply (inv_keeps dim n fuel W y z C (IH H))]. Qed.

(** *** Nodes with their children keep them *)
Lemma full_idle s r k c : inv s -> (r < n)%nat -> w_isn W k = true -> g_tab s r k = Some c -> full dim W k (r_word c) -> empty_node dim c = false.
Proof.
  intros H Hr Hi Hc Hf. pose proof (i_wf _ _ _ _ H) as HW. destruct (tk_cell _ _ _ _ _ (i_tok _ _ _ _ H r Hr) k c Hc) as (E & _). unfold empty_node. rewrite E, Hi. cbn [andb].
  destruct (in_dec N.eq_dec k (pend n s r)) as [Hp|Hp].
  - apply pend_in in Hp. destruct Hp as [Hp|Hp].
    + exfalso. destruct (i_early _ _ _ _ H r k Hr Hp) as (_ & c0 & Hc0 & Hb & _). rewrite Hc in Hc0. injection Hc0 as <-. apply (bare_not_full dim W k _ HW Hi Hb Hf).
    + destruct (i_late _ _ _ _ H r k Hr Hp) as (_ & _ & c0 & Hc0 & _ & Hn & _). rewrite Hc in Hc0. injection Hc0 as <-. apply (full_not_empty dim W HW k _ Hi Hf). lia.
  - destruct (i_rest _ _ _ _ H r k c Hr Hc Hp Hi) as [[_ Hn]|[Hb _]]; [apply (full_not_empty dim W HW k _ Hi Hf Hn)|]. exfalso. apply (bare_not_full dim W k _ HW Hi Hb Hf).
Qed.
Lemma idle_full s r k c : inv s -> (r < n)%nat -> w_isn W k = true -> g_tab s r k = Some c -> empty_node dim c = false -> full dim W k (r_word c).
Proof.
  intros H Hr Hi Hc He. destruct (tk_cell _ _ _ _ _ (i_tok _ _ _ _ H r Hr) k c Hc) as (E & _).
  destruct (in_dec N.eq_dec k (pend n s r)) as [Hp|Hp].
  - exfalso. destruct (pend_empty dim n W s r k H Hr Hp) as (c0 & Hc0 & He0 & _). rewrite Hc in Hc0. injection Hc0 as <-. congruence.
  - destruct (i_rest _ _ _ _ H r k c Hr Hc Hp Hi) as [[Hf _]|[Hb _]]; [exact Hf|]. exfalso. unfold empty_node in He. rewrite E, Hi in He. cbn [andb] in He. rewrite (bare_empty dim _ Hb) in He. discriminate.
Qed.
Lemma stay s s' (O : nat -> N -> Prop) : run s s' -> inv s -> (forall r, (r < n)%nat -> own dim W O r (g_tab s r)) ->
  forall r k c, (r < n)%nat -> g_tab s r k = Some c -> empty_node dim c = false -> exists c', g_tab s' r k = Some c' /\ empty_node dim c' = false.
Proof.
  intros R H HO r k c Hr Hc He.
  destruct (w_isn W k) eqn:Hi.
  - pose (O' := fun x q => O x q \/ (w_isn W q = true /\ exists c0, g_tab s x q = Some c0 /\ full dim W q (r_word c0))).
    assert (G : forall x, (x < n)%nat -> own dim W O' x (g_tab s x)).
    { intros x Hx. destruct (HO x Hx) as [A1 A2 A3]. split.
      - intros q [Hq|(Hq & c0 & Hc0 & Hf)] Hi'; [apply A1; assumption | exists c0; tauto].
      - intros q [Hq|(Hq & _)] Hi'; [apply A2; assumption | congruence].
      - intros q c0 Hq Hi' HN. apply (A3 q c0 Hq Hi'). intros Z. apply HN. left. exact Z. }
    assert (G' : forall x, (x < n)%nat -> own dim W O' x (g_tab s' x)).
    { clear Hc He Hi. clearbody O'. clear HO. revert H G. induction R as [|a b c0 R IH C]; intros H G; [exact G|]. apply (own_step dim n W O' fuel b c0 C (inv_run _ _ R H) (IH H G)). }
    destruct (ow_node _ _ _ _ _ (G' r Hr) k) as (c' & Hc' & Hf); [right; split; [exact Hi|]; exists c; split; [exact Hc | apply (idle_full s r k c); assumption] | exact Hi|].
    exists c'. split; [exact Hc' | apply (full_idle s' r k c'); [apply (inv_run _ _ R H) | assumption..]].
  - assert (X : g_tab s' r k <> None). { assert (Y : g_tab s r k <> None) by congruence. clear Hc He. revert H Y. induction R as [|a b c0 R IH C]; intros H Y; [exact Y|]. apply (there_step dim n W O fuel b c0 r k C (inv_run _ _ R H) (IH HO H Y)). }
    destruct (g_tab s' r k) as [c'|] eqn:E'; [|congruence]. exists c'. split; [reflexivity|]. unfold empty_node. destruct (tk_cell _ _ _ _ _ (i_tok _ _ _ _ (inv_run _ _ R H) r Hr) k c' E') as (E & _). rewrite E, Hi. reflexivity.
Qed.

(** *** Steps that only start ranks and move messages *)
(** phases stay, but that ranks may have started; nothing new is waited for, but [ks] by [r] *)
Definition calm (r : nat) (ks : list N) (s s' : gstate D) : Prop :=
  forall x, (g_ph s' x = g_ph s x \/ (g_ph s x = Idle /\ g_ph s' x = Working)) /\ forall k, In k (g_wait s' x) -> In k (g_wait s x) \/ (x = r /\ In k ks).
Lemma calm_refl r ks s : calm r ks s s. Proof. intros x. split; [left; reflexivity | intros k Hk; left; exact Hk]. Qed.
Lemma calm_trans r ks s s1 s2 : calm r ks s s1 -> calm r ks s1 s2 -> calm r ks s s2.
Proof.
  intros A B x. destruct (A x) as [A1 A2], (B x) as [B1 B2]. split.
  - destruct A1 as [A1|[A1 A1']], B1 as [B1|[B1 B1']]; [left; congruence | right; split; congruence | right; split; congruence | congruence].
  - intros k Hk. destruct (B2 k Hk) as [B3|B3]; [apply A2, B3 | right; exact B3].
Qed.
Lemma calm_incl r ks ks' s s' : incl ks ks' -> calm r ks s s' -> calm r ks' s s'.
Proof. intros I A x. destruct (A x) as [A1 A2]. split; [exact A1|]. intros k Hk. destruct (A2 k Hk) as [A3|[A3 A4]]; [left; exact A3 | right; split; [exact A3 | apply I, A4]]. Qed.
Lemma handle_calm r ks s s' x src m rest : handle dim n fuel s x src m rest = Some s' -> calm r ks s s' /\ g_ph s' = g_ph s /\ g_wait s' = g_wait s.
Proof.
  unfold handle. destruct m; cbv zeta; intros E; repeat match type of E with match ?x with _ => _ end = Some _ => destruct x; [|discriminate] end; injection E as <-; (split; [intros y; cbn; split; [left; reflexivity | tauto] | split; reflexivity]).
Qed.
(** an empty node is asked for, if it has not been *)
Lemma ask s r k c : inv s -> (r < n)%nat -> g_ph s r = Working -> g_tab s r k = Some c -> empty_node dim c = true -> exists s', run s s' /\ g_ph s' r = Working /\ calm r [k] s s' /\ In k (g_wait s' r).
Proof.
  intros H Hr Hp Hc He. destruct (in_dec N.eq_dec k (g_wait s r)) as [Hw|Hw]; [exists s; split; [apply st_refl|]; split; [exact Hp|]; split; [apply calm_refl | exact Hw]|].
  destruct (tk_cell _ _ _ _ _ (i_tok _ _ _ _ H r Hr) k c Hc) as (E & _ & _ & Ho & _). assert (Hi : w_isn W k = true) by (unfold empty_node in He; apply andb_true_iff in He; destruct He; congruence).
  assert (NP : ~ In k (pend n s r)) by (intros X; apply Hw, (i_wait _ _ _ _ H r Hr Hp), X).
  assert (Hq : requested dim (r_word c) = false).
  { destruct (i_rest _ _ _ _ H r k c Hr Hc NP Hi) as [[Hf _]|[_ Hq]]; [|exact Hq]. rewrite (full_idle s r k c H Hr Hi Hc Hf) in He. discriminate. }
  eexists. split; [apply steps_one; apply (s_request dim n false keeps fuel s r (r_owner c) [k] Hr Ho Hp)|].
  - split; [discriminate|]. split; [constructor; [intros [] | constructor]|]. intros k' [<-|[]]. exists c. tauto.
  - cbn [g_ph g_wait]. split; [exact Hp|]. split.
    + intros x. cbn [g_ph g_wait]. split; [left; reflexivity|]. intros k' Hk'. destruct (upd_cases (g_wait s) r ([k] ++ g_wait s r) x) as [[-> E1]|[N1 E1]]; rewrite E1 in Hk'; [|left; exact Hk']. destruct Hk' as [<-|Hk']; [right; split; [reflexivity | left; reflexivity] | left; exact Hk'].
    + rewrite upd_same. left. reflexivity.
Qed.
(** a node waited for that is still empty is in a message on the way from or to the rank *)
Lemma on_the_way s r k c : inv s -> (r < n)%nat -> g_ph s r = Working -> In k (g_wait s r) -> g_tab s r k = Some c -> empty_node dim c = true ->
  exists o, (o < n)%nat /\ (g_chan s r o <> [] \/ g_chan s o r <> []).
Proof.
  intros H Hr Hp Hw Hc He. destruct (i_ask _ _ _ _ H r k Hr Hp Hw) as (Hi & c0 & Hc0 & Hq). rewrite Hc in Hc0. injection Hc0 as <-.
  destruct (in_dec N.eq_dec k (pend n s r)) as [X|X].
  - apply pend_in in X. destruct X as [(o & Ho & [X|X])|(o & Ho & X)]; exists o; (split; [exact Ho|]).
    + left. intros Z. rewrite Z in X. destruct X.
    + right. intros Z. rewrite Z in X. destruct X.
    + right. intros Z. rewrite Z in X. destruct X.
  - exfalso. destruct (i_rest _ _ _ _ H r k c Hr Hc X Hi) as [[Hf _]|[_ Hq']]; [|congruence]. rewrite (full_idle s r k c H Hr Hi Hc Hf) in He. discriminate.
Qed.
(** while a rank works, no rank stops listening but for those that have not begun *)
Lemma listens s r o : inv s -> (r < n)%nat -> (o < n)%nat -> g_ph s r = Working -> g_ph s o = Idle \/ listening s o.
Proof.
  intros H Hr Ho Hp. pose proof (i_done _ _ _ _ H r o Hr Ho) as X. rewrite Hp in X. cbn [has_sent b2n] in X. unfold listening. destruct (g_ph s o) eqn:E; [left; reflexivity | right; left; reflexivity | right; right; split; [reflexivity|] | |].
  - rewrite (i_all _ _ _ _ H o Ho E). apply not_true_is_false. intros Z. rewrite forallb_forall in Z. specialize (Z r (proj2 (in_ranks n r) Hr)). unfold seen in X. rewrite E, Z in X. cbn in X. lia.
  - exfalso. pose proof (i_left _ _ _ _ H o r Ho Hr (or_introl E)) as Z. unfold seen in X. rewrite E, Z in X. cbn in X. lia.
  - exfalso. pose proof (i_left _ _ _ _ H o r Ho Hr (or_intror E)) as Z. unfold seen in X. rewrite E, Z in X. cbn in X. lia.
Qed.
(** a message on the way to [o] can be brought nearer to its end *)
Lemma nearer s r o p : inv s -> (r < n)%nat -> (o < n)%nat -> (p < n)%nat -> g_ph s r = Working -> g_chan s p o <> [] ->
  exists s', step dim n false keeps fuel s s' /\ calm r [] s s' /\ g_ph s' r = Working /\ (forall x, g_ph s x = Working -> g_wait s' x = g_wait s x).
Proof.
  intros H Hr Ho Hp Hw HC. destruct (listens s r o H Hr Ho Hw) as [Hl|Hl].
  - eexists. split; [apply (s_start dim n false keeps fuel s o Ho Hl)|]. cbn [g_ph g_wait]. split; [|split].
    + intros x. cbn [g_ph g_wait]. destruct (upd_cases (g_ph s) o Working x) as [[-> E]|[N1 E]]; rewrite E.
      * split; [right; split; [exact Hl | reflexivity]|]. intros k Hk. rewrite upd_same in Hk. destruct Hk.
      * split; [left; reflexivity|]. intros k Hk. rewrite upd_other in Hk by exact N1. left. exact Hk.
    + destruct (upd_cases (g_ph s) o Working r) as [[E0 E]|[N1 E]]; rewrite E; [reflexivity | exact Hw].
    + intros x Hx. apply upd_other. congruence.
  - destruct (g_chan s p o) as [|m rest] eqn:E; [congruence|]. destruct (recv_ok dim n W s o p m rest fuel Ho Hp Hl E H) as (s' & Es & _). destruct (handle_calm r [] s s' o p m rest Es) as (A1 & A2 & A3).
    exists s'. split; [apply (s_recv dim n false keeps fuel s s' o p m rest Ho Hp Hl E Es)|]. split; [exact A1|]. rewrite A2, A3. split; [exact Hw | reflexivity].
Qed.
(** so that a node waited for is filled in the end *)
Lemma drain k r : (r < n)%nat -> exists m : gstate D -> nat, forall j s, (m s < j)%nat -> inv s -> g_ph s r = Working -> In k (g_wait s r) -> g_tab s r k <> None ->
  exists s', run s s' /\ calm r [] s s' /\ g_ph s' r = Working /\ exists c, g_tab s' r k = Some c /\ empty_node dim c = false.
Proof.
  intros Hr. destruct (C17_ends (D := D) dim n fuel (fun _ _ => None) (fun _ _ => false) (fun _ => false) (fun _ => [])) as (m & Hm). exists m. induction j as [|j IH]; intros s Hj H Hp Hk Hc; [lia|].
  destruct (g_tab s r k) as [c|] eqn:E; [|congruence]. destruct (empty_node dim c) eqn:He.
  - destruct (on_the_way s r k c H Hr Hp Hk E He) as (o & Ho & HC).
    assert (N1 : exists s', step dim n false keeps fuel s s' /\ calm r [] s s' /\ g_ph s' r = Working /\ (forall x, g_ph s x = Working -> g_wait s' x = g_wait s x)) by (destruct HC as [HC|HC]; [apply (nearer s r o r H Hr Ho Hr Hp HC) | apply (nearer s r r o H Hr Hr Ho Hp HC)]).
    destruct N1 as (s1 & S1 & C1 & P1 & W1). assert (L1 : (m s1 < m s)%nat) by (apply (Hm s s1 keeps S1); [exists r; split; [exact Hr | congruence] | exact W1]).
    destruct (IH s1 ltac:(lia) (inv_keeps dim n fuel W s s1 S1 H) P1) as (s' & R & C2 & P2 & X); [rewrite (W1 r Hp); exact Hk | apply (there_step dim n W (fun _ _ => False) fuel s s1 r k S1 H); congruence |].
    exists s'. split; [apply (steps_trans s s1); [apply steps_one, S1 | exact R]|]. split; [apply (calm_trans r [] s s1 s' C1 C2)|]. split; [exact P2 | exact X].
  - exists s. split; [apply st_refl|]. split; [apply calm_refl|]. split; [exact Hp|]. exists c. split; [exact E | exact He].
Qed.
(** all of given nodes are filled *)
Lemma fetch (O : nat -> N -> Prop) r ks s : (r < n)%nat -> inv s -> (forall r, (r < n)%nat -> own dim W O r (g_tab s r)) -> g_ph s r = Working -> (forall k, In k ks -> g_tab s r k <> None) ->
  exists s', run s s' /\ calm r ks s s' /\ g_ph s' r = Working /\ forall k c, In k ks -> g_tab s' r k = Some c -> empty_node dim c = false.
Proof.
  intros Hr. revert s. induction ks as [|k ks IH]; intros s H HO Hp Hks; [exists s; split; [apply st_refl|]; split; [apply calm_refl|]; split; [exact Hp | intros k c []]|].
  assert (A : exists s1, run s s1 /\ calm r [k] s s1 /\ g_ph s1 r = Working /\ exists c, g_tab s1 r k = Some c /\ empty_node dim c = false).
  { specialize (Hks k (or_introl eq_refl)). destruct (g_tab s r k) as [c|] eqn:E; [|congruence]. destruct (empty_node dim c) eqn:He; [|exists s; split; [apply st_refl|]; split; [apply calm_refl|]; split; [exact Hp|]; exists c; tauto].
    destruct (ask s r k c H Hr Hp E He) as (s1 & R1 & P1 & C1 & W1). destruct (drain k r Hr) as (m & Hm). destruct (Hm (S (m s1)) s1 (Nat.lt_succ_diag_r _) (inv_run s s1 R1 H) P1 W1) as (s2 & R2 & C2 & P2 & X).
    - assert (Y : g_tab s r k <> None) by congruence. clear - R1 H Y. revert H Y. induction R1 as [|a b c0 R IH C]; intros H Y; [exact Y|]. apply (there_step dim n W (fun _ _ => False) fuel b c0 r k C (inv_run _ _ R H) (IH H Y)).
    - exists s2. split; [apply (steps_trans s s1); assumption|]. split; [apply (calm_trans r [k] s s1 s2 C1), (calm_incl r [] [k]); [intros z [] | exact C2]|]. split; [exact P2 | exact X]. }
  destruct A as (s1 & R1 & C1 & P1 & c1 & E1 & F1). pose proof (inv_run s s1 R1 H) as H1.
  assert (HO1 : forall x, (x < n)%nat -> own dim W O x (g_tab s1 x)). { clear - R1 H HO. revert H HO. induction R1 as [|a b c0 R IH C]; intros H HO; [exact HO|]. apply (own_step dim n W O fuel b c0 C (inv_run _ _ R H) (IH H HO)). }
  destruct (IH s1 H1 HO1 P1) as (s2 & R2 & C2 & P2 & X).
  { intros k' Hk'. specialize (Hks k' (or_intror Hk')). clear - R1 H Hks. revert H Hks. induction R1 as [|a b c0 R IH C]; intros H Y; [exact Y|]. apply (there_step dim n W (fun _ _ => False) fuel b c0 r k' C (inv_run _ _ R H) (IH H Y)). }
  exists s2. split; [apply (steps_trans s s1); assumption|]. split.
  { apply (calm_trans r (k :: ks) s s1 s2); [apply (calm_incl r [k]); [intros z [<-|[]]; left; reflexivity | exact C1] | apply (calm_incl r ks); [intros z Hz; right; exact Hz | exact C2]]. }
  split; [exact P2|]. intros k' c [<-|Hk'] Hc; [|apply (X k' c Hk' Hc)]. destruct (stay s1 s2 O R2 H1 HO1 r k c1 Hr E1 F1) as (c' & Ec' & Fc). rewrite Hc in Ec'. injection Ec' as <-. exact Fc.
Qed.
(** *** Nothing is left to wait for *)
Lemma below b : exists U, forall k, k < b -> In k U.
Proof. clear. exists (map N.of_nat (seq 0 (N.to_nat b))). intros k Hk. apply in_map_iff. exists (N.to_nat k). split; [apply N2Nat.id|]. apply in_seq. lia. Qed.
Lemma fill (O : nat -> N -> Prop) r s : (r < n)%nat -> inv s -> (forall r, (r < n)%nat -> own dim W O r (g_tab s r)) -> g_ph s r = Working ->
  exists s' U, run s s' /\ calm r U s s' /\ g_ph s' r = Working /\ forall k c, g_tab s' r k = Some c -> empty_node dim c = false.
Proof.
  intros Hr H HO Hp. destruct (below (2 ^ 64)) as (U & HU). pose (lacks s k := match g_tab s r k with Some c => empty_node dim c | None => true end).
  assert (G : forall j s, (length (filter (lacks s) U) < j)%nat -> inv s -> (forall r, (r < n)%nat -> own dim W O r (g_tab s r)) -> g_ph s r = Working ->
    exists s', run s s' /\ calm r U s s' /\ g_ph s' r = Working /\ forall k c, g_tab s' r k = Some c -> empty_node dim c = false); [|destruct (G (S (length (filter (lacks s) U))) s (Nat.lt_succ_diag_r _) H HO Hp) as (s' & X); exists s', U; exact X].
  clear s H HO Hp. induction j as [|j IH]; intros s Hj H HO Hp; [lia|].
  destruct (existsb (fun k => match g_tab s r k with Some c => empty_node dim c | None => false end) U) eqn:EX.
  - apply existsb_exists in EX. destruct EX as (k & Hk & Ek). destruct (g_tab s r k) as [c|] eqn:Ec; [|discriminate].
    destruct (fetch O r [k] s Hr H HO Hp) as (s1 & R1 & C1 & P1 & X1); [intros q [<-|[]]; congruence|].
    assert (HO1 : forall x, (x < n)%nat -> own dim W O x (g_tab s1 x)). { clear - R1 H HO. revert H HO. induction R1 as [|a b c0 R IH C]; intros H HO; [exact HO|]. apply (own_step dim n W O fuel b c0 C (inv_run _ _ R H) (IH H HO)). }
    assert (T1 : g_tab s1 r k <> None). { assert (Y : g_tab s r k <> None) by congruence. clear - R1 H Y. revert H Y. induction R1 as [|a b c0 R IH C]; intros H Y; [exact Y|]. apply (there_step dim n W (fun _ _ => False) fuel b c0 r k C (inv_run _ _ R H) (IH H Y)). }
    assert (K1 : lacks s1 k = false) by (unfold lacks; destruct (g_tab s1 r k) as [c1|] eqn:E1; [apply (X1 k c1 (or_introl eq_refl) E1) | congruence]).
    assert (K0 : lacks s k = true) by (unfold lacks; rewrite Ec; exact Ek).
    assert (MO : forall q, lacks s1 q = true -> lacks s q = true).
    { intros q Hq. unfold lacks in *. destruct (g_tab s r q) as [cq|] eqn:Eq; [|reflexivity]. destruct (empty_node dim cq) eqn:Eeq; [reflexivity|]. destruct (stay s s1 O R1 H HO r q cq Hr Eq Eeq) as (c' & E' & F'). rewrite E' in Hq. congruence. }
    assert (LT : (length (filter (lacks s1) U) < length (filter (lacks s) U))%nat).
    { assert (LE : forall V, (length (filter (lacks s1) V) <= length (filter (lacks s) V))%nat) by (induction V as [|v V IHV]; cbn [filter]; [lia|]; destruct (lacks s1 v) eqn:E1; [rewrite (MO v E1); cbn [length]; lia | destruct (lacks s v); cbn [length]; lia]).
      destruct (in_split _ _ Hk) as (a & b & ->). rewrite !filter_app. cbn [filter]. rewrite K0, K1, !app_length. cbn [length]. pose proof (LE a). pose proof (LE b). lia. }
    destruct (IH s1 ltac:(lia) (inv_run s s1 R1 H) HO1 P1) as (s' & R2 & C2 & P2 & X2). exists s'. split; [apply (steps_trans s s1); assumption|]. split; [apply (calm_trans r U s s1 s'); [apply (calm_incl r [k]); [intros z [<-|[]]; exact Hk | exact C1] | exact C2]|]. split; [exact P2 | exact X2].
  - exists s. split; [apply st_refl|]. split; [apply calm_refl|]. split; [exact Hp|]. intros k c Hc. destruct (empty_node dim c) eqn:He; [|reflexivity]. exfalso.
    destruct (tk_cell _ _ _ _ _ (i_tok _ _ _ _ H r Hr) k c Hc) as (E & _). assert (Hi : w_isn W k = true) by (unfold empty_node in He; apply andb_true_iff in He; destruct He; congruence).
    destruct (proj2 (i_wf _ _ _ _ H) k Hi) as [[Hk1 Hk2] _].
    assert (Hk : k < 2 ^ 64) by (pose proof (N.pow_nonzero 2 dim); nia).
    assert (Z : existsb (fun k => match g_tab s r k with Some c => empty_node dim c | None => false end) U = true) by (apply existsb_exists; exists k; split; [apply HU, Hk | rewrite Hc; exact He]). congruence.
Qed.
End Await.
