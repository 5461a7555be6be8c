(** C17, C18 and part of C61: the requests, replies and DONE messages of a traversal.
    [start_ok W T] (Comms_inv): the tables [T] of the ranks are parts of one tree [W], see
    there; [steps ... false (newtabs dim n)]: any interleaving, message delay and choice of
    requests, over any number of traversals, each of which may start from new tables that
    meet [start_ok]; REQUEST_SUBTREE, only used by traversal_fmm, is left out here and
    refuted below. *)
From Coq Require Import Permutation.
From Verif Require Import Base Key_model HCell_model HCell_props BuildTree_model Comms_model Comms_lemmas Comms_inv Comms_steps.
Local Open Scope N_scope.

Section Props.
Context {D : Type} (dim : N) (n : nat) (fuel : nat).
Variables (W0 : world D) (T0 : nat -> rtable D) (dn : nat -> nat -> bool) (al : nat -> bool) (w : nat -> list N).
Implicit Types (W : world D) (s : gstate D) (c : rcell D) (V : nat -> N -> Prop).
Notation reach s := (steps dim n false (newtabs dim n) fuel (g_init T0 dn al w) s).

Lemma reach_inv s : start_ok dim n W0 T0 -> reach s -> exists W, inv dim n W s.
Proof. intros H R. apply (inv_steps dim n _ s fuel W0 R). apply inv_init, H. Qed.

(** A rank that sees comms_all_done_ or has left the communication phase: every rank has
    finished its loop and no message to this rank is left. *)
Theorem C17_quiet s r : start_ok dim n W0 T0 -> reach s -> (r < n)%nat -> (g_ph s r = Waiting /\ g_all s r = true) \/ g_ph s r = Left \/ g_ph s r = AtBarrier ->
  forall p, (p < n)%nat -> g_chan s p r = [] /\ (g_ph s p = Waiting \/ g_ph s p = Left \/ g_ph s p = AtBarrier).
Proof.
  intros H0 R Hr Hph p Hp. destruct (reach_inv s H0 R) as (W & H).
  assert (Hd : g_done s r p = true).
  { destruct Hph as [[A1 A2]|Hph]; [|apply (i_left _ _ _ _ H r p Hr Hp Hph)]. rewrite (i_all _ _ _ _ H r Hr A1), forallb_forall in A2. apply A2, in_ranks, Hp. }
  pose proof (i_done _ _ _ _ H p r Hp Hr) as X. unfold seen in X. rewrite Hd in X. assert (NI : g_ph s r <> Idle /\ g_ph s r <> Working) by (destruct Hph as [[A1 _]|[A1|A1]]; rewrite A1; split; discriminate).
  assert (HS : ndone (g_chan s p r) = 0%nat /\ has_sent (g_ph s p) = true) by (destruct (g_ph s r), (has_sent (g_ph s p)); cbn [b2n] in X; try tauto; lia). destruct HS as [HS1 HS2]. split.
  - apply (quiet_chan dim n W s p r H Hp Hr); [|tauto | exact HS1]. intros E. rewrite E in HS2. discriminate.
  - destruct (g_ph s p); cbn in HS2; try discriminate; tauto.
Qed.
(** Every DONE is counted exactly once: the DONE messages on the way from p to q and the
    mark of q for p in this traversal together number 1 if p has finished, else 0. *)
Theorem C17_done_counted s p q : start_ok dim n W0 T0 -> reach s -> (p < n)%nat -> (q < n)%nat ->
  (length (filter (fun m => match m with MDone => true | _ => false end) (g_chan s p q)) + match g_ph s q with Idle => 0 | _ => if g_done s q p then 1 else 0 end
   = match g_ph s p with Idle | Working => 0 | _ => 1 end)%nat.
Proof.
  intros H0 R Hp Hq. destruct (reach_inv s H0 R) as (W & H). pose proof (i_done _ _ _ _ H p q Hp Hq) as X. unfold seen, ndone in X.
  assert (E : forall l : list (msg D), filter (fun m => match m with MDone => true | _ => false end) l = filter is_done l) by (intros l; apply filter_ext; intros []; reflexivity). rewrite E.
  destruct (g_ph s p), (g_ph s q), (g_done s q p); cbn [has_sent b2n] in *; exact X.
Qed.
(** At the barrier nothing is on the way, every node a rank has holds all its children or
    none, and the tables again meet the conditions a traversal starts from. *)
Theorem C17_barrier s : start_ok dim n W0 T0 -> reach s -> (forall r, (r < n)%nat -> g_ph s r = AtBarrier) ->
  (forall p q, (p < n)%nat -> (q < n)%nat -> g_chan s p q = []) /\ exists W, start_ok dim n W (g_tab s).
Proof.
  intros H0 R Hb. split.
  - intros p q Hp Hq. apply (C17_quiet s q H0 R Hq); [right; right; apply Hb, Hq | exact Hp].
  - destruct (reach_inv s H0 R) as (W & H). exists W. split; [exact (i_wf _ _ _ _ H)|]. intros r Hr. split; [apply (i_tok _ _ _ _ H r Hr)|]. intros k c Hc. apply (i_rest _ _ _ _ H r k c Hr Hc). rewrite (i_quiet _ _ _ _ H r Hr); [intros [] | rewrite (Hb r Hr); discriminate].
Qed.
(** Handling a message never fails: no lookup of a missing cell, no node stored over an
    entity. *)
Theorem C17_no_fault s r src m rest : start_ok dim n W0 T0 -> reach s -> (r < n)%nat -> (src < n)%nat -> listening s r -> g_chan s src r = m :: rest ->
  exists s', handle dim n fuel s r src m rest = Some s'.
Proof. intros H0 R Hr Hs Hl HC. destruct (reach_inv s H0 R) as (W & H). destruct (recv_ok dim n W s r src m rest fuel Hr Hs Hl HC H) as (s' & E & _). exists s'. exact E. Qed.

(** *** Progress *)
Definition has_msg (s : gstate D) (r : nat) : Prop := exists src m rest, (src < n)%nat /\ g_chan s src r = m :: rest.
Lemma has_msg_dec s r : has_msg s r \/ forall src, (src < n)%nat -> g_chan s src r = [].
Proof.
  assert (X : forall l, (exists src m rest, In src l /\ g_chan s src r = m :: rest) \/ forall src, In src l -> g_chan s src r = []).
  { induction l as [|a l IH]; [right; intros src []|]. destruct (g_chan s a r) as [|m rest] eqn:E; [|left; exists a, m, rest; split; [left; reflexivity | exact E]].
    destruct IH as [(src & m & rest & A & B)|IH]; [left; exists src, m, rest; split; [right; exact A | exact B] | right; intros src [<-|Hs]; [exact E | apply IH, Hs]]. }
  destruct (X (ranks n)) as [(src & m & rest & A & B)|Y]; [left; exists src, m, rest; split; [apply in_ranks, A | exact B] | right; intros src Hs; apply Y, in_ranks, Hs].
Qed.
Lemma rank_dec (P : nat -> Prop) : (forall r, P r \/ ~ P r) -> (exists r, (r < n)%nat /\ P r) \/ (forall r, (r < n)%nat -> ~ P r).
Proof.
  intros HP. assert (X : forall m, (exists r, (r < m)%nat /\ P r) \/ (forall r, (r < m)%nat -> ~ P r)).
  { induction m as [|m [(r & A & B)|IH]]; [right; lia | left; exists r; split; [lia | exact B]|]. destruct (HP m) as [A|A]; [left; exists m; split; [lia | exact A]|]. right. intros r Hr. destruct (Nat.eq_dec r m) as [->|N1]; [exact A | apply IH; lia]. }
  apply X.
Qed.
Lemma phase_dec (a b : phase) : a = b \/ a <> b. Proof. destruct a, b; (left; reflexivity) || (right; discriminate). Qed.
(** Unless all ranks are at the barrier, a step that is not a new request is possible. *)
Theorem C17_progress s : start_ok dim n W0 T0 -> reach s -> (exists r, (r < n)%nat /\ g_ph s r <> AtBarrier) ->
  exists s', step dim n false (newtabs dim n) fuel s s' /\ forall r, g_ph s r = Working -> g_wait s' r = g_wait s r.
Proof.
  intros H0 R (r0 & Hr0 & Hn0). destruct (reach_inv s H0 R) as (W & H).
  destruct (rank_dec (fun r => g_ph s r = Idle)) as [(r & Hr & Hp)|NI]; [intros; apply phase_dec| |].
  { eexists. split; [apply s_start; eassumption|]. intros r' Hw. cbn [g_wait]. apply upd_other. congruence. }
  assert (LD : forall r, listening s r \/ ~ listening s r).
  { intros r. unfold listening. destruct (g_ph s r), (g_all s r); try (left; left; reflexivity); try (left; right; split; reflexivity); right; intros [A|[A B]]; discriminate. }
  destruct (rank_dec (fun r => listening s r /\ has_msg s r)) as [(r & Hr & Hl & src & m & rest & Hs & HC)|NM].
  { intros r. destruct (LD r) as [A|A]; [|right; tauto]. destruct (has_msg_dec s r) as [B|B]; [left; tauto|]. right. intros (_ & src & m & rest & Hs & HC). rewrite (B src Hs) in HC. discriminate. }
  { destruct (recv_ok dim n W s r src m rest fuel Hr Hs Hl HC H) as (s' & E & _). exists s'. split; [apply (s_recv dim n false _ fuel s s' r src m rest); assumption|]. intros r' _. revert E. unfold handle.
    destruct m; cbv zeta; intros E; repeat match type of E with match ?x with _ => _ end = Some _ => destruct x; [|discriminate] end; injection E as <-; reflexivity. }
  assert (CE : forall src r, (src < n)%nat -> (r < n)%nat -> listening s r -> g_chan s src r = []).
  { intros src r Hs Hr Hl. destruct (has_msg_dec s r) as [B|B]; [exfalso; apply (NM r Hr); tauto | apply B, Hs]. }
  (* a rank that does not listen has seen the DONE of every rank *)
  assert (SD : forall o p, (o < n)%nat -> (p < n)%nat -> ~ listening s o -> ndone (g_chan s p o) = 0%nat /\ has_sent (g_ph s p) = true).
  { intros o p Ho Hp Hl. assert (Hd : g_done s o p = true).
    { destruct (g_ph s o) eqn:E; [exfalso; apply (NI o Ho E) | exfalso; apply Hl; left; exact E | | apply (i_left _ _ _ _ H o p Ho Hp); left; exact E | apply (i_left _ _ _ _ H o p Ho Hp); right; exact E].
      destruct (g_all s o) eqn:A; [|exfalso; apply Hl; right; tauto]. rewrite (i_all _ _ _ _ H o Ho E), forallb_forall in A. apply A, in_ranks, Hp. }
    pose proof (i_done _ _ _ _ H p o Hp Ho) as X. unfold seen in X. rewrite Hd in X. pose proof (NI o Ho) as Y. destruct (g_ph s o), (has_sent (g_ph s p)); cbn [b2n] in X; try tauto; lia. }
  destruct (rank_dec (fun r => g_ph s r = Working)) as [(r & Hr & Hp)|NW]; [intros; apply phase_dec| |].
  { assert (PE : pend n s r = []).
    { unfold pend. assert (X : forall o, (o < n)%nat -> piece s r o = []).
      { intros o Ho. unfold piece. rewrite (CE o r Ho Hr) by (left; exact Hp). cbn [headents nods flat_map]. rewrite app_nil_r. destruct (LD o) as [A|A]; [rewrite (CE r o Hr Ho A); reflexivity|]. destruct (SD o r Ho Hr A) as [_ B]. rewrite Hp in B. discriminate. }
      rewrite (flat_map_same n _ (fun _ => []) X). induction (ranks n); [reflexivity | assumption]. }
    eexists. split; [apply s_finish; [exact Hr | exact Hp|]|].
    - intros k c Hk Hc. destruct (i_ask _ _ _ _ H r k Hr Hp Hk) as (A & c' & Hc' & Hq). rewrite Hc in Hc'. injection Hc' as <-. unfold empty_node. destruct (i_rest _ _ _ _ H r k c Hr Hc) as [[F1 F2]|[_ F2]]; [rewrite PE; intros [] | exact A | | congruence].
      rewrite (full_not_empty dim W (i_wf _ _ _ _ H) k _ A F1 F2). apply andb_false_r.
    - reflexivity. }
  assert (HS : forall p, (p < n)%nat -> has_sent (g_ph s p) = true) by (intros p Hp; specialize (NI p Hp); specialize (NW p Hp); destruct (g_ph s p); try reflexivity; tauto).
  destruct (rank_dec (fun r => g_ph s r = Left)) as [(r & Hr & Hp)|NL]; [intros; apply phase_dec| |].
  { eexists. split; [apply (s_waitall dim n false _ fuel s r Hr Hp)|reflexivity]. intros q Hq Hin. destruct (LD q) as [A|A]; [rewrite (CE r q Hr Hq A) in Hin; destruct Hin|]. destruct (SD q r Hq Hr A) as [B _].
    unfold ndone in B. assert (Z : In MDone (filter is_done (g_chan s r q))) by (apply filter_In; split; [exact Hin | reflexivity]). destruct (filter is_done (g_chan s r q)); [destruct Z | discriminate]. }
  assert (HWt : g_ph s r0 = Waiting) by (specialize (NI r0 Hr0); specialize (NW r0 Hr0); specialize (NL r0 Hr0); destruct (g_ph s r0); tauto).
  destruct (g_all s r0) eqn:A; [eexists; split; [apply (s_leave dim n false _ fuel s r0 Hr0 HWt A) | reflexivity]|].
  exfalso. rewrite (i_all _ _ _ _ H r0 Hr0 HWt) in A. assert (Z : forallb (g_done s r0) (ranks n) = true); [|congruence]. apply forallb_forall. intros p Hp. apply in_ranks in Hp.
  pose proof (i_done _ _ _ _ H p r0 Hp Hr0) as X. rewrite (HS p Hp), (CE p r0 Hp Hr0) in X; [|right; rewrite (i_all _ _ _ _ H r0 Hr0 HWt); tauto]. unfold seen in X. rewrite HWt in X. destruct (g_done s r0 p); [reflexivity | discriminate].
Qed.

(** The steps other than requests come to an end: some quantity goes down with each, so
    with the previous theorem the barrier is reached once the loops stop asking. *)
Definition lsum (f : nat -> nat) : nat := list_sum (map f (ranks n)).
Lemma lsum_upd (f : nat -> nat) r x : (r < n)%nat -> (lsum (upd f r x) + f r = lsum f + x)%nat.
Proof.
  intros Hr. unfold lsum. apply in_ranks in Hr. destruct (in_split _ _ Hr) as (a & b & E). assert (ND : NoDup (ranks n)) by (unfold ranks; apply seq_NoDup). rewrite E in *. pose proof (NoDup_remove_2 _ _ _ ND) as Hn.
  assert (X : forall l, ~ In r l -> map (upd f r x) l = map f l) by (intros l Hl; apply map_ext_in; intros y Hy; apply upd_other; intros ->; contradiction).
  rewrite ! map_app. cbn [map]. rewrite upd_same, (X a), (X b) by (intros Y; apply Hn, in_or_app; tauto). rewrite ! list_sum_app. cbn [list_sum fold_right]. unfold list_sum. lia.
Qed.
Lemma lsum_ext (f g : nat -> nat) : (forall r, (r < n)%nat -> f r = g r) -> lsum f = lsum g.
Proof. intros H. unfold lsum. f_equal. apply map_ext_in. intros r Hr. apply H, in_ranks, Hr. Qed.
Definition wt (m : msg D) : nat := match m with MReq _ | MSub _ => 3 | _ => 1 end.
Definition cw (l : list (msg D)) : nat := list_sum (map wt l).
Definition chans (c : nat -> nat -> list (msg D)) : nat := lsum (fun p => lsum (fun q => cw (c p q))).
Definition phw (p : phase) : nat := match p with Idle => n + 4 | Working => n + 3 | Waiting => 2 | Left => 1 | AtBarrier => 0 end.
Definition measure s : nat := (chans (g_chan s) + lsum (fun r => phw (g_ph s r)))%nat.
Lemma chans_upd (c : nat -> nat -> list (msg D)) p q l : (p < n)%nat -> (q < n)%nat -> (chans (upd2 c p q l) + cw (c p q) = chans c + cw l)%nat.
Proof.
  intros Hp Hq. unfold chans. pose proof (lsum_upd (fun p' => lsum (fun q' => cw (c p' q'))) p (lsum (fun q' => cw (upd (c p) q l q'))) Hp) as X. cbv beta in X.
  rewrite (lsum_ext (fun p' => lsum (fun q' => cw (upd2 c p q l p' q'))) (upd (fun p' => lsum (fun q' => cw (c p' q'))) p (lsum (fun q' => cw (upd (c p) q l q'))))).
  - pose proof (lsum_upd (fun q' => cw (c p q')) q (cw l) Hq) as Y. cbv beta in Y. rewrite (lsum_ext (fun q' => cw (upd (c p) q l q')) (upd (fun q' => cw (c p q')) q (cw l))) in *; [lia | intros r _; unfold upd; destruct (r =? q)%nat; reflexivity..].
  - intros r _. unfold upd2. destruct (Nat.eq_dec r p) as [->|N1]; [rewrite ! upd_same; reflexivity | rewrite ! upd_other by exact N1; reflexivity].
Qed.
Lemma phw_upd s r x : (r < n)%nat -> (lsum (fun r' => phw (upd (g_ph s) r x r')) + phw (g_ph s r) = lsum (fun r' => phw (g_ph s r')) + phw x)%nat.
Proof. intros Hr. pose proof (lsum_upd (fun r' => phw (g_ph s r')) r (phw x) Hr) as X. cbv beta in X. rewrite <- X. f_equal. apply lsum_ext. intros r' _. unfold upd. destruct (r' =? r)%nat; reflexivity. Qed.
Lemma cw_app a b : cw (a ++ b) = (cw a + cw b)%nat. Proof. unfold cw. rewrite map_app. apply list_sum_app. Qed.
Lemma lsum_plus f g : lsum (fun r => (f r + g r)%nat) = (lsum f + lsum g)%nat.
Proof. unfold lsum. induction (ranks n) as [|x l IH]; [reflexivity|]. cbn [map list_sum fold_right]. unfold list_sum in IH. rewrite IH. lia. Qed.
Lemma chans_done (c : nat -> nat -> list (msg D)) r : (r < n)%nat -> chans (fun p q => if (p =? r)%nat && (q <? n)%nat then c p q ++ [MDone] else c p q) = (chans c + n)%nat.
Proof.
  intros Hr. unfold chans. pose proof (lsum_upd (fun p => lsum (fun q => cw (c p q))) r (lsum (fun q => cw (c r q)) + n)%nat Hr) as X. cbv beta in X.
  rewrite (lsum_ext _ (upd (fun p => lsum (fun q => cw (c p q))) r (lsum (fun q => cw (c r q)) + n)%nat)); [lia|]. intros p Hp. destruct (Nat.eq_dec p r) as [->|N1].
  - rewrite upd_same, Nat.eqb_refl. cbn [andb]. rewrite (lsum_ext _ (fun q => (cw (c r q) + 1)%nat)).
    + rewrite lsum_plus. f_equal. unfold lsum, ranks. rewrite <- (seq_length n 0) at 2. induction (seq 0 n) as [|y l IH]; [reflexivity|]. cbn [map list_sum fold_right length]. unfold list_sum in IH. rewrite IH. reflexivity.
    + intros q Hq. replace (q <? n)%nat with true by (symmetry; apply Nat.ltb_lt; exact Hq). apply cw_app.
  - rewrite upd_other by exact N1. replace (p =? r)%nat with false by (symmetry; apply Nat.eqb_neq; exact N1). reflexivity.
Qed.
Lemma replies_wt ks eks ns es : (cw (replies ks eks ns es) <= 2)%nat.
Proof. unfold replies, cw. destruct ns, es; cbn; lia. Qed.
Lemma measure_step s s' nt : step dim n false nt fuel s s' -> (exists r, (r < n)%nat /\ g_ph s r <> AtBarrier) -> (forall r, g_ph s r = Working -> g_wait s' r = g_wait s r) -> (measure s' < measure s)%nat.
Proof.
  intros St (r0 & Hr0 & Hn0) Hreq. unfold measure.
  destruct St as [s r Hr Hp|s r o ks Hr Ho Hp Ha|s r o ks Hsub Hr Ho Hp Ha|s s' r src m rest Hr Hs Hl HC Hh|s r Hr Hp Hf|s r Hr Hp Ha|s r Hr Hp Hd|s t' Hb _]; cbn [g_chan g_ph set_ph].
  - pose proof (phw_upd s r Working Hr) as X. rewrite Hp in X. cbn [phw] in X. lia.
  - exfalso. specialize (Hreq r Hp). cbn [g_wait] in Hreq. rewrite upd_same in Hreq. destruct Ha as [Hne _]. apply Hne. apply (f_equal (@length N)) in Hreq. rewrite app_length in Hreq. destruct ks; [reflexivity | cbn in Hreq; lia].
  - discriminate.
  - pose proof (chans_upd (g_chan s) src r rest Hs Hr) as X. rewrite HC in X. change (cw (m :: rest)) with (wt m + cw rest)%nat in X. unfold handle in Hh. destruct m as [ks|ks|ks ns|ks es|].
    + unfold recv_requests in Hh. destruct (reply_nodes dim (g_tab s r) ks) as [ns|]; [|discriminate]. destruct (reply_ents dim (g_tab s r) ks) as [es|]; [|discriminate]. injection Hh as <-. cbn [g_chan g_ph].
      pose proof (chans_upd (upd2 (g_chan s) src r rest) r src (upd2 (g_chan s) src r rest r src ++ replies ks (ent_keys dim (g_tab s r) ks) ns es) Hr Hs) as Y. rewrite cw_app in Y. pose proof (replies_wt ks (ent_keys dim (g_tab s r) ks) ns es). cbn [wt] in X. lia.
    + destruct (recv_subtree dim fuel (g_tab s r) ks) as [x|] eqn:Ex; [|discriminate]. injection Hh as <-. cbn [g_chan g_ph].
      pose proof (chans_upd (upd2 (g_chan s) src r rest) r src (upd2 (g_chan s) src r rest r src ++ snd x) Hr Hs) as Y. rewrite cw_app in Y. assert (Z : (cw (snd x) <= 2)%nat) by (unfold recv_subtree in Ex; destruct (below_all dim fuel (g_tab s r) ks); [|discriminate]; injection Ex as <-; apply replies_wt). cbn [wt] in X. lia.
    + destruct (load_all (load_node dim) (g_tab s r) ns); [|discriminate]. injection Hh as <-. cbn [g_chan g_ph wt] in *. lia.
    + destruct (load_all (load_ent dim) (g_tab s r) es); [|discriminate]. injection Hh as <-. cbn [g_chan g_ph wt] in *. lia.
    + injection Hh as <-. cbn [g_chan g_ph wt] in *. lia.
  - rewrite (chans_done (g_chan s) r Hr). pose proof (phw_upd s r Waiting Hr) as X. rewrite Hp in X. cbn [phw] in X. lia.
  - pose proof (phw_upd s r Left Hr) as X. rewrite Hp in X. cbn [phw] in X. lia.
  - pose proof (phw_upd s r AtBarrier Hr) as X. rewrite Hp in X. cbn [phw] in X. lia.
  - exfalso. apply Hn0, Hb, Hr0.
Qed.
Theorem C17_ends : exists m : gstate D -> nat, forall s s' nt, step dim n false nt fuel s s' ->
  (exists r, (r < n)%nat /\ g_ph s r <> AtBarrier) -> (forall r, g_ph s r = Working -> g_wait s' r = g_wait s r) -> (m s' < m s)%nat.
Proof. exists measure. exact measure_step. Qed.

(** *** The cells of a rank *)
Lemma nonempty_full W s r k c : inv dim n W s -> (r < n)%nat -> g_tab s r k = Some c -> r_node c = true -> empty_node dim c = false -> w_isn W k = true /\ full dim W k (r_word c).
Proof.
  intros H Hr Hc Hn He. destruct (tk_cell _ _ _ _ _ (i_tok _ _ _ _ H r Hr) k c Hc) as (C1 & _). rewrite Hn in C1. split; [congruence|].
  assert (NP : ~ In k (pend n s r)) by (intros X; destruct (pend_empty dim n W s r k H Hr X) as (c' & Hc' & He' & _); rewrite Hc in Hc'; injection Hc' as <-; congruence).
  destruct (i_rest _ _ _ _ H r k c Hr Hc NP (eq_sym C1)) as [[F _]|[F _]]; [exact F|]. unfold empty_node in He. rewrite Hn, (bare_empty dim _ F) in He. discriminate.
Qed.
(** A node that a rank does not see as empty has the children it has at its owner, and all
    of them are in the rank's table. *)
Theorem C18_complete s r k c : start_ok dim n W0 T0 -> reach s -> (r < n)%nat -> g_tab s r k = Some c -> r_node c = true -> empty_node dim c = false ->
  (r_owner c < n)%nat /\ exists c', g_tab s (r_owner c) k = Some c' /\ r_node c' = true /\
    forall d, d < 2 ^ dim -> get_child (r_word c) d = get_child (r_word c') d /\
      (get_child (r_word c') d = true -> exists ch, g_tab s r (k * 2 ^ dim + d) = Some ch).
Proof.
  intros H0 R Hr Hc Hn He. destruct (reach_inv s H0 R) as (W & H). destruct (nonempty_full W s r k c H Hr Hc Hn He) as [Hi Hf].
  pose proof (i_tok _ _ _ _ H r Hr) as HT. destruct (tk_cell _ _ _ _ _ HT k c Hc) as (_ & _ & _ & C4 & [_ (c' & Hc' & Hf')]). split; [exact C4|]. exists c'. split; [exact Hc'|].
  destruct (tk_cell _ _ _ _ _ (i_tok _ _ _ _ H _ C4) k c' Hc') as (E & _). split; [congruence|]. intros d Hd. rewrite (Hf d Hd), (Hf' Hi d Hd). split; [reflexivity|]. intros Hk.
  assert (Hg : get_child (r_word c) d = true) by (rewrite (Hf d Hd); exact Hk). destruct (tk_down _ _ _ _ _ HT k c d Hc Hi Hd Hg) as [_ X]. exact X.
Qed.
Lemma ents_in_head W V p q l : shaped dim n W V p q l -> forall g es, In (MEnts g es) l -> incl g (nods l) /\ entsok dim n W V g es.
Proof.
  assert (X : forall m l, (length l <= m)%nat -> shaped dim n W V p q l -> forall g es, In (MEnts g es) l -> incl g (nods l) /\ entsok dim n W V g es); [|apply (X (length l) l (le_n _))].
  induction m as [|m IH]; intros l0 Hm HS g es Hin; [destruct l0; [destruct Hin | cbn in Hm; lia]|]. destruct l0 as [|x l0]; [destruct Hin|]. cbn [length] in Hm. destruct x as [ks|ks|ks ns|ks es'|]; cbn [shaped] in HS.
  - destruct Hin as [Hin|Hin]; [discriminate|]. apply (IH l0); [lia | tauto | exact Hin].
  - destruct HS.
  - destruct Hin as [Hin|Hin]; [discriminate|]. destruct HS as (_ & _ & HS). destruct l0 as [|y l0]; [destruct Hin|]. cbn [length] in Hm. destruct y as [k1|k1|k1 n1|eks es'|].
    1-3,5: destruct HS as [_ HS]; match type of HS with shaped _ _ _ _ _ _ ?L => assert (LL : (length L <= m)%nat) by (cbn [length]; lia); destruct (IH L LL HS g es Hin) as [A B] end; split; [|exact B]; intros z Hz; apply in_or_app; right; apply A, Hz.
    destruct HS as (B1 & B2 & B3 & B4). destruct Hin as [Hin|Hin].
    + injection Hin as <- <-. split; [|exact B3]. intros z Hz. apply in_or_app. left. rewrite B1 in Hz. apply filter_In in Hz. tauto.
    + destruct (IH l0 ltac:(lia) B4 g es Hin) as [A B]. split; [|exact B]. intros z Hz. apply in_or_app. right. apply A, Hz.
  - destruct HS.
  - destruct Hin as [Hin|Hin]; [discriminate|]. apply (IH l0); [lia | tauto | exact Hin].
Qed.
Lemma entsok_parent W V g es : wf_world dim W -> entsok dim n W V g es -> forall e, In e es -> In (key_parent dim (ee_key e)) g.
Proof.
  intros HW. induction 1 as [|k ks gr rest Hg Hr IH]; intros e He; [destruct He|]. apply in_app_iff in He. destruct He as [He|He]; [left | right; apply IH, He].
  assert (DS : forall d, In d (filter (is_ent dim W k) (digits dim)) -> d < 2 ^ dim) by (intros d Hd; apply filter_In in Hd; apply (digits_in dim), Hd).
  revert He DS. clear - Hg. induction Hg as [|d x ds g Hx Hg IH]; intros He DS; [destruct He|]. destruct He as [<-|He]; [|apply IH; [exact He | intros d' Hd'; apply DS; right; exact Hd']].
  destruct Hx as (E & _). rewrite E. symmetry. apply ck_parent, DS. left. reflexivity.
Qed.
(** While a request for a node, or one of its entities, is on the way, the asking rank sees
    the node as empty. *)
Theorem C18_waiting s r o k : start_ok dim n W0 T0 -> reach s -> (r < n)%nat -> (o < n)%nat ->
  (exists ks, In (MReq ks) (g_chan s r o) /\ In k ks) \/ (exists g es e, In (MEnts g es) (g_chan s o r) /\ In e es /\ key_parent dim (ee_key e) = k) ->
  exists c, g_tab s r k = Some c /\ empty_node dim c = true.
Proof.
  intros H0 R Hr Ho Hk. destruct (reach_inv s H0 R) as (W & H). assert (Hp : In k (pend n s r)).
  { apply pend_in. destruct Hk as [(ks & Hm & Hk)|(g & es & e & Hm & He & <-)].
    - left. exists o. split; [exact Ho|]. left. apply in_flat_map. exists (MReq ks). tauto.
    - pose proof (i_chan _ _ _ _ H o r Ho Hr) as HO. destruct (g_chan s o r) as [|x l] eqn:HC; [destruct Hm|]. pose proof (i_wf _ _ _ _ H) as HW.
      assert (HSH : forall l0, shaped dim n W (valid dim n W (g_tab s)) o r l0 -> In (MEnts g es) l0 -> In (key_parent dim (ee_key e)) (nods l0)).
      { intros l0 HS Hin. destruct (ents_in_head W _ o r l0 HS g es Hin) as [A B]. apply A, (entsok_parent W _ g es HW B e He). }
      destruct x as [k1|k1|k1 n1|eks es'|]; cbn [chan_ok] in HO.
      1-3,5: left; exists o; split; [exact Ho|]; right; rewrite HC; apply HSH; assumption.
      destruct HO as (A1 & A2 & A3). destruct Hm as [Hm|Hm]; [injection Hm as -> ->; right; exists o; split; [exact Ho|]; rewrite HC; cbn [headents]; apply (entsok_parent W _ g es HW A2 e He)|].
      left. exists o. split; [exact Ho|]. right. rewrite HC. change (nods (MEnts eks es' :: l)) with (nods l). apply HSH; assumption. }
  destruct (pend_empty dim n W s r k H Hr Hp) as (c & Hc & He & _). exists c. tauto.
Qed.
(** C61, fetching from any tables that belong to one tree: a cell of a rank is of the kind and has the data of the
    cell at its owner; a node not seen as empty has the owner's children. *)
Theorem C61_fetched s r k c : start_ok dim n W0 T0 -> reach s -> (r < n)%nat -> g_tab s r k = Some c ->
  (r_owner c < n)%nat /\ exists c', g_tab s (r_owner c) k = Some c' /\ r_node c' = r_node c /\ r_data c' = r_data c /\
    (r_node c = true -> empty_node dim c = false -> forall d, d < 2 ^ dim -> get_child (r_word c) d = get_child (r_word c') d).
Proof.
  intros H0 R Hr Hc. destruct (reach_inv s H0 R) as (W & H). destruct (tk_cell _ _ _ _ _ (i_tok _ _ _ _ H r Hr) k c Hc) as (C1 & C2 & _ & C4 & [_ (c' & Hc' & Hf')]). split; [exact C4|]. exists c'. split; [exact Hc'|].
  destruct (tk_cell _ _ _ _ _ (i_tok _ _ _ _ H _ C4) k c' Hc') as (E1 & E2 & _). split; [congruence|]. split; [congruence|]. intros Hn He d Hd. destruct (nonempty_full W s r k c H Hr Hc Hn He) as [Hi Hf]. rewrite (Hf d Hd), (Hf' Hi d Hd). reflexivity.
Qed.
End Props.

(** *** Runs on a concrete tree, dimension 1, two ranks
    1 -> 2, 3;  2 -> 4, 5 (rank 0);  3 -> 6 (entity of rank 0), 7;  7 -> node 14, entity 15
    (rank 1);  14 -> 28, 29.  Both ranks have 1 and 3, completed in the share phase; rank 0
    has 7 and rank 1 has 2 as the share phase leaves them: without children and with no
    children announced (load_shared_node_, tree_topology.h L1852-1866). *)
Inductive act := AStart (r : nat) | AReq (r o : nat) (ks : list N) | ASub (r o : nat) (ks : list N) | ARecv (r src : nat) | AFin (r : nat) | ALeave (r : nat) | AWait (r : nat).
Section Exec.
Context {D : Type} (dim : N) (n : nat) (sub : bool) (fuel : nat).
Implicit Types (s : gstate D) (t : rtable D).
Definition ph_eqb (a b : phase) : bool := match a, b with Idle, Idle | Working, Working | Waiting, Waiting | Left, Left | AtBarrier, AtBarrier => true | _, _ => false end.
Fixpoint nodupb (l : list N) : bool := match l with [] => true | x :: r => negb (existsb (N.eqb x) r) && nodupb r end.
Definition askb (t : rtable D) (o : nat) (ks : list N) : bool :=
  negb (match ks with [] => true | _ => false end) && nodupb ks && forallb (fun k => match t k with Some c => empty_node dim c && negb (requested dim (r_word c)) && (r_owner c =? o)%nat | None => false end) ks.
Definition exec1 (s : gstate D) (a : act) : option (gstate D) :=
  match a with
  | AStart r => if (r <? n)%nat && ph_eqb (g_ph s r) Idle then Some (mkg (g_tab s) (g_chan s) (upd (g_ph s) r Working) (upd (g_done s) r (fun _ => false)) (g_all s) (upd (g_wait s) r [])) else None
  | AReq r o ks => if (r <? n)%nat && (o <? n)%nat && ph_eqb (g_ph s r) Working && askb (g_tab s r) o ks
      then Some (mkg (upd (g_tab s) r (mark_requested dim (g_tab s r) ks)) (upd2 (g_chan s) r o (g_chan s r o ++ [MReq ks])) (g_ph s) (g_done s) (g_all s) (upd (g_wait s) r (ks ++ g_wait s r))) else None
  | ASub r o ks => if sub && (r <? n)%nat && (o <? n)%nat && ph_eqb (g_ph s r) Working && askb (g_tab s r) o ks
      then Some (mkg (upd (g_tab s) r (mark_requested dim (g_tab s r) ks)) (upd2 (g_chan s) r o (g_chan s r o ++ [MSub ks])) (g_ph s) (g_done s) (g_all s) (g_wait s)) else None
  | ARecv r src => if (r <? n)%nat && (src <? n)%nat && (ph_eqb (g_ph s r) Working || (ph_eqb (g_ph s r) Waiting && negb (g_all s r)))
      then match g_chan s src r with m :: rest => handle dim n fuel s r src m rest | [] => None end else None
  | AFin r => if (r <? n)%nat && ph_eqb (g_ph s r) Working && forallb (fun k => match g_tab s r k with Some c => negb (empty_node dim c) | None => true end) (g_wait s r)
      then Some (mkg (g_tab s) (fun p q => if (p =? r)%nat && (q <? n)%nat then g_chan s p q ++ [MDone] else g_chan s p q) (upd (g_ph s) r Waiting) (g_done s) (upd (g_all s) r false) (g_wait s)) else None
  | ALeave r => if (r <? n)%nat && ph_eqb (g_ph s r) Waiting && g_all s r then Some (set_ph s r Left) else None
  | AWait r => if (r <? n)%nat && ph_eqb (g_ph s r) Left && forallb (fun q => forallb (fun m => negb (is_done m)) (g_chan s r q)) (ranks n) then Some (set_ph s r AtBarrier) else None
  end.
Fixpoint exec (s : gstate D) (l : list act) : option (gstate D) := match l with [] => Some s | a :: r => match exec1 s a with Some s' => exec s' r | None => None end end.
Lemma ph_eqb_eq a b : ph_eqb a b = true -> a = b. Proof. destruct a, b; (reflexivity || discriminate). Qed.
Lemma nodupb_ok l : nodupb l = true -> NoDup l.
Proof. induction l as [|x l IH]; intros H; [constructor|]. cbn in H. apply andb_true_iff in H. destruct H as [H1 H2]. constructor; [|apply IH, H2]. intros X. apply existsb_in in X. rewrite X in H1. discriminate. Qed.
Lemma askb_ok t o ks : askb t o ks = true -> askable dim t o ks.
Proof.
  unfold askb. intros H. apply andb_true_iff in H. destruct H as [H H3]. apply andb_true_iff in H. destruct H as [H1 H2]. split; [intros ->; discriminate|]. split; [apply nodupb_ok, H2|].
  intros k Hk. rewrite forallb_forall in H3. specialize (H3 k Hk). destruct (t k) as [c|]; [|discriminate]. exists c. split; [reflexivity|]. apply andb_true_iff in H3. destruct H3 as [H3 H4]. apply andb_true_iff in H3. destruct H3 as [H3 H5]. split; [exact H3|]. split; [apply negb_true_iff, H5 | apply Nat.eqb_eq, H4].
Qed.
Ltac sp H := repeat (let h := fresh H in apply andb_true_iff in H; destruct H as [H h]).
Lemma exec1_ok nt s a s' : exec1 s a = Some s' -> step dim n sub nt fuel s s'.
Proof.
  destruct a as [r|r o ks|r o ks|r src|r|r|r]; unfold exec1; intros H;
    match type of H with (if ?b then _ else _) = _ => destruct b eqn:E; [|discriminate] end; sp E.
  - injection H as <-. apply s_start; [apply Nat.ltb_lt, E | apply ph_eqb_eq; assumption].
  - injection H as <-. apply s_request; [apply Nat.ltb_lt, E | apply Nat.ltb_lt; assumption | apply ph_eqb_eq; assumption | apply askb_ok; assumption].
  - injection H as <-. apply s_subtree; [exact E | apply Nat.ltb_lt; assumption | apply Nat.ltb_lt; assumption | apply ph_eqb_eq; assumption | apply askb_ok; assumption].
  - destruct (g_chan s src r) as [|m rest] eqn:EC; [discriminate|]. apply (s_recv dim n sub nt fuel s s' r src m rest); [apply Nat.ltb_lt, E | apply Nat.ltb_lt; assumption | | exact EC | exact H].
    apply orb_true_iff in E0. destruct E0 as [E0|E0]; [left; apply ph_eqb_eq, E0|]. apply andb_true_iff in E0. right. split; [apply ph_eqb_eq | apply negb_true_iff]; apply E0.
  - injection H as <-. apply s_finish; [apply Nat.ltb_lt, E | apply ph_eqb_eq; assumption|]. intros k c Hk Hc. rewrite forallb_forall in E0. specialize (E0 k Hk). rewrite Hc in E0. apply negb_true_iff, E0.
  - injection H as <-. apply s_leave; [apply Nat.ltb_lt, E | apply ph_eqb_eq; assumption | assumption].
  - injection H as <-. apply s_waitall; [apply Nat.ltb_lt, E | apply ph_eqb_eq; assumption|]. intros q Hq Hin. rewrite forallb_forall in E0. specialize (E0 q (proj2 (in_ranks n q) Hq)). rewrite forallb_forall in E0. specialize (E0 _ Hin). discriminate.
Qed.
Lemma steps_trans nt s1 s2 s3 : steps dim n sub nt fuel s1 s2 -> steps dim n sub nt fuel s2 s3 -> steps dim n sub nt fuel s1 s3.
Proof. intros H1 H2. revert H1. induction H2 as [s|s s' s'' Ha IH Hb]; intros H1; [exact H1|]. apply (st_step dim n sub nt fuel s1 s' s''); [apply IH, H1 | exact Hb]. Qed.
Lemma exec_ok nt : forall l s s', exec s l = Some s' -> steps dim n sub nt fuel s s'.
Proof. induction l as [|a l IH]; intros s s' H; [injection H as <-; constructor|]. cbn [exec] in H. destruct (exec1 s a) as [s1|] eqn:E; [|discriminate]. apply (steps_trans nt s s1 s'); [apply (st_step dim n sub nt fuel s s s1); [constructor | apply (exec1_ok nt s a s1 E)] | apply IH, H]. Qed.
End Exec.

Definition x_both : N := add_child (add_child hcell_new 0) 1.
Definition x_world : world N := mkw (fun k d => ((k =? 1) || (k =? 2) || (k =? 3) || (k =? 7) || (k =? 14)) && (d <? 2)) (fun k => (k =? 1) || (k =? 2) || (k =? 3) || (k =? 7) || (k =? 14)) (fun k => 100 + k).
Definition x_cell (k : N) (w : N) (nd : bool) (o : nat) : rcell N := mkr w nd o (100 + k).
Definition x_tab (r : nat) : rtable N := fun k =>
  match r, k with
  | _, 1 => Some (x_cell 1 x_both true r)
  | O, 2 => Some (x_cell 2 x_both true 0)
  | O, 4 => Some (x_cell 4 hcell_new false 0)
  | O, 5 => Some (x_cell 5 hcell_new false 0)
  | O, 3 => Some (x_cell 3 x_both true 0)
  | O, 6 => Some (x_cell 6 hcell_new false 0)
  | O, 7 => Some (x_cell 7 hcell_new true 1)
  | S O, 3 => Some (x_cell 3 x_both true 1)
  | S O, 7 => Some (x_cell 7 x_both true 1)
  | S O, 14 => Some (x_cell 14 x_both true 1)
  | S O, 15 => Some (x_cell 15 hcell_new false 1)
  | S O, 28 => Some (x_cell 28 hcell_new false 1)
  | S O, 29 => Some (x_cell 29 hcell_new false 1)
  | S O, 6 => Some (x_cell 6 hcell_new false 0)
  | S O, 2 => Some (x_cell 2 hcell_new true 0)
  | _, _ => None
  end.
Lemma d2 d : d < 2 ^ 1 -> d = 0 \/ d = 1. Proof. change (2 ^ 1) with 2. lia. Qed.

Lemma x_cases r k c : (r < 2)%nat -> x_tab r k = Some c ->
  (k = 1 /\ c = x_cell 1 x_both true r) \/
  (r = O /\ ((k = 2 /\ c = x_cell 2 x_both true 0) \/ (k = 4 /\ c = x_cell 4 hcell_new false 0) \/ (k = 5 /\ c = x_cell 5 hcell_new false 0) \/ (k = 3 /\ c = x_cell 3 x_both true 0) \/ (k = 6 /\ c = x_cell 6 hcell_new false 0) \/ (k = 7 /\ c = x_cell 7 hcell_new true 1))) \/
  (r = 1%nat /\ ((k = 3 /\ c = x_cell 3 x_both true 1) \/ (k = 7 /\ c = x_cell 7 x_both true 1) \/ (k = 14 /\ c = x_cell 14 x_both true 1) \/ (k = 15 /\ c = x_cell 15 hcell_new false 1) \/ (k = 28 /\ c = x_cell 28 hcell_new false 1) \/ (k = 29 /\ c = x_cell 29 hcell_new false 1) \/ (k = 6 /\ c = x_cell 6 hcell_new false 0) \/ (k = 2 /\ c = x_cell 2 hcell_new true 0))).
Proof.
  intros Hr H. destruct r as [|[|r]]; [| | lia]; unfold x_tab in H; destruct k as [|p]; try discriminate; do 5 (try destruct p as [p|p|]); try discriminate; injection H as <-; tauto.
Qed.
Ltac x2 Hd := apply d2 in Hd; destruct Hd as [Hd|Hd]; subst.
Lemma x_full k w : w_isn x_world k = true -> w = x_both -> full 1 x_world k w.
Proof. intros Hi -> d Hd. cbn [x_world w_kid w_isn] in *. rewrite Hi. apply d2 in Hd. destruct Hd as [-> | ->]; reflexivity. Qed.
Lemma x_one r : x_tab r 1 = Some (x_cell 1 x_both true r). Proof. destruct r as [|[|r]]; reflexivity. Qed.
Lemma x_bare : bare 1 hcell_new. Proof. intros d Hd. apply new_child. Qed.
Lemma x_wf w : w = x_both \/ w = hcell_new -> wf_w 1 w.
Proof. intros [-> | ->]; [|apply wf_new; lia]. destruct (op_getters 1 hcell_new (AddChild 0) ltac:(apply wf_new; lia) ltac:(cbn; lia)) as (A & _). destruct (op_getters 1 _ (AddChild 1) A ltac:(cbn; lia)) as (B & _). exact B. Qed.
Ltac xup p d := exists p; eexists; exists d; (split; [reflexivity|]); (split; [lia|]); repeat (split; [reflexivity|]); reflexivity.
(** the hypothesis of the theorems is met *)
Example x_start : start_ok 1 2 x_world x_tab.
Proof.
  split.
  - split; [lia|]. intros k Hk. cbn [x_world w_isn] in Hk. assert (E : k = 1 \/ k = 2 \/ k = 3 \/ k = 7 \/ k = 14) by (rewrite ! orb_true_iff, ! N.eqb_eq in Hk; tauto). destruct E as [->|[->|[->|[->| ->]]]]; (split; [split; vm_compute; congruence | vm_compute; discriminate]).
  - intros r Hr. split.
    + constructor.
      * intros k c Hc. destruct (x_cases r k c Hr Hc) as [[-> ->]|[(-> & X)|(-> & X)]]; [|destruct X as [[-> ->]|[[-> ->]|[[-> ->]|[[-> ->]|[[-> ->]|[-> ->]]]]]]|destruct X as [[-> ->]|[[-> ->]|[[-> ->]|[[-> ->]|[[-> ->]|[[-> ->]|[[-> ->]|[-> ->]]]]]]]]].
        all: split; [reflexivity|]; split; [reflexivity|]; split; [apply x_wf; cbn [x_cell r_word]; tauto|]; cbn [x_cell r_owner]; split; [try exact Hr; lia|]; split; [try exact Hr; lia|]; unfold complete; eexists; (split; [first [reflexivity | apply x_one]|]); intros Hi; first [discriminate | apply x_full; [reflexivity|reflexivity]].
      * intros k c d Hc Hi Hd Hg. apply d2 in Hd. destruct (x_cases r k c Hr Hc) as [[-> ->]|[(-> & X)|(-> & X)]]; [|destruct X as [[-> ->]|[[-> ->]|[[-> ->]|[[-> ->]|[[-> ->]|[-> ->]]]]]]|destruct X as [[-> ->]|[[-> ->]|[[-> ->]|[[-> ->]|[[-> ->]|[[-> ->]|[[-> ->]|[-> ->]]]]]]]]].
        all: destruct Hd as [-> | ->]; try discriminate Hi; try discriminate Hg; (split; [reflexivity|]); try (destruct r as [|[|r]]; [| | lia]); eexists; reflexivity.
      * intros k c Hc Hk. destruct (x_cases r k c Hr Hc) as [[-> ->]|[(-> & X)|(-> & X)]]; [exfalso; apply Hk; reflexivity|destruct X as [[-> ->]|[[-> ->]|[[-> ->]|[[-> ->]|[[-> ->]|[-> ->]]]]]]|destruct X as [[-> ->]|[[-> ->]|[[-> ->]|[[-> ->]|[[-> ->]|[[-> ->]|[[-> ->]|[-> ->]]]]]]]]].
        all: try (xup 1 0). all: try (xup 1 1). all: try (xup 2 0). all: try (xup 2 1). all: try (xup 3 0). all: try (xup 3 1). all: try (xup 7 0). all: try (xup 7 1). all: try (xup 14 0). all: xup 14 1.
      * exists (x_cell 1 x_both true r). split; [apply x_one|]. split; [reflexivity|]. apply x_full; reflexivity.
    + intros k c Hc Hi. destruct (x_cases r k c Hr Hc) as [[-> ->]|[(-> & X)|(-> & X)]]; [|destruct X as [[-> ->]|[[-> ->]|[[-> ->]|[[-> ->]|[[-> ->]|[-> ->]]]]]]|destruct X as [[-> ->]|[[-> ->]|[[-> ->]|[[-> ->]|[[-> ->]|[[-> ->]|[[-> ->]|[-> ->]]]]]]]]].
      all: first [discriminate Hi | left; split; [apply x_full; reflexivity | vm_compute; discriminate] | right; split; [exact x_bare | reflexivity]].
Qed.

Definition x_init : gstate N := g_init x_tab (fun _ _ => false) (fun _ => false) (fun _ => []).
(** Both ranks fetch: 0 asks for 7 and then 14, 1 asks for 2; the DONE of rank 1 is read
    before rank 0 has its last reply. *)
Definition x_run : list act :=
  [AStart 0; AStart 1; AReq 0 1 [7]; AReq 1 0 [2]; ARecv 1 0; ARecv 0 1; ARecv 1 0; ARecv 1 0; AFin 1; ARecv 0 1; ARecv 0 1; AReq 0 1 [14]; ARecv 0 1; ARecv 1 1; ARecv 1 0; ARecv 0 1; ARecv 0 1;
   AFin 0; ARecv 1 0; ARecv 0 0; ALeave 1; ALeave 0; AWait 0; AWait 1].

Lemma run_ok {D} dim n sub fuel nt (s : gstate D) l (P : gstate D -> Prop) : match exec dim n sub fuel s l with Some s' => P s' | None => False end -> exists s', steps dim n sub nt fuel s s' /\ P s'.
Proof. intros H. destruct (exec dim n sub fuel s l) as [s'|] eqn:E; [|destruct H]. exists s'. split; [apply (exec_ok dim n sub fuel nt l s s' E) | exact H]. Qed.
Lemma two_all (P : nat -> Prop) : P 0%nat -> P 1%nat -> forall r, (r < 2)%nat -> P r.
Proof. intros H0 H1 r Hr. destruct r as [|[|r]]; [exact H0 | exact H1 | lia]. Qed.
Definition x_bar {D} (s : gstate D) : Prop := g_ph s 0%nat = AtBarrier /\ g_ph s 1%nat = AtBarrier.
Lemma x_bar_all {D} (s : gstate D) : x_bar s -> forall r, (r < 2)%nat -> g_ph s r = AtBarrier.
Proof. intros [A B]. apply two_all; assumption. Qed.
(** C17, C61: both at the barrier, nothing on the way; rank 0 has 29 with the data of rank
    1, rank 1 has 5 with the data of rank 0 *)
Example C17_run : exists s, steps 1 2 false (newtabs 1 2) 100 x_init s /\ (forall r, (r < 2)%nat -> g_ph s r = AtBarrier) /\
  option_map (@r_data N) (g_tab s 0%nat 29) = Some 129 /\ option_map (@r_data N) (g_tab s 1%nat 5) = Some 105.
Proof.
  destruct (run_ok 1 2 false 100 (newtabs 1 2) x_init x_run (fun s => x_bar s /\ option_map (@r_data N) (g_tab s 0%nat 29) = Some 129 /\ option_map (@r_data N) (g_tab s 1%nat 5) = Some 105)) as (s & R & B & C); [vm_compute; repeat split|].
  exists s. split; [exact R|]. split; [apply x_bar_all, B | exact C].
Qed.
(** C18: after the REPLY_NODE for 7 rank 0 has its child 14 but not yet the entity 15, and
    sees 7 as empty; after the REPLY_ENTITY it has both and does not. *)
Example C18_run : exists s s', steps 1 2 false (newtabs 1 2) 100 x_init s /\ steps 1 2 false (newtabs 1 2) 100 x_init s' /\
  (exists c, g_tab s 0%nat 7 = Some c /\ get_child (r_word c) 0 = true /\ get_child (r_word c) 1 = false /\ empty_node 1 c = true) /\
  (exists c, g_tab s' 0%nat 7 = Some c /\ get_child (r_word c) 0 = true /\ get_child (r_word c) 1 = true /\ empty_node 1 c = false).
Proof.
  destruct (run_ok 1 2 false 100 (newtabs 1 2) x_init [AStart 0; AStart 1; AReq 0 1 [7]; ARecv 1 0; ARecv 0 1]
    (fun s => exists c, g_tab s 0%nat 7 = Some c /\ get_child (r_word c) 0 = true /\ get_child (r_word c) 1 = false /\ empty_node 1 c = true)) as (s & R & A); [vm_compute; eexists; repeat split|].
  destruct (run_ok 1 2 false 100 (newtabs 1 2) x_init [AStart 0; AStart 1; AReq 0 1 [7]; ARecv 1 0; ARecv 0 1; ARecv 0 1]
    (fun s => exists c, g_tab s 0%nat 7 = Some c /\ get_child (r_word c) 0 = true /\ get_child (r_word c) 1 = true /\ empty_node 1 c = false)) as (s' & R' & A'); [vm_compute; eexists; repeat split|].
  exists s, s'. repeat (split; [assumption|]). assumption.
Qed.

(** *** REQUEST_SUBTREE, as used by traversal_fmm (L588-606): the sender does not wait for
    the answer and the receiver does not announce the number of children of the node asked
    for.  Both properties fail, from the same start. *)
(** Rank 1 is done early; rank 0 asks for the subtree of 7 and finishes; both reach the
    barrier while the replies are still on their way to rank 0. *)
Definition x_lost : list act :=
  [AStart 0; AStart 1; AFin 1; ARecv 0 1; ARecv 1 1; ASub 0 1 [7]; AFin 0; ARecv 0 0; ALeave 0; ARecv 1 0; ARecv 1 0; ALeave 1; AWait 0; AWait 1].
Theorem C17_subtree_refuted : exists (W : world N) (T : nat -> rtable N) s, start_ok 1 2 W T /\
  steps 1 2 true (newtabs 1 2) 100 (g_init T (fun _ _ => false) (fun _ => false) (fun _ => [])) s /\ (forall r, (r < 2)%nat -> g_ph s r = AtBarrier) /\ length (g_chan s 1%nat 0%nat) = 2%nat.
Proof.
  exists x_world, x_tab. destruct (run_ok 1 2 true 100 (newtabs 1 2) x_init x_lost (fun s => x_bar s /\ length (g_chan s 1%nat 0%nat) = 2%nat)) as (s & R & B & C); [vm_compute; repeat split|].
  exists s. split; [exact x_start|]. split; [exact R|]. split; [apply x_bar_all, B | exact C].
Qed.
(** With the nodes of the subtree of 7 but not yet its entities rank 0 sees 7 as available,
    without the entity 15 that it has at its owner. *)
Theorem C18_subtree_refuted : exists (W : world N) (T : nat -> rtable N) s c c', start_ok 1 2 W T /\
  steps 1 2 true (newtabs 1 2) 100 (g_init T (fun _ _ => false) (fun _ => false) (fun _ => [])) s /\
  g_tab s 0%nat 7 = Some c /\ r_node c = true /\ empty_node 1 c = false /\ g_tab s (r_owner c) 7 = Some c' /\ get_child (r_word c) 1 = false /\ get_child (r_word c') 1 = true.
Proof.
  destruct (run_ok 1 2 true 100 (newtabs 1 2) x_init [AStart 0; AStart 1; ASub 0 1 [7]; ARecv 1 0; ARecv 0 1]
    (fun s => exists c c', g_tab s 0%nat 7 = Some c /\ r_node c = true /\ empty_node 1 c = false /\ g_tab s (r_owner c) 7 = Some c' /\ get_child (r_word c) 1 = false /\ get_child (r_word c') 1 = true)) as (s & R & c & c' & A).
  { vm_compute. eexists. eexists. split; [reflexivity|]. repeat (split; [reflexivity|]). reflexivity. }
  exists x_world, x_tab, s, c, c'. split; [exact x_start|]. split; [exact R | exact A].
Qed.
