(** C103: every execution of a traversal comes to an end, and a rank never waits in vain.
    States and steps as in Comms_props: any interleaving, message delay and choice of
    requests. *)
From Coq Require Import Permutation.
From Verif Require Import Base Key_model HCell_model HCell_props BuildTree_model Comms_model Comms_lemmas Comms_inv Comms_steps Comms_flags Comms_props Await_lemmas.
Local Open Scope N_scope.

Section Bound.
Context {D : Type} (dim : N) (n : nat) (fuel : nat).
Variables (W0 : world D) (T0 : nat -> rtable D) (dn : nat -> nat -> bool) (al : nat -> bool) (w : nat -> list N).
Implicit Types (W : world D) (s : gstate D) (c : rcell D).
Notation reach s := (steps dim n false (newtabs dim n) fuel (g_init T0 dn al w) s).
Notation next := (step dim n false (newtabs dim n) fuel).
Definition open s : Prop := exists r, (r < n)%nat /\ g_ph s r <> AtBarrier.

Lemma inv_open W s s' : next s s' -> open s -> inv dim n W s -> inv dim n W s'.
Proof.
  intros St (r0 & Hr0 & NB) H. destruct St as [s r Hr Hp|s r o ks Hr Ho Hp Ha|s r o ks Hsub Hr Ho Hp Ha|s s' r src m rest Hr Hs Hl HC Hh|s r Hr Hp Hf|s r Hr Hp Ha|s r Hr Hp Hd|s t' Hb HN].
  - apply inv_start; assumption.
  - apply inv_request; assumption.
  - discriminate.
  - destruct (recv_ok dim n W s r src m rest fuel Hr Hs Hl HC H) as (s2 & E & X). rewrite Hh in E. injection E as <-. exact X.
  - apply inv_finish; assumption.
  - apply inv_leave; assumption.
  - apply inv_waitall; assumption.
  - exfalso. apply NB, Hb, Hr0.
Qed.
(** the nodes a rank has yet to ask for in this traversal *)
Definition unasked (U : list N) s (r : nat) : nat := match g_ph s r with Idle => length U | _ => length (filter (fun k => negb (existsb (N.eqb k) (g_wait s r))) U) end.
Definition work (U : list N) s : nat := (measure n s + 4 * lsum n (unasked U s))%nat.
Lemma filter_less (p q : N -> bool) k U : In k U -> p k = true -> q k = false -> (forall x, q x = true -> p x = true) -> (length (filter q U) < length (filter p U))%nat.
Proof.
  intros Hk Hp Hq HI. assert (LE : forall V, (length (filter q V) <= length (filter p V))%nat) by (induction V as [|v V IHV]; cbn [filter]; [lia|]; destruct (q v) eqn:E1; [rewrite (HI v E1); cbn [length]; lia | destruct (p v); cbn [length]; lia]).
  destruct (in_split _ _ Hk) as (a & b & ->). rewrite !filter_app. cbn [filter]. rewrite Hp, Hq, !app_length. cbn [length]. pose proof (LE a). pose proof (LE b). lia.
Qed.
Lemma work_step W U s s' : next s s' -> open s -> inv dim n W s -> (forall k, w_isn W k = true -> In k U) -> (work U s' < work U s)%nat.
Proof.
  intros St HB H HU. assert (X : (exists r o ks, (r < n)%nat /\ (o < n)%nat /\ g_ph s r = Working /\ askable dim (g_tab s r) o ks /\
    s' = mkg (upd (g_tab s) r (mark_requested dim (g_tab s r) ks)) (upd2 (g_chan s) r o (g_chan s r o ++ [MReq ks])) (g_ph s) (g_done s) (g_all s) (upd (g_wait s) r (ks ++ g_wait s r))) \/
    ((forall r, g_ph s r = Working -> g_wait s' r = g_wait s r) /\ forall r, unasked U s' r = unasked U s r)).
  { destruct HB as (r0 & Hr0 & NB). destruct St as [s r Hr Hp|s r o ks Hr Ho Hp Ha|s r o ks Hsub Hr Ho Hp Ha|s s' r src m rest Hr Hs Hl HC Hh|s r Hr Hp Hf|s r Hr Hp Ha|s r Hr Hp Hd|s t' Hb HN].
    - right. cbn [g_wait]. split; [intros r' Hp'; apply upd_other; congruence|]. intros r'. unfold unasked. cbn [g_ph g_wait]. destruct (upd_cases (g_ph s) r Working r') as [[-> E]|[N1 E]]; rewrite E; [|rewrite upd_other by exact N1; reflexivity].
      rewrite Hp, upd_same. cbn [existsb negb]. f_equal. clear. induction U as [|u U IH]; [reflexivity|]. cbn [filter]. rewrite IH. reflexivity.
    - left. exists r, o, ks. tauto.
    - discriminate.
    - right. destruct (handle_calm dim n fuel r [] s s' r src m rest Hh) as (_ & A2 & A3). split; [intros r' _; rewrite A3; reflexivity|]. intros r'. unfold unasked. rewrite A2, A3. reflexivity.
    - right. split; [reflexivity|]. intros r'. unfold unasked. cbn [g_ph g_wait]. destruct (upd_cases (g_ph s) r Waiting r') as [[-> E]|[N1 E]]; rewrite E; [rewrite Hp; reflexivity | reflexivity].
    - right. split; [reflexivity|]. intros r'. unfold unasked. cbn [g_ph g_wait set_ph]. destruct (upd_cases (g_ph s) r Left r') as [[-> E]|[N1 E]]; rewrite E; [rewrite Hp; reflexivity | reflexivity].
    - right. split; [reflexivity|]. intros r'. unfold unasked. cbn [g_ph g_wait set_ph]. destruct (upd_cases (g_ph s) r AtBarrier r') as [[-> E]|[N1 E]]; rewrite E; [rewrite Hp; reflexivity | reflexivity].
    - exfalso. apply NB, Hb, Hr0. }
  destruct X as [(r & o & ks & Hr & Ho & Hp & Ha & ->)|[X1 X2]].
  - unfold work, measure. cbn [g_chan g_ph]. pose proof (chans_upd n T0 dn al w (g_chan s) r o (g_chan s r o ++ [MReq ks]) Hr Ho) as Y. rewrite cw_app in Y. change (cw [MReq ks]) with 3%nat in Y.
    set (s1 := mkg _ _ _ _ _ _). assert (Z : (unasked U s1 r < unasked U s r)%nat).
    { unfold unasked. cbn [g_ph g_wait s1]. rewrite Hp, upd_same. destruct Ha as (Hne & _ & Hk). destruct ks as [|k ks]; [congruence|]. destruct (Hk k (or_introl eq_refl)) as (c & Hc & He & Hq & _).
      assert (Hi : w_isn W k = true) by (destruct (tk_cell _ _ _ _ _ (i_tok _ _ _ _ H r Hr) k c Hc) as (E & _); unfold empty_node in He; apply andb_true_iff in He; destruct He; congruence).
      apply (filter_less _ _ k); [apply HU, Hi | | cbn [app existsb]; rewrite N.eqb_refl; reflexivity | intros x Hx; cbn [app existsb] in Hx; rewrite existsb_app, !negb_orb in Hx; apply andb_true_iff in Hx; destruct Hx as [_ Hx]; apply andb_true_iff in Hx; tauto].
      destruct (existsb (N.eqb k) (g_wait s r)) eqn:E; [|reflexivity]. exfalso. apply existsb_in in E. destruct (i_ask _ _ _ _ H r k Hr Hp E) as (_ & c0 & Hc0 & Hq0). congruence. }
    pose proof (lsum_upd n T0 dn al w (unasked U s) r (unasked U s1 r) Hr) as V. rewrite (lsum_ext n (unasked U s1) (upd (unasked U s) r (unasked U s1 r))); [lia|].
    intros r' _. destruct (upd_cases (unasked U s) r (unasked U s1 r) r') as [[-> E]|[N1 E]]; rewrite E; [reflexivity|]. unfold unasked. cbn [g_ph g_wait s1]. rewrite upd_other by exact N1. reflexivity.
  - unfold work. rewrite (lsum_ext n (unasked U s') (unasked U s)) by (intros r _; apply X2). pose proof (measure_step dim n fuel T0 dn al w s s' _ St HB X1). lia.
Qed.
Lemma work_run W U (e : nat -> gstate D) : (forall k, w_isn W k = true -> In k U) -> inv dim n W (e 0%nat) -> forall k, (forall i, (i < k)%nat -> next (e i) (e (S i)) /\ open (e i)) -> inv dim n W (e k) /\ (k + work U (e k) <= work U (e 0%nat))%nat.
Proof.
  intros HU H0. induction k as [|k IH]; intros HE; [split; [exact H0 | lia]|]. destruct IH as [I1 I2]; [intros i Hi; apply HE; lia|]. destruct (HE k (Nat.lt_succ_diag_r k)) as [St HB].
  split; [apply (inv_open W (e k)); assumption|]. pose proof (work_step W U (e k) (e (S k)) St HB I1 HU). lia.
Qed.
Lemma init_work U : work U (g_init T0 dn al w) = (n * (n + 4) + 4 * (n * length U))%nat.
Proof.
  unfold work, measure, chans. assert (L : forall k f, (forall r, f r = k) -> lsum n f = (n * k)%nat).
  { intros k f Hf. unfold lsum, ranks. rewrite (map_ext _ (fun _ => k)) by exact Hf. rewrite <- (seq_length n 0) at 2. induction (seq 0 n) as [|x l IH]; [reflexivity|]. cbn [map length Nat.mul]. unfold list_sum in *. cbn [fold_right]. rewrite IH. reflexivity. }
  rewrite (L 0%nat), (L (n + 4)%nat), (L (length U)); [lia | reflexivity | reflexivity|]. intros r. rewrite (L 0%nat); [lia | reflexivity].
Qed.
(** The steps of a traversal, whatever is asked for, in whatever order messages are read:
    with [length U] nodes in the tree there are at most n (n + 4) + 4 n (length U) until all
    ranks are at the barrier. *)
Theorem C103_bounded U (e : nat -> gstate D) k : start_ok dim n W0 T0 -> (forall q, w_isn W0 q = true -> In q U) -> e 0%nat = g_init T0 dn al w ->
  (forall i, (i < k)%nat -> next (e i) (e (S i)) /\ exists r, (r < n)%nat /\ g_ph (e i) r <> AtBarrier) -> (k <= n * (n + 4) + 4 * (n * length U))%nat.
Proof.
  intros H0 HU E0 HE. assert (I0 : inv dim n W0 (e 0%nat)) by (rewrite E0; apply inv_init, H0). destruct (work_run W0 U e HU I0 k HE) as [_ X]. rewrite E0, init_work in X. lia.
Qed.
(** In an execution that goes on over any number of traversals, all ranks are at the barrier
    again and again. *)
Theorem C103_again (e : nat -> gstate D) : start_ok dim n W0 T0 -> reach (e 0%nat) -> (forall i, next (e i) (e (S i))) -> forall j, exists i, (j <= i)%nat /\ forall r, (r < n)%nat -> g_ph (e i) r = AtBarrier.
Proof.
  intros H0 R HE j. assert (RJ : reach (e j)) by (clear - R HE; induction j as [|j IH]; [exact R | exact (st_step _ _ _ _ _ _ _ _ IH (HE j))]). destruct (reach_inv dim n fuel W0 T0 dn al w (e j) H0 RJ) as (W & H).
  destruct (below (2 ^ 64)) as (U & HU).
  assert (HU' : forall k, w_isn W k = true -> In k U) by (intros k Hi; apply HU; destruct (proj2 (i_wf _ _ _ _ H) k Hi) as [[Hk1 Hk2] _]; pose proof (N.pow_nonzero 2 dim); nia).
  assert (DEC : forall s, open s \/ forall r, (r < n)%nat -> g_ph s r = AtBarrier).
  { intros s. destruct (rank_dec n T0 dn al w (fun r => g_ph s r <> AtBarrier)) as [X|X]; [intros r; destruct (phase_dec (g_ph s r) AtBarrier); tauto | left; exact X|]. right. intros r Hr. destruct (phase_dec (g_ph s r) AtBarrier) as [E|E]; [exact E | exfalso; apply (X r Hr E)]. }
  set (k := S (work U (e j))).
  assert (G : forall m, (m <= k)%nat -> (exists i, (j <= i)%nat /\ forall r, (r < n)%nat -> g_ph (e i) r = AtBarrier) \/ forall i, (i < m)%nat -> next (e (j + i)%nat) (e (S (j + i))) /\ open (e (j + i)%nat)).
  { induction m as [|m IH]; intros Hm; [right; lia|]. destruct (IH ltac:(lia)) as [X|X]; [left; exact X|]. destruct (DEC (e (j + m)%nat)) as [O|B]; [|left; exists (j + m)%nat; split; [lia | exact B]]. right. intros i Hi. destruct (Nat.eq_dec i m) as [->|Hne]; [split; [apply HE | exact O] | apply X; lia]. }
  destruct (G k (le_n _)) as [X|X]; [exact X|]. exfalso. assert (I0 : inv dim n W (e (j + 0)%nat)) by (rewrite Nat.add_0_r; exact H).
  destruct (work_run W U (fun i => e (j + i)%nat) HU' I0 k) as [_ Y]; [intros i Hi; replace (j + S i)%nat with (S (j + i)) by lia; apply X, Hi|]. cbv beta in Y. rewrite Nat.add_0_r in Y. subst k. lia.
Qed.
(** the keys a message is about *)
Definition about (m : msg D) : list N := match m with MReq ks | MSub ks | MNodes ks _ | MEnts ks _ => ks | MDone => [] end.
(** A node that a working rank has asked for in this traversal and still sees as empty: a message
    about it is on its way from or to the rank, and the one it is for is listening or has yet
    to start. *)
Theorem C103_not_in_vain s r k c : start_ok dim n W0 T0 -> reach s -> (r < n)%nat -> g_ph s r = Working -> In k (g_wait s r) -> g_tab s r k = Some c -> empty_node dim c = true ->
  exists p q m, (p < n)%nat /\ (q < n)%nat /\ (p = r \/ q = r) /\ In m (g_chan s p q) /\ In k (about m) /\ (g_ph s q = Idle \/ listening s q).
Proof.
  intros H0 R Hr Hp Hw Hc He. destruct (reach_inv dim n fuel W0 T0 dn al w s H0 R) as (W & H). destruct (i_ask _ _ _ _ H r k Hr Hp Hw) as (Hi & c0 & Hc0 & Hq). rewrite Hc in Hc0. injection Hc0 as <-.
  assert (LS : forall o, (o < n)%nat -> g_ph s o = Idle \/ listening s o) by (intros o Ho; apply (listens dim n W s r o H Hr Ho Hp)).
  destruct (in_dec N.eq_dec k (pend n s r)) as [X|X].
  - apply pend_in in X. destruct X as [(o & Ho & [X|X])|(o & Ho & X)].
    + unfold reqs in X. apply in_flat_map in X. destruct X as (m & Hm & X). exists r, o, m. repeat (split; [tauto|]). split; [destruct m; try destruct X; exact X | apply LS, Ho].
    + unfold nods in X. apply in_flat_map in X. destruct X as (m & Hm & X). exists o, r, m. repeat (split; [tauto|]). split; [destruct m; try destruct X; exact X | apply LS, Hr].
    + unfold headents in X. destruct (g_chan s o r) as [|m rest] eqn:E; [destruct X|]. exists o, r, m. rewrite E. repeat (split; [tauto|]). split; [left; reflexivity|]. split; [destruct m; try destruct X; exact X | apply LS, Hr].
  - exfalso. destruct (i_rest _ _ _ _ H r k c Hr Hc X Hi) as [[Hf _]|[_ Hq']]; [|congruence]. rewrite (full_idle dim n W s r k c H Hr Hi Hc Hf) in He. discriminate.
Qed.
End Bound.

(** The run of C17_run (24 steps) on five nodes: all its states are met, the bound is 52. *)
Definition x_at (i : nat) : gstate N := match exec 1 2 false 100 x_init (firstn i x_run) with Some s => s | None => x_init end.
Lemma exec_snoc {D} dim n sub fuel l a : forall s : gstate D, exec dim n sub fuel s (l ++ [a]) = match exec dim n sub fuel s l with Some s' => exec1 dim n sub fuel s' a | None => None end.
Proof. induction l as [|b l IH]; intros s; cbn [exec app]; [destruct (exec1 dim n sub fuel s a); reflexivity|]. destruct (exec1 dim n sub fuel s b); [apply IH | reflexivity]. Qed.
Lemma firstn_snoc {A} (d : A) i l : (i < length l)%nat -> firstn (S i) l = firstn i l ++ [nth i l d].
Proof. revert l. induction i as [|i IH]; intros [|x l] H; cbn in *; try lia; [reflexivity|]. rewrite <- (IH l) by lia. reflexivity. Qed.
Definition x_ok (i : nat) : bool := match exec 1 2 false 100 x_init (firstn i x_run) with Some s => negb (ph_eqb (g_ph s 1%nat) AtBarrier) | None => false end.
Definition is_some {A} (o : option A) : bool := match o with Some _ => true | None => false end.
Lemma some_of {A} (o : option A) : is_some o = true -> exists x, o = Some x. Proof. destruct o as [x|]; [exists x; reflexivity | discriminate]. Qed.
Lemma some_ok {A} (f : A -> bool) (o : option A) : match o with Some x => f x | None => false end = true -> is_some o = true. Proof. destruct o; [reflexivity | discriminate]. Qed.
Example C103_bounded_example : start_ok 1 2 x_world x_tab /\ (forall q, w_isn x_world q = true -> In q [1; 2; 3; 7; 14]) /\ x_at 0 = x_init /\ x_bar (x_at 24) /\
  forall i, (i < 24)%nat -> step 1 2 false (newtabs 1 2) 100 (x_at i) (x_at (S i)) /\ exists r, (r < 2)%nat /\ g_ph (x_at i) r <> AtBarrier.
Proof.
  split; [exact x_start|]. split; [intros q Hq; cbn [x_world w_isn] in Hq; rewrite !orb_true_iff, !N.eqb_eq in Hq; cbn; intuition|]. split; [reflexivity|]. split; [vm_compute; split; reflexivity|].
  intros i Hi. assert (OK : forallb x_ok (seq 0 24) = true) by (vm_compute; reflexivity). assert (LAST : is_some (exec 1 2 false 100 x_init (firstn 24 x_run)) = true) by (vm_compute; reflexivity).
  rewrite forallb_forall in OK. assert (O1 : x_ok i = true) by (apply OK, in_seq; lia). assert (O2 : exists s', exec 1 2 false 100 x_init (firstn (S i) x_run) = Some s').
  { apply some_of. destruct (Nat.eq_dec i 23) as [->|Hne]; [exact LAST|]. assert (O3 : x_ok (S i) = true) by (apply OK, in_seq; lia). apply (some_ok _ _ O3). }
  destruct O2 as (s' & E'). unfold x_at. rewrite E'. unfold x_ok in O1. rewrite (firstn_snoc (AStart 0) i x_run) in E' by exact Hi. rewrite exec_snoc in E'. destruct (exec 1 2 false 100 x_init (firstn i x_run)) as [s|]; [|discriminate].
  split; [apply (exec1_ok 1 2 false 100 (newtabs 1 2) s _ s' E')|]. exists 1%nat. split; [lia|]. intros E. rewrite E in O1. discriminate.
Qed.
(** One rank with a node and two particles, traversal after traversal. *)
Definition o_world : world N := mkw (fun k d => (k =? 1) && (d <? 2)) (fun k => k =? 1) (fun k => 100 + k).
Definition o_tab (r : nat) : rtable N := fun k => match k with 1 => Some (x_cell 1 x_both true 0) | 2 => Some (x_cell 2 hcell_new false 0) | 3 => Some (x_cell 3 hcell_new false 0) | _ => None end.
Lemma o_cases r k c : o_tab r k = Some c -> (k = 1 /\ c = x_cell 1 x_both true 0) \/ (k = 2 /\ c = x_cell 2 hcell_new false 0) \/ (k = 3 /\ c = x_cell 3 hcell_new false 0).
Proof. unfold o_tab. intros H. destruct k as [|p]; try discriminate. do 3 (try destruct p as [p|p|]); try discriminate; injection H as <-; tauto. Qed.
Lemma o_full : full 1 o_world 1 x_both. Proof. intros d Hd. apply d2 in Hd. destruct Hd as [-> | ->]; reflexivity. Qed.
Lemma o_start : start_ok 1 1 o_world o_tab.
Proof.
  split; [split; [lia|]; intros k Hk; cbn [o_world w_isn] in Hk; apply N.eqb_eq in Hk; subst k; split; [split; vm_compute; congruence | vm_compute; discriminate]|].
  intros r Hr. assert (r = 0)%nat as -> by lia. split; [constructor|].
  - intros k c Hc. destruct (o_cases 0 k c Hc) as [[-> ->]|[[-> ->]|[-> ->]]]; (split; [reflexivity|]; split; [reflexivity|]; split; [apply x_wf; cbn [x_cell r_word]; tauto|]; cbn [x_cell r_owner]; split; [lia|]; split; [lia|]; unfold complete; eexists; (split; [reflexivity|]); intros Hi; first [discriminate | exact o_full]).
  - intros k c d Hc Hi Hd Hg. apply d2 in Hd. destruct (o_cases 0 k c Hc) as [[-> ->]|[[-> ->]|[-> ->]]]; destruct Hd as [-> | ->]; try discriminate Hi; (split; [reflexivity|]); eexists; reflexivity.
  - intros k c Hc Hk. destruct (o_cases 0 k c Hc) as [[-> ->]|[[-> ->]|[-> ->]]]; [exfalso; apply Hk; reflexivity | xup 1 0 | xup 1 1].
  - exists (x_cell 1 x_both true 0). split; [reflexivity|]. split; [reflexivity | exact o_full].
  - intros k c Hc Hi. destruct (o_cases 0 k c Hc) as [[-> ->]|[[-> ->]|[-> ->]]]; try discriminate Hi. left. split; [exact o_full | vm_compute; discriminate].
Qed.
Definition o_next (s : gstate N) : gstate N := match g_ph s 0%nat with
  | Idle => mkg (g_tab s) (g_chan s) (upd (g_ph s) 0 Working) (upd (g_done s) 0 (fun _ => false)) (g_all s) (upd (g_wait s) 0 [])
  | Working => mkg (g_tab s) (fun p q => if (p =? 0)%nat && (q <? 1)%nat then g_chan s p q ++ [MDone] else g_chan s p q) (upd (g_ph s) 0 Waiting) (g_done s) (upd (g_all s) 0 false) (g_wait s)
  | Waiting => if g_all s 0%nat then set_ph s 0 Left else match handle 1 1 100 s 0 0 MDone [] with Some s' => s' | None => s end
  | Left => set_ph s 0 AtBarrier
  | AtBarrier => mkg o_tab (g_chan s) (fun _ => Idle) (g_done s) (g_all s) (g_wait s) end.
Definition o_inv (s : gstate N) : Prop := match g_ph s 0%nat with
  | Idle | Left | AtBarrier => g_chan s 0%nat 0%nat = []
  | Working => g_chan s 0%nat 0%nat = [] /\ g_wait s 0%nat = []
  | Waiting => if g_all s 0%nat then g_chan s 0%nat 0%nat = [] else g_chan s 0%nat 0%nat = [MDone] end.
Fixpoint o_run (i : nat) : gstate N := match i with O => g_init o_tab (fun _ _ => false) (fun _ => false) (fun _ => []) | S j => o_next (o_run j) end.
Lemma o_step s : o_inv s -> step 1 1 false (newtabs 1 1) 100 s (o_next s) /\ o_inv (o_next s).
Proof.
  unfold o_inv, o_next. intros H. destruct (g_ph s 0%nat) eqn:P.
  - split; [apply (s_start 1 1 false _ 100 s 0); [lia | exact P]|]. cbn. split; [exact H | reflexivity].
  - destruct H as [H1 H2]. split; [apply (s_finish 1 1 false _ 100 s 0); [lia | exact P | rewrite H2; intros k c []]|]. cbn. rewrite H1. reflexivity.
  - destruct (g_all s 0%nat) eqn:A; [split; [apply (s_leave 1 1 false _ 100 s 0); [lia | exact P | exact A]|]; cbn; exact H|].
    split; [apply (s_recv 1 1 false (newtabs 1 1) 100 s _ 0 0 MDone []); [lia | lia | right; split; assumption | exact H | reflexivity]|]. cbn. rewrite P. reflexivity.
  - split; [apply (s_waitall 1 1 false _ 100 s 0); [lia | exact P|]; intros q Hq; assert (q = 0)%nat as -> by lia; rewrite H; intros []|]. cbn. exact H.
  - split; [apply s_barrier; [intros r Hr; assert (r = 0)%nat as -> by lia; exact P | exists o_world; exact o_start]|]. cbn. exact H.
Qed.
Example C103_again_example : start_ok 1 1 o_world o_tab /\ (forall i, step 1 1 false (newtabs 1 1) 100 (o_run i) (o_run (S i))) /\ g_ph (o_run 5) 0%nat = AtBarrier /\ g_ph (o_run 6) 0%nat = Idle /\ g_ph (o_run 11) 0%nat = AtBarrier.
Proof.
  split; [exact o_start|]. split; [|vm_compute; repeat split]. intros i. assert (X : o_inv (o_run i)) by (induction i as [|i IH]; [reflexivity | apply (proj2 (o_step _ IH))]). apply (proj1 (o_step _ X)).
Qed.
(** Rank 0 has asked rank 1 for node 7; the answer is on its way. *)
Example C103_not_in_vain_example : exists s c, steps 1 2 false (newtabs 1 2) 100 x_init s /\ g_ph s 0%nat = Working /\ In 7 (g_wait s 0%nat) /\ g_tab s 0%nat 7 = Some c /\ empty_node 1 c = true /\
  g_chan s 0%nat 1%nat = [] /\ exists m rest, g_chan s 1%nat 0%nat = m :: rest /\ In 7 (about m).
Proof.
  destruct (run_ok 1 2 false 100 (newtabs 1 2) x_init [AStart 0; AStart 1; AReq 0 1 [7]; ARecv 1 0] (fun s => exists c, g_ph s 0%nat = Working /\ In 7 (g_wait s 0%nat) /\ g_tab s 0%nat 7 = Some c /\ empty_node 1 c = true /\
    g_chan s 0%nat 1%nat = [] /\ exists m rest, g_chan s 1%nat 0%nat = m :: rest /\ In 7 (about m))) as (s & R & c & A); [|exists s, c; split; [exact R | exact A]].
  vm_compute. eexists. split; [reflexivity|]. split; [left; reflexivity|]. split; [reflexivity|]. split; [reflexivity|]. split; [reflexivity|]. eexists. eexists. split; [reflexivity|]. left. reflexivity.
Qed.

Print Assumptions C103_bounded.
Print Assumptions C103_again.
Print Assumptions C103_not_in_vain.
