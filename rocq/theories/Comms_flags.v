(** The shared flag of entity cells during the traversals, and the nodes above the own
    particles of a rank. *)
From Verif Require Import Base Key_model HCell_model HCell_props BuildTree_model Comms_model Comms_lemmas Comms_inv Comms_steps.
Local Open Scope N_scope.

Lemma loc_bits dim w : is_shared dim w = negb (N.testbit w (2 ^ dim)) && N.testbit w (2 ^ dim + 1).
Proof.
  unfold is_shared, locality_mask, locality_displ. rewrite N.shiftl_1_l. assert (E : N.shiftr (N.land w (N.shiftl 3 (2 ^ dim))) (2 ^ dim) = N.land (N.shiftr w (2 ^ dim)) 3).
  { apply N.bits_inj. intros i. rewrite N.shiftr_spec', !N.land_spec, N.shiftr_spec', N.shiftl_spec_high' by lia. replace (i + 2 ^ dim - 2 ^ dim) with i by lia. reflexivity. }
  rewrite E. assert (E2 : N.land (N.shiftr w (2 ^ dim)) 3 = N.b2n (N.testbit w (2 ^ dim)) + 2 * N.b2n (N.testbit w (2 ^ dim + 1))).
  { change 3 with (N.ones 2). rewrite N.land_ones. change (2 ^ 2) with 4. replace (2 ^ dim) with (0 + 2 ^ dim) at 2 by lia. replace (2 ^ dim + 1) with (1 + 2 ^ dim) by lia. rewrite <- !N.shiftr_spec'. set (v := N.shiftr w (2 ^ dim)).
    rewrite (N.testbit_eqb v 0), (N.testbit_eqb v 1). change (2 ^ 0) with 1. change (2 ^ 1) with 2. rewrite N.div_1_r. replace 4 with (2 * 2) by reflexivity. rewrite N.mod_mul_r by lia.
    assert (forall a, a mod 2 = N.b2n (a mod 2 =? 1)) as B; [|rewrite <- !B; reflexivity]. intros a. pose proof (N.mod_lt a 2 ltac:(lia)). destruct (N.eqb_spec (a mod 2) 1) as [->|]; [reflexivity|]. cbn [N.b2n]. lia. }
  rewrite E2. destruct (N.testbit w (2 ^ dim)), (N.testbit w (2 ^ dim + 1)); reflexivity.
Qed.
Lemma shared_set dim w : is_shared dim (set_shared dim w) = true.
Proof.
  rewrite loc_bits. unfold set_shared, locality_mask, locality_displ. rewrite N.shiftl_1_l, !N.lor_spec, !N.ldiff_spec, !testbit_shiftl_gen, !testbit_2, !testbit_3.
  replace (2 ^ dim <? 2 ^ dim) with false by lia. replace (2 ^ dim + 1 <? 2 ^ dim) with false by lia. replace (2 ^ dim - 2 ^ dim) with 0 by lia. replace (2 ^ dim + 1 - 2 ^ dim) with 1 by lia.
  change (0 =? 1) with false. change (0 =? 0) with true. change (1 =? 1) with true. change (1 =? 0) with false. cbn [orb negb]. rewrite !andb_false_r. reflexivity.
Qed.
Lemma shared_add dim w d : d < 2 ^ dim -> is_shared dim (add_child w d) = is_shared dim w.
Proof.
  intros Hd. rewrite !loc_bits. unfold add_child. rewrite !N.lor_spec, !testbit_shiftl_gen, !testbit_1. replace (2 ^ dim <? d) with false by lia. replace (2 ^ dim + 1 <? d) with false by lia. replace (2 ^ dim - d =? 0) with false by lia. replace (2 ^ dim + 1 - d =? 0) with false by lia. rewrite !orb_false_r. reflexivity.
Qed.

Section Flags.
Context {D : Type} (dim : N) (n : nat).
Notation B := (2 ^ dim).
(** every entity cell outside [Z] is shared *)
Definition outside (Z : N -> Prop) (T : rtable D) : Prop := forall k c, T k = Some c -> r_node c = false -> Z k \/ is_shared dim (r_word c) = true.
Lemma last_small k : key_last_value dim k < B.
Proof. unfold key_last_value. rewrite N.shiftl_1_l. assert (0 < B) by (pose proof (N.pow_nonzero 2 dim); lia). change (B - 1) with (B - 1). replace (B - 1) with (N.ones dim) by (rewrite N.ones_equiv; lia). rewrite N.land_ones. apply N.mod_lt. lia. Qed.
Lemma outside_parent Z T k T' : outside Z T -> parent_add dim T k = Some T' -> outside Z T'.
Proof.
  intros H E. unfold parent_add in E. destruct (T (key_parent dim k)) as [p|] eqn:Ep; [|discriminate]. injection E as <-. intros k' c Hc Hn. unfold rset in Hc. destruct (N.eqb_spec k' (key_parent dim k)) as [->|]; [|apply (H k' c Hc Hn)].
  injection Hc as <-. cbn [map_word r_word r_node] in *. rewrite shared_add by apply last_small. apply (H _ p Ep Hn).
Qed.
Lemma outside_node Z T e T' : outside Z T -> load_node dim T e = Some T' -> outside Z T'.
Proof.
  intros H E. unfold load_node in E. destruct (T (key_parent dim (ne_key e))); [|discriminate]. destruct (match T (ne_key e) with Some c => if r_node c then Some (r_word c) else None | None => Some hcell_new end) as [w0|]; [|discriminate].
  apply outside_parent with (2 := E). intros k c Hc Hn. unfold rset in Hc. destruct (k =? ne_key e); [injection Hc as <-; discriminate | apply (H k c Hc Hn)].
Qed.
Lemma outside_ent Z T e T' : outside Z T -> load_ent dim T e = Some T' -> outside Z T'.
Proof.
  intros H E. unfold load_ent in E. destruct (T (key_parent dim (ee_key e))); [|discriminate]. apply outside_parent with (2 := E). intros k c Hc Hn. unfold rset in Hc. destruct (k =? ee_key e); [|apply (H k c Hc Hn)].
  injection Hc as <-. right. destruct (T (ee_key e)); apply shared_set.
Qed.
Lemma outside_all {E} Z (f : rtable D -> E -> option (rtable D)) : (forall T e T', outside Z T -> f T e = Some T' -> outside Z T') -> forall es T T', outside Z T -> load_all f T es = Some T' -> outside Z T'.
Proof. intros Hf. induction es as [|e es IH]; intros T T' H E0; cbn [load_all] in E0; [injection E0 as <-; exact H|]. destruct (f T e) as [T1|] eqn:E1; [|discriminate]. apply (IH T1 T' (Hf T e T1 H E1) E0). Qed.

(** [O r]: the cells above the own particles of rank r *)
Variables (W : world D) (O : nat -> N -> Prop).
Record own (r : nat) (T : rtable D) : Prop := mkown
  { ow_node : forall k, O r k -> w_isn W k = true -> exists c, T k = Some c /\ full dim W k (r_word c);
    ow_leaf : forall k, O r k -> w_isn W k = false -> exists c, T k = Some c /\ is_shared dim (r_word c) = false;
    ow_other : forall k c, T k = Some c -> w_isn W k = false -> ~ O r k -> is_shared dim (r_word c) = true }.
(** loading cells: those present stay, but for nodes, which may get children *)
Lemma own_load r V T T' ks : tok dim n W V T -> tok dim n W V T' -> outside (fun k => T k <> None) T' ->
  (forall k c, T k = Some c -> ~ In k ks -> T' k = Some c) -> (forall k, In k ks -> w_isn W k = true) ->
  (forall k c, In k ks -> T k = Some c -> exists c', T' k = Some c' /\ (full dim W k (r_word c) -> full dim W k (r_word c'))) -> own r T -> own r T'.
Proof.
  intros HT HT' HZ HF HK HN [A1 A2 A3].
  assert (EN : forall k c, T' k = Some c -> r_node c = w_isn W k) by (intros k c Hc; destruct (tk_cell _ _ _ _ _ HT' k c Hc) as (E & _); exact E).
  assert (KL : forall k, w_isn W k = false -> ~ In k ks) by (intros k Hk Hin; rewrite (HK k Hin) in Hk; discriminate). split.
  - intros k Ho Hi. destruct (A1 k Ho Hi) as (c & Hc & Hf). destruct (in_dec N.eq_dec k ks) as [Hk|Hk]; [destruct (HN k c Hk Hc) as (c' & Hc' & Hf'); exists c'; tauto | exists c; split; [apply HF; assumption | exact Hf]].
  - intros k Ho Hi. destruct (A2 k Ho Hi) as (c & Hc & Hs). exists c. split; [apply HF; [exact Hc | apply KL, Hi] | exact Hs].
  - intros k c Hc Hi Ho. destruct (HZ k c Hc) as [Z|Z]; [rewrite (EN k c Hc); exact Hi | | exact Z]. destruct (T k) as [c0|] eqn:E0; [|congruence]. rewrite (HF k c0 E0 (KL k Hi)) in Hc. injection Hc as <-. apply (A3 k c0 E0 Hi Ho).
Qed.
Lemma own_mark r V T ks : tok dim n W V T -> (forall k, In k ks -> w_isn W k = true) -> own r T -> own r (mark_requested dim T ks).
Proof.
  intros HT HK [A1 A2 A3]. pose proof (mark_same dim n W V T ks HT) as S. assert (KL : forall k, w_isn W k = false -> mark_requested dim T ks k = T k).
  { intros k Hk. unfold mark_requested. destruct (existsb (N.eqb k) ks) eqn:E; [|reflexivity]. apply existsb_in in E. rewrite (HK k E) in Hk. discriminate. }
  split.
  - intros k Ho Hi. destruct (A1 k Ho Hi) as (c & Hc & Hf). specialize (S k). rewrite Hc in S. destruct (mark_requested dim T ks k) as [c'|]; [|destruct S]. exists c'. split; [reflexivity|]. destruct S as (_ & _ & _ & _ & S). intros d Hd. rewrite (S d Hd). apply Hf, Hd.
  - intros k Ho Hi. rewrite (KL k Hi). apply A2; assumption.
  - intros k c Hc Hi. rewrite (KL k Hi) in Hc. apply A3; assumption.
Qed.

Lemma own_nodes s r src ks ns rest t : (r < n)%nat -> (src < n)%nat -> g_chan s src r = MNodes ks ns :: rest -> load_all (load_node dim) (g_tab s r) ns = Some t -> inv dim n W s -> own r (g_tab s r) -> own r t.
Proof.
  intros Hr Hs HC Ht H. pose proof (i_chan _ _ _ _ H src r Hs Hr) as HO. rewrite HC in HO. cbn [chan_ok shaped] in HO. destruct HO as (Hks & HN & HR). pose proof (i_wf _ _ _ _ H) as HW.
  assert (HE : forall k, In k ks -> early n s r k) by (intros k Hk; exists src; split; [exact Hs|]; right; rewrite HC; unfold nods; cbn [flat_map]; apply in_or_app; left; exact Hk).
  assert (ND : NoDup ks).
  { assert (Y : In src (ranks n)) by (apply in_ranks, Hs). pose proof (i_nodup _ _ _ _ H r Hr) as Z. unfold Comms_inv.pend in Z. destruct (in_split _ _ Y) as (a & b & E). rewrite E, flat_map_app in Z. cbn [flat_map] in Z. apply nodup_app_r, nodup_app_l in Z. unfold piece in Z. apply nodup_app_r, nodup_app_r in Z. rewrite HC in Z. exact (nodup_app_l _ _ Z). }
  destruct (load_nodes_ok dim n W HW _ ks ns HN (g_tab s r) (i_tok _ _ _ _ H r Hr) ND) as (T' & HL & HT & HFr & HK & HNew).
  { intros k Hk. destruct (i_early _ _ _ _ H r k Hr (HE k Hk)) as (A & c & Hc & Hb & _). split; [exact A|]. exists c. tauto. }
  rewrite Ht in HL. injection HL as <-. apply (own_load r _ _ _ ks (i_tok _ _ _ _ H r Hr) HT).
  - apply (outside_all _ (load_node dim) (outside_node _) ns (g_tab s r)); [|exact Ht]. intros k c Hc _. left. congruence.
  - exact HFr.
  - intros k Hk. apply (i_early _ _ _ _ H r k Hr (HE k Hk)).
  - intros k c Hk Hc. destruct (HK k c Hk Hc) as (c' & Hc' & _). exists c'. split; [exact Hc'|]. intros Hf. exfalso. destruct (i_early _ _ _ _ H r k Hr (HE k Hk)) as (A & c0 & Hc0 & Hb & _). rewrite Hc in Hc0. injection Hc0 as <-. apply (bare_not_full dim W k _ HW A Hb Hf).
Qed.
Lemma own_ents s r src ks es rest t : (r < n)%nat -> (src < n)%nat -> g_chan s src r = MEnts ks es :: rest -> load_all (load_ent dim) (g_tab s r) es = Some t -> inv dim n W s -> own r (g_tab s r) -> own r t.
Proof.
  intros Hr Hs HC Ht H. pose proof (i_chan _ _ _ _ H src r Hs Hr) as HO. rewrite HC in HO. cbn [chan_ok] in HO. destruct HO as (Hks & HN & HR). pose proof (i_wf _ _ _ _ H) as HW.
  assert (HE : forall k, In k ks -> late n s r k) by (intros k Hk; exists src; split; [exact Hs|]; rewrite HC; exact Hk).
  assert (ND : NoDup ks).
  { assert (Y : In src (ranks n)) by (apply in_ranks, Hs). pose proof (i_nodup _ _ _ _ H r Hr) as Z. unfold Comms_inv.pend in Z. destruct (in_split _ _ Y) as (a & b & E). rewrite E, flat_map_app in Z. cbn [flat_map] in Z. apply nodup_app_r, nodup_app_l in Z. unfold piece in Z. apply nodup_app_r, nodup_app_l in Z. rewrite HC in Z. exact Z. }
  destruct (load_ents_ok dim n W HW _ ks es HN (g_tab s r) (i_tok _ _ _ _ H r Hr) ND) as (T' & HL & HT & HFr & HK & HNew).
  { intros k Hk. destruct (i_late _ _ _ _ H r k Hr (HE k Hk)) as (A & _ & c & Hc & Hb & _). split; [exact A|]. exists c. tauto. }
  rewrite Ht in HL. injection HL as <-. apply (own_load r _ _ _ ks (i_tok _ _ _ _ H r Hr) HT).
  - apply (outside_all _ (load_ent dim) (outside_ent _) es (g_tab s r)); [|exact Ht]. intros k c Hc _. left. congruence.
  - exact HFr.
  - intros k Hk. apply (i_late _ _ _ _ H r k Hr (HE k Hk)).
  - intros k c Hk Hc. destruct (HK k c Hk Hc) as (c' & Hc' & Hf & _). exists c'. tauto.
Qed.
Lemma own_step fuel s s' : step dim n false (fun T T' => T' = T) fuel s s' -> inv dim n W s -> (forall r, (r < n)%nat -> own r (g_tab s r)) -> forall r, (r < n)%nat -> own r (g_tab s' r).
Proof.
  intros St H HO. destruct St as [s r Hr Hp|s r o ks Hr Ho Hp Ha|s r o ks Hsub Hr Ho Hp Ha|s s' r src m rest Hr Hs Hl HC Hh|s r Hr Hp Hf|s r Hr Hp Ha|s r Hr Hp Hd|s t' Hb HN]; try exact HO; [| discriminate | | rewrite HN; exact HO].
  - intros r' Hr'. cbn [g_tab]. destruct (upd_cases (g_tab s) r (mark_requested dim (g_tab s r) ks) r') as [[-> E]|[N1 E]]; rewrite E; [|apply HO, Hr'].
    apply (own_mark r _ _ ks (i_tok _ _ _ _ H r Hr)); [|apply HO, Hr]. intros k Hk. destruct Ha as (_ & _ & Ha). destruct (Ha k Hk) as (c & Hc & He & _). destruct (tk_cell _ _ _ _ _ (i_tok _ _ _ _ H r Hr) k c Hc) as (E1 & _). rewrite <- E1. unfold empty_node in He. apply andb_true_iff in He. tauto.
  - destruct m as [ks|ks|ks ns|ks es|]; unfold handle in Hh.
    + destruct (recv_requests dim (g_tab s r) ks); [|discriminate]. injection Hh as <-. exact HO.
    + exfalso. pose proof (i_chan _ _ _ _ H src r Hs Hr) as X. rewrite HC in X. exact X.
    + destruct (load_all (load_node dim) (g_tab s r) ns) as [t|] eqn:Et; [|discriminate]. injection Hh as <-. intros r' Hr'. cbn [g_tab]. destruct (upd_cases (g_tab s) r t r') as [[-> E]|[N1 E]]; rewrite E; [|apply HO, Hr']. apply (own_nodes s r src ks ns rest t Hr Hs HC Et H (HO r Hr)).
    + destruct (load_all (load_ent dim) (g_tab s r) es) as [t|] eqn:Et; [|discriminate]. injection Hh as <-. intros r' Hr'. cbn [g_tab]. destruct (upd_cases (g_tab s) r t r') as [[-> E]|[N1 E]]; rewrite E; [|apply HO, Hr']. apply (own_ents s r src ks es rest t Hr Hs HC Et H (HO r Hr)).
    + injection Hh as <-. exact HO.
Qed.

(** nothing is removed from a table *)
Lemma there_parent (T : rtable D) k T' q : parent_add dim T k = Some T' -> T q <> None -> T' q <> None.
Proof. unfold parent_add. destruct (T (key_parent dim k)); [|discriminate]. intros E. injection E as <-. unfold rset. destruct (q =? key_parent dim k); [discriminate | tauto]. Qed.
Lemma there_node (T : rtable D) e T' q : load_node dim T e = Some T' -> T q <> None -> T' q <> None.
Proof.
  unfold load_node. destruct (T (key_parent dim (ne_key e))); [|discriminate]. destruct (match T (ne_key e) with Some c => if r_node c then Some (r_word c) else None | None => Some hcell_new end); [|discriminate]. intros E H. apply (there_parent _ _ _ q E). unfold rset. destruct (q =? ne_key e); [discriminate | exact H].
Qed.
Lemma there_ent (T : rtable D) e T' q : load_ent dim T e = Some T' -> T q <> None -> T' q <> None.
Proof. unfold load_ent. destruct (T (key_parent dim (ee_key e))); [|discriminate]. intros E H. apply (there_parent _ _ _ q E). unfold rset. destruct (q =? ee_key e); [discriminate | exact H]. Qed.
Lemma there_all {E} (f : rtable D -> E -> option (rtable D)) q : (forall T e T', f T e = Some T' -> T q <> None -> T' q <> None) -> forall es T T', load_all f T es = Some T' -> T q <> None -> T' q <> None.
Proof. intros Hf. induction es as [|e es IH]; intros T T' E0 H; cbn [load_all] in E0; [injection E0 as <-; exact H|]. destruct (f T e) as [T1|] eqn:E1; [|discriminate]. apply (IH T1 T' E0), (Hf T e T1 E1 H). Qed.
Lemma there_step fuel s s' r q : step dim n false (fun T T' => T' = T) fuel s s' -> inv dim n W s -> g_tab s r q <> None -> g_tab s' r q <> None.
Proof.
  intros St H HO. destruct St as [s r0 Hr Hp|s r0 o ks Hr Ho Hp Ha|s r0 o ks Hsub Hr Ho Hp Ha|s s' r0 src m rest Hr Hs Hl HC Hh|s r0 Hr Hp Hf|s r0 Hr Hp Ha|s r0 Hr Hp Hd|s t' Hb HN]; try exact HO; [| discriminate | | rewrite HN; exact HO].
  - cbn [g_tab]. destruct (upd_cases (g_tab s) r0 (mark_requested dim (g_tab s r0) ks) r) as [[-> E]|[N1 E]]; rewrite E; [|exact HO]. unfold mark_requested. destruct (existsb (N.eqb q) ks); [|exact HO]. destruct (g_tab s r0 q); [discriminate | exact HO].
  - destruct m as [ks|ks|ks ns|ks es|]; unfold handle in Hh.
    + destruct (recv_requests dim (g_tab s r0) ks); [|discriminate]. injection Hh as <-. exact HO.
    + exfalso. pose proof (i_chan _ _ _ _ H src r0 Hs Hr) as X. rewrite HC in X. exact X.
    + destruct (load_all (load_node dim) (g_tab s r0) ns) as [t|] eqn:Et; [|discriminate]. injection Hh as <-. cbn [g_tab]. destruct (upd_cases (g_tab s) r0 t r) as [[-> E]|[N1 E]]; rewrite E; [|exact HO]. apply (there_all (load_node dim) q (fun T e T' => there_node T e T' q) _ _ _ Et HO).
    + destruct (load_all (load_ent dim) (g_tab s r0) es) as [t|] eqn:Et; [|discriminate]. injection Hh as <-. cbn [g_tab]. destruct (upd_cases (g_tab s) r0 t r) as [[-> E]|[N1 E]]; rewrite E; [|exact HO]. apply (there_all (load_ent dim) q (fun T e T' => there_ent T e T' q) _ _ _ Et HO).
    + injection Hh as <-. exact HO.
Qed.
End Flags.
