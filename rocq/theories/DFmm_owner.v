(** The owner of the cells above a rank's own particles: the rank itself, after the share
    rounds and in every state of a traversal. *)
From Coq Require Import Sorted.
From Verif Require Import Base Key_model Key_spec Key_proofs HCell_model HCell_props
  BuildTree_model BuildTree_spec BuildTree_lemmas BuildTree_inv BuildTree_turn BuildTree_proofs BuildTree_shape.
From Verif Require Import Share_model Share_lemmas Share_sums Share_table Share_steps Share_update Share_local Share_rounds Share_final Share_flags.
From Verif Require Comms_model Comms_lemmas Comms_inv Comms_steps Comms_flags.
Local Open Scope N_scope.

Section Owned.
Context {Ent Sum : Type} (dim : N) (f : N -> list Ent -> list Sum -> Sum).
Implicit Types (t : stable Ent Sum) (O : N -> Prop).
Definition owned (O : N -> Prop) (r : nat) t : Prop := forall q, O q -> exists c, t q = Some c /\ s_owner c = r.
Lemma owned_put O r t k c : owned O r t -> (O k -> s_owner c = r) -> owned O r (sput t k c).
Proof. intros H Hc q Hq. unfold sput. destruct (N.eqb_spec q k) as [->|]; [exists c; split; [reflexivity | apply Hc, Hq] | apply H, Hq]. Qed.
Lemma owned_parent O r : forall fuel t k d o t', owned O r t -> add_parent dim fuel r t k d o = Some t' -> owned O r t'.
Proof.
  induction fuel as [|g IH]; intros t k d o t' H E; cbn [add_parent] in E; [discriminate|]. destruct (t k) as [p|] eqn:Ep.
  - injection E as <-. apply owned_put; [exact H|]. cbn [s_owner]. intros Ho. destruct (H k Ho) as (c & Hc & Hr). congruence.
  - destruct (key_pop_value dim k) as [x|]; [|discriminate]. apply (IH _ _ _ _ _) with (2 := E). apply owned_put; [exact H|]. intros Ho. destruct (H k Ho) as (c & Hc & _). congruence.
Qed.
Lemma owned_emplace O r t k c : ~ O k -> owned O r t -> owned O r (semplace t k c).
Proof. intros Hk H. unfold semplace. destruct (t k); [exact H|]. apply owned_put; [exact H | contradiction]. Qed.
Lemma owned_entity O r t it t' : ~ O (i_key it) -> owned O r t -> load_entity dim r t it = Some t' -> owned O r t'.
Proof.
  intros Ho H E. unfold load_entity in E. destruct (semplace t (i_key it) (snew r (Some (inl (i_val it)))) (i_key it)) as [c|]; [|discriminate]. destruct (key_pop_value dim (i_key it)) as [x|]; [|discriminate].
  apply (owned_parent O r _ _ _ _ _ _) with (2 := E). apply owned_put; [apply owned_emplace; assumption | contradiction].
Qed.
Lemma owned_node O r t it t' : ~ O (i_key it) -> owned O r t -> load_node dim r t it = Some t' -> owned O r t'.
Proof.
  intros Ho H E. unfold load_node in E. destruct (semplace t (i_key it) (snew r None) (i_key it)) as [c|]; [|discriminate].
  destruct (s_set c) as [[e|s]|]; [discriminate| |]; (destruct (key_pop_value dim (i_key it)) as [x|]; [|discriminate]); apply (owned_parent O r _ _ _ _ _ _) with (2 := E); (apply owned_put; [apply owned_emplace; assumption | contradiction]).
Qed.
Lemma owned_items {A} (ld : stable Ent Sum -> item A -> option (stable Ent Sum)) O r : (forall t it t', ~ O (i_key it) -> owned O r t -> ld t it = Some t' -> owned O r t') ->
  forall l t t', (forall it, In it l -> i_owner it <> r -> ~ O (i_key it)) -> owned O r t -> load_items ld r t l = Some t' -> owned O r t'.
Proof.
  intros Hl. induction l as [|it l IH]; intros t t' HO H E; cbn [load_items] in E; [injection E as <-; exact H|]. destruct (Nat.eqb_spec (i_owner it) r) as [|Hn]; [apply (IH t t' (fun x Hx => HO x (or_intror Hx)) H E)|].
  destruct (ld t it) as [t1|] eqn:E1; [|discriminate]. apply (IH t1 t' (fun x Hx => HO x (or_intror Hx)) (Hl t it t1 (HO it (or_introl eq_refl) Hn) H E1) E).
Qed.
Lemma owned_update O r lo hi : forall fuel t k t', owned O r t -> cofm_update dim f fuel lo hi t k = Some t' -> owned O r t'.
Proof.
  induction fuel as [|g IH]; intros t k t' H E; cbn [cofm_update] in E; [discriminate|]. destruct (t k) as [c|]; [|discriminate]. destruct (key_boundary dim 66 k k) as [b|]; [|discriminate]. destruct ((lo <=? fst b) && (snd b <=? hi)); [|injection E as <-; exact H].
  destruct (s_set c); [injection E as <-; exact H|]. destruct (skids dim t k (s_word c) (digits dim)) as [ds|]; [|discriminate].
  assert (FO : forall ds a t1, (forall u, a = Some u -> owned O r u) -> fold_left (fun a d => match a with Some u => cofm_update dim f g lo hi u d | None => None end) ds a = Some t1 -> owned O r t1).
  { induction ds0 as [|d ds0 IHd]; intros a t1 Ha Ef; cbn [fold_left] in Ef; [apply Ha, Ef|]. apply (IHd _ t1) with (2 := Ef). intros u Hu. destruct a as [u0|]; [|discriminate]. apply (IH u0 d u (Ha u0 eq_refl) Hu). }
  destruct (fold_left _ ds (Some t)) as [t1|] eqn:Ef; [|discriminate]. assert (H1 : owned O r t1) by (apply (FO ds (Some t) t1); [intros u Hu; injection Hu as <-; exact H | exact Ef]).
  destruct (t1 k) as [c1|] eqn:E1; [|discriminate]. destruct (kid_data dim t1 k (s_word c1) (digits dim)) as [xs|]; [|discriminate]. injection E as <-. apply owned_put; [exact H1|]. cbn [s_owner]. intros Ho. destruct (H1 k Ho) as (c2 & Hc2 & Hr). congruence.
Qed.
End Owned.

Set Default Proof Using "All".
Section Build.
Context {Ent Sum : Type} (dim : N) (Hdim : dim_ok dim) (f : N -> list Ent -> list Sum -> Sum) (pss : list (list (N * Ent))).
Notation D := (max_depth dim).
Notation K := (K pss).
Notation ks := (ks pss).
Notation nr := (nr pss).
Hypothesis Hne : forall ps, In ps pss -> ps <> [].
Hypothesis Hsort : StronglySorted N.lt K.
Hypothesis Hfull : Forall (full dim) K.
(** the cells of the tree above own particles of rank [r] *)
Definition mycell (r : nat) (q : N) : Prop := exists l, l <= D /\ cell_ex dim K (ks r) l q.
Lemma top_mine r s l q : (r < nr)%nat -> top dim pss s l q -> s <> r -> ~ mycell r q.
Proof.
  intros Hr Ht Hs (l' & Hl' & He). pose proof (ex_has dim Hdim f pss Hne Hsort Hfull r l' q Hr Hl' He) as Hh. destruct (top_key dim Hdim f pss Hne Hsort Hfull s l q Ht) as (k & Hk & HkK & E & Hl & So & _).
  assert (l' = l) by (apply (has_unique dim Hdim f pss Hne Hsort Hfull l' l q Hl' ltac:(lia)); [apply (has_K dim Hdim pss Hne Hsort Hfull r), Hh | exists k; split; [exact HkK | congruence]]). subst l'.
  apply Hs. symmetry. rewrite <- E in So. apply (solo_has dim Hdim pss Hne Hsort Hfull s r l q So Hh).
Qed.
Lemma owned_exchange X r me other st : (2 <= nr)%nat -> (r < nr)%nat -> okX dim pss X -> TI dim f pss X X (lone dim pss) (k_tab other) -> owned (mycell r) r (k_tab me) -> exchange dim f r me other = Some st -> owned (mycell r) r (k_tab st).
Proof.
  intros Hn Hr HX HT H E. unfold exchange in E. destruct (find_root dim Hdim f pss Hne Hsort Hfull X (k_tab other) HX HT Hn) as ([ns es] & Ef & If). rewrite Ef in E. cbn [fst snd] in E.
  destruct (load_items (load_entity dim r) r (k_tab me) es) as [t1|] eqn:E1; [|discriminate]. destruct (load_items (load_node dim r) r t1 ns) as [t2|] eqn:E2; [|discriminate]. destruct (cofm_update dim f 66 _ _ t2 key_root) as [t3|] eqn:E3; [|discriminate]. injection E as <-. cbn [k_tab].
  apply (owned_update dim f _ r _ _ _ t2 key_root t3) with (2 := E3). apply (owned_items (load_node dim r) _ r (owned_node dim _ r) ns t1 t2) with (3 := E2).
  - intros it Hit Ho. destruct (proj1 (If (i_owner it) (i_key it) (inr (i_val it)))) as (l & _ & A2 & _); [unfold tags; cbn [fst snd]; apply in_or_app; left; apply in_map_iff; exists it; split; [reflexivity | exact Hit]|]. apply (top_mine r (i_owner it) l); assumption.
  - apply (owned_items (load_entity dim r) _ r (owned_entity dim _ r) es (k_tab me) t1) with (3 := E1); [|exact H].
    intros it Hit Ho. destruct (proj1 (If (i_owner it) (i_key it) (inl (i_val it)))) as (l & _ & A2 & _); [unfold tags; cbn [fst snd]; apply in_or_app; right; apply in_map_iff; exists it; split; [reflexivity | exact Hit]|]. apply (top_mine r (i_owner it) l); assumption.
Qed.
Definition all_owned (l : list (rank_st Ent Sum)) : Prop := forall r st, nth_error l r = Some st -> owned (mycell r) r (k_tab st).
Variable m : nat.
Hypothesis Hm : nr = (2 ^ m)%nat.
Lemma owned_rounds : forall j i l l', (i + j = m)%nat -> RS dim f pss m i l -> all_owned l -> share_rounds dim f nr j i l = Some l' -> all_owned l'.
Proof.
  induction j as [|j IH]; intros i l l' Hij HR H E; cbn [share_rounds] in E; [injection E as <-; exact H|]. destruct (round_ok dim Hdim f pss Hne Hsort Hfull m Hm i l ltac:(lia) HR) as (l1 & E1 & R1). rewrite E1 in E.
  apply (IH (S i) l1 l' ltac:(lia) R1) with (2 := E). intros r st Hst. pose proof E1 as E1'. unfold share_round in E1. destruct (Share_flags.mapo_nth _ _ _ E1 r st Hst) as (r' & Hr & Es). pose proof Hr as Hr'. apply Share_flags.seq_nth in Hr'. subst r'. apply nth_error_In, in_seq in Hr. destruct Hr as [_ Hr]. cbn [Nat.add] in Hr.
  destruct (nth_error l r) as [me|] eqn:Em; [|discriminate]. destruct (Nat.ltb_spec (Nat.lxor r (2 ^ i)) nr) as [Hp|]; [|injection Es as <-; apply (H r me Em)].
  destruct (nth_error l (Nat.lxor r (2 ^ i))) as [o|] eqn:Eo; [|discriminate]. destruct HR as [_ HR]. destruct (HR _ Hp) as (o' & Eo' & _ & _ & T). rewrite Eo in Eo'. injection Eo' as <-.
  assert (Hn2 : (2 <= nr)%nat) by (rewrite Hm; replace m with (S (m - 1)) by lia; pose proof (Nat.pow_nonzero 2 (m - 1) ltac:(lia)); cbn [Nat.pow]; lia).
  apply (owned_exchange (XG dim pss (blk pss i (Nat.lxor r (2 ^ i))) (Nat.lxor r (2 ^ i))) r me o st Hn2 Hr) with (4 := Es); [apply (XG_ok dim Hdim f pss Hne Hsort Hfull), Hp | | apply (H r me Em)].
  apply (TI_ext dim Hdim f pss Hne Hsort Hfull _ _ _ _ _ _ (k_tab o)) with (4 := T); [intros; reflexivity | intros; reflexivity|]. intros. unfold Fi. replace (i <? m)%nat with true by (symmetry; apply Nat.ltb_lt; lia). reflexivity.
Qed.
Lemma owned_all l : build_all dim f pss = Some l -> all_owned l.
Proof.
  intros El. unfold build_all in El. fold nr in El. destruct (mapo_ok (rank_build dim f pss) (fun r st => k_lo st = lov dim pss r /\ k_hi st = hiv dim pss r /\ TI dim f pss (cell_ex dim K (ks r)) (cell_ex dim K (ks r)) (lone dim pss) (k_tab st)) (seq 0 nr)) as (l0 & E & F2).
  { intros r Hr. apply in_seq in Hr. destruct (rank_build_ok dim Hdim f pss Hne Hsort Hfull r) as (st & A1 & A2 & A3 & A4 & _); [lia|]. exists st. tauto. }
  rewrite E in El. apply forall2_seq in F2. destruct F2 as [F1 F2]. replace (Nat.log2 nr) with m in El by (rewrite Hm, Nat.log2_pow2; lia). apply (owned_rounds m 0 l0 l eq_refl) with (3 := El).
  - split; [exact F1|]. intros r Hr. destruct (F2 r Hr) as (st & Hst & S1 & S2 & S3). cbn [Nat.add] in *. exists st. split; [exact Hst|]. unfold fst_of, lst_of. cbn [Nat.pow]. rewrite Nat.div_1_r, Nat.mul_1_r, Nat.add_0_r. split; [exact S1|]. split; [exact S2|].
    assert (HXG : forall l q, l <= D -> (cell_ex dim K (ks r) l q <-> XG dim pss (blk pss 0 r) r l q)).
    { intros l1 q Hl0. unfold XG. split; [intros A; split; [exact Hl0 | left; exact A]|]. intros [_ [A|(s & l2 & q1 & [_ A3] & A4 & A5 & A6)]]; [exact A|]. cbn [Nat.pow] in A3. rewrite !Nat.div_1_r in A3. subst s.
      subst q. pose proof (top_ex dim Hdim f pss Hne Hsort Hfull r l2 q1 A4) as He. assert (GX : forall b, l2 + b <= D -> cell_ex dim K (ks r) (l2 + b) (BuildTree_spec.up dim b q1)).
      { induction b as [|b IHb] using N.peano_ind; intros Hb; [rewrite N.add_0_r, up_0; exact He|]. replace (N.succ b) with (b + 1) by lia. replace (l2 + (b + 1)) with (l2 + b + 1) by lia. rewrite (up_S dim Hdim). apply (ex_up dim Hdim f pss Hne Hsort Hfull); [exact Hr | apply IHb; lia | lia]. }
      replace l1 with (l2 + (l1 - l2)) at 1 by lia. apply GX. lia. }
    apply (TI_ext dim Hdim f pss Hne Hsort Hfull _ _ _ _ _ _ (k_tab st)) with (4 := S3); [intros; apply HXG; assumption | intros; apply HXG; assumption|].
    intros l1 q Hl0 Hx. unfold Fi. destruct (Nat.ltb_spec 0 m) as [|Hz]; [reflexivity|]. split; [intros _; exact I|]. intros _. assert (nr = 1%nat) by (rewrite Hm; replace m with 0%nat by lia; reflexivity).
    exists r. split; [apply (ex_has dim Hdim f pss Hne Hsort Hfull r l1 q Hr Hl0 Hx)|]. intros k Hk _. destruct (K_in dim Hdim pss Hne Hsort Hfull k Hk) as (s & Hs & Hks). replace r with s by lia. exact Hks.
  - intros r st Hst. assert (Hr : (r < nr)%nat) by (rewrite <- F1; apply nth_error_Some; congruence). destruct (Share_flags.mapo_nth _ _ _ E r st Hst) as (r' & Hr' & Es). apply Share_flags.seq_nth in Hr'. subst r'.
    destruct (rank_build_ok dim Hdim f pss Hne Hsort Hfull r Hr) as (st' & A1 & _ & _ & A4 & A5). rewrite Es in A1. injection A1 as <-. intros q (lv & Hl & He). destruct (ti_cell _ _ _ _ _ _ _ A4 lv q Hl He) as (c & Hc & _). exists c. split; [exact Hc | apply (A5 q c Hc)].
Qed.
End Build.
Unset Default Proof Using.

(** ** During a traversal *)
Import Comms_model Comms_lemmas Comms_inv Comms_steps.
Section Steps.
Context {Dt : Type} (dim : N) (n : nat) (W : world Dt) (O : nat -> N -> Prop).
Definition tabg (T : rtable Dt) : Prop := forall k c, T k = Some c -> O (r_owner c) k.
Definition msgg (m : msg Dt) : Prop :=
  match m with MNodes _ ns => Forall (fun e => O (ne_owner e) (ne_key e)) ns | MEnts _ es => Forall (fun e => O (ee_owner e) (ee_key e)) es | _ => True end.
Definition mineg (r : nat) (T : rtable Dt) : Prop := forall k, O r k -> exists c, T k = Some c /\ r_owner c = r /\ (w_isn W k = false -> bare dim (r_word c)).
Record owners (s : gstate Dt) : Prop := mkow
  { os_tab : forall r, (r < n)%nat -> tabg (g_tab s r);
    os_msg : forall p q m, (p < n)%nat -> (q < n)%nat -> In m (g_chan s p q) -> msgg m;
    os_mine : forall r, (r < n)%nat -> mineg r (g_tab s r) }.
Lemma tabg_set T k c : tabg T -> O (r_owner c) k -> tabg (rset T k c).
Proof. intros H Hc k' c' E. unfold rset in E. destruct (N.eqb_spec k' k) as [->|]; [injection E as <-; exact Hc | apply (H k' c' E)]. Qed.
Lemma tabg_parent T k T' : tabg T -> parent_add dim T k = Some T' -> tabg T'.
Proof. intros H E. unfold parent_add in E. destruct (T (key_parent dim k)) as [p|] eqn:Ep; [|discriminate]. injection E as <-. apply tabg_set; [exact H | exact (H _ p Ep)]. Qed.
Lemma tabg_node T e T' : tabg T -> O (ne_owner e) (ne_key e) -> Comms_model.load_node dim T e = Some T' -> tabg T'.
Proof.
  intros H He E. unfold Comms_model.load_node in E. destruct (T (key_parent dim (ne_key e))); [|discriminate]. destruct (match T (ne_key e) with Some c => if r_node c then Some (r_word c) else None | None => Some hcell_new end) as [w0|]; [|discriminate].
  apply tabg_parent with (2 := E). apply tabg_set; [exact H | exact He].
Qed.
Lemma tabg_ent T e T' : tabg T -> O (ee_owner e) (ee_key e) -> load_ent dim T e = Some T' -> tabg T'.
Proof.
  intros H He E. unfold load_ent in E. destruct (T (key_parent dim (ee_key e))); [|discriminate]. apply tabg_parent with (2 := E). apply tabg_set; [exact H|]. destruct (T (ee_key e)); exact He.
Qed.
Lemma tabg_all {E} (P : E -> Prop) (ld : rtable Dt -> E -> option (rtable Dt)) : (forall T e T', tabg T -> P e -> ld T e = Some T' -> tabg T') -> forall es T T', Forall P es -> tabg T -> load_all ld T es = Some T' -> tabg T'.
Proof. intros Hf. induction es as [|e es IH]; intros T T' HP H E0; cbn [load_all] in E0; [injection E0 as <-; exact H|]. inversion HP; subst. destruct (ld T e) as [T1|] eqn:E1; [|discriminate]. apply (IH T1 T'); [assumption | apply (Hf T e T1); assumption | exact E0]. Qed.
Lemma tabg_mark T ks : tabg T -> tabg (mark_requested dim T ks).
Proof. intros H k c E. unfold mark_requested in E. destruct (existsb (N.eqb k) ks); [|apply (H k c E)]. destruct (T k) as [c0|] eqn:E0; [|discriminate]. injection E as <-. apply (H k c0 E0). Qed.
Lemma good_kid_nodes T k w : tabg T -> forall ds g, kid_nodes dim T k w ds = Some g -> Forall (fun e => O (ne_owner e) (ne_key e)) g.
Proof.
  intros H. induction ds as [|j r IH]; intros g E; cbn [kid_nodes] in E; [injection E as <-; constructor|]. destruct (get_child w j); [|apply IH, E]. destruct (key_push dim k j) as [q|]; [|discriminate]. destruct (T q) as [c|] eqn:Ec; [|discriminate]. destruct (kid_nodes dim T k w r) as [rest|]; [|discriminate]. injection E as <-.
  destruct (r_node c); [constructor; [exact (H q c Ec)|]|]; apply IH; reflexivity.
Qed.
Lemma good_kid_ents T k w : tabg T -> forall ds g, kid_ents dim T k w ds = Some g -> Forall (fun e => O (ee_owner e) (ee_key e)) g.
Proof.
  intros H. induction ds as [|j r IH]; intros g E; cbn [kid_ents] in E; [injection E as <-; constructor|]. destruct (get_child w j); [|apply IH, E]. destruct (key_push dim k j) as [q|]; [|discriminate]. destruct (T q) as [c|] eqn:Ec; [|discriminate]. destruct (kid_ents dim T k w r) as [rest|]; [|discriminate]. injection E as <-.
  destruct (r_node c); [|constructor; [exact (H q c Ec)|]]; apply IH; reflexivity.
Qed.
Lemma good_reply_nodes T : tabg T -> forall ks g, reply_nodes dim T ks = Some g -> Forall (fun e => O (ne_owner e) (ne_key e)) g.
Proof.
  intros H. induction ks as [|k r IH]; intros g E; cbn [reply_nodes] in E; [injection E as <-; constructor|]. destruct (T k) as [c|] eqn:Ec; [|discriminate]. destruct (kid_nodes dim T k (r_word c) (digits dim)) as [g1|] eqn:E1; [|discriminate]. destruct (reply_nodes dim T r) as [rest|]; [|discriminate]. injection E as <-.
  constructor; [exact (H k c Ec)|]. apply Forall_app. split; [apply (good_kid_nodes T k _ H _ _ E1) | apply IH; reflexivity].
Qed.
Lemma good_reply_ents T : tabg T -> forall ks g, reply_ents dim T ks = Some g -> Forall (fun e => O (ee_owner e) (ee_key e)) g.
Proof.
  intros H. induction ks as [|k r IH]; intros g E; cbn [reply_ents] in E; [injection E as <-; constructor|]. destruct (T k) as [c|] eqn:Ec; [|discriminate]. destruct (kid_ents dim T k (r_word c) (digits dim)) as [g1|] eqn:E1; [|discriminate]. destruct (reply_ents dim T r) as [rest|]; [|discriminate]. injection E as <-.
  apply Forall_app. split; [apply (good_kid_ents T k _ H _ _ E1) | apply IH; reflexivity].
Qed.
Lemma good_requests T ks ms : tabg T -> recv_requests dim T ks = Some ms -> forall m, In m ms -> msgg m.
Proof.
  intros H E m Hm. unfold recv_requests in E. destruct (reply_nodes dim T ks) as [ns|] eqn:E1; [|discriminate]. destruct (reply_ents dim T ks) as [es|] eqn:E2; [|discriminate]. injection E as <-. unfold replies in Hm. apply in_app_or in Hm.
  pose proof (good_reply_nodes T H ks ns E1) as G1. pose proof (good_reply_ents T H ks es E2) as G2. destruct Hm as [Hm|Hm]; [destruct ns; [destruct Hm | destruct Hm as [<-|[]]; exact G1] | destruct es; [destruct Hm | destruct Hm as [<-|[]]; exact G2]].
Qed.
Lemma half_not_full k w : hasent dim W k = true -> half dim W k w -> ~ full dim W k w.
Proof.
  intros He H Hf. unfold hasent in He. apply existsb_exists in He. destruct He as (d & Hd & He). apply digits_in in Hd. specialize (H d Hd). specialize (Hf d Hd). unfold is_ent, is_nd in *. rewrite Hf in H. destruct (w_kid W k d), (w_isn W (ck dim k d)); discriminate.
Qed.
(** cells that stay, but for those in [ks], which are not above own particles *)
Lemma mineg_load r T T' ks : Comms_flags.own dim W O r T -> (forall k c, T k = Some c -> ~ In k ks -> T' k = Some c) ->
  (forall k c, In k ks -> T k = Some c -> w_isn W k = true /\ ~ full dim W k (r_word c)) -> mineg r T -> mineg r T'.
Proof.
  intros HO HF HK H k Hk. destruct (H k Hk) as (c & Hc & Hr). exists c. split; [|exact Hr]. apply (HF k c Hc). intros Hin. destruct (HK k c Hin Hc) as [Hi Hn]. destruct (Comms_flags.ow_node _ _ _ _ _ HO k Hk Hi) as (c' & Hc' & Hf). rewrite Hc in Hc'. injection Hc' as <-. contradiction.
Qed.
Lemma mineg_mark r T ks : (forall k, In k ks -> w_isn W k = true) -> mineg r T -> mineg r (mark_requested dim T ks).
Proof.
  intros HK H k Hk. destruct (H k Hk) as (c & Hc & Hr & Hb). unfold mark_requested. rewrite Hc. destruct (existsb (N.eqb k) ks) eqn:E; [exists (map_word (set_requested dim) c) | exists c; tauto]. split; [reflexivity|]. split; [exact Hr|].
  apply existsb_in, HK in E. congruence.
Qed.
Lemma upd2_in {A} (g : nat -> nat -> list A) p q l p' q' x : In x (upd2 g p q l p' q') -> In x (g p' q') \/ (p' = p /\ q' = q /\ In x l).
Proof. unfold upd2, upd. destruct (Nat.eqb_spec p' p) as [->|]; [|tauto]. destruct (Nat.eqb_spec q' q) as [->|]; tauto. Qed.
Lemma owners_step fuel s s' : step dim n false (fun T T' => T' = T) fuel s s' -> inv dim n W s -> (forall r, (r < n)%nat -> Comms_flags.own dim W O r (g_tab s r)) -> owners s -> owners s'.
Proof.
  intros St H HO [J1 J2 J3]. destruct St as [s r Hr Hp|s r o ks Hr Ho Hp Ha|s r o ks Hsub Hr Ho Hp Ha|s s' r src m rest Hr Hs Hl HC Hh|s r Hr Hp Hf|s r Hr Hp Ha|s r Hr Hp Hd|s t' Hb HN]; try (constructor; assumption); [| discriminate | | | rewrite HN; constructor; assumption].
  - constructor; cbn [g_tab g_chan].
    + intros r' Hr'. destruct (upd_cases (g_tab s) r (mark_requested dim (g_tab s r) ks) r') as [[-> E]|[N1 E]]; rewrite E; [apply tabg_mark|]; apply J1; assumption.
    + intros p q m Hp' Hq Hm. apply upd2_in in Hm. destruct Hm as [Hm|(-> & -> & Hm)]; [apply (J2 p q m Hp' Hq Hm)|]. apply in_app_or in Hm. destruct Hm as [Hm|[<-|[]]]; [apply (J2 r o m Hr Ho Hm) | exact I].
    + intros r' Hr'. destruct (upd_cases (g_tab s) r (mark_requested dim (g_tab s r) ks) r') as [[-> E]|[N1 E]]; rewrite E; [apply mineg_mark|]; [|apply J3; assumption | apply J3; assumption].
      intros k Hk. destruct Ha as (_ & _ & Ha). destruct (Ha k Hk) as (c & Hc & He & _). destruct (tk_cell _ _ _ _ _ (i_tok _ _ _ _ H r Hr) k c Hc) as (E1 & _). rewrite <- E1. unfold empty_node in He. apply andb_true_iff in He. tauto.
  - assert (Hm : msgg m) by (apply (J2 src r m Hs Hr); rewrite HC; left; reflexivity).
    assert (HR : forall p q x, (p < n)%nat -> (q < n)%nat -> In x (upd2 (g_chan s) src r rest p q) -> msgg x).
    { intros p q x Hp Hq Hx. apply upd2_in in Hx. destruct Hx as [Hx|(-> & -> & Hx)]; [apply (J2 p q x Hp Hq Hx)|]. apply (J2 src r x Hs Hr). rewrite HC. right. exact Hx. }
    destruct m as [ks|ks|ks ns|ks es|]; unfold handle in Hh.
    + destruct (recv_requests dim (g_tab s r) ks) as [ms|] eqn:Em; [|discriminate]. injection Hh as <-. constructor; cbn [g_tab g_chan]; try assumption. intros p q x Hp Hq Hx. apply upd2_in in Hx. destruct Hx as [Hx|(-> & -> & Hx)]; [apply (HR p q x Hp Hq Hx)|]. apply in_app_or in Hx. destruct Hx as [Hx|Hx]; [apply (HR r src x Hr Hs Hx) | apply (good_requests _ _ _ (J1 r Hr) Em x Hx)].
    + exfalso. pose proof (i_chan _ _ _ _ H src r Hs Hr) as X. rewrite HC in X. exact X.
    + destruct (load_all (Comms_model.load_node dim) (g_tab s r) ns) as [t|] eqn:Et; [|discriminate]. injection Hh as <-. constructor; cbn [g_tab g_chan]; [|exact HR|].
      * intros r' Hr'. destruct (upd_cases (g_tab s) r t r') as [[-> E]|[N1 E]]; rewrite E; [|apply J1, Hr']. apply (tabg_all _ (Comms_model.load_node dim) (fun T e T' => tabg_node T e T') ns (g_tab s r) t Hm (J1 r Hr) Et).
      * intros r' Hr'. destruct (upd_cases (g_tab s) r t r') as [[-> E]|[N1 E]]; rewrite E; [|apply J3, Hr'].
        pose proof (i_chan _ _ _ _ H src r Hs Hr) as HO'. rewrite HC in HO'. cbn [chan_ok shaped] in HO'. destruct HO' as (Hks & HN & HR'). pose proof (i_wf _ _ _ _ H) as HW.
        assert (HE : forall k, In k ks -> early n s r k) by (intros k Hk; exists src; split; [exact Hs|]; right; rewrite HC; unfold nods; cbn [flat_map]; apply in_or_app; left; exact Hk).
        assert (ND : NoDup ks).
        { assert (Y : In src (ranks n)) by (apply in_ranks, Hs). pose proof (i_nodup _ _ _ _ H r Hr) as Z. unfold Comms_inv.pend in Z. destruct (in_split _ _ Y) as (a & b & E'). rewrite E', flat_map_app in Z. cbn [flat_map] in Z. apply nodup_app_r, nodup_app_l in Z. unfold piece in Z. apply nodup_app_r, nodup_app_r in Z. rewrite HC in Z. exact (nodup_app_l _ _ Z). }
        destruct (load_nodes_ok dim n W HW _ ks ns HN (g_tab s r) (i_tok _ _ _ _ H r Hr) ND) as (T' & HL & _ & HFr & _).
        { intros k Hk. destruct (i_early _ _ _ _ H r k Hr (HE k Hk)) as (A & c & Hc & Hb & _). split; [exact A|]. exists c. tauto. }
        rewrite Et in HL. injection HL as <-. apply (mineg_load r (g_tab s r) t ks (HO r Hr) HFr); [|apply J3, Hr]. intros k c Hk Hc. destruct (i_early _ _ _ _ H r k Hr (HE k Hk)) as (A & c0 & Hc0 & Hb & _). rewrite Hc in Hc0. injection Hc0 as <-. split; [exact A|]. intros Hf. apply (bare_not_full dim W k _ HW A Hb Hf).
    + destruct (load_all (load_ent dim) (g_tab s r) es) as [t|] eqn:Et; [|discriminate]. injection Hh as <-. constructor; cbn [g_tab g_chan]; [|exact HR|].
      * intros r' Hr'. destruct (upd_cases (g_tab s) r t r') as [[-> E]|[N1 E]]; rewrite E; [|apply J1, Hr']. apply (tabg_all _ (load_ent dim) (fun T e T' => tabg_ent T e T') es (g_tab s r) t Hm (J1 r Hr) Et).
      * intros r' Hr'. destruct (upd_cases (g_tab s) r t r') as [[-> E]|[N1 E]]; rewrite E; [|apply J3, Hr'].
        pose proof (i_chan _ _ _ _ H src r Hs Hr) as HO'. rewrite HC in HO'. cbn [chan_ok] in HO'. destruct HO' as (Hks & HN & HR'). pose proof (i_wf _ _ _ _ H) as HW.
        assert (HE : forall k, In k ks -> late n s r k) by (intros k Hk; exists src; split; [exact Hs|]; rewrite HC; exact Hk).
        assert (ND : NoDup ks).
        { assert (Y : In src (ranks n)) by (apply in_ranks, Hs). pose proof (i_nodup _ _ _ _ H r Hr) as Z. unfold Comms_inv.pend in Z. destruct (in_split _ _ Y) as (a & b & E'). rewrite E', flat_map_app in Z. cbn [flat_map] in Z. apply nodup_app_r, nodup_app_l in Z. unfold piece in Z. apply nodup_app_r, nodup_app_l in Z. rewrite HC in Z. exact Z. }
        destruct (load_ents_ok dim n W HW _ ks es HN (g_tab s r) (i_tok _ _ _ _ H r Hr) ND) as (T' & HL & _ & HFr & _).
        { intros k Hk. destruct (i_late _ _ _ _ H r k Hr (HE k Hk)) as (A & _ & c & Hc & Hb & _). split; [exact A|]. exists c. tauto. }
        rewrite Et in HL. injection HL as <-. apply (mineg_load r (g_tab s r) t ks (HO r Hr) HFr); [|apply J3, Hr]. intros k c Hk Hc. destruct (i_late _ _ _ _ H r k Hr (HE k Hk)) as (A & A2 & c0 & Hc0 & Hb & _). rewrite Hc in Hc0. injection Hc0 as <-. split; [exact A | apply half_not_full; assumption].
    + injection Hh as <-. constructor; cbn [g_tab g_chan]; assumption.
  - constructor; cbn [g_tab g_chan]; try assumption. intros p q m Hp' Hq Hm. destruct ((p =? r)%nat && (q <? n)%nat); [|apply (J2 p q m Hp' Hq Hm)]. apply in_app_or in Hm. destruct Hm as [Hm|[<-|[]]]; [apply (J2 p q m Hp' Hq Hm) | exact I].
Qed.
End Steps.
