(** The invariant behind Comms_props. *)
From Coq Require Import Permutation.
From Verif Require Import Base Key_model HCell_model HCell_props BuildTree_model Comms_model Comms_lemmas.
Local Open Scope N_scope.

Section Inv.
Context {D : Type} (dim : N) (n : nat).
Notation B := (2 ^ dim).
Implicit Types (W : world D) (s : gstate D) (V : nat -> N -> Prop).
Definition complete (W : world D) (T : rtable D) (k : N) : Prop := exists c, T k = Some c /\ (w_isn W k = true -> full dim W k (r_word c)).
Definition valid (W : world D) (T : nat -> rtable D) (o : nat) (k : N) : Prop := (o < n)%nat /\ complete W (T o) k.
(** Tables a traversal can start with: every rank's cells belong to the tree [W], hang
    together, have the data of [W]; a node has all its children or none and then has not
    been asked for; the owner of a cell has it with all its children. *)
Definition settled (W : world D) (T : rtable D) (k : N) (c : rcell D) : Prop :=
  w_isn W k = true -> (full dim W k (r_word c) /\ nchildren_to_receive dim (r_word c) <= nkids dim W k) \/ (bare dim (r_word c) /\ requested dim (r_word c) = false).
Definition start_ok (W : world D) (T : nat -> rtable D) : Prop :=
  wf_world dim W /\ forall r, (r < n)%nat -> tok dim n W (valid W T) (T r) /\ forall k c, T r k = Some c -> settled W (T r) k c.
Definition newtabs (_ T' : nat -> rtable D) : Prop := exists W', start_ok W' T'.

(** *** Messages *)
Definition reqs (l : list (msg D)) : list N := flat_map (fun m => match m with MReq ks => ks | _ => [] end) l.
Definition nods (l : list (msg D)) : list N := flat_map (fun m => match m with MNodes ks _ => ks | _ => [] end) l.
Definition headents (l : list (msg D)) : list N := match l with MEnts ks _ :: _ => ks | _ => [] end.
Definition is_done (m : msg D) : bool := match m with MDone => true | _ => false end.
Definition ndone (l : list (msg D)) : nat := length (filter is_done l).
Section Shape.
Variables (W : world D) (V : nat -> N -> Prop) (p q : nat).
Fixpoint shaped (l : list (msg D)) : Prop :=
  match l with
  | [] => True
  | MReq ks :: l' => p <> q /\ ks <> [] /\ (forall k, In k ks -> w_isn W k = true /\ V q k) /\ shaped l'
  | MSub _ :: _ => False
  | MDone :: l' => shaped l'
  | MEnts _ _ :: _ => False
  | MNodes ks ns :: l' => ks <> [] /\ nodesok dim n W V ks ns /\
      match l' with
      | MEnts eks es :: l'' => eks = filter (hasent dim W) ks /\ eks <> [] /\ entsok dim n W V eks es /\ shaped l''
      | _ => filter (hasent dim W) ks = [] /\ shaped l'
      end
  end.
Definition chan_ok (l : list (msg D)) : Prop :=
  match l with MEnts eks es :: l' => eks <> [] /\ entsok dim n W V eks es /\ shaped l' | _ => shaped l end.
Definition no_ents_head (l : list (msg D)) : Prop := match l with MEnts _ _ :: _ => False | _ => True end.
Lemma shaped_app : forall m l l2, (length l <= m)%nat -> shaped l -> shaped l2 -> no_ents_head l2 -> shaped (l ++ l2).
Proof.
  induction m as [|m IH]; intros l l2 Hm H1 H2 Hh.
  - destruct l; [exact H2 | cbn in Hm; lia].
  - destruct l as [|x l]; [exact H2|]. cbn [length] in Hm. destruct x as [ks|ks|ks ns|ks es|]; cbn [app shaped] in *; try tauto.
    + destruct H1 as (A & A2 & A3 & A4). repeat (split; [assumption|]). apply IH; [lia | assumption..].
    + destruct H1 as (A1 & A2 & A3). split; [exact A1|]. split; [exact A2|]. destruct l as [|y l].
      * cbn [app]. destruct A3 as [A3 _]. destruct l2 as [|z l2]; [tauto|]. destruct z; try tauto. destruct Hh.
      * cbn [app length] in *. destruct y as [ks'|ks'|ks' ns'|eks es|].
        -- destruct A3 as [B1 B2]. split; [exact B1|]. apply (IH (MReq ks' :: l) l2); [cbn; lia | assumption..].
        -- destruct A3 as [_ []].
        -- destruct A3 as [B1 B2]. split; [exact B1|]. apply (IH (MNodes ks' ns' :: l) l2); [cbn; lia | assumption..].
        -- destruct A3 as (B1 & B2 & B3 & B4). repeat (split; [assumption|]). apply IH; [lia | assumption..].
        -- destruct A3 as [B1 B2]. split; [exact B1|]. apply (IH (MDone :: l) l2); [cbn; lia | assumption..].
    + apply IH; [lia | assumption..].
Qed.
Lemma chan_app l l2 : chan_ok l -> shaped l2 -> no_ents_head l2 -> chan_ok (l ++ l2).
Proof.
  intros H1 H2 Hh. destruct l as [|x l].
  - cbn [app]. unfold chan_ok. destruct l2 as [|y l2]; [exact H2|]. destruct y; try exact H2. destruct Hh.
  - destruct x as [ks|ks|ks ns|eks es|]; cbn [app chan_ok] in *.
    1-3,5: apply (shaped_app _ _ _ (le_n _) H1 H2 Hh).
    destruct H1 as (A1 & A2 & A3). repeat (split; [assumption|]). apply (shaped_app _ _ _ (le_n _) A3 H2 Hh).
Qed.
Lemma shaped_chan l : shaped l -> chan_ok l /\ headents l = [].
Proof. intros H. destruct l as [|x l]; [split; [exact H | reflexivity]|]. destruct x; cbn [chan_ok headents]; try (split; [exact H | reflexivity]). destruct H. Qed.
(** a channel with nothing pending and no DONE is empty *)
Lemma chan_nil l : chan_ok l -> reqs l = [] -> nods l = [] -> headents l = [] -> ndone l = 0%nat -> l = [].
Proof.
  intros H R No He Hd. destruct l as [|x l]; [reflexivity|]. exfalso. destruct x as [ks|ks|ks ns|eks es|]; cbn in *; try tauto.
  - destruct H as (_ & H & _). destruct ks; [congruence | discriminate].
  - destruct H as (H & _). destruct ks; [congruence | discriminate].
  - lia.
Qed.
End Shape.
Lemma nodesok_mono W (V V' : nat -> N -> Prop) ks ns : (forall o k, V o k -> V' o k) -> nodesok dim n W V ks ns -> nodesok dim n W V' ks ns.
Proof.
  intros HV. induction 1 as [|k ks e g rest He Hg Hr IH]; [constructor|]. constructor; [| |exact IH].
  - destruct He as (A1 & A2 & A3 & A4 & A5). repeat split; try assumption. apply HV, A4.
  - clear - Hg HV. induction Hg as [|d x ds g Hx Hg IH]; constructor; [|exact IH]. destruct Hx as (A1 & A2 & A3 & A4 & A5). repeat split; try assumption. apply HV, A4.
Qed.
Lemma entsok_mono W (V V' : nat -> N -> Prop) ks es : (forall o k, V o k -> V' o k) -> entsok dim n W V ks es -> entsok dim n W V' ks es.
Proof.
  intros HV. induction 1 as [|k ks g rest Hg Hr IH]; [constructor|]. constructor; [|exact IH].
  clear - Hg HV. induction Hg as [|d x ds g Hx Hg IH]; constructor; [|exact IH]. destruct Hx as (A1 & A2 & A3 & A4). repeat split; try assumption. apply HV, A4.
Qed.
Lemma shaped_mono W (V V' : nat -> N -> Prop) p q : (forall o k, V o k -> V' o k) -> forall m l, (length l <= m)%nat -> shaped W V p q l -> shaped W V' p q l.
Proof.
  intros HV. induction m as [|m IH]; intros l Hm H; [destruct l; [exact I | cbn in Hm; lia]|].
  destruct l as [|x l]; [exact I|]. cbn [length] in Hm. destruct x as [ks|ks|ks ns|ks es|]; cbn [shaped] in *; try tauto.
  - destruct H as (A1 & A2 & A3 & A4). repeat (split; [assumption|]). split; [intros k Hk; destruct (A3 k Hk); split; [assumption | apply HV; assumption]|]. apply IH; [lia | exact A4].
  - destruct H as (A1 & A2 & A3). split; [exact A1|]. split; [apply (nodesok_mono W V V' _ _ HV A2)|]. destruct l as [|y l]; [exact A3|]. cbn [length] in Hm. destruct y as [ks'|ks'|ks' ns'|eks es|].
    1-3,5: destruct A3 as [B1 B2]; split; [exact B1 | apply IH; [cbn; lia | exact B2]].
    destruct A3 as (B1 & B2 & B3 & B4). split; [exact B1|]. split; [exact B2|]. split; [apply (entsok_mono W V V' _ _ HV B3) | apply IH; [lia | exact B4]].
  - apply IH; [lia | exact H].
Qed.
Lemma chan_mono W (V V' : nat -> N -> Prop) p q l : (forall o k, V o k -> V' o k) -> chan_ok W V p q l -> chan_ok W V' p q l.
Proof.
  intros HV H. destruct l as [|x l]; [exact H|]. destruct x as [ks|ks|ks ns|eks es|]; cbn [chan_ok] in *.
  1-3,5: apply (shaped_mono W V V' p q HV _ _ (le_n _) H).
  destruct H as (A1 & A2 & A3). split; [exact A1|]. split; [apply (entsok_mono W V V' _ _ HV A2) | apply (shaped_mono W V V' p q HV _ _ (le_n _) A3)].
Qed.
Lemma tok_mono W (V V' : nat -> N -> Prop) T : (forall o k, V o k -> V' o k) -> tok dim n W V T -> tok dim n W V' T.
Proof.
  intros HV [A1 A2 A3 A4]. constructor; [|exact A2 | exact A3 | exact A4]. intros k c Hc. destruct (A1 k c Hc) as (B1 & B2 & B3 & B4 & B5). repeat (split; [assumption|]). apply HV, B5.
Qed.

(** *** The invariant *)
Definition piece (s : gstate D) (r o : nat) : list N := reqs (g_chan s r o) ++ headents (g_chan s o r) ++ nods (g_chan s o r).
Definition pend (s : gstate D) (r : nat) : list N := flat_map (piece s r) (ranks n).
Definition early (s : gstate D) (r : nat) (k : N) : Prop := exists o, (o < n)%nat /\ (In k (reqs (g_chan s r o)) \/ In k (nods (g_chan s o r))).
Definition late (s : gstate D) (r : nat) (k : N) : Prop := exists o, (o < n)%nat /\ In k (headents (g_chan s o r)).
Definition has_sent (p : phase) : bool := match p with Waiting | Left | AtBarrier => true | _ => false end.
Definition b2n (b : bool) : nat := if b then 1%nat else 0%nat.
Definition seen (s : gstate D) (q p : nat) : nat := match g_ph s q with Idle => 0%nat | _ => b2n (g_done s q p) end.
Record inv (W : world D) (s : gstate D) : Prop := mkinv
  { i_wf : wf_world dim W;
    i_tok : forall r, (r < n)%nat -> tok dim n W (valid W (g_tab s)) (g_tab s r);
    i_chan : forall p q, (p < n)%nat -> (q < n)%nat -> chan_ok W (valid W (g_tab s)) p q (g_chan s p q);
    i_nodup : forall r, (r < n)%nat -> NoDup (pend s r);
    i_early : forall r k, (r < n)%nat -> early s r k -> w_isn W k = true /\ exists c, g_tab s r k = Some c /\ bare dim (r_word c) /\ requested dim (r_word c) = true;
    i_late : forall r k, (r < n)%nat -> late s r k -> w_isn W k = true /\ hasent dim W k = true /\ exists c, g_tab s r k = Some c /\ half dim W k (r_word c) /\ nchildren_to_receive dim (r_word c) = nkids dim W k /\ requested dim (r_word c) = true;
    i_rest : forall r k c, (r < n)%nat -> g_tab s r k = Some c -> ~ In k (pend s r) -> settled W (g_tab s r) k c;
    i_wait : forall r, (r < n)%nat -> g_ph s r = Working -> incl (pend s r) (g_wait s r);
    i_ask : forall r k, (r < n)%nat -> g_ph s r = Working -> In k (g_wait s r) -> w_isn W k = true /\ exists c, g_tab s r k = Some c /\ requested dim (r_word c) = true;
    i_quiet : forall r, (r < n)%nat -> g_ph s r <> Working -> pend s r = [];
    i_done : forall p q, (p < n)%nat -> (q < n)%nat -> (ndone (g_chan s p q) + seen s q p = b2n (has_sent (g_ph s p)))%nat;
    i_all : forall q, (q < n)%nat -> g_ph s q = Waiting -> g_all s q = forallb (g_done s q) (ranks n);
    i_left : forall q p, (q < n)%nat -> (p < n)%nat -> (g_ph s q = Left \/ g_ph s q = AtBarrier) -> g_done s q p = true;
    i_bar : forall p q, (p < n)%nat -> (q < n)%nat -> g_ph s p = AtBarrier -> ndone (g_chan s p q) = 0%nat }.
Lemma in_ranks r : In r (ranks n) <-> (r < n)%nat. Proof. unfold ranks. rewrite in_seq. lia. Qed.
Lemma pend_in s r k : In k (pend s r) <-> early s r k \/ late s r k.
Proof.
  unfold pend, early, late. rewrite in_flat_map. split.
  - intros (o & Ho & Hk). apply in_ranks in Ho. unfold piece in Hk. rewrite ! in_app_iff in Hk. destruct Hk as [Hk|[Hk|Hk]]; [left | right | left]; exists o; tauto.
  - intros [(o & Ho & Hk)|(o & Ho & Hk)]; exists o; rewrite in_ranks; unfold piece; rewrite ! in_app_iff; tauto.
Qed.
Lemma fm_split (f g : nat -> list N) o : (o < n)%nat -> (forall x, (x < n)%nat -> x <> o -> f x = g x) -> exists X, Permutation (flat_map f (ranks n)) (f o ++ X) /\ Permutation (flat_map g (ranks n)) (g o ++ X) /\ (forall x k, (x < n)%nat -> x <> o -> In k (f x) -> In k X).
Proof.
  intros Ho Hfg. apply in_ranks in Ho. destruct (in_split _ _ Ho) as (a & b & E). assert (ND : NoDup (ranks n)) by (unfold ranks; apply seq_NoDup).
  exists (flat_map f a ++ flat_map f b). rewrite E, ! flat_map_app. cbn [flat_map]. rewrite E in ND. pose proof (NoDup_remove_2 _ _ _ ND) as Hn.
  assert (EQ : forall l, (forall x, In x l -> In x (ranks n) /\ x <> o) -> flat_map g l = flat_map f l).
  { induction l as [|x l IH]; intros Hl; [reflexivity|]. cbn [flat_map]. rewrite IH by (intros y Hy; apply Hl; right; exact Hy). destruct (Hl x (or_introl eq_refl)) as [H1 H2]. apply in_ranks in H1. rewrite (Hfg x H1 H2). reflexivity. }
  rewrite (EQ a), (EQ b).
  - split; [rewrite Permutation_app_swap_app; reflexivity|]. split; [rewrite Permutation_app_swap_app; reflexivity|]. intros x k Hx Hxo Hk. apply in_ranks in Hx. rewrite E in Hx. apply in_app_iff. apply in_app_iff in Hx. destruct Hx as [Hx|[Hx|Hx]]; [left; apply in_flat_map; exists x; tauto | congruence | right; apply in_flat_map; exists x; tauto].
  - intros x Hx. split; [rewrite E; apply in_or_app; right; right; exact Hx | intros ->; apply Hn; apply in_or_app; right; exact Hx].
  - intros x Hx. split; [rewrite E; apply in_or_app; left; exact Hx | intros ->; apply Hn; apply in_or_app; left; exact Hx].
Qed.
Lemma flat_map_same (f g : nat -> list N) : (forall x, (x < n)%nat -> f x = g x) -> flat_map f (ranks n) = flat_map g (ranks n).
Proof. intros H. rewrite ! flat_map_concat_map. f_equal. apply map_ext_in. intros x Hx. apply H, in_ranks, Hx. Qed.
(** pending keys are those of empty nodes that have been asked for *)
Lemma pend_empty W s r k : inv W s -> (r < n)%nat -> In k (pend s r) -> exists c, g_tab s r k = Some c /\ empty_node dim c = true /\ requested dim (r_word c) = true.
Proof.
  intros H Hr Hk. apply pend_in in Hk. pose proof (i_wf W s H) as HW. destruct Hk as [Hk|Hk].
  - destruct (i_early W s H r k Hr Hk) as (Hi & c & Hc & Hb & Hq). exists c. split; [exact Hc|]. split; [|exact Hq]. unfold empty_node. destruct (tk_cell _ _ _ _ _ (i_tok W s H r Hr) k c Hc) as (E & _). rewrite E, Hi. cbn [andb]. apply bare_empty, Hb.
  - destruct (i_late W s H r k Hr Hk) as (Hi & He & c & Hc & Hh & Hn & Hq). exists c. split; [exact Hc|]. split; [|exact Hq]. unfold empty_node. destruct (tk_cell _ _ _ _ _ (i_tok W s H r Hr) k c Hc) as (E & _). rewrite E, Hi. cbn [andb]. apply (half_empty dim W k _ Hh He Hn).
Qed.
Lemma upd_same {A} (f : nat -> A) r x : upd f r x r = x. Proof. unfold upd. rewrite Nat.eqb_refl. reflexivity. Qed.
Lemma upd_other {A} (f : nat -> A) r x r' : r' <> r -> upd f r x r' = f r'. Proof. intros H. unfold upd. replace (r' =? r)%nat with false by (symmetry; apply Nat.eqb_neq; exact H). reflexivity. Qed.
Lemma upd2_same {A} (f : nat -> nat -> A) p q x : upd2 f p q x p q = x. Proof. unfold upd2. rewrite upd_same, upd_same. reflexivity. Qed.
Lemma upd2_other {A} (f : nat -> nat -> A) p q x p' q' : p' <> p \/ q' <> q -> upd2 f p q x p' q' = f p' q'.
Proof. intros H. unfold upd2. destruct (Nat.eq_dec p' p) as [->|Hp]; [rewrite upd_same; destruct H as [H|H]; [congruence | apply upd_other, H] | rewrite upd_other by exact Hp; reflexivity]. Qed.
Lemma upd_cases {A} (f : nat -> A) r x r' : (r' = r /\ upd f r x r' = x) \/ (r' <> r /\ upd f r x r' = f r').
Proof. destruct (Nat.eq_dec r' r) as [->|H]; [left; split; [reflexivity | apply upd_same] | right; split; [exact H | apply upd_other, H]]. Qed.
Lemma upd2_cases {A} (f : nat -> nat -> A) p q x p' q' : (p' = p /\ q' = q /\ upd2 f p q x p' q' = x) \/ ((p' <> p \/ q' <> q) /\ upd2 f p q x p' q' = f p' q').
Proof. destruct (Nat.eq_dec p' p) as [->|Hp]; [destruct (Nat.eq_dec q' q) as [->|Hq]; [left; repeat split; apply upd2_same | right; split; [right; exact Hq | apply upd2_other; right; exact Hq]] | right; split; [left; exact Hp | apply upd2_other; left; exact Hp]]. Qed.
Lemma reqs_app a b : reqs (a ++ b) = reqs a ++ reqs b. Proof. apply flat_map_app. Qed.
Lemma nods_app a b : nods (a ++ b) = nods a ++ nods b. Proof. apply flat_map_app. Qed.
Lemma ndone_app a b : ndone (a ++ b) = (ndone a + ndone b)%nat. Proof. unfold ndone. rewrite filter_app, app_length. reflexivity. Qed.
Lemma headents_app a b : no_ents_head b -> headents (a ++ b) = headents a.
Proof. intros H. destruct a as [|x a]; [cbn; destruct b as [|y b]; [reflexivity|]; destruct y; try reflexivity; destruct H | destruct x; reflexivity]. Qed.

(** a table that only grows *)
Definition grows (W : world D) (T T' : rtable D) : Prop := forall k c, T k = Some c -> exists c', T' k = Some c' /\ (w_isn W k = true -> full dim W k (r_word c) -> full dim W k (r_word c')).
Lemma valid_grows W T r t : grows W (T r) t -> forall o k, valid W T o k -> valid W (upd T r t) o k.
Proof.
  intros HG o k [Ho (c & Hc & Hf)]. split; [exact Ho|]. unfold complete. destruct (upd_cases T r t o) as [[-> E]|[_ E]]; rewrite E; [|exists c; tauto].
  destruct (HG k c Hc) as (c' & Hc' & Hf'). exists c'. tauto.
Qed.
Lemma grows_refl W T : grows W T T. Proof. intros k c Hc. exists c. tauto. Qed.
End Inv.
