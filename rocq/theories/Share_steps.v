(** One exchange: the branches found, loading them, completing the nodes above. *)
From Coq Require Import Sorted.
From Verif Require Import Base Key_model Key_spec Key_proofs HCell_model HCell_props
  BuildTree_model BuildTree_spec BuildTree_lemmas BuildTree_inv BuildTree_turn BuildTree_proofs BuildTree_shape.
From Verif Require Import Share_model Share_lemmas Share_sums Share_table.
From Verif Require Comms_lemmas.
Local Open Scope N_scope.

Set Default Proof Using "All".
Section Steps.
Context {Ent Sum : Type} (dim : N) (Hdim : dim_ok dim) (f : N -> list Ent -> list Sum -> Sum).
Context (pss : list (list (N * Ent))).
Notation D := (max_depth dim).
Notation B := (2 ^ dim).
Notation up := (up dim).
Notation full := (full dim).
Notation has := (has dim).
Notation many := (many dim).
Notation internal := (internal dim).
Notation cell_ex := (cell_ex dim).
Notation P := (P pss).
Notation K := (K pss).
Notation ks := (ks pss).
Notation nr := (nr pss).
Notation solo := (solo dim pss).
Notation lone := (lone dim pss).
Notation gdat := (gdat dim f pss).
Notation stable := (stable Ent Sum).
Notation scell := (scell Ent Sum).
Notation TI := (TI dim f pss).
Notation cok := (cok dim f pss).
Notation inK := (inK dim pss).
Implicit Types (t : stable) (c : scell) (X L F : N -> N -> Prop).
Hypothesis Hne : forall ps, In ps pss -> ps <> [].
Hypothesis Hsort : StronglySorted N.lt K.
Hypothesis Hfull : Forall full K.

(** a largest cell of one rank alone *)
Definition top (s : nat) (l q : N) : Prop := l < D /\ solo s l q /\ ~ lone (l + 1) (q / B).
Definition okX X : Prop := inK X /\ X D 1 /\ forall l q, X l q -> l < D -> X (l + 1) (q / B).
Definition above (l1 q1 : N) : N -> N -> Prop := fun l q => l1 <= l <= D /\ q = up (l - l1) q1.
Definition Xadd {A} (rank : nat) (its : list (item A)) X : N -> N -> Prop := fun l q =>
  X l q \/ exists it l1, In it its /\ i_owner it <> rank /\ top (i_owner it) l1 (i_key it) /\ above l1 (i_key it) l q.
Lemma top_key s l q : top s l q -> exists k, In k (ks s) /\ In k K /\ q = up l k /\ l < D /\ solo s l (up l k) /\ ~ lone (l + 1) (up (l + 1) k).
Proof.
  intros (H1 & H2 & H3). pose proof H2 as [(k & Hk & E) _]. exists k. split; [exact Hk|]. split; [apply (ks_in dim Hdim pss Hne Hsort Hfull) in Hk; tauto|]. subst q. rewrite <- (up_S dim Hdim) in H3. repeat split; try assumption; apply H2.
Qed.
Lemma top_unique s l q s' l' : top s l q -> top s' l' q -> s = s' /\ l = l'.
Proof.
  intros H H'. pose proof (top_key _ _ _ H) as (k & Hk & HkK & E & Hl & Hs & _). pose proof (top_key _ _ _ H') as (k' & Hk' & HkK' & E' & Hl' & Hs' & _).
  assert (l = l') by (apply (has_unique dim Hdim f pss Hne Hsort Hfull l l' q); [lia | lia | exists k; split; [assumption | congruence] | exists k'; split; [assumption | congruence]]). subst l'. split; [|reflexivity].
  symmetry. apply (solo_has dim Hdim pss Hne Hsort Hfull s s' l q); [apply H | apply H'].
Qed.
Lemma load_items_ok {A} (ld : stable -> item A -> option stable) (inj : A -> Ent + Sum) rank :
  (forall X, okX X -> forall t it l0, TI X X lone t -> top (i_owner it) l0 (i_key it) -> gdat l0 (i_key it) = inj (i_val it) ->
     exists t', ld t it = Some t' /\ TI (fun l q => X l q \/ above l0 (i_key it) l q) (fun l q => X l q \/ above l0 (i_key it) l q) lone t') ->
  forall its X t, okX X -> (forall it, In it its -> exists l0, top (i_owner it) l0 (i_key it) /\ gdat l0 (i_key it) = inj (i_val it)) -> TI X X lone t ->
  exists t', load_items ld rank t its = Some t' /\ TI (Xadd rank its X) (Xadd rank its X) lone t' /\ okX (Xadd rank its X).
Proof.
  intros Hld. induction its as [|it its IH]; intros X t HX Hits HT.
  - exists t. split; [reflexivity|]. assert (E : forall l q, Xadd rank (@nil (item A)) X l q <-> X l q) by (intros l q; unfold Xadd; split; [intros [H|(x & _ & [] & _)]; exact H | tauto]). split.
    + apply (TI_ext dim Hdim f pss Hne Hsort Hfull X _ X _ lone lone); [intros; symmetry; apply E | intros; symmetry; apply E | intros; reflexivity | exact HT].
    + destruct HX as (H1 & H2 & H3). split; [intros l q H; apply H1, E, H|]. split; [apply E, H2|]. intros l q H Hl. apply E, H3; [apply E, H | exact Hl].
  - cbn [load_items]. destruct (Nat.eqb_spec (i_owner it) rank) as [Eo|Eo].
    + destruct (IH X t HX) as (t' & E1 & E2 & E3); [intros it' H; apply Hits; right; exact H | exact HT|]. exists t'. split; [exact E1|].
      assert (E : forall l q, Xadd rank (it :: its) X l q <-> Xadd rank its X l q).
      { intros l q. unfold Xadd. split; (intros [H|(x & l1 & Hx & H)]; [left; exact H | right; exists x, l1]); [|split; [right; exact Hx | exact H]]. destruct Hx as [<-|Hx]; [destruct H as [H _]; contradiction | split; [exact Hx | exact H]]. }
      split.
      * apply (TI_ext dim Hdim f pss Hne Hsort Hfull (Xadd rank its X) _ (Xadd rank its X) _ lone lone); [intros; symmetry; apply E | intros; symmetry; apply E | intros; reflexivity | exact E2].
      * destruct E3 as (H1 & H2 & H3). split; [intros l q H; apply H1, E, H|]. split; [apply E, H2|]. intros l q H Hl. apply E, H3; [apply E, H | exact Hl].
    + destruct (Hits it (or_introl eq_refl)) as (l0 & Ht & Hg). destruct (Hld X HX t it l0 HT Ht Hg) as (t1 & E1 & T1). rewrite E1.
      assert (HX1 : okX (fun l q => X l q \/ above l0 (i_key it) l q)).
      { destruct HX as (H1 & H2 & H3). destruct (top_key _ _ _ Ht) as (k & Hk & HkK & Ek & Hl0 & _). split; [|split; [left; exact H2|]].
        - intros l q [H|[H ->]]; [apply H1, H|]. split; [lia|]. exists k. split; [exact HkK|]. rewrite Ek, <- (up_up dim Hdim). f_equal. lia.
        - intros l q [H|[H ->]] Hl; [left; apply H3; assumption|]. right. split; [lia|]. rewrite <- (up_S dim Hdim). f_equal. lia. }
      destruct (IH _ t1 HX1) as (t' & E2 & E3 & E4); [intros it' H; apply Hits; right; exact H | exact T1|]. exists t'. split; [exact E2|].
      assert (E : forall l q, Xadd rank (it :: its) X l q <-> Xadd rank its (fun l q => X l q \/ above l0 (i_key it) l q) l q).
      { intros l q. unfold Xadd. split.
        - intros [H|(x & l1 & [<-|Hx] & Ho & Hx1 & Hx2)]; [tauto | |].
          + left. right. destruct (top_unique _ _ _ _ _ Ht Hx1) as [_ <-]. exact Hx2.
          + right. exists x, l1. tauto.
        - intros [[H|H]|(x & l1 & Hx & H)]; [tauto | |].
          + right. exists it, l0. split; [left; reflexivity|]. tauto.
          + right. exists x, l1. split; [right; exact Hx | exact H]. }
      split.
      * apply (TI_ext dim Hdim f pss Hne Hsort Hfull (Xadd rank its (fun l q => X l q \/ above l0 (i_key it) l q)) _ (Xadd rank its (fun l q => X l q \/ above l0 (i_key it) l q)) _ lone lone); [intros; symmetry; apply E | intros; symmetry; apply E | intros; reflexivity | exact E3].
      * destruct E4 as (H1 & H2 & H3). split; [intros l q H; apply H1, E, H|]. split; [apply E, H2|]. intros l q H Hl. apply E, H3; [apply E, H | exact Hl].
Qed.
Lemma XJ_above X k l0 l q : l0 < D -> (XJ dim X k l0 D l q <-> X l q \/ above l0 (up l0 k) l q).
Proof.
  intros Hl0. unfold XJ, above. split; (intros [H|[H1 H2]]; [left; exact H | right; split; [exact H1|]]); subst q; rewrite <- (up_up dim Hdim); f_equal; lia.
Qed.
Lemma load_ents_ok rank its X t : okX X -> (forall it, In it its -> exists l0, top (i_owner it) l0 (i_key it) /\ gdat l0 (i_key it) = inl (i_val it)) -> TI X X lone t ->
  exists t', load_items (load_entity dim rank) rank t its = Some t' /\ TI (Xadd rank its X) (Xadd rank its X) lone t' /\ okX (Xadd rank its X).
Proof.
  apply (load_items_ok (load_entity dim rank) inl). clear X t its. intros X (H1 & H2 & H3) t it l0 HT Ht Hg. destruct (top_key _ _ _ Ht) as (k & Hk & HkK & Ek & Hl0 & Hs & Hp).
  destruct (load_entity_ok dim Hdim f pss Hne Hsort Hfull X rank (i_owner it) k l0 H1 H2 H3 Hk Hl0 Hs Hp t (i_val it)) as (t' & E1 & E2); [unfold q0; rewrite <- Ek; exact Hg | exact HT|].
  unfold q0 in E1. rewrite <- Ek in E1. exists t'. split; [destruct it; exact E1|]. rewrite Ek.
  apply (TI_ext dim Hdim f pss Hne Hsort Hfull (XJ dim X k l0 D) _ (XJ dim X k l0 D) _ lone lone); [intros; apply XJ_above, Hl0 | intros; apply XJ_above, Hl0 | intros; reflexivity | exact E2].
Qed.
Lemma load_nodes_ok rank its X t : okX X -> (forall it, In it its -> exists l0, top (i_owner it) l0 (i_key it) /\ gdat l0 (i_key it) = inr (i_val it)) -> TI X X lone t ->
  exists t', load_items (load_node dim rank) rank t its = Some t' /\ TI (Xadd rank its X) (Xadd rank its X) lone t' /\ okX (Xadd rank its X).
Proof.
  apply (load_items_ok (load_node dim rank) inr). clear X t its. intros X (H1 & H2 & H3) t it l0 HT Ht Hg. destruct (top_key _ _ _ Ht) as (k & Hk & HkK & Ek & Hl0 & Hs & Hp).
  destruct (load_node_ok dim Hdim f pss Hne Hsort Hfull X rank (i_owner it) k l0 H1 H2 H3 Hk Hl0 Hs Hp t (i_val it)) as (t' & E1 & E2); [unfold q0; rewrite <- Ek; exact Hg | exact HT|].
  unfold q0 in E1. rewrite <- Ek in E1. exists t'. split; [destruct it; exact E1|]. rewrite Ek.
  apply (TI_ext dim Hdim f pss Hne Hsort Hfull (XJ dim X k l0 D) _ (XJ dim X k l0 D) _ lone lone); [intros; apply XJ_above, Hl0 | intros; apply XJ_above, Hl0 | intros; reflexivity | exact E2].
Qed.

(** ** Finding the branches *)
Section Find.
Variables (X : N -> N -> Prop) (t : stable).
Hypothesis HX : okX X.
Section F.
Variable F : N -> N -> Prop.
Hypothesis HT : TI X X F t.
Lemma skids_ok l q c : l <= D -> X l q -> t q = Some c -> forall ds, incl ds (digits dim) ->
  skids dim t q (s_word c) ds = Some (map (fun d => q * B + d) (filter (get_child (s_word c)) ds)).
Proof.
  intros Hl Hx Hc. destruct (ti_cell _ _ _ _ _ _ _ HT l q Hl Hx) as (c' & Hc' & C). rewrite Hc in Hc'. injection Hc' as <-.
  induction ds as [|d ds IH]; intros Hi; [reflexivity|]. cbn [skids filter]. assert (Hd : d < B) by (apply (digits_in dim), Hi; left; reflexivity).
  destruct (get_child (s_word c) d) eqn:G; [|apply IH; intros x Hxx; apply Hi; right; exact Hxx].
  apply (ck_kid _ _ _ _ _ _ _ _ C d Hd) in G. destruct G as [H1 H2].
  assert (Hlv : at_level dim l q) by (apply (has_level dim Hdim f pss Hne Hsort Hfull l q Hl); destruct HX as (H & _); apply H in Hx; tauto).
  rewrite (push_child dim Hdim l q d) by (lia || assumption). destruct (ti_cell _ _ _ _ _ _ _ HT (l - 1) (q * B + d)) as (c2 & Hc2 & _); [lia | exact H2|]. rewrite Hc2.
  rewrite IH by (intros x Hxx; apply Hi; right; exact Hxx). reflexivity.
Qed.
Lemma kids_in l q c q' : l <= D -> X l q -> t q = Some c -> (In q' (map (fun d => q * B + d) (filter (get_child (s_word c)) (digits dim))) <-> 1 <= l /\ X (l - 1) q' /\ q' / B = q).
Proof.
  intros Hl Hx Hc. destruct (ti_cell _ _ _ _ _ _ _ HT l q Hl Hx) as (c' & Hc' & C). rewrite Hc in Hc'. injection Hc' as <-.
  rewrite in_map_iff. split.
  - intros (d & <- & Hd). apply filter_In in Hd. destruct Hd as [Hd1 Hd2]. apply (digits_in dim) in Hd1. apply (ck_kid _ _ _ _ _ _ _ _ C d Hd1) in Hd2. split; [apply Hd2|]. split; [apply Hd2|]. apply (child_parent dim), Hd1.
  - intros (H1 & H2 & H3). exists (q' mod B). assert (HB : 0 < B) by (pose proof (N.pow_nonzero 2 dim); lia).
    assert (E : q * B + q' mod B = q') by (rewrite <- H3, N.mul_comm; symmetry; apply N.div_mod; lia). split; [exact E|]. apply filter_In. assert (Hm : q' mod B < B) by (apply N.mod_lt; lia).
    split; [apply (digits_in dim), Hm|]. apply (ck_kid _ _ _ _ _ _ _ _ C _ Hm). rewrite E. tauto.
Qed.
End F.
Hypothesis HT : TI X X lone t.
Definition tags (r : list (item Sum) * list (item Ent)) : list (nat * N * (Ent + Sum)) :=
  map (fun i => (i_owner i, i_key i, inr (i_val i))) (fst r) ++ map (fun i => (i_owner i, i_key i, inl (i_val i))) (snd r).
Lemma tags_app (a b : list (item Sum)) (u v : list (item Ent)) x : In x (tags (a ++ b, u ++ v)) <-> In x (tags (a, u)) \/ In x (tags (b, v)).
Proof. unfold tags. cbn [fst snd]. rewrite !map_app, !in_app_iff. tauto. Qed.
Lemma tags_cons1 (i : item Sum) (a : list (item Sum)) (u : list (item Ent)) x : In x (tags (i :: a, u)) <-> x = (i_owner i, i_key i, inr (i_val i)) \/ In x (tags (a, u)).
Proof. unfold tags. cbn [fst snd map app]. cbn [In]. split; (intros [H|H]; [left; congruence | right; exact H]). Qed.
Lemma tags_cons2 (i : item Ent) (a : list (item Sum)) (u : list (item Ent)) x : In x (tags (a, i :: u)) <-> x = (i_owner i, i_key i, inl (i_val i)) \/ In x (tags (a, u)).
Proof. unfold tags. cbn [fst snd map app]. rewrite !in_app_iff. cbn [In]. split; [intros [H|[H|H]]; [tauto | left; congruence | tauto] | intros [H|[H|H]]; [subst; tauto | tauto | tauto]]. Qed.
Definition own_of (q : N) : nat := match t q with Some c => s_owner c | None => 0%nat end.
Lemma visit_ok l0 : l0 <= D -> forall queue, (forall q, In q queue -> X l0 q) -> exists nq ns es, visit dim t queue = Some (nq, ns, es) /\
  (forall q, In q nq <-> 1 <= l0 /\ X (l0 - 1) q /\ In (q / B) queue /\ ~ lone l0 (q / B)) /\
  (forall o q x, In (o, q, x) (tags (ns, es)) <-> In q queue /\ lone l0 q /\ x = gdat l0 q /\ o = own_of q).
Proof.
  intros Hl0. induction queue as [|q queue IH]; intros Hq.
  - exists [], [], []. split; [reflexivity|]. split; [intros q; split; [intros [] | intros (_ & _ & [] & _)] | intros o q x; split; [intros [] | intros ([] & _)]].
  - destruct IH as (nq & ns & es & E & I1 & I2); [intros x Hx; apply Hq; right; exact Hx|].
    assert (Hxq : X l0 q) by (apply Hq; left; reflexivity). destruct (ti_cell _ _ _ _ _ _ _ HT l0 q Hl0 Hxq) as (c & Hc & C). cbn [visit]. rewrite Hc. pose proof (ck_set _ _ _ _ _ _ _ _ C) as S.
    assert (Eo : own_of q = s_owner c) by (unfold own_of; rewrite Hc; reflexivity).
    destruct (s_set c) as [[e|v]|] eqn:Es.
    + rewrite E. destruct S as [S1 S2]. exists nq, ns, (mki (s_owner c) q e :: es). split; [reflexivity|]. split.
      * intros q'. rewrite I1. cbn [In]. split; [tauto|]. intros (H1 & H2 & [H3|H3] & H4); [subst; contradiction | tauto].
      * intros o q' x. rewrite tags_cons2, I2. cbn [i_owner i_key i_val In]. split; [intros [H|H]; [injection H as -> -> ->; rewrite Eo; tauto | tauto] | intros ([H|H] & H1 & H2 & H3); [left; subst; congruence | right; tauto]].
    + rewrite E. destruct S as [S1 S2]. exists nq, (mki (s_owner c) q v :: ns), es. split; [reflexivity|]. split.
      * intros q'. rewrite I1. cbn [In]. split; [tauto|]. intros (H1 & H2 & [H3|H3] & H4); [subst; contradiction | tauto].
      * intros o q' x. rewrite tags_cons1, I2. cbn [i_owner i_key i_val In]. split; [intros [H|H]; [injection H as -> -> ->; rewrite Eo; tauto | tauto] | intros ([H|H] & H1 & H2 & H3); [left; subst; congruence | right; tauto]].
    + rewrite (skids_ok lone HT l0 q c Hl0 Hxq Hc (digits dim)) by apply incl_refl. rewrite E. eexists _, ns, es. split; [reflexivity|]. split.
      * intros q'. rewrite in_app_iff, I1, (kids_in lone HT l0 q c q' Hl0 Hxq Hc). cbn [In]. split; [intros [(H1 & H2 & H3)|(H1 & H2 & H3 & H4)]; [subst q; tauto | tauto] | intros (H1 & H2 & [H3|H3] & H4); [left; split; [exact H1 | split; [exact H2 | congruence]] | right; tauto]].
      * intros o q' x. rewrite I2. cbn [In]. split; [tauto|]. intros ([H|H] & H1 & H2); [subst; contradiction | tauto].
Qed.
Lemma find_ok : forall m fuel queue, (m < fuel)%nat -> N.of_nat m <= D -> (forall q, In q queue -> X (N.of_nat m) q) -> exists r, find_nodes dim fuel t queue = Some r /\
  forall o q x, In (o, q, x) (tags r) <-> exists l, l <= N.of_nat m /\ X l q /\ In (up (N.of_nat m - l) q) queue /\ lone l q /\ (forall a, a <= N.of_nat m -> l < a -> ~ lone a (up (a - l) q)) /\ x = gdat l q /\ o = own_of q.
Proof.
  induction m as [|m IH]; intros fuel queue Hf Hm Hq.
  - destruct queue as [|q queue].
    { exists ([], []). destruct fuel; (split; [reflexivity|]); intros o q x; (split; [intros [] | intros (l & _ & _ & [] & _)]). }
    destruct fuel as [|fuel]; [lia|]. cbn [find_nodes]. destruct (visit_ok 0 ltac:(lia) (q :: queue) Hq) as (nq & ns & es & E & I1 & I2). rewrite E.
    assert (nq = []) by (destruct nq as [|y nq]; [reflexivity|]; destruct (proj1 (I1 y) (or_introl eq_refl)); lia). subst nq.
    exists (ns ++ [], es ++ []). split; [destruct fuel; reflexivity|]. intros o q' x. rewrite !app_nil_r, I2. split.
    + intros (H1 & H2 & H3 & H4). exists 0. split; [lia|]. split; [apply Hq, H1|]. replace (N.of_nat 0 - 0) with 0 by lia. rewrite up_0. repeat split; try assumption. intros; lia.
    + intros (l & Hl & H1 & H2 & H3 & H4 & H5 & H6). assert (l = 0) by lia. subst l. change (N.of_nat 0 - 0) with 0 in H2. rewrite up_0 in H2. tauto.
  - destruct queue as [|q queue].
    { exists ([], []). destruct fuel; (split; [reflexivity|]); intros o q x; (split; [intros [] | intros (l & _ & _ & [] & _)]). }
    destruct fuel as [|fuel]; [lia|]. cbn [find_nodes]. set (l0 := N.of_nat (S m)) in *. destruct (visit_ok l0 Hm (q :: queue) Hq) as (nq & ns & es & E & I1 & I2). rewrite E.
    assert (El : l0 - 1 = N.of_nat m) by lia.
    destruct (IH fuel nq) as ([ns2 es2] & E2 & I3); [lia | lia | intros y Hy; apply I1 in Hy; rewrite <- El; tauto|]. rewrite E2. cbn [fst snd]. exists (ns ++ ns2, es ++ es2). split; [reflexivity|].
    intros o q' x. rewrite tags_app, I2, I3. rewrite <- El. split.
    + intros [(H1 & H2 & H3 & H4)|(l & Hl & H1 & H2 & H3 & H4 & H5 & H6)].
      * exists l0. split; [lia|]. split; [apply Hq, H1|]. rewrite N.sub_diag, up_0. repeat split; try assumption. intros; lia.
      * apply I1 in H2. destruct H2 as (G1 & G2 & G3 & G4). rewrite <- (up_S dim Hdim) in G3, G4. replace (l0 - 1 - l + 1) with (l0 - l) in * by lia. exists l. repeat split; try assumption; [lia|].
        intros a Ha Hla. destruct (N.eq_dec a l0) as [->|]; [exact G4 | apply H4; lia].
    + intros (l & Hl & H1 & H2 & H3 & H4 & H5 & H6). destruct (N.eq_dec l l0) as [->|Hn].
      * left. rewrite N.sub_diag, up_0 in H2. tauto.
      * right. exists l. split; [lia|]. split; [exact H1|]. split; [|repeat split; try assumption; intros a Ha Hla; apply H4; lia].
        apply I1. rewrite <- (up_S dim Hdim). replace (l0 - 1 - l + 1) with (l0 - l) by lia. split; [lia|]. split; [|split; [exact H2 | apply H4; lia]].
        destruct HX as (_ & _ & H7). assert (G : forall b, l + b <= l0 - 1 -> X (l + b) (up b q')).
        { intros b. induction b as [|b IHb] using N.peano_ind; intros Hb; [rewrite N.add_0_r, up_0; exact H1|]. replace (l + N.succ b) with (l + b + 1) by lia. replace (N.succ b) with (b + 1) by lia. rewrite (up_S dim Hdim). apply H7; [apply IHb; lia | lia]. }
        replace (l0 - 1) with (l + (l0 - 1 - l)) at 1 by lia. apply G. lia.
Qed.
Lemma find_root : (2 <= nr)%nat -> exists r, find_nodes dim 66 t [key_root] = Some r /\ forall o q x, In (o, q, x) (tags r) <-> exists l, X l q /\ top o l q /\ x = gdat l q.
Proof.
  intros Hn. destruct HX as (H1 & H2 & H3). destruct (find_ok (N.to_nat D) 66 [key_root]) as (r & E & I).
  - pose proof (D_le dim Hdim). lia.
  - lia.
  - intros q [<-|[]]. rewrite N2Nat.id. exact H2.
  - exists r. split; [exact E|]. intros o q x. rewrite I, N2Nat.id.
    assert (Hroot : ~ lone D 1).
    { intros (s & Hs). assert (A : forall r, (r < nr)%nat -> r = s).
      { intros r0 Hr0. destruct (ks r0) as [|k0 l] eqn:Ek; [destruct (ks_ne dim Hdim pss Hne Hsort Hfull r0 Hr0 Ek)|]. assert (Hk0 : In k0 (ks r0)) by (rewrite Ek; left; reflexivity).
        apply (solo_has dim Hdim pss Hne Hsort Hfull s r0 D 1 Hs). exists k0. split; [exact Hk0|]. apply (up_root dim Hdim). apply (ks_full dim Hdim pss Hne Hsort Hfull r0 k0 Hk0). }
      pose proof (A 0%nat ltac:(lia)). pose proof (A 1%nat ltac:(lia)). lia. }
    split.
    + intros (l & Hl & G1 & G2 & (s & G3) & G4 & G5 & G6). exists l. split; [exact G1|]. split; [|exact G5].
      destruct (ti_cell _ _ _ _ _ _ _ HT l q Hl G1) as (c & Hc & C). assert (o = s_owner c) by (rewrite G6; unfold own_of; rewrite Hc; reflexivity).
      assert (o = s) by (apply (solo_has dim Hdim pss Hne Hsort Hfull s o l q G3); rewrite H; apply (ck_own _ _ _ _ _ _ _ _ C)). subst s.
      assert (l < D).
      { destruct (N.eq_dec l D) as [->|]; [|lia]. exfalso. rewrite N.sub_diag, up_0 in G2. destruct G2 as [<-|[]]. apply Hroot. exists o. exact G3. }
      split; [assumption|]. split; [exact G3|]. specialize (G4 (l + 1) ltac:(lia) ltac:(lia)). replace (l + 1 - l) with (0 + 1) in G4 by lia. rewrite (up_S dim Hdim), up_0 in G4. exact G4.
    + intros (l & G1 & Ht & G3). exists l. pose proof (H1 _ _ G1) as [Gl Gh]. destruct (top_key _ _ _ Ht) as (k & Hk & HkK & Ek & Hl & Hs & Hp).
      split; [exact Gl|]. split; [exact G1|]. split.
      { left. rewrite Ek, <- (up_up dim Hdim). replace (l + (D - l)) with D by lia. symmetry. apply (up_root dim Hdim). apply (K_full dim Hdim pss Hne Hsort Hfull k HkK). }
      split; [exists o; rewrite Ek; exact Hs|]. split.
      { intros a Ha Hla. rewrite Ek, <- (up_up dim Hdim). replace (l + (a - l)) with a by lia. apply (above_not_lone dim Hdim f pss Hne Hsort Hfull X 0%nat o k l H1 H2 H3 Hk Hl Hs Hp a Hla). }
      split; [exact G3|]. destruct (ti_cell _ _ _ _ _ _ _ HT l q Gl G1) as (c & Hc & C). unfold own_of. rewrite Hc. symmetry. apply (solo_has dim Hdim pss Hne Hsort Hfull o (s_owner c) l q); [rewrite Ek; exact Hs | apply (ck_own _ _ _ _ _ _ _ _ C)].
Qed.
End Find.
End Steps.
