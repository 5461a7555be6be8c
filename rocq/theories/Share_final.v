(** The tables after the sharing compared with the table of one process. *)
From Coq Require Import Sorted.
From Verif Require Import Base Key_model Key_spec Key_proofs HCell_model HCell_props
  BuildTree_model BuildTree_spec BuildTree_lemmas BuildTree_inv BuildTree_turn BuildTree_proofs BuildTree_shape.
From Verif Require Import Share_model Share_lemmas Share_sums Share_table Share_steps Share_update Share_local Share_rounds.
Local Open Scope N_scope.

Lemma gdat_P {Ent Sum} dim (f : N -> list Ent -> list Sum -> Sum) p1 p2 l q : P p1 = P p2 -> gdat dim f p1 l q = gdat dim f p2 l q.
Proof. intros E. unfold gdat. rewrite E. reflexivity. Qed.

Set Default Proof Using "All".
Section Final.
Context {Ent Sum : Type} (dim : N) (Hdim : dim_ok dim) (f : N -> list Ent -> list Sum -> Sum).
Context (pss : list (list (N * Ent))).
Notation D := (max_depth dim).
Notation B := (2 ^ dim).
Notation up := (up dim).
Notation full := (full dim).
Notation has := (has dim).
Notation many := (many dim).
Notation internal := (internal dim).
Notation cell_ex := (cell_ex dim).
Notation P := (P pss).
Notation K := (K pss).
Notation ks := (ks pss).
Notation nr := (nr pss).
Notation solo := (solo dim pss).
Notation lone := (lone dim pss).
Notation gdat := (gdat dim f pss).
Notation stable := (stable Ent Sum).
Notation Xall := (Xall dim pss).
Notation top := (top dim pss).
Implicit Types (t : stable).
Hypothesis Hne : forall ps, In ps pss -> ps <> [].
Hypothesis Hsort : StronglySorted N.lt K.
Hypothesis Hfull : Forall full K.

Lemma child_div q d : d < B -> (q * B + d) / B = q.
Proof. intros Hd. rewrite N.div_add_l, N.div_small by lia. lia. Qed.
Lemma Xall_ok r : (r < nr)%nat -> okX dim pss (Xall r).
Proof. intros Hr. apply (XG_ok dim Hdim f pss Hne Hsort Hfull _ r Hr). Qed.
Lemma Xall_ex r l q : (r < nr)%nat -> Xall r l q -> cell_ex K K l q.
Proof.
  intros Hr HX. destruct (Xall_ok r Hr) as (X1 & _ & _). destruct (X1 l q HX) as [Hl HhK]. destruct HX as [_ [[He|(A1 & A2 & A3)]|(s & l0 & q0 & Hs & Ht & Ha & E)]].
  - left. exact He.
  - right. tauto.
  - destruct (top_key dim Hdim f pss Hne Hsort Hfull s l0 q0 Ht) as (k & Hk & HkK & E0 & Hl0 & Hso & Hp). subst q0. rewrite <- (up_up dim Hdim) in E. replace (l0 + (l - l0)) with l in E by lia. subst q.
    destruct (N.eq_dec l D) as [->|Hn]; [left; split; [reflexivity | apply (up_root dim Hdim), (K_full dim Hdim pss Hne Hsort Hfull k HkK)]|]. right. split; [lia|]. split; [exact HhK|]. right. rewrite <- (up_S dim Hdim).
    apply (many_up dim Hdim K (l0 + 1) (l + 1) (up (l0 + 1) k) k); [lia | reflexivity|]. apply (not_lone_many dim Hdim f pss Hne Hsort Hfull); [exists k; split; [exact HkK | reflexivity] | exact Hp].
Qed.
Lemma ex_has_K l q : (0 < nr)%nat -> l <= D -> cell_ex K K l q -> has K l q.
Proof.
  intros Hn Hl [[-> ->]|(_ & H & _)]; [|exact H]. destruct (some_key dim Hdim f pss Hne Hsort Hfull 0%nat Hn) as (k & Hk). apply (ks_in dim Hdim pss Hne Hsort Hfull) in Hk. exists k. split; [tauto|]. apply (up_root dim Hdim), (K_full dim Hdim pss Hne Hsort Hfull). tauto.
Qed.
Lemma Xall_own r l q : (r < nr)%nat -> l <= D -> cell_ex K K l q -> has (ks r) l q -> Xall r l q.
Proof. intros Hr Hl [A|(A1 & A2 & A3)] Hh; (split; [exact Hl|]); left; [left; exact A | right; tauto]. Qed.
Lemma complete_at r l q d : (r < nr)%nat -> 1 <= l <= D -> has (ks r) l q \/ ~ lone l q -> d < B -> (Xall r (l - 1) (q * B + d) <-> cell_ex K K (l - 1) (q * B + d)).
Proof.
  intros Hr Hl Hor Hd. split; [apply Xall_ex, Hr|]. intros [[A _]|(A1 & (k & HkK & E) & A3)]; [lia|]. destruct (K_in dim Hdim pss Hne Hsort Hfull k HkK) as (s & Hs & Hk). split; [lia|].
  rewrite child_div in A3 by exact Hd. replace (l - 1 + 1) with l in A3 by lia.
  assert (El : up l k = q). { replace l with (l - 1 + 1) by lia. rewrite (up_S dim Hdim), E. apply child_div, Hd. }
  destruct (Nat.eq_dec s r) as [->|Hn].
  - left. right. split; [exact A1|]. split; [exists k; tauto|]. rewrite child_div by exact Hd. replace (l - 1 + 1) with l by lia. exact A3.
  - right. assert (Hnl : ~ lone l q).
    { intros (s' & Hs'). destruct Hor as [Hh|Hnl]; [|apply Hnl; exists s'; exact Hs']. apply Hn. transitivity s'.
      - apply (solo_has dim Hdim pss Hne Hsort Hfull s' s l q Hs'). exists k. tauto.
      - symmetry. apply (solo_has dim Hdim pss Hne Hsort Hfull s' r l q Hs' Hh). }
    rewrite <- El in Hnl. destruct (top_exists dim Hdim f pss Hne Hsort Hfull s l k Hk ltac:(lia) Hnl) as (l0 & H1 & H2). exists s, l0, (up l0 k). split; [exact Hs|]. split; [exact H2|]. split; [lia|]. rewrite <- (up_up dim Hdim), <- E. f_equal. lia.
Qed.
Lemma bare_at r s l q d : (r < nr)%nat -> 1 <= l <= D -> solo s l q -> s <> r -> d < B -> ~ Xall r (l - 1) (q * B + d).
Proof.
  intros Hr Hl Hs Hn Hd [_ [[[A _]|(A1 & (k & Hk & E) & _)]|(s' & l0 & q0 & Hs' & Ht & Ha & E)]]; [lia | |].
  - apply Hn. symmetry. apply (solo_has dim Hdim pss Hne Hsort Hfull s r l q Hs). exists k. split; [exact Hk|]. replace l with (l - 1 + 1) by lia. rewrite (up_S dim Hdim), E. apply child_div, Hd.
  - destruct (top_key dim Hdim f pss Hne Hsort Hfull s' l0 q0 Ht) as (k & Hk & HkK & E0 & Hl0 & Hso & Hp). subst q0. rewrite <- (up_up dim Hdim) in E. replace (l0 + (l - 1 - l0)) with (l - 1) in E by lia.
    assert (El : q = up l k). { rewrite <- (child_div q d Hd), E, <- (up_S dim Hdim). f_equal. lia. }
    destruct (Xall_ok r Hr) as (X1 & X2 & X3). apply (above_not_lone dim Hdim f pss Hne Hsort Hfull (Xall r) 0%nat s' k l0 X1 X2 X3 Hk Hl0 Hso Hp l); [lia|]. exists s. rewrite <- El. exact Hs.
Qed.

(** the table of one process *)
Record one_ok (t : stable) : Prop := mkone
  { one_sound : forall q c, t q = Some c -> exists l, l <= D /\ cell_ex K K l q;
    one_cell : forall l q, l <= D -> cell_ex K K l q -> exists c, t q = Some c /\ wf_w dim (s_word c) /\ s_set c = Some (gdat l q) /\ s_owner c = 0%nat /\
      requested dim (s_word c) = false /\ nchildren_to_receive dim (s_word c) = 0 /\
      forall d, d < B -> (get_child (s_word c) d = true <-> 1 <= l /\ cell_ex K K (l - 1) (q * B + d)) }.
Lemma P_one : Share_lemmas.P [P] = P. Proof. unfold Share_lemmas.P. cbn [concat]. apply app_nil_r. Qed.
Lemma K_one : Share_lemmas.K [P] = K. Proof. unfold Share_lemmas.K. rewrite P_one. reflexivity. Qed.
Lemma single_ok : (0 < nr)%nat -> exists one, build_all dim f [P] = Some [one] /\ one_ok (k_tab one).
Proof.
  intros Hn. assert (HPne : P <> []).
  { destruct (some_key dim Hdim f pss Hne Hsort Hfull 0%nat Hn) as (k & Hk). apply (ks_in dim Hdim pss Hne Hsort Hfull) in Hk. destruct Hk as [_ Hk]. unfold Share_lemmas.K in Hk. intros E. rewrite E in Hk. destruct Hk. }
  assert (H1 : forall ps, In ps [P] -> ps <> []) by (intros ps [<-|[]]; exact HPne).
  assert (H2 : StronglySorted N.lt (Share_lemmas.K [P])) by (rewrite K_one; exact Hsort).
  assert (H3 : Forall full (Share_lemmas.K [P])) by (rewrite K_one; exact Hfull).
  assert (Hm0 : Share_lemmas.nr [P] = (2 ^ 0)%nat) by reflexivity.
  destruct (build_all_ok dim Hdim f [P] H1 H2 H3 0%nat Hm0) as (l & E & Hlen & Hst); [unfold Share_lemmas.nr; cbn; lia|].
  destruct l as [|one [|x l]]; [cbn in Hlen; discriminate | | cbn in Hlen; discriminate]. exists one. split; [exact E|].
  destruct (Hst 0%nat) as (st & Es & T); [unfold Share_lemmas.nr; cbn; lia|]. injection Es as <-.
  assert (EX : forall l q, l <= D -> (Share_rounds.Xall dim [P] 0%nat l q <-> cell_ex K K l q)).
  { intros l q Hl. unfold Share_rounds.Xall, XG. rewrite K_one. change (Share_lemmas.ks [P] 0) with K. split.
    - intros [_ [A|(s & l0 & q0 & Hs & Ht & _)]]; [exact A|]. exfalso. destruct Ht as (A1 & A2 & A3). apply A3. exists 0%nat.
      destruct (top_key dim Hdim f [P] H1 H2 H3 s l0 q0 (conj A1 (conj A2 A3))) as (k & Hk & HkK & E0 & _). split.
      + exists k. split; [change (In k K); rewrite <- K_one; exact HkK | rewrite E0; apply (up_S dim Hdim)].
      + intros k' Hk' _. change (In k' K). rewrite <- K_one. exact Hk'.
    - intros A. split; [exact Hl | left; exact A]. }
  constructor.
  - intros q c Hc. destruct (ti_sound _ _ _ _ _ _ _ T q c Hc) as (l & Hl & HX). exists l. split; [exact Hl | apply EX; assumption].
  - intros l q Hl He. destruct (ti_cell _ _ _ _ _ _ _ T l q Hl (proj2 (EX l q Hl) He)) as (c & Hc & [C1 C2 C3 C4 C5 C6]). exists c. split; [exact Hc|]. split; [exact C1|]. split; [|split; [|split; [exact C2 | split; [exact C3|]]]].
    + destruct (s_set c); [|exfalso; apply C5; exact I]. destruct C5 as [_ ->]. f_equal. apply gdat_P, P_one.
    + destruct C6 as (k & Hk & _). apply (ks_in dim Hdim [P] H1 H2 H3) in Hk. destruct Hk as [Hk _]. unfold Share_lemmas.nr in Hk. cbn in Hk. lia.
    + intros d Hd. rewrite (C4 d Hd). split; intros [A1 A2]; (split; [exact A1|]); apply EX; try lia; exact A2.
Qed.
End Final.
