(** The tables after the sharing as the start of a traversal (Comms_model). *)
From Coq Require Import Sorted.
From Verif Require Import Base Key_model Key_spec Key_proofs HCell_model HCell_props
  BuildTree_model BuildTree_spec BuildTree_lemmas BuildTree_inv BuildTree_turn BuildTree_proofs BuildTree_shape.
From Verif Require Import Share_model Share_lemmas Share_sums Share_table Share_steps Share_update Share_local Share_rounds Share_final.
From Verif Require Comms_model Comms_lemmas Comms_inv Comms_steps.
Local Open Scope N_scope.
Import Comms_model.
Notation world := Comms_lemmas.world.
Notation mkw := Comms_lemmas.mkw.
Notation w_kid := Comms_lemmas.w_kid.
Notation w_isn := Comms_lemmas.w_isn.
Notation w_dat := Comms_lemmas.w_dat.
Notation ck := Comms_lemmas.ck.
Notation start_ok := Comms_inv.start_ok.
Notation inv := Comms_inv.inv.

(** a cell as the traversal sees it *)
Definition isn {Ent Sum} (x : option (Ent + Sum)) : bool := match x with Some (inr _) => true | _ => false end.
Definition to_rcell {Ent Sum} (c : scell Ent Sum) : rcell (option (Ent + Sum)) := mkr (s_word c) (isn (s_set c)) (s_owner c) (s_set c).
Definition to_rtab {Ent Sum} (t : stable Ent Sum) : rtable (option (Ent + Sum)) := fun k => option_map to_rcell (t k).
Definition tree_of {Ent Sum} (one : stable Ent Sum) : world (option (Ent + Sum)) :=
  mkw (fun k d => match one k with Some c => get_child (s_word c) d | None => false end)
      (fun k => match one k with Some c => isn (s_set c) | None => false end)
      (fun k => match one k with Some c => s_set c | None => None end).

Set Default Proof Using "All".
Section World.
Context {Ent Sum : Type} (dim : N) (Hdim : dim_ok dim) (f : N -> list Ent -> list Sum -> Sum).
Context (pss : list (list (N * Ent))).
Notation D := (max_depth dim).
Notation B := (2 ^ dim).
Notation up := (up dim).
Notation full := (full dim).
Notation has := (has dim).
Notation many := (many dim).
Notation internal := (internal dim).
Notation cell_ex := (cell_ex dim).
Notation P := (P pss).
Notation K := (K pss).
Notation ks := (ks pss).
Notation nr := (nr pss).
Notation solo := (solo dim pss).
Notation lone := (lone dim pss).
Notation gdat := (gdat dim f pss).
Notation stable := (stable Ent Sum).
Notation Xall := (Xall dim pss).
Notation top := (top dim pss).
Notation TI := (TI dim f pss).
Implicit Types (t : stable).
Hypothesis Hne : forall ps, In ps pss -> ps <> [].
Hypothesis Hsort : StronglySorted N.lt K.
Hypothesis Hfull : Forall full K.
Hypothesis Hn0 : (0 < nr)%nat.
Variables (one : stable) (tabs : nat -> stable).
Hypothesis H1 : one_ok dim f pss one.
Hypothesis HT : forall r, (r < nr)%nat -> TI (Xall r) (Xall r) (fun _ _ => True) (tabs r).
Notation W := (tree_of one).

Lemma w_at l q : l <= D -> cell_ex K K l q -> (forall d, d < B -> (w_kid W q d = true <-> 1 <= l /\ cell_ex K K (l - 1) (q * B + d))) /\ (w_isn W q = true <-> internal K l q) /\ w_dat W q = Some (gdat l q).
Proof using dim Hdim f pss Hne Hsort Hfull Hn0 one H1. clear HT tabs.
  intros Hl He. destruct (one_cell _ _ _ _ H1 l q Hl He) as (c & Hc & Hw & Hs & _ & _ & _ & Hk). cbn [w_kid w_isn w_dat tree_of Comms_lemmas.w_kid Comms_lemmas.w_isn Comms_lemmas.w_dat]. rewrite Hc. split; [exact Hk|]. split; [|exact Hs].
  rewrite Hs. rewrite (gdat_kind dim Hdim f pss Hne Hsort Hfull l q Hl (ex_has_K dim Hdim f pss Hne Hsort Hfull l q Hn0 Hl He)). unfold isn. destruct (gdat l q) as [e|x]; split; try discriminate; [intros (x & E); discriminate E | intros _; exists x; reflexivity | reflexivity].
Qed.
Lemma rank_cell r q c : (r < nr)%nat -> tabs r q = Some c -> exists l, l <= D /\ Xall r l q /\ cell_ex K K l q /\ cok dim f pss (Xall r) (fun _ _ => True) l q c.
Proof.
  intros Hr Hc. destruct (ti_sound _ _ _ _ _ _ _ (HT r Hr) q c Hc) as (l & Hl & HX). exists l. split; [exact Hl|]. split; [exact HX|]. split; [apply (Xall_ex dim Hdim f pss Hne Hsort Hfull r l q Hr HX)|].
  destruct (ti_cell _ _ _ _ _ _ _ (HT r Hr) l q Hl HX) as (c' & Hc' & Hk). rewrite Hc in Hc'. injection Hc' as <-. exact Hk.
Qed.
Lemma rank_has r l q : (r < nr)%nat -> l <= D -> Xall r l q -> exists c, tabs r q = Some c.
Proof. intros Hr Hl HX. destruct (ti_cell _ _ _ _ _ _ _ (HT r Hr) l q Hl HX) as (c & Hc & _). exists c. exact Hc. Qed.
Lemma int_pos l q : l <= D -> internal K l q -> 1 <= l.
Proof using dim Hdim f pss Hne Hsort Hfull Hn0 one H1. clear HT tabs.
  intros Hl [->|(k1 & k2 & A1 & A2 & A3 & A4 & A5)]; [destruct Hdim as [->|[->| ->]]; vm_compute; discriminate|]. destruct (N.eq_dec l 0) as [->|]; [|lia]. exfalso. apply A3. rewrite up_0 in A4, A5. congruence.
Qed.
Lemma set_ok r q c : (r < nr)%nat -> tabs r q = Some c -> s_set c = w_dat W q /\ isn (s_set c) = w_isn W q /\ s_set c <> None.
Proof.
  intros Hr Hc. destruct (rank_cell r q c Hr Hc) as (l & Hl & _ & He & [_ _ _ _ C5 _]). destruct (w_at l q Hl He) as (_ & _ & E). rewrite E. destruct (s_set c) as [x|] eqn:Es; [|exfalso; apply C5; exact I]. destruct C5 as [_ ->].
  split; [reflexivity|]. split; [|discriminate]. destruct (one_cell _ _ _ _ H1 l q Hl He) as (c1 & Hc1 & _ & Hs1 & _). unfold Comms_lemmas.w_isn, tree_of. rewrite Hc1, Hs1. reflexivity.
Qed.
Definition cfull (q : N) (w : N) : Prop := forall d, d < B -> get_child w d = w_kid W q d.
Definition cbare (w : N) : Prop := forall d, d < B -> get_child w d = false.
Lemma beq a b : (a = true <-> b = true) -> a = b.
Proof. clear. destruct a, b; intros [X Y]; try reflexivity; [symmetry; apply X; reflexivity | apply Y; reflexivity]. Qed.
Lemma full_if r l q c : (r < nr)%nat -> l <= D -> Xall r l q -> tabs r q = Some c -> has (ks r) l q \/ ~ lone l q -> cfull q (s_word c).
Proof.
  intros Hr Hl HX Hc Hor d Hd. destruct (ti_cell _ _ _ _ _ _ _ (HT r Hr) l q Hl HX) as (c' & Hc' & [_ _ _ C4 _ _]). rewrite Hc in Hc'. injection Hc' as <-.
  pose proof (Xall_ex dim Hdim f pss Hne Hsort Hfull r l q Hr HX) as He. destruct (w_at l q Hl He) as (Ek & _ & _). apply beq. rewrite (C4 d Hd), (Ek d Hd). split; intros [A1 A2]; (split; [exact A1|]); apply (complete_at dim Hdim f pss Hne Hsort Hfull r l q d Hr ltac:(lia) Hor Hd); exact A2.
Qed.
Lemma bare_if r s l q c : (r < nr)%nat -> l <= D -> Xall r l q -> tabs r q = Some c -> solo s l q -> s <> r -> cbare (s_word c).
Proof.
  intros Hr Hl HX Hc Hs Hn d Hd. destruct (ti_cell _ _ _ _ _ _ _ (HT r Hr) l q Hl HX) as (c' & Hc' & [_ _ _ C4 _ _]). rewrite Hc in Hc'. injection Hc' as <-.
  destruct (get_child (s_word c) d) eqn:E; [|reflexivity]. exfalso. apply (C4 d Hd) in E. destruct E as [A1 A2]. apply (bare_at dim Hdim f pss Hne Hsort Hfull r s l q d Hr ltac:(lia) Hs Hn Hd A2).
Qed.
Lemma owner_ok r q c : (r < nr)%nat -> tabs r q = Some c -> (s_owner c < nr)%nat /\ exists co, tabs (s_owner c) q = Some co /\ cfull q (s_word co).
Proof.
  intros Hr Hc. destruct (rank_cell r q c Hr Hc) as (l & Hl & HX & He & [_ _ _ _ _ C6]). assert (Ho : (s_owner c < nr)%nat) by (destruct C6 as (k & Hk & _); apply (ks_in dim Hdim pss Hne Hsort Hfull) in Hk; tauto).
  pose proof (Xall_own dim Hdim f pss Hne Hsort Hfull (s_owner c) l q Ho Hl He C6) as HXo. destruct (rank_has (s_owner c) l q Ho Hl HXo) as (co & Hco). split; [exact Ho|]. exists co. split; [exact Hco|]. apply (full_if (s_owner c) l q co Ho Hl HXo Hco). left. exact C6.
Qed.
Lemma shape_ok r q c : (r < nr)%nat -> tabs r q = Some c -> cfull q (s_word c) \/ (cbare (s_word c) /\ s_owner c <> r).
Proof.
  intros Hr Hc. destruct (rank_cell r q c Hr Hc) as (l & Hl & HX & He & [_ _ _ _ _ C6]). destruct (lone_dec dim Hdim pss Hne Hsort Hfull l q) as [(s & Hs)|Hn].
  - destruct (Nat.eq_dec s r) as [->|Hsr]; [left; apply (full_if r l q c Hr Hl HX Hc); left; apply Hs|]. right. split; [apply (bare_if r s l q c Hr Hl HX Hc Hs Hsr)|]. intros E. rewrite E in C6. apply Hsr. symmetry. apply (solo_has dim Hdim pss Hne Hsort Hfull s r l q Hs C6).
  - left. apply (full_if r l q c Hr Hl HX Hc). right. exact Hn.
Qed.
Lemma kids_there r q c d : (r < nr)%nat -> tabs r q = Some c -> d < B -> get_child (s_word c) d = true -> w_kid W q d = true /\ exists c', tabs r (q * B + d) = Some c'.
Proof.
  intros Hr Hc Hd Hg. destruct (rank_cell r q c Hr Hc) as (l & Hl & HX & He & [_ _ _ C4 _ _]). apply (C4 d Hd) in Hg. destruct Hg as [A1 A2]. destruct (w_at l q Hl He) as (Ek & _ & _). split.
  - apply (Ek d Hd). split; [exact A1 | apply (Xall_ex dim Hdim f pss Hne Hsort Hfull r _ _ Hr A2)].
  - apply (rank_has r (l - 1)); [exact Hr | lia | exact A2].
Qed.
Lemma w_wf : Comms_lemmas.wf_world dim W.
Proof using dim Hdim f pss Hne Hsort Hfull Hn0 one H1. clear HT tabs.
  split; [apply (dim_ge1 dim Hdim f pss Hne Hsort Hfull)|]. intros q Hi. assert (Hc : exists c, one q = Some c) by (unfold Comms_lemmas.w_isn, tree_of in Hi; destruct (one q) as [c|]; [exists c; reflexivity | discriminate]). destruct Hc as (c & Hc).
  destruct (one_sound _ _ _ _ H1 q c Hc) as (l & Hl & He). destruct (w_at l q Hl He) as (Ek & Ei & _). apply Ei in Hi. pose proof (int_pos l q Hl Hi) as Hl1.
  assert (HhK : has K l q) by (apply (ex_has_K dim Hdim f pss Hne Hsort Hfull l q Hn0 Hl He)).
  destruct HhK as (k & Hk & Ek2). assert (Hhc : has K (l - 1) (up (l - 1) k)) by (exists k; tauto).
  assert (Eq : up (l - 1) k / B = q) by (rewrite <- (up_S dim Hdim), <- Ek2; f_equal; lia).
  pose proof (N.div_mod (up (l - 1) k) B ltac:(pose proof (N.pow_nonzero 2 dim); lia)) as DM. rewrite Eq in DM. set (d := up (l - 1) k mod B) in *. assert (Hd : d < B) by (apply N.mod_lt; pose proof (N.pow_nonzero 2 dim); lia).
  split.
  - destruct (level_word dim Hdim f pss Hne Hsort Hfull (l - 1) (up (l - 1) k) ltac:(lia)) as (L1 & L2 & _); [apply (has_level dim Hdim f pss Hne Hsort Hfull); [lia | exact Hhc]|]. specialize (L2 ltac:(lia)).
    split; [|rewrite N.mul_comm; lia]. assert (1 <= up (l - 1) k / B); [|lia]. apply N.div_le_lower_bound; [pose proof (N.pow_nonzero 2 dim); lia | lia].
  - assert (Hin : In d (Comms_lemmas.kids dim W q)); [|intros E; rewrite E in Hin; destruct Hin]. apply Comms_lemmas.kids_in. split; [exact Hd|]. apply (Ek d Hd). split; [exact Hl1|]. rewrite N.mul_comm, <- DM. right. split; [lia|]. split; [exact Hhc|]. rewrite Eq. replace (l - 1 + 1) with l by lia. exact Hi.
Qed.
Lemma start_tables : start_ok dim nr W (fun r => to_rtab (tabs r)).
Proof.
  assert (SH : forall r q rc, to_rtab (tabs r) q = Some rc -> exists c, tabs r q = Some c /\ rc = to_rcell c) by (intros r q rc; unfold to_rtab; destruct (tabs r q) as [c|]; [|discriminate]; intros E; injection E as <-; exists c; split; reflexivity).
  assert (HS : forall r q c, tabs r q = Some c -> to_rtab (tabs r) q = Some (to_rcell c)) by (intros r q c E; unfold to_rtab; rewrite E; reflexivity).
  split; [apply w_wf|]. intros r Hr. split.
  - constructor.
    + intros q rc Hrc. destruct (SH r q rc Hrc) as (c & Hc & ->). destruct (set_ok r q c Hr Hc) as (S1 & S2 & _). destruct (owner_ok r q c Hr Hc) as (O1 & co & Hco & Of). destruct (rank_cell r q c Hr Hc) as (l & _ & _ & _ & [C1 _ _ _ _ _]). cbn [to_rcell r_node r_data r_word r_owner].
      split; [exact S2|]. split; [exact S1|]. split; [exact C1|]. split; [exact O1|]. split; [exact O1|]. exists (to_rcell co). split; [apply HS, Hco | intros _; exact Of].
    + intros q rc d Hrc _ Hd Hg. destruct (SH r q rc Hrc) as (c & Hc & ->). destruct (kids_there r q c d Hr Hc Hd Hg) as (A1 & c' & A2). split; [exact A1|]. exists (to_rcell c'). apply HS, A2.
    + intros q rc Hrc Hnr. destruct (SH r q rc Hrc) as (c & Hc & ->). destruct (rank_cell r q c Hr Hc) as (l & Hl & HX & He & _). destruct (Xall_ok dim Hdim f pss Hne Hsort Hfull r Hr) as (_ & _ & X3).
      assert (Hlt : l < D). { destruct He as [[_ ->]|(A & _)]; [exfalso; apply Hnr; reflexivity | exact A]. }
      pose proof (X3 l q HX Hlt) as HXp. destruct (ti_cell _ _ _ _ _ _ _ (HT r Hr) (l + 1) (q / B) ltac:(lia) HXp) as (cp & Hcp & [_ _ _ C4 _ _]).
      pose proof (N.div_mod q B ltac:(pose proof (N.pow_nonzero 2 dim); lia)) as DM. set (d := q mod B) in *. assert (Hd : d < B) by (apply N.mod_lt; pose proof (N.pow_nonzero 2 dim); lia). rewrite N.mul_comm in DM.
      assert (Hg : get_child (s_word cp) d = true) by (apply (C4 d Hd); split; [lia|]; replace (l + 1 - 1) with l by lia; rewrite <- DM; exact HX).
      exists (q / B), (to_rcell cp), d. split; [exact DM|]. split; [exact Hd|]. split; [|split; [|split; [apply HS, Hcp | exact Hg]]].
      * apply (w_at (l + 1) (q / B)); [lia | apply (Xall_ex dim Hdim f pss Hne Hsort Hfull r _ _ Hr HXp)|]. destruct He as [[-> _]|(_ & _ & A)]; [lia | exact A].
      * apply (kids_there r (q / B) cp d Hr Hcp Hd Hg).
    + destruct (Xall_ok dim Hdim f pss Hne Hsort Hfull r Hr) as (_ & X2 & _). destruct (rank_has r D 1 Hr (N.le_refl _) X2) as (c & Hc). exists (to_rcell c). split; [apply HS, Hc|]. split.
      * apply (w_at D 1 (N.le_refl _)); [left; split; reflexivity | left; reflexivity].
      * apply (full_if r D 1 c Hr (N.le_refl _) X2 Hc). left. destruct (some_key dim Hdim f pss Hne Hsort Hfull r Hr) as (k & Hk). exists k. split; [exact Hk|]. apply (up_root dim Hdim), (ks_full dim Hdim pss Hne Hsort Hfull r k Hk).
  - intros q rc Hrc Hi. destruct (SH r q rc Hrc) as (c & Hc & ->). destruct (rank_cell r q c Hr Hc) as (l & _ & _ & _ & [_ C2 C3 _ _ _]). cbn [to_rcell r_word]. destruct (shape_ok r q c Hr Hc) as [Hf|[Hb _]]; [left | right].
    + split; [exact Hf | rewrite C3; lia].
    + split; [exact Hb | exact C2].
Qed.
End World.

(** traversals that keep the tables *)
Definition keeps {D} (T T' : nat -> rtable D) : Prop := T' = T.
Lemma inv_keeps {D} dim n fuel (W : world D) s s' : step dim n false keeps fuel s s' -> inv dim n W s -> inv dim n W s'.
Proof.
  intros St H. destruct St as [s r Hr Hp|s r o ks Hr Ho Hp Ha|s r o ks Hsub Hr Ho Hp Ha|s s' r src m rest Hr Hs Hl HC Hh|s r Hr Hp Hf|s r Hr Hp Ha|s r Hr Hp Hd|s t' Hb HN].
  - apply Comms_steps.inv_start; assumption.
  - apply Comms_steps.inv_request; assumption.
  - discriminate.
  - destruct (Comms_steps.recv_ok dim n W s r src m rest fuel Hr Hs Hl HC H) as (s2 & E & X). rewrite Hh in E. injection E as <-. exact X.
  - apply Comms_steps.inv_finish; assumption.
  - apply Comms_steps.inv_leave; assumption.
  - apply Comms_steps.inv_waitall; assumption.
  - unfold keeps in HN. subst t'. apply (Comms_steps.inv_barrier dim n W W s (g_tab s) Hb); [|exact H]. split; [exact (Comms_inv.i_wf _ _ _ _ H)|]. intros r Hr. split; [apply (Comms_inv.i_tok _ _ _ _ H r Hr)|]. intros k c Hc. apply (Comms_inv.i_rest _ _ _ _ H r k c Hr Hc). rewrite (Comms_inv.i_quiet _ _ _ _ H r Hr); [intros [] | rewrite (Hb r Hr); discriminate].
Qed.
Lemma inv_keeps_steps {D} dim n fuel (W : world D) s s' : steps dim n false keeps fuel s s' -> inv dim n W s -> inv dim n W s'.
Proof. induction 1 as [s|s s1 s2 A1 IH A2]; intros H; [exact H|]. apply (inv_keeps dim n fuel W s1 s2 A2), IH, H. Qed.
