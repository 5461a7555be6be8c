(** The local tree of a rank, as the start of the sharing. *)
From Coq Require Import Sorted.
From Verif Require Import Base Key_model Key_spec Key_proofs HCell_model HCell_props
  BuildTree_model BuildTree_spec BuildTree_lemmas BuildTree_inv BuildTree_turn BuildTree_proofs BuildTree_shape.
From Verif Require Import Share_model Share_lemmas Share_sums Share_table Share_steps Share_update.
From Verif Require Comms_lemmas.
Local Open Scope N_scope.

Lemma low_word dim w : (forall d, N.testbit w d = true -> d < 2 ^ dim) -> wf_w dim w /\ (forall d, get_child w d = N.testbit w d) /\ requested dim w = false /\ nchildren_to_receive dim w = 0.
Proof.
  intros H. assert (Hb : bits_ok dim w (N.testbit w) false false 0).
  { intros i. destruct (N.ltb_spec i (2 ^ dim)); [reflexivity|]. rewrite N.bits_0. assert (N.testbit w i = false) by (destruct (N.testbit w i) eqn:E; [apply H in E; lia | reflexivity]). rewrite H1. cases_i; reflexivity. }
  assert (H16 : 0 < 16) by lia. destruct (Comms_lemmas.bits_getters dim w (N.testbit w) false false 0 H16 Hb) as (_ & A2 & A3).
  split; [exists (N.testbit w), false, false, 0; split; assumption|]. split; [intros d; apply get_child_testbit|]. split; assumption.
Qed.

Set Default Proof Using "All".
Section Local.
Context {Ent Sum : Type} (dim : N) (Hdim : dim_ok dim) (f : N -> list Ent -> list Sum -> Sum).
Context (pss : list (list (N * Ent))).
Notation D := (max_depth dim).
Notation B := (2 ^ dim).
Notation up := (up dim).
Notation full := (full dim).
Notation has := (has dim).
Notation many := (many dim).
Notation internal := (internal dim).
Notation cell_ex := (cell_ex dim).
Notation P := (P pss).
Notation K := (K pss).
Notation ks := (ks pss).
Notation nr := (nr pss).
Notation solo := (solo dim pss).
Notation lone := (lone dim pss).
Notation gdat := (gdat dim f pss).
Notation stable := (stable Ent Sum).
Notation scell := (scell Ent Sum).
Notation TI := (TI dim f pss).
Notation around := (around pss).
Notation lo := (lo pss).
Notation hi := (hi pss).
Hypothesis Hne : forall ps, In ps pss -> ps <> [].
Hypothesis Hsort : StronglySorted N.lt K.
Hypothesis Hfull : Forall full K.

Lemma ex_has r l q : (r < nr)%nat -> l <= D -> cell_ex K (ks r) l q -> has (ks r) l q.
Proof.
  intros Hr Hl [[-> ->]|(_ & H & _)]; [|exact H]. destruct (ks r) as [|k0 g] eqn:Ek; [destruct (ks_ne dim Hdim pss Hne Hsort Hfull r Hr Ek)|].
  exists k0. split; [left; reflexivity|]. apply (up_root dim Hdim), (ks_full dim Hdim pss Hne Hsort Hfull r). rewrite Ek. left. reflexivity.
Qed.
Definition lov (r : nat) : N := match lo r with Some x => x | None => key_min dim end.
Definition hiv (r : nat) : N := match hi r with Some x => x | None => key_max dim end.
Lemma nth_ks r i k : nth_error (ks r) i = Some k -> exists e, nth_error (nth r pss []) i = Some (k, e).
Proof.
  unfold Share_lemmas.ks. intros H. rewrite nth_error_map in H. destruct (nth_error (nth r pss []) i) as [[k' e]|]; [|discriminate]. injection H as <-. exists e. reflexivity.
Qed.
Lemma nth_P r x : (r < nr)%nat -> In x (nth r pss []) -> In x P.
Proof.
  intros Hr Hx. unfold Share_lemmas.P. apply in_concat. exists (nth r pss []). split; [apply nth_In, Hr | exact Hx].
Qed.
Lemma rank_build_ok r : (r < nr)%nat -> exists st, rank_build dim f pss r = Some st /\ k_lo st = lov r /\ k_hi st = hiv r /\ TI (cell_ex K (ks r)) (cell_ex K (ks r)) lone (k_tab st) /\
  forall k c, k_tab st k = Some c -> s_owner c = r /\ forall d, N.testbit (s_word c) d = true -> d < B.
Proof.
  intros Hr. set (ps := nth r pss []). assert (Eps : nth_error pss r = Some ps) by (apply nth_error_nth'; exact Hr).
  assert (Hps : ps <> []) by (apply Hne, nth_In, Hr).
  unfold rank_build. rewrite Eps. destruct (first_key ps) as [fk|] eqn:Ef; [|destruct ps; [congruence | discriminate]].
  assert (Elo : (if (r =? 0)%nat then Some (key_min dim) else match nth_error pss (r - 1) with Some p => last_key p | None => None end) = Some (lov r) /\ (((r =? 0)%nat = true /\ lo r = None) \/ ((r =? 0)%nat = false /\ lo r = Some (lov r)))).
  { unfold lov. destruct (Nat.eqb_spec r 0) as [->|Hn]; [split; [reflexivity | left; split; reflexivity]|]. destruct (lo r) as [x|] eqn:El; [|apply (lo_none dim Hdim pss Hne Hsort Hfull) in El; [congruence | exact Hr]].
    split; [|right; split; reflexivity]. destruct r as [|p]; [congruence|]. replace (S p - 1)%nat with p by lia. cbn [Share_lemmas.lo] in El. rewrite (nth_error_nth' pss []) by (unfold Share_lemmas.nr in Hr; lia). exact El. }
  assert (Ehi : (if (r =? length pss - 1)%nat then Some (key_max dim) else match nth_error pss (r + 1) with Some p => first_key p | None => None end) = Some (hiv r) /\ (((r =? length pss - 1)%nat = true /\ hi r = None) \/ ((r =? length pss - 1)%nat = false /\ hi r = Some (hiv r)))).
  { unfold hiv. fold nr. destruct (hi r) as [x|] eqn:Eh.
    - unfold Share_lemmas.hi in Eh. fold nr in Eh. destruct (Nat.eqb_spec r (nr - 1)) as [|Hn]; [discriminate|]. split; [|right; split; reflexivity]. rewrite (nth_error_nth' pss []) by (unfold Share_lemmas.nr in *; lia). replace (r + 1)%nat with (S r) by lia. exact Eh.
    - apply (hi_none dim Hdim pss Hne Hsort Hfull) in Eh; [|exact Hr]. subst r. fold nr. rewrite Nat.eqb_refl. split; [reflexivity | left; split; reflexivity]. }
  destruct Elo as [Elo Hlo]. destruct Ehi as [Ehi Hhi]. rewrite Elo, Ehi.
  destruct (build_tree_inv dim Hdim Sum (on_ents f (map snd ps)) (ks r) (lo r) (hi r) (around_sorted dim Hdim pss Hne Hsort Hfull r Hr) (around_full dim Hdim pss Hne Hsort Hfull r Hr) (r =? 0)%nat (r =? length pss - 1)%nat (lov r) (hiv r) Hlo Hhi) as (st & mx & E & HI & _).
  { intros _. apply (ks_ne dim Hdim pss Hne Hsort Hfull r Hr). }
  unfold Share_lemmas.ks in E. fold ps in E. rewrite E. eexists. split; [reflexivity|]. split; [reflexivity|]. split; [reflexivity|]. cbn [k_tab fst].
  fold (around r) in HI. destruct HI as [I1 I2 _ _]. split; [constructor|].
  3: { intros q c H. unfold from_build in H. destruct (tfind (st_tab st) q) as [c0|] eqn:Et; [|discriminate]. injection H as <-. cbn [s_owner s_word]. split; [reflexivity|]. destruct (I1 q c0 Et) as (l & Hl & Hex). destruct (I2 l q Hl Hex) as (c & Hc & _ & Cw & _). rewrite Et in Hc. injection Hc as <-. intros d Hd. apply Cw in Hd. tauto. }
  - intros q c H. unfold from_build in H. destruct (tfind (st_tab st) q) as [c0|] eqn:Et; [|discriminate]. destruct (I1 q c0 Et) as (l & Hl & Hex). exists l. split; [exact Hl|]. apply (ex_around dim Hdim pss Hne Hsort Hfull r l q Hr Hl), Hex.
  - intros l q Hl Hex. pose proof (ex_has r l q Hr Hl Hex) as Hh. pose proof Hex as Hex'. apply (ex_around dim Hdim pss Hne Hsort Hfull r l q Hr Hl) in Hex'. destruct (I2 l q Hl Hex') as (c & Hc & Ce & Cw & Cn).
    unfold from_build. rewrite Hc. eexists. split; [reflexivity|]. destruct (low_word dim (c_word c)) as (W1 & W2 & W3 & W4); [intros d Hd; apply Cw in Hd; tauto|].
    constructor; cbn [s_word s_set s_owner]; [exact W1 | exact W3 | exact W4 | | | exact Hh].
    + intros d Hd. rewrite W2, Cw. split.
      * intros (_ & H1 & H2). split; [exact H1|]. apply (ex_around dim Hdim pss Hne Hsort Hfull r (l - 1)); [exact Hr | lia | exact H2].
      * intros (H1 & H2). split; [exact Hd|]. split; [exact H1|]. apply (ex_around dim Hdim pss Hne Hsort Hfull r (l - 1)); [exact Hr | lia | exact H2].
    + pose proof (solo_around dim Hdim pss Hne Hsort Hfull r l q Hr Hh) as SA. pose proof (many_around dim Hdim pss Hne Hsort Hfull r l q Hr Hh) as MA.
      destruct (c_node c) as [j|].
      * destruct Cn as (N1 & N2 & N3 & s & N4 & N5). rewrite N4. apply SA in N3. split; [exists r; exact N3|].
        assert (Hint : internal K l q) by (destruct N1 as [N1|N1]; [left; exact N1 | right; apply MA, N1]). rewrite (gdat_internal dim Hdim f pss Hne Hsort Hfull l q Hint), (under_solo dim Hdim f pss Hne Hsort Hfull r l q N3). fold ps.
        unfold summary in N5. rewrite (eval_canon dim f (map snd ps) (N.to_nat l) q (grp dim (ks r) l q) (under dim l q ps)) in N5; [injection N5 as <-; reflexivity|].
        unfold grp. apply filter_matches. unfold Share_lemmas.ks. fold ps. apply numbered_matches.
      * assert (Hnone : c_ent c = None -> ~ lone l q).
        { intros En (s & Hs). assert (r = s) by (apply (solo_has dim Hdim pss Hne Hsort Hfull s r l q Hs Hh)). subst s.
          assert (Hni : ~ internal (around r) l q) by (intros Hi; apply Cn; split; [exact Hi|]; split; [exact Hh | apply SA, Hs]).
          assert (HlD : l < D) by (destruct (N.eq_dec l D) as [->|]; [exfalso; apply Hni; left; reflexivity | lia]).
          destruct Hh as (k & Hk & Ek). apply In_nth_error in Hk. destruct Hk as (i & Hi). assert (c_ent c = Some i); [|congruence]. apply Ce. split; [exact HlD|]. split; [intros Hm; apply Hni; right; exact Hm|]. exists k. split; assumption. }
        destruct (c_ent c) as [i|] eqn:En; [|apply Hnone; reflexivity].
        destruct (proj1 (Ce i) eq_refl) as (E1 & E2 & k & E3 & E4). destruct (nth_ks r i k E3) as (e & Ee). fold ps in Ee. rewrite nth_error_map, Ee. cbn [option_map snd].
        assert (Hnm : ~ many K l q) by (intros Hm; apply E2, MA, Hm). assert (HhK : has K l q) by (apply (has_K dim Hdim pss Hne Hsort Hfull r), Hh). split.
        -- destruct (lone_dec dim Hdim pss Hne Hsort Hfull l q) as [|Hnl]; [assumption|]. exfalso. apply Hnm. apply (not_lone_many dim Hdim f pss Hne Hsort Hfull l q HhK Hnl).
        -- destruct (gdat_leaf dim Hdim f pss Hne Hsort Hfull l q) as (x & X1 & X2 & X3 & X4); [intros [Hd|Hm]; [lia | contradiction] | exact Hl | exact HhK|].
           rewrite X3. f_equal. assert (Hin : In (k, e) (under dim l q P)) by (apply (under_in dim Hdim f pss Hne Hsort Hfull); split; [apply (nth_P r _ Hr); apply nth_error_In in Ee; exact Ee | exact E4]). rewrite X4 in Hin. destruct Hin as [Hin|[]]. rewrite Hin. reflexivity.
Qed.
End Local.
