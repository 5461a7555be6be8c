(** Which cells of its table a rank takes as targets, and the groups of their particles. *)
From Coq Require Import Sorted Permutation.
From Verif Require Import Base Key_model Key_spec Key_proofs HCell_model HCell_props
  BuildTree_model BuildTree_spec BuildTree_lemmas BuildTree_inv BuildTree_turn BuildTree_proofs BuildTree_shape.
From Verif Require Import Share_model Share_lemmas Share_sums Share_table Share_steps Share_update Share_local Share_rounds Share_final Share_world Share_reach Share_flags.
From Verif Require Comms_lemmas Comms_inv Comms_steps Comms_flags.
From Verif Require Import Vec Geometry_model Cofm_model Comms_model Dist_model Dist_lemmas Dist_near Dist_walk Dist_reach.
Local Open Scope N_scope.

Set Default Proof Using "All".
Section Start.
Context {Ent Sum : Type} (dim : N) (Hdim : dim_ok dim) (f : N -> list Ent -> list Sum -> Sum).
Context (pss : list (list (N * Ent))).
Notation D := (max_depth dim).
Notation up := (BuildTree_spec.up dim).
Notation full := (BuildTree_lemmas.full dim).
Notation has := (has dim).
Notation internal := (internal dim).
Notation cell_ex := (cell_ex dim).
Notation K := (K pss).
Notation ks := (ks pss).
Notation nr := (nr pss).
Notation stable := (stable Ent Sum).
Hypothesis Hne : forall ps, In ps pss -> ps <> [].
Hypothesis Hsort : StronglySorted N.lt K.
Hypothesis Hfull : Forall full K.
Hypothesis Hn0 : (0 < nr)%nat.
Variables (one : stable) (tabs : nat -> stable).
Hypothesis H1 : one_ok dim f pss one.
Hypothesis HT : forall r, (r < nr)%nat -> TI dim f pss (Xall dim pss r) (Xall dim pss r) (fun _ _ => True) (tabs r).
Hypothesis HF : forall r, (r < nr)%nat -> flagged dim r (tabs r).
(** the cells above own particles of rank [r] *)
Definition above (r : nat) (k : N) : Prop := exists l, l <= D /\ cell_ex K K l k /\ has (ks r) l k.
Lemma own_start r : (r < nr)%nat -> Comms_flags.own dim (tree_of one) above r (to_rtab (tabs r)).
Proof.
  intros Hr. assert (LV : forall l q, l <= D -> cell_ex K K l q -> w_isn (tree_of one) q = false -> ~ internal K l q) by (intros l q Hl He Hi X; apply (w_at dim Hdim f pss Hne Hsort Hfull Hn0 one H1 l q Hl He) in X; congruence).
  assert (OW : forall l q o, l <= D -> has K l q -> ~ internal K l q -> has (ks r) l q -> has (ks o) l q -> o = r).
  { intros l q o Hl Hh Hi (k1 & A1 & A2) (k2 & B1 & B2). destruct (N.eq_dec k1 k2) as [->|Hn]; [apply (rank_unique dim Hdim pss Hne Hsort Hfull o r k2 B1 A1)|]. exfalso. apply Hi. right. exists k1, k2.
    split; [apply (ks_in dim Hdim pss Hne Hsort Hfull r), A1|]. split; [apply (ks_in dim Hdim pss Hne Hsort Hfull o), B1|]. tauto. }
  assert (LF : forall k c, tabs r k = Some c -> w_isn (tree_of one) k = false -> exists l e, l <= D /\ cell_ex K K l k /\ has K l k /\ s_set c = Some (inl e) /\ has (ks (s_owner c)) l k).
  { intros k c Hc Hi. destruct (rank_cell dim Hdim f pss Hne Hsort Hfull Hn0 one tabs H1 HT r k c Hr Hc) as (l & Hl & _ & He & [_ _ _ _ _ C6]). destruct (set_ok dim Hdim f pss Hne Hsort Hfull Hn0 one tabs H1 HT r k c Hr Hc) as (_ & S2 & S3). rewrite Hi in S2.
    destruct (s_set c) as [[e|x]|]; [|discriminate|congruence]. exists l, e. split; [exact Hl|]. split; [exact He|]. split; [apply (ex_has_K dim Hdim f pss Hne Hsort Hfull l k Hn0 Hl He)|]. split; [reflexivity | exact C6]. }
  constructor.
  - intros k (l & Hl & He & Hh) Hi. pose proof (Xall_own dim Hdim f pss Hne Hsort Hfull r l k Hr Hl He Hh) as HX. destruct (rank_has dim Hdim f pss Hne Hsort Hfull Hn0 one tabs H1 HT r l k Hr Hl HX) as (c & Hc). exists (to_rcell c). unfold to_rtab. rewrite Hc. split; [reflexivity|].
    apply (full_if dim Hdim f pss Hne Hsort Hfull Hn0 one tabs H1 HT r l k c Hr Hl HX Hc). left. exact Hh.
  - intros k (l & Hl & He & Hh) Hi. pose proof (Xall_own dim Hdim f pss Hne Hsort Hfull r l k Hr Hl He Hh) as HX. destruct (rank_has dim Hdim f pss Hne Hsort Hfull Hn0 one tabs H1 HT r l k Hr Hl HX) as (c & Hc). exists (to_rcell c). unfold to_rtab. rewrite Hc. split; [reflexivity|]. cbn [to_rcell r_word].
    destruct (LF k c Hc Hi) as (l' & e & Hl' & He' & HK & Es & Ho). assert (l' = l) by (apply (has_unique dim Hdim f pss Hne Hsort Hfull l' l k Hl' Hl HK); apply (has_K dim Hdim pss Hne Hsort Hfull r), Hh). subst l'. rewrite (HF r Hr k c e Hc Es), (OW l k (s_owner c) Hl HK (LV l k Hl He Hi) Hh Ho), Nat.eqb_refl. reflexivity.
  - intros k rc Hrc Hi Hn. unfold to_rtab in Hrc. destruct (tabs r k) as [c|] eqn:Hc; [|discriminate]. injection Hrc as <-. cbn [to_rcell r_word]. destruct (LF k c Hc Hi) as (l & e & Hl & He & HK & Es & Ho). rewrite (HF r Hr k c e Hc Es). destruct (Nat.eqb_spec (s_owner c) r) as [E|]; [|reflexivity]. exfalso. apply Hn. exists l. rewrite <- E. tauto.
Qed.
End Start.

Section Cover.
Context {Ent : Type} (dim : N) (Hdim : dim_ok dim) (f : N -> list Ent -> list cofm -> cofm).
Context (pss : list (list (N * Ent))).
Notation D := (max_depth dim).
Notation B := (2 ^ dim).
Notation up := (BuildTree_spec.up dim).
Notation full := (BuildTree_lemmas.full dim).
Notation has := (has dim).
Notation internal := (internal dim).
Notation cell_ex := (cell_ex dim).
Notation P := (P pss).
Notation K := (K pss).
Notation ks := (ks pss).
Notation nr := (nr pss).
Notation under := (under dim).
Notation stable := (stable Ent cofm).
Notation gdat := (gdat dim f pss).
Hypothesis Hne : forall ps, In ps pss -> ps <> [].
Hypothesis Hsort : StronglySorted N.lt K.
Hypothesis Hfull : Forall full K.
Hypothesis Hn0 : (0 < nr)%nat.
Variables (one : stable).
Hypothesis H1 : one_ok dim f pss one.
Context (s : gstate (option (Ent + cofm))).
Hypothesis HI : inv dim nr (tree_of one) s.
Variable r : nat.
Hypothesis Hr : (r < nr)%nat.
Hypothesis HO : Comms_flags.own dim (tree_of one) (above dim pss) r (g_tab s r).
Notation own := (nth r pss []).
Notation lk := (look_r (g_tab s r)).
Definition V (l q : N) : Prop := l <= D /\ cell_ex K K l q /\ g_tab s r q <> None.
Lemma own_P x : In x own -> In x P /\ In (fst x) (ks r) /\ In (fst x) K /\ full (fst x).
Proof.
  intros Hx. assert (A : In x P) by (unfold Share_lemmas.P; apply in_concat; exists own; split; [apply nth_In, Hr | exact Hx]). assert (Hk : In (fst x) (ks r)) by (unfold Share_lemmas.ks; apply in_map, Hx). split; [exact A|]. split; [exact Hk|]. split; [apply (ks_in dim Hdim pss Hne Hsort Hfull r), Hk | apply (ks_full dim Hdim pss Hne Hsort Hfull r), Hk].
Qed.
Lemma NoDup_own : NoDup own.
Proof.
  pose proof (NoDup_P dim Hdim f pss Hne Hsort Hfull) as H. rewrite (concat_split dim Hdim pss Hne Hsort Hfull r Hr) in H. apply Share_sums.nodup_app_r in H. apply (Permutation_NoDup (Permutation_app_comm _ _)), Share_sums.nodup_app_r in H. exact H.
Qed.
Lemma under_own l q x : In x (under l q own) <-> In x own /\ up l (fst x) = q.
Proof. unfold Share_sums.under. rewrite filter_In, N.eqb_eq. reflexivity. Qed.
Lemma under_none l q : ~ has (ks r) l q -> under l q own = [].
Proof. intros H. destruct (under l q own) as [|x g] eqn:E; [reflexivity|]. exfalso. apply H. assert (X : In x (under l q own)) by (rewrite E; left; reflexivity). apply under_own in X. destruct X as [X1 X2]. exists (fst x). split; [apply (own_P x X1) | exact X2]. Qed.
Lemma V_look l q : V l q -> exists w, lk q = Some (w, gdat l q).
Proof.
  intros (Hl & He & Hc). destruct (g_tab s r q) as [c|] eqn:E; [|congruence]. destruct (state_cell dim Hdim f pss Hne Hsort Hfull Hn0 one H1 s HI r q c Hr E) as (c1 & Hc1 & Ed & _). destruct (one_cell _ _ _ _ H1 l q Hl He) as (c1' & Hc1' & _ & Hs & _). rewrite Hc1 in Hc1'. injection Hc1' as <-.
  exists (r_word c). unfold look_r. rewrite E, Ed, Hs. reflexivity.
Qed.
Lemma V_kind l q : V l q -> (w_isn (tree_of one) q = true <-> internal K l q) /\ (internal K l q <-> exists m, gdat l q = inr m).
Proof.
  intros (Hl & He & Hc). split; [apply (w_at dim Hdim f pss Hne Hsort Hfull Hn0 one H1 l q Hl He)|]. apply (gdat_kind dim Hdim f pss Hne Hsort Hfull l q Hl). apply (ex_has_K dim Hdim f pss Hne Hsort Hfull l q Hn0 Hl He).
Qed.
Lemma V_there l q : V l q -> lk q <> None.
Proof. intros H. destruct (V_look l q H) as (w & E). congruence. Qed.
Lemma V_node l q w m : V l q -> lk q = Some (w, inr m) -> 1 <= l /\ Comms_lemmas.okkey dim q /\
  (forall d, d < B -> get_child w d = true -> V (l - 1) (q * B + d)) /\ (forall d, d < B -> get_child w d = false -> under (l - 1) (q * B + d) own = []) /\
  Permutation (under l q own) (flat_map (fun d => under (l - 1) (q * B + d) own) (digits dim)).
Proof.
  intros Hv E. pose proof Hv as (Hl & He & Hc). destruct (V_look l q Hv) as (w' & E'). rewrite E in E'. injection E' as <- Eg. destruct (V_kind l q Hv) as [KI KG]. assert (Hi : internal K l q) by (apply KG; exists m; congruence). pose proof (proj2 KI Hi) as Hw.
  pose proof (int_pos dim Hdim f pss Hne Hsort Hfull Hn0 one H1 l q Hl Hi) as Hl1. destruct (w_wf dim Hdim f pss Hne Hsort Hfull Hn0 one H1) as [_ WW]. destruct (w_at dim Hdim f pss Hne Hsort Hfull Hn0 one H1 l q Hl He) as (WK & _ & _).
  apply (look_rank dim Hdim f pss Hne Hsort Hfull Hn0 one H1 s HI r Hr) in E. destruct E as (c & Ec & Ew & _). pose proof (Comms_inv.i_tok _ _ _ _ HI r Hr) as T.
  split; [exact Hl1|]. split; [apply (WW q Hw)|]. split; [|split].
  - intros d Hd Hg. rewrite <- Ew in Hg. destruct (Comms_lemmas.tk_down _ _ _ _ _ T q c d Ec Hw Hd Hg) as (Hk & c' & Hc'). apply (WK d Hd) in Hk. split; [lia|]. split; [apply Hk|]. unfold Comms_lemmas.ck in Hc'. congruence.
  - intros d Hd Hg. apply under_none. intros Hh. assert (Ab : above dim pss r q).
    { exists l. split; [exact Hl|]. split; [exact He|]. destruct Hh as (k & Hk & Ek). exists k. split; [exact Hk|]. replace l with (l - 1 + 1) by lia. rewrite (up_S dim Hdim), Ek, N.div_add_l, N.div_small by lia. lia. }
    destruct (Comms_flags.ow_node _ _ _ _ _ HO q Ab Hw) as (c' & Hc' & Hf). rewrite Ec in Hc'. injection Hc' as <-. rewrite Ew in Hf. rewrite (Hf d Hd) in Hg. assert (w_kid (tree_of one) q d = true); [|congruence]. apply (WK d Hd). split; [exact Hl1|].
    right. split; [lia|]. split; [apply (has_K dim Hdim pss Hne Hsort Hfull r), Hh|]. rewrite N.div_add_l, N.div_small, N.add_0_r by lia. replace (l - 1 + 1) with l by lia. exact Hi.
  - apply NoDup_Permutation.
    + apply NoDup_filter, NoDup_own.
    + apply nodup_flat; [apply Comms_lemmas.digits_nodup | intros; apply NoDup_filter, NoDup_own|]. intros a b x Ha Hb Hx Hy. apply filter_In in Hx, Hy. destruct Hx as [_ Hx], Hy as [_ Hy]. lia.
    + intros x. rewrite in_flat_map, under_own. split.
      * intros [Hx Ex]. exists (up (l - 1) (fst x) mod B). assert (Hd : up (l - 1) (fst x) mod B < B) by (apply N.mod_lt; pose proof (N.pow_nonzero 2 dim); lia). split; [apply Comms_lemmas.digits_in, Hd|]. rewrite under_own. split; [exact Hx|].
        rewrite <- Ex. replace l with (l - 1 + 1) at 2 by lia. rewrite (up_S dim Hdim). pose proof (N.div_mod (up (l - 1) (fst x)) B ltac:(pose proof (N.pow_nonzero 2 dim); lia)). lia.
      * intros (d & Hd & Hx). apply Comms_lemmas.digits_in in Hd. rewrite under_own in Hx. destruct Hx as [Hx Ex]. split; [exact Hx|]. replace l with (l - 1 + 1) by lia. rewrite (up_S dim Hdim), Ex, N.div_add_l, N.div_small by lia. lia.
Qed.
Lemma V_leaf l q w e : V l q -> lk q = Some (w, inl e) -> (is_shared dim w = false -> has (ks r) l q) /\ map snd (under l q own) = (if is_shared dim w then [] else [e]) /\ (is_shared dim w = true -> under l q own = []).
Proof.
  intros Hv E. pose proof Hv as (Hl & He & Hc). destruct (V_look l q Hv) as (w' & E'). rewrite E in E'. injection E' as <- Eg. destruct (V_kind l q Hv) as [KI KG]. assert (Hi : ~ internal K l q) by (intros X; apply KG in X; destruct X as (m & X); congruence).
  assert (Hw : w_isn (tree_of one) q = false) by (destruct (w_isn (tree_of one) q); [exfalso; apply Hi, KI; reflexivity | reflexivity]). pose proof (ex_has_K dim Hdim f pss Hne Hsort Hfull l q Hn0 Hl He) as HK.
  destruct (gdat_leaf dim Hdim f pss Hne Hsort Hfull l q Hi Hl HK) as (x & X1 & X2 & X3 & X4). apply (look_rank dim Hdim f pss Hne Hsort Hfull Hn0 one H1 s HI r Hr) in E. destruct E as (c & Ec & Ew & _).
  assert (UN : has (ks r) l q -> under l q own = [x]).
  { intros (k & Hk & Ek). unfold Share_lemmas.ks in Hk. apply in_map_iff in Hk. destruct Hk as (y & <- & Hy). assert (y = x). { assert (Y : In y (under l q P)) by (apply (under_in dim Hdim f pss Hne Hsort Hfull); split; [apply (own_P y Hy) | exact Ek]). rewrite X4 in Y. destruct Y as [Y|[]]; congruence. }
    subst y. assert (NoDup (under l q own)) by (apply NoDup_filter, NoDup_own). assert (A : forall y, In y (under l q own) -> y = x). { intros y Y. apply under_own in Y. destruct Y as [Y1 Y2]. assert (Y : In y (under l q P)) by (apply (under_in dim Hdim f pss Hne Hsort Hfull); split; [apply (own_P y Y1) | exact Y2]). rewrite X4 in Y. destruct Y as [Y|[]]; congruence. }
    assert (Hx : In x (under l q own)) by (apply under_own; tauto). destruct (under l q own) as [|y [|z g]]; [destruct Hx | rewrite (A y (or_introl eq_refl)); reflexivity|]. exfalso. inversion H as [|? ? Hny _]; subst. apply Hny. rewrite (A y (or_introl eq_refl)), (A z (or_intror (or_introl eq_refl))). left. reflexivity. }
  destruct (internal_dec dim K l q) as [|_]; [contradiction|].
  destruct (under l q own) as [|y g] eqn:EU.
  - assert (Hn : ~ above dim pss r q).
    { intros (l' & Hl' & He' & Hh). assert (l' = l) by (apply (has_unique dim Hdim f pss Hne Hsort Hfull l' l q Hl' Hl); [apply (has_K dim Hdim pss Hne Hsort Hfull r), Hh | exact HK]). subst l'. specialize (UN Hh). discriminate. }
    pose proof (Comms_flags.ow_other _ _ _ _ _ HO q c Ec Hw Hn) as Sh. rewrite Ew in Sh. rewrite Sh. split; [discriminate|]. split; [reflexivity | reflexivity].
  - assert (Hh : has (ks r) l q). { assert (Y : In y (under l q own)) by (rewrite EU; left; reflexivity). apply under_own in Y. exists (fst y). split; [apply (own_P y), Y | apply Y]. }
    pose proof (UN Hh) as UN'. injection UN' as -> ->. destruct (Comms_flags.ow_leaf _ _ _ _ _ HO q) as (c' & Hc' & Sh); [exists l; tauto | exact Hw|]. rewrite Ec in Hc'. injection Hc' as <-. rewrite Ew in Sh. rewrite Sh. split; [intros _; exact Hh|]. split; [cbn [map]; congruence | discriminate].
Qed.
End Cover.
