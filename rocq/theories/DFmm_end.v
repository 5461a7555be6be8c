(** The end of the FMM traversal of a rank: what its nodes have received is passed on. *)
From Coq Require Import Sorted Permutation.
From Verif Require Import Base Key_model Key_spec Key_proofs HCell_model HCell_props
  BuildTree_model BuildTree_spec BuildTree_lemmas BuildTree_inv BuildTree_turn BuildTree_proofs BuildTree_shape.
From Verif Require Import Share_model Share_lemmas Share_sums Share_table Share_steps Share_update Share_local Share_rounds Share_final Share_world Share_reach Share_flags.
From Verif Require Comms_lemmas Comms_inv Comms_steps Comms_flags Fmm_spec.
From Verif Require Import Vec Geometry_model Geometry_props Cofm_model Cofm_spec Comms_model Dist_model Dist_lemmas Dist_near Dist_walk Dist_reach Dist_cover Dist_target
  Search_model Gravity_model Fmm_model Fmm_proofs DFmm_owner DFmm_model DFmm_cells DFmm_pairs.
Local Open Scope N_scope.

Lemma nodup_join {A} (a b : list A) : NoDup a -> NoDup b -> (forall x, In x a -> In x b -> False) -> NoDup (a ++ b).
Proof. induction a as [|x a IH]; intros Ha Hb H; [exact Hb|]. inversion Ha; subst. cbn [app]. constructor; [|apply IH; [assumption | exact Hb | intros y Hy; apply H; right; exact Hy]]. rewrite in_app_iff. intros [X|X]; [contradiction | apply (H x (or_introl eq_refl) X)]. Qed.

Set Default Proof Using "All".
Section End.
Context (eb : nat -> body) (dim : N) (Hdim : dim_ok dim).
Notation n := (N.to_nat dim).
Notation f := (cofm_of eb n).
Context (pss : list (list (N * nat))).
Notation D := (max_depth dim).
Notation B := (2 ^ dim).
Notation up := (BuildTree_spec.up dim).
Notation full := (BuildTree_lemmas.full dim).
Notation has := (has dim).
Notation internal := (internal dim).
Notation cell_ex := (cell_ex dim).
Notation P := (P pss).
Notation K := (K pss).
Notation ks := (ks pss).
Notation nr := (nr pss).
Notation under := (under dim).
Notation stable := (stable nat cofm).
Notation gdat := (gdat dim f pss).
Notation above := (above dim pss).
Notation inside := (Fmm_spec.inside dim K).
Hypothesis Hne : forall ps, In ps pss -> ps <> [].
Hypothesis Hsort : StronglySorted N.lt K.
Hypothesis Hfull : Forall full K.
Hypothesis Hn0 : (0 < nr)%nat.
Hypothesis Hmass : forall x, In x P -> (0 < b_mass (eb (snd x)))%R.
Hypothesis Hrad : forall x, In x P -> (0 <= b_rad (eb (snd x)))%R.
Hypothesis Hids : map snd P = seq 0 (length P).
Hypothesis Hpos : forall i j, (i < length P)%nat -> (j < length P)%nat -> i <> j -> ~ peq n (b_pos (eb i)) (b_pos (eb j)).

Variables (one : stable).
Hypothesis H1 : one_ok dim f pss one.
Context (s : Comms_model.gstate (option (nat + cofm))).
Hypothesis HI : inv dim nr (tree_of one) s.
Hypothesis HO : forall r, (r < nr)%nat -> Comms_flags.own dim (tree_of one) (Dist_cover.above dim pss) r (g_tab s r).
Hypothesis HG : owners dim nr (tree_of one) (Dist_cover.above dim pss) s.
Variable r : nat.
Hypothesis Hr : (r < nr)%nat.
Notation own := (nth r pss []).
Notation lk := (look_r (g_tab s r)).
Notation mine := (iam_owner r (g_tab s r)).
Notation V := (V dim pss s r).
Notation cellat := (cellat dim pss).
Notation here := (here s r).
Notation islf := (islf eb dim pss).
Notation isnd := (isnd dim pss).
Notation mem := (mem pss r).
Notation cov := (cov dim pss).
Notation covc := (covc dim pss).
Notation callok := (callok dim pss r).
Notation ptok := (ptok eb dim pss s r).
Notation direct := (Fmm_spec.direct dim K).
Notation on_cell := (Fmm_spec.on_cell dim K).

(** *** the nodes to pass on from *)
Definition below_own (calls : list call) (l q k : N) : Prop :=
  affected calls k = true /\ exists l' k0, l' <= l /\ In k0 (ks r) /\ up l' k0 = k /\ up l k0 = q /\ cellat l' k /\ internal K l' k.
Lemma up_mono a b c k k' : a <= b -> b <= c -> up a k = up a k' -> up b k = up b k'.
Proof. intros H _ E. replace b with (a + (b - a)) by lia. rewrite !(up_up dim Hdim). rewrite E. reflexivity. Qed.
Lemma aff_walk calls : forall m l q, l = N.of_nat m -> V l q -> exists n0 L, NoDup L /\ (forall k, In k L <-> below_own calls l q k) /\
  forall fuel stk acc, dwalk dim lk (n0 + fuel) (daffected_func mine calls) (q :: stk) acc = dwalk dim lk fuel (daffected_func mine calls) stk (acc ++ L).
Proof.
  induction m as [|m IH]; intros l q El Hv; pose proof (proj1 (V_at eb dim Hdim pss Hne Hsort Hfull Hn0 Hmass Hrad Hids Hpos one H1 s HI HO HG r Hr l q) Hv) as [Hc Hh]; destruct (look_at eb dim Hdim pss Hne Hsort Hfull Hn0 Hmass Hrad Hids Hpos one H1 s HI HO HG r Hr l q Hv) as (w & E).
  all: destruct (mine q) eqn:Em; [|exists 1%nat, []; split; [constructor|]; split; [|intros fuel stk acc; cbn [Nat.add dwalk]; rewrite E; unfold daffected_func; rewrite Em; cbn [negb fst snd]; rewrite app_nil_r; reflexivity];
    intros k; split; [intros [] | intros (_ & l' & k0 & _ & Hk0 & _ & E2 & _); exfalso; assert (A : above r q) by (apply (above_has eb dim Hdim pss Hne Hsort Hfull Hn0 Hmass Hrad Hids Hpos r l q Hc); exists k0; tauto); apply (mine_above eb dim Hdim pss Hne Hsort Hfull Hn0 Hmass Hrad Hids Hpos one H1 s HI HO HG r Hr) in A; congruence]].
  all: pose proof (proj1 (mine_above eb dim Hdim pss Hne Hsort Hfull Hn0 Hmass Hrad Hids Hpos one H1 s HI HO HG r Hr q) Em) as Ha.
  all: destruct (gdat l q) as [e|mm] eqn:Eg.
  1, 3: exists 1%nat, []; split; [constructor|]; split.
  1, 3: intros k; split; [intros []|]; intros (_ & l' & k0 & Hll & Hk0 & E1 & E2 & C' & I'); exfalso; assert (I2 : internal K l q); [|apply (cell_kind eb dim Hdim pss Hne Hsort Hfull Hn0 Hmass Hrad Hids Hpos l q Hc) in I2; destruct I2 as (mm & I2); congruence].
  1, 2: destruct I' as [I'|(k1 & k2 & I1 & I2 & I3 & I4 & I5)]; [left; destruct Hc; lia|]; right; exists k1, k2; split; [exact I1|]; split; [exact I2|]; split; [exact I3|]; split; rewrite <- E2; apply (up_mono l' l l); [lia | lia | congruence | lia | lia | congruence].
  1, 2: intros fuel stk acc; cbn [Nat.add dwalk]; rewrite E; unfold daffected_func; rewrite Em; cbn [negb fst snd]; rewrite app_nil_r;
    destruct (os_mine _ _ _ _ _ HG r Hr q Ha) as (c & Hcc & _ & Hb); pose proof E as E0; apply (look_rank dim Hdim f pss Hne Hsort Hfull Hn0 one H1 s HI r Hr) in E0; destruct E0 as (c' & Ec & Ew & _); rewrite Hcc in Ec; injection Ec as <-;
    assert (WL : w_isn (tree_of one) q = false) by (destruct (w_isn (tree_of one) q) eqn:Ei; [|reflexivity]; apply (w_at dim Hdim f pss Hne Hsort Hfull Hn0 one H1 l q (proj1 Hc) (proj2 Hc)) in Ei; apply (cell_kind eb dim Hdim pss Hne Hsort Hfull Hn0 Hmass Hrad Hids Hpos l q Hc) in Ei; destruct Ei as (mm & Ei); congruence); specialize (Hb WL); rewrite Ew in Hb;
    assert (DK : dkids dim lk q w (digits dim) = Some []); [|rewrite DK; reflexivity];
    assert (DI : forall d, In d (digits dim) -> d < B) by (intros d; apply Comms_lemmas.digits_in); induction (digits dim) as [|d ds IHd]; [reflexivity|]; cbn [dkids]; rewrite (Hb d (DI d (or_introl eq_refl))); apply IHd; intros x Hx; apply DI; right; exact Hx.
  { exfalso. destruct (kids_at eb dim Hdim pss Hne Hsort Hfull Hn0 Hmass Hrad Hids Hpos one H1 s HI HO HG r Hr l q w mm Hv E (or_intror Ha)) as (ds & _ & _ & Hl & _). lia. }
  destruct (kids_at eb dim Hdim pss Hne Hsort Hfull Hn0 Hmass Hrad Hids Hpos one H1 s HI HO HG r Hr l q w mm Hv E (or_intror Ha)) as (ds & Ed & ND & Hl & KD & _).
  assert (G : forall cs, NoDup cs -> (forall c, In c cs -> V (l - 1) c) -> exists n0 L, NoDup L /\ (forall k, In k L <-> exists c, In c cs /\ below_own calls (l - 1) c k) /\
    forall fuel stk acc, dwalk dim lk (n0 + fuel) (daffected_func mine calls) (cs ++ stk) acc = dwalk dim lk fuel (daffected_func mine calls) stk (acc ++ L)).
  { induction cs as [|c cs IHc]; intros N1 Hcs.
    - exists 0%nat, []. split; [constructor|]. split; [intros k; split; [intros [] | intros (c & [] & _)]|]. intros fuel stk acc. rewrite app_nil_r. reflexivity.
    - inversion N1 as [|? ? N2 N3]; subst. destruct (IH (N.of_nat (S m) - 1) c) as (n1 & L1 & D1 & R1 & W1); [lia | apply Hcs; left; reflexivity|]. destruct (IHc N3) as (n2 & L2 & D2 & R2 & W2); [intros c' Hc'; apply Hcs; right; exact Hc'|].
      exists (n1 + n2)%nat, (L1 ++ L2). split; [|split].
      + apply nodup_join; [exact D1 | exact D2|]. intros k K1 K2. apply R1 in K1. apply R2 in K2. destruct K1 as (_ & la & ka & Xa1 & _ & Xa2 & Xa3 & Xa4 & _). destruct K2 as (c' & Hc' & _ & lb & kb & Xb1 & _ & Xb2 & Xb3 & Xb4 & _). pose proof (cell_level eb dim Hdim pss Hne Hsort Hfull Hn0 Hmass Hrad Hids Hpos la lb k Xa4 Xb4). subst lb.
        assert (X : c = c'); [|rewrite X in N2; contradiction]. rewrite <- Xa3, <- Xb3. apply (up_mono la _ _ ka kb Xa1 (N.le_refl _)). congruence.
      + intros k. rewrite in_app_iff, R1, R2. split; [intros [H|(c' & Hc' & H)]; [exists c | exists c']; (split; [|exact H]); [left; reflexivity | right; exact Hc'] | intros (c' & [<-|Hc'] & H); [left; exact H | right; exists c'; tauto]].
      + intros fuel stk acc. cbn [app]. rewrite <- Nat.add_assoc, W1, W2, app_assoc. reflexivity. }
  destruct (G (rev ds)) as (n1 & L & DL & RL & WL); [apply NoDup_rev, ND | intros c Hcc; apply in_rev in Hcc; apply KD, Hcc|].
  assert (Hi : internal K l q) by (apply (cell_kind eb dim Hdim pss Hne Hsort Hfull Hn0 Hmass Hrad Hids Hpos l q Hc); exists mm; exact Eg).
  assert (RK : forall k, (exists c, In c (rev ds) /\ below_own calls (l - 1) c k) <-> affected calls k = true /\ exists l' k0, l' <= l - 1 /\ In k0 (ks r) /\ up l' k0 = k /\ up l k0 = q /\ cellat l' k /\ internal K l' k).
  { intros k. split.
    - intros (c & Hcc & Af & l' & k0 & A1 & A2 & A3 & A4 & A5). apply in_rev in Hcc. destruct (KD c Hcc) as (_ & _ & Eq). split; [exact Af|]. exists l', k0. split; [exact A1|]. split; [exact A2|]. split; [exact A3|]. split; [|exact A5]. replace l with (l - 1 + 1) by lia. rewrite (up_S dim Hdim), A4. exact Eq.
    - intros (Af & l' & k0 & A1 & A2 & A3 & A4 & A5). exists (up (l - 1) k0). split; [|split; [exact Af|]; exists l', k0; tauto]. apply in_rev. rewrite rev_involutive.
      pose proof A2 as Ak. unfold Share_lemmas.ks in Ak. apply in_map_iff in Ak. destruct Ak as ([kk i] & EK & Hx). cbn [fst] in EK. subst kk. assert (Mi : mem i) by (apply (in_map snd) in Hx; exact Hx). destruct (mem_key eb dim Hdim pss Hne Hsort Hfull Hn0 Hmass Hrad Hids Hpos r i Hr Mi) as (Hi' & Hx' & _).
      assert (Ek0 : nth i K 0 = k0). { assert (X : In (k0, i) P) by (unfold Share_lemmas.P; apply in_concat; exists own; split; [apply nth_In, Hr | exact Hx]). apply (id_key eb dim Hdim pss Hne Hsort Hfull Hn0 Hmass Hrad Hids Hpos) in X. apply X. }
      destruct (kids_at eb dim Hdim pss Hne Hsort Hfull Hn0 Hmass Hrad Hids Hpos one H1 s HI HO HG r Hr l q w mm Hv E (or_intror Ha)) as (ds' & Ed' & _ & _ & _ & KS). rewrite Ed in Ed'. injection Ed' as <-. specialize (KS i Hi'). rewrite (ins eb dim Hdim pss Hne Hsort Hfull Hn0 Hmass Hrad Hids Hpos l q i Hc Hi'), Ek0, A4, N.eqb_refl in KS. cbn [b2n] in KS.
      destruct (in_dec N.eq_dec (up (l - 1) k0) ds) as [|Hn]; [assumption|]. exfalso. rewrite nsum_0 in KS; [discriminate|]. intros d Hd. destruct (KD d Hd) as (Vd & _). rewrite (ins eb dim Hdim pss Hne Hsort Hfull Hn0 Hmass Hrad Hids Hpos (l - 1) d i (proj1 (proj1 (V_at eb dim Hdim pss Hne Hsort Hfull Hn0 Hmass Hrad Hids Hpos one H1 s HI HO HG r Hr (l - 1) d) Vd)) Hi'), Ek0. destruct (N.eqb_spec (up (l - 1) k0) d) as [<-|]; [contradiction | reflexivity]. }
  exists (S n1), ((if affected calls q then [q] else []) ++ L). split; [|split].
  - apply nodup_join; [destruct (affected calls q); repeat constructor; intros [] | exact DL|]. intros k K1 K2. apply RL, RK in K2. destruct K2 as (_ & l' & k0 & A1 & _ & _ & _ & A5 & _). destruct (affected calls q); [|destruct K1]. destruct K1 as [<-|[]]. pose proof (cell_level eb dim Hdim pss Hne Hsort Hfull Hn0 Hmass Hrad Hids Hpos l l' q Hc A5). lia.
  - intros k. rewrite in_app_iff, RL, RK. split.
    + intros [Hk|(Af & l' & k0 & A1 & A2)]; [|split; [exact Af|]; exists l', k0; split; [lia | exact A2]]. destruct (affected calls q) eqn:Eaf; [|destruct Hk]. destruct Hk as [<-|[]]. split; [exact Eaf|]. apply (above_has eb dim Hdim pss Hne Hsort Hfull Hn0 Hmass Hrad Hids Hpos r l q Hc) in Ha. destruct Ha as (k0 & A1 & A2). exists l, k0. split; [lia|]. tauto.
    + intros (Af & l' & k0 & A1 & A2 & A3 & A4 & A5). destruct (N.eq_dec l' l) as [->|Hn]; [left; assert (X : k = q) by congruence; rewrite X in Af |- *; rewrite Af; left; reflexivity | right; split; [exact Af|]; exists l', k0; split; [lia | tauto]].
  - intros fuel stk acc. cbn [Nat.add dwalk]. rewrite E. unfold daffected_func at 1 3. rewrite Em. cbn [negb fst snd]. rewrite Ed. rewrite WL. rewrite app_assoc. destruct (affected calls q); [reflexivity | rewrite app_nil_r; reflexivity].
Qed.
Lemma own_count l k subs : cellat l k -> Permutation subs (map snd (under l k own)) ->
  (forall i, mem i -> count_occ Nat.eq_dec subs i = inside k i) /\ (forall i, ~ mem i -> count_occ Nat.eq_dec subs i = 0%nat).
Proof.
  intros Hc HP. assert (CE : forall i, count_occ Nat.eq_dec subs i = count_occ Nat.eq_dec (map snd (under l k own)) i) by (apply (Permutation_count_occ Nat.eq_dec), HP).
  assert (IM : forall i, In i (map snd (under l k own)) <-> mem i /\ up l (nth i K 0) = k).
  { intros i. split.
    - intros Hi. apply in_map_iff in Hi. destruct Hi as (x & <- & Hx). apply (under_own dim Hdim f pss Hne Hsort Hfull Hn0 one H1 s HI r Hr (HO r Hr)) in Hx. destruct Hx as [Hx Ex]. split; [apply in_map, Hx|]. assert (X : In x P) by (unfold Share_lemmas.P; apply in_concat; exists own; split; [apply nth_In, Hr | exact Hx]). destruct (id_key eb dim Hdim pss Hne Hsort Hfull Hn0 Hmass Hrad Hids Hpos x X) as [_ ->]. exact Ex.
    - intros [Hm Ei]. destruct (mem_key eb dim Hdim pss Hne Hsort Hfull Hn0 Hmass Hrad Hids Hpos r i Hr Hm) as (_ & Hx & _). change i with (snd (nth i K 0, i)). apply in_map, (under_own dim Hdim f pss Hne Hsort Hfull Hn0 one H1 s HI r Hr (HO r Hr)). split; [exact Hx | exact Ei]. }
  assert (ND : NoDup (map snd (under l k own))).
  { assert (NO : NoDup (map snd own)). { assert (NP : NoDup (map snd P)) by (rewrite Hids; apply seq_NoDup). rewrite (concat_split dim Hdim pss Hne Hsort Hfull r Hr), !map_app in NP. apply Share_sums.nodup_app_r in NP. apply (Permutation_NoDup (Permutation_app_comm _ _)), Share_sums.nodup_app_r in NP. exact NP. }
    unfold Share_sums.under. clear - NO. induction own as [|x g IH]; [constructor|]. cbn [map] in NO. inversion NO as [|? ? N1 N2]; subst. cbn [filter]. destruct (up l (fst x) =? k); [|apply IH, N2]. cbn [map]. constructor; [|apply IH, N2]. intros H. apply N1. apply in_map_iff in H. destruct H as (y & Ey & Hy). apply filter_In in Hy. rewrite <- Ey. apply in_map. tauto. }
  split; intros i Hm; rewrite CE.
  - destruct (mem_key eb dim Hdim pss Hne Hsort Hfull Hn0 Hmass Hrad Hids Hpos r i Hr Hm) as (Hi & _). rewrite (ins eb dim Hdim pss Hne Hsort Hfull Hn0 Hmass Hrad Hids Hpos l k i Hc Hi). destruct (N.eqb_spec (up l (nth i K 0)) k) as [Ei|Ei]; cbn [b2n].
    + apply NoDup_count_occ'; [exact ND | apply IM; tauto].
    + apply count_occ_not_In. rewrite IM. tauto.
  - apply count_occ_not_In. rewrite IM. tauto.
Qed.
Definition passes (k : N) (c : call) : Prop := exists subs, c = C_c2p k subs /\ (forall i, mem i -> count_occ Nat.eq_dec subs i = inside k i) /\ (forall i, ~ mem i -> count_occ Nat.eq_dec subs i = 0%nat).
Lemma c2p_ok : forall L, (forall k, In k L -> above r k) -> exists n0 cs, Forall2 passes L cs /\ forall fuel, (n0 <= fuel)%nat -> dc2p_calls dim lk fuel L = Some cs.
Proof.
  induction L as [|k L IH]; intros H; [exists 0%nat, []; split; [constructor | reflexivity]|]. destruct IH as (n2 & cs & F & W); [intros x Hx; apply H; right; exact Hx|]. specialize (H k (or_introl eq_refl)). pose proof (above_here eb dim Hdim pss Hne Hsort Hfull Hn0 Hmass Hrad Hids Hpos one H1 s HI HO HG r Hr k H) as Hh. destruct H as (l & Hl & He & Hs).
  assert (Hv : V l k) by (apply (V_at eb dim Hdim pss Hne Hsort Hfull Hn0 Hmass Hrad Hids Hpos one H1 s HI HO HG r Hr); split; [split; assumption | exact Hh]). destruct (group_ok eb dim Hdim pss Hne Hsort Hfull Hn0 Hmass Hrad one H1 s HI r Hr (HO r Hr) l k Hv) as (n1 & subs & PS & WS).
  exists (Nat.max n1 n2), (C_c2p k subs :: cs). split.
  - constructor; [|exact F]. exists subs. split; [reflexivity|]. apply (own_count l k subs (conj Hl He) PS).
  - intros fuel Hf. cbn [dc2p_calls]. rewrite (WS fuel ltac:(lia)), (W fuel ltac:(lia)). reflexivity.
Qed.
Definition meets (z : N * N) (c : call) : Prop := exists e1 e2, islf (fst z) e1 /\ islf (snd z) e2 /\ mem e1 /\ c = C_p2p e1 None [e2].
Lemma lf_look q e : islf q e -> here q -> exists w, lk q = Some (w, inl e).
Proof. intros (l & Hc & Eg) Hh. destruct (look_at eb dim Hdim pss Hne Hsort Hfull Hn0 Hmass Hrad Hids Hpos one H1 s HI HO HG r Hr l q) as (w & E); [apply (V_at eb dim Hdim pss Hne Hsort Hfull Hn0 Hmass Hrad Hids Hpos one H1 s HI HO HG r Hr); tauto|]. rewrite Eg in E. exists w. exact E. Qed.
Lemma p2p_ok fuel : forall pp, Forall ptok pp -> exists cs, Forall2 meets pp cs /\ dp2p_calls dim lk fuel pp = Some cs.
Proof.
  induction pp as [|z pp IH]; intros H; [exists []; split; [constructor | reflexivity]|]. inversion H as [|? ? (Z1 & Z2 & Ha & e1 & e2 & L1 & L2) Hp]; subst. destruct (IH Hp) as (cs & F & W). destruct (lf_look _ _ L1 Z1) as (w1 & E1). destruct (lf_look _ _ L2 Z2) as (w2 & E2).
  exists (C_p2p e1 None [e2] :: cs). split; [constructor; [|exact F]; exists e1, e2; split; [exact L1|]; split; [exact L2|]; split; [apply (lf_mem eb dim Hdim pss Hne Hsort Hfull Hn0 Hmass Hrad Hids Hpos r (fst z) e1 L1 Ha) | reflexivity]|]. cbn [dp2p_calls]. rewrite E1, E2. cbn [dcell_ents snd]. rewrite W. reflexivity.
Qed.
Lemma pick (h : N -> nat) k0 v L : NoDup L -> In k0 L -> nsum (fun k => (h k * if N.eqb k0 k then v else 0)%nat) L = (h k0 * v)%nat.
Proof.
  clear. induction L as [|k L IH]; [intros _ []|]. intros N1 Hk. inversion N1 as [|? ? N2 N3]; subst. rewrite nsum_cons. destruct (N.eqb_spec k0 k) as [->|Hn].
  - rewrite nsum_0; [lia|]. intros x Hx. destruct (N.eqb_spec k x) as [->|]; [contradiction | lia].
  - destruct Hk as [->|Hk]; [contradiction|]. rewrite (IH N3 Hk). lia.
Qed.
(** what follows the passes *)
Lemma end_ok cs pp : Forall callok cs -> Forall ptok pp -> exists n0 rest, (forall fuel, (n0 <= fuel)%nat -> dfmm_end dim lk mine fuel cs pp = Some rest) /\
  (forall i j, mem i -> (j < length P)%nat -> Fmm_spec.routes dim K (cs ++ rest) i j = (nsum (covc i j) cs + nsum (cov i j) pp)%nat) /\
  (forall i j, ~ mem i -> (j < length P)%nat -> Fmm_spec.routes dim K (cs ++ rest) i j = 0%nat).
Proof.
  intros HC HP. assert (VR : V D 1). { apply (V_at eb dim Hdim pss Hne Hsort Hfull Hn0 Hmass Hrad Hids Hpos one H1 s HI HO HG r Hr). split; [split; [lia | left; tauto]|]. unfold DFmm_cells.here. pose proof (root_there dim Hdim f pss Hne Hsort Hfull Hn0 one H1 s HI r Hr) as X. unfold look_r, key_root in X. destruct (g_tab s r 1); [discriminate | congruence]. }
  destruct (aff_walk cs (N.to_nat D) D 1 ltac:(lia) VR) as (n1 & L & DL & RL & WL).
  assert (LA : forall k, In k L -> above r k). { intros k Hk. apply RL in Hk. destruct Hk as (_ & l' & k0 & _ & A2 & A3 & _ & A5 & _). apply (above_has eb dim Hdim pss Hne Hsort Hfull Hn0 Hmass Hrad Hids Hpos r l' k A5). exists k0. tauto. }
  assert (LC : forall c k, In c cs -> (match c with C_c2c q _ | C_p2c q _ => q = k | _ => False end) -> In k L).
  { intros c k Hc Hk. rewrite Forall_forall in HC. specialize (HC c Hc). assert (X : isnd k /\ above r k) by (destruct c; try contradiction; subst; exact HC). destruct X as [(l & Hl & Hi) Ha]. apply RL. split.
    - unfold affected. apply existsb_exists. exists c. split; [exact Hc|]. destruct c; try contradiction; subst; apply N.eqb_refl.
    - apply (above_has eb dim Hdim pss Hne Hsort Hfull Hn0 Hmass Hrad Hids Hpos r l k Hl) in Ha. destruct Ha as (k0 & A1 & A2). exists l, k0. split; [apply Hl|]. split; [exact A1|]. split; [exact A2|]. split; [apply (up_root dim Hdim), (ks_full dim Hdim pss Hne Hsort Hfull r), A1 | tauto]. }
  destruct (c2p_ok L LA) as (n2 & ca & FA & WA). destruct (p2p_ok 0 pp HP) as (cb & FB & _).
  exists (n1 + n2 + 1)%nat, (ca ++ cb). split.
  { intros fuel Hf. unfold dfmm_end. unfold key_root. replace fuel with (n1 + (fuel - n1))%nat at 1 by lia. rewrite WL. cbn [app]. replace (dwalk dim lk (fuel - n1) (daffected_func mine cs) [] L) with (Some L) by (destruct (fuel - n1)%nat; reflexivity). rewrite (WA fuel ltac:(lia)).
    destruct (p2p_ok fuel pp HP) as (cb' & FB' & ->). replace cb' with cb; [reflexivity|]. clear - FB FB' Hdim Hne Hsort Hfull Hn0 Hmass Hrad Hids Hpos. revert cb' FB'. induction FB as [|z c pp cb (e1 & e2 & L1 & L2 & _ & ->) FB IH]; intros cb' FB'; inversion FB' as [|? ? ? ? (a1 & a2 & M1 & M2 & _ & ->) FB'']; subst; [reflexivity|].
    rewrite <- (IH _ FB''). f_equal. assert (U : forall q e e', islf q e -> islf q e' -> e = e') by (intros q e e' (la & Hla & E) (lb & Hlb & E'); rewrite (cell_level eb dim Hdim pss Hne Hsort Hfull Hn0 Hmass Hrad Hids Hpos la lb q Hla Hlb) in E; congruence). rewrite (U _ _ _ L1 M1), (U _ _ _ L2 M2). reflexivity. }
  assert (ZA : forall k j, nsum (on_cell k j) (ca ++ cb) = 0%nat).
  { intros k j. rewrite nsum_app. rewrite (nsum_0 _ ca), (nsum_0 _ cb); [reflexivity | |].
    - clear - FB. induction FB as [|z c pp cb (e1 & e2 & _ & _ & _ & ->) FB IH]; intros x []; [subst; reflexivity | apply IH; assumption].
    - clear - FA. induction FA as [|z c pp cb (subs & -> & _) FA IH]; intros x []; [subst; reflexivity | apply IH; assumption]. }
  assert (ZB : forall cl i j x, In x cb -> Fmm_spec.passed_on dim K cl i j x = 0%nat) by (intros cl i j; clear - FB; induction FB as [|z c pp cb (e1 & e2 & _ & _ & _ & ->) FB IH]; intros x []; [subst; reflexivity | apply IH; assumption]).
  assert (PO : forall i j (X : N -> nat), (forall k c, In k L -> passes k c -> match c with C_c2p _ subs => count_occ Nat.eq_dec subs i = X k | _ => False end) ->
    Fmm_spec.total (Fmm_spec.passed_on dim K (cs ++ ca ++ cb) i j) (cs ++ ca ++ cb) = nsum (fun k => X k * nsum (on_cell k j) cs)%nat L).
  { intros i j X HX. change (Fmm_spec.total (Fmm_spec.passed_on dim K (cs ++ ca ++ cb) i j) (cs ++ ca ++ cb)) with (nsum (Fmm_spec.passed_on dim K (cs ++ ca ++ cb) i j) (cs ++ ca ++ cb)). rewrite !nsum_app.
    rewrite (nsum_0 _ cs); [|intros c Hc; rewrite Forall_forall in HC; specialize (HC c Hc); destruct c; try reflexivity; destruct HC].
    rewrite (nsum_0 _ cb) by (intros x; apply ZB).
    rewrite Nat.add_0_r. cbn [Nat.add]. assert (TO : forall k, Fmm_spec.total (on_cell k j) (cs ++ ca ++ cb) = nsum (on_cell k j) cs) by (intros k; change (Fmm_spec.total (on_cell k j) (cs ++ ca ++ cb)) with (nsum (on_cell k j) (cs ++ ca ++ cb)); rewrite nsum_app, ZA; lia).
    clear - FA HX TO. set (all := cs ++ ca ++ cb) in *. clearbody all. induction FA as [|k c L ca Pk FA IH]; [reflexivity|]. rewrite !nsum_cons, IH by (intros x y Hx; apply HX; right; exact Hx). f_equal. specialize (HX k c (or_introl eq_refl) Pk). destruct Pk as (subs & -> & _). unfold Fmm_spec.passed_on. rewrite HX, TO. reflexivity. }
  assert (DI : forall i j, (i < length P)%nat -> (j < length P)%nat -> nsum (direct i j) cb = nsum (cov i j) pp).
  { intros i j Hi Hj. clear - FB Hi Hj Hdim Hne Hsort Hfull Hn0 Hmass Hrad Hids Hpos. induction FB as [|z c pp cb (e1 & e2 & L1 & L2 & _ & ->) FB IH]; [reflexivity|]. rewrite !nsum_cons, IH. f_equal. unfold DFmm_pairs.cov. rewrite (lf_inside eb dim Hdim pss Hne Hsort Hfull Hn0 Hmass Hrad Hids Hpos _ e1 i L1 Hi), (lf_inside eb dim Hdim pss Hne Hsort Hfull Hn0 Hmass Hrad Hids Hpos _ e2 j L2 Hj). unfold Fmm_spec.direct. destruct (Nat.eqb e1 i); [|reflexivity]. cbn [count_occ]. destruct (Nat.eq_dec e2 j) as [->|Hn]; [rewrite Nat.eqb_refl; reflexivity|]. apply Nat.eqb_neq in Hn. rewrite Hn. reflexivity. }
  assert (DA : forall i j, nsum (direct i j) ca = 0%nat) by (intros i j; apply nsum_0; clear - FA; induction FA as [|k c L ca (subs & -> & _) FA IH]; intros x []; [subst; reflexivity | apply IH; assumption]).
  split.
  - intros i j Hi Hj. destruct (mem_key eb dim Hdim pss Hne Hsort Hfull Hn0 Hmass Hrad Hids Hpos r i Hr Hi) as (Hi' & _). unfold Fmm_spec.routes. rewrite (PO i j (fun k => inside k i)) by (intros k c _ (subs & -> & X & _); apply X, Hi).
    change (Fmm_spec.total (direct i j) (cs ++ ca ++ cb)) with (nsum (direct i j) (cs ++ ca ++ cb)). rewrite !nsum_app, DA, (DI i j Hi' Hj).
    assert (SW : nsum (fun k => (inside k i * nsum (on_cell k j) cs)%nat) L = nsum (fun c => nsum (fun k => (inside k i * on_cell k j c)%nat) L) cs).
    { rewrite <- nsum_swap. apply nsum_ext. intros k _. symmetry. apply nsum_scal. }
    rewrite SW. assert (CC : forall c, In c cs -> (direct i j c + nsum (fun k => (inside k i * on_cell k j c)%nat) L)%nat = covc i j c).
    { intros c Hc. rewrite Forall_forall in HC. pose proof (HC c Hc) as HCc. destruct c as [k q|k e|e [q|] [|x y]|k subs]; try (destruct HCc; fail).
      - cbn [direct on_cell DFmm_pairs.covc]. rewrite (pick (fun k' => inside k' i) k (inside q j) L DL (LC _ k Hc eq_refl)). reflexivity.
      - cbn [direct on_cell DFmm_pairs.covc]. rewrite <- (pick (fun k' => inside k' i) k _ L DL (LC _ k Hc eq_refl)). cbn [Nat.add]. apply nsum_ext. intros k' _. destruct (k =? k'), (Nat.eqb e j); reflexivity.
      - cbn [direct on_cell DFmm_pairs.covc]. rewrite nsum_0 by (intros; lia). cbn [count_occ]. destruct (Nat.eqb e i); lia. }
    rewrite <- (nsum_ext _ _ cs CC), nsum_plus. lia.
  - intros i j Hi Hj. unfold Fmm_spec.routes. rewrite (PO i j (fun k => 0%nat)) by (intros k c _ (subs & -> & _ & X); apply X, Hi). rewrite (nsum_0 (fun k => (0 * nsum (on_cell k j) cs)%nat)) by reflexivity.
    change (Fmm_spec.total (direct i j) (cs ++ ca ++ cb)) with (nsum (direct i j) (cs ++ ca ++ cb)). rewrite !nsum_app, DA. rewrite (nsum_0 _ cs), (nsum_0 _ cb); [reflexivity | |].
    + clear - FB Hi. induction FB as [|z c pp cb (e1 & e2 & _ & _ & M & ->) FB IH]; intros x []; [subst|apply IH; assumption]. unfold Fmm_spec.direct. destruct (Nat.eqb_spec e1 i) as [->|]; [contradiction | reflexivity].
    + intros c Hc. rewrite Forall_forall in HC. specialize (HC c Hc). destruct c as [k q|k e|e [q|] [|x y]|k subs]; try reflexivity; try (destruct HC; fail). unfold Fmm_spec.direct. destruct (Nat.eqb_spec e i) as [->|]; [contradiction | reflexivity].
Qed.
End End.
