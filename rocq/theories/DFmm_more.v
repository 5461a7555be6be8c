(** The cells of the calls a pass makes. *)
From Coq Require Import Sorted Permutation.
From Verif Require Import Base Key_model Key_spec Key_proofs HCell_model HCell_props
  BuildTree_model BuildTree_spec BuildTree_lemmas BuildTree_inv BuildTree_turn BuildTree_proofs BuildTree_shape.
From Verif Require Import Share_model Share_lemmas Share_sums Share_table Share_steps Share_update Share_local Share_rounds Share_final Share_world Share_reach Share_flags.
From Verif Require Comms_lemmas Comms_inv Comms_steps Comms_flags Fmm_spec.
From Verif Require Import Vec Geometry_model Geometry_props Cofm_model Cofm_spec Comms_model Dist_model Dist_lemmas Dist_near Dist_walk Dist_reach Dist_cover Dist_target
  Search_model Gravity_model Fmm_model Fmm_proofs DFmm_owner DFmm_model DFmm_cells DFmm_pairs DFmm_end.
From Verif Require Gravity_props.
Local Open Scope N_scope.

Set Default Proof Using "All".
Section More.
Context (eb : nat -> body) (dim : N) (Hdim : dim_ok dim).
Notation n := (N.to_nat dim).
Notation f := (cofm_of eb n).
Context (pss : list (list (N * nat))).
Notation D := (max_depth dim).
Notation B := (2 ^ dim).
Notation up := (BuildTree_spec.up dim).
Notation full := (BuildTree_lemmas.full dim).
Notation has := (has dim).
Notation internal := (internal dim).
Notation cell_ex := (cell_ex dim).
Notation P := (P pss).
Notation K := (K pss).
Notation ks := (ks pss).
Notation nr := (nr pss).
Notation under := (under dim).
Notation stable := (stable nat cofm).
Notation gdat := (gdat dim f pss).
Notation above := (above dim pss).
Notation inside := (Fmm_spec.inside dim K).
Hypothesis Hne : forall ps, In ps pss -> ps <> [].
Hypothesis Hsort : StronglySorted N.lt K.
Hypothesis Hfull : Forall full K.
Hypothesis Hn0 : (0 < nr)%nat.
Hypothesis Hmass : forall x, In x P -> (0 < b_mass (eb (snd x)))%R.
Hypothesis Hrad : forall x, In x P -> (0 <= b_rad (eb (snd x)))%R.
Hypothesis Hids : map snd P = seq 0 (length P).
Hypothesis Hpos : forall i j, (i < length P)%nat -> (j < length P)%nat -> i <> j -> ~ peq n (b_pos (eb i)) (b_pos (eb j)).

Variables (one : stable).
Hypothesis H1 : one_ok dim f pss one.
Context (s : Comms_model.gstate (option (nat + cofm))).
Hypothesis HI : inv dim nr (tree_of one) s.
Hypothesis HO : forall r, (r < nr)%nat -> Comms_flags.own dim (tree_of one) (Dist_cover.above dim pss) r (g_tab s r).
Hypothesis HG : owners dim nr (tree_of one) (Dist_cover.above dim pss) s.
Variable r : nat.
Hypothesis Hr : (r < nr)%nat.
Notation own := (nth r pss []).
Notation lk := (look_r (g_tab s r)).
Notation mine := (iam_owner r (g_tab s r)).
Notation V := (V dim pss s r).
Notation cellat := (cellat dim pss).
Notation here := (here s r).
Notation islf := (islf eb dim pss).
Notation isnd := (isnd dim pss).
Notation mem := (mem pss r).
Context (MAC : R).

Notation cov := (cov dim pss).
Notation covc := (covc dim pss).
Notation pair_ok := (pair_ok dim pss s r).
(** a cell paired with itself or with one that has no particle of the rank in common with it *)
Definition diag (z : N * N) : Prop := fst z = snd z \/ forall i, mem i -> cov i i z = 0%nat.
Definition node_is (k : N) (m : cofm) : Prop := here k /\ exists l, cellat l k /\ gdat l k = inr m.
Definition accepted (c : call) : Prop :=
  (forall i, mem i -> covc i i c = 0%nat) /\
  match c with
  | C_c2c k q => exists m1 m2, node_is k m1 /\ node_is q m2 /\ mac n (cm_pos m1) (cm_rad m1) (cm_pos m2) (cm_rad m2) MAC = true
  | C_p2c k e => exists m1, node_is k m1 /\ (e < length P)%nat /\ mac n (cm_pos m1) (cm_rad m1) (b_pos (eb e)) 0 MAC = true
  | C_p2p e (Some q) [] => exists m2, node_is q m2 /\ mac n (b_pos (eb e)) 0 (cm_pos m2) (cm_rad m2) MAC = true
  | _ => False
  end.
Lemma lf_there q e : islf q e -> (e < length P)%nat.
Proof.
  intros H. pose proof H as (l & Hc & _). pose proof (cell_has eb dim Hdim pss Hne Hsort Hfull Hn0 Hmass Hrad Hids Hpos l q Hc) as (k & Hk & Ek). apply (In_nth _ _ 0) in Hk. destruct Hk as (j & Hj & Enj). rewrite (lenK eb dim Hdim pss Hne Hsort Hfull Hn0 Hmass Hrad Hids Hpos) in Hj.
  pose proof (lf_inside eb dim Hdim pss Hne Hsort Hfull Hn0 Hmass Hrad Hids Hpos q e j H Hj) as X. rewrite (ins eb dim Hdim pss Hne Hsort Hfull Hn0 Hmass Hrad Hids Hpos l q j Hc Hj) in X. rewrite Enj, Ek, N.eqb_refl in X. destruct (Nat.eqb_spec e j) as [->|]; [exact Hj | discriminate].
Qed.
Lemma node_at k m : node_is k m -> exists w, lk k = Some (w, inr m).
Proof. intros (Hh & l & Hc & Eg). destruct (look_at eb dim Hdim pss Hne Hsort Hfull Hn0 Hmass Hrad Hids Hpos one H1 s HI HO HG r Hr l k) as (w & E); [apply (V_at eb dim Hdim pss Hne Hsort Hfull Hn0 Hmass Hrad Hids Hpos one H1 s HI HO HG r Hr); tauto|]. rewrite Eg in E. exists w. exact E. Qed.
Lemma zero_sum {X} (h : X -> nat) l : nsum h l = 0%nat -> forall x, In x l -> h x = 0%nat.
Proof. clear. unfold nsum. induction l as [|y l IH]; intros H x Hx; [destruct Hx|]. cbn [map] in H. change (list_sum (h y :: map h l)) with (h y + list_sum (map h l))%nat in H. destruct Hx as [<-|Hx]; [lia | apply IH; [lia | exact Hx]]. Qed.
Lemma self_pairs_two (h : N -> nat) l y : In y (self_pairs l) -> fst y <> snd y -> (h (fst y) + h (snd y) <= nsum h l)%nat.
Proof.
  clear. induction l as [|d l IH]; intros Hy Hn; [destruct Hy|]. cbn [self_pairs] in Hy. rewrite nsum_cons. destruct Hy as [<-|Hy]; [exfalso; apply Hn; reflexivity|]. apply in_app_or in Hy. destruct Hy as [Hy|Hy]; [|specialize (IH Hy Hn); lia].
  assert (LE : forall x, In x l -> (h x <= nsum h l)%nat) by (clear; induction l as [|a l IH]; intros x Hx; [destruct Hx|]; rewrite nsum_cons; destruct Hx as [->|Hx]; [lia | specialize (IH x Hx); lia]).
  apply in_flat_map in Hy. destruct Hy as (x & Hx & Hy). specialize (LE x Hx). destruct Hy as [<-|[<-|[]]]; cbn [fst snd]; lia.
Qed.

Lemma pair_more z nq cs pp : pair_ok z -> diag z -> dfmm_pair eb dim MAC lk mine z = Some (nq, cs, pp) -> Forall diag nq /\ Forall accepted cs.
Proof.
  intros Hz Hd E. pose proof Hz as (Z1 & Z2 & (l1 & l2 & C1 & C2) & Ha & Zs). destruct (pair_step eb dim Hdim pss Hne Hsort Hfull Hn0 Hmass Hrad Hids Hpos one H1 s HI HO HG r Hr MAC z Hz) as (nq' & cs' & pp' & E' & _ & _ & _ & SUM & _). rewrite E in E'. injection E' as <- <- <-.
  destruct (look_at eb dim Hdim pss Hne Hsort Hfull Hn0 Hmass Hrad Hids Hpos one H1 s HI HO HG r Hr l1 (fst z)) as (w1 & E1); [apply (V_at eb dim Hdim pss Hne Hsort Hfull Hn0 Hmass Hrad Hids Hpos one H1 s HI HO HG r Hr); tauto|]. destruct (look_at eb dim Hdim pss Hne Hsort Hfull Hn0 Hmass Hrad Hids Hpos one H1 s HI HO HG r Hr l2 (snd z)) as (w2 & E2); [apply (V_at eb dim Hdim pss Hne Hsort Hfull Hn0 Hmass Hrad Hids Hpos one H1 s HI HO HG r Hr); tauto|].
  assert (RNG : forall i, mem i -> (i < length P)%nat) by (intros i Hi; apply (mem_key eb dim Hdim pss Hne Hsort Hfull Hn0 Hmass Hrad Hids Hpos r i Hr Hi)).
  destruct (N.eq_dec (fst z) (snd z)) as [Heq|Hneq].
  - unfold dfmm_pair in E. rewrite E1, E2, (proj2 (mine_above eb dim Hdim pss Hne Hsort Hfull Hn0 Hmass Hrad Hids Hpos one H1 s HI HO HG r Hr (fst z)) Ha) in E. cbn [negb fst snd] in E. destruct (dempty dim (w2, gdat l2 (snd z))); [injection E as <- <- <-; split; [constructor; [exact Hd | constructor] | constructor]|].
    assert (El : l2 = l1) by (apply (cell_level eb dim Hdim pss Hne Hsort Hfull Hn0 Hmass Hrad Hids Hpos l2 l1 (fst z)); [rewrite Heq; exact C2 | exact C1]). subst l2. rewrite <- Heq in E. destruct (gdat l1 (fst z)) as [e|m] eqn:Eg; [injection E as <- <- <-; split; constructor|].
    rewrite N.eqb_refl in E. unfold fmm_sub_limit in E. cbn [Nat.ltb Nat.leb] in E.
    destruct (kids_at eb dim Hdim pss Hne Hsort Hfull Hn0 Hmass Hrad Hids Hpos one H1 s HI HO HG r Hr l1 (fst z) w1 m) as (ds & Ed & _ & _ & KD & KS); [apply (V_at eb dim Hdim pss Hne Hsort Hfull Hn0 Hmass Hrad Hids Hpos one H1 s HI HO HG r Hr); tauto | exact E1 | right; exact Ha|]. rewrite Ed in E. injection E as <- <- <-. split; [|constructor].
    apply Forall_forall. intros y Hy. apply filter_In in Hy. destruct Hy as [Hy _]. destruct (N.eq_dec (fst y) (snd y)) as [Ey|Ny]; [left; exact Ey|]. right. intros i Hi. pose proof (self_pairs_two (fun d => inside d i) ds y Hy Ny) as X. rewrite (KS i (RNG i Hi)) in X. unfold DFmm_pairs.cov.
    destruct (ins1 eb dim Hdim pss Hne Hsort Hfull Hn0 Hmass Hrad Hids Hpos l1 (fst z) i C1 (RNG i Hi)); nia.
  - assert (D0 : forall i, mem i -> cov i i z = 0%nat) by (destruct Hd as [Hd|Hd]; [contradiction | exact Hd]).
    assert (DN : Forall diag nq) by (apply Forall_forall; intros y Hy; right; intros i Hi; specialize (SUM i i Hi (RNG i Hi)); rewrite (D0 i Hi) in SUM; apply (zero_sum (cov i i) nq); [lia | exact Hy]).
    assert (DC : forall c, In c cs -> forall i, mem i -> covc i i c = 0%nat) by (intros c Hc i Hi; specialize (SUM i i Hi (RNG i Hi)); rewrite (D0 i Hi) in SUM; apply (zero_sum (covc i i) cs); [lia | exact Hc]).
    split; [exact DN|]. apply Forall_forall. intros c Hc. split; [apply DC, Hc|]. clear SUM DN DC.
    assert (N1 : forall m, gdat l1 (fst z) = inr m -> node_is (fst z) m) by (intros m Em; split; [exact Z1 | exists l1; tauto]). assert (N2 : forall m, gdat l2 (snd z) = inr m -> node_is (snd z) m) by (intros m Em; split; [exact Z2 | exists l2; tauto]).
    assert (L2 : forall e, gdat l2 (snd z) = inl e -> (e < length P)%nat) by (intros e Ee; apply (lf_there (snd z)); exists l2; tauto).
    unfold dfmm_pair in E. rewrite E1, E2, (proj2 (mine_above eb dim Hdim pss Hne Hsort Hfull Hn0 Hmass Hrad Hids Hpos one H1 s HI HO HG r Hr (fst z)) Ha) in E. cbn [negb fst snd] in E. destruct (dempty dim (w2, gdat l2 (snd z))); [injection E as <- <- <-; destruct Hc|].
    destruct (N.eqb_spec (fst z) (snd z)) as [|_]; [contradiction|].
    assert (RD : forall (o : option (list N)) h X, match o with Some ds => Some (h ds, @nil call, X) | None => None end = Some (nq, cs, pp) -> False) by (intros [o|] h X Eo; [injection Eo as _ <- _; destruct Hc | discriminate]).
    destruct (gdat l1 (fst z)) as [e1|m1] eqn:G1, (gdat l2 (snd z)) as [e2|m2] eqn:G2; cbn [dextent] in E; [injection E as <- <- <-; destruct Hc| | |];
      (match type of E with (if mac ?a ?b ?c ?d ?e ?f then _ else _) = _ => destruct (mac a b c d e f) eqn:Em end; [injection E as <- <- <-; destruct Hc as [<-|[]]|exfalso; destruct (_ <? _)%nat; [injection E as <- <- <-; destruct Hc|]; destruct (Rltb _ _); apply RD in E; exact E]).
    + exists m2. split; [apply N2; reflexivity | exact Em].
    + exists m1. split; [apply N1; reflexivity|]. split; [apply L2; reflexivity | exact Em].
    + exists m1, m2. split; [apply N1; reflexivity|]. split; [apply N2; reflexivity | exact Em].
Qed.
Lemma pass_more : forall q nq cs pp, Forall pair_ok q -> Forall diag q -> dfmm_pass eb dim MAC lk mine q = Some (nq, cs, pp) -> Forall diag nq /\ Forall accepted cs.
Proof.
  induction q as [|z q IH]; intros nq cs pp HP HD E; cbn [dfmm_pass] in E; [injection E as <- <- <-; split; constructor|]. inversion HP as [|? ? P1 P2]; subst. inversion HD as [|? ? D1 D2]; subst.
  destruct (dfmm_pair eb dim MAC lk mine z) as [[[n1 c1] p1]|] eqn:E1; [|discriminate]. destruct (dfmm_pass eb dim MAC lk mine q) as [[[n2 c2] p2]|] eqn:E2; [|discriminate]. cbn [fst snd] in E. injection E as <- <- <-.
  destruct (pair_more z n1 c1 p1 P1 D1 E1), (IH n2 c2 p2 P2 D2 eq_refl). split; apply Forall_app; tauto.
Qed.
(** what the final loops call *)
Definition lastcall (c : call) : Prop :=
  match c with C_c2p k subs => (exists m, node_is k m) /\ forall i, mem i -> count_occ Nat.eq_dec subs i = inside k i | C_p2p e None [e2] => (e2 < length P)%nat | _ => False end.
Lemma end_calls cs pp : Forall (ptok eb dim pss s r) pp -> exists n0 rest, (forall fuel, (n0 <= fuel)%nat -> dfmm_end dim lk mine fuel cs pp = Some rest) /\ Forall lastcall rest.
Proof.
  intros HP. assert (VR : V D 1). { apply (V_at eb dim Hdim pss Hne Hsort Hfull Hn0 Hmass Hrad Hids Hpos one H1 s HI HO HG r Hr). split; [split; [lia | left; tauto]|]. unfold DFmm_cells.here. pose proof (root_there dim Hdim f pss Hne Hsort Hfull Hn0 one H1 s HI r Hr) as X. unfold look_r, key_root in X. destruct (g_tab s r 1); [discriminate | congruence]. }
  destruct (aff_walk eb dim Hdim pss Hne Hsort Hfull Hn0 Hmass Hrad Hids Hpos one H1 s HI HO HG r Hr cs (N.to_nat D) D 1 ltac:(lia) VR) as (n1 & L & DL & RL & WL).
  assert (LA : forall k, In k L -> above r k /\ exists l m, cellat l k /\ gdat l k = inr m). { intros k Hk. apply RL in Hk. destruct Hk as (_ & l' & k0 & _ & A2 & A3 & _ & A5 & A6). split; [apply (above_has eb dim Hdim pss Hne Hsort Hfull Hn0 Hmass Hrad Hids Hpos r l' k A5); exists k0; tauto|]. apply (cell_kind eb dim Hdim pss Hne Hsort Hfull Hn0 Hmass Hrad Hids Hpos l' k A5) in A6. destruct A6 as (m & Em). exists l', m. tauto. }
  destruct (c2p_ok eb dim Hdim pss Hne Hsort Hfull Hn0 Hmass Hrad Hids Hpos one H1 s HI HO HG r Hr L (fun k Hk => proj1 (LA k Hk))) as (n2 & ca & FA & WA). destruct (p2p_ok eb dim Hdim pss Hne Hsort Hfull Hn0 Hmass Hrad Hids Hpos one H1 s HI HO HG r Hr 0 pp HP) as (cb & FB & _).
  exists (n1 + n2 + 1)%nat, (ca ++ cb). split.
  - intros fuel Hf. unfold dfmm_end. unfold key_root. replace fuel with (n1 + (fuel - n1))%nat at 1 by lia. rewrite WL. cbn [app]. replace (dwalk dim lk (fuel - n1) (daffected_func mine cs) [] L) with (Some L) by (destruct (fuel - n1)%nat; reflexivity). rewrite (WA fuel ltac:(lia)).
    destruct (p2p_ok eb dim Hdim pss Hne Hsort Hfull Hn0 Hmass Hrad Hids Hpos one H1 s HI HO HG r Hr fuel pp HP) as (cb' & FB' & ->). replace cb' with cb; [reflexivity|]. clear - FB FB' Hdim Hne Hsort Hfull Hn0 Hmass Hrad Hids Hpos. revert cb' FB'. induction FB as [|z c pp cb (e1 & e2 & L1 & L2 & _ & ->) FB IH]; intros cb' FB'; inversion FB' as [|? ? ? ? (a1 & a2 & M1 & M2 & _ & ->) FB'']; subst; [reflexivity|].
    rewrite <- (IH _ FB''). f_equal. assert (U : forall q e e', islf q e -> islf q e' -> e = e') by (intros q e e' (la & Hla & E) (lb & Hlb & E'); rewrite (cell_level eb dim Hdim pss Hne Hsort Hfull Hn0 Hmass Hrad Hids Hpos la lb q Hla Hlb) in E; congruence). rewrite (U _ _ _ L1 M1), (U _ _ _ L2 M2). reflexivity.
  - apply Forall_app. split.
    + assert (G : forall k, In k L -> exists m, node_is k m) by (intros k Hk; destruct (LA k Hk) as (X1 & l & m & X2 & X3); exists m; split; [apply (above_here eb dim Hdim pss Hne Hsort Hfull Hn0 Hmass Hrad Hids Hpos one H1 s HI HO HG r Hr k X1) | exists l; tauto]). clear - FA G. induction FA as [|k c L ca (subs & -> & X & _) FA IH]; [constructor|]. constructor; [split; [apply G; left; reflexivity | exact X] | apply IH; intros k0 Hk0; apply G; right; exact Hk0].
    + pose proof lf_there as LT. clear - FB LT. induction FB as [|z c pp cb (e1 & e2 & L1 & L2 & _ & ->) FB IH]; [constructor|]. constructor; [apply (LT _ _ L2) | exact IH].
Qed.
(** a node of the rank summarises the particles inside *)
Lemma look_node k w m : lk k = Some (w, inr m) -> node_is k m.
Proof.
  intros E. pose proof E as E0. apply (look_rank dim Hdim f pss Hne Hsort Hfull Hn0 one H1 s HI r Hr) in E0. destruct E0 as (c & Ec & _ & _). destruct (state_cell dim Hdim f pss Hne Hsort Hfull Hn0 one H1 s HI r k c Hr Ec) as (c1 & E1 & _).
  destruct (one_sound _ _ _ _ H1 k c1 E1) as (l & Hl & He). assert (Hh : here k) by (unfold DFmm_cells.here; congruence). split; [exact Hh|]. exists l. split; [split; assumption|].
  destruct (look_at eb dim Hdim pss Hne Hsort Hfull Hn0 Hmass Hrad Hids Hpos one H1 s HI HO HG r Hr l k) as (w' & E'); [apply (V_at eb dim Hdim pss Hne Hsort Hfull Hn0 Hmass Hrad Hids Hpos one H1 s HI HO HG r Hr); split; [split; assumption | exact Hh]|]. rewrite E in E'. injection E' as _ X. symmetry. exact X.
Qed.
Lemma node_sum k m : node_is k m -> summary_ok n m (map eb (map snd (filter (fun x => negb (Nat.eqb (inside k (snd x)) 0)) P))).
Proof.
  intros (_ & l & Hc & Eg). pose proof (cell_has eb dim Hdim pss Hne Hsort Hfull Hn0 Hmass Hrad Hids Hpos l k Hc) as Hh. assert (Hi : internal K l k) by (apply (cell_kind eb dim Hdim pss Hne Hsort Hfull Hn0 Hmass Hrad Hids Hpos l k Hc); exists m; exact Eg).
  pose proof (gsummary eb dim Hdim pss Hne Hsort Hfull Hn0 Hmass Hrad (N.to_nat l) l k m ltac:(lia) (proj1 Hc) Hh Hi Eg) as S. unfold lv1, Share_sums.under in S.
  rewrite (filter_ext_in (fun x => negb (Nat.eqb (inside k (snd x)) 0)) (fun x => up l (fst x) =? k)); [exact S|]. intros x Hx. destruct (id_key eb dim Hdim pss Hne Hsort Hfull Hn0 Hmass Hrad Hids Hpos x Hx) as (Lx & Ex). rewrite (ins eb dim Hdim pss Hne Hsort Hfull Hn0 Hmass Hrad Hids Hpos l k (snd x) Hc Lx), Ex. destruct (up l (fst x) =? k); reflexivity.
Qed.
Lemma node_mass k m : node_is k m -> cm_mass m = suml (fun j => (INR (inside k j) * b_mass (eb j))%R) (seq 0 (length P)).
Proof.
  intros H. rewrite (so_mass _ _ _ (node_sum k m H)), <- Hids, !suml_map, Gravity_props.suml_filter. apply suml_ext. intros x Hx. destruct H as (_ & l & Hc & _). destruct (id_key eb dim Hdim pss Hne Hsort Hfull Hn0 Hmass Hrad Hids Hpos x Hx) as (Lx & _). destruct (ins1 eb dim Hdim pss Hne Hsort Hfull Hn0 Hmass Hrad Hids Hpos l k (snd x) Hc Lx) as [-> | ->]; cbn [Nat.eqb negb INR]; ring.
Qed.
Lemma node_rad k m j : node_is k m -> (j < length P)%nat -> inside k j <> 0%nat -> (dist n (cm_pos m) (b_pos (eb j)) <= cm_rad m)%R.
Proof.
  intros H Hj Hi. apply (so_rad _ _ _ (node_sum k m H)). apply in_map. destruct (key_id eb dim Hdim pss Hne Hsort Hfull Hn0 Hmass Hrad Hids Hpos j Hj) as (X & _). apply in_map_iff. exists (nth j K 0, j). split; [reflexivity|]. apply filter_In. split; [exact X|]. cbn [snd]. apply negb_true_iff, Nat.eqb_neq. exact Hi.
Qed.
End More.
