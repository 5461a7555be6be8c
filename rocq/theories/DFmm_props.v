(** C99: the gravity traversal (FMM) on several ranks. *)
From Coq Require Import Sorted Permutation.
From Verif Require Import Base Key_model HCell_model BuildTree_model BuildTree_lemmas BuildTree_inv BuildTree_props Vec Geometry_model Geometry_props Cofm_model
  Share_model Share_lemmas Share_sums Share_table Share_rounds Share_final Share_world Share_reach Share_flags Share_props Comms_model Dist_model Dist_lemmas Dist_walk Dist_near Dist_reach Dist_cover Dist_target Dist_refuted Dist_props Dist_all_props.
From Verif Require Comms_lemmas Comms_props Comms_flags Fmm_spec.
From Verif Require Import Search_model Gravity_model Fmm_model Fmm_proofs DFmm_owner DFmm_model DFmm_cells DFmm_pairs DFmm_end.
Local Open Scope N_scope.

Lemma c2p_more dim look fuel : forall ks x, dc2p_calls dim look fuel ks = Some x -> forall f', (fuel <= f')%nat -> dc2p_calls dim look f' ks = Some x.
Proof.
  induction ks as [|k ks IH]; intros x E f' Hf; [exact E|]. cbn [dc2p_calls] in *. destruct (dwalk dim look fuel (dgroup_func dim) [k] []) as [a|] eqn:Ea; [|discriminate]. rewrite (dwalk_more dim look _ fuel _ _ _ Ea f' Hf). destruct (dc2p_calls dim look fuel ks) as [y|]; [|discriminate]. rewrite (IH y eq_refl f' Hf). exact E.
Qed.
Lemma ents_more dim look fuel k c x : dcell_ents dim look fuel k c = Some x -> forall f', (fuel <= f')%nat -> dcell_ents dim look f' k c = Some x.
Proof. unfold dcell_ents. intros E f' Hf. destruct (snd c); [exact E|]. apply (dwalk_more dim look _ fuel _ _ _ E f' Hf). Qed.
Lemma p2p_more dim look fuel : forall ks x, dp2p_calls dim look fuel ks = Some x -> forall f', (fuel <= f')%nat -> dp2p_calls dim look f' ks = Some x.
Proof.
  induction ks as [|k ks IH]; intros x E f' Hf; [exact E|]. cbn [dp2p_calls] in *. destruct (look (fst k)) as [c1|]; [|discriminate]. destruct (look (snd k)) as [c2|]; [|discriminate].
  destruct (dcell_ents dim look fuel (fst k) c1) as [a|] eqn:Ea; [|discriminate]. destruct (dcell_ents dim look fuel (snd k) c2) as [b|] eqn:Eb; [|discriminate]. rewrite (ents_more _ _ _ _ _ _ Ea f' Hf), (ents_more _ _ _ _ _ _ Eb f' Hf). destruct (dp2p_calls dim look fuel ks) as [y|]; [|discriminate]. rewrite (IH y eq_refl f' Hf). exact E.
Qed.
Lemma end_more dim look mine fuel cs pp x : dfmm_end dim look mine fuel cs pp = Some x -> forall f', (fuel <= f')%nat -> dfmm_end dim look mine f' cs pp = Some x.
Proof.
  unfold dfmm_end. intros E f' Hf. destruct (dwalk dim look fuel (daffected_func mine cs) [key_root] []) as [L|] eqn:EL; [|discriminate]. rewrite (dwalk_more dim look _ fuel _ _ _ EL f' Hf). destruct (dc2p_calls dim look fuel L) as [a|] eqn:Ea; [|discriminate]. rewrite (c2p_more _ _ _ _ _ Ea f' Hf). destruct (dp2p_calls dim look fuel pp) as [b|] eqn:Eb; [|discriminate]. rewrite (p2p_more _ _ _ _ _ Eb f' Hf). exact E.
Qed.

Set Default Proof Using "All".
Section Props.
Context (eb : nat -> body) (dim : N) (MAC : R) (pss : list (list (N * nat))).
Notation n := (N.to_nat dim).
Notation f := (cofm_of eb n).
Notation parts := (length (concat pss)).
Context (l : list (rank_st nat cofm)) (fuel : nat) (dn : nat -> nat -> bool) (al : nat -> bool) (w : nat -> list N).
Notation run := (steps dim (length pss) false keeps fuel).
Notation start := (g_init (tables l) dn al w).
Notation state := (Comms_model.gstate (option (nat + cofm))).
(** the states in which a rank makes its passes, in the order of time *)
Fixpoint in_order (s : state) (ss : list state) : Prop := match ss with [] => True | s' :: r => run s s' /\ in_order s' r end.
(** what the rank sees in a state *)
Definition view (r : nat) (s : state) := (look_r (g_tab s r), iam_owner r (g_tab s r)).
Notation passes r ss := (dfmm_passes eb dim MAC (map (view r) ss) [(key_root, key_root)]).
Notation finish r s fu cs pp := (dfmm_end dim (look_r (g_tab s r)) (iam_owner r (g_tab s r)) fu cs pp).

Hypothesis HS : spread dim pss.
Hypothesis El : build_all dim f pss = Some l.
Hypothesis Hmass : forall x, In x (concat pss) -> (0 < b_mass (eb (snd x)))%R.
Hypothesis Hrad : forall x, In x (concat pss) -> (0 <= b_rad (eb (snd x)))%R.
Hypothesis Hids : map snd (concat pss) = seq 0 parts.
Hypothesis Hpos : forall i j, (i < parts)%nat -> (j < parts)%nat -> i <> j -> ~ peq n (b_pos (eb i)) (b_pos (eb j)).

Lemma start_owners one : one_ok dim f pss (k_tab one) -> (0 < nr pss)%nat -> length l = nr pss -> (forall r, (r < nr pss)%nat -> exists st, nth_error l r = Some st /\ TI dim f pss (Xall dim pss r) (Xall dim pss r) (fun _ _ => True) (k_tab st)) ->
  owners dim (nr pss) (tree_of (k_tab one)) (above dim pss) start.
Proof.
  intros O1 Hn Ll Hl. pose proof HS as (Hdim & (mm & Hmm) & Hne & Hsort & Hf). apply full_keys_full in Hf. pose (tabs := fun r => match nth_error l r with Some st => k_tab st | None => fun _ => None end).
  assert (E : forall r, (r < nr pss)%nat -> tables l r = to_rtab (tabs r)) by (intros r Hr; destruct (Hl r Hr) as (st & Hst & _); unfold tables, tabs; rewrite Hst; reflexivity).
  assert (HT : forall r, (r < nr pss)%nat -> TI dim f pss (Xall dim pss r) (Xall dim pss r) (fun _ _ => True) (tabs r)) by (intros r Hr; destruct (Hl r Hr) as (st & Hst & T); unfold tabs; rewrite Hst; exact T).
  constructor.
  - intros r Hr k c Hc. cbn [g_init g_tab] in Hc. rewrite (E r Hr) in Hc. unfold to_rtab in Hc. destruct (tabs r k) as [c0|] eqn:E0; [|discriminate]. injection Hc as <-. cbn [to_rcell r_owner].
    destruct (rank_cell dim Hdim f pss Hne Hsort Hf Hn (k_tab one) tabs O1 HT r k c0 Hr E0) as (lv & Hlv & _ & He & C). exists lv. split; [exact Hlv|]. split; [exact He | apply (ck_own _ _ _ _ _ _ _ _ C)].
  - intros p q m _ _ [].
  - intros r Hr k (lv & Hlv & He & Hh). cbn [g_init g_tab]. rewrite (E r Hr). destruct (Hl r Hr) as (st & Hst & _). assert (Et : tabs r = k_tab st) by (unfold tabs; rewrite Hst; reflexivity).
    destruct (owned_all dim Hdim f pss Hne Hsort Hf mm Hmm l El r st Hst k) as (c & Hc & Ho).
    { exists lv. split; [exact Hlv|]. destruct He as [He|(A1 & A2 & A3)]; [left; exact He | right; tauto]. }
    rewrite <- Et in Hc. exists (to_rcell c). unfold to_rtab. rewrite Hc. split; [reflexivity|]. split; [exact Ho|]. intros Hw d Hd. cbn [to_rcell r_word].
    pose proof (Xall_own dim Hdim f pss Hne Hsort Hf r lv k Hr Hlv He Hh) as HX. rewrite (full_if dim Hdim f pss Hne Hsort Hf Hn (k_tab one) tabs O1 HT r lv k c Hr Hlv HX Hc (or_introl Hh) d Hd).
    destruct (w_at dim Hdim f pss Hne Hsort Hf Hn (k_tab one) O1 lv k Hlv He) as (WK & WI & _). destruct (w_kid (tree_of (k_tab one)) k d) eqn:Ek; [|reflexivity]. exfalso. apply (WK d Hd) in Ek. destruct Ek as [L1 [[L2 _]|(_ & _ & I2)]]; [lia|].
    rewrite N.div_add_l, N.div_small, N.add_0_r in I2 by lia. replace (lv - 1 + 1) with lv in I2 by lia. apply WI in I2. congruence.
Qed.
Lemma run_owners : exists one, one_ok dim f pss (k_tab one) /\ (0 < nr pss)%nat /\
  forall s, run start s -> Comms_inv.inv dim (nr pss) (tree_of (k_tab one)) s /\ (forall r, (r < nr pss)%nat -> Comms_flags.own dim (tree_of (k_tab one)) (above dim pss) r (g_tab s r)) /\ owners dim (nr pss) (tree_of (k_tab one)) (above dim pss) s.
Proof.
  destruct (run_own eb dim pss l fuel dn al w HS El) as (one & E1 & O1 & Hn & HR). exists one. split; [exact O1|]. split; [exact Hn|].
  assert (G : forall s, run start s -> owners dim (nr pss) (tree_of (k_tab one)) (above dim pss) s).
  { intros s R. remember start as s0 eqn:Es. induction R as [|s s1 s2 R IH C]; subst.
    - destruct (spread_ok dim f pss HS) as (one' & l' & E1' & O1' & El' & Ll & Hn' & Hl). rewrite El in El'. injection El' as <-. apply (start_owners one O1 Hn Ll Hl).
    - destruct (HR s1 R) as [HI HO]. apply (owners_step dim (nr pss) (tree_of (k_tab one)) (above dim pss) fuel s1 s2 C HI HO). apply IH; [reflexivity | exact HR]. }
  intros s R. destruct (HR s R) as [HI HO]. split; [exact HI|]. split; [exact HO | apply G, R].
Qed.

(** the passes keep account of every pair of particles *)
Lemma passes_ok one r : one_ok dim f pss (k_tab one) -> (0 < nr pss)%nat -> (r < nr pss)%nat ->
  (forall s, run start s -> Comms_inv.inv dim (nr pss) (tree_of (k_tab one)) s /\ (forall r, (r < nr pss)%nat -> Comms_flags.own dim (tree_of (k_tab one)) (above dim pss) r (g_tab s r)) /\ owners dim (nr pss) (tree_of (k_tab one)) (above dim pss) s) ->
  forall ss s0 sf q, run start s0 -> in_order s0 (ss ++ [sf]) -> Forall (pair_ok dim pss s0 r) q ->
  exists nq cs pp, dfmm_passes eb dim MAC (map (view r) ss) q = Some (nq, cs, pp) /\ Forall (pair_ok dim pss sf r) nq /\ Forall (callok dim pss r) cs /\ Forall (ptok eb dim pss sf r) pp /\
  (forall i j, mem pss r i -> (j < parts)%nat -> nsum (cov dim pss i j) q = (nsum (cov dim pss i j) nq + nsum (covc dim pss i j) cs + nsum (cov dim pss i j) pp)%nat) /\
  ((forall a s b qa ca pa, ss = a ++ s :: b -> dfmm_passes eb dim MAC (map (view r) a) q = Some (qa, ca, pa) -> forall x c, In x qa -> g_tab s r (snd x) = Some c -> empty_node dim c = false) ->
   forall m, (m < length ss)%nat -> Forall (plev dim pss m) q -> nq = []).
Proof.
  intros O1 Hn Hr HR. pose proof HS as (Hdim & _ & Hne & Hsort & Hf). apply full_keys_full in Hf.
  assert (TH : forall s1 s2 k, run start s1 -> run s1 s2 -> here s1 r k -> here s2 r k) by (intros s1 s2 k R1 R2 H; apply (run_there dim pss l fuel dn al w s1 s2 r k (k_tab one) R1 R2 (fun s R => proj1 (HR s R)) H)).
  assert (TP : forall s1 s2 z, run start s1 -> run s1 s2 -> pair_ok dim pss s1 r z -> pair_ok dim pss s2 r z) by (intros s1 s2 z R1 R2 (A1 & A2 & A3); split; [apply (TH s1 s2 _ R1 R2 A1)|]; split; [apply (TH s1 s2 _ R1 R2 A2) | exact A3]).
  assert (TT : forall s1 s2 z, run start s1 -> run s1 s2 -> ptok eb dim pss s1 r z -> ptok eb dim pss s2 r z) by (intros s1 s2 z R1 R2 (A1 & A2 & A3); split; [apply (TH s1 s2 _ R1 R2 A1)|]; split; [apply (TH s1 s2 _ R1 R2 A2) | exact A3]).
  assert (LASTR : forall ss s0 sf, in_order s0 (ss ++ [sf]) -> run s0 sf).
  { induction ss as [|s ss IH]; intros s0 sf H; cbn [app in_order] in H; [tauto|]. destruct H as [H1 H2]. apply (run_trans dim pss fuel _ s); [exact H1 | apply (IH s sf H2)]. }
  induction ss as [|s ss IH]; intros s0 sf q R0 CH HQ; cbn [app in_order] in CH; destruct CH as [R1 CH].
  - exists q, [], []. split; [reflexivity|]. split; [eapply Forall_impl; [|exact HQ]; intros z; apply (TP s0 sf z R0 R1)|]. split; [constructor|]. split; [constructor|]. split; [intros i j _ _; unfold nsum; cbn; lia|]. intros _ m Hm. cbn in Hm. lia.
  - assert (R : run start s) by (apply (run_trans dim pss fuel _ s0); assumption). destruct (HR s R) as (HI & HO & HG).
    assert (HQ' : Forall (pair_ok dim pss s r) q) by (eapply Forall_impl; [|exact HQ]; intros z; apply (TP s0 s z R0 R1)).
    destruct (pass_step eb dim Hdim pss Hne Hsort Hf Hn Hmass Hrad Hids Hpos (k_tab one) O1 s HI HO HG r Hr MAC q HQ') as (n1 & c1 & p1 & E1 & A1 & A2 & A3 & A4 & A5). destruct (IH s sf n1 R CH A1) as (n2 & c2 & p2 & E2 & B1 & B2 & B3 & B4 & B5).
    cbn [map dfmm_passes view fst snd]. rewrite E1. cbn [fst snd]. change (look_r (g_tab s r), iam_owner r (g_tab s r)) with (view r s). rewrite E2. cbn [fst snd]. do 3 eexists. split; [reflexivity|]. split; [exact B1|]. split; [apply Forall_app; tauto|].
    split; [apply Forall_app; split; [|exact B3]; eapply Forall_impl; [|exact A3]; intros z; apply (TT s sf z R (LASTR ss s sf CH))|]. split.
    + intros i j Hi Hj. rewrite !nsum_app, (A4 i j Hi Hj), (B4 i j Hi Hj). lia.
    + intros Hrd m Hm HP. assert (RD : forall z, In z q -> ready dim s r (snd z)) by (intros z Hz c Hc; apply (Hrd [] s ss q [] [] eq_refl eq_refl z c Hz Hc)). specialize (A5 RD m HP).
      assert (H2 : forall a s' b qa ca pa, ss = a ++ s' :: b -> dfmm_passes eb dim MAC (map (view r) a) n1 = Some (qa, ca, pa) -> forall x c, In x qa -> g_tab s' r (snd x) = Some c -> empty_node dim c = false).
      { intros a s' b qa ca pa Ea Ep x c Hx Hc. apply (Hrd (s :: a) s' b qa (c1 ++ ca) (p1 ++ pa)) with (x := x); [cbn [app]; congruence | | exact Hx | exact Hc]. cbn [map dfmm_passes view fst snd]. rewrite E1. cbn [fst snd]. change (map _ a) with (map (view r) a). rewrite Ep. reflexivity. }
      destruct m as [|m].
      * assert (n1 = []) by (destruct n1 as [|y n1]; [reflexivity|]; inversion A5 as [|? ? [X _] _]; lia). subst n1. clear - E2. assert (G : forall ts, dfmm_passes eb dim MAC ts [] = Some ([], [], [])) by (induction ts as [|t ts IHt]; [reflexivity|]; cbn [dfmm_passes dfmm_pass fst snd]; rewrite IHt; reflexivity). rewrite G in E2. injection E2 as <- _ _. reflexivity.
      * apply (B5 H2 m); [cbn [length] in Hm; lia|]. eapply Forall_impl; [|exact A5]. intros y [_ Y]. replace (S m - 1)%nat with m in Y by lia. exact Y.
Qed.
Lemma root_pair r s one : one_ok dim f pss (k_tab one) -> (0 < nr pss)%nat -> (r < nr pss)%nat -> Comms_inv.inv dim (nr pss) (tree_of (k_tab one)) s ->
  pair_ok dim pss s r (key_root, key_root) /\ plev dim pss (2 * N.to_nat (max_depth dim)) (key_root, key_root) /\ forall i j, (i < parts)%nat -> (j < parts)%nat -> cov dim pss i j (key_root, key_root) = 1%nat.
Proof.
  intros O1 Hn Hr HI. pose proof HS as (Hdim & _ & Hne & Hsort & Hf). apply full_keys_full in Hf.
  assert (C : cellat dim pss (max_depth dim) 1) by (split; [lia | left; tauto]).
  assert (H : here s r 1). { unfold here. pose proof (root_there dim Hdim f pss Hne Hsort Hf Hn (k_tab one) O1 s HI r Hr) as X. unfold look_r, key_root in X. destruct (g_tab s r 1); [discriminate | congruence]. }
  split; [|split].
  - unfold pair_ok, key_root. cbn [fst snd]. split; [exact H|]. split; [exact H|]. split; [exists (max_depth dim), (max_depth dim); tauto|]. split; [|left; reflexivity]. apply (above_has eb dim Hdim pss Hne Hsort Hf Hn Hmass Hrad Hids Hpos r (max_depth dim) 1 C).
    destruct (some_key dim Hdim f pss Hne Hsort Hf r Hr) as (k & Hk). exists k. split; [exact Hk|]. apply (up_root dim Hdim), (ks_full dim Hdim pss Hne Hsort Hf r), Hk.
  - exists (max_depth dim), (max_depth dim). cbn [fst snd]. split; [exact C|]. split; [exact C | lia].
  - intros i j Hi Hj. unfold cov, key_root. cbn [fst snd]. rewrite (ins eb dim Hdim pss Hne Hsort Hf Hn Hmass Hrad Hids Hpos (max_depth dim) 1 i C Hi), (ins eb dim Hdim pss Hne Hsort Hf Hn Hmass Hrad Hids Hpos (max_depth dim) 1 j C Hj). destruct (key_id eb dim Hdim pss Hne Hsort Hf Hn Hmass Hrad Hids Hpos i Hi) as (_ & _ & Fi), (key_id eb dim Hdim pss Hne Hsort Hf Hn Hmass Hrad Hids Hpos j Hj) as (_ & _ & Fj). rewrite !(up_root dim Hdim) by assumption. reflexivity.
Qed.

(** The rank makes its passes in states [ss], with whatever messages in between and however
    often pairs had to wait; no pair is left; then it does the rest.  Every particle of the
    rank has felt every particle of any rank, itself included, exactly once, and no
    particle of another rank has felt any. *)
Theorem C99_each_pair_once ss sf r cs pp fu rest : in_order start (ss ++ [sf]) -> (r < length pss)%nat -> passes r ss = Some ([], cs, pp) -> finish r sf fu cs pp = Some rest ->
  forall i j, (j < parts)%nat -> Fmm_spec.routes dim (map fst (concat pss)) (cs ++ rest) i j = (if existsb (Nat.eqb i) (map snd (nth r pss [])) then 1 else 0)%nat.
Proof.
  intros CH Hr EP EF i j Hj. destruct run_owners as (one & O1 & Hn & HR). pose proof HS as (Hdim & _ & Hne & Hsort & Hf). apply full_keys_full in Hf. destruct (HR start (st_refl _ _ _ _ _ _)) as (HI0 & _).
  destruct (root_pair r start one O1 Hn Hr HI0) as (P1 & _ & P3).
  destruct (passes_ok one r O1 Hn Hr HR ss start sf [(key_root, key_root)] (st_refl _ _ _ _ _ _) CH (Forall_cons _ P1 (Forall_nil _))) as (nq & cs' & pp' & E & _ & A2 & A3 & A4 & _). rewrite EP in E. injection E as <- <- <-.
  assert (RF : run start sf). { clear - CH. assert (G : forall ss s0, in_order s0 (ss ++ [sf]) -> run s0 sf) by (induction ss0 as [|s ss0 IH]; intros s0 H; cbn [app in_order] in H; [tauto|]; destruct H as [X1 X2]; apply (run_trans dim pss fuel _ s); [exact X1 | apply (IH s X2)]). apply (G ss start CH). }
  destruct (HR sf RF) as (HI & HO & HG). destruct (end_ok eb dim Hdim pss Hne Hsort Hf Hn Hmass Hrad Hids Hpos (k_tab one) O1 sf HI HO HG r Hr cs pp A2 A3) as (n0 & rest' & W & M1 & M2).
  assert (rest' = rest) by (specialize (W (Nat.max n0 fu) ltac:(lia)); rewrite (end_more _ _ _ _ _ _ _ EF (Nat.max n0 fu) ltac:(lia)) in W; congruence). subst rest'.
  destruct (existsb (Nat.eqb i) (map snd (nth r pss []))) eqn:Ei.
  - assert (Mi : mem pss r i) by (apply existsb_exists in Ei; destruct Ei as (x & Hx & Ex); apply Nat.eqb_eq in Ex; subst x; exact Hx). destruct (mem_key eb dim Hdim pss Hne Hsort Hf Hn Hmass Hrad Hids Hpos r i Hr Mi) as (Hi & _). specialize (M1 i j Mi Hj). specialize (A4 i j Mi Hj). rewrite nsum_cons, (P3 i j Hi Hj) in A4. unfold nsum at 1 2 in A4. cbn in A4. change (Fmm_spec.routes dim (Share_lemmas.K pss) (cs ++ rest) i j = 1%nat). lia.
  - apply (M2 i j); [|exact Hj]. intros Mi. assert (X : existsb (Nat.eqb i) (map snd (nth r pss [])) = true) by (apply existsb_exists; exists i; split; [exact Mi | apply Nat.eqb_refl]). congruence.
Qed.
(** No pass fails, in whatever states, and neither does the rest.  If there are more than
    twice as many passes as levels in which no source in the queue was an empty node, no pair is
    left. *)
Theorem C99_runs ss sf r : in_order start (ss ++ [sf]) -> (r < length pss)%nat -> exists q cs pp, passes r ss = Some (q, cs, pp) /\ (exists fu rest, finish r sf fu cs pp = Some rest) /\
  (forall s0 s1, ss = s0 ++ s1 -> (2 * N.to_nat (max_depth dim) < length s1)%nat ->
    (forall a s b qa ca pa, s1 = a ++ s :: b -> passes r (s0 ++ a) = Some (qa, ca, pa) -> forall x c, In x qa -> g_tab s r (snd x) = Some c -> empty_node dim c = false) -> q = []).
Proof.
  intros CH Hr. destruct run_owners as (one & O1 & Hn & HR). pose proof HS as (Hdim & _ & Hne & Hsort & Hf). apply full_keys_full in Hf. destruct (HR start (st_refl _ _ _ _ _ _)) as (HI0 & _).
  destruct (root_pair r start one O1 Hn Hr HI0) as (P1 & _ & _).
  destruct (passes_ok one r O1 Hn Hr HR ss start sf [(key_root, key_root)] (st_refl _ _ _ _ _ _) CH (Forall_cons _ P1 (Forall_nil _))) as (nq & cs & pp & E & _ & A2 & A3 & _ & _). exists nq, cs, pp. split; [exact E|].
  assert (ORD : forall a s0 s b, in_order s0 (a ++ s :: b) -> in_order s0 (a ++ [s]) /\ run s0 s /\ in_order s b).
  { induction a as [|x a IH]; intros s0 s b H; cbn [app in_order] in H |- *; [tauto|]. destruct H as [X1 X2]. destruct (IH x s b X2) as (Y1 & Y2 & Y3). split; [tauto|]. split; [apply (run_trans dim pss fuel _ x); assumption | exact Y3]. }
  split.
  - destruct (ORD ss start sf [] CH) as (_ & RF & _). destruct (HR sf RF) as (HI & HO & HG). destruct (end_ok eb dim Hdim pss Hne Hsort Hf Hn Hmass Hrad Hids Hpos (k_tab one) O1 sf HI HO HG r Hr cs pp A2 A3) as (n0 & rest & W & _). exists n0, rest. apply W. lia.
  - intros s0 s1 -> Hlen Hrd.
    assert (APP : forall a b q, dfmm_passes eb dim MAC (map (view r) (a ++ b)) q = match dfmm_passes eb dim MAC (map (view r) a) q with Some (q1, c1, p1) => match dfmm_passes eb dim MAC (map (view r) b) q1 with Some (q2, c2, p2) => Some (q2, c1 ++ c2, p1 ++ p2) | None => None end | None => None end).
    { induction a as [|t a IH]; intros b q; cbn [app map dfmm_passes]; [destruct (dfmm_passes eb dim MAC (map (view r) b) q) as [[[q2 c2] p2]|]; reflexivity|]. destruct (dfmm_pass eb dim MAC (fst (view r t)) (snd (view r t)) q) as [[[q1 c1] p1]|]; [|reflexivity]. cbn [fst snd]. rewrite IH.
      destruct (dfmm_passes eb dim MAC (map (view r) a) q1) as [[[q2 c2] p2]|]; [|reflexivity]. cbn [fst snd]. destruct (dfmm_passes eb dim MAC (map (view r) b) q2) as [[[q3 c3] p3]|]; [|reflexivity]. cbn [fst snd]. rewrite !app_assoc. reflexivity. }
    destruct s1 as [|s1 s1']; [cbn in Hlen; lia|]. rewrite <- app_assoc in CH. cbn [app] in CH. destruct (ORD s0 start s1 (s1' ++ [sf]) CH) as (CH1 & R1 & CH2).
    destruct (passes_ok one r O1 Hn Hr HR s0 start s1 [(key_root, key_root)] (st_refl _ _ _ _ _ _) CH1 (Forall_cons _ P1 (Forall_nil _))) as (q1 & c1 & p1 & E1 & B1 & _ & _ & _ & _).
    destruct (passes_ok one r O1 Hn Hr HR (s1 :: s1') s1 sf q1 R1 (conj (st_refl _ _ _ _ _ _) CH2) B1) as (q2 & c2 & p2 & E2 & _ & _ & _ & _ & B6).
    rewrite (APP s0 (s1 :: s1')), E1, E2 in E. injection E as <- _ _. apply (B6) with (m := (2 * N.to_nat (max_depth dim))%nat); [|exact Hlen|].
    + intros a s b qa ca pa Ea Ep x c Hx Hc. apply (Hrd a s b qa (c1 ++ ca) (p1 ++ pa) Ea) with (x := x); [rewrite APP, E1, Ep; reflexivity | exact Hx | exact Hc].
    + eapply Forall_impl; [|exact B1]. intros z (_ & _ & (la & lb & X1 & X2) & _). exists la, lb. split; [exact X1|]. split; [exact X2|]. destruct X1, X2. lia.
Qed.
End Props.

(** *** Examples: rank 1 of the two ranks of Dist_refuted, which has particles 1 and 2 *)
Lemma built_rank1 (f : N -> list nat -> list cofm -> cofm) : exists l, build_all 1 f pss3 = Some l /\ map (fun k => (look_r (tables l 1%nat) k, iam_owner 1 (tables l 1%nat) k)) [1; 2; 3; 6; 7] =
  [(Some (11, inr (f 1 [0%nat] [f 3 [1%nat; 2%nat] []])), true); (Some (8, inl 0%nat), false); (Some (3, inr (f 3 [1%nat; 2%nat] [])), true); (Some (0, inl 1%nat), true); (Some (0, inl 2%nat), true)] /\ map (fun k => option_map r_node (tables l 1%nat k)) [2; 6; 7] = [Some false; Some false; Some false].
Proof.
  assert (E : match build_all 1 f pss3 with Some l => Some (map (fun k => (look_r (tables l 1%nat) k, iam_owner 1 (tables l 1%nat) k)) [1; 2; 3; 6; 7], map (fun k => option_map r_node (tables l 1%nat k)) [2; 6; 7]) | None => None end =
    Some ([(Some (11, inr (f 1 [0%nat] [f 3 [1%nat; 2%nat] []])), true); (Some (8, inl 0%nat), false); (Some (3, inr (f 3 [1%nat; 2%nat] [])), true); (Some (0, inl 1%nat), true); (Some (0, inl 2%nat), true)], [Some false; Some false; Some false])) by (vm_compute; reflexivity).
  destruct (build_all 1 f pss3) as [l|]; [|discriminate]. exists l. split; [reflexivity|]. injection E as A1 A2 A3 A4 A5 A6 A7 A8 A9 A10 A11 A12 A13. cbn [map]. split; [|congruence]. rewrite A1, A2, A3, A4, A5, A6, A7, A8, A9, A10. reflexivity.
Qed.
Lemma eb3_apart i j : (i < 3)%nat -> (j < 3)%nat -> i <> j -> ~ peq 1 (b_pos (eb3 i)) (b_pos (eb3 j)).
Proof. intros Hi Hj Hn H. specialize (H 0%nat ltac:(lia)). destruct i as [|[|[|i]]], j as [|[|[|j]]]; try lia; cbn in H; lra. Qed.
(** an opening angle with which the rank takes particle 0 and its node of two together *)
Definition mac3 : R := ((cm_rad m3 + 1) / dist 1 (cm_pos m3) (b_pos (eb3 0)))%R.
Lemma mac3_ok : mac 1 (cm_pos m3) (cm_rad m3) (b_pos (eb3 0)) 0 mac3 = true.
Proof.
  unfold mac. apply Rltb_true. unfold mac3. assert (H : dist 1 (cm_pos m3) (b_pos (eb3 0)) <> 0%R).
  { intros E. apply dist_zero in E. specialize (E 0%nat ltac:(lia)). pose proof (Cofm_spec.so_pos _ _ _ m3_ok 0%nat) as P. pose proof (Cofm_spec.so_mass _ _ _ m3_ok) as M. rewrite E in P. cbn in P, M. lra. }
  unfold Rdiv. rewrite Rmult_assoc, Rinv_l by exact H. lra.
Qed.
Section Rank1.
Variables (lk : N -> option (N * (nat + cofm))) (mine : N -> bool).
Hypothesis L1 : lk 1 = Some (11, inr m1).
Hypothesis L2 : lk 2 = Some (8, inl 0%nat).
Hypothesis L3 : lk 3 = Some (3, inr m3).
Hypothesis L6 : lk 6 = Some (0, inl 1%nat).
Hypothesis L7 : lk 7 = Some (0, inl 2%nat).
Hypothesis O1 : mine 1 = true.
Hypothesis O2 : mine 2 = false.
Hypothesis O3 : mine 3 = true.
Hypothesis O6 : mine 6 = true.
Hypothesis O7 : mine 7 = true.
Lemma kids1 : dkids 1 lk 1 11 (digits 1) = Some [2; 3].
Proof. change (digits 1) with [0; 1]. cbn [dkids]. change (get_child 11 0) with true. change (get_child 11 1) with true. cbv beta iota. change (key_push 1 1 0) with (Some 2). change (key_push 1 1 1) with (Some 3). cbv beta iota. rewrite L2, L3. reflexivity. Qed.
Lemma kids3 : dkids 1 lk 3 3 (digits 1) = Some [6; 7].
Proof. change (digits 1) with [0; 1]. cbn [dkids]. change (get_child 3 0) with true. change (get_child 3 1) with true. cbv beta iota. change (key_push 1 3 0) with (Some 6). change (key_push 1 3 1) with (Some 7). cbv beta iota. rewrite L6, L7. reflexivity. Qed.
Lemma kids0 q : dkids 1 lk q 0 (digits 1) = Some []. Proof. reflexivity. Qed.
Lemma rank1_pass1 : dfmm_pass eb3 1 mac3 lk mine [(1, 1)] = Some ([(3, 2); (3, 3)], [], []).
Proof.
  cbn [dfmm_pass]. unfold dfmm_pair. cbn [fst snd]. rewrite L1, O1. cbn [negb dempty fst snd]. change (is_empty_node 1 11) with false. change (1 =? 1) with true. cbv iota. change (cm_sub m1 <? fmm_sub_limit)%nat with false. rewrite kids1. cbn [self_pairs flat_map app filter fst]. rewrite O2, O3. reflexivity.
Qed.
Lemma rank1_pass2 : dfmm_pass eb3 1 mac3 lk mine [(3, 2); (3, 3)] = Some ([(6, 6); (6, 7); (7, 6); (7, 7)], [C_p2c 3 0], []).
Proof.
  cbn [dfmm_pass]. unfold dfmm_pair. cbn [fst snd]. rewrite L2, L3, O3. cbn [negb dempty fst snd dextent]. change (is_empty_node 1 3) with false. change (3 =? 2) with false. change (3 =? 3) with true. cbv iota. change (cm_sub m3 <? fmm_sub_limit)%nat with false. change (N.to_nat 1) with 1%nat. rewrite mac3_ok, kids3. cbn [self_pairs flat_map app filter fst snd]. rewrite O6, O7. reflexivity.
Qed.
Lemma rank1_pass3 : dfmm_pass eb3 1 mac3 lk mine [(6, 6); (6, 7); (7, 6); (7, 7)] = Some ([], [], [(6, 6); (6, 7); (7, 6); (7, 7)]).
Proof. cbn [dfmm_pass]. unfold dfmm_pair. cbn [fst snd]. rewrite L6, L7, O6, O7. reflexivity. Qed.
Lemma rank1_end : dfmm_end 1 lk mine 9 [C_p2c 3 0] [(6, 6); (6, 7); (7, 6); (7, 7)] =
  Some [C_c2p 3 [2; 1]%nat; C_p2p 1 None [1%nat]; C_p2p 1 None [2%nat]; C_p2p 2 None [1%nat]; C_p2p 2 None [2%nat]].
Proof.
  unfold dfmm_end, key_root. rewrite dwalk_S, L1. unfold daffected_func at 1. rewrite O1. cbv zeta. cbn [negb fst snd]. rewrite kids1. cbn [rev app].
  rewrite dwalk_S, L3. unfold daffected_func at 1. rewrite O3. cbv zeta. cbn [negb fst snd]. rewrite kids3. cbn [rev app].
  rewrite dwalk_S, L7. unfold daffected_func at 1. rewrite O7. cbv zeta. cbn [negb fst snd]. rewrite kids0. cbn [rev app].
  rewrite dwalk_S, L6. unfold daffected_func at 1. rewrite O6. cbv zeta. cbn [negb fst snd]. rewrite kids0. cbn [rev app].
  rewrite dwalk_S, L2. unfold daffected_func. rewrite O2. cbv zeta. cbn [negb fst snd]. change (affected [C_p2c 3 0] 1) with false. change (affected [C_p2c 3 0] 3) with true. cbn [dwalk app].
  cbn [dc2p_calls]. rewrite dwalk_S, L3. cbv zeta. cbn [dgroup_func fst snd]. rewrite kids3. cbn [rev app]. rewrite dwalk_S, L7. cbv zeta. cbn [dgroup_func fst snd]. change (is_shared 1 0) with false. cbv iota. rewrite dwalk_S, L6. cbv zeta. cbn [dgroup_func fst snd]. change (is_shared 1 0) with false. cbv iota. cbn [dwalk app].
  cbn [dp2p_calls fst snd]. rewrite L6, L7. reflexivity.
Qed.
End Rank1.
(** C99_each_pair_once: particle 0 of the other rank acts on the node of the two, they act on
    one another directly *)
Example C99_each_pair_once_example : exists l, spread 1 pss3 /\ build_all 1 (cofm_of eb3 (N.to_nat 1)) pss3 = Some l /\
  (forall x, In x (concat pss3) -> (0 < b_mass (eb3 (snd x)))%R) /\ (forall x, In x (concat pss3) -> (0 <= b_rad (eb3 (snd x)))%R) /\
  map snd (concat pss3) = seq 0 (length (concat pss3)) /\ (forall i j, (i < length (concat pss3))%nat -> (j < length (concat pss3))%nat -> i <> j -> ~ peq (N.to_nat 1) (b_pos (eb3 i)) (b_pos (eb3 j))) /\
  let s := g_init (tables l) (fun _ _ => false) (fun _ => false) (fun _ => []) in
  let cs := [C_p2c 3 0] in let pp := [(6, 6); (6, 7); (7, 6); (7, 7)] in
  let rest := [C_c2p 3 [2; 1]%nat; C_p2p 1 None [1%nat]; C_p2p 1 None [2%nat]; C_p2p 2 None [1%nat]; C_p2p 2 None [2%nat]] in
  in_order 1 pss3 9 s [s; s; s; s] /\ dfmm_passes eb3 1 mac3 (map (view 1) [s; s; s]) [(key_root, key_root)] = Some ([], cs, pp) /\
  dfmm_end 1 (look_r (g_tab s 1%nat)) (iam_owner 1 (g_tab s 1%nat)) 9 cs pp = Some rest /\
  map (fun i => map (Fmm_spec.routes 1 (map fst (concat pss3)) (cs ++ rest) i) [0; 1; 2]%nat) [0; 1; 2]%nat = [[0; 0; 0]; [1; 1; 1]; [1; 1; 1]]%nat.
Proof.
  change (N.to_nat 1) with 1%nat. destruct (built_rank1 (cofm_of eb3 1)) as (l & B & E & E2). cbn [map] in E. injection E as A1 A2 A3 A4 A5 A6 A7 A8 A9 A10. exists l. split; [apply spread3|]. split; [exact B|]. split; [intros x _; destruct (snd x) as [|[|i]]; cbn; lra|]. split; [intros x _; pose proof (eb3_rad (snd x)); lra|]. split; [reflexivity|]. split; [apply eb3_apart|].
  intros s cs pp rest. split; [repeat split; apply st_refl|]. split; [|split; [apply rank1_end; assumption | vm_compute; reflexivity]].
  cbn [map dfmm_passes view fst snd]. unfold key_root. cbn [g_init g_tab s]. rewrite rank1_pass1 by assumption. cbn [fst snd]. rewrite rank1_pass2 by assumption. cbn [fst snd]. rewrite rank1_pass3 by assumption. reflexivity.
Qed.
(** C99_runs: rank 0 of the same; its cell 3 is an empty node, so that a pair waits after any
    number of passes without a message *)
Example C99_runs_example : exists l, spread 1 pss3 /\ build_all 1 (cofm_of eb3 (N.to_nat 1)) pss3 = Some l /\
  let s := g_init (tables l) (fun _ _ => false) (fun _ => false) (fun _ => []) in
  forall k, dfmm_passes eb3 1 mac3 (map (view 0) (s :: s :: repeat s k)) [(key_root, key_root)] = Some ([(2, 3)], [], [(2, 2)]).
Proof.
  change (N.to_nat 1) with 1%nat. set (f := cofm_of eb3 1). assert (E : match build_all 1 f pss3 with Some l => Some (map (fun k => (look_r (tables l 0%nat) k, iam_owner 0 (tables l 0%nat) k)) [1; 2; 3]) | None => None end =
    Some [(Some (11, inr (f 1 [0%nat] [f 3 [1%nat; 2%nat] []])), true); (Some (0, inl 0%nat), true); (Some (8, inr (f 3 [1%nat; 2%nat] [])), false)]) by (clearbody f; vm_compute; reflexivity).
  destruct (build_all 1 f pss3) as [l|]; [|discriminate]. cbn [map] in E. injection E as A1 A2 A3 A4 A5 A6. change (f 3 [1%nat; 2%nat] []) with m3 in *. change (f 1 [0%nat] [m3]) with m1 in *. clearbody f. exists l. split; [apply spread3|]. split; [reflexivity|].
  assert (K1 : dkids 1 (look_r (tables l 0%nat)) 1 11 (digits 1) = Some [2; 3]) by (change (digits 1) with [0; 1]; cbn [dkids]; change (get_child 11 0) with true; change (get_child 11 1) with true; cbv beta iota; change (key_push 1 1 0) with (Some 2); change (key_push 1 1 1) with (Some 3); cbv beta iota; rewrite A3, A5; reflexivity).
  assert (W : dfmm_pass eb3 1 mac3 (look_r (tables l 0%nat)) (iam_owner 0 (tables l 0%nat)) [(2, 3)] = Some ([(2, 3)], [], [])) by (cbn [dfmm_pass]; unfold dfmm_pair; cbn [fst snd]; rewrite A3, A4, A5; reflexivity).
  intros s k. assert (G : dfmm_passes eb3 1 mac3 (map (view 0) (repeat s k)) [(2, 3)] = Some ([(2, 3)], [], [])) by (induction k as [|k IH]; [reflexivity|]; cbn [repeat map dfmm_passes]; cbn [view fst snd g_init g_tab s]; rewrite W; cbn [fst snd]; rewrite IH; reflexivity).
  cbn [map dfmm_passes]. cbn [view fst snd g_init g_tab s]. unfold key_root. unfold dfmm_pass at 1. unfold dfmm_pair. cbn [fst snd]. rewrite A1, A2. cbn [negb dempty fst snd]. change (is_empty_node 1 11) with false. change (1 =? 1) with true. cbv iota. change (cm_sub m1 <? fmm_sub_limit)%nat with false. rewrite K1. cbn [self_pairs flat_map app filter fst snd]. rewrite A4, A6. cbn [app fst snd].
  unfold dfmm_pass at 1. unfold dfmm_pair. cbn [fst snd]. rewrite A3, A4, A5. cbn [negb dempty fst snd]. change (is_empty_node 1 8) with true. cbn [app fst snd]. rewrite G. reflexivity.
Qed.
(** C99_runs: rank 1 of the same meets no empty node in any number of passes *)
Example C99_runs_ready_example : exists l, build_all 1 (cofm_of eb3 (N.to_nat 1)) pss3 = Some l /\
  let s := g_init (tables l) (fun _ _ => false) (fun _ => false) (fun _ => []) in
  let ss := repeat s 200 in in_order 1 pss3 9 s (ss ++ [s]) /\ (2 * N.to_nat (max_depth 1) < length ss)%nat /\
  forall a s' b qa ca pa, ss = a ++ s' :: b -> dfmm_passes eb3 1 mac3 (map (view 1) a) [(key_root, key_root)] = Some (qa, ca, pa) -> forall x c, In x qa -> g_tab s' 1%nat (snd x) = Some c -> empty_node 1 c = false.
Proof.
  change (N.to_nat 1) with 1%nat. destruct (built_rank1 (cofm_of eb3 1)) as (l & B & E & E2). cbn [map] in E. injection E as A1 A2 A3 A4 A5 A6 A7 A8 A9 A10. exists l. split; [exact B|]. intros s ss.
  split; [|split; [apply Nat.ltb_lt; vm_compute; reflexivity|]].
  - subst ss. generalize 200%nat. intros m. assert (G : in_order 1 pss3 9 s (repeat s m ++ [s])) by (induction m as [|m IH]; cbn [repeat app in_order]; split; auto; apply st_refl). exact G.
  - intros a s' b qa ca pa Ha E x c Hx Hc. assert (Es : s' = s) by (apply (repeat_spec 200 s s'); fold ss; rewrite Ha; apply in_or_app; right; left; reflexivity). assert (Ra : a = repeat s (length a)) by (apply Forall_eq_repeat, Forall_forall; intros y Hy; symmetry; apply (repeat_spec 200 s y); fold ss; rewrite Ha; apply in_or_app; left; exact Hy).
    assert (N0 : forall m, dfmm_passes eb3 1 mac3 (map (view 1) (repeat s m)) [] = Some ([], [], [])) by (induction m as [|m IH]; [reflexivity|]; cbn [repeat map dfmm_passes dfmm_pass fst snd]; rewrite IH; reflexivity).
    assert (W : In (snd x) [1; 2; 3; 6; 7]).
    { rewrite Ra in E. destruct (length a) as [|[|[|m]]]; cbn [repeat map dfmm_passes view fst snd] in E; unfold key_root in E; cbn [g_init g_tab s] in E.
      - injection E as <- _ _. destruct Hx as [<-|[]]. cbn. tauto.
      - rewrite rank1_pass1 in E by assumption. cbn [fst snd] in E. injection E as <- _ _. cbn in Hx. destruct Hx as [<-|[<-|[]]]; cbn; tauto.
      - rewrite rank1_pass1 in E by assumption. cbn [fst snd] in E. rewrite rank1_pass2 in E by assumption. cbn [fst snd] in E. injection E as <- _ _. cbn in Hx. destruct Hx as [<-|[<-|[<-|[<-|[]]]]]; cbn; tauto.
      - rewrite rank1_pass1 in E by assumption. cbn [fst snd] in E. rewrite rank1_pass2 in E by assumption. cbn [fst snd] in E. rewrite rank1_pass3 in E by assumption. cbn [fst snd] in E. rewrite N0 in E. injection E as <- _ _. destruct Hx. }
    rewrite Es in Hc. cbn [g_init g_tab s] in Hc. unfold look_r in *. destruct W as [W|[W|[W|[W|[W|[]]]]]]; rewrite <- W in Hc; rewrite Hc in *; unfold empty_node.
    all: cbn [map option_map] in E2; try rewrite Hc in E2; cbn [option_map] in E2; injection E2 as B1 B2 B3; rewrite ?B1, ?B2, ?B3; try reflexivity.
    + destruct (r_data c); [|discriminate]. injection A1 as A1 _. rewrite A1. apply andb_false_r.
    + destruct (r_data c); [|discriminate]. injection A5 as A5 _. rewrite A5. apply andb_false_r.
Qed.

Print Assumptions C99_each_pair_once.
Print Assumptions C99_runs.
