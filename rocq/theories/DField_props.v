(** C100: the accelerations of the gravity traversal on several ranks. *)
From Coq Require Import Sorted Permutation.
From Verif Require Import Base Key_model HCell_model BuildTree_model BuildTree_lemmas BuildTree_inv BuildTree_props Vec Geometry_model Geometry_props Cofm_model
  Share_model Share_lemmas Share_sums Share_table Share_rounds Share_final Share_world Share_reach Share_flags Share_props Comms_model Dist_model Dist_lemmas Dist_walk Dist_near Dist_reach Dist_cover Dist_target Dist_refuted Dist_props Dist_all_props.
From Verif Require Comms_lemmas Comms_props Comms_flags Fmm_spec FmmError_props.
From Verif Require Import Search_model Gravity_model Fmm_model Fmm_proofs DFmm_owner DFmm_model DFmm_cells DFmm_pairs DFmm_end DFmm_props DFmm_exec DFmm_more.
Local Open Scope N_scope.

(** From replacement positions that satisfy the acceptance criterion to the error, as in C69. *)
Lemma replaced_error n N0 (eb : nat -> body) theta gc i (sx sy : nat -> point) : (i < N0)%nat -> (0 <= theta)%R ->
  (forall j, (j < N0)%nat -> (0 < b_mass (eb j))%R) -> (forall j, (j < N0)%nat -> i <> j -> ~ peq n (b_pos (eb i)) (b_pos (eb j))) ->
  let pos := fun i => b_pos (eb i) in let mass := fun i => b_mass (eb i) in
  let rest := filter (fun j => negb (Nat.eqb j i)) (seq 0 N0) in
  (forall j, (j < N0)%nat -> i <> j -> exists rx ry, (dist n (pos i) (sx j) <= rx)%R /\ (dist n (pos j) (sy j) <= ry)%R /\ (sx j = pos i /\ sy j = pos j \/ (rx + ry < theta * dist n (sx j) (sy j))%R)) ->
  (norm n (fun k => suml (fun j => p2p_acc n gc (sx j) (sy j) (mass j) k) rest - suml (fun j => - gc * mass j / (dist n (pos i) (pos j) * dist n (pos i) (pos j) * dist n (pos i) (pos j)) * (pos i k - pos j k)) rest) <=
   theta * (4 + 5 * theta + 2 * theta * theta) * suml (fun j => Rabs gc * mass j / (dist n (pos i) (pos j) * dist n (pos i) (pos j))) rest)%R.
Proof.
  intros Hi Ht Hmass Hdist pos mass rest H1. Local Open Scope R_scope.
  rewrite (FmmError_props.norm_ext n _ (fun k => suml (fun j => p2p_acc n gc (sx j) (sy j) (mass j) k -
     - gc * mass j / (dist n (pos i) (pos j) * dist n (pos i) (pos j) * dist n (pos i) (pos j)) * (pos i k - pos j k)) rest)) by (intros k _; rewrite suml_minus; reflexivity).
  eapply Rle_trans; [apply (FmmError_props.norm_suml n (fun j k => p2p_acc n gc (sx j) (sy j) (mass j) k -
     - gc * mass j / (dist n (pos i) (pos j) * dist n (pos i) (pos j) * dist n (pos i) (pos j)) * (pos i k - pos j k)))|].
  rewrite <- suml_scal. apply FmmError_props.suml_mono. intros j Hj. unfold rest in Hj. apply filter_In in Hj. destruct Hj as [Hj Hji].
  apply in_seq in Hj. apply negb_true_iff, Nat.eqb_neq in Hji.
  assert (Hm : 0 < mass j) by (apply Hmass; lia).
  assert (Hr : 0 < dist n (pos i) (pos j)).
  { destruct (Rle_lt_or_eq_dec _ _ (dist_nonneg n (pos i) (pos j))) as [L|L]; [exact L|]. symmetry in L. apply dist_zero in L. exfalso. apply (Hdist j); [lia | congruence | exact L]. }
  destruct (H1 j ltac:(lia) ltac:(congruence)) as (rx & ry & Dx & Dy & [[Qx Qy]|Q]).
  - rewrite Qx, Qy. rewrite (FmmError_props.norm_ext n _ (fun _ => 0)), FmmError_props.norm_zero by (intros k _; unfold p2p_acc; ring).
    apply Rmult_le_pos; [nra|]. apply Rmult_le_pos; [apply Rmult_le_pos; [apply Rabs_pos|apply Rlt_le; exact Hm]|]. apply Rlt_le, Rinv_0_lt_compat, Rmult_lt_0_compat; exact Hr.
  - pose proof (dist_nonneg n (pos i) (sx j)) as N1. pose proof (dist_nonneg n (pos j) (sy j)) as N2. pose proof (dist_nonneg n (sx j) (sy j)) as N3.
    assert (Hd : 0 < dist n (sx j) (sy j)). { destruct (Rle_lt_or_eq_dec _ _ N3) as [L|L]; [exact L|]. rewrite <- L in Q. lra. }
    set (r := dist n (pos i) (pos j)) in *. set (d := dist n (sx j) (sy j)) in *.
    rewrite (FmmError_props.norm_ext n _ (fun k => (gc * mass j) * (vsub (pos i) (pos j) k / (r * r * r) - vsub (sx j) (sy j) k / (d * d * d)))).
    2:{ intros k _. unfold p2p_acc, vsub. fold d. field. lra. }
    rewrite (FmmError_props.norm_scal n (gc * mass j)).
    apply Rle_trans with (Rabs gc * mass j * (theta * (4 + 5 * theta + 2 * theta * theta) / (r * r))).
    2:{ right. match goal with |- _ = ?e => change e with (theta * (4 + 5 * theta + 2 * theta * theta) * (Rabs gc * mass j / (r * r))) end. clearbody r. field. apply Rgt_not_eq. exact Hr. }
    rewrite Rabs_mult, (Rabs_right (mass j)) by (apply Rle_ge, Rlt_le; exact Hm).
    apply Rmult_le_compat_l; [apply Rmult_le_pos; [apply Rabs_pos|apply Rlt_le; exact Hm]|].
    apply FmmError_props.attraction_diff; try assumption; try reflexivity.
    rewrite (FmmError_props.norm_ext n _ (vadd (vsub (pos i) (sx j)) (vsub (sy j) (pos j)))) by (intros k _; unfold vadd, vsub; ring).
    eapply Rle_trans; [apply norm_triangle|]. rewrite <- !dist_norm, (dist_sym n (sy j)). lra.
Qed.
Local Open Scope N_scope.

Set Default Proof Using "All".
Section Field.
Context (eb : nat -> body) (dim : N) (MAC gc : R) (pss : list (list (N * nat))).
Notation n := (N.to_nat dim).
Notation f := (cofm_of eb n).
Notation parts := (length (concat pss)).
Context (l : list (rank_st nat cofm)) (fuel : nat) (dn : nat -> nat -> bool) (al : nat -> bool) (w : nat -> list N).
Notation run := (steps dim (length pss) false keeps fuel).
Notation start := (g_init (tables l) dn al w).
Notation in_order := (in_order dim pss fuel).
Notation passes r ss := (dfmm_passes eb dim MAC (map (view r) ss) [(key_root, key_root)]).
Notation finish r s fu cs pp := (dfmm_end dim (look_r (g_tab s r)) (iam_owner r (g_tab s r)) fu cs pp).
Notation bodies := (map eb (seq 0 parts)).
(** the calls of a rank, made with the nodes it has in a state *)
Notation forces r s calls := (exec_all n gc (node_of (look_r (g_tab s r))) bodies gstate0 calls).
Notation pos i := (b_pos (eb i)).
Notation mass i := (b_mass (eb i)).
Notation others i := (filter (fun j => negb (Nat.eqb j i)) (seq 0 parts)).

Hypothesis HS : spread dim pss.
Hypothesis El : build_all dim f pss = Some l.
Hypothesis Hmass : forall x, In x (concat pss) -> (0 < b_mass (eb (snd x)))%R.
Hypothesis Hrad : forall x, In x (concat pss) -> (0 <= b_rad (eb (snd x)))%R.
Hypothesis Hids : map snd (concat pss) = seq 0 parts.
Hypothesis Hpos : forall i j, (i < parts)%nat -> (j < parts)%nat -> i <> j -> ~ peq n (pos i) (pos j).

Definition good (one : rank_st nat cofm) : Prop := forall s, run start s -> Comms_inv.inv dim (nr pss) (tree_of (k_tab one)) s /\ (forall r, (r < nr pss)%nat -> Comms_flags.own dim (tree_of (k_tab one)) (above dim pss) r (g_tab s r)) /\ owners dim (nr pss) (tree_of (k_tab one)) (above dim pss) s.
Lemma node_later one s1 s2 r k m : good one -> run start s1 -> run s1 s2 -> node_is eb dim pss s1 r k m -> node_is eb dim pss s2 r k m.
Proof. intros HR R1 R2 [H X]. split; [|exact X]. apply (run_there dim pss l fuel dn al w s1 s2 r k (k_tab one) R1 R2 (fun s R => proj1 (HR s R)) H). Qed.
Lemma accepted_later one s1 s2 r c : good one -> run start s1 -> run s1 s2 -> accepted eb dim pss s1 r MAC c -> accepted eb dim pss s2 r MAC c.
Proof.
  intros HR R1 R2 [H X]. split; [exact H|]. pose proof (node_later one s1 s2 r) as NL. destruct c as [k q|k e|e [q|] [|x t]|k t]; try exact X.
  - destruct X as (m1 & m2 & X1 & X2 & X3). exists m1, m2. split; [apply NL; assumption|]. split; [apply NL; assumption | exact X3].
  - destruct X as (m1 & X1 & X2). exists m1. split; [apply NL; assumption | exact X2].
  - destruct X as (m1 & X1 & X2). exists m1. split; [apply NL; assumption | exact X2].
Qed.
Lemma last_run : forall ss s0 sf, in_order s0 (ss ++ [sf]) -> run s0 sf.
Proof. induction ss as [|s ss IH]; intros s0 sf H; cbn [app DFmm_props.in_order] in H; [tauto|]. destruct H as [H1 H2]. apply (run_trans dim pss fuel _ s); [exact H1 | apply (IH s sf H2)]. Qed.
Lemma passes_more one r : one_ok dim f pss (k_tab one) -> (0 < nr pss)%nat -> (r < nr pss)%nat -> good one ->
  forall ss s0 sf q nq cs pp, run start s0 -> in_order s0 (ss ++ [sf]) -> Forall (pair_ok dim pss s0 r) q -> Forall (diag dim pss r) q ->
  dfmm_passes eb dim MAC (map (view r) ss) q = Some (nq, cs, pp) -> Forall (accepted eb dim pss sf r MAC) cs.
Proof.
  intros O1 Hn Hr HR. pose proof HS as (Hdim & _ & Hne & Hsort & Hf). apply full_keys_full in Hf.
  assert (TH : forall s1 s2 k, run start s1 -> run s1 s2 -> here s1 r k -> here s2 r k) by (intros s1 s2 k R1 R2 H; apply (run_there dim pss l fuel dn al w s1 s2 r k (k_tab one) R1 R2 (fun s R => proj1 (HR s R)) H)).
  assert (TP : forall s1 s2 z, run start s1 -> run s1 s2 -> pair_ok dim pss s1 r z -> pair_ok dim pss s2 r z) by (intros s1 s2 z R1 R2 (A1 & A2 & A3); split; [apply (TH s1 s2 _ R1 R2 A1)|]; split; [apply (TH s1 s2 _ R1 R2 A2) | exact A3]).
  induction ss as [|s ss IH]; intros s0 sf q nq cs pp R0 CH HQ HD E; cbn [app DFmm_props.in_order] in CH; destruct CH as [R1 CH].
  - injection E as _ <- _. constructor.
  - assert (R : run start s) by (apply (run_trans dim pss fuel _ s0); assumption). destruct (HR s R) as (HI & HO & HG).
    assert (HQ' : Forall (pair_ok dim pss s r) q) by (eapply Forall_impl; [|exact HQ]; intros z; apply (TP s0 s z R0 R1)).
    destruct (pass_step eb dim Hdim pss Hne Hsort Hf Hn Hmass Hrad Hids Hpos (k_tab one) O1 s HI HO HG r Hr MAC q HQ') as (n1 & c1 & p1 & E1 & A1 & _). destruct (pass_more eb dim Hdim pss Hne Hsort Hf Hn Hmass Hrad Hids Hpos (k_tab one) O1 s HI HO HG r Hr MAC q n1 c1 p1 HQ' HD E1) as (D1 & X1).
    cbn [map dfmm_passes view fst snd] in E. rewrite E1 in E. cbn [fst snd] in E. change (look_r (g_tab s r), iam_owner r (g_tab s r)) with (view r s) in E. destruct (dfmm_passes eb dim MAC (map (view r) ss) n1) as [[[n2 c2] p2]|] eqn:E2; [|discriminate]. cbn [fst snd] in E. injection E as _ <- _.
    apply Forall_app. split; [|apply (IH s sf n1 n2 c2 p2 R CH A1 D1 E2)]. eapply Forall_impl; [|exact X1]. intros c. apply (accepted_later one s sf r c HR R (last_run ss s sf CH)).
Qed.

(** A rank that has a node in a state has it, with the same summary, in every later one: it does
    not matter whether the calls of the passes are made in the passes, as the code does, or
    with the nodes the rank has in the end. *)
Theorem C100_nodes s1 s2 r k m : run start s1 -> run s1 s2 -> (r < length pss)%nat -> node_of (look_r (g_tab s1 r)) k = Some m -> node_of (look_r (g_tab s2 r)) k = Some m.
Proof.
  intros R1 R2 Hr E. destruct (run_owners eb dim MAC pss l fuel dn al w HS El Hmass Hrad Hids Hpos) as (one & O1 & Hn & HR). pose proof HS as (Hdim & _ & Hne & Hsort & Hf). apply full_keys_full in Hf.
  destruct (HR s1 R1) as (HI & HO & HG). destruct (HR s2 (run_trans dim pss fuel _ _ _ R1 R2)) as (HI2 & HO2 & HG2).
  unfold node_of in E. destruct (look_r (g_tab s1 r) k) as [[w0 [e|m0]]|] eqn:E1; try discriminate. injection E as ->.
  pose proof (look_node eb dim Hdim pss Hne Hsort Hf Hn Hmass Hrad Hids Hpos (k_tab one) O1 s1 HI HO HG r Hr MAC k w0 m E1) as NI. apply (node_later one s1 s2 r k m HR R1 R2) in NI.
  destruct (node_at eb dim Hdim pss Hne Hsort Hf Hn Hmass Hrad Hids Hpos (k_tab one) O1 s2 HI2 HO2 HG2 r Hr MAC k m NI) as (w2 & E2). unfold node_of. rewrite E2. reflexivity.
Qed.

(** the accelerations and potentials, with the calls they come from *)
Lemma field_calls ss sf r cs pp fu rest : in_order start (ss ++ [sf]) -> (r < length pss)%nat -> passes r ss = Some ([], cs, pp) -> finish r sf fu cs pp = Some rest ->
  exists s, forces r sf (cs ++ rest) = Some s /\
  (forall i, (i < parts)%nat -> ~ In i (map snd (nth r pss [])) -> (forall k, s_acc s i k = 0%R) /\ s_pot s i = 0%R) /\
  exists sx sy : nat -> nat -> point,
    (forall i j, In i (map snd (nth r pss [])) -> (j < parts)%nat -> i <> j -> exists rx ry,
       (dist n (pos i) (sx i j) <= rx)%R /\ (dist n (pos j) (sy i j) <= ry)%R /\
       (sx i j = pos i /\ sy i j = pos j \/ (rx + ry < MAC * dist n (sx i j) (sy i j))%R)) /\
    (forall i j, In i (map snd (nth r pss [])) -> (j < parts)%nat -> i <> j -> exists c, (In c cs /\ covc dim pss i j c <> 0%nat \/ c = C_p2p i None [j] /\ In c rest) /\
       sx i j = cp1 (node_of (look_r (g_tab sf r))) bodies c /\ sy i j = cp2 (node_of (look_r (g_tab sf r))) bodies c) /\
    (forall i k, In i (map snd (nth r pss [])) -> s_acc s i k = suml (fun j => p2p_acc n gc (sx i j) (sy i j) (mass j) k) (others i)) /\
    (forall i, In i (map snd (nth r pss [])) -> s_pot s i = suml (fun j => p2p_pot n gc (sx i j) (sy i j) (mass j) +
       sumn n (fun m => - (pos i m - sx i j m) * p2p_acc n gc (sx i j) (sy i j) (mass j) m))%R (others i)).
Proof.
  intros CH Hr EP EF. pose proof (C99_each_pair_once eb dim MAC pss l fuel dn al w HS El Hmass Hrad Hids Hpos ss sf r cs pp fu rest CH Hr EP EF) as RT.
  destruct (run_owners eb dim MAC pss l fuel dn al w HS El Hmass Hrad Hids Hpos) as (one & O1 & Hn & HR). pose proof HS as (Hdim & _ & Hne & Hsort & Hf). apply full_keys_full in Hf. destruct (HR start (st_refl _ _ _ _ _ _)) as (HI0 & _).
  destruct (root_pair eb dim MAC pss l fuel dn al w HS El Hmass Hrad Hids Hpos r start one O1 Hn Hr HI0) as (P1 & _ & _).
  assert (DG : diag dim pss r (key_root, key_root)) by (left; reflexivity).
  pose proof (passes_more one r O1 Hn Hr HR ss start sf _ _ _ _ (st_refl _ _ _ _ _ _) CH (Forall_cons _ P1 (Forall_nil _)) (Forall_cons _ DG (Forall_nil _)) EP) as AC.
  destruct (passes_ok eb dim MAC pss l fuel dn al w HS El Hmass Hrad Hids Hpos one r O1 Hn Hr HR ss start sf [(key_root, key_root)] (st_refl _ _ _ _ _ _) CH (Forall_cons _ P1 (Forall_nil _))) as (nq & cs' & pp' & E & _ & A2 & A3 & _ & _). rewrite EP in E. injection E as <- <- <-.
  pose proof (last_run ss start sf CH) as RF. destruct (HR sf RF) as (HI & HO & HG).
  destruct (end_calls eb dim Hdim pss Hne Hsort Hf Hn Hmass Hrad Hids Hpos (k_tab one) O1 sf HI HO HG r Hr MAC cs pp A3) as (n0 & rest' & W & LC).
  assert (rest' = rest) by (specialize (W (Nat.max n0 fu) ltac:(lia)); rewrite (end_more _ _ _ _ _ _ _ EF (Nat.max n0 fu) ltac:(lia)) in W; congruence). subst rest'.
  set (na := node_of (look_r (g_tab sf r))) in *. set (K := map fst (concat pss)) in *. assert (LK : length K = parts) by apply map_length.
  assert (GB : forall i, (i < parts)%nat -> get_body bodies i = eb i) by (intros i Hi; unfold get_body; rewrite (nth_indep _ dummy_body (eb 0)) by (rewrite map_length, seq_length; exact Hi); rewrite map_nth, List.seq_nth by exact Hi; reflexivity).
  assert (NS : forall k m, node_is eb dim pss sf r k m -> na k = Some m) by (intros k m H; destruct (node_at eb dim Hdim pss Hne Hsort Hf Hn Hmass Hrad Hids Hpos (k_tab one) O1 sf HI HO HG r Hr MAC k m H) as (w2 & E2); unfold na, node_of; rewrite E2; reflexivity).
  assert (OC : Forall (okc na K) cs).
  { eapply Forall_impl; [|exact AC]. intros c [_ X]. destruct c as [k q|k e|e [q|] [|x t]|k t]; cbn [okc]; try exact X.
    - destruct X as (m1 & m2 & X1 & X2 & _). rewrite (NS _ _ X1), (NS _ _ X2). split; discriminate.
    - destruct X as (m1 & X1 & X2 & _). rewrite (NS _ _ X1), LK. split; [discriminate | exact X2].
    - destruct X as (m1 & X1 & _). rewrite (NS _ _ X1). discriminate. }
  assert (OR : Forall (okr na K) rest).
  { eapply Forall_impl; [|exact LC]. intros c X. destruct c as [k q|k e|e [q|] [|x [|y t]]|k t]; cbn [okr lastcall] in *; try exact X.
    - rewrite LK. exact X.
    - destruct X as ((m & X) & _). rewrite (NS _ _ X). discriminate. }
  assert (HM : forall q m, na q = Some m -> cm_mass m = suml (fun j => (INR (Fmm_spec.inside dim K q j) * b_mass (get_body bodies j))%R) (seq 0 (length K))).
  { intros q m Eq. unfold na, node_of in Eq. destruct (look_r (g_tab sf r) q) as [[w0 [e|m0]]|] eqn:E1; try discriminate. injection Eq as ->.
    pose proof (look_node eb dim Hdim pss Hne Hsort Hf Hn Hmass Hrad Hids Hpos (k_tab one) O1 sf HI HO HG r Hr MAC q w0 m E1) as NI.
    rewrite (node_mass eb dim Hdim pss Hne Hsort Hf Hn Hmass Hrad Hids Hpos (k_tab one) O1 sf HI HO HG r Hr MAC q m NI), LK. apply suml_ext. intros j Hj. apply in_seq in Hj. rewrite (GB j) by lia. reflexivity. }
  destruct (exec_sum dim gc na bodies K cs rest OC OR) as (s & ES & SA & SP). exists s. split; [exact ES|].
  assert (MI : forall i, In i (map snd (nth r pss [])) -> (i < parts)%nat) by (intros i Hi; apply (mem_key eb dim Hdim pss Hne Hsort Hf Hn Hmass Hrad Hids Hpos r i Hr Hi)).
  assert (R1 : forall i j, In i (map snd (nth r pss [])) -> (j < length K)%nat -> Fmm_spec.routes dim K (cs ++ rest) i j = 1%nat).
  { intros i j Hi Hj. rewrite (RT i j) by lia. replace (existsb _ _) with true; [reflexivity|]. symmetry. apply existsb_exists. exists i. split; [exact Hi | apply Nat.eqb_refl]. }
  rewrite Forall_forall in AC, LC.
  assert (CV : forall c i j, In c cs -> In i (map snd (nth r pss [])) -> (Fmm_spec.direct dim K i j c <> 0%nat \/ exists p, Fmm_spec.inside dim K p i = 1%nat /\ Fmm_spec.on_cell dim K p j c <> 0%nat) -> covc dim pss i j c <> 0%nat).
  { intros c i j Hc Hi X. destruct (AC c Hc) as [_ Y]. destruct c as [k q|k e|e [q|] [|x t]|k t]; try (destruct Y; fail); cbn [Fmm_spec.direct Fmm_spec.on_cell covc count_occ] in *.
    - destruct X as [X|(p & X1 & X2)]; [congruence|]. destruct (N.eqb_spec k p) as [->|]; [|congruence]. change (Fmm_spec.inside dim (Share_lemmas.K pss) p i) with (Fmm_spec.inside dim K p i). change (Fmm_spec.inside dim (Share_lemmas.K pss) q j) with (Fmm_spec.inside dim K q j). rewrite X1. lia.
    - destruct X as [X|(p & X1 & X2)]; [congruence|]. destruct (N.eqb_spec k p) as [->|]; [|cbn in X2; congruence]. cbn [andb] in X2. change (Fmm_spec.inside dim (Share_lemmas.K pss) p i) with (Fmm_spec.inside dim K p i). rewrite X1. destruct (Nat.eqb e j); lia.
    - destruct X as [X|(p & X1 & X2)]; [|congruence]. change (Fmm_spec.inside dim (Share_lemmas.K pss) q j) with (Fmm_spec.inside dim K q j). destruct (Nat.eqb e i); lia. }
  assert (CI : forall p subs i, In (C_c2p p subs) rest -> In i (map snd (nth r pss [])) -> count_occ Nat.eq_dec subs i = Fmm_spec.inside dim K p i) by (intros p subs i Hd Hi; apply (proj2 (LC _ Hd) i Hi)).
  assert (I01 : forall p i, Fmm_spec.inside dim K p i = 0%nat \/ Fmm_spec.inside dim K p i = 1%nat) by (intros p i; unfold Fmm_spec.inside, Fmm_spec.b2n; destruct (Fmm_spec.under dim p (nth i K 0)); tauto).
  assert (D0 : forall i, In i (map snd (nth r pss [])) -> forall c, In c cs -> Fmm_spec.direct dim K i i c = 0%nat).
  { intros i Hi c Hc. destruct (Nat.eq_dec (Fmm_spec.direct dim K i i c) 0) as [Z|Z]; [exact Z|]. exfalso. apply (CV c i i Hc Hi (or_introl Z)). apply (proj1 (AC c Hc) i Hi). }
  assert (P0 : forall i, In i (map snd (nth r pss [])) -> forall p subs c, In (C_c2p p subs) rest -> In c cs -> (count_occ Nat.eq_dec subs i * Fmm_spec.on_cell dim K p i c = 0)%nat).
  { intros i Hi p subs c Hd Hc. rewrite (CI p subs i Hd Hi). destruct (I01 p i) as [->|X]; [reflexivity|]. destruct (Nat.eq_dec (Fmm_spec.on_cell dim K p i c) 0) as [->|Z]; [lia|]. exfalso. apply (CV c i i Hc Hi); [right; exists p; tauto|]. apply (proj1 (AC c Hc) i Hi). }
  split.
  - intros i Hi Hni. assert (Z : forall g, TT na bodies cs rest i g = 0%R).
    { intros g. apply (TT_none dim na bodies K HM cs rest i g OC OR); [lia|]. intros j Hj. rewrite (RT i j) by lia. replace (existsb _ _) with false; [reflexivity|]. symmetry. apply not_true_iff_false. intros X. apply existsb_exists in X. destruct X as (x & X1 & X2). apply Nat.eqb_eq in X2. subst x. exact (Hni X1). }
    split; [intros k; rewrite SA; apply Z | rewrite SP; apply Z].
  - assert (CASE : forall i j, In i (map snd (nth r pss [])) -> (j < parts)%nat -> let c := way dim K cs rest i j in In c cs /\ covc dim pss i j c <> 0%nat \/ c = C_p2p i None [j] /\ In c rest).
    { intros i j Hi Hj. cbv zeta. destruct (way_in dim na bodies K HM cs rest i j OC OR (R1 i j Hi ltac:(lia))) as [WI WD]. set (c := way dim K cs rest i j) in *. clearbody c. destruct WD as [WD|(p & subs & W1 & W2 & W3 & W4)].
        - apply in_app_or in WI. destruct WI as [WI|WI]; [left; split; [exact WI | apply (CV c i j WI Hi); left; congruence]|]. right. pose proof (LC c WI) as Y. destruct c as [k q|k e|e [q|] [|x [|y t]]|k t]; cbn [lastcall Fmm_spec.direct count_occ] in *; try (destruct Y; fail); try discriminate. destruct (Nat.eqb_spec e i) as [->|]; [|discriminate]. destruct (Nat.eq_dec x j) as [->|]; [split; [reflexivity | exact WI] | discriminate].
        - left. split; [exact W2|]. apply (CV c i j W2 Hi). right. exists p. rewrite <- (CI p subs i W1 Hi). split; [exact W3 | congruence]. }
    exists (fun i j => cp1 na bodies (way dim K cs rest i j)), (fun i j => cp2 na bodies (way dim K cs rest i j)). split; [|split; [|split]].
    + intros i j Hi Hj Hij. pose proof (MI i Hi) as Li. set (c := way dim K cs rest i j) in *.
      assert (ND : forall k m x, node_is eb dim pss sf r k m -> (x < parts)%nat -> Fmm_spec.inside dim K k x <> 0%nat -> npos na k = cm_pos m /\ (dist n (pos x) (cm_pos m) <= cm_rad m)%R).
      { intros k m x H Hx X. split; [unfold npos; rewrite (NS k m H); reflexivity|]. rewrite dist_sym. apply (node_rad eb dim Hdim pss Hne Hsort Hf Hn Hmass Hrad Hids Hpos (k_tab one) O1 sf HI HO HG r Hr MAC k m x H Hx X). }
      assert (Z0 : forall p, (dist n p p <= 0)%R) by (intros p; apply Req_le, dist_self).
      pose proof (CASE i j Hi Hj) as CASE1. cbv zeta in CASE1. fold c in CASE1. clearbody c.
      destruct CASE1 as [[Hc Cc]|[-> _]].
      * destruct (AC c Hc) as [_ Y]. destruct c as [k q|k e|e [q|] [|x t]|k t]; try (destruct Y; fail); cbn [covc cp1 cp2] in *.
        -- destruct Y as (m1 & m2 & Y1 & Y2 & Y3). destruct (ND k m1 i Y1 Li) as (X1 & X2); [intros X; apply Cc; change (Fmm_spec.inside dim K k i * Fmm_spec.inside dim K q j = 0)%nat; rewrite X; reflexivity|]. destruct (ND q m2 j Y2 Hj) as (X3 & X4); [intros X; apply Cc; change (Fmm_spec.inside dim K k i * Fmm_spec.inside dim K q j = 0)%nat; rewrite X; apply Nat.mul_0_r|].
           exists (cm_rad m1), (cm_rad m2). rewrite X1, X3. split; [exact X2|]. split; [exact X4|]. right. unfold mac in Y3. apply Rltb_true in Y3. exact Y3.
        -- destruct Y as (m1 & Y1 & Y2 & Y3). destruct (Nat.eqb_spec e j) as [->|]; [|exfalso; apply Cc, Nat.mul_0_r]. destruct (ND k m1 i Y1 Li) as (X1 & X2); [intros X; apply Cc; change (Fmm_spec.inside dim K k i * 1 = 0)%nat; rewrite X; reflexivity|].
           exists (cm_rad m1), 0%R. rewrite X1, (GB j Hj). split; [exact X2|]. split; [apply Z0|]. right. unfold mac in Y3. apply Rltb_true in Y3. exact Y3.
        -- destruct Y as (m2 & Y1 & Y3). destruct (Nat.eqb_spec e i) as [->|]; [|exfalso; apply Cc; reflexivity]. destruct (ND q m2 j Y1 Hj) as (X1 & X2); [intros X; apply Cc; change (1 * Fmm_spec.inside dim K q j = 0)%nat; rewrite X; reflexivity|].
           exists 0%R, (cm_rad m2). rewrite X1, (GB i Li). split; [apply Z0|]. split; [exact X2|]. right. unfold mac in Y3. apply Rltb_true in Y3. exact Y3.
      * exists 0%R, 0%R. cbn [cp1 cp2]. rewrite (GB i Li), (GB j Hj). split; [apply Z0|]. split; [apply Z0|]. left. split; reflexivity.
    + intros i j Hi Hj _. exists (way dim K cs rest i j). split; [apply (CASE i j Hi Hj) | split; reflexivity].
    + intros i k Hi. rewrite SA, (TT_one dim na bodies K HM cs rest i _ OC OR ltac:(rewrite LK; apply MI, Hi) (D0 i Hi) (P0 i Hi) (fun j Hj => R1 i j Hi Hj)), LK. apply suml_ext. intros j Hj. apply filter_In in Hj. destruct Hj as [Hj _]. apply in_seq in Hj. rewrite (GB j) by lia. unfold UA. rewrite (acc_unit dim gc _ _ (mass j)). reflexivity.
    + intros i Hi. rewrite SP, (TT_one dim na bodies K HM cs rest i _ OC OR ltac:(rewrite LK; apply MI, Hi) (D0 i Hi) (P0 i Hi) (fun j Hj => R1 i j Hi Hj)), LK. apply suml_ext. intros j Hj. apply filter_In in Hj. destruct Hj as [Hj _]. apply in_seq in Hj. rewrite (GB j) by lia. unfold GP, UP, UA. rewrite (GB i) by (apply MI, Hi). rewrite Rmult_plus_distr_l, (pot_unit dim gc _ _ (mass j)), <- sumn_scal. f_equal. apply sumn_ext. intros m _. rewrite (acc_unit dim gc _ _ (mass j)). ring.
Qed.

(** The accelerations and potentials: every particle of the rank gets, from every other particle
    of any rank once, the attraction between replacement positions.  Either both are the true
    ones or they are within distances rx and ry that satisfy the acceptance criterion.  The
    particles of other ranks get nothing. *)
Theorem C100_field ss sf r cs pp fu rest : in_order start (ss ++ [sf]) -> (r < length pss)%nat -> passes r ss = Some ([], cs, pp) -> finish r sf fu cs pp = Some rest ->
  exists s, forces r sf (cs ++ rest) = Some s /\
  (forall i, (i < parts)%nat -> ~ In i (map snd (nth r pss [])) -> (forall k, s_acc s i k = 0%R) /\ s_pot s i = 0%R) /\
  exists sx sy : nat -> nat -> point,
    (forall i j, In i (map snd (nth r pss [])) -> (j < parts)%nat -> i <> j -> exists rx ry,
       (dist n (pos i) (sx i j) <= rx)%R /\ (dist n (pos j) (sy i j) <= ry)%R /\
       (sx i j = pos i /\ sy i j = pos j \/ (rx + ry < MAC * dist n (sx i j) (sy i j))%R)) /\
    (forall i k, In i (map snd (nth r pss [])) -> s_acc s i k = suml (fun j => p2p_acc n gc (sx i j) (sy i j) (mass j) k) (others i)) /\
    (forall i, In i (map snd (nth r pss [])) -> s_pot s i = suml (fun j => p2p_pot n gc (sx i j) (sy i j) (mass j) +
       sumn n (fun m => - (pos i m - sx i j m) * p2p_acc n gc (sx i j) (sy i j) (mass j) m))%R (others i)).
Proof.
  intros CH Hr EP EF. destruct (field_calls ss sf r cs pp fu rest CH Hr EP EF) as (s & ES & S0 & sx & sy & H1 & _ & H2). exists s. split; [exact ES|]. split; [exact S0|]. exists sx, sy. split; assumption.
Qed.

(** With the acceptance parameter theta the acceleration differs from the direct sum over all
    particles of all ranks by at most theta(4 + 5 theta + 2 theta^2) times the sum of the
    magnitudes of the attractions: the bound of the traversal on one rank. *)
Theorem C100_error ss sf r cs pp fu rest : in_order start (ss ++ [sf]) -> (r < length pss)%nat -> (0 <= MAC)%R -> passes r ss = Some ([], cs, pp) -> finish r sf fu cs pp = Some rest ->
  exists s, forces r sf (cs ++ rest) = Some s /\ forall i, In i (map snd (nth r pss [])) ->
    (norm n (fun k => s_acc s i k - suml (fun j => - gc * mass j / (dist n (pos i) (pos j) * dist n (pos i) (pos j) * dist n (pos i) (pos j)) * (pos i k - pos j k)) (others i)) <=
     MAC * (4 + 5 * MAC + 2 * MAC * MAC) * suml (fun j => Rabs gc * mass j / (dist n (pos i) (pos j) * dist n (pos i) (pos j))) (others i))%R.
Proof.
  intros CH Hr Ht EP EF. destruct (C100_field ss sf r cs pp fu rest CH Hr EP EF) as (s & ES & _ & sx & sy & H1 & H2 & _). exists s. split; [exact ES|]. intros i Hi.
  assert (Li : (i < parts)%nat). { apply in_map_iff in Hi. destruct Hi as (x & <- & Hx). assert (Y : In (snd x) (seq 0 parts)) by (rewrite <- Hids; apply in_map, in_concat; exists (nth r pss []); split; [apply nth_In, Hr | exact Hx]). apply in_seq in Y. lia. }
  assert (Hm : forall j, (j < parts)%nat -> (0 < mass j)%R). { intros j Hj. assert (Y : In j (map snd (concat pss))) by (rewrite Hids; apply in_seq; lia). apply in_map_iff in Y. destruct Y as (x & <- & Hx). apply Hmass, Hx. }
  pose proof (replaced_error n parts eb MAC gc i (sx i) (sy i) Li Ht Hm (fun j Hj Hij => Hpos i j Li Hj Hij) (fun j Hj Hij => H1 i j Hi Hj Hij)) as X. cbv zeta in X.
  rewrite (FmmError_props.norm_ext n _ (fun k => (suml (fun j => p2p_acc n gc (sx i j) (sy i j) (mass j) k) (others i) - suml (fun j => - gc * mass j / (dist n (pos i) (pos j) * dist n (pos i) (pos j) * dist n (pos i) (pos j)) * (pos i k - pos j k)) (others i))%R)) by (intros k _; rewrite (H2 i k Hi); reflexivity). exact X.
Qed.
(** With an acceptance parameter that accepts nothing a rank gets the direct sums. *)
Theorem C100_direct ss sf r cs pp fu rest : in_order start (ss ++ [sf]) -> (r < length pss)%nat -> (MAC <= 0)%R -> passes r ss = Some ([], cs, pp) -> finish r sf fu cs pp = Some rest ->
  exists s, forces r sf (cs ++ rest) = Some s /\ forall i, In i (map snd (nth r pss [])) ->
    (forall k, s_acc s i k = suml (fun j => - gc * mass j / (dist n (pos i) (pos j) * dist n (pos i) (pos j) * dist n (pos i) (pos j)) * (pos i k - pos j k))%R (others i)) /\
    s_pot s i = suml (fun j => - gc * mass j / dist n (pos i) (pos j))%R (others i).
Proof.
  intros CH Hr HM EP EF. destruct (C100_field ss sf r cs pp fu rest CH Hr EP EF) as (s & ES & _ & sx & sy & H1 & H2 & H3). exists s. split; [exact ES|]. intros i Hi.
  assert (G : forall j, In j (others i) -> sx i j = pos i /\ sy i j = pos j).
  { intros j Hj. apply filter_In in Hj. destruct Hj as [Hj Hnj]. apply in_seq in Hj. apply negb_true_iff, Nat.eqb_neq in Hnj.
    destruct (H1 i j Hi ltac:(lia) ltac:(lia)) as (rx & ry & D1 & D2 & [Q|Q]); [exact Q|]. exfalso.
    pose proof (dist_nonneg n (pos i) (sx i j)). pose proof (dist_nonneg n (pos j) (sy i j)). pose proof (dist_nonneg n (sx i j) (sy i j)). nra. }
  split; [intros k; rewrite (H2 i k Hi)|rewrite (H3 i Hi)]; apply suml_ext; intros j Hj; destruct (G j Hj) as [-> ->].
  - reflexivity.
  - rewrite (sumn_ext _ _ (fun _ => 0%R)) by (intros; ring). rewrite sumn_zero. unfold p2p_pot. ring.
Qed.
End Field.

(** *** Examples *)
(** C100_nodes: rank 0 of the two ranks of Dist_refuted asks for its empty node 3, whose word
    changes *)
Example C100_nodes_example : exists l, build_all 1 (cofm_of eb3 (N.to_nat 1)) pss3 = Some l /\
  let s1 := g_init (tables l) (fun _ _ => false) (fun _ => false) (fun _ => []) in
  exists s2, steps 1 2 false keeps 9 s1 s2 /\ node_of (look_r (g_tab s1 0%nat)) 3 = Some m3 /\ look_r (g_tab s1 0%nat) 3 = Some (8, inr m3) /\ look_r (g_tab s2 0%nat) 3 = Some (24, inr m3).
Proof.
  change (N.to_nat 1) with 1%nat. set (f := cofm_of eb3 1).
  assert (E : match build_all 1 f pss3 with Some l => tables l 0%nat 3 | None => None end = Some (mkr 8 true 1%nat (Some (inr (f 3 [1%nat; 2%nat] []))))) by (clearbody f; vm_compute; reflexivity).
  destruct (build_all 1 f pss3) as [l|]; [|discriminate]. change (f 3 [1%nat; 2%nat] []) with m3 in E. exists l. split; [reflexivity|]. intros s1. eexists. split; [|split; [|split]].
  - eapply st_step; [eapply st_step; [apply st_refl|]|].
    + apply (s_start 1 2 false keeps 9 s1 0); [lia | reflexivity].
    + apply (s_request 1 2 false keeps 9 _ 0 1 [3]); [lia | lia | reflexivity|]. split; [discriminate|]. split; [repeat constructor; intros []|]. intros k [<-|[]]. eexists. split; [exact E|]. repeat split; reflexivity.
  - unfold node_of, look_r. cbn [g_init g_tab s1]. rewrite E. reflexivity.
  - unfold look_r. cbn [g_init g_tab s1]. rewrite E. reflexivity.
  - unfold look_r, upd. cbn [g_init g_tab s1 Nat.eqb]. unfold mark_requested. cbn [existsb N.eqb Pos.eqb orb g_tab]. rewrite E. reflexivity.
Qed.
(** C100_field, C100_error: rank 1 with the opening angle of C99 *)
Example C100_field_example : exists l, spread 1 pss3 /\ build_all 1 (cofm_of eb3 (N.to_nat 1)) pss3 = Some l /\
  (forall x, In x (concat pss3) -> (0 < b_mass (eb3 (snd x)))%R) /\ (forall x, In x (concat pss3) -> (0 <= b_rad (eb3 (snd x)))%R) /\
  map snd (concat pss3) = seq 0 (length (concat pss3)) /\ (forall i j, (i < length (concat pss3))%nat -> (j < length (concat pss3))%nat -> i <> j -> ~ peq (N.to_nat 1) (b_pos (eb3 i)) (b_pos (eb3 j))) /\
  (0 <= mac3)%R /\
  let s := g_init (tables l) (fun _ _ => false) (fun _ => false) (fun _ => []) in
  let cs := [C_p2c 3 0] in let pp := [(6, 6); (6, 7); (7, 6); (7, 7)] in
  let rest := [C_c2p 3 [2; 1]%nat; C_p2p 1 None [1%nat]; C_p2p 1 None [2%nat]; C_p2p 2 None [1%nat]; C_p2p 2 None [2%nat]] in
  in_order 1 pss3 9 s [s; s; s; s] /\ dfmm_passes eb3 1 mac3 (map (view 1) [s; s; s]) [(key_root, key_root)] = Some ([], cs, pp) /\
  dfmm_end 1 (look_r (g_tab s 1%nat)) (iam_owner 1 (g_tab s 1%nat)) 9 cs pp = Some rest /\
  (** particle 1 gets the force of particle 0 on the node and that of particle 2 *)
  exists g, exec_all 1 1 (node_of (look_r (g_tab s 1%nat))) (map eb3 (seq 0 3)) gstate0 (cs ++ rest) = Some g /\
  s_acc g 1%nat 0%nat = (p2p_acc 1 1 (cm_pos m3) (b_pos (eb3 0)) 1 0%nat + p2p_acc 1 1 (b_pos (eb3 1)) (b_pos (eb3 2)) 1 0%nat)%R.
Proof.
  destruct C99_each_pair_once_example as (l & H1 & H2 & H3 & H4 & H5 & H6 & H7 & H8 & H9 & _). exists l. repeat (split; [assumption|]). split.
  { unfold mac3. apply Rmult_le_pos; [pose proof (Cofm_spec.so_rad _ _ _ m3_ok _ (or_introl eq_refl)); pose proof (dist_nonneg 1 (cm_pos m3) (b_pos (eb3 1))); lra|]. destruct (Rle_lt_or_eq_dec _ _ (dist_nonneg 1 (cm_pos m3) (b_pos (eb3 0)))) as [L|L]; [apply Rlt_le, Rinv_0_lt_compat, L | rewrite <- L, Rinv_0; lra]. }
  intros s cs pp rest. split; [exact H7|]. split; [exact H8|]. split; [exact H9|].
  destruct (built_rank1 (cofm_of eb3 1)) as (l' & B & E & _). change (cofm_of eb3 (N.to_nat 1)) with (cofm_of eb3 1) in H2. rewrite H2 in B. injection B as <-. cbn [map] in E. injection E as _ _ _ _ A5 _ _ _ _ _.
  assert (N3 : node_of (look_r (g_tab s 1%nat)) 3 = Some m3) by (unfold node_of; cbn [g_init g_tab s]; rewrite A5; reflexivity).
  set (na := node_of (look_r (g_tab s 1%nat))) in *. set (bs := map eb3 (seq 0 3)).
  destruct (exec_sum 1 1 na bs [4; 6; 7] cs rest) as (g & G1 & G2 & _).
  { repeat constructor; cbn; try lia; rewrite N3; discriminate. }
  { repeat constructor; cbn; try lia; rewrite N3; discriminate. }
  exists g. split; [exact G1|]. rewrite G2. unfold TT, cs, rest. cbn [suml app sinkp sinkn cms Nat.eqb andb negb count_occ]. change (3 =? 3) with true. cbv iota. unfold UA. cbn [cp1 cp2]. unfold npos. rewrite N3.
  change (b_mass (get_body bs 0)) with 1%R. change (b_mass (get_body bs 2)) with 1%R. change (get_body bs 0) with (eb3 0). change (get_body bs 1) with (eb3 1). change (get_body bs 2) with (eb3 2). change (N.to_nat 1) with 1%nat.
  destruct (Nat.eq_dec 2 1) as [X|_]; [discriminate X|]. destruct (Nat.eq_dec 1 1) as [_|X]; [|congruence]. generalize (p2p_acc 1 1 (cm_pos m3) (b_pos (eb3 0)) 1 0%nat) (p2p_acc 1 1 (b_pos (eb3 1)) (b_pos (eb3 2)) 1 0%nat). intros a b. change (INR 1) with 1%R. lra.
Qed.
(** C100_direct: the same rank with the opening angle 0, which leaves all pairs to the end *)
Lemma m3_rad : (0 < cm_rad m3)%R.
Proof.
  pose proof (Cofm_spec.so_rad _ _ _ m3_ok (eb3 1) (or_introl eq_refl)) as R1. pose proof (Cofm_spec.so_rad _ _ _ m3_ok (eb3 2) (or_intror (or_introl eq_refl))) as R2.
  pose proof (dist_nonneg 1 (cm_pos m3) (b_pos (eb3 1))) as D1. pose proof (dist_nonneg 1 (cm_pos m3) (b_pos (eb3 2))) as D2.
  destruct (Rle_lt_or_eq_dec 0 (cm_rad m3)) as [L|L]; [lra | exact L|]. exfalso.
  assert (E1 : dist 1 (cm_pos m3) (b_pos (eb3 1)) = 0%R) by lra. assert (E2 : dist 1 (cm_pos m3) (b_pos (eb3 2)) = 0%R) by lra. apply dist_zero in E1, E2. specialize (E1 0%nat ltac:(lia)). specialize (E2 0%nat ltac:(lia)). rewrite E1 in E2. cbn in E2. lra.
Qed.
Example C100_direct_example : exists l, build_all 1 (cofm_of eb3 (N.to_nat 1)) pss3 = Some l /\
  let s := g_init (tables l) (fun _ _ => false) (fun _ => false) (fun _ => []) in
  let pp := [(6, 2); (7, 2); (6, 6); (6, 7); (7, 6); (7, 7)] in
  let rest := [C_p2p 1 None [0%nat]; C_p2p 2 None [0%nat]; C_p2p 1 None [1%nat]; C_p2p 1 None [2%nat]; C_p2p 2 None [1%nat]; C_p2p 2 None [2%nat]] in
  in_order 1 pss3 9 s [s; s; s; s] /\ dfmm_passes eb3 1 0 (map (view 1) [s; s; s]) [(key_root, key_root)] = Some ([], [], pp) /\
  dfmm_end 1 (look_r (g_tab s 1%nat)) (iam_owner 1 (g_tab s 1%nat)) 9 [] pp = Some rest.
Proof.
  change (N.to_nat 1) with 1%nat. destruct (built_rank1 (cofm_of eb3 1)) as (l & B & E & E2). cbn [map] in E. injection E as A1 A2 A3 A4 A5 A6 A7 A8 A9 A10. exists l. split; [exact B|].
  intros s pp rest. split; [repeat split; apply st_refl|]. cbn [map dfmm_passes view fst snd]. unfold key_root. cbn [g_init g_tab s].
  change (cofm_of eb3 1 3 [1%nat; 2%nat] []) with m3 in *. change (cofm_of eb3 1 1 [0%nat] [m3]) with m1 in *. set (lk := look_r (tables l 1%nat)) in *. set (mine := iam_owner 1 (tables l 1%nat)) in *. clearbody lk mine.
  assert (K1 : dkids 1 lk 1 11 (digits 1) = Some [2; 3]) by (eapply kids1; eassumption). assert (K3 : dkids 1 lk 3 3 (digits 1) = Some [6; 7]) by (eapply kids3; eassumption). assert (K0 : forall q, dkids 1 lk q 0 (digits 1) = Some []) by reflexivity. pose proof m3_rad as MR.
  assert (M0 : mac 1 (cm_pos m3) (cm_rad m3) (b_pos (eb3 0)) 0 0 = false) by (unfold mac; apply Rltb_false; rewrite Rmult_0_l; lra).
  assert (ML : Rltb 0 (cm_rad m3) = true) by (apply Rltb_true; exact MR).
  split.
  - assert (P1 : dfmm_pass eb3 1 0 lk mine [(1, 1)] = Some ([(3, 2); (3, 3)], [], [])).
    { cbn [dfmm_pass]. unfold dfmm_pair. cbn [fst snd]. rewrite A1, A2. cbn [negb dempty fst snd]. change (is_empty_node 1 11) with false. change (1 =? 1) with true. cbv iota. change (cm_sub m1 <? fmm_sub_limit)%nat with false. rewrite K1. cbn [self_pairs flat_map app filter fst]. rewrite A4, A6. reflexivity. }
    assert (P2 : dfmm_pass eb3 1 0 lk mine [(3, 2); (3, 3)] = Some ([(6, 2); (7, 2); (6, 6); (6, 7); (7, 6); (7, 7)], [], [])).
    { cbn [dfmm_pass]. unfold dfmm_pair. cbn [fst snd]. rewrite A3, A5, A6. cbn [negb dempty fst snd dextent]. change (is_empty_node 1 3) with false. change (3 =? 2) with false. change (3 =? 3) with true. cbv iota. change (cm_sub m3 <? fmm_sub_limit)%nat with false. change (cm_sub m3 + 1 <? fmm_sub_limit)%nat with false. change (N.to_nat 1) with 1%nat. rewrite M0, ML, K3. cbn [self_pairs flat_map app filter fst snd map]. rewrite A8, A10. reflexivity. }
    assert (P3 : dfmm_pass eb3 1 0 lk mine pp = Some ([], [], pp)) by (unfold pp; cbn [dfmm_pass]; unfold dfmm_pair; cbn [fst snd]; rewrite A3, A7, A8, A9, A10; reflexivity).
    rewrite P1. cbn [fst snd]. rewrite P2. cbn [fst snd]. fold pp. rewrite P3. reflexivity.
  - unfold dfmm_end, key_root. rewrite dwalk_S, A1. unfold daffected_func at 1. rewrite A2. cbv zeta. cbn [negb fst snd]. rewrite K1. cbn [rev app].
    rewrite dwalk_S, A5. unfold daffected_func at 1. rewrite A6. cbv zeta. cbn [negb fst snd]. rewrite K3. cbn [rev app].
    rewrite dwalk_S, A9. unfold daffected_func at 1. rewrite A10. cbv zeta. cbn [negb fst snd]. rewrite K0. cbn [rev app].
    rewrite dwalk_S, A7. unfold daffected_func at 1. rewrite A8. cbv zeta. cbn [negb fst snd]. rewrite K0. cbn [rev app].
    rewrite dwalk_S, A3. unfold daffected_func. rewrite A4. cbv zeta. cbn [negb fst snd]. change (affected [] 1) with false. change (affected [] 3) with false. cbn [dwalk app].
    cbn [dc2p_calls]. unfold pp. cbn [dp2p_calls fst snd]. rewrite A3, A7, A9. reflexivity.
Qed.

Print Assumptions C100_nodes.
Print Assumptions C100_field.
Print Assumptions C100_error.
Print Assumptions C100_direct.
