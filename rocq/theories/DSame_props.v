(** C101: the accelerations of the gravity traversal do not depend on how the particles are spread
    over the ranks, nor on when messages arrive, and the forces of all ranks balance. *)
From Coq Require Import Sorted Permutation.
From Verif Require Import Base Key_model HCell_model BuildTree_model BuildTree_lemmas BuildTree_inv BuildTree_props Vec Geometry_model Geometry_props Cofm_model
  Share_model Share_lemmas Share_sums Share_table Share_rounds Share_final Share_world Share_reach Share_flags Share_props Comms_model Dist_model Dist_lemmas Dist_walk Dist_near Dist_reach Dist_cover Dist_target Dist_refuted Dist_props Dist_all_props.
From Verif Require Comms_lemmas Comms_props Comms_flags Fmm_spec FmmError_props Gravity_props.
From Verif Require Import Search_model Gravity_model Fmm_model Fmm_proofs DFmm_owner DFmm_model DFmm_cells DFmm_pairs DFmm_end DFmm_props DFmm_exec DFmm_more DField_props DSame_lemmas.
Local Open Scope N_scope.

(** finitely many choices *)
Lemma choose {A} (a : A) (P : nat -> A -> Prop) : forall m, (forall i, (i < m)%nat -> exists x, P i x) -> exists g, forall i, (i < m)%nat -> P i (g i).
Proof.
  induction m as [|m IH]; intros H; [exists (fun _ => a); intros i Hi; lia|]. destruct (IH (fun i Hi => H i ltac:(lia))) as (g & Hg). destruct (H m ltac:(lia)) as (x & Hx).
  exists (fun i => if Nat.eqb i m then x else g i). intros i Hi. destruct (Nat.eqb_spec i m) as [->|Hn]; [exact Hx | apply Hg; lia].
Qed.
Lemma suml_concat {A} (h : A -> R) (ls : list (list A)) : suml h (concat ls) = suml (fun r => suml h (nth r ls [])) (seq 0 (length ls)).
Proof.
  induction ls as [|x ls IH]; [reflexivity|]. cbn [concat length seq suml nth]. rewrite <- seq_shift, suml_app, IH, suml_map. reflexivity.
Qed.

Section Run.
Context (eb : nat -> body) (dim : N) (MAC gc : R) (pss : list (list (N * nat))).
Notation n := (N.to_nat dim).
Notation f := (cofm_of eb n).
Notation parts := (length (concat pss)).
Context (l : list (rank_st nat cofm)) (fuel : nat) (dn : nat -> nat -> bool) (al : nat -> bool) (w : nat -> list N).
Notation run := (steps dim (length pss) false keeps fuel).
Notation start := (g_init (tables l) dn al w).
Notation in_order := (in_order dim pss fuel).
Notation passes r ss := (dfmm_passes eb dim MAC (map (view r) ss) [(key_root, key_root)]).
Notation finish r s fu cs pp := (dfmm_end dim (look_r (g_tab s r)) (iam_owner r (g_tab s r)) fu cs pp).
Notation bodies := (map eb (seq 0 parts)).
Notation forces r s calls := (exec_all n gc (node_of (look_r (g_tab s r))) bodies gstate0 calls).
Notation pos i := (b_pos (eb i)).
Notation mass i := (b_mass (eb i)).
Notation others i := (filter (fun j => negb (Nat.eqb j i)) (seq 0 parts)).
Notation rank r := (map snd (nth r pss [])).

Hypothesis HS : spread dim pss.
Hypothesis El : build_all dim f pss = Some l.
Hypothesis Hmass : forall x, In x (concat pss) -> (0 < b_mass (eb (snd x)))%R.
Hypothesis Hrad : forall x, In x (concat pss) -> (0 <= b_rad (eb (snd x)))%R.
Hypothesis Hids : map snd (concat pss) = seq 0 parts.
Hypothesis Hpos : forall i j, (i < parts)%nat -> (j < parts)%nat -> i <> j -> ~ peq n (pos i) (pos j).

(** the positions between which the attraction of the other particles on particle [i] is taken *)
Definition spots (i : nat) (X Y : nat -> point) : Prop := forall j, (j < parts)%nat -> i <> j -> exists t1 t2,
  reach eb dim pss MAC i j (t1, t2) /\ pstep eb dim pss MAC i j (t1, t2) = None /\ okp dim pss i j (t1, t2) /\ X j = dpos eb (held eb dim pss i t1) /\ Y j = dpos eb (held eb dim pss j t2).
Lemma passes_same one r : one_ok dim f pss (k_tab one) -> (0 < nr pss)%nat -> (r < nr pss)%nat -> good dim pss l fuel dn al w one ->
  forall ss s0 sf q nq cs pp, run start s0 -> in_order s0 (ss ++ [sf]) -> Forall (pair_ok dim pss s0 r) q -> Forall (met eb dim pss r MAC) q ->
  dfmm_passes eb dim MAC (map (view r) ss) q = Some (nq, cs, pp) -> Forall (stops eb dim pss r MAC) cs /\ Forall (met eb dim pss r MAC) pp.
Proof using HS El Hmass Hrad Hids Hpos.
  intros O1 Hn Hr HR. pose proof HS as (Hdim & _ & Hne & Hsort & Hf). apply full_keys_full in Hf.
  assert (TH : forall s1 s2 k, run start s1 -> run s1 s2 -> here s1 r k -> here s2 r k) by (intros s1 s2 k R1 R2 H; apply (run_there dim pss l fuel dn al w s1 s2 r k (k_tab one) R1 R2 (fun s R => proj1 (HR s R)) H)).
  assert (TP : forall s1 s2 z, run start s1 -> run s1 s2 -> pair_ok dim pss s1 r z -> pair_ok dim pss s2 r z) by (intros s1 s2 z R1 R2 (A1 & A2 & A3); split; [apply (TH s1 s2 _ R1 R2 A1)|]; split; [apply (TH s1 s2 _ R1 R2 A2) | exact A3]).
  induction ss as [|s ss IH]; intros s0 sf q nq cs pp R0 CH HQ HD E; cbn [app DFmm_props.in_order] in CH; destruct CH as [R1 CH].
  - injection E as _ <- <-. split; constructor.
  - assert (R : run start s) by (apply (run_trans dim pss fuel _ s0); assumption). destruct (HR s R) as (HI & HO & HG).
    assert (HQ' : Forall (pair_ok dim pss s r) q) by (eapply Forall_impl; [|exact HQ]; intros z; apply (TP s0 s z R0 R1)).
    destruct (pass_step eb dim Hdim pss Hne Hsort Hf Hn Hmass Hrad Hids Hpos (k_tab one) O1 s HI HO HG r Hr MAC q HQ') as (n1 & c1 & p1 & E1 & A1 & _). destruct (pass_same eb dim Hdim pss Hne Hsort Hf Hn Hmass Hrad Hids Hpos (k_tab one) O1 s HI HO HG r Hr MAC q n1 c1 p1 HQ' HD E1) as (D1 & X1 & Y1).
    cbn [map dfmm_passes view fst snd] in E. rewrite E1 in E. cbn [fst snd] in E. change (look_r (g_tab s r), iam_owner r (g_tab s r)) with (view r s) in E. destruct (dfmm_passes eb dim MAC (map (view r) ss) n1) as [[[n2 c2] p2]|] eqn:E2; [|discriminate]. cbn [fst snd] in E. injection E as _ <- <-.
    destruct (IH s sf n1 n2 c2 p2 R CH A1 D1 E2) as [X2 Y2]. split; apply Forall_app; split; assumption.
Qed.
Lemma run_spots ss sf r cs pp fu rest : in_order start (ss ++ [sf]) -> (r < length pss)%nat -> passes r ss = Some ([], cs, pp) -> finish r sf fu cs pp = Some rest ->
  exists s, forces r sf (cs ++ rest) = Some s /\ forall i, In i (rank r) -> exists X Y, spots i X Y /\
    (forall k, s_acc s i k = suml (fun j => p2p_acc n gc (X j) (Y j) (mass j) k) (others i)) /\
    s_pot s i = suml (fun j => p2p_pot n gc (X j) (Y j) (mass j) + sumn n (fun m => - (pos i m - X j m) * p2p_acc n gc (X j) (Y j) (mass j) m))%R (others i).
Proof using HS El Hmass Hrad Hids Hpos.
  intros CH Hr EP EF. destruct (field_calls eb dim MAC gc pss l fuel dn al w HS El Hmass Hrad Hids Hpos ss sf r cs pp fu rest CH Hr EP EF) as (s & ES & _ & sx & sy & _ & FC & F1 & F2). exists s. split; [exact ES|].
  destruct (run_owners eb dim MAC pss l fuel dn al w HS El Hmass Hrad Hids Hpos) as (one & O1 & Hn & HR). pose proof HS as (Hdim & _ & Hne & Hsort & Hf). apply full_keys_full in Hf. destruct (HR start (st_refl _ _ _ _ _ _)) as (HI0 & _).
  destruct (root_pair eb dim MAC pss l fuel dn al w HS El Hmass Hrad Hids Hpos r start one O1 Hn Hr HI0) as (P1 & _ & _).
  assert (DG : diag dim pss r (key_root, key_root)) by (left; reflexivity).
  pose proof (last_run eb dim MAC gc pss l fuel dn al w HS El Hmass Hrad Hids Hpos ss start sf CH) as RF. destruct (HR sf RF) as (HI & HO & HG).
  pose proof (passes_more eb dim MAC gc pss l fuel dn al w HS El Hmass Hrad Hids Hpos one r O1 Hn Hr HR ss start sf _ _ _ _ (st_refl _ _ _ _ _ _) CH (Forall_cons _ P1 (Forall_nil _)) (Forall_cons _ DG (Forall_nil _)) EP) as AC.
  destruct (passes_ok eb dim MAC pss l fuel dn al w HS El Hmass Hrad Hids Hpos one r O1 Hn Hr HR ss start sf [(key_root, key_root)] (st_refl _ _ _ _ _ _) CH (Forall_cons _ P1 (Forall_nil _))) as (nq & cs' & pp' & E & _ & A2 & A3 & _ & _). rewrite EP in E. injection E as <- <- <-.
  assert (CL : forall a b q, cellat dim pss a q -> cellat dim pss b q -> a = b) by (intros a b q; apply (cell_level eb dim Hdim pss Hne Hsort Hf Hn Hmass Hrad Hids Hpos)).
  assert (CR : cellat dim pss (max_depth dim) 1) by (split; [lia | left; tauto]).
  assert (MR : met eb dim pss r MAC (key_root, key_root)).
  { intros i j l1 l2 _ _ C1 C2 _. cbn [fst snd] in C1, C2. rewrite (CL _ _ _ C1 CR), (CL _ _ _ C2 CR). constructor. }
  destruct (passes_same one r O1 Hn Hr HR ss start sf _ _ _ _ (st_refl _ _ _ _ _ _) CH (Forall_cons _ P1 (Forall_nil _)) (Forall_cons _ MR (Forall_nil _)) EP) as [ST MP].
  rewrite Forall_forall in AC, ST, MP. set (na := node_of (look_r (g_tab sf r))) in *.
  assert (MI : forall i, In i (rank r) -> (i < parts)%nat) by (intros i Hi; apply (mem_key eb dim Hdim pss Hne Hsort Hf Hn Hmass Hrad Hids Hpos r i Hr Hi)).
  assert (GB : forall i, (i < parts)%nat -> get_body bodies i = eb i) by (intros i Hi; unfold get_body; rewrite (nth_indep _ dummy_body (eb 0)) by (rewrite map_length, seq_length; exact Hi); rewrite map_nth, List.seq_nth by exact Hi; reflexivity).
  assert (NS : forall k m a x, node_is eb dim pss sf r k m -> k = anc dim pss x a -> cellat dim pss a (anc dim pss x a) -> npos na k = dpos eb (held eb dim pss x a)).
  { intros k m a x H Ek Ca. pose proof H as (_ & b & Cb & Eg). destruct (node_at eb dim Hdim pss Hne Hsort Hf Hn Hmass Hrad Hids Hpos (k_tab one) O1 sf HI HO HG r Hr MAC k m H) as (w2 & E2). unfold npos, na, node_of. rewrite E2. rewrite <- Ek in Ca. rewrite (CL b a k Cb Ca) in Eg. unfold held. rewrite <- Ek, Eg. reflexivity. }
  assert (LS : forall q e x a, islf eb dim pss q e -> cellat dim pss a q -> (x < parts)%nat -> Fmm_spec.inside dim (Share_lemmas.K pss) q x <> 0%nat -> e = x) by (intros q e x a L _ Hx Hi; rewrite (lf_inside eb dim Hdim pss Hne Hsort Hf Hn Hmass Hrad Hids Hpos q e x L Hx) in Hi; destruct (Nat.eqb_spec e x) as [|]; [assumption | congruence]).
  intros i Hi. exists (sx i), (sy i). split; [|split; [intros k; apply F1, Hi | apply F2, Hi]].
  intros j Hj Hij. pose proof (MI i Hi) as Li. destruct (FC i j Hi Hj Hij) as (c & Hc & -> & ->). destruct Hc as [[Hc Cc]|[-> Hc]].
  - destruct (ST c Hc i j Hi Hj Cc) as (t1 & t2 & T1 & T2 & T3 & T4). exists t1, t2. split; [exact T1|]. split; [exact T2|]. split; [exact T3|]. destruct T3 as (K1 & K2 & _). cbn [fst snd] in K1, K2.
    destruct (AC c Hc) as [_ Y]. destruct c as [k q|k e|e [q|] [|x t]|k t]; try (destruct T4; fail); cbn [cp1 cp2 covc] in *.
    + destruct Y as (m1 & m2 & Y1 & Y2 & _). destruct T4 as [T4 T5]. split; [apply (NS k m1 t1 i Y1 T4 K1) | apply (NS q m2 t2 j Y2 T5 K2)].
    + destruct Y as (m1 & Y1 & _). destruct T4 as [T4 T5]. split; [apply (NS k m1 t1 i Y1 T4 K1)|]. rewrite T5. cbn [dpos]. destruct (Nat.eqb_spec e j) as [->|]; [|exfalso; apply Cc, Nat.mul_0_r]. rewrite (GB j Hj). reflexivity.
    + destruct Y as (m2 & Y2 & _). destruct T4 as [T4 T5]. split; [|apply (NS q m2 t2 j Y2 T5 K2)]. rewrite T4. cbn [dpos]. destruct (Nat.eqb_spec e i) as [->|]; [|exfalso; apply Cc; reflexivity]. rewrite (GB i Li). reflexivity.
  - destruct (rest_pp eb dim Hdim pss Hne Hsort Hf Hn Hmass Hrad Hids Hpos (k_tab one) O1 sf HI HO HG r Hr MAC fu cs pp rest i j A3 EF Hc) as (z & Hz & (t1 & C1 & G1) & (t2 & C2 & G2)).
    pose proof (lf_inside eb dim Hdim pss Hne Hsort Hf Hn Hmass Hrad Hids Hpos (fst z) i i (ex_intro _ t1 (conj C1 G1)) Li) as I1. pose proof (lf_inside eb dim Hdim pss Hne Hsort Hf Hn Hmass Hrad Hids Hpos (snd z) j j (ex_intro _ t2 (conj C2 G2)) Hj) as I2. rewrite Nat.eqb_refl in I1, I2.
    assert (A1 : anc dim pss i t1 = fst z) by (apply (at_in eb dim Hdim pss Hne Hsort Hf Hn Hmass Hrad Hids Hpos (k_tab one) O1 sf HI HO HG r Hr MAC t1 (fst z) i C1 Li); rewrite I1; discriminate).
    assert (A4 : anc dim pss j t2 = snd z) by (apply (at_in eb dim Hdim pss Hne Hsort Hf Hn Hmass Hrad Hids Hpos (k_tab one) O1 sf HI HO HG r Hr MAC t2 (snd z) j C2 Hj); rewrite I2; discriminate).
    assert (H1 : held eb dim pss i t1 = inl i) by (unfold held; rewrite A1; exact G1). assert (H2 : held eb dim pss j t2 = inl j) by (unfold held; rewrite A4; exact G2).
    exists t1, t2. split; [apply (MP z Hz i j t1 t2 Hi Hj C1 C2); unfold cov; rewrite I1, I2; discriminate|]. split; [unfold pstep; cbn [fst snd]; rewrite H1, H2; reflexivity|]. cbn [cp1 cp2]. rewrite H1, H2, (GB i Li), (GB j Hj). split; [|split; reflexivity].
    unfold okp. cbn [fst snd]. rewrite A1, A4. split; [exact C1|]. split; [exact C2|]. right.
    assert (NR : forall q t e, cellat dim pss t q -> gdat dim f pss t q = inl e -> q <> 1).
    { intros q t e C G ->. pose proof (CL _ _ _ C CR). subst t. assert (X : exists m, gdat dim f pss (max_depth dim) 1 = inr m) by (apply (cell_kind eb dim Hdim pss Hne Hsort Hf Hn Hmass Hrad Hids Hpos _ _ C); left; reflexivity). destruct X as (m & X). congruence. }
    split; eapply NR; eassumption.
Qed.
End Run.

Lemma spots_one eb dim MAC pss pss' i X Y X' Y' : concat pss = concat pss' -> spots eb dim MAC pss i X Y -> spots eb dim MAC pss' i X' Y' -> forall j, (j < length (concat pss))%nat -> i <> j -> X j = X' j /\ Y j = Y' j.
Proof.
  intros E H H' j Hj Hij. destruct (H j Hj Hij) as (t1 & t2 & R & N & _ & -> & ->). rewrite E in Hj. destruct (H' j Hj Hij) as (u1 & u2 & R' & N' & _ & -> & ->).
  apply (reach_eq eb dim MAC pss pss' i j (t1, t2) E) in R. rewrite (pstep_eq eb dim MAC pss pss' i j (t1, t2) E) in N. pose proof (reach_one eb dim pss' MAC i j _ _ R N R' N') as Z. injection Z as -> ->. rewrite (held_eq eb dim pss pss' i u1 E), (held_eq eb dim pss pss' j u2 E). split; reflexivity.
Qed.

(** Two traversals over the same particles, spread over different numbers of ranks or differently
    over as many, or with messages arriving at different times, give a particle the same
    acceleration and the same potential. *)
Section Two.
Context (eb : nat -> body) (dim : N) (MAC gc : R) (pss pss' : list (list (N * nat))).
Notation n := (N.to_nat dim).
Notation f := (cofm_of eb n).
Context (l l' : list (rank_st nat cofm)) (fuel fuel' : nat) (dn dn' : nat -> nat -> bool) (al al' : nat -> bool) (w w' : nat -> list N).
Notation passes r ss := (dfmm_passes eb dim MAC (map (view r) ss) [(key_root, key_root)]).
Notation finish r s fu cs pp := (dfmm_end dim (look_r (g_tab s r)) (iam_owner r (g_tab s r)) fu cs pp).
Notation forces r s calls := (exec_all n gc (node_of (look_r (g_tab s r))) (map eb (seq 0 (length (concat pss)))) gstate0 calls).
Theorem C101_same : spread dim pss -> spread dim pss' -> concat pss = concat pss' -> build_all dim f pss = Some l -> build_all dim f pss' = Some l' ->
  (forall x, In x (concat pss) -> (0 < b_mass (eb (snd x)))%R) -> (forall x, In x (concat pss) -> (0 <= b_rad (eb (snd x)))%R) ->
  map snd (concat pss) = seq 0 (length (concat pss)) ->
  (forall i j, (i < length (concat pss))%nat -> (j < length (concat pss))%nat -> i <> j -> ~ peq n (b_pos (eb i)) (b_pos (eb j))) ->
  forall ss sf r cs pp fu rest ss' sf' r' cs' pp' fu' rest',
  in_order dim pss fuel (g_init (tables l) dn al w) (ss ++ [sf]) -> (r < length pss)%nat -> passes r ss = Some ([], cs, pp) -> finish r sf fu cs pp = Some rest ->
  in_order dim pss' fuel' (g_init (tables l') dn' al' w') (ss' ++ [sf']) -> (r' < length pss')%nat -> passes r' ss' = Some ([], cs', pp') -> finish r' sf' fu' cs' pp' = Some rest' ->
  exists s s', forces r sf (cs ++ rest) = Some s /\ forces r' sf' (cs' ++ rest') = Some s' /\
  forall i, In i (map snd (nth r pss [])) -> In i (map snd (nth r' pss' [])) -> (forall k, s_acc s i k = s_acc s' i k) /\ s_pot s i = s_pot s' i.
Proof.
  intros HS HS' Ec El El' Hmass Hrad Hids Hpos ss sf r cs pp fu rest ss' sf' r' cs' pp' fu' rest' CH Hr EP EF CH' Hr' EP' EF'.
  destruct (run_spots eb dim MAC gc pss l fuel dn al w HS El Hmass Hrad Hids Hpos ss sf r cs pp fu rest CH Hr EP EF) as (s & ES & F).
  destruct (run_spots eb dim MAC gc pss' l' fuel' dn' al' w' HS' El' ltac:(rewrite <- Ec; exact Hmass) ltac:(rewrite <- Ec; exact Hrad) ltac:(rewrite <- Ec; exact Hids) ltac:(rewrite <- Ec; exact Hpos) ss' sf' r' cs' pp' fu' rest' CH' Hr' EP' EF') as (s' & ES' & F').
  exists s, s'. split; [exact ES|]. split; [rewrite Ec; exact ES'|]. intros i Hi Hi'. destruct (F i Hi) as (X & Y & SP & A1 & A2), (F' i Hi') as (X' & Y' & SP' & A1' & A2'). rewrite <- Ec in A1', A2'.
  assert (G : forall j, In j (filter (fun j => negb (Nat.eqb j i)) (seq 0 (length (concat pss)))) -> X j = X' j /\ Y j = Y' j).
  { intros j Hj. apply filter_In in Hj. destruct Hj as [Hj Hn]. apply in_seq in Hj. apply negb_true_iff, Nat.eqb_neq in Hn. apply (spots_one eb dim MAC pss pss' i X Y X' Y' Ec SP SP' j); [lia | congruence]. }
  split; [intros k; rewrite A1, A1' | rewrite A2, A2']; apply suml_ext; intros j Hj; destruct (G j Hj) as [-> ->]; reflexivity.
Qed.
End Two.

(** When no two nodes of the tree have the same radius, the forces the ranks have computed on
    their particles add up to nothing. *)
Section All.
Context (eb : nat -> body) (dim : N) (MAC gc : R) (pss : list (list (N * nat))).
Notation n := (N.to_nat dim).
Notation f := (cofm_of eb n).
Notation parts := (length (concat pss)).
Context (l : list (rank_st nat cofm)) (one : rank_st nat cofm) (fuel : nat) (dn : nat -> nat -> bool) (al : nat -> bool) (w : nat -> list N).
Notation passes r ss := (dfmm_passes eb dim MAC (map (view r) ss) [(key_root, key_root)]).
Notation finish r s fu cs pp := (dfmm_end dim (look_r (g_tab s r)) (iam_owner r (g_tab s r)) fu cs pp).
Notation forces r s calls := (exec_all n gc (node_of (look_r (g_tab s r))) (map eb (seq 0 parts)) gstate0 calls).
Theorem C101_momentum : spread dim pss -> build_all dim f pss = Some l -> build_all dim f [concat pss] = Some [one] ->
  (forall x, In x (concat pss) -> (0 < b_mass (eb (snd x)))%R) -> (forall x, In x (concat pss) -> (0 <= b_rad (eb (snd x)))%R) ->
  map snd (concat pss) = seq 0 parts -> (forall i j, (i < parts)%nat -> (j < parts)%nat -> i <> j -> ~ peq n (b_pos (eb i)) (b_pos (eb j))) ->
  (forall k q m m', node_of (look_r (tables [one] 0%nat)) k = Some m -> node_of (look_r (tables [one] 0%nat)) q = Some m' -> k <> q -> cm_rad m <> cm_rad m') ->
  forall (ss : nat -> list _) sf cs pp fu rest,
  (forall r, (r < length pss)%nat -> in_order dim pss fuel (g_init (tables l) dn al w) (ss r ++ [sf r]) /\ passes r (ss r) = Some ([], cs r, pp r) /\ finish r (sf r) (fu r) (cs r) (pp r) = Some (rest r)) ->
  exists s, (forall r, (r < length pss)%nat -> forces r (sf r) (cs r ++ rest r) = Some (s r)) /\
  forall k, suml (fun r => suml (fun i => b_mass (eb i) * s_acc (s r) i k)%R (map snd (nth r pss []))) (seq 0 (length pss)) = 0%R.
Proof.
  intros HS El E1 Hmass Hrad Hids Hpos NT ss sf cs pp fu rest HA.
  destruct (choose gstate0 (fun r s => forces r (sf r) (cs r ++ rest r) = Some s /\ forall i, In i (map snd (nth r pss [])) -> exists X Y, spots eb dim MAC pss i X Y /\
    (forall k, s_acc s i k = suml (fun j => p2p_acc n gc (X j) (Y j) (b_mass (eb j)) k) (filter (fun j => negb (Nat.eqb j i)) (seq 0 parts)))) (length pss)) as (s & Hs).
  { intros r Hr. destruct (HA r Hr) as (CH & EP & EF). destruct (run_spots eb dim MAC gc pss l fuel dn al w HS El Hmass Hrad Hids Hpos (ss r) (sf r) r (cs r) (pp r) (fu r) (rest r) CH Hr EP EF) as (s & ES & F). exists s. split; [exact ES|]. intros i Hi. destruct (F i Hi) as (X & Y & SP & A & _). exists X, Y. split; assumption. }
  exists s. split; [intros r Hr; apply (Hs r Hr)|]. intros k.
  (* the positions for all particles *)
  assert (RK : forall i, (i < parts)%nat -> exists r, (r < length pss)%nat /\ In i (map snd (nth r pss []))).
  { intros i Hi. assert (Y : In i (map snd (concat pss))) by (rewrite Hids; apply in_seq; lia). apply in_map_iff in Y. destruct Y as (x & <- & Hx). apply in_concat in Hx. destruct Hx as (ps & Hp & Hx). apply (In_nth _ _ []) in Hp. destruct Hp as (r & Hr & <-). exists r. split; [exact Hr | apply in_map, Hx]. }
  destruct (choose ((fun _ => vzero), (fun _ => vzero)) (fun i XY => spots eb dim MAC pss i (fst XY) (snd XY)) parts) as (XY & HXY).
  { intros i Hi. destruct (RK i Hi) as (r & Hr & Hin). destruct (proj2 (Hs r Hr) i Hin) as (X & Y & SP & _). exists (X, Y). exact SP. }
  assert (AX : forall r i, (r < length pss)%nat -> In i (map snd (nth r pss [])) -> s_acc (s r) i k = suml (fun j => if negb (Nat.eqb j i) then p2p_acc n gc (fst (XY i) j) (snd (XY i) j) (b_mass (eb j)) k else 0%R) (seq 0 parts)).
  { intros r i Hr Hi. destruct (proj2 (Hs r Hr) i Hi) as (X & Y & SP & A). rewrite A, suml_if. apply suml_ext. intros j Hj. apply filter_In in Hj. destruct Hj as [Hj Hn]. apply in_seq in Hj. apply negb_true_iff, Nat.eqb_neq in Hn.
    assert (Li : (i < parts)%nat). { apply in_map_iff in Hi. destruct Hi as (x & <- & Hx). assert (Z : In (snd x) (seq 0 parts)) by (rewrite <- Hids; apply in_map, in_concat; exists (nth r pss []); split; [apply nth_In, Hr | exact Hx]). apply in_seq in Z. lia. }
    destruct (spots_one eb dim MAC pss pss i X Y _ _ eq_refl SP (HXY i Li) j) as [-> ->]; [lia | congruence | reflexivity]. }
  rewrite (suml_ext _ (fun r => suml (fun i => b_mass (eb i) * suml (fun j => if negb (Nat.eqb j i) then p2p_acc n gc (fst (XY i) j) (snd (XY i) j) (b_mass (eb j)) k else 0%R) (seq 0 parts))%R (map snd (nth r pss []))))
    by (intros r Hr; apply in_seq in Hr; apply suml_ext; intros i Hi; rewrite (AX r i) by (try lia; exact Hi); reflexivity).
  rewrite (suml_ext _ (fun r => suml (fun i => b_mass (eb i) * suml (fun j => if negb (Nat.eqb j i) then p2p_acc n gc (fst (XY i) j) (snd (XY i) j) (b_mass (eb j)) k else 0) (seq 0 parts))%R (nth r (map (map snd) pss) [])))
    by (intros r Hr; change (@nil nat) with (map (@snd N nat) []); rewrite map_nth; reflexivity).
  replace (length pss) with (length (map (map (@snd N nat)) pss)) by apply map_length. rewrite <- suml_concat, <- concat_map, Hids.
  (* swapped pairs *)
  destruct (run_own eb dim pss l fuel dn al w HS El) as (one' & E1' & O1 & Hn & HR). rewrite E1 in E1'. injection E1' as <-. pose proof HS as (Hdim & _ & Hne & Hsort & Hf). apply full_keys_full in Hf.
  destruct (run_owners eb dim MAC pss l fuel dn al w HS El Hmass Hrad Hids Hpos) as (one2 & O2 & _ & HR2). destruct (HR2 _ (st_refl _ _ _ _ _ _)) as (HI & HO & HG).
  assert (TIE : forall a q b q' m m', cellat dim pss a q -> cellat dim pss b q' -> q <> q' -> gdat dim f pss a q = inr m -> gdat dim f pss b q' = inr m' -> cm_rad m <> cm_rad m').
  { assert (NN : forall a q m, cellat dim pss a q -> gdat dim f pss a q = inr m -> node_of (look_r (tables [one] 0%nat)) q = Some m).
    { intros a q m [Ha He] Eg. destruct (one_cell _ _ _ _ O1 a q Ha He) as (c & Ec & _ & Es & _). unfold node_of, look_r, tables. cbn [nth_error]. unfold to_rtab. rewrite Ec. cbn [option_map]. unfold to_rcell. cbn [r_data r_word]. rewrite Es, Eg. reflexivity. }
    intros a q b q' m m' C1 C2 Hq G1 G2. apply (NT q q'); [apply (NN a q m C1 G1) | apply (NN b q' m' C2 G2) | exact Hq]. }
  assert (SW : forall i j, (i < parts)%nat -> (j < parts)%nat -> i <> j -> fst (XY i) j = snd (XY j) i /\ snd (XY i) j = fst (XY j) i).
  { intros i j Hi Hj Hij. destruct (HXY i Hi j Hj Hij) as (t1 & t2 & R & N & O & -> & ->). destruct (HXY j Hj i Hi (fun e => Hij (eq_sym e))) as (u1 & u2 & R' & N' & _ & -> & ->).
    destruct (pstep_swap eb dim Hdim pss Hne Hsort Hf Hn Hmass Hrad Hids Hpos (k_tab one2) O2 _ HI HO HG 0%nat Hn MAC i j (t1, t2) TIE O) as [_ S]. rewrite N in S. apply (reach_swap eb dim Hdim pss Hne Hsort Hf Hn Hmass Hrad Hids Hpos (k_tab one2) O2 _ HI HO HG 0%nat Hn MAC i j (t1, t2) TIE) in R.
    pose proof (reach_one eb dim pss MAC j i _ _ R S R' N') as Z. unfold swap in Z. cbn [fst snd] in Z. injection Z as -> ->. split; reflexivity. }
  etransitivity; [|apply (Gravity_props.suml_antisym (fun i j => (if (Nat.ltb i parts && Nat.ltb j parts && negb (Nat.eqb j i))%bool then b_mass (eb i) * p2p_acc n gc (fst (XY i) j) (snd (XY i) j) (b_mass (eb j)) k else 0)%R) (seq 0 parts))].
  - apply suml_ext. intros i Hi. apply in_seq in Hi. rewrite <- suml_scal. apply suml_ext. intros j Hj. apply in_seq in Hj. replace (i <? parts)%nat with true by (symmetry; apply Nat.ltb_lt; lia). replace (j <? parts)%nat with true by (symmetry; apply Nat.ltb_lt; lia). cbn [andb]. destruct (negb _); [reflexivity | apply Rmult_0_r].
  - intros i j. rewrite (Nat.eqb_sym i j), (andb_comm (j <? parts)%nat). destruct (Nat.ltb_spec i parts) as [Hi|], (Nat.ltb_spec j parts) as [Hj|], (Nat.eqb_spec j i) as [|Hij]; cbn [andb negb]; try (symmetry; apply Ropp_0).
    destruct (SW i j Hi Hj ltac:(congruence)) as [-> ->]. unfold p2p_acc. rewrite (dist_sym n (snd (XY j) i)). unfold Rdiv. ring.
Qed.
End All.

(** *** Examples: the ranks of Dist_refuted.  Rank 0 asks rank 1 for its node 3 and gets it. *)
Definition go (s : Comms_model.gstate (option (nat + cofm))) (r : nat) := mkg (g_tab s) (g_chan s) (upd (g_ph s) r Working) (upd (g_done s) r (fun _ => false)) (g_all s) (upd (g_wait s) r []).
Definition ask (s : Comms_model.gstate (option (nat + cofm))) (r o : nat) (ks : list N) := mkg (upd (g_tab s) r (mark_requested 1 (g_tab s r) ks)) (upd2 (g_chan s) r o (g_chan s r o ++ [MReq ks])) (g_ph s) (g_done s) (g_all s) (upd (g_wait s) r (ks ++ g_wait s r)).
Definition take (s : Comms_model.gstate (option (nat + cofm))) (r src : nat) := match g_chan s src r with m :: rest => handle 1 2 9 s r src m rest | [] => None end.
Definition fetched (l : list (rank_st nat cofm)) := s <- take (ask (go (go (g_init (tables l) (fun _ _ => false) (fun _ => false) (fun _ => [])) 0) 1) 0 1 [3]) 1 0 ;; s <- take s 0 1 ;; take s 0 1.
Lemma fetched_ok (f : N -> list nat -> list cofm -> cofm) : exists l s, build_all 1 f pss3 = Some l /\ fetched l = Some s /\ tables l 0%nat 3 = Some (mkr 8 true 1%nat (Some (inr (f 3 [1%nat; 2%nat] [])))) /\
  map (fun k => (look_r (tables l 0%nat) k, iam_owner 0 (tables l 0%nat) k)) [1; 2; 3] =
    [(Some (11, inr (f 1 [0%nat] [f 3 [1%nat; 2%nat] []])), true); (Some (0, inl 0%nat), true); (Some (8, inr (f 3 [1%nat; 2%nat] [])), false)] /\
  map (fun k => (look_r (g_tab s 0%nat) k, iam_owner 0 (g_tab s 0%nat) k)) [1; 2; 3; 6; 7] =
    [(Some (11, inr (f 1 [0%nat] [f 3 [1%nat; 2%nat] []])), true); (Some (0, inl 0%nat), true); (Some (91, inr (f 3 [1%nat; 2%nat] [])), false); (Some (8, inl 1%nat), false); (Some (8, inl 2%nat), false)].
Proof.
  assert (E : match build_all 1 f pss3 with Some l => match fetched l with Some s => Some (tables l 0%nat 3, map (fun k => (look_r (tables l 0%nat) k, iam_owner 0 (tables l 0%nat) k)) [1; 2; 3], map (fun k => (look_r (g_tab s 0%nat) k, iam_owner 0 (g_tab s 0%nat) k)) [1; 2; 3; 6; 7]) | None => None end | None => None end =
    Some (Some (mkr 8 true 1%nat (Some (inr (f 3 [1%nat; 2%nat] [])))), [(Some (11, inr (f 1 [0%nat] [f 3 [1%nat; 2%nat] []])), true); (Some (0, inl 0%nat), true); (Some (8, inr (f 3 [1%nat; 2%nat] [])), false)],
    [(Some (11, inr (f 1 [0%nat] [f 3 [1%nat; 2%nat] []])), true); (Some (0, inl 0%nat), true); (Some (91, inr (f 3 [1%nat; 2%nat] [])), false); (Some (8, inl 1%nat), false); (Some (8, inl 2%nat), false)])) by (vm_compute; reflexivity).
  destruct (build_all 1 f pss3) as [l|]; [|discriminate]. destruct (fetched l) as [s|] eqn:Ef; [|discriminate]. exists l, s. split; [reflexivity|]. split; [exact Ef|]. remember (map (fun k => (look_r (tables l 0%nat) k, iam_owner 0 (tables l 0%nat) k)) [1; 2; 3]) as a. remember (map (fun k => (look_r (g_tab s 0%nat) k, iam_owner 0 (g_tab s 0%nat) k)) [1; 2; 3; 6; 7]) as b. injection E as -> -> ->. tauto.
Qed.
Lemma fetched_steps l s m : tables l 0%nat 3 = Some (mkr 8 true 1%nat (Some (inr m))) -> fetched l = Some s -> steps 1 2 false keeps 9 (g_init (tables l) (fun _ _ => false) (fun _ => false) (fun _ => [])) s.
Proof.
  intros E3 E. unfold fetched in E. set (s0 := g_init (tables l) (fun _ _ => false) (fun _ => false) (fun _ => [])) in *.
  assert (TK : forall a b r src, (r < 2)%nat -> (src < 2)%nat -> listening a r -> take a r src = Some b -> step 1 2 false keeps 9 a b) by (intros a b r src Hr Hs HL Et; unfold take in Et; destruct (g_chan a src r) as [|m0 rest] eqn:Ec; [discriminate|]; exact (s_recv 1 2 false keeps 9 a b r src m0 rest Hr Hs HL Ec Et)).
  assert (PH : forall a b r src x, take a r src = Some b -> g_ph b x = g_ph a x) by (intros a b r src x Et; unfold take in Et; destruct (g_chan a src r) as [|m0 rest]; [discriminate|]; destruct m0; cbn [handle] in Et; repeat match type of Et with context [match ?y with _ => _ end] => destruct y; try discriminate end; injection Et as <-; reflexivity).
  set (s1 := go s0 0) in *. set (s2 := go s1 1) in *. set (s3 := ask s2 0 1 [3]) in *. destruct (take s3 1 0) as [s4|] eqn:E4; [|discriminate]. destruct (take s4 0 1) as [s5|] eqn:E5; [|discriminate].
  assert (W3 : forall r, (r < 2)%nat -> g_ph s3 r = Working) by (intros [|[|r]] Hr; [reflexivity | reflexivity | lia]).
  eapply st_step; [eapply st_step; [eapply st_step; [eapply st_step; [eapply st_step; [eapply st_step; [apply st_refl|]|]|]|]|]|].
  - apply (s_start 1 2 false keeps 9 s0 0); [lia | reflexivity].
  - apply (s_start 1 2 false keeps 9 s1 1); [lia | reflexivity].
  - apply (s_request 1 2 false keeps 9 s2 0 1 [3]); [lia | lia | reflexivity|]. split; [discriminate|]. split; [repeat constructor; intros []|]. intros k [<-|[]]. eexists. split; [exact E3|]. repeat split; reflexivity.
  - apply (TK s3 s4 1%nat 0%nat); [lia | lia | left; apply W3; lia | exact E4].
  - apply (TK s4 s5 0%nat 1%nat); [lia | lia | left; rewrite (PH _ _ _ _ 0%nat E4); apply W3; lia | exact E5].
  - apply (TK s5 s 0%nat 1%nat); [lia | lia | left; rewrite (PH _ _ _ _ 0%nat E5), (PH _ _ _ _ 0%nat E4); apply W3; lia | exact E].
Qed.
Lemma mac3_back : mac 1 (b_pos (eb3 0)) 0 (cm_pos m3) (cm_rad m3) mac3 = true.
Proof. rewrite <- mac3_ok. unfold mac. rewrite Rplus_comm, dist_sym. reflexivity. Qed.
(** one rank with all particles *)
Section OneRank.
Variables (lk : N -> option (N * (nat + cofm))) (mine : N -> bool).
Hypothesis L1 : lk 1 = Some (3, inr m1).
Hypothesis L2 : lk 2 = Some (0, inl 0%nat).
Hypothesis L3 : lk 3 = Some (3, inr m3).
Hypothesis L6 : lk 6 = Some (0, inl 1%nat).
Hypothesis L7 : lk 7 = Some (0, inl 2%nat).
Hypothesis O1 : mine 1 = true.
Hypothesis O2 : mine 2 = true.
Hypothesis O3 : mine 3 = true.
Hypothesis O6 : mine 6 = true.
Hypothesis O7 : mine 7 = true.
Let ok1 : dkids 1 lk 1 3 (digits 1) = Some [2; 3].
Proof. change (digits 1) with [0; 1]. cbn [dkids]. change (get_child 3 0) with true. change (get_child 3 1) with true. cbv beta iota. change (key_push 1 1 0) with (Some 2). change (key_push 1 1 1) with (Some 3). cbv beta iota. rewrite L2, L3. reflexivity. Qed.
Let ok3 : dkids 1 lk 3 3 (digits 1) = Some [6; 7].
Proof. change (digits 1) with [0; 1]. cbn [dkids]. change (get_child 3 0) with true. change (get_child 3 1) with true. cbv beta iota. change (key_push 1 3 0) with (Some 6). change (key_push 1 3 1) with (Some 7). cbv beta iota. rewrite L6, L7. reflexivity. Qed.
Let ok0 q : dkids 1 lk q 0 (digits 1) = Some []. Proof. reflexivity. Qed.
Lemma one_pass1 : dfmm_pass eb3 1 mac3 lk mine [(1, 1)] = Some ([(2, 2); (2, 3); (3, 2); (3, 3)], [], []).
Proof.
  cbn [dfmm_pass]. unfold dfmm_pair. cbn [fst snd]. rewrite L1, O1. cbn [negb dempty fst snd]. change (is_empty_node 1 3) with false. change (1 =? 1) with true. cbv iota. change (cm_sub m1 <? fmm_sub_limit)%nat with false. rewrite ok1. cbn [self_pairs flat_map app filter fst]. rewrite O2, O3. reflexivity.
Qed.
Lemma one_pass2 : dfmm_pass eb3 1 mac3 lk mine [(2, 2); (2, 3); (3, 2); (3, 3)] = Some ([(6, 6); (6, 7); (7, 6); (7, 7)], [C_p2p 0 (Some 3) []; C_p2c 3 0], [(2, 2)]).
Proof.
  cbn [dfmm_pass]. unfold dfmm_pair. cbn [fst snd]. rewrite L2, L3, O2, O3. cbn [negb dempty fst snd dextent]. change (is_empty_node 1 3) with false. change (3 =? 2) with false. change (2 =? 3) with false. change (3 =? 3) with true. change (2 =? 2) with true. cbv iota. change (cm_sub m3 <? fmm_sub_limit)%nat with false. change (N.to_nat 1) with 1%nat. rewrite mac3_ok, mac3_back, ok3. cbn [self_pairs flat_map app filter fst snd]. rewrite O6, O7. reflexivity.
Qed.
Lemma one_pass3 : dfmm_pass eb3 1 mac3 lk mine [(6, 6); (6, 7); (7, 6); (7, 7)] = Some ([], [], [(6, 6); (6, 7); (7, 6); (7, 7)]).
Proof. cbn [dfmm_pass]. unfold dfmm_pair. cbn [fst snd]. rewrite L6, L7, O6, O7. reflexivity. Qed.
Lemma one_end : dfmm_end 1 lk mine 9 [C_p2p 0 (Some 3) []; C_p2c 3 0] [(2, 2); (6, 6); (6, 7); (7, 6); (7, 7)] =
  Some [C_c2p 3 [2; 1]%nat; C_p2p 0 None [0%nat]; C_p2p 1 None [1%nat]; C_p2p 1 None [2%nat]; C_p2p 2 None [1%nat]; C_p2p 2 None [2%nat]].
Proof.
  unfold dfmm_end, key_root. rewrite dwalk_S, L1. unfold daffected_func at 1. rewrite O1. cbv zeta. cbn [negb fst snd]. rewrite ok1. cbn [rev app].
  rewrite dwalk_S, L3. unfold daffected_func at 1. rewrite O3. cbv zeta. cbn [negb fst snd]. rewrite ok3. cbn [rev app].
  rewrite dwalk_S, L7. unfold daffected_func at 1. rewrite O7. cbv zeta. cbn [negb fst snd]. rewrite ok0. cbn [rev app].
  rewrite dwalk_S, L6. unfold daffected_func at 1. rewrite O6. cbv zeta. cbn [negb fst snd]. rewrite ok0. cbn [rev app].
  rewrite dwalk_S, L2. unfold daffected_func. rewrite O2. cbv zeta. cbn [negb fst snd]. rewrite ok0. cbn [rev app]. change (affected [C_p2p 0 (Some 3) []; C_p2c 3 0] 1) with false. change (affected [C_p2p 0 (Some 3) []; C_p2c 3 0] 3) with true. cbn [dwalk app].
  cbn [dc2p_calls]. rewrite dwalk_S, L3. cbv zeta. cbn [dgroup_func fst snd]. rewrite ok3. cbn [rev app]. rewrite dwalk_S, L7. cbv zeta. cbn [dgroup_func fst snd]. change (is_shared 1 0) with false. cbv iota. rewrite dwalk_S, L6. cbv zeta. cbn [dgroup_func fst snd]. change (is_shared 1 0) with false. cbv iota. cbn [dwalk app].
  cbn [dp2p_calls fst snd]. rewrite L2, L6, L7. reflexivity.
Qed.
End OneRank.
Lemma built_single (f : N -> list nat -> list cofm -> cofm) : exists one, build_all 1 f [concat pss3] = Some [one] /\
  map (fun k => (look_r (tables [one] 0%nat) k, iam_owner 0 (tables [one] 0%nat) k)) [1; 2; 3; 6; 7] =
    [(Some (3, inr (f 1 [0%nat] [f 3 [1%nat; 2%nat] []])), true); (Some (0, inl 0%nat), true); (Some (3, inr (f 3 [1%nat; 2%nat] [])), true); (Some (0, inl 1%nat), true); (Some (0, inl 2%nat), true)] /\
  (forall k m, node_of (look_r (tables [one] 0%nat)) k = Some m -> k = 1 /\ m = f 1 [0%nat] [f 3 [1%nat; 2%nat] []] \/ k = 3 /\ m = f 3 [1%nat; 2%nat] []).
Proof.
  assert (E : match build_all 1 f [concat pss3] with Some [one] => Some (map (fun k => (look_r (tables [one] 0%nat) k, iam_owner 0 (tables [one] 0%nat) k)) [1; 2; 3; 6; 7]) | _ => None end =
    Some [(Some (3, inr (f 1 [0%nat] [f 3 [1%nat; 2%nat] []])), true); (Some (0, inl 0%nat), true); (Some (3, inr (f 3 [1%nat; 2%nat] [])), true); (Some (0, inl 1%nat), true); (Some (0, inl 2%nat), true)]) by (vm_compute; reflexivity).
  assert (N0 : forall k, k <> 1 -> k <> 3 -> match build_all 1 f [concat pss3] with Some [one] => node_of (look_r (tables [one] 0%nat)) k | _ => None end = None).
  { intros [|[[[p|p|]|[p|p|]|]|[[p|p|]|[p|p|]|]|]] H1 H3; try congruence; vm_compute; reflexivity. }
  destruct (build_all 1 f [concat pss3]) as [[|one [|x l]]|]; try discriminate. exists one. split; [reflexivity|]. assert (E' := E). cbn [map] in E'. injection E' as A1 _ _ _ A3 _ _ _ _ _. remember (map (fun k => (look_r (tables [one] 0%nat) k, iam_owner 0 (tables [one] 0%nat) k)) [1; 2; 3; 6; 7]) as a. injection E as E. split; [exact E|].
  intros k m Hk. destruct (N.eq_dec k 1) as [->|H1]; [left; unfold node_of in Hk; rewrite A1 in Hk; injection Hk as <-; tauto|]. destruct (N.eq_dec k 3) as [->|H3]; [right; unfold node_of in Hk; rewrite A3 in Hk; injection Hk as <-; tauto|]. rewrite (N0 k H1 H3) in Hk. discriminate.
Qed.
(** C101_same: rank 1 of two and the only rank *)
Example C101_same_example : exists l l', spread 1 pss3 /\ spread 1 [concat pss3] /\ concat pss3 = concat [concat pss3] /\ build_all 1 (cofm_of eb3 (N.to_nat 1)) pss3 = Some l /\ build_all 1 (cofm_of eb3 (N.to_nat 1)) [concat pss3] = Some l' /\
  let s := g_init (tables l) (fun _ _ => false) (fun _ => false) (fun _ => []) in let s' := g_init (tables l') (fun _ _ => false) (fun _ => false) (fun _ => []) in
  let cs := [C_p2c 3 0] in let pp := [(6, 6); (6, 7); (7, 6); (7, 7)] in
  let cs' := [C_p2p 0 (Some 3) []; C_p2c 3 0] in let pp' := [(2, 2); (6, 6); (6, 7); (7, 6); (7, 7)] in
  in_order 1 pss3 9 s [s; s; s; s] /\ dfmm_passes eb3 1 mac3 (map (view 1) [s; s; s]) [(key_root, key_root)] = Some ([], cs, pp) /\
  (exists rest, dfmm_end 1 (look_r (g_tab s 1%nat)) (iam_owner 1 (g_tab s 1%nat)) 9 cs pp = Some rest) /\
  in_order 1 [concat pss3] 9 s' [s'; s'; s'; s'] /\ dfmm_passes eb3 1 mac3 (map (view 0) [s'; s'; s']) [(key_root, key_root)] = Some ([], cs', pp') /\
  (exists rest, dfmm_end 1 (look_r (g_tab s' 0%nat)) (iam_owner 0 (g_tab s' 0%nat)) 9 cs' pp' = Some rest) /\
  In 1%nat (map snd (nth 1 pss3 [])) /\ In 1%nat (map snd (nth 0 [concat pss3] [])).
Proof.
  destruct C99_each_pair_once_example as (l & H1 & H2 & _ & _ & _ & _ & H7 & H8 & H9 & _). destruct (built_single (cofm_of eb3 1)) as (one & B & E & _). cbn [map] in E. injection E as A1 A2 A3 A4 A5 A6 A7 A8 A9 A10. change (cofm_of eb3 1 3 [1%nat; 2%nat] []) with m3 in *. change (cofm_of eb3 1 1 [0%nat] [m3]) with m1 in *.
  exists l, [one]. split; [exact H1|]. split.
  { destruct H1 as (X1 & _ & X2 & X3 & X4). split; [exact X1|]. split; [exists 0%nat; reflexivity|]. split; [intros ps [<-|[]]; discriminate|]. cbn [concat] in *. rewrite ?app_nil_r in *. split; assumption. }
  split; [reflexivity|]. split; [exact H2|]. split; [exact B|]. intros s s' cs pp cs' pp'. split; [exact H7|]. split; [exact H8|]. split; [eexists; exact H9|]. split; [repeat split; apply st_refl|]. split; [|split; [eexists; apply one_end; assumption|split; cbn; tauto]].
  cbn [map dfmm_passes view fst snd]. unfold key_root. cbn [g_init g_tab s']. rewrite one_pass1 by assumption. cbn [fst snd]. rewrite one_pass2 by assumption. cbn [fst snd]. rewrite one_pass3 by assumption. reflexivity.
Qed.
(** C101_momentum: both ranks; rank 0 works on when it has the node *)
Lemma m1_m3 : (cm_rad m3 < cm_rad m1)%R.
Proof.
  assert (X : (dist 1 (cm_pos m1) (cm_pos m3) + cm_rad m3 <= cm_rad m1)%R) by apply Rmax_r.
  assert (Y : dist 1 (cm_pos m1) (cm_pos m3) <> 0%R).
  { intros E. apply dist_zero in E. specialize (E 0%nat ltac:(lia)). pose proof (Cofm_spec.so_pos _ _ _ m3_ok 0%nat) as P. pose proof (Cofm_spec.so_mass _ _ _ m3_ok) as M. pose proof (Cofm_spec.so_pos _ _ _ m1_ok 0%nat) as P'. pose proof (Cofm_spec.so_mass _ _ _ m1_ok) as M'. rewrite M in P. rewrite M', E in P'. cbn in P, P'. lra. }
  pose proof (dist_nonneg 1 (cm_pos m1) (cm_pos m3)). lra.
Qed.
Example C101_momentum_example : exists l one s s', spread 1 pss3 /\ build_all 1 (cofm_of eb3 (N.to_nat 1)) pss3 = Some l /\ build_all 1 (cofm_of eb3 (N.to_nat 1)) [concat pss3] = Some [one] /\
  (forall k q m m', node_of (look_r (tables [one] 0%nat)) k = Some m -> node_of (look_r (tables [one] 0%nat)) q = Some m' -> k <> q -> cm_rad m <> cm_rad m') /\ cm_rad m3 <> cm_rad m1 /\
  s = g_init (tables l) (fun _ _ => false) (fun _ => false) (fun _ => []) /\
  let ss := fun r => match r with 0%nat => [s; s'] | _ => [s; s; s] end in let sf := fun r => match r with 0%nat => s' | _ => s end in
  let cs := fun r => match r with 0%nat => [C_p2p 0 (Some 3) []] | _ => [C_p2c 3 0] end in let pp := fun r => match r with 0%nat => [(2, 2)] | _ => [(6, 6); (6, 7); (7, 6); (7, 7)] end in
  let rest := fun r => match r with 0%nat => [C_p2p 0 None [0%nat]] | _ => [C_c2p 3 [2; 1]%nat; C_p2p 1 None [1%nat]; C_p2p 1 None [2%nat]; C_p2p 2 None [1%nat]; C_p2p 2 None [2%nat]] end in
  forall r, (r < 2)%nat -> in_order 1 pss3 9 s (ss r ++ [sf r]) /\ dfmm_passes eb3 1 mac3 (map (view r) (ss r)) [(key_root, key_root)] = Some ([], cs r, pp r) /\
  dfmm_end 1 (look_r (g_tab (sf r) r)) (iam_owner r (g_tab (sf r) r)) 9 (cs r) (pp r) = Some (rest r).
Proof.
  destruct C99_each_pair_once_example as (l & H1 & H2 & _ & _ & _ & _ & H7 & H8 & H9 & _). destruct (built_single (cofm_of eb3 1)) as (one & B & _ & HN). destruct (fetched_ok (cofm_of eb3 1)) as (l' & s' & B' & F & E3 & E0 & E). change (cofm_of eb3 (N.to_nat 1)) with (cofm_of eb3 1) in *. rewrite H2 in B'. injection B' as <-.
  change (cofm_of eb3 1 3 [1%nat; 2%nat] []) with m3 in *. change (cofm_of eb3 1 1 [0%nat] [m3]) with m1 in *. pose proof (fetched_steps l s' m3 E3 F) as ST. pose proof m1_m3 as MM.
  exists l, one, (g_init (tables l) (fun _ _ => false) (fun _ => false) (fun _ => [])), s'. split; [exact H1|]. split; [exact H2|]. split; [exact B|]. split.
  { intros k q m m' Hk Hq Hkq. destruct (HN k m Hk) as [[-> ->]|[-> ->]], (HN q m' Hq) as [[-> ->]|[-> ->]]; try congruence; lra. }
  split; [lra|]. split; [reflexivity|]. set (s := g_init (tables l) (fun _ _ => false) (fun _ => false) (fun _ => [])) in *. intros ss sf cs pp rest [|[|r]] Hr; [|split; [exact H7 | split; [exact H8 | exact H9]]|lia].
  cbn [map] in E0, E. injection E0 as I1 I2 I3 I4 I5 I6. injection E as A1 A2 A3 A4 A5 A6 A7 A8 A9 A10. split; [split; [apply st_refl | split; [exact ST | split; [apply st_refl | exact I]]]|].
  assert (K1 : forall lk, lk 2 = Some (0, inl 0%nat) -> (exists w, lk 3 = Some (w, inr m3)) -> dkids 1 lk 1 11 (digits 1) = Some [2; 3]).
  { intros lk X2 (w3 & X3). change (digits 1) with [0; 1]. cbn [dkids]. change (get_child 11 0) with true. change (get_child 11 1) with true. cbv beta iota. change (key_push 1 1 0) with (Some 2). change (key_push 1 1 1) with (Some 3). cbv beta iota. rewrite X2, X3. reflexivity. }
  subst ss sf cs pp rest. cbn [map dfmm_passes view fst snd]. unfold key_root. cbn [g_init g_tab s]. split.
  - assert (P1 : dfmm_pass eb3 1 mac3 (look_r (tables l 0%nat)) (iam_owner 0 (tables l 0%nat)) [(1, 1)] = Some ([(2, 2); (2, 3)], [], [])).
    { cbn [dfmm_pass]. unfold dfmm_pair. cbn [fst snd]. rewrite I1, I2. cbn [negb dempty fst snd]. change (is_empty_node 1 11) with false. change (1 =? 1) with true. cbv iota. change (cm_sub m1 <? fmm_sub_limit)%nat with false. rewrite (K1 _ I3 (ex_intro _ _ I5)). cbn [self_pairs flat_map app filter fst]. rewrite I4, I6. reflexivity. }
    assert (P2 : dfmm_pass eb3 1 mac3 (look_r (g_tab s' 0%nat)) (iam_owner 0 (g_tab s' 0%nat)) [(2, 2); (2, 3)] = Some ([], [C_p2p 0 (Some 3) []], [(2, 2)])).
    { cbn [dfmm_pass]. unfold dfmm_pair. cbn [fst snd]. rewrite A3, A4, A5. cbn [negb dempty fst snd dextent]. change (is_empty_node 1 91) with false. change (2 =? 3) with false. change (2 =? 2) with true. cbv iota. change (N.to_nat 1) with 1%nat. rewrite mac3_back. reflexivity. }
    rewrite P1. cbn [fst snd]. rewrite P2. reflexivity.
  - unfold dfmm_end, key_root. rewrite dwalk_S, A1. unfold daffected_func at 1. rewrite A2. cbv zeta. cbn [negb fst snd]. rewrite (K1 _ A3 (ex_intro _ _ A5)). cbn [rev app].
    rewrite dwalk_S, A5. unfold daffected_func at 1. rewrite A6. cbv zeta. cbn [negb fst snd]. rewrite dwalk_S, A3. unfold daffected_func. rewrite A4. cbv zeta. cbn [negb fst snd].
    change (dkids 1 (look_r (g_tab s' 0%nat)) 2 0 (digits 1)) with (Some (@nil N)). cbn [rev app]. change (affected [C_p2p 0 (Some 3) []] 1) with false. cbn [dwalk app dc2p_calls]. cbn [dp2p_calls fst snd]. rewrite A3. reflexivity.
Qed.

Print Assumptions C101_same.
Print Assumptions C101_momentum.
