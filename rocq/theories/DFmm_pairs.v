(** One pair of the queue, and one pass, of the FMM traversal of a rank. *)
From Coq Require Import Sorted Permutation.
From Verif Require Import Base Key_model Key_spec Key_proofs HCell_model HCell_props
  BuildTree_model BuildTree_spec BuildTree_lemmas BuildTree_inv BuildTree_turn BuildTree_proofs BuildTree_shape.
From Verif Require Import Share_model Share_lemmas Share_sums Share_table Share_steps Share_update Share_local Share_rounds Share_final Share_world Share_reach Share_flags.
From Verif Require Comms_lemmas Comms_inv Comms_steps Comms_flags Fmm_spec.
From Verif Require Import Vec Geometry_model Geometry_props Cofm_model Cofm_spec Comms_model Dist_model Dist_lemmas Dist_near Dist_walk Dist_reach Dist_cover Dist_target
  Search_model Gravity_model Fmm_model Fmm_proofs DFmm_owner DFmm_model DFmm_cells.
Local Open Scope N_scope.

Set Default Proof Using "All".
Section Pairs.
Context (eb : nat -> body) (dim : N) (Hdim : dim_ok dim).
Notation n := (N.to_nat dim).
Notation f := (cofm_of eb n).
Context (pss : list (list (N * nat))).
Notation D := (max_depth dim).
Notation B := (2 ^ dim).
Notation up := (BuildTree_spec.up dim).
Notation full := (BuildTree_lemmas.full dim).
Notation has := (has dim).
Notation internal := (internal dim).
Notation cell_ex := (cell_ex dim).
Notation P := (P pss).
Notation K := (K pss).
Notation ks := (ks pss).
Notation nr := (nr pss).
Notation under := (under dim).
Notation stable := (stable nat cofm).
Notation gdat := (gdat dim f pss).
Notation above := (above dim pss).
Notation inside := (Fmm_spec.inside dim K).
Hypothesis Hne : forall ps, In ps pss -> ps <> [].
Hypothesis Hsort : StronglySorted N.lt K.
Hypothesis Hfull : Forall full K.
Hypothesis Hn0 : (0 < nr)%nat.
Hypothesis Hmass : forall x, In x P -> (0 < b_mass (eb (snd x)))%R.
Hypothesis Hrad : forall x, In x P -> (0 <= b_rad (eb (snd x)))%R.
Hypothesis Hids : map snd P = seq 0 (length P).
Hypothesis Hpos : forall i j, (i < length P)%nat -> (j < length P)%nat -> i <> j -> ~ peq n (b_pos (eb i)) (b_pos (eb j)).

Variables (one : stable).
Hypothesis H1 : one_ok dim f pss one.
Context (s : Comms_model.gstate (option (nat + cofm))).
Hypothesis HI : inv dim nr (tree_of one) s.
Hypothesis HO : forall r, (r < nr)%nat -> Comms_flags.own dim (tree_of one) (Dist_cover.above dim pss) r (g_tab s r).
Hypothesis HG : owners dim nr (tree_of one) (Dist_cover.above dim pss) s.
Variable r : nat.
Hypothesis Hr : (r < nr)%nat.
Notation own := (nth r pss []).
Notation lk := (look_r (g_tab s r)).
Notation mine := (iam_owner r (g_tab s r)).
Notation V := (V dim pss s r).
Notation cellat := (cellat dim pss).
Notation here := (here s r).
Notation islf := (islf eb dim pss).
Notation isnd := (isnd dim pss).
Notation mem := (mem pss r).
Context (MAC : R).
Definition cov (i j : nat) (z : N * N) : nat := (inside (fst z) i * inside (snd z) j)%nat.
(** what a call made in a pass is worth *)
Definition covc (i j : nat) (c : call) : nat :=
  match c with
  | C_c2c k q => (inside k i * inside q j)%nat
  | C_p2c k e => (inside k i * if Nat.eqb e j then 1 else 0)%nat
  | C_p2p e (Some q) [] => ((if Nat.eqb e i then 1 else 0) * inside q j)%nat
  | _ => 0%nat
  end.
Definition callok (c : call) : Prop :=
  match c with
  | C_c2c k _ | C_p2c k _ => isnd k /\ above r k
  | C_p2p e (Some _) [] => mem e
  | _ => False
  end.
Definition pair_ok (z : N * N) : Prop := here (fst z) /\ here (snd z) /\ (exists l1 l2, cellat l1 (fst z) /\ cellat l2 (snd z)) /\ above r (fst z) /\ (fst z = snd z \/ (fst z <> 1 /\ snd z <> 1)).
Definition plev (m : nat) (z : N * N) : Prop := exists l1 l2, cellat l1 (fst z) /\ cellat l2 (snd z) /\ (N.to_nat l1 + N.to_nat l2 <= m)%nat.
Definition ptok (z : N * N) : Prop := here (fst z) /\ here (snd z) /\ above r (fst z) /\ exists e1 e2, islf (fst z) e1 /\ islf (snd z) e2.
Definition ready (q : N) : Prop := forall c, g_tab s r q = Some c -> empty_node dim c = false.
Lemma dempty_ready l q w m : cellat l q -> here q -> lk q = Some (w, inr m) -> ready q -> is_empty_node dim w = false.
Proof.
  intros Hc Hh E Hr'. pose proof E as E0. apply (look_rank dim Hdim f pss Hne Hsort Hfull Hn0 one H1 s HI r Hr) in E0. destruct E0 as (c & Ec & Ew & Ed). specialize (Hr' c Ec). unfold empty_node in Hr'.
  destruct (state_cell dim Hdim f pss Hne Hsort Hfull Hn0 one H1 s HI r q c Hr Ec) as (c1 & _ & Ed1 & En & _). rewrite En, <- Ed1, Ed, Ew in Hr'. exact Hr'.
Qed.
(** the pairs with the daughters of the sink *)
Lemma sink_kids z l1 l2 w m ds : pair_ok z -> cellat l1 (fst z) -> cellat l2 (snd z) -> lk (fst z) = Some (w, inr m) -> fst z <> snd z ->
  dkids dim lk (fst z) w (digits dim) = Some ds -> Forall pair_ok (map (fun d => (d, snd z)) (filter mine ds)) /\
  (forall i j, mem i -> (j < length P)%nat -> cov i j z = nsum (cov i j) (map (fun d => (d, snd z)) (filter mine ds))) /\
  (forall k, plev k z -> Forall (fun y => (1 <= k)%nat /\ plev (k - 1) y) (map (fun d => (d, snd z)) (filter mine ds))).
Proof.
  intros (Z1 & Z2 & _ & Ha & Zs) C1 C2 E Hneq Ed. destruct (kids_at eb dim Hdim pss Hne Hsort Hfull Hn0 Hmass Hrad Hids Hpos one H1 s HI HO HG r Hr l1 (fst z) w m) as (ds' & Ed' & ND & Hl & KD & KS); [apply (V_at eb dim Hdim pss Hne Hsort Hfull Hn0 Hmass Hrad Hids Hpos one H1 s HI HO HG r Hr); tauto | exact E | right; exact Ha|]. rewrite Ed in Ed'. injection Ed' as <-.
  assert (N1 : snd z <> 1) by (destruct Zs as [Zs|[_ Zs]]; [contradiction | exact Zs]).
  assert (KC : forall d, In d ds -> cellat (l1 - 1) d /\ here d /\ d <> 1) by (intros d Hd; destruct (KD d Hd) as (A & A2 & _); apply (V_at eb dim Hdim pss Hne Hsort Hfull Hn0 Hmass Hrad Hids Hpos one H1 s HI HO HG r Hr) in A; tauto). split; [|split].
  - apply Forall_forall. intros y Hy. apply in_map_iff in Hy. destruct Hy as (d & <- & Hd). apply filter_In in Hd. destruct Hd as [Hd Hm]. destruct (KC d Hd) as (A1 & A2 & A3). unfold pair_ok. cbn [fst snd]. split; [exact A2|]. split; [exact Z2|]. split; [exists (l1 - 1), l2; tauto|]. split; [apply (mine_above eb dim Hdim pss Hne Hsort Hfull Hn0 Hmass Hrad Hids Hpos one H1 s HI HO HG r Hr), Hm | right; tauto].
  - intros i j Hi Hj. destruct (mem_key eb dim Hdim pss Hne Hsort Hfull Hn0 Hmass Hrad Hids Hpos r i Hr Hi) as (Hi' & _). rewrite nsum_map. unfold cov. cbn [fst snd]. rewrite nsum_filter.
    + rewrite <- (KS i Hi'), Nat.mul_comm, <- nsum_scal. apply nsum_ext. intros d _. lia.
    + intros d Hd Hm. destruct (Nat.eq_dec (inside d i) 0) as [->|Hn]; [reflexivity|]. exfalso. destruct (KC d Hd) as (A1 & _). apply (above_inside eb dim Hdim pss Hne Hsort Hfull Hn0 Hmass Hrad Hids Hpos r d (l1 - 1) i Hr A1 Hi) in Hn. apply (mine_above eb dim Hdim pss Hne Hsort Hfull Hn0 Hmass Hrad Hids Hpos one H1 s HI HO HG r Hr) in Hn. congruence.
  - intros k (a & b & A1 & A2 & A3). rewrite (cell_level eb dim Hdim pss Hne Hsort Hfull Hn0 Hmass Hrad Hids Hpos a l1 (fst z) A1 C1), (cell_level eb dim Hdim pss Hne Hsort Hfull Hn0 Hmass Hrad Hids Hpos b l2 (snd z) A2 C2) in A3. apply Forall_forall. intros y Hy. apply in_map_iff in Hy. destruct Hy as (d & <- & Hd). apply filter_In in Hd. destruct Hd as [Hd _]. split; [lia|]. exists (l1 - 1), l2. cbn [fst snd]. split; [apply KC, Hd|]. split; [exact C2 | lia].
Qed.
(** the pairs with the daughters of the source *)
Lemma source_kids z l1 l2 w m ds : pair_ok z -> cellat l1 (fst z) -> cellat l2 (snd z) -> lk (snd z) = Some (w, inr m) -> is_empty_node dim w = false -> fst z <> snd z ->
  dkids dim lk (snd z) w (digits dim) = Some ds -> Forall pair_ok (map (fun d => (fst z, d)) ds) /\
  (forall i j, mem i -> (j < length P)%nat -> cov i j z = nsum (cov i j) (map (fun d => (fst z, d)) ds)) /\
  (forall k, plev k z -> Forall (fun y => (1 <= k)%nat /\ plev (k - 1) y) (map (fun d => (fst z, d)) ds)).
Proof.
  intros (Z1 & Z2 & _ & Ha & Zs) C1 C2 E He Hneq Ed. destruct (kids_at eb dim Hdim pss Hne Hsort Hfull Hn0 Hmass Hrad Hids Hpos one H1 s HI HO HG r Hr l2 (snd z) w m) as (ds' & Ed' & ND & Hl & KD & KS); [apply (V_at eb dim Hdim pss Hne Hsort Hfull Hn0 Hmass Hrad Hids Hpos one H1 s HI HO HG r Hr); tauto | exact E | left; exact He|]. rewrite Ed in Ed'. injection Ed' as <-.
  assert (N1 : fst z <> 1) by (destruct Zs as [Zs|[Zs _]]; [contradiction | exact Zs]).
  assert (KC : forall d, In d ds -> cellat (l2 - 1) d /\ here d /\ d <> 1) by (intros d Hd; destruct (KD d Hd) as (A & A2 & _); apply (V_at eb dim Hdim pss Hne Hsort Hfull Hn0 Hmass Hrad Hids Hpos one H1 s HI HO HG r Hr) in A; tauto). split; [|split].
  - apply Forall_forall. intros y Hy. apply in_map_iff in Hy. destruct Hy as (d & <- & Hd). destruct (KC d Hd) as (A1 & A2 & A3). unfold pair_ok. cbn [fst snd]. split; [exact Z1|]. split; [exact A2|]. split; [exists l1, (l2 - 1); tauto|]. split; [exact Ha | right; tauto].
  - intros i j Hi Hj. rewrite nsum_map. unfold cov. cbn [fst snd]. rewrite <- (KS j Hj), <- nsum_scal. reflexivity.
  - intros k (a & b & A1 & A2 & A3). rewrite (cell_level eb dim Hdim pss Hne Hsort Hfull Hn0 Hmass Hrad Hids Hpos a l1 (fst z) A1 C1), (cell_level eb dim Hdim pss Hne Hsort Hfull Hn0 Hmass Hrad Hids Hpos b l2 (snd z) A2 C2) in A3. apply Forall_forall. intros y Hy. apply in_map_iff in Hy. destruct Hy as (d & <- & Hd). split; [lia|]. exists l1, (l2 - 1). cbn [fst snd]. split; [exact C1|]. split; [apply KC, Hd | lia].
Qed.
(** the pairs of the daughters of one cell *)
Lemma self_kids z l w m ds : pair_ok z -> cellat l (fst z) -> fst z = snd z -> lk (fst z) = Some (w, inr m) -> dkids dim lk (fst z) w (digits dim) = Some ds ->
  let nq := filter (fun y => mine (fst y)) (self_pairs ds) in Forall pair_ok nq /\
  (forall i j, mem i -> (j < length P)%nat -> cov i j z = nsum (cov i j) nq) /\
  (forall k, plev k z -> Forall (fun y => (1 <= k)%nat /\ plev (k - 1) y) nq).
Proof.
  intros (Z1 & Z2 & _ & Ha & Zs) C Heq E Ed nq. destruct (kids_at eb dim Hdim pss Hne Hsort Hfull Hn0 Hmass Hrad Hids Hpos one H1 s HI HO HG r Hr l (fst z) w m) as (ds' & Ed' & ND & Hl & KD & KS); [apply (V_at eb dim Hdim pss Hne Hsort Hfull Hn0 Hmass Hrad Hids Hpos one H1 s HI HO HG r Hr); tauto | exact E | right; exact Ha|]. rewrite Ed in Ed'. injection Ed' as <-.
  assert (KC : forall d, In d ds -> cellat (l - 1) d /\ here d /\ d <> 1) by (intros d Hd; destruct (KD d Hd) as (A & A2 & _); apply (V_at eb dim Hdim pss Hne Hsort Hfull Hn0 Hmass Hrad Hids Hpos one H1 s HI HO HG r Hr) in A; tauto).
  assert (QI : forall y, In y nq -> In (fst y) ds /\ In (snd y) ds /\ mine (fst y) = true) by (intros y Hy; unfold nq in Hy; apply filter_In in Hy; destruct Hy as [Hy Hm]; apply self_pairs_in in Hy; tauto). split; [|split].
  - apply Forall_forall. intros y Hy. destruct (QI y Hy) as (Y1 & Y2 & Y3). destruct (KC _ Y1) as (A1 & A2 & A3). destruct (KC _ Y2) as (B1 & B2 & B3). unfold pair_ok. split; [exact A2|]. split; [exact B2|]. split; [exists (l - 1), (l - 1); tauto|]. split; [apply (mine_above eb dim Hdim pss Hne Hsort Hfull Hn0 Hmass Hrad Hids Hpos one H1 s HI HO HG r Hr), Y3 | right; tauto].
  - intros i j Hi Hj. destruct (mem_key eb dim Hdim pss Hne Hsort Hfull Hn0 Hmass Hrad Hids Hpos r i Hr Hi) as (Hi' & _). unfold nq. rewrite nsum_filter.
    + unfold cov. rewrite (nsum_self (fun d => inside d i) (fun d => inside d j) ds), (KS i Hi'), (KS j Hj), Heq. reflexivity.
    + intros y Hy Hm. apply self_pairs_in in Hy. unfold cov. destruct (Nat.eq_dec (inside (fst y) i) 0) as [->|Hn]; [reflexivity|]. exfalso. destruct (KC _ (proj1 Hy)) as (A1 & _). apply (above_inside eb dim Hdim pss Hne Hsort Hfull Hn0 Hmass Hrad Hids Hpos r (fst y) (l - 1) i Hr A1 Hi) in Hn. apply (mine_above eb dim Hdim pss Hne Hsort Hfull Hn0 Hmass Hrad Hids Hpos one H1 s HI HO HG r Hr) in Hn. congruence.
  - intros k (a & b & A1 & A2 & A3). rewrite <- Heq in A2. rewrite (cell_level eb dim Hdim pss Hne Hsort Hfull Hn0 Hmass Hrad Hids Hpos a l (fst z) A1 C), (cell_level eb dim Hdim pss Hne Hsort Hfull Hn0 Hmass Hrad Hids Hpos b l (fst z) A2 C) in A3. apply Forall_forall. intros y Hy. destruct (QI y Hy) as (Y1 & Y2 & _). split; [lia|]. exists (l - 1), (l - 1). split; [apply KC, Y1|]. split; [apply KC, Y2 | lia].
Qed.

Lemma pair_step z : pair_ok z -> exists nq cs pp, dfmm_pair eb dim MAC lk mine z = Some (nq, cs, pp) /\ Forall pair_ok nq /\ Forall callok cs /\ Forall ptok pp /\
  (forall i j, mem i -> (j < length P)%nat -> cov i j z = (nsum (cov i j) nq + nsum (covc i j) cs + nsum (cov i j) pp)%nat) /\
  (ready (snd z) -> forall m, plev m z -> Forall (fun y => (1 <= m)%nat /\ plev (m - 1) y) nq).
Proof.
  intros Hz. pose proof Hz as (Z1 & Z2 & (l1 & l2 & C1 & C2) & Ha & Zs). destruct (look_at eb dim Hdim pss Hne Hsort Hfull Hn0 Hmass Hrad Hids Hpos one H1 s HI HO HG r Hr l1 (fst z)) as (w1 & E1); [apply (V_at eb dim Hdim pss Hne Hsort Hfull Hn0 Hmass Hrad Hids Hpos one H1 s HI HO HG r Hr); tauto|]. destruct (look_at eb dim Hdim pss Hne Hsort Hfull Hn0 Hmass Hrad Hids Hpos one H1 s HI HO HG r Hr l2 (snd z)) as (w2 & E2); [apply (V_at eb dim Hdim pss Hne Hsort Hfull Hn0 Hmass Hrad Hids Hpos one H1 s HI HO HG r Hr); tauto|].
  unfold dfmm_pair. rewrite E1, E2. rewrite (proj2 (mine_above eb dim Hdim pss Hne Hsort Hfull Hn0 Hmass Hrad Hids Hpos one H1 s HI HO HG r Hr (fst z)) Ha). cbn [negb fst snd].
  destruct (dempty dim (w2, gdat l2 (snd z))) eqn:Ee.
  { exists [z], [], []. split; [reflexivity|]. split; [constructor; [exact Hz | constructor]|]. split; [constructor|]. split; [constructor|]. split; [intros i j _ _; unfold nsum; cbn; lia|]. intros Hrd. exfalso. unfold dempty in Ee. cbn [fst snd] in Ee. destruct (gdat l2 (snd z)) as [e|m] eqn:Eg; [discriminate|]. rewrite (dempty_ready l2 (snd z) w2 m C2 Z2 E2 Hrd) in Ee. discriminate. }
  assert (L1 : forall e, gdat l1 (fst z) = inl e -> islf (fst z) e) by (intros e E; exists l1; tauto). assert (L2 : forall e, gdat l2 (snd z) = inl e -> islf (snd z) e) by (intros e E; exists l2; tauto).
  assert (N1 : forall m, gdat l1 (fst z) = inr m -> isnd (fst z)) by (intros m E; exists l1; split; [exact C1|]; apply (cell_kind eb dim Hdim pss Hne Hsort Hfull Hn0 Hmass Hrad Hids Hpos l1 (fst z) C1); exists m; exact E).
  assert (PP : forall e1 e2, gdat l1 (fst z) = inl e1 -> gdat l2 (snd z) = inl e2 -> ptok z) by (intros e1 e2 A1 A2; split; [exact Z1|]; split; [exact Z2|]; split; [exact Ha|]; exists e1, e2; split; [apply L1, A1 | apply L2, A2]).
  destruct (N.eqb_spec (fst z) (snd z)) as [Heq|Hneq].
  - assert (El : l2 = l1) by (apply (cell_level eb dim Hdim pss Hne Hsort Hfull Hn0 Hmass Hrad Hids Hpos l2 l1 (fst z)); [rewrite Heq; exact C2 | exact C1]). subst l2. rewrite <- Heq in *. destruct (gdat l1 (fst z)) as [e|m] eqn:Eg.
    + exists [], [], [z]. split; [reflexivity|]. split; [constructor|]. split; [constructor|]. split; [constructor; [apply (PP e e); congruence | constructor]|]. split; [intros i j _ _; unfold nsum; cbn; lia|]. intros _ k _. constructor.
    + unfold fmm_sub_limit. cbn [Nat.ltb Nat.leb]. destruct (kids_at eb dim Hdim pss Hne Hsort Hfull Hn0 Hmass Hrad Hids Hpos one H1 s HI HO HG r Hr l1 (fst z) w1 m) as (ds & Ed & _); [apply (V_at eb dim Hdim pss Hne Hsort Hfull Hn0 Hmass Hrad Hids Hpos one H1 s HI HO HG r Hr); tauto | exact E1 | right; exact Ha|]. rewrite Ed.
      destruct (self_kids z l1 w1 m ds Hz C1 Heq E1 Ed) as (S1 & S2 & S3). do 3 eexists. split; [reflexivity|]. split; [exact S1|]. split; [constructor|]. split; [constructor|]. split; [|intros _; exact S3]. intros i j Hi Hj. rewrite (S2 i j Hi Hj). unfold nsum. cbn. lia.
  - destruct (gdat l1 (fst z)) as [e1|m1] eqn:G1, (gdat l2 (snd z)) as [e2|m2] eqn:G2; cbn [dextent].
    + exists [], [], [z]. split; [reflexivity|]. split; [constructor|]. split; [constructor|]. split; [constructor; [apply (PP e1 e2); reflexivity | constructor]|]. split; [intros i j _ _; unfold nsum; cbn; lia|]. intros _ k _. constructor.
    + unfold dempty in Ee. cbn [fst snd] in Ee. assert (R2 : (0 < cm_rad m2)%R) by (apply (nd_radius eb dim Hdim pss Hne Hsort Hfull Hn0 Hmass Hrad Hids Hpos l2 (snd z) m2 C2); [destruct Zs as [|[_ Zs]]; [contradiction | exact Zs] | exact G2]). destruct (mac _ _ _ _ _ _).
      * do 3 eexists. split; [reflexivity|]. split; [constructor|]. split; [constructor; [|constructor]|]; [|split; [constructor|]]; [|split; [|intros _ k _; constructor]].
        -- cbn [callok]. apply (lf_mem eb dim Hdim pss Hne Hsort Hfull Hn0 Hmass Hrad Hids Hpos r (fst z)); [apply L1; reflexivity | exact Ha].
        -- intros i j Hi Hj. destruct (mem_key eb dim Hdim pss Hne Hsort Hfull Hn0 Hmass Hrad Hids Hpos r i Hr Hi) as (Hi' & _). unfold cov. rewrite (lf_inside eb dim Hdim pss Hne Hsort Hfull Hn0 Hmass Hrad Hids Hpos (fst z) e1 i (L1 e1 eq_refl) Hi'). unfold nsum. cbn. lia.
      * unfold fmm_sub_limit. cbn [Nat.ltb Nat.leb]. replace (Rltb (cm_rad m2) 0) with false by (symmetry; apply Rltb_false; lra). destruct (kids_at eb dim Hdim pss Hne Hsort Hfull Hn0 Hmass Hrad Hids Hpos one H1 s HI HO HG r Hr l2 (snd z) w2 m2) as (ds & Ed & _); [apply (V_at eb dim Hdim pss Hne Hsort Hfull Hn0 Hmass Hrad Hids Hpos one H1 s HI HO HG r Hr); tauto | exact E2 | left; exact Ee|]. rewrite Ed.
        destruct (source_kids z l1 l2 w2 m2 ds Hz C1 C2 E2 Ee Hneq Ed) as (S1 & S2 & S3). do 3 eexists. split; [reflexivity|]. split; [exact S1|]. split; [constructor|]. split; [constructor|]. split; [|intros _; exact S3]. intros i j Hi Hj. rewrite (S2 i j Hi Hj). unfold nsum. cbn. lia.
    + assert (R1 : (0 < cm_rad m1)%R) by (apply (nd_radius eb dim Hdim pss Hne Hsort Hfull Hn0 Hmass Hrad Hids Hpos l1 (fst z) m1 C1); [destruct Zs as [|[Zs _]]; [contradiction | exact Zs] | exact G1]). destruct (mac _ _ _ _ _ _).
      * do 3 eexists. split; [reflexivity|]. split; [constructor|]. split; [constructor; [|constructor]|]; [|split; [constructor|]]; [|split; [|intros _ k _; constructor]].
        -- cbn [callok]. split; [apply (N1 m1); reflexivity | exact Ha].
        -- intros i j Hi Hj. unfold cov. rewrite (lf_inside eb dim Hdim pss Hne Hsort Hfull Hn0 Hmass Hrad Hids Hpos (snd z) e2 j (L2 e2 eq_refl) Hj). unfold nsum. cbn. lia.
      * unfold fmm_sub_limit. cbn [Nat.ltb Nat.leb]. replace (Rltb 0 (cm_rad m1)) with true by (symmetry; apply Rltb_true; lra). destruct (kids_at eb dim Hdim pss Hne Hsort Hfull Hn0 Hmass Hrad Hids Hpos one H1 s HI HO HG r Hr l1 (fst z) w1 m1) as (ds & Ed & _); [apply (V_at eb dim Hdim pss Hne Hsort Hfull Hn0 Hmass Hrad Hids Hpos one H1 s HI HO HG r Hr); tauto | exact E1 | right; exact Ha|]. rewrite Ed.
        destruct (sink_kids z l1 l2 w1 m1 ds Hz C1 C2 E1 Hneq Ed) as (S1 & S2 & S3). do 3 eexists. split; [reflexivity|]. split; [exact S1|]. split; [constructor|]. split; [constructor|]. split; [|intros _; exact S3]. intros i j Hi Hj. rewrite (S2 i j Hi Hj). unfold nsum. cbn. lia.
    + unfold dempty in Ee. cbn [fst snd] in Ee. destruct (mac _ _ _ _ _ _).
      * do 3 eexists. split; [reflexivity|]. split; [constructor|]. split; [constructor; [|constructor]|]; [|split; [constructor|]]; [|split; [|intros _ k _; constructor]].
        -- cbn [callok]. split; [apply (N1 m1); reflexivity | exact Ha].
        -- intros i j Hi Hj. unfold cov, nsum. cbn. lia.
      * unfold fmm_sub_limit. replace ((cm_sub m1 + cm_sub m2 <? 0)%nat) with false by (symmetry; apply Nat.ltb_ge; lia). destruct (Rltb (cm_rad m2) (cm_rad m1)).
        -- destruct (kids_at eb dim Hdim pss Hne Hsort Hfull Hn0 Hmass Hrad Hids Hpos one H1 s HI HO HG r Hr l1 (fst z) w1 m1) as (ds & Ed & _); [apply (V_at eb dim Hdim pss Hne Hsort Hfull Hn0 Hmass Hrad Hids Hpos one H1 s HI HO HG r Hr); tauto | exact E1 | right; exact Ha|]. rewrite Ed.
           destruct (sink_kids z l1 l2 w1 m1 ds Hz C1 C2 E1 Hneq Ed) as (S1 & S2 & S3). do 3 eexists. split; [reflexivity|]. split; [exact S1|]. split; [constructor|]. split; [constructor|]. split; [|intros _; exact S3]. intros i j Hi Hj. rewrite (S2 i j Hi Hj). unfold nsum. cbn. lia.
        -- destruct (kids_at eb dim Hdim pss Hne Hsort Hfull Hn0 Hmass Hrad Hids Hpos one H1 s HI HO HG r Hr l2 (snd z) w2 m2) as (ds & Ed & _); [apply (V_at eb dim Hdim pss Hne Hsort Hfull Hn0 Hmass Hrad Hids Hpos one H1 s HI HO HG r Hr); tauto | exact E2 | left; exact Ee|]. rewrite Ed.
           destruct (source_kids z l1 l2 w2 m2 ds Hz C1 C2 E2 Ee Hneq Ed) as (S1 & S2 & S3). do 3 eexists. split; [reflexivity|]. split; [exact S1|]. split; [constructor|]. split; [constructor|]. split; [|intros _; exact S3]. intros i j Hi Hj. rewrite (S2 i j Hi Hj). unfold nsum. cbn. lia.
Qed.
(** one pass *)
Lemma pass_step : forall q, Forall pair_ok q -> exists nq cs pp, dfmm_pass eb dim MAC lk mine q = Some (nq, cs, pp) /\ Forall pair_ok nq /\ Forall callok cs /\ Forall ptok pp /\
  (forall i j, mem i -> (j < length P)%nat -> nsum (cov i j) q = (nsum (cov i j) nq + nsum (covc i j) cs + nsum (cov i j) pp)%nat) /\
  ((forall z, In z q -> ready (snd z)) -> forall m, Forall (plev m) q -> Forall (fun y => (1 <= m)%nat /\ plev (m - 1) y) nq).
Proof.
  induction q as [|z q IH]; intros H; [exists [], [], []; split; [reflexivity|]; split; [constructor|]; split; [constructor|]; split; [constructor|]; split; [reflexivity | constructor]|]. inversion H as [|? ? Hz Hq]; subst. cbn [dfmm_pass].
  destruct (pair_step z Hz) as (n1 & c1 & p1 & E1 & A1 & A2 & A3 & A4 & A5). destruct (IH Hq) as (n2 & c2 & p2 & E2 & B1 & B2 & B3 & B4 & B5). rewrite E1, E2. cbn [fst snd]. do 3 eexists. split; [reflexivity|].
  split; [apply Forall_app; tauto|]. split; [apply Forall_app; tauto|]. split; [apply Forall_app; tauto|]. split.
  - intros i j Hi Hj. rewrite nsum_cons, !nsum_app, (A4 i j Hi Hj), (B4 i j Hi Hj). lia.
  - intros Hrd m Hm. inversion Hm as [|? ? M1 M2]; subst. apply Forall_app. split; [apply A5; [apply Hrd; left; reflexivity | exact M1] | apply B5; [intros y Hy; apply Hrd; right; exact Hy | exact M2]].
Qed.
End Pairs.
