(** The cells of a rank's table as the FMM traversal of several ranks finds them: who owns
    them, their daughters, and which particles lie inside. *)
From Coq Require Import Sorted Permutation.
From Verif Require Import Base Key_model Key_spec Key_proofs HCell_model HCell_props
  BuildTree_model BuildTree_spec BuildTree_lemmas BuildTree_inv BuildTree_turn BuildTree_proofs BuildTree_shape.
From Verif Require Import Share_model Share_lemmas Share_sums Share_table Share_steps Share_update Share_local Share_rounds Share_final Share_world Share_reach Share_flags.
From Verif Require Comms_lemmas Comms_inv Comms_steps Comms_flags Fmm_spec.
From Verif Require Import Vec Geometry_model Geometry_props Cofm_model Cofm_spec Comms_model Dist_model Dist_lemmas Dist_near Dist_walk Dist_reach Dist_cover Dist_target
  Search_model Gravity_model Fmm_model Fmm_proofs DFmm_owner DFmm_model.
Local Open Scope N_scope.
Notation b2n := Fmm_spec.b2n.

Lemma nsum_ind x ds : NoDup ds -> nsum (fun d => b2n (x =? d)) ds = b2n (existsb (N.eqb x) ds).
Proof.
  induction ds as [|d ds IH]; intros H; [reflexivity|]. inversion H as [|? ? H1 H2]; subst. rewrite nsum_cons, (IH H2). cbn [existsb]. destruct (N.eqb_spec x d) as [->|]; [|reflexivity].
  destruct (existsb (N.eqb d) ds) eqn:E; [|reflexivity]. exfalso. apply existsb_exists in E. destruct E as (y & Hy & E). apply N.eqb_eq in E. subst y. contradiction.
Qed.
Lemma nsum_filter {A} (f : A -> nat) p l : (forall x, In x l -> p x = false -> f x = 0%nat) -> nsum f (filter p l) = nsum f l.
Proof.
  induction l as [|x l IH]; intros H; [reflexivity|]. cbn [filter]. specialize (IH (fun y Hy => H y (or_intror Hy))). destruct (p x) eqn:E; rewrite ?nsum_cons, IH; [reflexivity|]. rewrite (H x (or_introl eq_refl) E). reflexivity.
Qed.
Lemma nsum_self (h h' : N -> nat) l : nsum (fun z => h (fst z) * h' (snd z))%nat (self_pairs l) = (nsum h l * nsum h' l)%nat.
Proof.
  induction l as [|a l IH]; [reflexivity|]. cbn [self_pairs]. rewrite nsum_cons, nsum_app, IH, nsum_flat_map, !nsum_cons.
  rewrite (nsum_ext _ (fun y => (h a * h' y + h' a * h y)%nat)).
  - rewrite nsum_plus, !nsum_scal. cbn [fst snd]. nia.
  - intros y _. unfold nsum. cbn. nia.
Qed.

Set Default Proof Using "All".
Section Cells.
Context (eb : nat -> body) (dim : N) (Hdim : dim_ok dim).
Notation n := (N.to_nat dim).
Notation f := (cofm_of eb n).
Context (pss : list (list (N * nat))).
Notation D := (max_depth dim).
Notation B := (2 ^ dim).
Notation up := (BuildTree_spec.up dim).
Notation full := (BuildTree_lemmas.full dim).
Notation has := (has dim).
Notation internal := (internal dim).
Notation cell_ex := (cell_ex dim).
Notation P := (P pss).
Notation K := (K pss).
Notation ks := (ks pss).
Notation nr := (nr pss).
Notation under := (under dim).
Notation stable := (stable nat cofm).
Notation gdat := (gdat dim f pss).
Notation above := (above dim pss).
Notation inside := (Fmm_spec.inside dim K).
Hypothesis Hne : forall ps, In ps pss -> ps <> [].
Hypothesis Hsort : StronglySorted N.lt K.
Hypothesis Hfull : Forall full K.
Hypothesis Hn0 : (0 < nr)%nat.
Hypothesis Hmass : forall x, In x P -> (0 < b_mass (eb (snd x)))%R.
Hypothesis Hrad : forall x, In x P -> (0 <= b_rad (eb (snd x)))%R.
Hypothesis Hids : map snd P = seq 0 (length P).
Hypothesis Hpos : forall i j, (i < length P)%nat -> (j < length P)%nat -> i <> j -> ~ peq n (b_pos (eb i)) (b_pos (eb j)).

(** *** cells of the whole tree *)
Definition cellat (l q : N) : Prop := l <= D /\ cell_ex K K l q.
Definition isnd (q : N) : Prop := exists l, cellat l q /\ internal K l q.
Definition islf (q : N) (e : nat) : Prop := exists l, cellat l q /\ gdat l q = inl e.
Lemma lenK : length K = length P. Proof. apply map_length. Qed.
Lemma cell_has l q : cellat l q -> has K l q. Proof. intros [Hl He]. apply (ex_has_K dim Hdim f pss Hne Hsort Hfull l q Hn0 Hl He). Qed.
Lemma cell_level l l' q : cellat l q -> cellat l' q -> l = l'.
Proof. intros H H'. apply (has_unique dim Hdim f pss Hne Hsort Hfull l l' q); [apply H | apply H' | apply cell_has, H | apply cell_has, H']. Qed.
Lemma cell_kind l q : cellat l q -> (internal K l q <-> exists m, gdat l q = inr m).
Proof. intros H. apply (gdat_kind dim Hdim f pss Hne Hsort Hfull l q (proj1 H) (cell_has l q H)). Qed.
Lemma id_key x : In x P -> (snd x < length P)%nat /\ nth (snd x) K 0 = fst x.
Proof.
  intros Hx. apply (In_nth _ _ (0, 0%nat)) in Hx. destruct Hx as (i & Hi & <-). assert (E : snd (nth i P (0, 0%nat)) = i).
  { change (snd (nth i P (0, 0%nat))) with (snd (nth i P (0, 0%nat))). rewrite <- (map_nth snd). cbn [snd]. rewrite Hids. rewrite List.seq_nth by exact Hi. reflexivity. }
  rewrite E. split; [exact Hi|]. unfold Share_lemmas.K. change 0 with (fst (0, 0%nat)) at 1. apply map_nth.
Qed.
Lemma key_id j : (j < length P)%nat -> In (nth j K 0, j) P /\ In (nth j K 0) K /\ full (nth j K 0).
Proof.
  intros Hj. assert (E : nth j P (0, 0%nat) = (nth j K 0, j)).
  { destruct (nth j P (0, 0%nat)) as [k i] eqn:E. f_equal; [unfold Share_lemmas.K; change 0 with (fst (0, 0%nat)); rewrite map_nth, E; reflexivity|]. change i with (snd (k, i)). rewrite <- E, <- (map_nth snd). cbn [snd]. rewrite Hids, List.seq_nth by exact Hj. reflexivity. }
  assert (X : In (nth j K 0, j) P) by (rewrite <- E; apply nth_In, Hj). split; [exact X|]. assert (Y : In (nth j K 0) K) by (apply nth_In; rewrite lenK; exact Hj). split; [exact Y|]. rewrite Forall_forall in Hfull. apply Hfull, Y.
Qed.
Lemma ins l q j : cellat l q -> (j < length P)%nat -> inside q j = b2n (up l (nth j K 0) =? q).
Proof.
  intros H Hj. destruct (key_id j Hj) as (_ & _ & Hf). unfold Fmm_spec.inside. f_equal. unfold Fmm_spec.under. pose proof H as [Hl He]. destruct (N.eqb_spec (up l (nth j K 0)) q) as [E|E].
  - apply existsb_exists. exists (N.to_nat l). split; [apply in_seq; lia|]. rewrite N2Nat.id. apply N.eqb_eq, E.
  - match goal with |- ?b = false => destruct b eqn:Eb; [|reflexivity] end. exfalso. apply E. apply existsb_exists in Eb. destruct Eb as (i & Hi & Ei). apply in_seq in Hi. apply N.eqb_eq in Ei. assert (HiD : N.of_nat i <= D) by lia.
    assert (N.of_nat i = l); [|subst l; exact Ei]. apply (level_unique dim Hdim (N.of_nat i) l q HiD Hl); [|apply (cell_ex_level dim Hdim K K l q Hfull Hl He)]. rewrite <- Ei. apply (up_range dim Hdim); assumption.
Qed.
Lemma ins1 l q j : cellat l q -> (j < length P)%nat -> inside q j = 1%nat \/ inside q j = 0%nat.
Proof. intros H Hj. rewrite (ins l q j H Hj). destruct (up l (nth j K 0) =? q); tauto. Qed.
Lemma lf_inside q e j : islf q e -> (j < length P)%nat -> inside q j = (if Nat.eqb e j then 1 else 0)%nat.
Proof.
  intros (l & H & Eg) Hj. rewrite (ins l q j H Hj). assert (Hi : ~ internal K l q) by (intros X; apply (cell_kind l q H) in X; destruct X as (m & X); congruence).
  destruct (gdat_leaf dim Hdim f pss Hne Hsort Hfull l q Hi (proj1 H) (cell_has l q H)) as (x & X1 & X2 & X3 & X4). rewrite Eg in X3. injection X3 as ->. destruct (id_key x X1) as [A1 A2]. destruct (key_id j Hj) as (B1 & _).
  destruct (Nat.eqb_spec (snd x) j) as [<-|Hn]; [rewrite A2; replace (up l (fst x) =? q) with true by lia; reflexivity|]. destruct (N.eqb_spec (up l (nth j K 0)) q) as [E|]; [|reflexivity]. exfalso.
  assert (Y : In (nth j K 0, j) (under l q P)) by (apply (under_in dim Hdim f pss Hne Hsort Hfull); split; [exact B1 | exact E]). rewrite X4 in Y. destruct Y as [Y|[]]. subst x. apply Hn. reflexivity.
Qed.
Lemma above_has r l q : cellat l q -> (above r q <-> has (ks r) l q).
Proof.
  intros H. split; [|intros Hh; exists l; destruct H; tauto]. intros (l' & Hl' & He' & Hh). rewrite (cell_level l l' q H (conj Hl' He')). exact Hh.
Qed.
(** particles of rank [r] *)
Definition mem (r i : nat) : Prop := In i (map snd (nth r pss [])).
Lemma mem_key r i : (r < nr)%nat -> mem r i -> (i < length P)%nat /\ In (nth i K 0, i) (nth r pss []) /\ In (nth i K 0) (ks r).
Proof.
  intros Hr Hm. unfold mem in Hm. apply in_map_iff in Hm. destruct Hm as (x & <- & Hx). assert (A : In x P) by (unfold Share_lemmas.P; apply in_concat; exists (nth r pss []); split; [apply nth_In, Hr | exact Hx]). destruct (id_key x A) as [A1 A2]. split; [exact A1|]. rewrite A2. destruct x as [k i]. cbn [fst snd] in *. split; [exact Hx|]. unfold Share_lemmas.ks. change k with (fst (k, i)). apply in_map, Hx.
Qed.
Lemma above_inside r q l i : (r < nr)%nat -> cellat l q -> mem r i -> inside q i <> 0%nat -> above r q.
Proof.
  intros Hr H Hm Hn. destruct (mem_key r i Hr Hm) as (Hi & _ & Hk). rewrite (ins l q i H Hi) in Hn. apply (above_has r l q H). exists (nth i K 0). split; [exact Hk|]. destruct (N.eqb_spec (up l (nth i K 0)) q) as [E|]; [exact E | exfalso; apply Hn; reflexivity].
Qed.
Lemma lf_mem r q e : islf q e -> above r q -> mem r e.
Proof.
  intros (l & H & Eg) Ha. apply (above_has r l q H) in Ha. assert (Hi : ~ internal K l q) by (intros X; apply (cell_kind l q H) in X; destruct X as (m & X); congruence).
  destruct (gdat_leaf dim Hdim f pss Hne Hsort Hfull l q Hi (proj1 H) (cell_has l q H)) as (x & X1 & X2 & X3 & X4). rewrite Eg in X3. injection X3 as ->. destruct Ha as (k & Hk & Ek). unfold Share_lemmas.ks in Hk. apply in_map_iff in Hk. destruct Hk as (y & <- & Hy).
  assert (Y : In y (under l q P)).
  { apply (under_in dim Hdim f pss Hne Hsort Hfull); split; [|exact Ek]. unfold Share_lemmas.P. apply in_concat. exists (nth r pss []). split; [|exact Hy]. destruct (nth_in_or_default r pss []) as [|E0]; [assumption|]. rewrite E0 in Hy. destruct Hy. }
  rewrite X4 in Y. destruct Y as [<-|[]]. apply in_map, Hy.
Qed.
(** a node other than the root has a positive radius *)
Lemma nd_radius l q m : cellat l q -> q <> 1 -> gdat l q = inr m -> (0 < cm_rad m)%R.
Proof.
  intros H Hq Eg. assert (Hi : internal K l q) by (apply (cell_kind l q H); exists m; exact Eg). pose proof (gsummary eb dim Hdim pss Hne Hsort Hfull Hn0 Hmass Hrad (N.to_nat l) l q m ltac:(lia) (proj1 H) (cell_has l q H) Hi Eg) as Hok.
  assert (Hm : many dim K l q). { destruct Hi as [->|Hi]; [|exact Hi]. exfalso. apply Hq. destruct (cell_has D q H) as (k & Hk & <-). apply (up_root dim Hdim). rewrite Forall_forall in Hfull. apply Hfull, Hk. }
  destruct Hm as (k1 & k2 & A1 & A2 & A3 & A4 & A5). unfold Share_lemmas.K in A1, A2. apply in_map_iff in A1, A2. destruct A1 as (x & <- & Hx), A2 as (y & <- & Hy).
  assert (Hxy : snd x <> snd y). { intros E. apply A3. destruct (id_key x Hx) as [_ <-], (id_key y Hy) as [_ <-]. rewrite E. reflexivity. }
  pose proof (so_rad0 _ _ _ Hok) as H0. destruct (Req_dec (cm_rad m) 0) as [E|E]; [exfalso|lra].
  apply (Hpos (snd x) (snd y)); [apply id_key, Hx | apply id_key, Hy | exact Hxy|].
  assert (G : forall z, In z P -> up l (fst z) = q -> dist n (cm_pos m) (b_pos (eb (snd z))) = 0%R).
  { intros z Hz Ez. assert (Iz : In (eb (snd z)) (map eb (lv1 dim pss l q))) by (apply in_map; unfold lv1; apply in_map, (under_in dim Hdim f pss Hne Hsort Hfull); tauto). pose proof (so_rad _ _ _ Hok _ Iz). pose proof (dist_nonneg n (cm_pos m) (b_pos (eb (snd z)))). lra. }
  pose proof (G x Hx A4) as G1. pose proof (G y Hy A5) as G2. apply dist_zero in G1. apply dist_zero in G2. intros i Hi'. rewrite <- (G1 i Hi'), <- (G2 i Hi'). reflexivity.
Qed.
(** the daughters of a node *)
Lemma kid_sum l q (W : N -> bool) : cellat l q -> 1 <= l -> internal K l q -> (forall d, d < B -> (W d = true <-> cell_ex K K (l - 1) (q * B + d))) ->
  forall j, (j < length P)%nat -> nsum (fun d => inside d j) (map (ck dim q) (filter W (digits dim))) = inside q j.
Proof.
  intros H Hl Hi HW j Hj. set (ds := map (ck dim q) (filter W (digits dim))). assert (B0 : B <> 0) by (apply N.pow_nonzero; lia). destruct (key_id j Hj) as (_ & HjK & Hf).
  assert (C : forall d, In d ds -> cellat (l - 1) d /\ d / B = q).
  { intros d Hd. unfold ds in Hd. apply in_map_iff in Hd. destruct Hd as (e & <- & He). apply filter_In in He. destruct He as [He Hw]. apply Comms_lemmas.digits_in in He. split; [split; [destruct H; lia | apply HW; assumption]|]. unfold ck. rewrite N.div_add_l, N.div_small by lia. lia. }
  assert (ND : NoDup ds). { unfold ds. apply FinFun.Injective_map_NoDup; [intros a b E; unfold ck in E; lia | apply NoDup_filter, Comms_lemmas.digits_nodup]. }
  rewrite (nsum_ext _ (fun d => b2n (up (l - 1) (nth j K 0) =? d))) by (intros d Hd; apply ins; [apply C, Hd | exact Hj]). rewrite (nsum_ind _ _ ND), (ins l q j H Hj). f_equal. assert (EU : up l (nth j K 0) = up (l - 1) (nth j K 0) / B) by (replace l with (l - 1 + 1) at 1 by lia; apply (up_S dim Hdim)).
  rewrite EU. set (u := up (l - 1) (nth j K 0)) in *. destruct (existsb (N.eqb u) ds) eqn:E.
  - apply existsb_exists in E. destruct E as (d & Hd & E). apply N.eqb_eq in E. subst d. destruct (C u Hd) as [_ ->]. symmetry. apply N.eqb_refl.
  - destruct (N.eqb_spec (u / B) q) as [E2|]; [|reflexivity]. rewrite <- E. apply existsb_exists. exists u. split; [|apply N.eqb_refl]. assert (Hd : u mod B < B) by (apply N.mod_lt, B0). assert (EQ : u = q * B + u mod B) by (rewrite <- E2; pose proof (N.div_mod u B B0); lia).
    unfold ds. apply in_map_iff. exists (u mod B). split; [unfold ck; lia|]. apply filter_In. split; [apply Comms_lemmas.digits_in, Hd|]. apply HW; [exact Hd|]. rewrite <- EQ. right. split; [destruct H; lia|]. split; [exists (nth j K 0); split; [exact HjK | reflexivity]|]. rewrite E2. replace (l - 1 + 1) with l by lia. exact Hi.
Qed.

(** *** cells of a rank's table *)
Variables (one : stable).
Hypothesis H1 : one_ok dim f pss one.
Context (s : Comms_model.gstate (option (nat + cofm))).
Hypothesis HI : inv dim nr (tree_of one) s.
Hypothesis HO : forall r, (r < nr)%nat -> Comms_flags.own dim (tree_of one) (Dist_cover.above dim pss) r (g_tab s r).
Hypothesis HG : owners dim nr (tree_of one) (Dist_cover.above dim pss) s.
Variable r : nat.
Hypothesis Hr : (r < nr)%nat.
Notation own := (nth r pss []).
Notation lk := (look_r (g_tab s r)).
Notation mine := (iam_owner r (g_tab s r)).
Notation V := (V dim pss s r).
Definition here (q : N) : Prop := g_tab s r q <> None.

Lemma V_at l q : V l q <-> cellat l q /\ here q. Proof. unfold Dist_cover.V, cellat, here. tauto. Qed.
Lemma above_here q : above r q -> here q. Proof. intros H. destruct (os_mine _ _ _ _ _ HG r Hr q H) as (c & Hc & _). unfold here. congruence. Qed.
Lemma mine_above q : mine q = true <-> above r q.
Proof.
  unfold iam_owner. split.
  - destruct (g_tab s r q) as [c|] eqn:E; [|discriminate]. intros Ho. apply Nat.eqb_eq in Ho. rewrite <- Ho at 1. apply (os_tab _ _ _ _ _ HG r Hr q c E).
  - intros H. destruct (os_mine _ _ _ _ _ HG r Hr q H) as (c & -> & -> & _). apply Nat.eqb_refl.
Qed.
Lemma look_at l q : V l q -> exists w, lk q = Some (w, gdat l q). Proof. exact (V_look dim Hdim f pss Hne Hsort Hfull Hn0 one H1 s HI r Hr (HO r Hr) l q). Qed.
Lemma kids_at l q w m : V l q -> lk q = Some (w, inr m) -> is_empty_node dim w = false \/ above r q ->
  exists ds, dkids dim lk q w (digits dim) = Some ds /\ NoDup ds /\ 1 <= l /\ (forall d, In d ds -> V (l - 1) d /\ d <> 1 /\ d / B = q) /\ (forall j, (j < length P)%nat -> nsum (fun d => inside d j) ds = inside q j).
Proof.
  intros Hv E Hor. destruct (V_node dim Hdim f pss Hne Hsort Hfull Hn0 one H1 s HI r Hr (HO r Hr) l q w m Hv E) as (Hl & Hk & V1 & _). pose proof (proj1 (V_at l q) Hv) as [Hc _]. destruct (look_at l q Hv) as (w' & E'). rewrite E in E'. injection E' as <- Eg.
  assert (Hi : internal K l q) by (apply (cell_kind l q Hc); exists m; congruence). destruct (w_at dim Hdim f pss Hne Hsort Hfull Hn0 one H1 l q (proj1 Hc) (proj2 Hc)) as (WK & WI & _). pose proof (proj2 WI Hi) as Hw.
  pose proof E as E0. apply (look_rank dim Hdim f pss Hne Hsort Hfull Hn0 one H1 s HI r Hr) in E0. destruct E0 as (c & Ec & Ew & Ed).
  assert (F : Comms_lemmas.full dim (tree_of one) q w).
  { destruct Hor as [He|Ha].
    - rewrite <- Ew. assert (Hn : r_node c = true) by (destruct (Comms_lemmas.tk_cell _ _ _ _ _ (Comms_inv.i_tok _ _ _ _ HI r Hr) q c Ec) as (-> & _); exact Hw). apply (word_full dim nr _ s r q c HI Hr Ec Hn). unfold empty_node. rewrite Hn, Ew, He. reflexivity.
    - destruct (Comms_flags.ow_node _ _ _ _ _ (HO r Hr) q Ha Hw) as (c' & Hc' & Hf). rewrite Ec in Hc'. injection Hc' as <-. rewrite Ew in Hf. exact Hf. }
  exists (map (ck dim q) (filter (get_child w) (digits dim))). split; [|split; [|split; [exact Hl|split]]].
  - apply (dkids_look dim lk q w Hk); [|intros d; apply Comms_lemmas.digits_in]. intros d Hd Hg. apply (V_there dim Hdim f pss Hne Hsort Hfull Hn0 one H1 s HI r Hr (HO r Hr) (l - 1)), V1; assumption.
  - apply FinFun.Injective_map_NoDup; [intros a b X; unfold ck in X; lia | apply NoDup_filter, Comms_lemmas.digits_nodup].
  - intros d Hd. apply in_map_iff in Hd. destruct Hd as (e & <- & He). apply filter_In in He. destruct He as [He Hg]. apply Comms_lemmas.digits_in in He. split; [apply V1; assumption|]. split; [|unfold ck; rewrite N.div_add_l, N.div_small by lia; lia].
    unfold ck. destruct Hk as [Hk _]. assert (2 ^ 1 <= B) by (apply N.pow_le_mono_r; destruct Hdim as [->|[->| ->]]; lia). change (2 ^ 1) with 2 in *. nia.
  - apply (kid_sum l q (get_child w) Hc Hl Hi). intros d Hd. rewrite (F d Hd), (WK d Hd). tauto.
Qed.
End Cells.
