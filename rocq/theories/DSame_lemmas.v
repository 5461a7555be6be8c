(** The pairs of cells through which the gravity traversal reaches a pair of particles depend on
    the particles alone. *)
From Coq Require Import Sorted Permutation.
From Verif Require Import Base Key_model Key_spec Key_proofs HCell_model HCell_props
  BuildTree_model BuildTree_spec BuildTree_lemmas BuildTree_inv BuildTree_turn BuildTree_proofs BuildTree_shape.
From Verif Require Import Share_model Share_lemmas Share_sums Share_table Share_steps Share_update Share_local Share_rounds Share_final Share_world Share_reach Share_flags.
From Verif Require Comms_lemmas Comms_inv Comms_steps Comms_flags Fmm_spec.
From Verif Require Import Vec Geometry_model Geometry_props Cofm_model Cofm_spec Comms_model Dist_model Dist_lemmas Dist_near Dist_walk Dist_reach Dist_cover Dist_target
  Search_model Gravity_model Fmm_model Fmm_proofs DFmm_owner DFmm_model DFmm_cells DFmm_pairs DFmm_end DFmm_more.
From Verif Require Gravity_props.
Local Open Scope N_scope.

(** *** one pair of particles in the tree of all of them *)
Section One.
Context (eb : nat -> body) (dim : N) (pss : list (list (N * nat))) (MAC : R).
Notation n := (N.to_nat dim).
(** the cell of particle [i] at a level and what is in it *)
Definition anc (i : nat) (l : N) : N := BuildTree_spec.up dim l (nth i (Share_lemmas.K pss) 0).
Definition held (i : nat) (l : N) : nat + cofm := gdat dim (cofm_of eb n) pss l (anc i l).
Definition dpos (x : nat + cofm) : point := match x with inl e => b_pos (eb e) | inr m => cm_pos m end.
Definition drad (x : nat + cofm) : R := match x with inl _ => 0%R | inr m => cm_rad m end.
(** from the levels of a pair of cells to those of the next *)
Definition pstep (i j : nat) (z : N * N) : option (N * N) :=
  match held i (fst z), held j (snd z) with
  | inl _, inl _ => None
  | a, b => if anc i (fst z) =? anc j (snd z) then Some (fst z - 1, snd z - 1) else
            if mac n (dpos a) (drad a) (dpos b) (drad b) MAC then None else
            if Rltb (drad b) (drad a) then Some (fst z - 1, snd z) else Some (fst z, snd z - 1)
  end.
(** cells of the tree; the root is met only by itself *)
Definition okp (i j : nat) (z : N * N) : Prop :=
  DFmm_cells.cellat dim pss (fst z) (anc i (fst z)) /\ DFmm_cells.cellat dim pss (snd z) (anc j (snd z)) /\ (anc i (fst z) = anc j (snd z) \/ anc i (fst z) <> 1 /\ anc j (snd z) <> 1).
Inductive reach (i j : nat) : N * N -> Prop :=
| r_root : reach i j (max_depth dim, max_depth dim)
| r_step z y : reach i j z -> okp i j z -> pstep i j z = Some y -> reach i j y.
Fixpoint iter (i j : nat) (m : nat) : option (N * N) := match m with O => Some (max_depth dim, max_depth dim) | S m => z <- iter i j m ;; pstep i j z end.
Lemma reach_iter i j z : reach i j z -> exists m, iter i j m = Some z.
Proof. induction 1 as [|z y _ (m & IH) _ E]; [exists 0%nat; reflexivity|]. exists (S m). cbn [iter]. rewrite IH. exact E. Qed.
Lemma iter_none i j m k : iter i j m = None -> iter i j (k + m) = None.
Proof. intros H. induction k as [|k IH]; [exact H|]. cbn [Nat.add iter]. rewrite IH. reflexivity. Qed.
Lemma reach_one i j x y : reach i j x -> pstep i j x = None -> reach i j y -> pstep i j y = None -> x = y.
Proof.
  intros Rx Nx Ry Ny. apply reach_iter in Rx, Ry. destruct Rx as (a & Ea), Ry as (b & Eb).
  assert (Sa : iter i j (S a) = None) by (cbn [iter]; rewrite Ea; exact Nx). assert (Sb : iter i j (S b) = None) by (cbn [iter]; rewrite Eb; exact Ny).
  destruct (Nat.lt_trichotomy a b) as [L|[L|L]].
  - apply (iter_none i j (S a) (b - S a)) in Sa. replace (b - S a + S a)%nat with b in Sa by lia. congruence.
  - congruence.
  - apply (iter_none i j (S b) (a - S b)) in Sb. replace (a - S b + S b)%nat with a in Sb by lia. congruence.
Qed.
End One.
Lemma reach_eq eb dim MAC pss pss' i j z : concat pss = concat pss' -> reach eb dim pss MAC i j z -> reach eb dim pss' MAC i j z.
Proof.
  intros E. induction 1 as [|z y R IH O S]; [constructor|]. eapply r_step; [exact IH| |]; [revert O | revert S]; unfold okp, pstep, held, anc, gdat, DFmm_cells.cellat, Share_lemmas.K, Share_lemmas.P; rewrite E; exact (fun x => x).
Qed.
Lemma pstep_eq eb dim MAC pss pss' i j z : concat pss = concat pss' -> pstep eb dim pss MAC i j z = pstep eb dim pss' MAC i j z.
Proof. intros E. unfold pstep, held, anc, gdat, Share_lemmas.K, Share_lemmas.P. rewrite E. reflexivity. Qed.
Lemma held_eq eb dim pss pss' i l : concat pss = concat pss' -> held eb dim pss i l = held eb dim pss' i l.
Proof. intros E. unfold held, anc, gdat, Share_lemmas.K, Share_lemmas.P. rewrite E. reflexivity. Qed.

Set Default Proof Using "All".
Section Same.
Context (eb : nat -> body) (dim : N) (Hdim : dim_ok dim).
Notation n := (N.to_nat dim).
Notation f := (cofm_of eb n).
Context (pss : list (list (N * nat))).
Notation D := (max_depth dim).
Notation B := (2 ^ dim).
Notation up := (BuildTree_spec.up dim).
Notation full := (BuildTree_lemmas.full dim).
Notation has := (has dim).
Notation internal := (internal dim).
Notation cell_ex := (cell_ex dim).
Notation P := (P pss).
Notation K := (K pss).
Notation ks := (ks pss).
Notation nr := (nr pss).
Notation under := (under dim).
Notation stable := (stable nat cofm).
Notation gdat := (gdat dim f pss).
Notation above := (above dim pss).
Notation inside := (Fmm_spec.inside dim K).
Hypothesis Hne : forall ps, In ps pss -> ps <> [].
Hypothesis Hsort : StronglySorted N.lt K.
Hypothesis Hfull : Forall full K.
Hypothesis Hn0 : (0 < nr)%nat.
Hypothesis Hmass : forall x, In x P -> (0 < b_mass (eb (snd x)))%R.
Hypothesis Hrad : forall x, In x P -> (0 <= b_rad (eb (snd x)))%R.
Hypothesis Hids : map snd P = seq 0 (length P).
Hypothesis Hpos : forall i j, (i < length P)%nat -> (j < length P)%nat -> i <> j -> ~ peq n (b_pos (eb i)) (b_pos (eb j)).

Variables (one : stable).
Hypothesis H1 : one_ok dim f pss one.
Context (s : Comms_model.gstate (option (nat + cofm))).
Hypothesis HI : inv dim nr (tree_of one) s.
Hypothesis HO : forall r, (r < nr)%nat -> Comms_flags.own dim (tree_of one) (Dist_cover.above dim pss) r (g_tab s r).
Hypothesis HG : owners dim nr (tree_of one) (Dist_cover.above dim pss) s.
Variable r : nat.
Hypothesis Hr : (r < nr)%nat.
Notation own := (nth r pss []).
Notation lk := (look_r (g_tab s r)).
Notation mine := (iam_owner r (g_tab s r)).
Notation V := (V dim pss s r).
Notation cellat := (cellat dim pss).
Notation here := (here s r).
Notation islf := (islf eb dim pss).
Notation isnd := (isnd dim pss).
Notation mem := (mem pss r).
Context (MAC : R).

Notation cov := (cov dim pss).
Notation covc := (covc dim pss).
Notation pair_ok := (pair_ok dim pss s r).
Notation anc := (anc dim pss).
Notation held := (held eb dim pss).
Notation pstep := (pstep eb dim pss MAC).
Notation reach := (reach eb dim pss MAC).
Notation okp := (okp dim pss).
Notation node_is := (node_is eb dim pss s r).
Lemma at_in l q i : cellat l q -> (i < length P)%nat -> inside q i <> 0%nat -> anc i l = q.
Proof. intros Hc Hi H. rewrite (ins eb dim Hdim pss Hne Hsort Hfull Hn0 Hmass Hrad Hids Hpos l q i Hc Hi) in H. unfold DSame_lemmas.anc. destruct (N.eqb_spec (up l (nth i K 0)) q) as [E|E]; [exact E | exfalso; apply H; reflexivity]. Qed.
Lemma kid_in l q d i : cellat l q -> 1 <= l -> cellat (l - 1) d -> d / B = q -> (i < length P)%nat -> inside d i <> 0%nat -> inside q i <> 0%nat.
Proof.
  intros Hc Hl Hd E Hi H. apply (at_in (l - 1) d i Hd Hi) in H. rewrite (ins eb dim Hdim pss Hne Hsort Hfull Hn0 Hmass Hrad Hids Hpos l q i Hc Hi). unfold DSame_lemmas.anc in H. replace (up l (nth i K 0)) with q; [rewrite N.eqb_refl; discriminate|]. rewrite <- E, <- H. symmetry. replace l with (l - 1 + 1) at 1 by lia. apply (up_S dim Hdim).
Qed.
(** the particles of a pair in the queue reach it *)
Definition met (z : N * N) : Prop := forall i j l1 l2, mem i -> (j < length P)%nat -> cellat l1 (fst z) -> cellat l2 (snd z) -> cov i j z <> 0%nat -> reach i j (l1, l2).
(** those of a call reach it and go no further *)
Definition stops (c : call) : Prop := forall i j, mem i -> (j < length P)%nat -> covc i j c <> 0%nat -> exists l1 l2, reach i j (l1, l2) /\ pstep i j (l1, l2) = None /\ okp i j (l1, l2) /\
  match c with C_c2c k q => k = anc i l1 /\ q = anc j l2 | C_p2c k e => k = anc i l1 /\ held j l2 = inl e | C_p2p e (Some q) [] => held i l1 = inl e /\ q = anc j l2 | _ => False end.
Lemma pair_same z nq cs pp : pair_ok z -> met z -> dfmm_pair eb dim MAC lk mine z = Some (nq, cs, pp) -> Forall met nq /\ Forall stops cs /\ Forall met pp.
Proof.
  intros Hz Hd E. pose proof Hz as (Z1 & Z2 & (l1 & l2 & C1 & C2) & Ha & Zs).
  destruct (look_at eb dim Hdim pss Hne Hsort Hfull Hn0 Hmass Hrad Hids Hpos one H1 s HI HO HG r Hr l1 (fst z)) as (w1 & E1); [apply (V_at eb dim Hdim pss Hne Hsort Hfull Hn0 Hmass Hrad Hids Hpos one H1 s HI HO HG r Hr); tauto|]. destruct (look_at eb dim Hdim pss Hne Hsort Hfull Hn0 Hmass Hrad Hids Hpos one H1 s HI HO HG r Hr l2 (snd z)) as (w2 & E2); [apply (V_at eb dim Hdim pss Hne Hsort Hfull Hn0 Hmass Hrad Hids Hpos one H1 s HI HO HG r Hr); tauto|].
  assert (RNG : forall i, mem i -> (i < length P)%nat) by (intros i Hi; apply (mem_key eb dim Hdim pss Hne Hsort Hfull Hn0 Hmass Hrad Hids Hpos r i Hr Hi)).
  unfold dfmm_pair in E. rewrite E1, E2, (proj2 (mine_above eb dim Hdim pss Hne Hsort Hfull Hn0 Hmass Hrad Hids Hpos one H1 s HI HO HG r Hr (fst z)) Ha) in E. cbn [negb fst snd] in E.
  destruct (dempty dim (w2, gdat l2 (snd z))) eqn:Ee; [injection E as <- <- <-; split; [constructor; [exact Hd | constructor]|]; split; constructor|].
  (* what a pair of particles in the pair does next *)
  assert (AT : forall i j, mem i -> (j < length P)%nat -> cov i j z <> 0%nat -> reach i j (l1, l2) /\ anc i l1 = fst z /\ anc j l2 = snd z /\ held i l1 = gdat l1 (fst z) /\ held j l2 = gdat l2 (snd z) /\ okp i j (l1, l2)).
  { intros i j Hi Hj Hc. split; [apply Hd; assumption|]. unfold DFmm_pairs.cov in Hc. assert (X1 : anc i l1 = fst z) by (apply at_in; [exact C1 | apply RNG, Hi | nia]). assert (X2 : anc j l2 = snd z) by (apply at_in; [exact C2 | exact Hj | nia]). unfold DSame_lemmas.held, DSame_lemmas.okp. cbn [fst snd]. rewrite X1, X2. tauto. }
  assert (MZ : forall e1 e2, gdat l1 (fst z) = inl e1 -> gdat l2 (snd z) = inl e2 -> Forall met [] /\ Forall stops [] /\ Forall met [z]) by (intros; split; [constructor|]; split; [constructor|]; constructor; [exact Hd | constructor]).
  destruct (N.eqb_spec (fst z) (snd z)) as [Heq|Hneq].
  - assert (El : l2 = l1) by (apply (cell_level eb dim Hdim pss Hne Hsort Hfull Hn0 Hmass Hrad Hids Hpos l2 l1 (fst z)); [rewrite Heq; exact C2 | exact C1]). subst l2. rewrite <- Heq in E. destruct (gdat l1 (fst z)) as [e|m] eqn:Eg; [injection E as <- <- <-; apply (MZ e e); [reflexivity | rewrite <- Heq; exact Eg]|].
    unfold fmm_sub_limit in E. cbn [Nat.ltb Nat.leb] in E.
    destruct (kids_at eb dim Hdim pss Hne Hsort Hfull Hn0 Hmass Hrad Hids Hpos one H1 s HI HO HG r Hr l1 (fst z) w1 m) as (ds & Ed & _ & Hl & KD & _); [apply (V_at eb dim Hdim pss Hne Hsort Hfull Hn0 Hmass Hrad Hids Hpos one H1 s HI HO HG r Hr); tauto | exact E1 | right; exact Ha|]. rewrite Ed in E. injection E as <- <- <-. split; [|split; constructor].
    apply Forall_forall. intros y Hy. apply filter_In in Hy. destruct Hy as [Hy _]. apply self_pairs_in in Hy. destruct Hy as [Y1 Y2]. destruct (KD _ Y1) as (V1 & _ & B1), (KD _ Y2) as (V2 & _ & B2). apply (V_at eb dim Hdim pss Hne Hsort Hfull Hn0 Hmass Hrad Hids Hpos one H1 s HI HO HG r Hr) in V1, V2. destruct V1 as [V1 _], V2 as [V2 _].
    intros i j a b Hi Hj Ca Cb Hc. rewrite (cell_level eb dim Hdim pss Hne Hsort Hfull Hn0 Hmass Hrad Hids Hpos a (l1 - 1) (fst y) Ca V1), (cell_level eb dim Hdim pss Hne Hsort Hfull Hn0 Hmass Hrad Hids Hpos b (l1 - 1) (snd y) Cb V2). unfold DFmm_pairs.cov in Hc.
    destruct (AT i j Hi Hj) as (R & A1 & A2 & A3 & A4 & A5).
    { unfold DFmm_pairs.cov. pose proof (kid_in l1 (fst z) (fst y) i C1 Hl V1 B1 (RNG i Hi) ltac:(nia)). pose proof (kid_in l1 (fst z) (snd y) j C1 Hl V2 B2 Hj ltac:(nia)). rewrite <- Heq. nia. }
    apply (r_step _ _ _ _ i j (l1, l1)); [exact R | exact A5 |]. unfold DSame_lemmas.pstep. cbn [fst snd]. rewrite A3, A1, A2, Heq, N.eqb_refl. destruct (held j l1); reflexivity.
  - (* the two kinds of splitting *)
    assert (SINK : forall m1, gdat l1 (fst z) = inr m1 -> (forall i j, mem i -> (j < length P)%nat -> cov i j z <> 0%nat -> pstep i j (l1, l2) = Some (l1 - 1, l2)) ->
      forall ds, dkids dim lk (fst z) w1 (digits dim) = Some ds -> Forall met (map (fun d => (d, snd z)) (filter mine ds))).
    { intros m1 G1 ST ds Ed. destruct (kids_at eb dim Hdim pss Hne Hsort Hfull Hn0 Hmass Hrad Hids Hpos one H1 s HI HO HG r Hr l1 (fst z) w1 m1) as (ds' & Ed' & _ & Hl & KD & _); [apply (V_at eb dim Hdim pss Hne Hsort Hfull Hn0 Hmass Hrad Hids Hpos one H1 s HI HO HG r Hr); tauto | rewrite E1, G1; reflexivity | right; exact Ha|]. rewrite Ed in Ed'. injection Ed' as <-.
      apply Forall_forall. intros y Hy. apply in_map_iff in Hy. destruct Hy as (d & <- & Hy). apply filter_In in Hy. destruct Hy as [Hy _]. destruct (KD _ Hy) as (V1 & _ & B1). apply (V_at eb dim Hdim pss Hne Hsort Hfull Hn0 Hmass Hrad Hids Hpos one H1 s HI HO HG r Hr) in V1. destruct V1 as [V1 _].
      intros i j a b Hi Hj Ca Cb Hc. cbn [fst snd] in Ca, Cb. rewrite (cell_level eb dim Hdim pss Hne Hsort Hfull Hn0 Hmass Hrad Hids Hpos a (l1 - 1) d Ca V1), (cell_level eb dim Hdim pss Hne Hsort Hfull Hn0 Hmass Hrad Hids Hpos b l2 (snd z) Cb C2). unfold DFmm_pairs.cov in Hc. cbn [fst snd] in Hc.
      assert (Hcz : cov i j z <> 0%nat) by (unfold DFmm_pairs.cov; pose proof (kid_in l1 (fst z) d i C1 Hl V1 B1 (RNG i Hi) ltac:(nia)); nia).
      apply (r_step _ _ _ _ i j (l1, l2)); [apply AT; assumption | apply (AT i j Hi Hj Hcz) | apply ST; assumption]. }
    assert (SRC : forall m2, gdat l2 (snd z) = inr m2 -> (forall i j, mem i -> (j < length P)%nat -> cov i j z <> 0%nat -> pstep i j (l1, l2) = Some (l1, l2 - 1)) ->
      forall ds, dkids dim lk (snd z) w2 (digits dim) = Some ds -> Forall met (map (fun d => (fst z, d)) ds)).
    { intros m2 G2 ST ds Ed. destruct (kids_at eb dim Hdim pss Hne Hsort Hfull Hn0 Hmass Hrad Hids Hpos one H1 s HI HO HG r Hr l2 (snd z) w2 m2) as (ds' & Ed' & _ & Hl & KD & _); [apply (V_at eb dim Hdim pss Hne Hsort Hfull Hn0 Hmass Hrad Hids Hpos one H1 s HI HO HG r Hr); tauto | rewrite E2, G2; reflexivity | left; unfold dempty in Ee; rewrite G2 in Ee; exact Ee|]. rewrite Ed in Ed'. injection Ed' as <-.
      apply Forall_forall. intros y Hy. apply in_map_iff in Hy. destruct Hy as (d & <- & Hy). destruct (KD _ Hy) as (V1 & _ & B1). apply (V_at eb dim Hdim pss Hne Hsort Hfull Hn0 Hmass Hrad Hids Hpos one H1 s HI HO HG r Hr) in V1. destruct V1 as [V1 _].
      intros i j a b Hi Hj Ca Cb Hc. cbn [fst snd] in Ca, Cb. rewrite (cell_level eb dim Hdim pss Hne Hsort Hfull Hn0 Hmass Hrad Hids Hpos b (l2 - 1) d Cb V1), (cell_level eb dim Hdim pss Hne Hsort Hfull Hn0 Hmass Hrad Hids Hpos a l1 (fst z) Ca C1). unfold DFmm_pairs.cov in Hc. cbn [fst snd] in Hc.
      assert (Hcz : cov i j z <> 0%nat) by (unfold DFmm_pairs.cov; pose proof (kid_in l2 (snd z) d j C2 Hl V1 B1 Hj ltac:(nia)); nia).
      apply (r_step _ _ _ _ i j (l1, l2)); [apply AT; assumption | apply (AT i j Hi Hj Hcz) | apply ST; assumption]. }
    (* the step of the particles *)
    assert (PS : forall i j, mem i -> (j < length P)%nat -> cov i j z <> 0%nat -> pstep i j (l1, l2) =
      match gdat l1 (fst z), gdat l2 (snd z) with inl _, inl _ => None | a, b => if mac n (dpos eb a) (drad a) (dpos eb b) (drad b) MAC then None else if Rltb (drad b) (drad a) then Some (l1 - 1, l2) else Some (l1, l2 - 1) end).
    { intros i j Hi Hj Hc. destruct (AT i j Hi Hj Hc) as (_ & A1 & A2 & A3 & A4 & _). unfold DSame_lemmas.pstep. cbn [fst snd]. rewrite A1, A2, A3, A4. replace (fst z =? snd z) with false by (symmetry; apply N.eqb_neq; exact Hneq). reflexivity. }
    assert (L1 : forall e i, gdat l1 (fst z) = inl e -> (i < length P)%nat -> inside (fst z) i = (if Nat.eqb e i then 1 else 0)%nat) by (intros e i Eg Hi; apply (lf_inside eb dim Hdim pss Hne Hsort Hfull Hn0 Hmass Hrad Hids Hpos (fst z) e i); [exists l1; tauto | exact Hi]).
    assert (L2 : forall e j, gdat l2 (snd z) = inl e -> (j < length P)%nat -> inside (snd z) j = (if Nat.eqb e j then 1 else 0)%nat) by (intros e j Eg Hj; apply (lf_inside eb dim Hdim pss Hne Hsort Hfull Hn0 Hmass Hrad Hids Hpos (snd z) e j); [exists l2; tauto | exact Hj]).
    destruct (gdat l1 (fst z)) as [e1|m1] eqn:G1, (gdat l2 (snd z)) as [e2|m2] eqn:G2; cbn [dextent dpos drad] in E, PS; [injection E as <- <- <-; apply (MZ e1 e2); reflexivity| | |];
      (match type of E with (if mac ?a ?b ?c ?d ?e ?f then _ else _) = _ => destruct (mac a b c d e f) eqn:Em end;
       [injection E as <- <- <-; split; [constructor|]; split; [|constructor]; constructor; [|constructor]; intros i j Hi Hj Hc; cbn [DFmm_pairs.covc] in Hc |
        match type of E with (if ?b then _ else _) = _ => replace b with false in E by (symmetry; apply Nat.ltb_ge; unfold fmm_sub_limit; lia) end;
        match type of E with (if Rltb ?a ?b then _ else _) = _ => destruct (Rltb a b) eqn:ER end;
        match type of E with match ?d with _ => _ end = _ => destruct d as [ds|] eqn:Ed; [|discriminate E] end; injection E as <- <- <-; (split; [|split; constructor])]).
    + assert (Hcz : cov i j z <> 0%nat) by (unfold DFmm_pairs.cov; rewrite (L1 e1 i eq_refl (RNG i Hi)); exact Hc). destruct (AT i j Hi Hj Hcz) as (A0 & A1 & A2 & A3 & A4 & A5). exists l1, l2. rewrite (PS i j Hi Hj Hcz), A3, A2. tauto.
    + exfalso. apply Rltb_true in ER. pose proof (nd_radius eb dim Hdim pss Hne Hsort Hfull Hn0 Hmass Hrad Hids Hpos l2 (snd z) m2 C2 ltac:(destruct Zs as [|[_ Zs]]; [contradiction | exact Zs]) G2). lra.
    + apply (SRC m2 eq_refl PS ds eq_refl).
    + assert (Hcz : cov i j z <> 0%nat) by (unfold DFmm_pairs.cov; rewrite (L2 e2 j eq_refl Hj); exact Hc). destruct (AT i j Hi Hj Hcz) as (A0 & A1 & A2 & A3 & A4 & A5). exists l1, l2. rewrite (PS i j Hi Hj Hcz), A4, A1. tauto.
    + apply (SINK m1 eq_refl PS ds eq_refl).
    + exfalso. apply Rltb_false in ER. pose proof (nd_radius eb dim Hdim pss Hne Hsort Hfull Hn0 Hmass Hrad Hids Hpos l1 (fst z) m1 C1 ltac:(destruct Zs as [|[Zs _]]; [contradiction | exact Zs]) G1). lra.
    + destruct (AT i j Hi Hj Hc) as (A0 & A1 & A2 & A3 & A4 & A5). exists l1, l2. rewrite (PS i j Hi Hj Hc), A2, A1. tauto.
    + apply (SINK m1 eq_refl PS ds eq_refl).
    + apply (SRC m2 eq_refl PS ds eq_refl).
Qed.
Lemma pass_same : forall q nq cs pp, Forall pair_ok q -> Forall met q -> dfmm_pass eb dim MAC lk mine q = Some (nq, cs, pp) -> Forall met nq /\ Forall stops cs /\ Forall met pp.
Proof.
  induction q as [|z q IH]; intros nq cs pp HP HD E; cbn [dfmm_pass] in E; [injection E as <- <- <-; split; [constructor | split; constructor]|]. inversion HP as [|? ? P1 P2]; subst. inversion HD as [|? ? D1 D2]; subst.
  destruct (dfmm_pair eb dim MAC lk mine z) as [[[n1 c1] p1]|] eqn:E1; [|discriminate]. destruct (dfmm_pass eb dim MAC lk mine q) as [[[n2 c2] p2]|] eqn:E2; [|discriminate]. cbn [fst snd] in E. injection E as <- <- <-.
  destruct (pair_same z n1 c1 p1 P1 D1 E1) as (X1 & X2 & X3), (IH n2 c2 p2 P2 D2 eq_refl) as (Y1 & Y2 & Y3). split; [|split]; apply Forall_app; tauto.
Qed.
(** the steps of two particles and of the same two the other way round *)
Definition swap (z : N * N) : N * N := (snd z, fst z).
Lemma pstep_swap i j z : (forall l q l' q' m m', cellat l q -> cellat l' q' -> q <> q' -> gdat l q = inr m -> gdat l' q' = inr m' -> cm_rad m <> cm_rad m') ->
  okp i j z -> okp j i (swap z) /\ pstep j i (swap z) = option_map swap (pstep i j z).
Proof.
  intros TH (O1 & O2 & O3). split; [unfold DSame_lemmas.okp, swap; cbn [fst snd]; split; [exact O2|]; split; [exact O1|]; destruct O3 as [O3|[O3 O4]]; [left; congruence | right; tauto]|].
  assert (NR : forall a l m, a = anc i (fst z) \/ a = anc j (snd z) -> cellat l a -> anc i (fst z) <> anc j (snd z) -> gdat l a = inr m -> (0 < cm_rad m)%R) by (intros a l m Ha C Hn E; apply (nd_radius eb dim Hdim pss Hne Hsort Hfull Hn0 Hmass Hrad Hids Hpos l a m C); [destruct O3 as [O3|[O3 O4]]; [contradiction | destruct Ha; congruence] | exact E]).
  unfold DSame_lemmas.pstep, swap, DSame_lemmas.held. cbn [fst snd]. rewrite (N.eqb_sym (anc j (snd z))).
  destruct (gdat (fst z) (anc i (fst z))) as [e1|m1] eqn:G1, (gdat (snd z) (anc j (snd z))) as [e2|m2] eqn:G2; [reflexivity| | |];
    (destruct (N.eqb_spec (anc i (fst z)) (anc j (snd z))) as [He|He]; [reflexivity|]);
    cbn [dpos drad];
    match goal with |- context [if mac ?a ?b ?c ?d ?e ?f then None else _] => replace (mac a d e b c f) with (mac a b c d e f) by (unfold mac; rewrite (Rplus_comm c e), (dist_sym a b d); reflexivity) end;
    match goal with |- (if ?b then _ else _) = _ => destruct b; [reflexivity|] end.
  - pose proof (NR _ _ _ (or_intror eq_refl) O2 He G2). replace (Rltb 0 (cm_rad m2)) with true by (symmetry; apply Rltb_true; lra). replace (Rltb (cm_rad m2) 0) with false by (symmetry; apply Rltb_false; lra). reflexivity.
  - pose proof (NR _ _ _ (or_introl eq_refl) O1 He G1). replace (Rltb 0 (cm_rad m1)) with true by (symmetry; apply Rltb_true; lra). replace (Rltb (cm_rad m1) 0) with false by (symmetry; apply Rltb_false; lra). reflexivity.
  - pose proof (TH _ _ _ _ _ _ O1 O2 He G1 G2) as X. destruct (Rlt_le_dec (cm_rad m1) (cm_rad m2)) as [L|L].
    + replace (Rltb (cm_rad m1) (cm_rad m2)) with true by (symmetry; apply Rltb_true; lra). replace (Rltb (cm_rad m2) (cm_rad m1)) with false by (symmetry; apply Rltb_false; lra). reflexivity.
    + replace (Rltb (cm_rad m1) (cm_rad m2)) with false by (symmetry; apply Rltb_false; lra). replace (Rltb (cm_rad m2) (cm_rad m1)) with true by (symmetry; apply Rltb_true; lra). reflexivity.
Qed.
Lemma reach_swap i j z : (forall l q l' q' m m', cellat l q -> cellat l' q' -> q <> q' -> gdat l q = inr m -> gdat l' q' = inr m' -> cm_rad m <> cm_rad m') -> reach i j z -> reach j i (swap z).
Proof.
  intros TH. induction 1 as [|z y R IH O S]; [constructor|]. destruct (pstep_swap i j z TH O) as [O' S']. apply (r_step _ _ _ _ j i (swap z)); [exact IH | exact O'|]. rewrite S', S. reflexivity.
Qed.
(** where the calls between two particles come from *)
Lemma rest_pp fu cs pp rest e1 e2 : Forall (ptok eb dim pss s r) pp -> dfmm_end dim lk mine fu cs pp = Some rest -> In (C_p2p e1 None [e2]) rest ->
  exists z, In z pp /\ (exists l, cellat l (fst z) /\ gdat l (fst z) = inl e1) /\ (exists l, cellat l (snd z) /\ gdat l (snd z) = inl e2).
Proof.
  intros HP E Hin. unfold dfmm_end in E. destruct (dwalk dim lk fu (daffected_func mine cs) [key_root] []) as [ns|]; [|discriminate]. destruct (dc2p_calls dim lk fu ns) as [a|] eqn:Ea; [|discriminate]. destruct (p2p_ok eb dim Hdim pss Hne Hsort Hfull Hn0 Hmass Hrad Hids Hpos one H1 s HI HO HG r Hr fu pp HP) as (b & FB & EB). rewrite EB in E. injection E as <-.
  apply in_app_or in Hin. destruct Hin as [Hin|Hin].
  - exfalso. clear - Ea Hin. revert a Ea Hin. induction ns as [|k ns IH]; intros a Ea Hin; cbn [dc2p_calls] in Ea; [injection Ea as <-; destruct Hin|]. destruct (dwalk _ _ _ _ _ _) as [subs|]; [|discriminate]. destruct (dc2p_calls dim lk fu ns) as [y|]; [|discriminate]. injection Ea as <-. destruct Hin as [X|X]; [discriminate | apply (IH y eq_refl X)].
  - clear - FB Hin. induction FB as [|z c pp b (a1 & a2 & L1 & L2 & _ & ->) FB IH]; [destruct Hin|]. destruct Hin as [X|X]; [injection X as -> ->; exists z; split; [left; reflexivity | split; assumption]|]. destruct (IH X) as (y & Y1 & Y2). exists y. split; [right; exact Y1 | exact Y2].
Qed.
End Same.
