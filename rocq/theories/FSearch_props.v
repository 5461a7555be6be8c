(** Property C91: the neighbour search in double precision. *)
From Coq Require Import Reals Lra Sorted Permutation.
From Flocq Require Import Core.
From Verif Require Import Base Key_model Key_spec Key_proofs HCell_model HCell_props BuildTree_model BuildTree_spec BuildTree_lemmas
  BuildTree_inv BuildTree_proofs BuildTree_shape BuildTree_props Vec Geometry_model Geometry_props Cofm_model Cofm_spec Cofm_proofs Search_model
  Search_proofs Search_props GSearch_model GSearch_proofs FCell_model FCell_lemmas FSearch_model FSearch_spec FSearch_lemmas FSearch_proofs.
Local Open Scope R_scope.

Lemma height_canon dim : forall r p (l : list (nat * N)), (height (canon dim r p l) <= S r)%nat.
Proof.
  induction r as [|r IH]; intros p l; [cbn; lia|]. rewrite (canon_S dim). cbn [height].
  assert (G : forall ch : list (N * tree), (forall x, In x ch -> (height (snd x) <= S r)%nat) ->
    (fold_right (fun x h => Nat.max (height (snd x)) h) 0 ch <= S r)%nat).
  { induction ch as [|x ch IHc]; intros H; cbn; [lia|]. pose proof (H x (or_introl eq_refl)).
    specialize (IHc ltac:(intros; apply H; right; assumption)). lia. }
  apply le_n_S. apply G. intros x Hx. apply in_flat_map in Hx. destruct Hx as (d & _ & Hx). unfold cchild in Hx.
  destruct (filter _ l) as [|y [|z g]]; [destruct Hx| |]; destruct Hx as [<-|[]]; cbn [snd]; [cbn; lia|apply IH].
Qed.

Section Built.
Variables (dim lob hib : N) (ks : list N) (bodies : list body) (m : Z).
Hypothesis Hdim : dim_ok dim.
Hypothesis Hm : (-400 <= m <= 400)%Z.
Notation n := (N.to_nat dim).
Hypothesis Hb : forall b, In b bodies -> fl_body m n b.
Notation root := (canon dim (N.to_nat (max_depth dim)) 1 (numbered ks)).
Notation gb := (get_body bodies).

Lemma n_ok : (1 <= n <= 3)%nat.
Proof using Hdim. clear - Hdim. destruct Hdim as [->|[->| ->]]; vm_compute; lia. Qed.
Lemma gb_ok i : (i < length bodies)%nat -> fl_body m n (gb i).
Proof using Hb. intros H. apply Hb. apply nth_In. exact H. Qed.

Definition Sumf (s : cofm) (L : list nat) : Prop := fsum m n 64 s (map gb L) /\ forall i, In i L -> (i < length bodies)%nat.
Lemma Sumf_ok t cofms p k ch s : GSearch_proofs.okt dim t cofms bodies (fcc_cofm_fl n bodies) (p, Node k ch) ->
  eval (fcc_cofm_fl n bodies) (Node k ch) = inr s -> Sumf s (leaves (Node k ch)).
Proof using Hdim Hm Hb.
  intros ((_ & r & Hr & _ & G) & Hn' & Hl) E. cbn [snd fst] in *. split; [|exact Hl].
  apply (eval_fl_ok m n Hm n_ok); [|exact Hn'| |exact E].
  - destruct G as [(i & Ei)|(l & El)]; [discriminate|]. rewrite El. pose proof (height_canon dim r p l).
    assert (max_depth dim <= 63)%N by (clear - Hdim; destruct Hdim as [->|[->| ->]]; vm_compute; discriminate). lia.
  - intros i Hi. apply gb_ok, Hl, Hi.
Qed.
Definition closef (i e : nat) : Prop := dist n (b_pos (gb i)) (b_pos (gb e)) <= (b_rad (gb i) + b_rad (gb e)) / 2 - slack m.
Lemma test_leaf i e : (i < length bodies)%nat -> (e < length bodies)%nat ->
  dist n (b_pos (gb i)) (b_pos (gb e)) <= Rmax (b_rad (gb i)) (b_rad (gb e)) - slack m ->
  t_leaf (fl_tests n) (gb i) (gb e) = true.
Proof using Hdim Hm Hb.
  intros Hi He Hd. pose proof (gb_ok i Hi) as Fi. pose proof (gb_ok e He) as Fe. cbn [t_leaf fl_tests].
  apply within_complete.
  - pose proof n_ok. lia.
  - intros d Hdd. split; [apply (fb_pos _ _ _ Fi)|apply (fb_pos _ _ _ Fe)]; exact Hdd.
  - destruct (fb_rad _ _ _ Fi) as [_ R1]. destruct (fb_rad _ _ _ Fe) as [_ R2].
    assert (R : 0 <= Rmax (b_rad (gb i)) (b_rad (gb e)) <= bpow radix2 m) by (split; [eapply Rle_trans; [|apply Rmax_l]; lra|apply Rmax_lub; lra]).
    rewrite slack_eq in Hd. pose proof (eta_M m n Hm n_ok). pose proof (M_pos m). rewrite u53_eq. lra.
Qed.

Hypothesis Hne : ks <> [].
Hypothesis Hs : StronglySorted N.lt ks.
Hypothesis Hf : Forall (full_key dim) ks.
Hypothesis Hlen : length bodies = length ks.
Lemma built_root_fl : exists st mx, build_tree cofm (fcc_cofm_fl n bodies) dim true true lob hib ks = Some (st, mx) /\
  GSearch_proofs.okt dim (st_tab st) (st_cofm st) bodies (fcc_cofm_fl n bodies) (1%N, root) /\ leaves root = seq 0 (length ks).
Proof using Hdim Hne Hs Hf Hlen.
  destruct (C09_build_tree_canonical dim cofm (fcc_cofm_fl n bodies) lob hib ks Hdim Hne Hs Hf) as (st & mx & E & Hh & _).
  exists st, mx. split; [assumption|].
  destruct (built_root dim lob hib ks bodies Hdim Hne Hs Hf Hlen) as (st' & mx' & _ & ((_ & G) & Hn' & Hl) & EL).
  split; [|exact EL]. split; [split; [exact Hh|exact G]|]. split; assumption.
Qed.

Lemma search_fl st mx : build_tree cofm (fcc_cofm_fl n bodies) dim true true lob hib ks = Some (st, mx) ->
  exists fuel out, traversal_sph_fl dim (st_tab st) (st_cofm st) bodies fuel = Some out /\
    Permutation (map fst out) (seq 0 (length bodies)) /\
    forall i nb, In (i, nb) out -> exists rest, Permutation (nb ++ rest) (seq 0 (length bodies)) /\ (i < length bodies)%nat /\
      (forall e, In e nb -> t_leaf (fl_tests n) (gb i) (gb e) = true) /\ (forall e, In e rest -> ~ closef i e).
Proof using Hdim Hne Hs Hf Hlen Hm Hb.
  intros E. destruct built_root_fl as (st' & mx' & E' & Hok & EL). assert (st' = st /\ mx' = mx) as [-> ->] by (rewrite E in E'; injection E'; auto).
  pose proof n_ok as Hn'.
  destruct (gtraversal_sph_ok dim Hdim (fl_tests n) (st_tab st) (st_cofm st) bodies (fcc_cofm_fl n bodies) Sumf
    (Sumf_ok (st_tab st) (st_cofm st))) with (near := fun i e => t_leaf (fl_tests n) (gb i) (gb e) = true) (close := closef) (root := root)
    (fuel := size dim [(1%N, root)]) as (out & Eo & HP & HF).
  - intros s L [HS _]. rewrite (fs_sub _ _ _ _ _ HS). apply map_length.
  - auto.
  - intros i e Hi He Hc. apply test_leaf; [assumption|assumption|]. eapply Rle_trans; [exact Hc|].
    pose proof (half_sum_max (b_rad (gb i)) (b_rad (gb e))). lra.
  - intros s L cn L' i e [HS _] [HS' _] He Hi Li Le Hc. cbn [t_box fl_tests].
    apply (boxes_meet m n Hm Hn' s (map gb L) cn (map gb L') (gb e) (gb i) HS HS'); [apply in_map; exact He|apply in_map; exact Hi|apply gb_ok; exact Le|apply gb_ok; exact Li|].
    unfold closef in Hc. rewrite dist_sym. lra.
  - intros s L i e [HS _] He Li Le Hc. cbn [t_sph fl_tests]. pose proof (gb_ok i Li) as Fi. destruct (fb_rad _ _ _ Fi) as [F1 F2].
    apply (box_met m n Hm Hn' s (map gb L) (gb e)); [exact HS|apply in_map; exact He|apply gb_ok; exact Le|exact F1|exact F2|apply (fb_pos _ _ _ Fi)|exact Hc].
  - intros cn L' i e [HS _] Hi Li Le Hc. cbn [t_ent fl_tests]. pose proof (gb_ok e Le) as Fe. destruct (fb_rad _ _ _ Fe) as [F1 F2].
    apply within_complete.
    + lia.
    + intros d Hd. split; [apply (fb_pos _ _ _ Fe); exact Hd|apply (fs_pos _ _ _ _ _ HS); exact Hd].
    + apply (node_reached m n Hm Hn' cn (map gb L') (gb i)); [exact HS|apply in_map; exact Hi|apply gb_ok; exact Li|exact F1|exact F2|apply (fb_pos _ _ _ Fe)|].
      unfold closef in Hc. rewrite dist_sym. pose proof (half_sum_max (b_rad (gb e)) (b_rad (gb i))). lra.
  - exact Hok.
  - apply le_n.
  - rewrite EL in *. exists (size dim [(1%N, root)]), out. rewrite Hlen. split; [exact Eo|]. split; [exact HP|].
    intros i nb Hin. rewrite Forall_forall in HF. destruct (HF _ Hin) as (rest & HP' & H1 & H2). cbn [fst snd] in *. exists rest.
    split; [exact HP'|]. split; [|auto]. apply (in_map fst) in Hin. apply (Permutation_in _ HP) in Hin. apply in_seq in Hin. cbn in Hin. lia.
Qed.
End Built.

Theorem C91_sph_neighbours dim lob hib ks bodies m :
  dim_ok dim -> ks <> [] -> StronglySorted N.lt ks -> Forall (full_key dim) ks -> length bodies = length ks -> (-400 <= m <= 400)%Z ->
  (forall b, In b bodies -> fl_body m (N.to_nat dim) b) ->
  exists st mx fuel out, build_tree cofm (fcc_cofm_fl (N.to_nat dim) bodies) dim true true lob hib ks = Some (st, mx) /\
    traversal_sph_fl dim (st_tab st) (st_cofm st) bodies fuel = Some out /\
    Permutation (map fst out) (seq 0 (length bodies)) /\
    forall i nb, In (i, nb) out -> NoDup nb /\
      (forall e, In e nb -> (e < length bodies)%nat /\
         dist (N.to_nat dim) (pos bodies i) (pos bodies e) <= Rmax (rad bodies i) (rad bodies e) + bpow radix2 (m - 40)) /\
      (forall e, (e < length bodies)%nat ->
         dist (N.to_nat dim) (pos bodies i) (pos bodies e) <= (rad bodies i + rad bodies e) / 2 - bpow radix2 (m - 40) -> In e nb).
Proof.
  intros Hdim Hne Hs Hf Hlen Hm Hb. pose proof (n_ok dim Hdim) as Hn'.
  destruct (built_root_fl dim lob hib ks bodies Hdim Hne Hs Hf Hlen) as (st & mx & E & _).
  destruct (search_fl dim lob hib ks bodies m Hdim Hm Hb Hne Hs Hf Hlen st mx E) as (fuel & out & Eo & HP & HF).
  exists st, mx, fuel, out. split; [exact E|]. split; [exact Eo|]. split; [exact HP|]. intros i nb Hin.
  destruct (HF i nb Hin) as (rest & HP' & Li & H1 & H2).
  assert (Hnd : NoDup (nb ++ rest)) by (eapply Permutation_NoDup; [apply Permutation_sym, HP'|apply seq_NoDup]).
  split; [|split].
  - clear - Hnd. induction nb as [|a nb IH]; [constructor|]. cbn in Hnd. inversion Hnd; subst. constructor; [|auto].
    intros Ha. apply H1. apply in_or_app. auto.
  - intros e He. assert (Le : (e < length bodies)%nat).
    { assert (In e (seq 0 (length bodies))) by (apply (Permutation_in _ HP'); apply in_or_app; auto). apply in_seq in H. lia. }
    split; [exact Le|]. specialize (H1 e He). cbn [t_leaf fl_tests] in H1.
    pose proof (gb_ok dim bodies m Hb i Li) as Fi. pose proof (gb_ok dim bodies m Hb e Le) as Fe.
    destruct (fb_rad _ _ _ Fi) as [_ R1]. destruct (fb_rad _ _ _ Fe) as [_ R2].
    assert (R : 0 <= Rmax (b_rad (get_body bodies i)) (b_rad (get_body bodies e)) <= bpow radix2 m)
      by (split; [eapply Rle_trans; [|apply Rmax_l]; lra|apply Rmax_lub; lra]).
    apply within_sound in H1; [|lia| |lra].
    + pose proof (slack_eq m) as SE. unfold slack in SE. rewrite SE. unfold pos, rad. pose proof (eta_M m (N.to_nat dim) Hm Hn'). pose proof (M_pos m). rewrite u53_eq in H1. lra.
    + intros d Hd. split; [apply (fb_pos _ _ _ Fi)|apply (fb_pos _ _ _ Fe)]; exact Hd.
  - intros e He Hd. assert (Hin' : In e (nb ++ rest)) by (apply (Permutation_in _ (Permutation_sym HP')); apply in_seq; lia).
    apply in_app_or in Hin'. destruct Hin' as [H|H]; [assumption|]. exfalso. apply (H2 e H). exact Hd.
Qed.

Theorem C91_radius_search dim lob hib ks bodies m center radius :
  dim_ok dim -> ks <> [] -> StronglySorted N.lt ks -> Forall (full_key dim) ks -> length bodies = length ks -> (-400 <= m <= 400)%Z ->
  (forall b, In b bodies -> fl_body m (N.to_nat dim) b) ->
  (forall d, (d < N.to_nat dim)%nat -> is_double (center d) /\ Rabs (center d) <= bpow radix2 m) -> is_double radius -> 0 <= radius <= bpow radix2 m ->
  exists st mx fuel res, build_tree cofm (fcc_cofm_fl (N.to_nat dim) bodies) dim true true lob hib ks = Some (st, mx) /\
    find_in_radius_fl dim (st_tab st) (st_cofm st) bodies fuel center radius = Some res /\ NoDup res /\
    (forall i, In i res -> (i < length bodies)%nat /\
       dist (N.to_nat dim) (pos bodies i) center <= Rmax radius (rad bodies i) + bpow radix2 (m - 40)) /\
    (forall i, (i < length bodies)%nat ->
       dist (N.to_nat dim) (pos bodies i) center <= Rmax radius (rad bodies i) - bpow radix2 (m - 40) -> In i res).
Proof.
  intros Hdim Hne Hs Hf Hlen Hm Hb Hc [Fr _] Hr. pose proof (n_ok dim Hdim) as Hn'.
  assert (Hc' : forall d, (d < N.to_nat dim)%nat -> fmt (center d) /\ Rabs (center d) <= bpow radix2 m).
  { intros d Hd. destruct (Hc d Hd) as [[? _] ?]. auto. }
  destruct (built_root_fl dim lob hib ks bodies Hdim Hne Hs Hf Hlen) as (st & mx & E & Hok & EL).
  set (root := canon dim (N.to_nat (max_depth dim)) 1 (numbered ks)) in *.
  destruct (gfind_spec dim Hdim (fl_tests (N.to_nat dim)) (st_tab st) (st_cofm st) bodies (fcc_cofm_fl (N.to_nat dim) bodies) (Sumf dim bodies m)
    (Sumf_ok dim bodies m Hdim Hm Hb (st_tab st) (st_cofm st)) center radius
    (fun e => dist (N.to_nat dim) (b_pos (get_body bodies e)) center <= Rmax radius (b_rad (get_body bodies e)) - slack m)
    (size dim [(1%N, root)]) [(1%N, root)] []) as (res & rest & Er & HP & H1 & H2).
  - intros s L e [HS _] He Le Hd. cbn [t_fnode fl_tests]. apply within_complete.
    + lia.
    + intros d Hdd. split; [apply (fs_pos _ _ _ _ _ HS)|apply Hc']; exact Hdd.
    + rewrite dist_sym, Rmax_comm. apply (node_reached m (N.to_nat dim) Hm Hn' s (map (get_body bodies) L) (get_body bodies e));
        [exact HS|apply in_map; exact He|apply (gb_ok dim bodies m Hb); exact Le|exact Fr|exact Hr|exact Hc'|]. rewrite dist_sym. exact Hd.
  - intros e Le Hd. cbn [t_fent fl_tests]. pose proof (gb_ok dim bodies m Hb e Le) as Fe. destruct (fb_rad _ _ _ Fe) as [_ R2]. apply within_complete.
    + lia.
    + intros d Hdd. split; [apply Hc'|apply (fb_pos _ _ _ Fe)]; exact Hdd.
    + assert (R : 0 <= Rmax radius (b_rad (get_body bodies e)) <= bpow radix2 m) by (split; [eapply Rle_trans; [|apply Rmax_l]; lra|apply Rmax_lub; lra]).
      rewrite dist_sym. rewrite slack_eq in Hd. pose proof (eta_M m (N.to_nat dim) Hm Hn'). pose proof (M_pos m). rewrite u53_eq. lra.
  - constructor; [exact Hok|constructor].
  - apply le_n.
  - cbn [flat_map snd] in HP. rewrite app_nil_r, EL, <- Hlen in HP.
    assert (Hnd : NoDup (res ++ rest)) by (eapply Permutation_NoDup; [apply Permutation_sym, HP|apply seq_NoDup]).
    exists st, mx. eexists. exists res. split; [exact E|]. split; [exact Er|]. split; [|split].
    + clear - Hnd. induction res as [|a nb IH]; [constructor|]. cbn in Hnd. inversion Hnd; subst. constructor; [|auto].
      intros Ha. apply H1. apply in_or_app. auto.
    + intros e He. assert (Le : (e < length bodies)%nat).
      { assert (In e (seq 0 (length bodies))) by (apply (Permutation_in _ HP); apply in_or_app; auto). apply in_seq in H. lia. }
      split; [exact Le|]. specialize (H1 e He). cbn [t_fent fl_tests] in H1. pose proof (gb_ok dim bodies m Hb e Le) as Fe. destruct (fb_rad _ _ _ Fe) as [_ R2].
      assert (R : 0 <= Rmax radius (b_rad (get_body bodies e)) <= bpow radix2 m) by (split; [eapply Rle_trans; [|apply Rmax_l]; lra|apply Rmax_lub; lra]).
      apply within_sound in H1; [|lia| |lra].
      * rewrite dist_sym in H1. pose proof (slack_eq m) as SE. unfold slack in SE. rewrite SE. unfold pos, rad. pose proof (eta_M m (N.to_nat dim) Hm Hn'). pose proof (M_pos m). rewrite u53_eq in H1. lra.
      * intros d Hdd. split; [apply Hc'|apply (fb_pos _ _ _ Fe)]; exact Hdd.
    + intros e He Hd. assert (Hin' : In e (res ++ rest)) by (apply (Permutation_in _ (Permutation_sym HP)); apply in_seq; lia).
      apply in_app_or in Hin'. destruct Hin' as [H|H]; [assumption|]. exfalso. apply (H2 e H). exact Hd.
Qed.

(** ** what is stored stays far from the largest double *)
Lemma subtree_node dim (Hdim : dim_ok dim) t cofms bodies fcc tr : forall p, GSearch_proofs.okt dim t cofms bodies fcc (p, tr) ->
  forall q c j, In q (cells dim p tr) -> tfind t q = Some c -> c_node c = Some j -> (j < length cofms)%nat ->
  exists k ch s, GSearch_proofs.okt dim t cofms bodies fcc (q, Node k ch) /\ (length (leaves (Node k ch)) <= length (leaves tr))%nat /\
    nth_error cofms j = Some s /\ eval fcc (Node k ch) = inr s.
Proof.
  induction tr as [i|k ch IH] using tree_ind'; intros p Hok q c j Hq Hc Hj Lj.
  - destruct Hq as [<-|[]]. destruct Hok as ((Hh & _) & _). cbn [fst snd holds] in Hh. destruct Hh as (c' & Hc' & _ & Hn' & _).
    rewrite Hc in Hc'. injection Hc' as <-. congruence.
  - destruct Hq as [<-|Hq].
    + exists k, ch. pose proof Hok as ((Hh & _) & _). cbn [fst snd holds] in Hh. destruct Hh as (_ & (c' & j' & s & Hc' & _ & Hn' & Hs' & Ev & _) & _).
      rewrite Hc in Hc'. injection Hc' as <-. rewrite Hj in Hn'. injection Hn' as <-. exists s. auto.
    + apply in_flat_map in Hq. destruct Hq as (x & Hx & Hq).
      assert (Hkid : GSearch_proofs.okt dim t cofms bodies fcc (p * 2 ^ dim + fst x, snd x)%N).
      { destruct (GSearch_proofs.node_facts dim Hdim t cofms bodies fcc (fun _ _ => True) (fun _ _ _ _ _ _ => I) p k ch Hok) as (_ & _ & _ & _ & _ & _ & _ & HF & _).
        rewrite Forall_forall in HF. apply HF. unfold kids. apply in_map_iff. exists x. auto. }
      rewrite Forall_forall in IH. destruct (IH x Hx _ Hkid q c j Hq Hc Hj Lj) as (k' & ch' & s & A1 & A2 & A3).
      exists k', ch', s. split; [exact A1|]. split; [|exact A3]. eapply Nat.le_trans; [exact A2|]. cbn [leaves].
      clear - Hx. induction ch as [|y ch IHc]; [destruct Hx|]. cbn [flat_map]. rewrite app_length. destruct Hx as [->|Hx]; [lia|]. specialize (IHc Hx). lia.
Qed.
Lemma pow_u_2 k : INR k <= 4503599627370496 -> (1 + u53) ^ k <= 2.
Proof.
  intros H. assert (E : (1 + u53) ^ k <= exp (INR k * u53)).
  { rewrite <- Rpower_pow by (pose proof u53_pos; lra). unfold Rpower. destruct (Rle_lt_or_eq_dec 0 (INR k) (pos_INR k)) as [P|P].
    - left. apply exp_increasing. apply Rmult_lt_compat_l; [exact P|]. rewrite <- (ln_exp u53) at 2. apply ln_increasing; [pose proof u53_pos; lra|].
      apply exp_ineq1. pose proof u53_pos. lra.
    - rewrite <- P, !Rmult_0_l. lra. }
  eapply Rle_trans; [exact E|]. assert (E2 : exp (INR k * u53) <= exp (/ 2)).
  { assert (Q : INR k * u53 <= / 2) by (rewrite u53_eq; lra). destruct Q as [Q|Q]; [left; apply exp_increasing; exact Q|rewrite Q; lra]. }
  eapply Rle_trans; [exact E2|]. pose proof exp_le_3. assert (E3 : exp (/ 2) * exp (/ 2) = exp 1) by (rewrite <- exp_plus; f_equal; lra).
  pose proof (exp_pos (/ 2)). nra.
Qed.
Theorem C91_finite dim lob hib ks bodies m st mx s :
  dim_ok dim -> ks <> [] -> StronglySorted N.lt ks -> Forall (full_key dim) ks -> length bodies = length ks -> (-400 <= m <= 400)%Z ->
  (forall b, In b bodies -> fl_body m (N.to_nat dim) b) -> INR (length bodies) <= 2 ^ 52 ->
  build_tree cofm (fcc_cofm_fl (N.to_nat dim) bodies) dim true true lob hib ks = Some (st, mx) -> In s (st_cofm st) ->
  0 < cm_mass s <= bpow radix2 453 /\ 0 <= cm_rad s <= bpow radix2 (m + 9) /\ 0 <= cm_lap s <= bpow radix2 (m + 16) /\
  forall d, (d < N.to_nat dim)%nat -> Rabs (cm_pos s d) <= bpow radix2 m /\
    - bpow radix2 (m + 1) <= cm_min s d <= cm_max s d /\ cm_max s d <= bpow radix2 (m + 1).
Proof.
  intros Hdim Hne Hs Hf Hlen Hm Hb Hcount E Hin. pose proof (n_ok dim Hdim) as Hn'.
  destruct (C09_build_tree_canonical dim cofm (fcc_cofm_fl (N.to_nat dim) bodies) lob hib ks Hdim Hne Hs Hf) as (st' & mx' & E' & _ & Hcells & _ & _ & Hall).
  rewrite E in E'. injection E' as <- <-.
  destruct (built_root_fl dim lob hib ks bodies Hdim Hne Hs Hf Hlen) as (st' & mx' & E' & Hok & EL). rewrite E in E'. injection E' as <- <-.
  apply In_nth_error in Hin. destruct Hin as (j & Hj). assert (Lj : (j < length (st_cofm st))%nat) by (apply nth_error_Some; congruence).
  destruct (Hall j Lj) as (q & c & Hc & Hn).
  destruct (subtree_node dim Hdim (st_tab st) (st_cofm st) bodies _ _ 1%N Hok q c j ltac:(apply Hcells; congruence) Hc Hn Lj) as (k & ch & s' & Hok' & Hle & Hj' & Ev).
  assert (s' = s) by congruence. subst s'. rewrite EL, seq_length, <- Hlen in Hle.
  destruct (Sumf_ok dim bodies m Hdim Hm Hb _ _ _ _ _ _ Hok' Ev) as [HS HL].
  pose proof (M_pos m) as MP. set (L := leaves (Node k ch)) in *.
  assert (B : forall z, bpow radix2 (m + z) = bpow radix2 z * bpow radix2 m) by (intros; rewrite bpow_plus; ring).
  split; [|split; [|split]].
  - destruct (fs_mass _ _ _ _ _ HS) as [_ [M1 M2]]. unfold mmin in M1. pose proof (bpow_gt_0 radix2 (-500)). split; [lra|].
    rewrite map_length in M2.
    assert (K : INR (length L) <= 4503599627370496) by (apply Rle_trans with (INR (length bodies)); [apply le_INR; exact Hle|lra]).
    assert (P : (1 + u53) ^ Nat.pred (length L) <= 2).
    { apply pow_u_2. eapply Rle_trans; [apply le_INR, Nat.le_pred_l|exact K]. }
    assert (Q : suml b_mass (map (get_body bodies) L) <= INR (length L) * bpow radix2 400).
    { assert (G : forall i, In i L -> b_mass (get_body bodies i) <= bpow radix2 400).
      { intros i Hi. apply (fb_mass _ _ _ (gb_ok dim bodies m Hb i (HL i Hi))). }
      clear - G. induction L as [|i L IH]; [cbn; lra|]. cbn [map suml length]. rewrite S_INR. pose proof (G i (or_introl eq_refl)).
      specialize (IH ltac:(intros; apply G; right; assumption)). lra. }
    pose proof (bpow_gt_0 radix2 400) as B4. assert (Q0 : 0 <= suml b_mass (map (get_body bodies) L)).
    { apply suml_nonneg. intros b Hbin. apply in_map_iff in Hbin. destruct Hbin as (i & <- & Hi).
      destruct (fb_mass _ _ _ (gb_ok dim bodies m Hb i (HL i Hi))). pose proof (bpow_gt_0 radix2 (-500)). lra. }
    replace (bpow radix2 453) with (2 * (4503599627370496 * bpow radix2 400)).
    + eapply Rle_trans; [exact M2|]. apply Rmult_le_compat; [pose proof (pow_u (Nat.pred (length L))); lra|exact Q0|exact P|].
      eapply Rle_trans; [exact Q|]. apply Rmult_le_compat_r; lra.
    + replace 453%Z with (1 + (52 + 400))%Z by reflexivity. rewrite !bpow_plus. reflexivity.
  - destruct (fs_rad _ _ _ _ _ HS) as [_ [M1 M2]]. split; [exact M1|]. rewrite B. replace (bpow radix2 9) with 512 by reflexivity.
    replace (INR 64) with 64 in M2 by (cbn; lra). lra.
  - destruct (fs_lap _ _ _ _ _ HS) as [_ [M1 M2]]. split; [exact M1|]. rewrite B. replace (bpow radix2 16) with 65536 by reflexivity.
    replace (INR 64) with 64 in M2 by (cbn; lra). lra.
  - intros d Hd. rewrite B. replace (bpow radix2 1) with 2 by reflexivity. destruct (fs_boxf _ _ _ _ _ HS d Hd) as (_ & _ & M1 & M2).
    split; [apply (fs_pos _ _ _ _ _ HS d Hd)|]. split; [|exact M2]. split; [exact M1|].
    pose proof (fs_ne _ _ _ _ _ HS) as Hnn. destruct (map (get_body bodies) L) as [|b0 l0] eqn:EB; [congruence|].
    destruct (fs_box _ _ _ _ _ HS b0 d (or_introl eq_refl) Hd) as [A1 A2]. eapply Rle_trans; [exact A1|]. eapply Rle_trans; [|exact A2].
    unfold lo_fl, hi_fl. apply rnd_le. assert (Fb : fl_body m (N.to_nat dim) b0).
    { assert (In b0 (map (get_body bodies) L)) by (rewrite EB; left; reflexivity). apply in_map_iff in H. destruct H as (i & <- & Hi).
      apply (gb_ok dim bodies m Hb i (HL i Hi)). }
    destruct (fb_rad _ _ _ Fb) as [_ R]. pose proof (rnd_pos (b_rad b0 / 2) ltac:(lra)). lra.
Qed.

(** ** the test of a pair *)
(** On a line no pair within the larger radius is missed by the test. *)
Theorem C91_line a b r : is_double (a 0%nat) -> is_double (b 0%nat) -> is_double r -> dist 1 a b <= r -> within_distance2_fl 1 a b r = true.
Proof.
  intros _ _ [Fr _] H. rewrite dist_1 in H. apply Rleb_true. cbn [dist2_fl]. rewrite Rplus_0_l, rnd_id by apply rnd_fmt. unfold sq_fl. apply rnd_le.
  pose proof (rnd_abs_mono _ _ H) as G. rewrite (rnd_id r Fr) in G. rewrite <- Rabs_sqr_eq'. pose proof (Rabs_pos (rnd (a 0%nat - b 0%nat))).
  apply Rmult_le_compat; lra.
Qed.
(** The test does not depend on which of the two particles is the target. *)
Theorem C91_symmetric n a b r : within_distance2_fl n a b r = within_distance2_fl n b a r.
Proof.
  unfold within_distance2_fl. f_equal. induction n as [|n IH]; cbn [dist2_fl]; [reflexivity|]. rewrite IH. f_equal. f_equal. unfold sq_fl.
  replace (b n - a n) with (- (a n - b n)) by ring. rewrite rnd_opp. f_equal. ring.
Qed.

(** Rounding of an integer. *)
Lemma rnd_int z k e : (0 <= e)%Z -> (2 ^ 52 <= k < 2 ^ 53)%Z -> (2 * Z.abs (z - k * 2 ^ e) < 2 ^ e)%Z -> (2 ^ (52 + e) <= z < 2 ^ (53 + e))%Z ->
  rnd (IZR z) = IZR (k * 2 ^ e).
Proof.
  intros He Hk Hz Hr. unfold rnd, round, scaled_mantissa, cexp.
  assert (Em : mag radix2 (IZR z) = (53 + e)%Z :> Z).
  { apply mag_unique. assert (0 < 2 ^ (52 + e))%Z by (apply Z.pow_pos_nonneg; lia). rewrite Rabs_pos_eq by (apply IZR_le; lia).
    replace (53 + e - 1)%Z with (52 + e)%Z by ring. rewrite <- !(IZR_Zpower radix2) by lia. split; [apply IZR_le|apply IZR_lt]; apply Hr. }
  rewrite Em. unfold dexp, FLT_exp. rewrite Z.max_l by lia. replace (53 + e - 53)%Z with e by ring.
  assert (Ek : ZnearestE (IZR z * bpow radix2 (- e)) = k).
  { apply Znearest_imp. replace (IZR z * bpow radix2 (- e) - IZR k) with ((IZR z - IZR k * bpow radix2 e) * bpow radix2 (- e)).
    - rewrite Rabs_mult, (Rabs_pos_eq (bpow radix2 (- e))) by apply bpow_ge_0. pose proof (bpow_gt_0 radix2 e) as B.
      apply (Rmult_lt_reg_r (bpow radix2 e)); [exact B|]. rewrite Rmult_assoc, <- bpow_plus, Z.add_opp_diag_l. cbn [bpow]. rewrite Rmult_1_r.
      rewrite <- (IZR_Zpower radix2) by lia. rewrite <- mult_IZR, <- minus_IZR, <- abs_IZR.
      apply IZR_lt in Hz. rewrite mult_IZR in Hz. change (Zpower radix2 e) with (2 ^ e)%Z. lra.
    - rewrite Rmult_minus_distr_r, Rmult_assoc, <- bpow_plus, Z.add_opp_diag_r. cbn [bpow]. ring. }
  rewrite Ek. unfold F2R. cbn [Fnum Fexp]. rewrite mult_IZR, <- (IZR_Zpower radix2) by lia. reflexivity.
Qed.
Lemma int_fmt z : (Z.abs z < 2 ^ 53)%Z -> fmt (IZR z).
Proof.
  intros H. unfold dexp. apply generic_format_FLT. exists (Float radix2 z 0); [unfold F2R; cbn [Fnum Fexp bpow]; ring|exact H|cbn; lia].
Qed.

(** Two particles of equal radius whose distance is that radius: without rounding
    C13 has each find the other, in double precision neither does. *)
Definition p91 : body := mkbody (fun _ => 0) 1 779824469.
Definition q91 : body := mkbody (fun i => match i with O => 683580531 | _ => 375291700 end) 1 779824469.
Definition bodies91 : list body := [p91; q91].
Definition ks91 : list N := [2 ^ 62; 2 ^ 62 + 3 * 2 ^ 60]%N.
Lemma ks91_ok : ks91 <> [] /\ StronglySorted N.lt ks91 /\ Forall (full_key 2) ks91 /\ length bodies91 = length ks91.
Proof.
  split; [discriminate|]. split; [|split; [|reflexivity]].
  - repeat constructor.
  - repeat constructor; vm_compute; congruence.
Qed.
Lemma bodies91_ok b : In b bodies91 -> fl_body 30 2 b.
Proof.
  assert (B : bpow radix2 30 = 1073741824) by reflexivity.
  assert (Bm : bpow radix2 (-500) <= 1 <= bpow radix2 400) by (change 1 with (bpow radix2 0); split; apply bpow_le; lia).
  intros [<-|[<-|[]]]; split; cbn [p91 q91 b_pos b_rad b_mass]; rewrite ?B.
  - intros i _. split; [apply generic_format_0|rewrite Rabs_R0; lra].
  - split; [apply int_fmt; lia|lra].
  - split; [apply (int_fmt 1); lia|exact Bm].
  - intros [|i] _; (split; [apply int_fmt; lia|rewrite Rabs_pos_eq; lra]).
  - split; [apply int_fmt; lia|lra].
  - split; [apply (int_fmt 1); lia|exact Bm].
Qed.
Lemma dist91 : dist 2 (b_pos p91) (b_pos q91) = 779824469.
Proof.
  apply Rsqr_inj; [apply dist_nonneg|lra|]. unfold Rsqr. rewrite dist_sqr. unfold dist2. cbn [sumn p91 q91 b_pos]. lra.
Qed.
Lemma missed91 : within_distance2_fl 2 (b_pos p91) (b_pos q91) 779824469 = false.
Proof.
  apply Rleb_false. cbn [dist2_fl p91 q91 b_pos]. unfold sq_fl. cbn [p91 q91 b_pos].
  assert (Ea : rnd (0 - 683580531) = - 683580531).
  { replace (0 - 683580531) with (IZR (-683580531)) by lra. apply rnd_id, int_fmt. lia. }
  assert (Eb : rnd (0 - 375291700) = - 375291700).
  { replace (0 - 375291700) with (IZR (-375291700)) by lra. apply rnd_id, int_fmt. lia. }
  cbv zeta. rewrite Ea, Eb.
  replace (- 683580531 * - 683580531) with (IZR 467282342362241961) by lra.
  replace (- 375291700 * - 375291700) with (IZR 140843860088890000) by lra.
  replace (779824469 * 779824469) with (IZR 608126202451131961) by lra.
  rewrite (rnd_int 467282342362241961 7301286599410031 6) by (vm_compute; intuition congruence).
  rewrite (rnd_int 140843860088890000 8802741255555625 4) by (vm_compute; intuition congruence).
  rewrite (rnd_int 608126202451131961 4750985956649468 7) by (vm_compute; intuition congruence).
  rewrite Rplus_0_l, (rnd_id (IZR (7301286599410031 * 2 ^ 6))).
  2:{ rewrite <- (rnd_int 467282342362241961 7301286599410031 6) by (vm_compute; intuition congruence). apply rnd_fmt. }
  rewrite <- plus_IZR. rewrite (rnd_int (7301286599410031 * 2 ^ 6 + 8802741255555625 * 2 ^ 4) 4750985956649469 7) by (vm_compute; intuition congruence).
  apply IZR_lt. reflexivity.
Qed.
Theorem C91_pair_missed_refuted : exists dim lob hib ks bodies m st mx fuel out i e nb,
  dim_ok dim /\ ks <> [] /\ StronglySorted N.lt ks /\ Forall (full_key dim) ks /\ length bodies = length ks /\ (-400 <= m <= 400)%Z /\
  (forall b, In b bodies -> fl_body m (N.to_nat dim) b) /\
  build_tree cofm (fcc_cofm_fl (N.to_nat dim) bodies) dim true true lob hib ks = Some (st, mx) /\
  traversal_sph_fl dim (st_tab st) (st_cofm st) bodies fuel = Some out /\ In (i, nb) out /\ (e < length bodies)%nat /\ ~ In e nb /\
  dist (N.to_nat dim) (pos bodies i) (pos bodies e) <= (rad bodies i + rad bodies e) / 2.
Proof.
  destruct ks91_ok as (K1 & K2 & K3 & K4). assert (Hdim : dim_ok 2) by (right; left; reflexivity).
  assert (Hm : (-400 <= 30 <= 400)%Z) by lia.
  destruct (built_root_fl 2 0 0 ks91 bodies91 Hdim K1 K2 K3 K4) as (st & mx & E & _).
  destruct (search_fl 2 0 0 ks91 bodies91 30 Hdim Hm bodies91_ok K1 K2 K3 K4 st mx E) as (fuel & out & Eo & HP & HF).
  assert (H0 : In 0%nat (map fst out)) by (apply (Permutation_in _ (Permutation_sym HP)); left; reflexivity).
  apply in_map_iff in H0. destruct H0 as ((i & nb) & Ei & Hin). cbn in Ei. subst i.
  exists 2%N, 0%N, 0%N, ks91, bodies91, 30%Z, st, mx, fuel, out, 0%nat, 1%nat, nb.
  repeat split; auto; try apply bodies91_ok; try assumption; try lia.
  - intros Hb. destruct (HF 0%nat nb Hin) as (rest & _ & _ & H1 & _). specialize (H1 1%nat Hb).
    change (within_distance2_fl 2 (b_pos p91) (b_pos q91) (Rmax 779824469 779824469) = true) in H1. rewrite Rmax_left in H1 by lra.
    rewrite missed91 in H1. discriminate.
  - change (dist 2 (b_pos p91) (b_pos q91) <= (779824469 + 779824469) / 2). rewrite dist91. lra.
Qed.

(** The hypotheses of the four theorems on the tree, met by these two particles. *)
Example C91_case : dim_ok 2 /\ ks91 <> [] /\ StronglySorted N.lt ks91 /\ Forall (full_key 2) ks91 /\ length bodies91 = length ks91 /\
  (-400 <= 30 <= 400)%Z /\ (forall b, In b bodies91 -> fl_body 30 (N.to_nat 2) b) /\ INR (length bodies91) <= 2 ^ 52 /\
  is_double 1 /\ 0 <= 1 <= bpow radix2 30.
Proof.
  destruct ks91_ok as (K1 & K2 & K3 & K4). split; [right; left; reflexivity|]. repeat (split; [assumption|]). split; [lia|].
  split; [exact bodies91_ok|]. split; [cbn [bodies91 length INR]; lra|]. split; [|change (bpow radix2 30) with 1073741824; lra].
  split; [apply (int_fmt 1); lia|]. rewrite Rabs_R1. unfold dmax_bound. change 1 with (bpow radix2 0). apply bpow_lt. lia.
Qed.

Print Assumptions C91_sph_neighbours.
Print Assumptions C91_radius_search.
Print Assumptions C91_finite.
Print Assumptions C91_line.
Print Assumptions C91_symmetric.
Print Assumptions C91_pair_missed_refuted.
