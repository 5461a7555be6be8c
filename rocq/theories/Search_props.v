(** Properties C12 (radius search), C13 and C14 (SPH neighbour lists), on one
    process. *)
From Coq Require Import Sorted Permutation.
From Verif Require Import Base Key_model Key_spec Key_proofs HCell_model HCell_props BuildTree_model BuildTree_spec BuildTree_lemmas
  BuildTree_inv BuildTree_proofs BuildTree_shape BuildTree_props Vec Geometry_model Geometry_props Cofm_model Cofm_spec Cofm_proofs Search_model
  Search_proofs Search_sph.
Local Open Scope N_scope.
Local Notation up := BuildTree_spec.up.

Lemma canon_ne dim (Hdim : dim_ok dim) : forall m p (l : list (nat * N)), l <> [] -> (1 <= m)%nat -> NoDup (map snd l) ->
  (forall x, In x l -> up dim (N.of_nat m) (snd x) = p) -> ne (canon dim m p l).
Proof.
  induction m as [|m IH]; intros p l Hne Hm Hnd Hp; [lia|].
  rewrite (canon_S dim). cbn [ne]. split.
  - destruct l as [|x l]; [congruence|]. intros E.
    assert (Hd : up dim (N.of_nat m) (snd x) = p * 2 ^ dim + up dim (N.of_nat m) (snd x) mod 2 ^ dim).
    { rewrite <- (Hp x (or_introl eq_refl)). unfold up. replace (N.of_nat (S m)) with (N.of_nat m + 1) by lia.
      rewrite N.mul_add_distr_r, N.mul_1_l, N.pow_add_r, <- N.div_div by (apply N.pow_nonzero; lia).
      rewrite (N.mul_comm _ (2 ^ dim)). apply N.div_mod. apply N.pow_nonzero. lia. }
    set (d := up dim (N.of_nat m) (snd x) mod 2 ^ dim) in *.
    assert (Hin : In d (digits dim)).
    { apply (digits_in dim). unfold d. apply N.mod_lt. apply N.pow_nonzero. lia. }
    assert (Hc : cchild dim m p (x :: l) d = []).
    { clear - E Hin. induction (digits dim) as [|a ds IHd]; [destruct Hin|]. cbn [flat_map] in E.
      apply app_eq_nil in E. destruct Hin as [<-|Hin]; [tauto|]. apply IHd; tauto. }
    unfold cchild in Hc. cbn [filter] in Hc. rewrite <- Hd, N.eqb_refl in Hc.
    destruct (filter _ l); discriminate.
  - apply fold_and_Forall. apply Forall_forall. intros y Hy. apply in_flat_map in Hy. destruct Hy as (d & _ & Hy).
    unfold cchild in Hy.
    destruct (filter (fun x => up dim (N.of_nat m) (snd x) =? p * 2 ^ dim + d) l) as [|x1 [|x2 g]] eqn:Ef; cbn in Hy;
      [destruct Hy| |]; destruct Hy as [<-|[]]; [exact I|]. cbn [snd].
    assert (Hsub : forall x, In x (x1 :: x2 :: g) -> In x l /\ up dim (N.of_nat m) (snd x) = p * 2 ^ dim + d).
    { intros x Hx. rewrite <- Ef in Hx. apply filter_In in Hx. destruct Hx as [H1 H2]. apply N.eqb_eq in H2. auto. }
    assert (Hnd' : NoDup (map snd (x1 :: x2 :: g))).
    { rewrite <- Ef. clear - Hnd. induction l as [|a l IHl]; [constructor|]. cbn [filter]. inversion Hnd; subst.
      destruct (_ =? _); [|auto]. cbn [map]. constructor; [|auto]. intros Hin. apply H1.
      apply in_map_iff in Hin. destruct Hin as (z & Ez & Hz). apply filter_In in Hz. rewrite <- Ez. apply in_map. tauto. }
    apply IH; [discriminate| |assumption|intros x Hx; apply Hsub; assumption].
    destruct m as [|m]; [|lia]. exfalso.
    destruct (Hsub x1) as [_ E1]; [left; reflexivity|]. destruct (Hsub x2) as [_ E2]; [right; left; reflexivity|].
    rewrite (up_0 dim) in E1, E2. cbn [map] in Hnd'. inversion Hnd' as [|? ? Hn1 _]. apply Hn1. left. congruence.
Qed.

Section Built.
Variables (dim lob hib : N) (ks : list N) (bodies : list body).
Hypothesis Hdim : dim_ok dim.
Hypothesis Hne : ks <> [].
Hypothesis Hs : StronglySorted N.lt ks.
Hypothesis Hf : Forall (full_key dim) ks.
Hypothesis Hlen : length bodies = length ks.
Notation root := (canon dim (N.to_nat (max_depth dim)) 1 (numbered ks)).
Notation n := (N.to_nat dim).

Lemma built_root : exists st mx, build_tree cofm (fcc_cofm n bodies) dim true true lob hib ks = Some (st, mx) /\
  okt dim (st_tab st) (st_cofm st) bodies (1, root) /\ leaves root = seq 0 (length ks).
Proof using Hdim Hne Hs Hf Hlen.
  destruct (C09_build_tree_canonical dim cofm (fcc_cofm n bodies) lob hib ks Hdim Hne Hs Hf) as (st & mx & E & Hh & _).
  exists st, mx. split; [assumption|].
  pose proof (full_keys_full dim ks Hf) as Hf'.
  pose proof (leaves_root dim Hdim ks Hs Hf') as EL. split; [|assumption].
  split; [|split].
  - split; [exact Hh|]. cbn [fst snd]. exists (N.to_nat (max_depth dim)).
    rewrite N2Nat.id. split; [lia|]. split; [|right; eexists; reflexivity].
    unfold at_level. rewrite N.sub_diag, N.pow_0_r. lia.
  - cbn [snd]. apply canon_ne; auto.
    + unfold numbered. intros E0. apply (f_equal (@length _)) in E0. rewrite combine_length, seq_length in E0.
      destruct ks; [congruence|]. cbn in E0. lia.
    + destruct Hdim as [->|[->| ->]]; vm_compute; lia.
    + pose proof (sorted_nodup ks Hs) as Hnd. replace (map snd (numbered ks)) with ks; [assumption|].
      unfold numbered. clear. generalize 0%nat. induction ks as [|k l IH]; intros a; cbn; [reflexivity|]. f_equal. apply IH.
    + intros [i k] Hx. cbn [snd]. rewrite N2Nat.id. apply up_root; auto. unfold numbered in Hx.
      apply in_combine_r in Hx. rewrite Forall_forall in Hf'. auto.
  - cbn [snd]. rewrite EL. intros i Hi. apply in_seq in Hi. lia.
Qed.

(** Particle [i] of the input. *)
Definition pos (i : nat) : point := b_pos (get_body bodies i).
Definition rad (i : nat) : R := b_rad (get_body bodies i).
Hypothesis Hmass : forall b, In b bodies -> (0 < b_mass b)%R.
Hypothesis Hrad : forall b, In b bodies -> (0 <= b_rad b)%R.
End Built.

(** C12 *)
Theorem C12_radius_search_exact dim lob hib ks bodies center radius :
  dim_ok dim -> ks <> [] -> StronglySorted N.lt ks -> Forall (full_key dim) ks -> length bodies = length ks ->
  (forall b, In b bodies -> (0 < b_mass b)%R /\ (0 <= b_rad b)%R) -> (0 <= radius)%R ->
  exists st mx fuel res, build_tree cofm (fcc_cofm (N.to_nat dim) bodies) dim true true lob hib ks = Some (st, mx) /\
    find_in_radius dim (st_tab st) (st_cofm st) bodies fuel center radius = Some res /\
    NoDup res /\
    forall i, In i res <-> ((i < length bodies)%nat /\
      (dist (N.to_nat dim) (pos bodies i) center <= Rmax radius (rad bodies i))%R).
Proof.
  intros Hdim Hne Hs Hf Hlen Hb Hr.
  destruct (built_root dim lob hib ks bodies Hdim Hne Hs Hf Hlen) as (st & mx & E & Hok & EL).
  destruct (find_spec dim Hdim (st_tab st) (st_cofm st) bodies ltac:(intros; apply Hb; assumption)
    ltac:(intros; apply Hb; assumption) center radius
    (size dim [(1%N, canon dim (N.to_nat (max_depth dim)) 1 (numbered ks))])
    [(1%N, canon dim (N.to_nat (max_depth dim)) 1 (numbered ks))] [] Hr) as (res & Er & HP).
  { constructor; [exact Hok|constructor]. }
  { lia. }
  exists st, mx. eexists. exists res. split; [exact E|]. split; [exact Er|].
  cbn [flat_map snd] in HP. rewrite app_nil_r, EL in HP. split.
  - eapply Permutation_NoDup; [apply Permutation_sym, HP|]. apply NoDup_filter, seq_NoDup.
  - intros i. split.
    + intros Hi. apply (Permutation_in _ HP) in Hi. apply filter_In in Hi. destruct Hi as [H1 H2].
      apply in_seq in H1. apply Rleb_true in H2. split; [lia|exact H2].
    + intros [H1 H2]. apply (Permutation_in _ (Permutation_sym HP)). apply filter_In. split; [apply in_seq; lia|].
      apply Rleb_true. exact H2.
Qed.

(** C13 *)
Theorem C13_sph_neighbours dim lob hib ks bodies :
  dim_ok dim -> ks <> [] -> StronglySorted N.lt ks -> Forall (full_key dim) ks -> length bodies = length ks ->
  (forall b, In b bodies -> (0 < b_mass b)%R /\ (0 <= b_rad b)%R) ->
  exists st mx fuel out, build_tree cofm (fcc_cofm (N.to_nat dim) bodies) dim true true lob hib ks = Some (st, mx) /\
    traversal_sph dim (st_tab st) (st_cofm st) bodies fuel = Some out /\
    Permutation (map fst out) (seq 0 (length bodies)) /\
    forall i nb, In (i, nb) out -> NoDup nb /\
      (forall e, In e nb -> (e < length bodies)%nat /\
         (dist (N.to_nat dim) (pos bodies i) (pos bodies e) <= Rmax (rad bodies i) (rad bodies e))%R) /\
      (forall e, (e < length bodies)%nat ->
         (dist (N.to_nat dim) (pos bodies i) (pos bodies e) <= (rad bodies i + rad bodies e) / 2)%R -> In e nb).
Proof.
  intros Hdim Hne Hs Hf Hlen Hb.
  destruct (built_root dim lob hib ks bodies Hdim Hne Hs Hf Hlen) as (st & mx & E & Hok & EL).
  destruct (traversal_sph_ok dim Hdim (st_tab st) (st_cofm st) bodies ltac:(intros; apply Hb; assumption)
    ltac:(intros; apply Hb; assumption) _ Hok _ (le_n _)) as (out & Eo & HP & HF).
  rewrite EL in *. exists st, mx. eexists. exists out. split; [exact E|]. split; [exact Eo|]. rewrite Hlen.
  split; [exact HP|]. intros i nb Hin. rewrite Forall_forall in HF. destruct (HF _ Hin) as (rest & HP' & H1 & H2).
  cbn [fst snd] in *.
  assert (Hnd : NoDup (nb ++ rest)).
  { eapply Permutation_NoDup; [apply Permutation_sym, HP'|apply seq_NoDup]. }
  split; [|split].
  - clear - Hnd. induction nb as [|a nb IH]; [constructor|]. cbn in Hnd. inversion Hnd; subst. constructor; [|auto].
    intros Ha. apply H1. apply in_or_app. auto.
  - intros e He. split; [|exact (H1 e He)]. assert (In e (seq 0 (length ks))).
    { apply (Permutation_in _ HP'). apply in_or_app. auto. }
    apply in_seq in H. lia.
  - intros e He Hd. assert (Hin' : In e (nb ++ rest)).
    { apply (Permutation_in _ (Permutation_sym HP')). apply in_seq. lia. }
    apply in_app_or in Hin'. destruct Hin' as [H|H]; [assumption|]. exfalso. apply (H2 e H). exact Hd.
Qed.

(** C14: a counterexample in one dimension with range [0,1]: particle 0 at 0
    with radius 1/100, particles i = 1..128 at 1/2 + (i-1)/512 with radius 8/10.
    The keys are the Morton keys of these positions.  Particle 1 is at distance
    1/2 <= 8/10 from particle 0, but its node is dropped while looking for the
    neighbours of particle 0. *)
Definition ks14 : list N := 2 ^ 63 :: map (fun i => 2 ^ 63 + 2 ^ 62 + N.of_nat i * 2 ^ 54) (seq 0 128).
Definition bodies14 : list body :=
  mkbody (fun _ => 0%R) 1 (1 / 100) :: map (fun i => mkbody (fun _ => (1 / 2 + INR i / 512)%R) 1 (8 / 10)) (seq 0 128).

Lemma sorted_dec l : (fix go (l : list N) := match l with [] => true | x :: r => match r with [] => true | y :: _ => (x <? y) && go r end end) l = true ->
  StronglySorted N.lt l.
Proof.
  intros H. apply Sorted_StronglySorted; [intros x y z; apply N.lt_trans|].
  induction l as [|x l IH]; [constructor|]. destruct l as [|y l].
  - repeat constructor.
  - apply andb_true_iff in H. destruct H as [H1 H2]. constructor; [apply IH; exact H2|]. constructor. apply N.ltb_lt. exact H1.
Qed.

Lemma ks14_ok : ks14 <> [] /\ StronglySorted N.lt ks14 /\ Forall (full_key 1) ks14.
Proof.
  split; [discriminate|]. split; [apply sorted_dec; vm_compute; reflexivity|].
  apply Forall_forall. intros k Hk.
  assert (E : forallb (fun k => (2 ^ (1 * max_depth 1) <=? k) && (k <? 2 * 2 ^ (1 * max_depth 1))) ks14 = true) by (vm_compute; reflexivity).
  rewrite forallb_forall in E. specialize (E k Hk). apply andb_true_iff in E. destruct E as [E1 E2].
  split; [apply N.leb_le|apply N.ltb_lt]; assumption.
Qed.

Lemma bodies14_in b : In b bodies14 -> (b = mkbody (fun _ => 0%R) 1 (1 / 100)) \/
  exists i, (i < 128)%nat /\ b = mkbody (fun _ => (1 / 2 + INR i / 512)%R) 1 (8 / 10).
Proof.
  intros [H|H]; [left; auto|]. right. apply in_map_iff in H. destruct H as (i & <- & Hi). apply in_seq in Hi.
  exists i. split; [lia|reflexivity].
Qed.

Lemma root14 : exists T, canon 1 (N.to_nat (max_depth 1)) 1 (numbered ks14) = Node 1 [(0, Leaf 0); (1, T)].
Proof.
  change (N.to_nat (max_depth 1)) with (S 62). rewrite (canon_S 1).
  change (digits 1) with [0; 1]. cbn [flat_map]. rewrite app_nil_r.
  assert (E0 : filter (fun x : nat * N => up 1 (N.of_nat 62) (snd x) =? 1 * 2 ^ 1 + 0) (numbered ks14) = [(0%nat, 2 ^ 63)])
    by (vm_compute; reflexivity).
  assert (L : Nat.leb 2 (length (filter (fun x : nat * N => up 1 (N.of_nat 62) (snd x) =? 1 * 2 ^ 1 + 1) (numbered ks14))) = true)
    by (vm_compute; reflexivity).
  unfold cchild. rewrite E0. cbn [app fst].
  destruct (filter (fun x : nat * N => up 1 (N.of_nat 62) (snd x) =? 1 * 2 ^ 1 + 1) (numbered ks14)) as [|a [|b g]];
    [discriminate L|discriminate L|]. eexists. reflexivity.
Qed.

Theorem C14_within_larger_radius_refuted : exists ks bodies st mx fuel out i nb e,
  ks <> [] /\ StronglySorted N.lt ks /\ Forall (full_key 1) ks /\ length bodies = length ks /\
  (forall b, In b bodies -> (0 < b_mass b)%R /\ (0 < b_rad b)%R) /\
  build_tree cofm (fcc_cofm 1 bodies) 1 true true 0 0 ks = Some (st, mx) /\
  traversal_sph 1 (st_tab st) (st_cofm st) bodies fuel = Some out /\
  In (i, nb) out /\ (e < length bodies)%nat /\
  (dist 1 (pos bodies i) (pos bodies e) < Rmax (rad bodies i) (rad bodies e))%R /\ ~ In e nb.
Proof.
  destruct ks14_ok as (Hne & Hs & Hf).
  assert (Hdim : dim_ok 1) by (left; reflexivity).
  assert (Hlen : length bodies14 = length ks14) by reflexivity.
  assert (Hb : forall b, In b bodies14 -> (0 < b_mass b)%R /\ (0 < b_rad b)%R).
  { intros b Hb. destruct (bodies14_in b Hb) as [->|(i & _ & ->)]; cbn; lra. }
  assert (Hm : forall b, In b bodies14 -> (0 < b_mass b)%R) by (intros; apply Hb; assumption).
  assert (Hr : forall b, In b bodies14 -> (0 <= b_rad b)%R) by (intros b H; destruct (Hb b H); lra).
  destruct (built_root 1 0 0 ks14 bodies14 Hdim Hne Hs Hf Hlen) as (st & mx & E & Hok & EL).
  destruct root14 as (T14 & ER). rewrite ER in Hok, EL. clear ER. change (length ks14) with 129%nat in EL.
  set (t := st_tab st) in *. set (cf := st_cofm st) in *.
  set (root := Node 1 [(0, Leaf 0); (1, T14)]) in *.
  set (fuel := size 1 [(1%N, root)]).
  destruct (node_facts 1 Hdim t cf bodies14 Hm 1 1 _ Hok) as (c1 & s1 & Hc1 & Hn1 & Hs1 & Hsum1 & Hk1 & Hkids & _ & Hemp1 & _).
  unfold kids in Hk1, Hkids. cbn [map fst snd] in Hk1, Hkids.
  change (1 * 2 ^ 1 + 0) with 2 in *. change (1 * 2 ^ 1 + 1) with 3 in *.
  inversion Hkids as [|? ? Hk2 Hkids']; subst. inversion Hkids' as [|? ? Hk3 _]; subst. clear Hkids Hkids'.
  assert (ELT : leaves T14 = seq 1 128).
  { assert (E' : leaves root = [0%nat] ++ leaves T14 ++ []) by reflexivity. rewrite EL in E'.
    rewrite app_nil_r in E'. cbn [app] in E'. change (seq 0 129) with (0%nat :: seq 1 128) in E'. congruence. }
  destruct (leaf_facts 1 t cf bodies14 2 0 Hk2) as (c2 & Hc2 & Hn2 & He2 & _ & _).
  destruct T14 as [i0|k0 ch0] eqn:ET; [discriminate ELT|]. rewrite <- ET in *.
  pose proof Hk3 as Hk3'. rewrite ET in Hk3'.
  destruct (node_facts 1 Hdim t cf bodies14 Hm 3 k0 ch0 Hk3') as (c3 & s3 & Hc3 & Hn3 & Hs3 & Hsum3 & _).
  rewrite <- ET, ELT in Hsum3. clear Hk3'.
  (* the box of the node of particles 1..128 *)
  assert (Hmin : (1 / 10 <= cm_min s3 0%nat)%R /\ (cm_min s3 0%nat <= cm_max s3 0%nat)%R).
  { assert (Hbs : forall b, In b (map (get_body bodies14) (seq 1 128)) ->
      exists i, (i < 128)%nat /\ b = mkbody (fun _ => (1 / 2 + INR i / 512)%R) 1 (8 / 10)).
    { intros b Hbb. apply in_map_iff in Hbb. destruct Hbb as (i & <- & Hi). apply in_seq in Hi.
      exists (i - 1)%nat. split; [lia|]. destruct i as [|i]; [lia|]. unfold get_body, bodies14. cbn [nth].
      rewrite (nth_indep _ dummy_body ((fun i => mkbody (fun _ => (1 / 2 + INR i / 512)%R) 1 (8 / 10)) 0%nat)) by (rewrite map_length, seq_length; lia).
      rewrite (map_nth (fun i => mkbody (fun _ => (1 / 2 + INR i / 512)%R) 1 (8 / 10))).
      rewrite seq_nth by lia. replace (S i - 1)%nat with (0 + i)%nat by lia. reflexivity. }
    assert (Hdb : (1 <= dbl_max)%R).
    { unfold dbl_max. assert (1 <= 2 ^ 1023)%R by (apply pow_R1_Rle; lra).
      assert (/ 2 ^ 52 <= 1)%R. { rewrite <- Rinv_1. apply Rinv_le_contravar; [lra|]. apply pow_R1_Rle. lra. }
      assert (1 <= 2 - / 2 ^ 52)%R by lra. nra. }
    assert (Hi01 : forall i, (i < 128)%nat -> (0 <= INR i / 512 <= 1 / 4)%R).
    { intros i Hi. apply lt_INR in Hi. pose proof (pos_INR i). change (INR 128) with (INR (2 * 64)) in Hi.
      rewrite (mult_INR 2 64) in Hi. change (INR 2) with 2%R in Hi. replace (INR 64) with 64%R in Hi by (rewrite INR_IZR_INZ; reflexivity). lra. }
    destruct (so_tight _ _ _ Hsum3 ltac:(discriminate)) with (i := 0%nat) as [(b & Hbb & Eb) _].
    { intros b i Hbb. destruct (Hbs b Hbb) as (j & Hj & ->). cbn [b_pos b_rad]. specialize (Hi01 j Hj). lra. }
    pose proof (so_box _ _ _ Hsum3 b Hbb 0%nat) as Hbox.
    destruct (Hbs b Hbb) as (j & Hj & Ej). rewrite Ej in *. cbn [b_pos b_rad] in *. specialize (Hi01 j Hj). lra. }
  assert (Hcull : intersects_sphere_box 1 (cm_min s3) (cm_max s3) (b_pos (get_body bodies14 0)) (b_rad (get_body bodies14 0)) = false).
  { destruct (intersects_sphere_box 1 _ _ _ _) eqn:Ei; [|reflexivity]. exfalso. destruct Hmin as [Hm1 Hm2].
    assert (H0 : (0 <= b_rad (get_body bodies14 0))%R) by (cbn; lra).
    assert (Hle : forall i, (i < 1)%nat -> (cm_min s3 i <= cm_max s3 i)%R) by (intros [|i] Hi; [assumption|lia]).
    destruct (C57_sphere_box 1 (cm_min s3) (cm_max s3) (b_pos (get_body bodies14 0)) (b_rad (get_body bodies14 0)) H0 ltac:(auto) Hle)
      as (_ & Q & _). destruct (Q Ei) as (x & H1 & H2). specialize (H2 0%nat ltac:(lia)). unfold ball in H1.
    rewrite dist_1 in H1. cbn in H1. pose proof (Rle_abs (x 0%nat - 0)) as H3.
    assert (tol <= 1 / 100)%R.
    { unfold tol. assert (1000 <= 2 ^ 52)%R.
      { apply Rle_trans with (2 ^ 10)%R; [lra|]. apply Rle_pow; [lra|lia]. }
      apply (Rmult_le_reg_r (2 ^ 52)); [lra|]. unfold Rdiv. rewrite Rmult_assoc, Rinv_l by lra. lra. }
    lra. }
  (* the neighbour list of particle 0 *)
  assert (HQ : forall f out, sph_queue 1 t cf bodies14 f None [key_root] [(0%nat, [])] = Some out ->
    forall i nb, In (i, nb) out -> i = 0%nat /\ ~ In 1%nat nb).
  { assert (L2 : forall f out, sph_queue 1 t cf bodies14 f None [2; 3] [(0%nat, [])] = Some out ->
      forall i nb, In (i, nb) out -> i = 0%nat /\ ~ In 1%nat nb).
    { intros f out. destruct f as [|f]; [discriminate|]. cbn [sph_queue sph_level].
      assert (A2 : exists l, sph_cell 1 t cf bodies14 None 2 [(0%nat, [])] = Some ([], [(0%nat, l)]) /\ ~ In 1%nat l).
      { unfold sph_cell. rewrite Hc2, Hn2, He2. cbn [fst snd map app].
        destruct (within_distance2 _ _ _ _); [exists [0%nat]|exists []]; (split; [reflexivity|]); [intros [H|[]]; discriminate|intros []]. }
      destruct A2 as (l & A2 & Hl). rewrite A2. cbn [fst snd].
      assert (A3 : sph_cell 1 t cf bodies14 None 3 [(0%nat, l)] = Some ([], [(0%nat, l)])).
      { unfold sph_cell. rewrite Hc3, Hn3, Hs3. cbn [existsb fst]. change (N.to_nat 1) with 1%nat. rewrite Hcull. reflexivity. }
      rewrite A3. cbn [fst snd app]. destruct f; cbn [sph_queue]; intros Eo; injection Eo as <-;
        intros i nb [Hi|[]]; injection Hi as <- <-; auto. }
    intros f out. destruct f as [|f]; [discriminate|]. cbn [sph_queue sph_level].
    assert (A1 : sph_cell 1 t cf bodies14 None key_root [(0%nat, [])] = Some ([2; 3], [(0%nat, [])]) \/
                 sph_cell 1 t cf bodies14 None key_root [(0%nat, [])] = Some ([], [(0%nat, [])])).
    { unfold sph_cell. change key_root with 1. rewrite Hc1, Hn1, Hs1, Hemp1, Hk1. destruct (existsb _ _); auto. }
    destruct A1 as [A1|A1]; rewrite A1; cbn [fst snd app].
    - apply L2.
    - destruct f; cbn [sph_queue]; intros Eo; injection Eo as <-; intros i nb [Hi|[]]; injection Hi as <- <-; auto. }
  (* the traversal *)
  assert (Hf14 : (size 1 [(1%N, root)] <= fuel)%nat) by apply le_n.
  destruct (cells_ok 1 Hdim t cf bodies14 Hm sub_entities_limit fuel 1 root Hok Hf14) as (tcells & Ec & HPc).
  assert (Ecov : cov 1 sub_entities_limit 1 root = [(2, Leaf 0); (3, T14)]).
  { unfold root. rewrite cov_kids.
    - unfold kids. cbn [map flat_map fst snd cov app]. rewrite app_nil_r. f_equal.
      change (1 * 2 ^ 1 + 1) with 3. rewrite ET. cbn [cov]. change (leaves (Node k0 ch0)) with (leaves (Node k0 ch0)).
      rewrite <- ET, ELT. reflexivity.
    - fold root. rewrite EL. reflexivity. }
  rewrite Ecov in HPc. cbn [map fst] in HPc.
  destruct (traversal_sph_ok 1 Hdim t cf bodies14 Hm Hr root Hok fuel Hf14) as (out & Eo & HPo & _).
  rewrite EL in HPo.
  destruct (target_ok 1 Hdim t cf bodies14 Hm Hr root Hok fuel 2 (Leaf 0) Hk2) as (o2 & E2 & P2 & _); [|exact Hf14|].
  { unfold fuel, root. rewrite (size_cons 1 (1%N, _)). cbn [fst snd]. rewrite size_node. unfold kids. cbn [map fst snd].
    rewrite !(size_cons 1). cbn [fst snd]. cbn [cells length]. lia. }
  destruct (target_ok 1 Hdim t cf bodies14 Hm Hr root Hok fuel 3 T14 Hk3) as (o3 & E3 & P3 & _); [|exact Hf14|].
  { unfold fuel, root. rewrite (size_cons 1 (1%N, _)). cbn [fst snd]. rewrite size_node. unfold kids. cbn [map fst snd].
    rewrite !(size_cons 1). cbn [fst snd]. change (1 * 2 ^ 1 + 1) with 3. rewrite ?ET. lia. }
  assert (Hout : forall x, In x out -> In x o2 \/ In x o3).
  { intros x Hx. unfold traversal_sph in Eo. change key_root with 1 in Eo. rewrite Ec in Eo.
    apply Permutation_sym, Permutation_length_2_inv in HPc. destruct HPc as [-> | ->]; cbn [sph_targets] in Eo; rewrite E2, E3 in Eo;
      injection Eo as <-; rewrite ?app_nil_r in Hx; apply in_app_or in Hx; tauto. }
  assert (H0 : exists nb, In (0%nat, nb) out).
  { assert (H : In 0%nat (map fst out)) by (apply (Permutation_in _ (Permutation_sym HPo)); apply in_seq; lia).
    apply in_map_iff in H. destruct H as ([i nb] & Ei & H). cbn in Ei. subst i. eauto. }
  destruct H0 as (nb & H0).
  exists ks14, bodies14, st, mx, fuel, out, 0%nat, nb, 1%nat.
  split; [assumption|]. split; [assumption|]. split; [assumption|]. split; [assumption|]. split; [assumption|].
  split; [exact E|]. split; [exact Eo|]. split; [exact H0|]. split; [vm_compute; lia|]. split.
  - unfold pos, rad. change (get_body bodies14 0) with (mkbody (fun _ => 0%R) 1 (1 / 100)).
    change (get_body bodies14 1) with (mkbody (fun _ => (1 / 2 + INR 0 / 512)%R) 1 (8 / 10)). cbn [b_pos b_rad INR].
    rewrite dist_1. rewrite Rabs_left by lra. unfold Rmax. destruct (Rle_dec _ _); lra.
  - destruct (Hout _ H0) as [H|H].
    + unfold sph_target in E2. rewrite Hc2, Hn2, He2 in E2. cbn [fst] in E2. apply (HQ fuel o2 E2 0%nat nb H).
    + exfalso. apply (in_map fst) in H. cbn [fst] in H. apply (Permutation_in _ P3) in H. rewrite ELT in H. apply in_seq in H. lia.
Qed.

(** Concrete cases: the configuration of C14 also meets the hypotheses of C12
    and C13. *)
Example C12_C13_case : dim_ok 1 /\ ks14 <> [] /\ StronglySorted N.lt ks14 /\ Forall (full_key 1) ks14 /\
  length bodies14 = length ks14 /\ (forall b, In b bodies14 -> (0 < b_mass b)%R /\ (0 <= b_rad b)%R).
Proof.
  split; [left; reflexivity|]. destruct ks14_ok as (H1 & H2 & H3). repeat split; auto.
  - destruct (bodies14_in b H) as [->|(i & _ & ->)]; cbn; lra.
  - destruct (bodies14_in b H) as [->|(i & _ & ->)]; cbn; lra.
Qed.

Print Assumptions C12_radius_search_exact.
Print Assumptions C13_sph_neighbours.
Print Assumptions C14_within_larger_radius_refuted.
