(** Properties C09, C10, C19 and C64: the tree built by build_tree. *)
From Coq Require Import Sorted Permutation.
From Verif Require Import Base Key_model Key_spec Key_proofs HCell_model
  BuildTree_model BuildTree_spec BuildTree_lemmas BuildTree_inv BuildTree_proofs BuildTree_shape.
Local Open Scope N_scope.

(** A key of full depth: a leading one followed by max_depth child numbers. *)
Definition full_key (dim k : N) : Prop := 2 ^ (dim * max_depth dim) <= k < 2 * 2 ^ (dim * max_depth dim).

Lemma full_key_full dim k : full_key dim k <-> full dim k.
Proof.
  unfold full_key, full. rewrite N.pow_mul_r. reflexivity.
Qed.

Lemma full_keys_full dim ks : Forall (full_key dim) ks -> Forall (full dim) ks.
Proof. apply Forall_impl. intros. apply full_key_full. assumption. Qed.

Lemma build_single dim S fcc lob hib ks : dim_ok dim -> StronglySorted N.lt ks -> Forall (full_key dim) ks ->
  exists st mx, build_tree S fcc dim true true lob hib ks = Some (st, mx) /\
    Inv dim S fcc ks st ks ks (fun _ _ => True) /\ (ks <> [] -> mx = max_depth dim - 1).
Proof.
  intros Hdim Hs Hf.
  destruct (build_tree_inv dim Hdim S fcc ks None None) with (iam0 := true) (iamlast := true) (lobound := lob) (hibound := hib)
    as (st & mx & E & HI & Hmx); auto; try (cbn [optl app]; rewrite ?app_nil_r; auto).
  - apply full_keys_full. assumption.
  - discriminate.
  - cbn [optl app] in HI. rewrite app_nil_r in HI. exists st, mx. split; [assumption|]. split; [|auto].
    eapply Inv_ext; [exact HI|]. intros. cbn. tauto.
Qed.

(** C09: the table holds the canonical tree, nothing else, and each inner cell
    has its own summary, computed from its children. *)
Theorem C09_build_tree_canonical dim (S : Type) (fcc : N -> list nat -> list S -> S) lob hib ks :
  dim_ok dim -> ks <> [] -> StronglySorted N.lt ks -> Forall (full_key dim) ks ->
  exists st mx, build_tree S fcc dim true true lob hib ks = Some (st, mx) /\
    let tree := canon dim (N.to_nat (max_depth dim)) 1 (numbered ks) in
    holds fcc dim (st_tab st) (st_cofm st) 1 tree /\
    (forall q, tfind (st_tab st) q <> None <-> In q (cells dim 1 tree)) /\
    NoDup (cells dim 1 tree) /\
    (forall q q' c c' j, tfind (st_tab st) q = Some c -> tfind (st_tab st) q' = Some c' ->
       c_node c = Some j -> c_node c' = Some j -> q = q') /\
    (forall j, (j < length (st_cofm st))%nat -> exists q c, tfind (st_tab st) q = Some c /\ c_node c = Some j).
Proof.
  intros Hdim Hne Hs Hf. destruct (build_single dim S fcc lob hib ks Hdim Hs Hf) as (st & mx & E & HI & _).
  pose proof (sorted_nodup ks Hs) as Hnd. apply full_keys_full in Hf.
  exists st, mx. split; [assumption|]. cbv zeta.
  assert (Hh : holds fcc dim (st_tab st) (st_cofm st) 1 (canon dim (N.to_nat (max_depth dim)) 1 (numbered ks))).
  { eapply holds_root; eauto; intros; exact I. }
  split; [exact Hh|]. split; [|split; [|split]].
  - intros q. split.
    + intros Hq. destruct (tfind (st_tab st) q) as [c|] eqn:Ec; [|congruence].
      destruct (inv_sound _ _ _ _ _ _ _ _ HI q c Ec) as (r & Hr & Hex).
      assert (Hroot : up dim (max_depth dim - r) q = 1).
      { destruct Hex as [[-> ->]|(HrD & (k & Hk & <-) & _)].
        - rewrite N.sub_diag. apply up_0.
        - rewrite <- (up_up dim Hdim). replace (r + (max_depth dim - r)) with (max_depth dim) by lia.
          apply up_root; auto. rewrite Forall_forall in Hf. auto. }
      destruct (grp_root dim Hdim ks Hf Hne) as [Eg _]. rewrite <- Eg.
      destruct (N.eq_dec r (max_depth dim)) as [Er|Er].
      * assert (q = 1). { rewrite Er, N.sub_diag, up_0 in Hroot. assumption. } subst q.
        destruct (N.to_nat (max_depth dim)); cbn; left; reflexivity.
      * pose proof (cells_complete dim Hdim ks Hnd (N.to_nat (max_depth dim)) 1 r q) as G.
        rewrite N2Nat.id in G. apply G; auto; lia.
    + intros Hin. eapply holds_cells; eauto.
  - apply cells_nodup; auto; [lia|]. rewrite N2Nat.id. unfold at_level. rewrite N.sub_diag, N.pow_0_r. lia.
  - apply (inv_inj _ _ _ _ _ _ _ _ HI).
  - apply (inv_surj _ _ _ _ _ _ _ _ HI).
Qed.

(** The same, without the canonical tree: which cells exist and what they hold. *)
Theorem C09_cells_exactly dim (S : Type) (fcc : N -> list nat -> list S -> S) lob hib ks :
  dim_ok dim -> ks <> [] -> StronglySorted N.lt ks -> Forall (full_key dim) ks ->
  exists st mx, build_tree S fcc dim true true lob hib ks = Some (st, mx) /\
    (forall q, tfind (st_tab st) q <> None <->
       q = 1 \/ exists r k, r < max_depth dim /\ In k ks /\ q = k / 2 ^ (r * dim) /\
         (r + 1 = max_depth dim \/
          exists k', In k' ks /\ k' <> k /\ k' / 2 ^ ((r + 1) * dim) = k / 2 ^ ((r + 1) * dim))) /\
    (forall q c i, tfind (st_tab st) q = Some c -> c_ent c = Some i ->
       exists r k, nth_error ks i = Some k /\ q = k / 2 ^ (r * dim) /\
         forall k', In k' ks -> k' / 2 ^ (r * dim) = q -> k' = k) /\
    (forall q c, tfind (st_tab st) q = Some c -> (c_node c = None <-> c_ent c <> None)).
Proof.
  intros Hdim Hne Hs Hf. destruct (build_single dim S fcc lob hib ks Hdim Hs Hf) as (st & mx & E & HI & _).
  pose proof (sorted_nodup ks Hs) as Hnd. apply full_keys_full in Hf.
  exists st, mx. split; [assumption|]. split; [|split].
  - intros q. split.
    + intros Hq. destruct (tfind (st_tab st) q) as [c|] eqn:Ec; [|congruence].
      destruct (inv_sound _ _ _ _ _ _ _ _ HI q c Ec) as (r & Hr & [[_ ->]|(HrD & (k & Hk & <-) & Hi)]); [left; reflexivity|].
      right. exists r, k. repeat split; auto. destruct Hi as [Hi|(a & b & Ha & Hb & Hn & Ea & Eb)]; [left; assumption|].
      right. rewrite <- (up_S dim Hdim) in Ea, Eb. destruct (N.eq_dec a k) as [->|Hak].
      * exists b. auto.
      * exists a. auto.
    + intros H. assert (Hex : exists r, r <= max_depth dim /\ cell_ex dim ks ks r q).
      { destruct H as [->|(r & k & Hr & Hk & -> & H)].
        - exists (max_depth dim). split; [lia|]. left. auto.
        - exists r. split; [lia|]. right. split; [assumption|]. split; [exists k; auto|].
          change (k / 2 ^ (r * dim)) with (up dim r k). rewrite <- (up_S dim Hdim).
          destruct H as [H|(k' & Hk' & Hn & Ek')]; [left; assumption|]. right. exists k', k. auto. }
      destruct Hex as (r & Hr & Hex). destruct (inv_complete _ _ _ _ _ _ _ _ HI r q Hr Hex) as (c & Hc & _). congruence.
  - intros q c i Hq Hi. destruct (inv_sound _ _ _ _ _ _ _ _ HI q c Hq) as (r & Hr & Hex).
    destruct (inv_complete _ _ _ _ _ _ _ _ HI r q Hr Hex) as (c' & Hc' & He & _). rewrite Hq in Hc'. injection Hc' as <-.
    apply He in Hi. destruct Hi as (_ & Hm & k & Hk & Ek). exists r, k. split; [assumption|]. split; [symmetry; exact Ek|].
    intros k' Hk' Ek'. destruct (N.eq_dec k' k); [assumption|]. exfalso. apply Hm. exists k', k.
    repeat split; auto. eapply nth_error_In; eauto.
  - intros q c Hq. destruct (inv_sound _ _ _ _ _ _ _ _ HI q c Hq) as (r & Hr & Hex).
    destruct (inv_complete _ _ _ _ _ _ _ _ HI r q Hr Hex) as (c' & Hc' & He & _ & Hn). rewrite Hq in Hc'. injection Hc' as <-.
    assert (Hhas : has dim ks r q).
    { destruct Hex as [[-> ->]|(_ & H & _)]; [|assumption]. apply (grp_root dim Hdim ks Hf Hne). }
    destruct (internal_dec dim ks r q) as [Hi|Hi].
    + destruct (c_node c) as [j|].
      * split; [discriminate|]. intros H. exfalso. destruct (c_ent c) as [i|]; [|congruence].
        destruct (proj1 (He i) eq_refl) as (A & A' & _). destruct Hi; [lia|contradiction].
      * exfalso. apply Hn. auto.
    + destruct Hhas as (k & Hk & Ek). apply In_nth_error in Hk. destruct Hk as [i Hk].
      assert (c_ent c = Some i).
      { apply He. unfold internal in Hi. split; [lia|]. split; [tauto|]. eauto. }
      destruct (c_node c) as [j|]; [exfalso; apply Hi, Hn|]. split; [congruence|reflexivity].
Qed.

(** On a process with neighbours (lo: last key of the previous process, hi:
    first key of the next one, absent at the ends): the local cells exist below
    cells that hold several keys counting the neighbours' boundary keys, and
    exactly the inner cells that lie above no boundary key are finished. *)
Theorem C09_rank_part dim (S : Type) (fcc : N -> list nat -> list S -> S) lo hi iam0 iamlast lobound hibound ks :
  dim_ok dim -> ks <> [] ->
  let all := match lo with Some x => [x] | None => [] end ++ ks ++ match hi with Some x => [x] | None => [] end in
  StronglySorted N.lt all -> Forall (full_key dim) all ->
  (iam0 = true /\ lo = None) \/ (iam0 = false /\ lo = Some lobound) ->
  (iamlast = true /\ hi = None) \/ (iamlast = false /\ hi = Some hibound) ->
  exists st mx, build_tree S fcc dim iam0 iamlast lobound hibound ks = Some (st, mx) /\
    (forall q, tfind (st_tab st) q <> None <->
       q = 1 \/ exists r k, r < max_depth dim /\ In k ks /\ q = k / 2 ^ (r * dim) /\
         (r + 1 = max_depth dim \/
          exists k', In k' all /\ k' <> k /\ k' / 2 ^ ((r + 1) * dim) = k / 2 ^ ((r + 1) * dim))) /\
    (forall r k c, In k ks -> r <= max_depth dim -> tfind (st_tab st) (k / 2 ^ (r * dim)) = Some c ->
       let q := k / 2 ^ (r * dim) in
       (c_node c <> None <->
         (r = max_depth dim \/ exists k', In k' all /\ k' <> k /\ k' / 2 ^ (r * dim) = q) /\
         (forall x, lo = Some x -> x / 2 ^ (r * dim) <> q) /\
         (forall x, hi = Some x -> x / 2 ^ (r * dim) <> q)) /\
       (forall j, c_node c = Some j -> exists s, nth_error (st_cofm st) j = Some s /\
          eval fcc (canon dim (N.to_nat r) q (filter (fun x => snd x / 2 ^ (r * dim) =? q) (numbered ks))) = inr s)).
Proof.
  intros Hdim Hne all Hs Hf Hlo Hhi. apply full_keys_full in Hf.
  destruct (build_tree_inv dim Hdim S fcc ks lo hi Hs Hf iam0 iamlast lobound hibound Hlo Hhi (fun _ => Hne))
    as (st & mx & E & HI & _).
  exists st, mx. split; [assumption|].
  assert (Hin : forall k, In k ks -> In k all).
  { intros k Hk. unfold all. apply in_or_app. right. apply in_or_app. left. assumption. }
  assert (HfL : Forall (full dim) ks).
  { apply Forall_forall. intros k Hk. rewrite Forall_forall in Hf. apply Hf, Hin, Hk. }
  change (optl lo ++ ks ++ optl hi) with all in HI.
  split.
  - intros q. split.
    + intros Hq. destruct (tfind (st_tab st) q) as [c|] eqn:Ec; [|congruence].
      destruct (inv_sound _ _ _ _ _ _ _ _ HI q c Ec) as (r & Hr & [[_ ->]|(HrD & (k & Hk & <-) & Hi)]); [left; reflexivity|].
      right. exists r, k. repeat split; auto. destruct Hi as [Hi|(a & b & Ha & Hb & Hn & Ea & Eb)]; [left; assumption|].
      right. rewrite <- (up_S dim Hdim) in Ea, Eb. destruct (N.eq_dec a k) as [->|Hak].
      * exists b. auto.
      * exists a. auto.
    + intros H. assert (Hex : exists r, r <= max_depth dim /\ cell_ex dim all ks r q).
      { destruct H as [->|(r & k & Hr & Hk & -> & H)].
        - exists (max_depth dim). split; [lia|]. left. auto.
        - exists r. split; [lia|]. right. split; [assumption|]. split; [exists k; auto|].
          change (k / 2 ^ (r * dim)) with (up dim r k). rewrite <- (up_S dim Hdim).
          destruct H as [H|(k' & Hk' & Hn & Ek')]; [left; assumption|]. right. exists k', k. auto. }
      destruct Hex as (r & Hr & Hex). destruct (inv_complete _ _ _ _ _ _ _ _ HI r q Hr Hex) as (c & Hc & _). congruence.
  - intros r k c Hk Hr Hc q.
    assert (Hfk : full dim k) by (rewrite Forall_forall in HfL; auto).
    destruct (inv_sound _ _ _ _ _ _ _ _ HI _ _ Hc) as (r' & Hr' & Hex).
    assert (r' = r) as ->.
    { apply (level_unique dim Hdim r' r q); auto; [|apply up_range; auto].
      apply (cell_ex_level dim Hdim all ks); auto. }
    destruct (inv_complete _ _ _ _ _ _ _ _ HI r _ Hr Hex) as (c' & Hc' & He & _ & Hn). rewrite Hc in Hc'. injection Hc' as <-.
    fold q in Hn. assert (Hhas : has dim ks r q) by (exists k; auto).
    assert (Hint : internal dim all r q <-> (r = max_depth dim \/ exists k', In k' all /\ k' <> k /\ k' / 2 ^ (r * dim) = q)).
    { unfold internal. split.
      - intros [H|(a & b & Ha & Hb & Hab & Ea & Eb)]; [left; assumption|]. right.
        destruct (N.eq_dec a k) as [->|Hak]; [exists b; auto|exists a; auto].
      - intros [H|(k' & H1 & H2 & H3)]; [left; assumption|]. right. exists k', k. repeat split; auto. }
    assert (HP : (lo_free dim lo r q /\ match hi with Some x => up dim r x <> q | None => True end) <->
       (forall x, lo = Some x -> x / 2 ^ (r * dim) <> q) /\ (forall x, hi = Some x -> x / 2 ^ (r * dim) <> q)).
    { unfold lo_free, up. destruct lo as [x|], hi as [y|]; split; intros [H1 H2]; split; auto;
        try (intros z Ez; injection Ez as <-; assumption); try discriminate. }
    split.
    + rewrite <- Hint. rewrite <- HP. destruct (c_node c) as [j|].
      * split; [|discriminate]. intros _. split; apply Hn.
      * split; [congruence|]. intros [H1 H2]. exfalso. apply Hn. auto.
    + intros j Ej. rewrite Ej in Hn. destruct Hn as (_ & _ & _ & s & Hs' & Hsum). exists s. split; [assumption|exact Hsum].
Qed.

(** C10 *)
Theorem C10_traversal_visits_once dim (S : Type) (fcc : N -> list nat -> list S -> S) lob hib ks :
  dim_ok dim -> ks <> [] -> StronglySorted N.lt ks -> Forall (full_key dim) ks ->
  exists st mx fuel vis, build_tree S fcc dim true true lob hib ks = Some (st, mx) /\
    traversal fuel dim (st_tab st) (fun _ _ => true) [1] = Some vis /\
    NoDup vis /\ (forall q, In q vis <-> tfind (st_tab st) q <> None) /\
    Permutation (flat_map (fun q => match tfind (st_tab st) q with
                                    | Some c => match c_ent c with Some i => [i] | None => [] end
                                    | None => [] end) vis)
                (seq 0 (length ks)).
Proof.
  intros Hdim Hne Hs Hf.
  destruct (C09_build_tree_canonical dim S fcc lob hib ks Hdim Hne Hs Hf) as (st & mx & E & Hh & Hq & Hnd & _).
  apply full_keys_full in Hf.
  set (tree := canon dim (N.to_nat (max_depth dim)) 1 (numbered ks)) in *.
  destruct (traversal_ok dim Hdim fcc (st_tab st) (st_cofm st) (length (cells dim 1 tree)) [(1, tree)]) as (vis & Et & Hp).
  { constructor; [|constructor]. split; [exact Hh|]. cbn [fst snd]. exists (N.to_nat (max_depth dim)).
    rewrite N2Nat.id. split; [lia|]. split; [|right; eexists; reflexivity].
    unfold at_level. rewrite N.sub_diag, N.pow_0_r. lia. }
  { cbn [flat_map fst snd]. rewrite app_nil_r. lia. }
  cbn [flat_map fst snd] in Hp. rewrite app_nil_r in Hp.
  exists st, mx, (length (cells dim 1 tree)), vis. split; [assumption|]. split; [exact Et|].
  split; [apply (Permutation_NoDup (Permutation_sym Hp)); assumption|]. split.
  - intros q. rewrite Hq. split; apply Permutation_in; [|apply Permutation_sym]; assumption.
  - rewrite <- (leaves_root dim Hdim ks Hs Hf).
    change (Permutation (flat_map (ent_of (st_tab st)) vis) (leaves tree)).
    rewrite <- (ents_cells dim fcc (st_tab st) (st_cofm st) tree 1 Hh).
    apply Permutation_flat_map. assumption.
Qed.

(** C19: the reported depth does not depend on the tree at all. *)
Theorem C19_max_depth_constant dim (S : Type) (fcc : N -> list nat -> list S -> S) lob hib ks :
  dim_ok dim -> ks <> [] -> StronglySorted N.lt ks -> Forall (full_key dim) ks ->
  exists st, build_tree S fcc dim true true lob hib ks = Some (st, max_depth dim - 1).
Proof.
  intros Hdim Hne Hs Hf. destruct (build_single dim S fcc lob hib ks Hdim Hs Hf) as (st & mx & E & _ & Hmx).
  exists st. rewrite E, Hmx by assumption. reflexivity.
Qed.

Definition fcc0 (key : N) (es : list nat) (ns : list (list nat)) : list nat := es ++ concat ns.

(** depth of the cell with key q: 2^(dim d) <= q < 2^(dim d + 1) *)
Theorem C19_max_depth_refuted : exists dim ks st mx,
  dim_ok dim /\ ks <> [] /\ StronglySorted N.lt ks /\ Forall (full_key dim) ks /\
  build_tree (list nat) fcc0 dim true true 0 0 ks = Some (st, mx) /\
  (forall q c, tfind (st_tab st) q = Some c -> q < 2 * 2 ^ (dim * 1)) /\ 1 < mx.
Proof.
  exists 3, [2 ^ 63], (match build_tree (list nat) fcc0 3 true true 0 0 [2 ^ 63] with Some (s, _) => s | None => mkst [] [] end), 20.
  split; [right; right; reflexivity|]. split; [discriminate|]. split; [repeat constructor|].
  split; [repeat constructor; vm_compute; discriminate|]. split; [vm_compute; reflexivity|].
  split; [|reflexivity].
  set (st := match build_tree _ _ _ _ _ _ _ _ with Some (s, _) => s | None => _ end).
  assert (E : st_tab st = [(8, ent_cell 0); (1, mkcell 1 (Some 0%nat) None)]) by (vm_compute; reflexivity).
  rewrite E. intros q c. cbn [tfind].
  destruct (N.eqb_spec 8 q) as [<-|]; [reflexivity|]. destruct (N.eqb_spec 1 q) as [<-|]; [reflexivity|discriminate].
Qed.

(** C64: two particles with the same key break the construction (the inner loop
    shifts by 2^64 - 1 levels: undefined behaviour). *)
Theorem C64_equal_keys_refuted : exists dim ks, dim_ok dim /\ ks <> [] /\
  StronglySorted N.le ks /\ Forall (full_key dim) ks /\
  build_tree (list nat) fcc0 dim true true 0 0 ks = None.
Proof.
  exists 3, [2 ^ 63; 2 ^ 63]. split; [right; right; reflexivity|]. split; [discriminate|].
  split; [repeat constructor; lia|].
  split; [repeat constructor; vm_compute; discriminate|]. vm_compute. reflexivity.
Qed.

(** A concrete case: four particles in two dimensions, two of them together. *)
Definition ks4 : list N := [2 ^ 62; 2 ^ 62 + 1; 2 ^ 62 + 2 ^ 58; 2 ^ 62 + 3 * 2 ^ 60].
Example C09_case_sorted : StronglySorted N.lt ks4 /\ Forall (full_key 2) ks4 /\ ks4 <> [].
Proof. split; [|split]; [repeat constructor|repeat constructor; vm_compute; discriminate|discriminate]. Qed.
Example C09_case : exists st mx, build_tree (list nat) fcc0 2 true true 0 0 ks4 = Some (st, mx) /\
  length (st_tab st) = 35%nat /\ length (st_cofm st) = 31%nat /\ nth_error (st_cofm st) 30 = Some [3; 2; 0; 1]%nat /\ mx = 30.
Proof. eexists. eexists. split; [vm_compute; reflexivity|]. vm_compute. auto. Qed.
Example C10_case : match build_tree (list nat) fcc0 2 true true 0 0 ks4 with
  | Some (st, _) => match traversal 40 2 (st_tab st) (fun _ _ => true) [1] with Some v => length v | None => 0%nat end
  | None => 0%nat end = 35%nat.
Proof. vm_compute. reflexivity. Qed.
(** The middle of three processes: finished cells and an unfinished root. *)
Example C09_rank_case : match build_tree (list nat) fcc0 2 false false (2 ^ 62 + 1) (2 ^ 62 + 3 * 2 ^ 60)
    [2 ^ 62 + 2 ^ 60; 2 ^ 62 + 2 ^ 60 + 5; 2 ^ 62 + 2 ^ 61] with
  | Some (st, _) => (match tfind (st_tab st) 1 with Some c => c_node c | None => Some 9%nat end,
                     match tfind (st_tab st) 5 with Some c => match c_node c with Some j => nth_error (st_cofm st) j | None => None end | None => None end)
  | None => (Some 9%nat, None) end = (None, Some [0; 1]%nat).
Proof. vm_compute. reflexivity. Qed.

Print Assumptions C09_build_tree_canonical.
Print Assumptions C09_cells_exactly.
Print Assumptions C09_rank_part.
Print Assumptions C10_traversal_visits_once.
Print Assumptions C19_max_depth_constant.
Print Assumptions C19_max_depth_refuted.
Print Assumptions C64_equal_keys_refuted.
