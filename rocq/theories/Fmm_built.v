(** The FMM traversal of the tree built from sorted keys. *)
From Coq Require Import Sorted Permutation.
From Verif Require Import Base Key_model Key_spec Key_proofs HCell_model HCell_props BuildTree_model BuildTree_spec BuildTree_lemmas
  BuildTree_inv BuildTree_proofs BuildTree_shape BuildTree_props Vec Geometry_model Geometry_props Cofm_model Cofm_spec Cofm_proofs
  Search_model Search_proofs Search_sph Search_props Gravity_model Fmm_model Fmm_spec Fmm_proofs Fmm_calls Fmm_exec.
Local Open Scope N_scope.
Local Notation up := BuildTree_spec.up.

Section Built.
Variables (dim lob hib : N) (ks : list N) (bodies : list body) (MAC : R).
Hypothesis Hdim : dim_ok dim.
Hypothesis Hne : ks <> [].
Hypothesis Hs : StronglySorted N.lt ks.
Hypothesis Hf : Forall (full_key dim) ks.
Hypothesis Hlen : length bodies = length ks.
Hypothesis Hmass : forall b, In b bodies -> (0 < b_mass b)%R.
Notation root := (canon dim (N.to_nat (max_depth dim)) 1 (numbered ks)).
Notation n := (N.to_nat dim).
Notation tpair := ((N * tree) * (N * tree))%type.
Notation subs := (subs dim 1 root).

Lemma self_cov i (l : list (N * tree)) z : (nsum (cnt i) l <= 1)%nat -> In z (self_pairs l) -> fst z = snd z \/ cov i i z = 0%nat.
Proof.
  induction l as [|a l IH]; [intros _ []|]. rewrite nsum_cons. intros Hle Hz. cbn [self_pairs] in Hz. destruct Hz as [<-|Hz]; [left; reflexivity|].
  apply in_app_or in Hz. destruct Hz as [Hz|Hz]; [|apply IH; [lia|assumption]]. right.
  apply in_flat_map in Hz. destruct Hz as (b & Hb & Hz).
  assert (cnt i b <= nsum (cnt i) l)%nat.
  { clear - Hb. induction l as [|c l IH]; [destruct Hb|]. rewrite nsum_cons. destruct Hb as [->|Hb]; [lia|]. apply IH in Hb. lia. }
  destruct Hz as [<-|[<-|[]]]; unfold cov; cbn [fst snd]; nia.
Qed.

Record fmm_run (t : table) (cofms : list cofm) (Dn : list tpair) (calls : list call) : Prop := {
  fr_sub : forall z, In z Dn -> In (fst z) subs /\ In (snd z) subs;
  fr_ok : forall z, In z Dn -> okt dim t cofms bodies (fst z) /\ okt dim t cofms bodies (snd z);
  fr_acc : forall z, In z Dn -> accepted dim t cofms bodies MAC z;
  fr_sep : forall z i, In z Dn -> fst (fst z) <> fst (snd z) -> cov i i z = 0%nat;
  fr_calls : exists X cs, calls = flat_map calls_of Dn ++ cs ++ flat_map ppcall Dn /\ Forall2 is_c2p X cs /\
    Forall (fun x => okt dim t cofms bodies x /\ isleaf x = false) X /\ NoDup (map fst X) /\
    (forall z, In z Dn -> isleaf (fst z) = false -> In (fst z) X) }.

Definition fuel0 : nat := 2 * size dim [(1, root)].

Lemma fmm_built : exists st mx, build_tree cofm (fcc_cofm n bodies) dim true true lob hib ks = Some (st, mx) /\
  okt dim (st_tab st) (st_cofm st) bodies (1, root) /\
  forall fuel, (fuel0 <= fuel)%nat -> exists calls,
    traversal_fmm dim (st_tab st) (st_cofm st) bodies MAC fuel = Some calls /\
    fmm_run (st_tab st) (st_cofm st) (gqueue dim (st_tab st) (st_cofm st) bodies MAC fuel [((1, root), (1, root))]) calls.
Proof using Hdim Hne Hs Hf Hlen Hmass.
  destruct (built_root dim lob hib ks bodies Hdim Hne Hs Hf Hlen) as (st & mx & E & Hok & EL).
  exists st, mx. split; [exact E|]. split; [exact Hok|]. intros fuel Hfuel.
  pose proof (full_keys_full dim ks Hf) as Hf'.
  pose proof (root_kfat dim Hdim ks Hs Hf') as Hk.
  destruct (traversal_fmm_ok dim Hdim (st_tab st) (st_cofm st) bodies MAC Hmass root Hok Hk fuel Hfuel) as (X & cs & ET & HX & HF & HD).
  set (Dn := gqueue dim (st_tab st) (st_cofm st) bodies MAC fuel [((1, root), (1, root))]) in *.
  rewrite Forall_forall in HD. eexists. split; [exact ET|]. constructor.
  - intros z Hz. destruct (HD z Hz) as (H1 & H2 & _). exact (conj H1 H2).
  - intros z Hz. destruct (HD z Hz) as (_ & _ & H1 & H2). exact (conj H1 H2).
  - pose proof (gqueue_accepted dim (st_tab st) (st_cofm st) bodies MAC fuel [((1, root), (1, root))]) as HA. fold Dn in HA.
    rewrite Forall_forall in HA. exact HA.
  - intros z i Hz Hne'.
    assert (G : Forall (fun z => (fst z = snd z \/ cov i i z = 0%nat) /\ (In (fst z) subs /\ In (snd z) subs)) Dn).
    + apply (gqueue_ind dim (st_tab st) (st_cofm st) bodies MAC); [|constructor; [|constructor]].
      * intros [x y] z' [H0 [H1 H2]] Hz'. cbn [fst snd] in H0, H1, H2.
        assert (SUB : forall x y, In x subs -> In y (kidsof dim x) -> In y subs) by (intros; eapply subs_kids; eauto).
        assert (OK : forall x, In x subs -> okt dim (st_tab st) (st_cofm st) bodies x).
        { intros x' Hx'. apply (sub_ok dim Hdim (st_tab st) (st_cofm st) bodies Hmass (1, root)); [assumption|exact Hx']. }
        assert (LE : forall x, In x subs -> (cnt i x <= 1)%nat).
        { intros x' Hx'. unfold cnt. apply (proj1 (NoDup_count_occ Nat.eq_dec _)). apply (below_nodup dim Hdim ks). apply (below_subs dim Hdim ks Hs Hf'). exact Hx'. }
        unfold gnew in Hz'. destruct (isleaf x && isleaf y) eqn:Ell; [destruct Hz'|].
        destruct (N.eqb_spec (fst x) (fst y)) as [Ek|Ek].
        -- pose proof (okt_inj dim (st_tab st) (st_cofm st) bodies x y (OK x H1) (OK y H2) Ek) as <-. rewrite andb_diag in Ell.
           pose proof (self_pairs_in _ _ Hz') as [S1 S2]. split; [|split; eapply SUB; eauto].
           apply (self_cov i (kidsof dim x)); [|assumption]. rewrite <- cnt_kids by assumption. apply LE. assumption.
        -- destruct H0 as [H0|H0]; [congruence|].
           assert (KC : forall x k, isleaf x = false -> In k (kidsof dim x) -> (cnt i k <= cnt i x)%nat).
           { intros x' k Hl Hk'. rewrite (cnt_kids dim i x' Hl). clear - Hk'. induction (kidsof dim x') as [|c l IH]; [destruct Hk'|].
             rewrite nsum_cons. destruct Hk' as [->|Hk']; [lia|]. apply IH in Hk'. lia. }
           assert (NL : forall x k, In k (kidsof dim x) -> isleaf x = false).
           { intros [p [j|k0 ch]] k; [intros []|reflexivity]. }
           destruct (mac _ _ _ _ _ _); [destruct Hz'|]. unfold cov in *. cbn [fst snd] in H0.
           destruct (Rltb _ _); apply in_map_iff in Hz'; destruct Hz' as (k & <- & Hk'); cbn [fst snd].
           ++ split; [|split; [eapply SUB; [|exact Hk']; assumption|assumption]]. right. pose proof (KC x k (NL x k Hk') Hk'). nia.
           ++ split; [|split; [assumption|eapply SUB; [|exact Hk']; assumption]]. right. pose proof (KC y k (NL y k Hk') Hk'). nia.
      * cbn [fst snd]. split; [left; reflexivity|]. split; apply subs_self.
    + rewrite Forall_forall in G. destruct (proj1 (G z Hz)) as [Q|Q]; [|exact Q]. exfalso. apply Hne'. rewrite Q. reflexivity.
  - exists X, cs. split; [reflexivity|]. split; [exact HF|]. split; [|split].
    + apply Forall_forall. intros x Hx. apply (Permutation_in _ HX) in Hx. apply filter_In in Hx. destruct Hx as [H1 H2]. split.
      * apply (sub_ok dim Hdim (st_tab st) (st_cofm st) bodies Hmass (1, root)); assumption.
      * unfold hit in H2. apply andb_true_iff in H2. apply negb_true_iff. tauto.
    + apply (Permutation_NoDup (l := map fst (filter (hit (flat_map calls_of Dn)) (subs' dim (1, root))))).
      * apply Permutation_map, Permutation_sym, HX.
      * assert (Hnd : NoDup (map fst (subs' dim (1, root)))).
        { unfold subs'. cbn [fst snd]. rewrite subs_keys. apply cells_nodup; [assumption|lia|]. rewrite N2Nat.id. unfold at_level.
          rewrite N.sub_diag, N.pow_0_r. lia. }
        clear - Hnd. induction (subs' dim (1, root)) as [|a l IH]; [constructor|]. cbn [filter]. inversion Hnd as [|? ? H1 H2]; subst.
        destruct (hit _ a); [|auto]. cbn [map]. constructor; [|auto]. intros H. apply H1. apply in_map_iff in H.
        destruct H as (b & <- & Hb). apply filter_In in Hb. apply in_map. tauto.
    + intros z Hz Hl. apply (Permutation_in _ (Permutation_sym HX)). apply filter_In. split; [apply (HD z Hz)|].
      unfold hit. rewrite Hl. cbn [negb andb]. unfold affected. apply existsb_exists.
      destruct z as [[p [i|k ch]] [p' [j|k' ch']]]; cbn [fst snd isleaf] in *; try discriminate.
      * exists (C_p2c p j). split; [|apply N.eqb_refl]. apply in_flat_map. eexists. split; [exact Hz|]. left. reflexivity.
      * exists (C_c2c p p'). split; [|apply N.eqb_refl]. apply in_flat_map. eexists. split; [exact Hz|]. left. reflexivity.
Qed.

Hypothesis Hdist : forall i j, (i < length bodies)%nat -> (j < length bodies)%nat -> i <> j ->
  ~ peq n (b_pos (get_body bodies i)) (b_pos (get_body bodies j)).

Lemma fmm_covers st : okt dim (st_tab st) (st_cofm st) bodies (1, root) ->
  forall fuel, (fuel0 <= fuel)%nat -> forall i j, (i < length ks)%nat -> (j < length ks)%nat ->
  nsum (cov i j) (gqueue dim (st_tab st) (st_cofm st) bodies MAC fuel [((1, root), (1, root))]) = 1%nat.
Proof using Hdim Hs Hf Hlen Hmass Hdist.
  intros Hok fuel Hfuel i j Hi Hj. pose proof (full_keys_full dim ks Hf) as Hf'.
  rewrite (cov_queue dim Hdim (st_tab st) (st_cofm st) bodies MAC Hmass Hdist).
  - unfold nsum, cov, cnt. cbn [map fst snd list_sum fold_right]. rewrite (leaves_root dim Hdim ks Hs Hf').
    assert (C : forall m, (m < length ks)%nat -> count_occ Nat.eq_dec (seq 0 (length ks)) m = 1%nat).
    { intros m Hm. pose proof (proj1 (NoDup_count_occ Nat.eq_dec _) (seq_NoDup (length ks) 0) m).
      assert (Hin : In m (seq 0 (length ks))) by (apply in_seq; lia). apply (count_occ_In Nat.eq_dec) in Hin. lia. }
    rewrite !C by assumption. reflexivity.
  - constructor; [|constructor]. unfold okp. cbn [fst snd]. pose proof (root_kfat dim Hdim ks Hs Hf').
    split; [assumption|]. split; [assumption|]. split; [assumption|]. split; [assumption|]. congruence.
  - constructor; [|constructor]. unfold psize, fuel0 in *. cbn [fst snd]. rewrite size_cons in Hfuel. cbn [fst snd] in Hfuel. lia.
Qed.
End Built.
