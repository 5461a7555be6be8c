(** Property C11: node summaries. *)
From Coq Require Import Sorted Permutation.
From Verif Require Import Base Key_model BuildTree_model BuildTree_spec BuildTree_lemmas BuildTree_inv BuildTree_shape
  BuildTree_props Vec Cofm_model Cofm_spec Cofm_proofs.
Local Open Scope N_scope.

(** Every summary in a tree of any shape. *)
Theorem C11_any_tree n bodies tr s :
  (forall i, In i (leaves tr) -> (0 < b_mass (get_body bodies i))%R) ->
  eval (fcc_cofm n bodies) tr = inr s -> summary_ok n s (map (get_body bodies) (leaves tr)).
Proof. apply eval_ok. Qed.

Lemma SS_app {A} {R : A -> A -> Prop} a b : StronglySorted R (a ++ b) -> StronglySorted R a /\ StronglySorted R b.
Proof.
  induction a as [|x a IH]; cbn; intros H; [split; [constructor|assumption]|].
  inversion H; subst. destruct (IH H2). split; [|assumption]. constructor; [assumption|].
  apply Forall_app in H3. tauto.
Qed.

(** Every node that a process finishes in build_tree (all nodes on one process,
    see C09_rank_part for which nodes in general): its summary is the summary of
    the particles whose key lies below the node. *)
Theorem C11_built_nodes dim lo hi iam0 iamlast lobound hibound ks bodies :
  dim_ok dim -> ks <> [] -> length bodies = length ks -> (forall b, In b bodies -> (0 < b_mass b)%R) ->
  let all := match lo with Some x => [x] | None => [] end ++ ks ++ match hi with Some x => [x] | None => [] end in
  StronglySorted N.lt all -> Forall (full_key dim) all ->
  (iam0 = true /\ lo = None) \/ (iam0 = false /\ lo = Some lobound) ->
  (iamlast = true /\ hi = None) \/ (iamlast = false /\ hi = Some hibound) ->
  let n := N.to_nat dim in
  exists st mx, build_tree cofm (fcc_cofm n bodies) dim iam0 iamlast lobound hibound ks = Some (st, mx) /\
    forall r k c j, In k ks -> r <= max_depth dim -> tfind (st_tab st) (k / 2 ^ (r * dim)) = Some c -> c_node c = Some j ->
      exists s, nth_error (st_cofm st) j = Some s /\
        summary_ok n s (map snd (filter (fun x => fst x / 2 ^ (r * dim) =? k / 2 ^ (r * dim)) (combine ks bodies))).
Proof.
  intros Hdim Hne Hlen Hm all Hs Hf Hlo Hhi n.
  destruct (C09_rank_part dim cofm (fcc_cofm n bodies) lo hi iam0 iamlast lobound hibound ks Hdim Hne Hs Hf Hlo Hhi)
    as (st & mx & E & _ & HN).
  exists st, mx. split; [assumption|]. intros r k c j Hk Hr Hc Hj.
  destruct (HN r k c Hk Hr Hc) as [Hfin Hsum]. destruct (Hsum j Hj) as (s & Es & Ev). exists s. split; [assumption|].
  set (q := k / 2 ^ (r * dim)) in *.
  assert (Hs' : StronglySorted N.lt ks).
  { apply (SS_app _ _ (proj2 (SS_app _ _ Hs))). }
  assert (EL : leaves (canon dim (N.to_nat r) q (filter (fun x => snd x / 2 ^ (r * dim) =? q) (numbered ks))) =
               map fst (filter (fun x => snd x / 2 ^ (r * dim) =? q) (numbered ks))).
  { apply leaves_canon; auto.
    - rewrite N2Nat.id. assumption.
    - apply StronglySorted_filter, numbered_sorted, Hs'.
    - intros x Hx. apply filter_In in Hx. destruct Hx as [_ Hx]. rewrite N2Nat.id. apply N.eqb_eq in Hx. exact Hx.
    - intros E0. exfalso. assert (r = 0) by lia. subst r. rewrite Hj in Hfin.
      destruct (proj1 Hfin ltac:(discriminate)) as ([H0|(k' & _ & Hkk & H0)] & _).
      + destruct Hdim as [->|[->| ->]]; discriminate H0.
      + apply Hkk. unfold q in H0. rewrite N.mul_0_l, N.pow_0_r, !N.div_1_r in H0. exact H0. }
  pose proof (eval_ok n bodies (canon dim (N.to_nat r) q (filter (fun x => snd x / 2 ^ (r * dim) =? q) (numbered ks))) s) as G.
  rewrite EL in G.
  assert (EB : map (get_body bodies) (map fst (filter (fun x => snd x / 2 ^ (r * dim) =? q) (numbered ks))) =
               map snd (filter (fun x => fst x / 2 ^ (r * dim) =? q) (combine ks bodies))).
  { clear - Hlen. revert Hlen. generalize q as q0. intros q0. unfold numbered.
    assert (A : forall ks0 pre suf, length suf = length ks0 ->
      map (get_body (pre ++ suf)) (map fst (filter (fun x => snd x / 2 ^ (r * dim) =? q0) (combine (seq (length pre) (length ks0)) ks0))) =
      map snd (filter (fun x => fst x / 2 ^ (r * dim) =? q0) (combine ks0 suf))).
    { induction ks0 as [|a ks0 IH]; intros pre suf HL; [destruct suf; [reflexivity|discriminate]|].
      destruct suf as [|b suf]; [discriminate|]. cbn [length seq combine filter fst snd].
      specialize (IH (pre ++ [b]) suf ltac:(cbn in HL; congruence)).
      rewrite app_length in IH. cbn [length] in IH. rewrite Nat.add_1_r, <- app_assoc in IH. cbn [app] in IH.
      destruct (a / 2 ^ (r * dim) =? q0); cbn [map fst snd]; [|exact IH]. f_equal; [|exact IH].
      unfold get_body. rewrite app_nth2 by lia. rewrite Nat.sub_diag. reflexivity. }
    intros Hlen. apply (A ks [] bodies Hlen). }
  rewrite EB in G. apply G; [|exact Ev].
  intros i Hi. apply Hm. apply in_map_iff in Hi. destruct Hi as ([i' k'] & <- & Hi). apply filter_In in Hi.
  destruct Hi as [Hi _]. unfold numbered in Hi. apply in_combine_l in Hi. apply in_seq in Hi.
  unfold get_body. apply nth_In. cbn [fst]. lia.
Qed.

(** A concrete case: a node above two particles on a line. *)
Example C11_case : let s := compute_cofm 1 [mkbody (fun _ => 0%R) 1 2; mkbody (fun _ => 4%R) 3 1] [] in
  (cm_mass s = 4 /\ cm_pos s 0%nat = 3 /\ cm_sub s = 2%nat /\ cm_min s 0%nat = -1 /\ cm_rad s = 3 /\ cm_lap s = 5)%R.
Proof.
  cbn [compute_cofm cm_mass cm_pos cm_sub cm_min cm_rad cm_lap fold_left b_mass b_pos b_rad].
  assert (E : ((0 + 1 * 0 + 3 * 4) / (0 + 1 + 3) = 3)%R) by field.
  assert (D0 : dist 1 (fun _ => ((0 + 1 * 0 + 3 * 4) / (0 + 1 + 3))%R) (fun _ => 0%R) = 3%R).
  { rewrite dist_1, E. rewrite Rabs_right; lra. }
  assert (D4 : dist 1 (fun _ => ((0 + 1 * 0 + 3 * 4) / (0 + 1 + 3))%R) (fun _ => 4%R) = 1%R).
  { rewrite dist_1, E. rewrite Rabs_left; lra. }
  rewrite D0, D4, E. repeat split; try lra.
  - assert (0 < dbl_max)%R.
    { unfold dbl_max. apply Rmult_lt_0_compat; [|apply pow_lt; lra].
      assert (/ 2 ^ 52 < 1)%R; [|lra]. rewrite <- Rinv_1. apply Rinv_lt_contravar; [rewrite Rmult_1_l; apply pow_lt; lra|].
      apply Rlt_pow_R1; [lra|lia]. }
    unfold Rmin. repeat (destruct (Rle_dec _ _)); lra.
  - unfold Rmax. repeat (destruct (Rle_dec _ _)); lra.
  - unfold Rmax. repeat (destruct (Rle_dec _ _)); lra.
Qed.

(** The hypotheses of C11_built_nodes are met by the keys of C09_case. *)
Example C11_built_case : let bs := repeat (mkbody vzero 1%R 1%R) 4 in
  length bs = length ks4 /\ (forall b, In b bs -> (0 < b_mass b)%R) /\ StronglySorted N.lt ks4 /\ Forall (full_key 2) ks4.
Proof.
  cbv zeta. split; [reflexivity|]. split; [|split; apply C09_case_sorted].
  intros b Hb. apply repeat_spec in Hb. subst b. cbn. lra.
Qed.

Print Assumptions C11_any_tree.
Print Assumptions C11_built_nodes.
