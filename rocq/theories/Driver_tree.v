(** The neighbour lists of the driver's passes come from the tree: the number
    of steps given to the traversal does not matter, and the lists cover every
    pair inside the kernel support, however the particles are labelled. *)
From Verif Require Import Base Key_model Key_spec BuildTree_model BuildTree_spec BuildTree_inv BuildTree_props Vec Geometry_model Cofm_model Cofm_spec
  Cofm_proofs Search_model Search_proofs Search_sph Search_props Kernel_model Sph_model Sph_props SphTree_props Driver_model.
From Coq Require Import Permutation Sorted.

Section Fuel.
Context (dim : N) (t : table) (cofms : list cofm) (bodies : list body).

Lemma walk_mono {A} func : forall f1 f2 stk (acc : A) r, (f1 <= f2)%nat ->
  walk dim t f1 func stk acc = Some r -> walk dim t f2 func stk acc = Some r.
Proof.
  induction f1 as [|f1 IH]; intros f2 [|c stk] acc r Hle H; destruct f2 as [|f2]; cbn in *; try assumption; try discriminate; try lia.
  destruct (tfind t c) as [x|]; [|discriminate]. destruct (func c x acc) as [[b a]|]; [|discriminate]. cbn [fst snd] in *.
  destruct b.
  - destruct (child_keys dim t c (c_word x) (digits dim)) as [ds|]; [|discriminate]. eapply IH; [|exact H]. lia.
  - eapply IH; [|exact H]. lia.
Qed.

Lemma queue_mono cur : forall f1 f2 q nbs r, (f1 <= f2)%nat ->
  sph_queue dim t cofms bodies f1 cur q nbs = Some r -> sph_queue dim t cofms bodies f2 cur q nbs = Some r.
Proof.
  induction f1 as [|f1 IH]; intros f2 [|c q] nbs r Hle H; destruct f2 as [|f2]; cbn [sph_queue] in *; try assumption; try discriminate; try lia.
  destruct (sph_level dim t cofms bodies cur (c :: q) nbs) as [x|]; [|discriminate]. eapply IH; [|exact H]. lia.
Qed.

Lemma target_mono f1 f2 k r : (f1 <= f2)%nat ->
  sph_target dim t cofms bodies f1 k = Some r -> sph_target dim t cofms bodies f2 k = Some r.
Proof.
  intros Hle. unfold sph_target. destruct (tfind t k) as [c|]; [|discriminate]. destruct (is_node c) as [[|]|]; [| |discriminate].
  - destruct (walk dim t f1 (group_func dim bodies) [k] []) as [es|] eqn:E; [|discriminate].
    rewrite (walk_mono _ _ _ _ _ _ Hle E). destruct (get_node cofms c); [|discriminate]. apply queue_mono, Hle.
  - destruct (get_entity bodies c); [|discriminate]. apply queue_mono, Hle.
Qed.

Lemma targets_mono f1 f2 ks : forall r, (f1 <= f2)%nat ->
  sph_targets dim t cofms bodies f1 ks = Some r -> sph_targets dim t cofms bodies f2 ks = Some r.
Proof.
  induction ks as [|k ks IH]; intros r Hle H; cbn [sph_targets] in *; [exact H|].
  destruct (sph_target dim t cofms bodies f1 k) as [x|] eqn:E; [|discriminate]. rewrite (target_mono _ _ _ _ Hle E).
  destruct (sph_targets dim t cofms bodies f1 ks) as [y|]; [|discriminate]. rewrite (IH y Hle eq_refl). exact H.
Qed.

Lemma traversal_mono f1 f2 r : (f1 <= f2)%nat ->
  traversal_sph dim t cofms bodies f1 = Some r -> traversal_sph dim t cofms bodies f2 = Some r.
Proof.
  intros Hle. unfold traversal_sph. destruct (walk dim t f1 _ [key_root] []) as [c|] eqn:E; [|discriminate].
  rewrite (walk_mono _ _ _ _ _ _ Hle E). apply targets_mono, Hle.
Qed.

Lemma traversal_fuel f1 f2 r1 r2 :
  traversal_sph dim t cofms bodies f1 = Some r1 -> traversal_sph dim t cofms bodies f2 = Some r2 -> r1 = r2.
Proof.
  intros H1 H2. destruct (Nat.le_ge_cases f1 f2) as [L|L].
  - apply (traversal_mono _ _ _ L) in H1. congruence.
  - apply (traversal_mono _ _ _ L) in H2. congruence.
Qed.
End Fuel.

(** The bodies as the tree sees them, in the order [sigma] of their sorted
    keys (tree_types.h L132-140, entities of the tree: position, mass and
    smoothing length). *)
Definition tree_body (b : dbody) : body := mkbody (p_pos (d_p b)) (p_m (d_p b)) (p_h (d_p b)).

(** [nb i] is what the traversal of the tree of [s] hands to the pass for the
    particle [i]; labels are positions in [s], the tree counts bodies in key
    order. *)
Definition tree_lists (dim : N) (N : nat) (s : nat -> dbody) (nb : nat -> list nat) : Prop :=
  (forall i, (i < N)%nat -> (0 < p_m (d_p (s i)))%R) /\
  exists sigma lob hib ks st mx fuel out,
    Permutation sigma (seq 0 N) /\
    length ks = N /\ StronglySorted N.lt ks /\ Forall (full_key dim) ks /\
    let bodies := map (fun i => tree_body (s i)) sigma in
    build_tree cofm (fcc_cofm (N.to_nat dim) bodies) dim true true lob hib ks = Some (st, mx) /\
    traversal_sph dim (st_tab st) (st_cofm st) bodies fuel = Some out /\
    forall a l, In (a, l) out -> nb (nth a sigma 0%nat) = map (fun e => nth e sigma 0%nat) l.

(** Every particle not listed is further away than the mean smoothing length. *)
Lemma tree_lists_far dim N s nb : dim_ok dim -> (0 < N)%nat -> tree_lists dim N s nb ->
  (forall i, (i < N)%nat -> (0 < p_h (d_p (s i)))%R) ->
  forall i, (i < N)%nat -> NoDup (nb i) /\ (forall j, In j (nb i) -> (j < N)%nat) /\
    (forall j, (j < N)%nat -> ~ In j (nb i) ->
      ((p_h (d_p (s i)) + p_h (d_p (s j))) / 2 < norm (N.to_nat dim) (vsub (p_pos (d_p (s i))) (p_pos (d_p (s j)))))%R).
Proof.
  intros Hd HN (Hm & sigma & lob & hib & ks & st & mx & fuel & out & Hs & Hl & Hsort & Hf & E & Et & Hnb) Hh.
  set (bodies := map (fun i => tree_body (s i)) sigma) in *.
  assert (Ls : length sigma = N) by (rewrite (Permutation_length Hs); apply seq_length).
  assert (Lb : length bodies = N) by (unfold bodies; rewrite map_length; exact Ls).
  assert (Hin : forall a, (a < N)%nat -> (nth a sigma 0 < N)%nat).
  { intros a Ha. assert (I : In (nth a sigma 0%nat) (seq 0 N)) by (apply (Permutation_in _ Hs), nth_In; lia). apply in_seq in I. lia. }
  assert (Hb : forall a, (a < N)%nat -> get_body bodies a = tree_body (s (nth a sigma 0%nat))).
  { intros a Ha. unfold get_body, bodies. rewrite (nth_indep _ dummy_body (tree_body (s 0%nat))) by (rewrite map_length; lia).
    rewrite (map_nth (fun i => tree_body (s i))). reflexivity. }
  destruct (C13_sph_neighbours dim lob hib ks bodies Hd) as (st' & mx' & fuel' & out' & E' & Et' & HP & HO); try assumption.
  { intro C. rewrite C in Hl. cbn in Hl. lia. }
  { congruence. }
  { intros b Hi. apply (In_nth _ _ dummy_body) in Hi. destruct Hi as (a & Ha & <-). rewrite Lb in Ha.
    change (nth a bodies dummy_body) with (get_body bodies a). rewrite (Hb a Ha). cbn. split; [apply Hm, Hin, Ha|left; apply Hh, Hin, Ha]. }
  rewrite E in E'. injection E' as <- <-. pose proof (traversal_fuel _ _ _ _ _ _ _ _ Et' Et) as ->.
  assert (ND : NoDup sigma) by (eapply Permutation_NoDup; [apply Permutation_sym, Hs|apply seq_NoDup]).
  intros i Hi.
  assert (I : In i sigma) by (apply (Permutation_in _ (Permutation_sym Hs)), in_seq; lia).
  apply (In_nth _ _ 0%nat) in I. destruct I as (a & Ha & <-). rewrite Ls in Ha.
  assert (Io : exists l, In (a, l) out).
  { assert (J : In a (map fst out)) by (apply (Permutation_in _ (Permutation_sym HP)), in_seq; lia).
    apply in_map_iff in J. destruct J as ([x l] & <- & J). exists l. exact J. }
  destruct Io as (l & Io). rewrite (Hnb a l Io). destruct (HO a l Io) as (N1 & N2 & N3). split; [|split].
  - assert (B : forall e, In e l -> (e < N)%nat) by (intros e He; specialize (N2 e He); lia). clear - N1 B ND Ls.
    induction N1 as [|e l He _ IH]; [constructor|]. cbn [map]. constructor; [|apply IH; intros x Hx; apply B; right; exact Hx].
    intro J. apply in_map_iff in J. destruct J as (x & Hx & Jx). apply He.
    enough (x = e) by (subst; exact Jx). apply (proj1 (NoDup_nth sigma 0%nat) ND); [| |exact Hx]; rewrite Ls; apply B; cbn; auto.
  - intros j Hj. apply in_map_iff in Hj. destruct Hj as (e & <- & He). apply Hin. specialize (N2 e He). lia.
  - intros j Hj Hnot.
    assert (Ij : In j sigma) by (apply (Permutation_in _ (Permutation_sym Hs)), in_seq; lia).
    apply (In_nth _ _ 0%nat) in Ij. destruct Ij as (e & He & <-). rewrite Ls in He.
    rewrite <- dist_norm. destruct (Rle_lt_dec (dist (N.to_nat dim) (p_pos (d_p (s (nth a sigma 0%nat)))) (p_pos (d_p (s (nth e sigma 0%nat)))))
      ((p_h (d_p (s (nth a sigma 0%nat))) + p_h (d_p (s (nth e sigma 0%nat)))) / 2)) as [L|L]; [|exact L].
    exfalso. apply Hnot. apply (in_map (fun e => nth e sigma 0%nat)). apply N3; [lia|].
    unfold pos, rad. rewrite (Hb a Ha), (Hb e He). exact L.
Qed.
Lemma tree_lists_ok dim N s nb : dim_ok dim -> (0 < N)%nat -> tree_lists dim N s nb ->
  (forall i, (i < N)%nat -> (0 < p_h (d_p (s i)))%R) -> lists_ok (N.to_nat dim) N (fun i => d_p (s i)) nb.
Proof.
  intros Hd HN Hl Hh i Hi. destruct (tree_lists_far dim N s nb Hd HN Hl Hh i Hi) as (A & B & C).
  split; [exact A|]. split; [exact B|]. intros j Hj Hn. apply Rlt_le, C; assumption.
Qed.
