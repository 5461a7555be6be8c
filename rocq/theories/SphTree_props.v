(** The neighbour lists found by the tree traversal satisfy the hypothesis of
    the conservation theorems. *)
From Coquelicot Require Import Coquelicot.
From Verif Require Import Base Key_model Key_spec Key_proofs HCell_model HCell_props BuildTree_model BuildTree_spec BuildTree_lemmas
  BuildTree_inv BuildTree_proofs BuildTree_shape BuildTree_props Vec Geometry_model Cofm_model Cofm_spec Cofm_proofs Search_model
  Search_proofs Search_sph Search_props
  Kernel_model Sph_model Sph_props.
From Coq Require Import Permutation Sorted.
Local Open Scope R_scope.

Lemma dist_norm n a b : dist n a b = norm n (vsub a b).
Proof. reflexivity. Qed.

Definition agree (bodies : list body) (p : nat -> part) : Prop :=
  forall i, (i < length bodies)%nat -> p_pos (p i) = pos bodies i /\ p_h (p i) = rad bodies i.

(** Tree built over the bodies, neighbour search by traversal_sph, then the
    acceleration of every particle from its list: the momentum and the energy
    balance hold. *)
Theorem C35_tree_lists dim lob hib ks bodies pr p (ext : nat -> point) :
  dim_ok dim -> ks <> [] -> StronglySorted N.lt ks -> Forall (full_key dim) ks -> length bodies = length ks ->
  (forall b, In b bodies -> 0 < b_mass b /\ 0 < b_rad b) -> agree bodies p ->
  exists st mx fuel out nb,
    build_tree cofm (fcc_cofm (N.to_nat dim) bodies) dim true true lob hib ks = Some (st, mx) /\
    traversal_sph dim (st_tab st) (st_cofm st) bodies fuel = Some out /\
    Permutation out (map (fun i => (i, nb i)) (seq 0 (length bodies))) /\
    lists_ok (N.to_nat dim) (length bodies) p nb /\
    (forall k, sumn (length bodies) (fun i => p_m (p i) * acceleration pr (N.to_nat dim) (ext i) (p i) (nbs p nb i) k) =
       sumn (length bodies) (fun i => p_m (p i) * ext i k)) /\
    sumn (length bodies) (fun i => p_m (p i) * (dudt pr (N.to_nat dim) false (p i) (nbs p nb i) +
       dot (N.to_nat dim) (p_vel (p i)) (acceleration pr (N.to_nat dim) vzero (p i) (nbs p nb i)))) = 0.
Proof.
  intros Hdim Hne Hs Hf Hlen Hb Ha.
  destruct (C13_sph_neighbours dim lob hib ks bodies Hdim Hne Hs Hf Hlen) as (st & mx & fuel & out & E & Eo & HP & HO).
  { intros b Hin. destruct (Hb b Hin). split; lra. }
  set (nb := fun i => match find (fun t => Nat.eqb (fst t) i) out with Some t => snd t | None => [] end).
  assert (Hnb : Forall (fun t => t = (fst t, nb (fst t))) out).
  { assert (ND : NoDup (map fst out)) by (eapply Permutation_NoDup; [apply Permutation_sym, HP|apply seq_NoDup]).
    unfold nb. clear - ND. apply Forall_forall. intros [i l] Hin. cbn [fst]. f_equal.
    induction out as [|[j m] out IH]; [destruct Hin|]. cbn [find fst]. cbn [map fst] in ND. inversion ND; subst.
    destruct Hin as [Heq|Hin].
    - injection Heq as -> ->. rewrite Nat.eqb_refl. reflexivity.
    - destruct (Nat.eqb_spec j i) as [->|_]; [|apply IH; assumption].
      exfalso. apply H1. apply in_map_iff. exists (i, l). auto. }
  assert (HM : out = map (fun i => (i, nb i)) (map fst out)).
  { clearbody nb. clear - Hnb. induction out as [|t out IH]; [reflexivity|]. inversion Hnb; subst. cbn [map].
    f_equal; [assumption|apply IH; assumption]. }
  assert (HI : forall i, (i < length bodies)%nat -> In (i, nb i) out).
  { intros i Hi. rewrite HM. apply in_map_iff. exists i. split; [reflexivity|].
    apply (Permutation_in i (Permutation_sym HP)). apply in_seq. lia. }
  assert (LO : lists_ok (N.to_nat dim) (length bodies) p nb).
  { intros i Hi. destruct (HO i (nb i) (HI i Hi)) as (H1 & H2 & H3). split; [exact H1|]. split.
    - intros j Hj. apply H2, Hj.
    - intros j Hj Hnot. destruct (Ha i Hi) as (-> & ->). destruct (Ha j Hj) as (-> & ->).
      rewrite <- dist_norm. destruct (Rle_lt_dec (dist (N.to_nat dim) (pos bodies i) (pos bodies j)) ((rad bodies i + rad bodies j) / 2)) as [L|L];
        [|lra]. exfalso. apply Hnot. apply H3; assumption. }
  assert (Hn : (1 <= N.to_nat dim <= 3)%nat) by (unfold dim_ok in Hdim; lia).
  assert (Hr : forall i, (i < length bodies)%nat -> 0 < p_h (p i)).
  { intros i Hi. destruct (Ha i Hi) as (_ & ->). unfold rad.
    apply Hb. unfold get_body. apply nth_In, Hi. }
  exists st, mx, fuel, out, nb. split; [exact E|]. split; [exact Eo|]. split.
  { rewrite HM at 1. apply Permutation_map, HP. }
  split; [exact LO|]. split.
  - intro k. apply C35_momentum; assumption.
  - apply C36_energy_balance; assumption.
Qed.

Print Assumptions C35_tree_lists.
