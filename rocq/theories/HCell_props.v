(** Property C08: the fields of the packed cell word are independent. *)
From Verif Require Import Base Key_proofs Morton_qproofs HCell_model.
Local Open Scope N_scope.

(** The setter calls a program can make on a cell. *)
Inductive op : Type :=
| AddChild (c : N) | SetShared | SetRequested | UnsetRequested | SetRecv (n : N).

Definition exec1 (dim w : N) (o : op) : N :=
  match o with
  | AddChild c => add_child w c
  | SetShared => set_shared dim w
  | SetRequested => set_requested dim w
  | UnsetRequested => unset_requested dim w
  | SetRecv n => set_nchildren_to_receive dim w n
  end.
Definition exec (dim : N) (os : list op) : N := fold_left (exec1 dim) os hcell_new.

(** Admissible arguments: child numbers below 2^dim, counters at most 15. *)
Definition op_ok (dim : N) (o : op) : Prop :=
  match o with AddChild c => c < 2 ^ dim | SetRecv n => n < 16 | _ => True end.

(** Specification by the history of calls (latest call last). *)
Definition was_added (os : list op) (c : N) : bool :=
  existsb (fun o => match o with AddChild c' => c' =? c | _ => false end) os.
Definition was_shared (os : list op) : bool :=
  existsb (fun o => match o with SetShared => true | _ => false end) os.
Fixpoint last_requested (os : list op) (b : bool) : bool :=
  match os with
  | [] => b
  | SetRequested :: r => last_requested r true
  | UnsetRequested :: r => last_requested r false
  | _ :: r => last_requested r b
  end.
Fixpoint last_recv (os : list op) (n : N) : N :=
  match os with
  | [] => n
  | SetRecv m :: r => last_recv r m
  | _ :: r => last_recv r n
  end.
Definition children (dim : N) (os : list op) : list N :=
  filter (was_added os) (map N.of_nat (seq 0 (N.to_nat (2 ^ dim)))).

(** ** Proofs *)

Definition bits_ok (dim w : N) (ch : N -> bool) (sh rq : bool) (n : N) : Prop :=
  forall i, N.testbit w i =
    if i <? 2 ^ dim then ch i
    else if i =? 2 ^ dim then false
    else if i =? 2 ^ dim + 1 then sh
    else if i =? 2 ^ dim + 2 then rq
    else N.testbit n (i - (2 ^ dim + 3)).

Ltac cases_i := repeat match goal with |- context [if ?a <? ?b then _ else _] => destruct (N.ltb_spec a b)
   | |- context [if ?a =? ?b then _ else _] => destruct (N.eqb_spec a b) end.

Lemma testbit_shiftl_gen a n i : N.testbit (N.shiftl a n) i = if i <? n then false else N.testbit a (i - n).
Proof.
  destruct (N.ltb_spec i n).
  - apply N.shiftl_spec_low. assumption.
  - apply N.shiftl_spec_high'. assumption.
Qed.

Lemma testbit_1 i : N.testbit 1 i = (i =? 0).
Proof. destruct i as [|[p|p|]]; reflexivity. Qed.
Lemma testbit_2 i : N.testbit 2 i = (i =? 1).
Proof. destruct i as [|[p|[p|p|]|]]; reflexivity. Qed.
Lemma testbit_3 i : N.testbit 3 i = ((i =? 0) || (i =? 1)).
Proof. destruct i as [|[p|[p|p|]|]]; reflexivity. Qed.
Lemma testbit_15 i : N.testbit 15 i = (i <? 4).
Proof.
  change 15 with (N.ones 4). destruct (N.ltb_spec i 4).
  - apply N.ones_spec_low; assumption.
  - apply N.ones_spec_high; assumption.
Qed.

Lemma testbit_small n i : n < 16 -> 4 <= i -> N.testbit n i = false.
Proof.
  intros Hn Hi.
  destruct (N.eq_dec n 0) as [->|]; [apply N.bits_0|].
  apply N.bits_above_log2. apply N.log2_lt_pow2; [lia|].
  apply N.lt_le_trans with (2 ^ 4); [assumption|]. apply N.pow_le_mono_r; lia.
Qed.

Lemma exec1_ok dim w ch sh rq n o : op_ok dim o -> n < 16 -> bits_ok dim w ch sh rq n ->
  bits_ok dim (exec1 dim w o)
    (fun i => ch i || match o with AddChild c => c =? i | _ => false end)
    (sh || match o with SetShared => true | _ => false end)
    (match o with SetRequested => true | UnsetRequested => false | _ => rq end)
    (match o with SetRecv m => m | _ => n end).
Proof.
  intros Ho Hn H i. pose proof (H i) as Hi.
  pose proof (pow2_pos dim) as P.
  destruct o as [c| | | |m]; cbn [op_ok] in Ho; cbn [exec1];
    unfold add_child, set_shared, set_requested, unset_requested, set_nchildren_to_receive,
      locality_mask, requested_mask, nchild_recv_mask, locality_displ, requested_displ, nchild_recv_displ;
    rewrite ?N.lor_spec, ?N.ldiff_spec, ?testbit_shiftl_gen, ?N.shiftl_1_l, Hi;
    rewrite ?N.pow2_bits_eqb, ?testbit_3, ?testbit_2, ?testbit_1, ?testbit_15.
  - destruct (N.eqb_spec c i); cases_i; try lia; rewrite ?orb_false_r, ?orb_true_r; try reflexivity.
  - cases_i; try lia; rewrite ?orb_false_r, ?andb_true_r; try reflexivity.
  - cases_i; try lia; rewrite ?orb_false_r, ?andb_true_r; try reflexivity.
  - cases_i; try lia; rewrite ?orb_false_r, ?andb_true_r; try reflexivity.
  - cases_i; try lia; rewrite ?orb_false_r, ?andb_true_r; try reflexivity.
    destruct (N.ltb_spec (i - (2 ^ dim + 3)) 4); cbn.
    + rewrite andb_false_r. reflexivity.
    + rewrite andb_true_r, testbit_small by lia. reflexivity.
Qed.

Lemma bits_ok_ext dim w ch ch' sh rq n :
  (forall i, ch i = ch' i) -> bits_ok dim w ch sh rq n -> bits_ok dim w ch' sh rq n.
Proof. intros E H i. rewrite (H i), E. reflexivity. Qed.

Lemma exec_from_ok dim os : Forall (op_ok dim) os -> forall w ch sh rq n, n < 16 -> bits_ok dim w ch sh rq n ->
  bits_ok dim (fold_left (exec1 dim) os w) (fun i => ch i || was_added os i) (sh || was_shared os)
    (last_requested os rq) (last_recv os n) /\ last_recv os n < 16.
Proof.
  induction 1 as [|o os Ho Hos IH]; intros w ch sh rq n Hn H.
  - split; [|exact Hn]. cbn. rewrite orb_false_r. eapply bits_ok_ext; [|exact H].
    intros i. rewrite orb_false_r. reflexivity.
  - cbn [fold_left].
    pose proof (exec1_ok dim w ch sh rq n o Ho Hn H) as H1.
    assert (Hn1 : match o with SetRecv m => m | _ => n end < 16) by (destruct o; assumption).
    destruct (IH _ _ _ _ _ Hn1 H1) as [A B].
    split.
    + assert (E1 : last_requested (o :: os) rq = last_requested os (match o with SetRequested => true | UnsetRequested => false | _ => rq end))
        by (destruct o; reflexivity).
      assert (E2 : last_recv (o :: os) n = last_recv os (match o with SetRecv m => m | _ => n end))
        by (destruct o; reflexivity).
      rewrite E1, E2. unfold was_shared. cbn [existsb].
      rewrite orb_assoc. eapply bits_ok_ext; [|exact A].
      intros i. unfold was_added. cbn [existsb]. rewrite orb_assoc. reflexivity.
    + destruct o; exact B.
Qed.

Lemma exec_ok dim os : Forall (op_ok dim) os ->
  bits_ok dim (exec dim os) (was_added os) (was_shared os) (last_requested os false) (last_recv os 0)
  /\ last_recv os 0 < 16.
Proof.
  intros H. unfold exec.
  apply (exec_from_ok dim os H hcell_new (fun _ => false) false false 0); [lia|].
  intros i. unfold hcell_new. rewrite !N.bits_0. cases_i; reflexivity.
Qed.

Lemma get_child_testbit w c : get_child w c = N.testbit w c.
Proof. unfold get_child. rewrite land_pow2_zero, negb_involutive. reflexivity. Qed.

Lemma nchildren_loop_filter n w : nchildren_loop n w = N.of_nat (length (filter (N.testbit w) (map N.of_nat (seq 0 n)))).
Proof.
  induction n as [|n IH]; [reflexivity|].
  rewrite seq_S, map_app, filter_app, app_length. cbn [nchildren_loop map filter Nat.add].
  rewrite IH, get_child_testbit. destruct (N.testbit w (N.of_nat n)); cbn; lia.
Qed.

(** C08.  After any sequence of admissible setter calls on a new cell, every
    getter returns what the history of calls on its own field says. *)
Theorem C08_cell_flags dim os : dim_ok dim -> Forall (op_ok dim) os ->
  (forall c, c < 2 ^ dim -> get_child (exec dim os) c = was_added os c) /\
  is_shared dim (exec dim os) = was_shared os /\
  requested dim (exec dim os) = last_requested os false /\
  nchildren_to_receive dim (exec dim os) = last_recv os 0 /\
  nchildren dim (exec dim os) = N.of_nat (length (children dim os)) /\
  has_child dim (exec dim os) = negb (N.of_nat (length (children dim os)) =? 0).
Proof.
  intros Hdim Hos. destruct (exec_ok dim os Hos) as [H Hn]. set (w := exec dim os) in *.
  pose proof (pow2_pos dim) as P.
  assert (Hc : forall c, c < 2 ^ dim -> N.testbit w c = was_added os c).
  { intros c Hc. rewrite (H c). replace (c <? 2 ^ dim) with true by lia. reflexivity. }
  assert (Hnc : nchildren dim w = N.of_nat (length (children dim os))).
  { unfold nchildren, children. rewrite nchildren_loop_filter, N.shiftl_1_l. do 2 f_equal.
    apply filter_ext_in. intros a Ha. apply in_map_iff in Ha. destruct Ha as (x & <- & Hx).
    apply in_seq in Hx. apply Hc. lia. }
  repeat split.
  - intros c Hcc. rewrite get_child_testbit. apply Hc. assumption.
  - unfold is_shared, locality_mask, locality_displ. rewrite N.shiftl_1_l.
    assert (E : N.shiftr (N.land w (N.shiftl 3 (2 ^ dim))) (2 ^ dim) = 2 * N.b2n (was_shared os)).
    { apply N.bits_inj. intros i. rewrite N.shiftr_spec', N.land_spec, testbit_shiftl_gen, testbit_3.
      rewrite (H (i + 2 ^ dim)).
      replace (2 * N.b2n (was_shared os)) with (N.shiftl (N.b2n (was_shared os)) 1)
        by (rewrite N.shiftl_mul_pow2; lia).
      rewrite testbit_shiftl_gen.
      replace (i + 2 ^ dim <? 2 ^ dim) with false by lia.
      replace (i + 2 ^ dim - 2 ^ dim) with i by lia.
      destruct (N.eqb_spec i 0) as [->|]; [replace (0 + 2 ^ dim =? 2 ^ dim) with true by lia; reflexivity|].
      replace (i + 2 ^ dim =? 2 ^ dim) with false by lia.
      replace (i <? 1) with false by lia.
      destruct (N.eqb_spec i 1) as [->|].
      - replace (1 + 2 ^ dim =? 2 ^ dim + 1) with true by lia. rewrite andb_true_r.
        destruct (was_shared os); reflexivity.
      - rewrite andb_false_r. destruct (was_shared os); [|symmetry; apply N.bits_0].
        cbn [N.b2n]. rewrite testbit_1. lia. }
    rewrite E. destruct (was_shared os); reflexivity.
  - unfold requested, requested_mask, requested_displ.
    rewrite land_pow2_zero, negb_involutive, N.shiftl_1_l, (H _).
    replace (2 ^ dim + 2 <? 2 ^ dim) with false by lia.
    replace (2 ^ dim + 2 =? 2 ^ dim) with false by lia.
    replace (2 ^ dim + 2 =? 2 ^ dim + 1) with false by lia.
    rewrite N.eqb_refl. reflexivity.
  - unfold nchildren_to_receive, nchild_recv_displ. rewrite N.shiftl_1_l.
    apply N.bits_inj. intros i. rewrite N.land_spec, N.shiftr_spec', testbit_15, (H _).
    replace (i + (2 ^ dim + 3) <? 2 ^ dim) with false by lia.
    replace (i + (2 ^ dim + 3) =? 2 ^ dim) with false by lia.
    replace (i + (2 ^ dim + 3) =? 2 ^ dim + 1) with false by lia.
    replace (i + (2 ^ dim + 3) =? 2 ^ dim + 2) with false by lia.
    replace (i + (2 ^ dim + 3) - (2 ^ dim + 3)) with i by lia.
    destruct (N.ltb_spec i 4); [apply andb_true_r|]. rewrite testbit_small by assumption. reflexivity.
  - exact Hnc.
  - rewrite <- Hnc. unfold has_child. f_equal.
    rewrite land_mask, N.shiftl_1_l.
    unfold nchildren. rewrite nchildren_loop_filter, N.shiftl_1_l.
    destruct (N.eqb_spec (w mod 2 ^ 2 ^ dim) 0) as [E|E].
    + replace (filter _ _) with (@nil N); [reflexivity|].
      symmetry.
      destruct (filter (N.testbit w) _) as [|a l] eqn:F; [reflexivity|]. exfalso.
      assert (Ha : In a (a :: l)) by (left; reflexivity). rewrite <- F in Ha.
      apply filter_In in Ha. destruct Ha as [Ha Hb]. apply in_map_iff in Ha.
      destruct Ha as (x & <- & Hx). apply in_seq in Hx.
      rewrite <- (N.mod_pow2_bits_low w (2 ^ dim)) in Hb by lia. rewrite E, N.bits_0 in Hb. discriminate.
    + symmetry. apply N.eqb_neq. intros E'. apply E.
      assert (F : filter (N.testbit w) (map N.of_nat (seq 0 (N.to_nat (2 ^ dim)))) = []).
      { destruct (filter _ _); [reflexivity|]. cbn in E'. lia. }
      apply N.bits_inj. intros i. rewrite N.bits_0.
      destruct (N.lt_ge_cases i (2 ^ dim)) as [Hi|Hi].
      * rewrite N.mod_pow2_bits_low by assumption.
        destruct (N.testbit w i) eqn:T; [|reflexivity]. exfalso.
        assert (In i (filter (N.testbit w) (map N.of_nat (seq 0 (N.to_nat (2 ^ dim)))))) as I.
        { apply filter_In. split; [|exact T]. apply in_map_iff. exists (N.to_nat i).
          split; [lia|]. apply in_seq. lia. }
        rewrite F in I. destruct I.
      * apply N.mod_pow2_bits_high. assumption.
Qed.

(** A node is reported empty exactly when it has no child or is still waiting
    for children. *)
Theorem C08_empty_node dim os : dim_ok dim -> Forall (op_ok dim) os ->
  (is_empty_node dim (exec dim os) = true <->
   children dim os = [] \/ N.of_nat (length (children dim os)) < last_recv os 0).
Proof.
  intros Hd Ho. destruct (C08_cell_flags dim os Hd Ho) as (_ & _ & _ & A & B & C).
  unfold is_empty_node. rewrite A, B, C.
  destruct (children dim os); cbn [length]; split; intros H; try (left; reflexivity).
  - reflexivity.
  - right. apply orb_true_iff in H. destruct H as [H|H]; [|apply N.ltb_lt; exact H].
    cbn in H. discriminate.
  - destruct H as [H|H]; [discriminate|]. apply orb_true_iff. right. apply N.ltb_lt. exact H.
Qed.

Example C08_case :
  let os := [AddChild 3; SetRecv 5; SetRequested; SetShared; AddChild 7; UnsetRequested; SetRecv 2] in
  Forall (op_ok 3) os /\ exec 3 os = 4744 /\ nchildren 3 (exec 3 os) = 2
  /\ is_empty_node 3 (exec 3 os) = false.
Proof. cbn zeta. split; [repeat constructor|]. vm_compute. repeat split; reflexivity. Qed.

Print Assumptions C08_cell_flags.
Print Assumptions C08_empty_node.
