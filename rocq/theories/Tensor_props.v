(** Properties C51 and C52: tensor storage and in-place arithmetic. *)
From Coq Require Import Permutation Sorted.
From Verif Require Import Base Tensor_model.

(** ** Counting: the number of multisets of size [r] from [n] values *)

Fixpoint P (r n : nat) : nat :=
  match r with
  | O => 1
  | S r' => (fix go n := match n with O => 0 | S n' => go n' + P r' (S n') end) n
  end.

Lemma P_S_O r : P (S r) 0 = 0.
Proof. reflexivity. Qed.

Lemma P_S_S r n : P (S r) (S n) = P (S r) n + P r (S n).
Proof. reflexivity. Qed.

Lemma P_0 n : P 0 n = 1.
Proof. reflexivity. Qed.

Lemma P_1 n : P 1 n = n.
Proof. induction n as [|n IH]; [reflexivity|]. rewrite P_S_S, IH, P_0. lia. Qed.

Lemma P_2 n : 2 * P 2 n = n * (n + 1).
Proof. induction n as [|n IH]; [reflexivity|]. rewrite P_S_S, P_1. nia. Qed.

Lemma P_3 n : 6 * P 3 n = n * (n + 1) * (n + 2).
Proof.
  induction n as [|n IH]; [reflexivity|].
  rewrite P_S_S. pose proof (P_2 (S n)). nia.
Qed.

Lemma P_4 n : 24 * P 4 n = n * (n + 1) * (n + 2) * (n + 3).
Proof.
  induction n as [|n IH]; [reflexivity|].
  rewrite P_S_S. pose proof (P_3 (S n)). nia.
Qed.

Lemma div_exact a b c : a <> 0 -> a * b = c -> c / a = b.
Proof. intros H <-. rewrite Nat.mul_comm. apply Nat.div_mul, H. Qed.

Lemma P_2_div n : n * (n + 1) / 2 = P 2 n.
Proof. apply div_exact; [lia|apply P_2]. Qed.
Lemma P_3_div n : n * (n + 1) * (n + 2) / 6 = P 3 n.
Proof. apply div_exact; [lia|apply P_3]. Qed.
Lemma P_4_div n : n * (n + 1) * (n + 2) * (n + 3) / 24 = P 4 n.
Proof. apply div_exact; [lia|apply P_4]. Qed.

(** The Pascal rule in the direction of the code's recursion. *)
Lemma P_step r n : S r * P (S r) n = n * P r (n + 1).
Proof.
  revert n. induction r as [|r IH]; intro n.
  - rewrite P_1, P_0. lia.
  - induction n as [|n IHn]; [rewrite P_S_O; lia|].
    rewrite P_S_S. rewrite Nat.mul_add_distr_l, IHn.
    pose proof (IH (S n)) as H1. pose proof (P_S_S r (S n)) as H2.
    replace (n + 1) with (S n) by lia. replace (S n + 1) with (S (S n)) in * by lia.
    rewrite H2. nia.
Qed.

Lemma pascal_number_P r n : pascal_number r n = P r n.
Proof.
  revert n. induction r as [|r IH]; intro n; [reflexivity|].
  change (pascal_number (S r) n) with (n * pascal_number r (n + 1) / S r).
  rewrite IH. apply div_exact; [lia|]. apply P_step.
Qed.

(** ** The combinatorial number system *)

Fixpoint cns (l : list nat) : nat :=
  match l with [] => 0 | a :: l' => P (length l) a + cns l' end.

Definition desc (l : list nat) := StronglySorted ge l.

Lemma P_mono r a b : a <= b -> P r a <= P r b.
Proof.
  destruct r as [|r]; [rewrite !P_0; lia|].
  induction 1 as [|b _ IH]; [lia|]. rewrite P_S_S. lia.
Qed.

Lemma cns_bound a l : desc (a :: l) -> cns (a :: l) < P (length (a :: l)) (S a).
Proof.
  revert a. induction l as [|b l IH]; intros a H.
  - cbn [cns length]. rewrite !P_1. lia.
  - inversion H as [|? ? H1 H2]; subst.
    pose proof (IH b H1) as IHb. inversion H2; subst.
    change (cns (a :: b :: l)) with (P (S (length (b :: l))) a + cns (b :: l)).
    change (length (a :: b :: l)) with (S (length (b :: l))).
    rewrite P_S_S. pose proof (P_mono (length (b :: l)) (S b) (S a)). lia.
Qed.

Lemma cns_inj l l' : desc l -> desc l' -> length l = length l' -> cns l = cns l' -> l = l'.
Proof.
  revert l'. induction l as [|a l IH]; intros [|b l'] H H' Hl E; try discriminate; [reflexivity|].
  injection Hl as Hl.
  pose proof (cns_bound a l H) as Ba. pose proof (cns_bound b l' H') as Bb.
  assert (Hab : a = b).
  { cbn [cns length] in *. rewrite Hl in *.
    destruct (Nat.lt_trichotomy a b) as [L|[L|L]]; [|exact L|].
    - pose proof (P_mono (S (length l')) (S a) b L). lia.
    - pose proof (P_mono (S (length l')) (S b) a L). lia. }
  subst b. f_equal. inversion H; inversion H'; subst. apply IH; auto.
  cbn [cns length] in E. rewrite Hl in E. lia.
Qed.

Lemma cns_surj r n c : c < P r n -> exists l, desc l /\ length l = r /\ Forall (fun x => x < n) l /\ cns l = c.
Proof.
  revert n c. induction r as [|r IH]; intros n c H.
  - rewrite P_0 in H. exists []. repeat split; [constructor|constructor|cbn; lia].
  - induction n as [|n IHn]; [rewrite P_S_O in H; lia|].
    destruct (Nat.lt_ge_cases c (P (S r) n)) as [L|L].
    + destruct (IHn L) as (l & H1 & H2 & H3 & H4). exists l. repeat split; auto.
      eapply Forall_impl; [|exact H3]. cbn; lia.
    + rewrite P_S_S in H.
      destruct (IH (S n) (c - P (S r) n)) as (l & H1 & H2 & H3 & H4); [lia|].
      exists (n :: l). repeat split.
      * constructor; [exact H1|]. eapply Forall_impl; [|exact H3]. cbn; lia.
      * cbn. lia.
      * constructor; [lia|exact H3].
      * cbn [cns length]. rewrite H2. lia.
Qed.

Lemma desc_perm l l' : desc l -> desc l' -> Permutation l l' -> l = l'.
Proof.
  revert l'. induction l as [|a l IH]; intros l' H H' Hp.
  - apply Permutation_nil in Hp. now subst.
  - destruct l' as [|b l']; [now apply Permutation_sym, Permutation_nil in Hp|].
    inversion H as [|? ? H1 H2]; inversion H' as [|? ? H1' H2']; subst.
    assert (a = b).
    { assert (In a (b :: l')) as [->|I] by (eapply Permutation_in; [exact Hp|now left]); [reflexivity|].
      assert (In b (a :: l)) as [->|I'] by (eapply Permutation_in; [symmetry; exact Hp|now left]); [reflexivity|].
      rewrite Forall_forall in H2, H2'. pose proof (H2 _ I'). pose proof (H2' _ I). lia. }
    subst b. f_equal. apply IH; auto. eapply Permutation_cons_inv, Hp.
Qed.

(** ** The code's index is the number of the sorted subscripts *)

Definition sorted_form (v : nat) (is : list nat) :=
  exists l, desc l /\ Permutation is l /\ v = cns l.

Lemma desc_cons a l : desc l -> Forall (fun x => x <= a) l -> desc (a :: l).
Proof. intros. constructor; assumption. Qed.

Lemma sym2_form i j : sorted_form (symindx2 i j) [i; j].
Proof.
  unfold symindx2. rewrite !P_2_div. destruct (j <? i) eqn:E.
  - exists [i; j]. split; [|split; [reflexivity|]]; [|cbn [cns length]; rewrite P_1; lia].
    do 2 (apply desc_cons; [|repeat constructor; lia]). constructor.
  - exists [j; i]. split; [|split; [apply perm_swap|]]; [|cbn [cns length]; rewrite P_1; lia].
    do 2 (apply desc_cons; [|repeat constructor; lia]). constructor.
Qed.

Lemma extend_form a v is is' :
  sorted_form v is -> Permutation (a :: is) is' -> Forall (fun x => x <= a) is ->
  sorted_form (P (S (length is)) a + v) is'.
Proof.
  intros (l & H1 & H2 & H3) Hp Hf. exists (a :: l). split; [|split].
  - apply desc_cons; [exact H1|]. now rewrite <- H2.
  - rewrite <- Hp. now constructor.
  - cbn [cns length]. rewrite (Permutation_length H2). lia.
Qed.

Lemma sym3_form i j k : sorted_form (symindx3 i j k) [i; j; k].
Proof.
  unfold symindx3. rewrite !P_3_div.
  destruct ((j <=? i) && (k <=? i)) eqn:E1; [|destruct ((i <=? j) && (k <=? j)) eqn:E2].
  - apply (extend_form i _ [j; k]); [apply sym2_form|reflexivity|repeat constructor; lia].
  - apply (extend_form j _ [i; k]); [apply sym2_form|apply perm_swap|repeat constructor; lia].
  - apply (extend_form k _ [i; j]); [apply sym2_form| |repeat constructor; lia].
    apply (Permutation_cons_append [i; j] k).
Qed.

Lemma sym4_form i j k l : sorted_form (symindx4 i j k l) [i; j; k; l].
Proof.
  unfold symindx4. rewrite !P_4_div.
  destruct ((j <=? i) && (k <=? i) && (l <=? i)) eqn:E1;
    [|destruct ((i <=? j) && (k <=? j) && (l <=? j)) eqn:E2;
    [|destruct ((i <=? k) && (j <=? k) && (l <=? k)) eqn:E3]].
  - apply (extend_form i _ [j; k; l]); [apply sym3_form|reflexivity|repeat constructor; lia].
  - apply (extend_form j _ [i; k; l]); [apply sym3_form|apply perm_swap|repeat constructor; lia].
  - apply (extend_form k _ [i; j; l]); [apply sym3_form| |repeat constructor; lia].
    apply (Permutation_middle [i; j] [l] k).
  - apply (extend_form l _ [i; j; k]); [apply sym3_form| |repeat constructor; lia].
    apply (Permutation_cons_append [i; j; k] l).
Qed.

Lemma multiindex_form r d is v :
  multiindex symmetric (repeat d r) is = Some v -> length is = r /\ sorted_form v is.
Proof.
  unfold multiindex. rewrite repeat_length.
  destruct r as [|[|[|[|[|r]]]]]; try discriminate;
    destruct is as [|i [|j [|k [|l [|]]]]]; try discriminate; intros [= <-];
    (split; [reflexivity|]); [apply sym2_form|apply sym3_form|apply sym4_form].
Qed.

Lemma multiindex_some r d is :
  2 <= r <= 4 -> length is = r -> exists v, multiindex symmetric (repeat d r) is = Some v.
Proof.
  intros Hr Hl. unfold multiindex. rewrite repeat_length.
  destruct r as [|[|[|[|[|r]]]]]; try lia;
    destruct is as [|i [|j [|k [|l [|]]]]]; try discriminate; eexists; reflexivity.
Qed.

(** ** C51: symmetric storage *)

(** Two components of a symmetric tensor of rank 2, 3 or 4 share a storage
    cell exactly when their subscripts are permutations of each other. *)
Theorem C51_cells_are_classes r d is js :
  2 <= r <= 4 -> length is = r -> length js = r ->
  exists u v, multiindex symmetric (repeat d r) is = Some u /\
    multiindex symmetric (repeat d r) js = Some v /\
    (u = v <-> Permutation is js).
Proof.
  intros Hr Hi Hj.
  destruct (multiindex_some r d is Hr Hi) as (u & Eu).
  destruct (multiindex_some r d js Hr Hj) as (v & Ev).
  exists u, v. split; [exact Eu|]. split; [exact Ev|].
  destruct (multiindex_form _ _ _ _ Eu) as (_ & l & Hl1 & Hl2 & ->).
  destruct (multiindex_form _ _ _ _ Ev) as (_ & m & Hm1 & Hm2 & ->).
  split.
  - intro E. apply cns_inj in E; [|assumption..|].
    + subst m. rewrite Hl2. now symmetry.
    + rewrite <- (Permutation_length Hl2), <- (Permutation_length Hm2). congruence.
  - intro Hp. f_equal. apply desc_perm; auto. now rewrite <- Hl2, <- Hm2.
Qed.

(** Every component lies inside the storage and every cell is used. *)
Theorem C51_cells_all_used r d :
  2 <= r <= 4 ->
  (forall is, length is = r -> Forall (fun i => i < d) is ->
     exists v, multiindex symmetric (repeat d r) is = Some v /\
       v < size symmetric (repeat d r)) /\
  (forall c, c < size symmetric (repeat d r) ->
     exists is, length is = r /\ Forall (fun i => i < d) is /\
       multiindex symmetric (repeat d r) is = Some c).
Proof.
  intro Hr.
  assert (Hs : size symmetric (repeat d r) = P r d).
  { destruct r as [|r]; [lia|]. cbn [repeat]. unfold size.
    change (d :: repeat d r) with (repeat d (S r)). rewrite repeat_length.
    apply pascal_number_P. }
  split.
  - intros is Hl Hf. destruct (multiindex_some r d is Hr Hl) as (v & Ev).
    exists v. split; [exact Ev|].
    destruct (multiindex_form _ _ _ _ Ev) as (_ & l & Hl1 & Hl2 & ->).
    rewrite Hs. rewrite Hl2 in Hf. pose proof (Permutation_length Hl2) as HL.
    destruct l as [|a l]; [cbn in *; lia|].
    pose proof (cns_bound a l Hl1) as B. inversion Hf; subst.
    rewrite HL. pose proof (P_mono (length (a :: l)) (S a) d). lia.
  - intros c Hc. rewrite Hs in Hc.
    destruct (cns_surj r d c Hc) as (l & H1 & H2 & H3 & H4).
    destruct (multiindex_some r d l Hr H2) as (v & Ev).
    exists l. split; [exact H2|]. split; [exact H3|]. rewrite Ev. f_equal.
    destruct (multiindex_form _ _ _ _ Ev) as (_ & m & Hm1 & Hm2 & ->).
    rewrite <- H4. f_equal. apply desc_perm; auto. now symmetry.
Qed.

(** The size is the number of multisets: sizes 3, 6, 10 for rank 2 … *)
Example C51_sizes :
  map (fun d => size symmetric [d; d]) [1; 2; 3; 4] = [1; 3; 6; 10] /\
  map (fun d => size symmetric [d; d; d]) [1; 2; 3; 4] = [1; 4; 10; 20] /\
  map (fun d => size symmetric [d; d; d; d]) [1; 2; 3; 4] = [1; 5; 15; 35].
Proof. repeat split. Qed.

Example C51_case :
  multiindex symmetric [3; 3; 3] [2; 0; 1] = Some 5 /\
  multiindex symmetric [3; 3; 3] [0; 1; 2] = Some 5 /\
  multiindex symmetric [3; 3; 3] [0; 2; 2] = Some 7.
Proof. repeat split. Qed.

(** Generic tensors of every rank and every dimensions: subscripts and
    storage cells correspond one to one. *)
Theorem C51_generic ds :
  (forall is, Forall2 lt is ds ->
     exists v, multiindex generic ds is = Some v /\ v < size generic ds) /\
  (forall is js v, Forall2 lt is ds -> Forall2 lt js ds ->
     multiindex generic ds is = Some v -> multiindex generic ds js = Some v -> is = js) /\
  (forall c, c < size generic ds ->
     exists is, Forall2 lt is ds /\ multiindex generic ds is = Some c).
Proof.
  unfold multiindex, size. induction ds as [|d ds (IH1 & IH2 & IH3)].
  - split; [|split].
    + intros is H. inversion H; subst. exists 0. cbn. split; [reflexivity|lia].
    + intros is js v H H' _ _. inversion H; inversion H'; now subst.
    + intros c Hc. cbn in Hc. exists []. split; [constructor|]. cbn. f_equal. lia.
  - split; [|split].
    + intros is H. inversion H as [|i ? is' ? Hi Hr]; subst.
      destruct (IH1 _ Hr) as (v & Ev & Bv). exists (d * v + i). cbn [gindex gsize].
      rewrite Ev. split; [reflexivity|]. nia.
    + intros is js v H H'. inversion H as [|i ? is' ? Hi Hr]; inversion H' as [|j ? js' ? Hj Hr']; subst.
      cbn [gindex].
      destruct (IH1 _ Hr) as (u & Eu & _). destruct (IH1 _ Hr') as (w & Ew & _).
      rewrite Eu, Ew. intros [= E1] [= E2].
      assert (u = w /\ i = j) as (-> & ->).
      { rewrite <- E2 in E1. destruct (Nat.lt_trichotomy u w) as [L|[L|L]].
        - assert (d * u + d <= d * w) by nia. lia.
        - subst. lia.
        - assert (d * w + d <= d * u) by nia. lia. }
      f_equal. eapply IH2; eauto.
    + intros c Hc. cbn [gsize] in Hc.
      assert (Hd : d <> 0) by (intros ->; lia).
      destruct (IH3 (c / d)) as (is & Hf & E).
      { apply Nat.div_lt_upper_bound; [exact Hd|lia]. }
      exists (c mod d :: is). split; [constructor; [apply Nat.mod_upper_bound, Hd|exact Hf]|].
      cbn [gindex]. rewrite E. f_equal. symmetry. apply Nat.div_mod, Hd.
Qed.

Example C51_generic_case :
  Forall2 lt [1; 2; 0] [2; 3; 4] /\ multiindex generic [2; 3; 4] [1; 2; 0] = Some 5.
Proof. split; [repeat constructor; lia|reflexivity]. Qed.

(** All lists of [r] axes of a [d]-dimensional space. *)
Fixpoint tuples (r d : nat) : list (list nat) :=
  match r with
  | O => [[]]
  | S r' => flat_map (fun i => map (cons i) (tuples r' d)) (seq 0 d)
  end.

Lemma tuples_all r d is : length is = r -> Forall (fun i => i < d) is -> In is (tuples r d).
Proof.
  revert is. induction r as [|r IH]; intros [|i is] Hl Hf; try discriminate; [now left|].
  inversion Hf; subst. cbn [tuples]. apply in_flat_map. exists i. split.
  - apply in_seq. lia.
  - apply in_map, IH; auto.
Qed.

Definition option_nat_eqb (a b : option nat) : bool :=
  match a, b with Some x, Some y => x =? y | _, _ => false end.

(** Access by name (A[xy], Q[zyx], …) and access by subscripts (A(0,1), …)
    address the same cell, for each rank and dimension that has names. *)
Theorem C51_named_access st r d is :
  2 <= r <= 4 -> 1 <= d <= 4 -> length is = r -> Forall (fun i => i < d) is ->
  exists v, named st r d (enum_value is) = Some v /\
    multiindex st (repeat d r) is = Some v.
Proof.
  intros Hr Hd Hl Hf.
  assert (A : forallb (fun st => forallb (fun r => forallb (fun d => forallb (fun is =>
      option_nat_eqb (named st r d (enum_value is)) (multiindex st (repeat d r) is))
      (tuples r d)) (seq 1 4)) (seq 2 3)) [generic; symmetric] = true) by (vm_compute; reflexivity).
  rewrite forallb_forall in A. specialize (A st).
  rewrite forallb_forall in A. specialize (A ltac:(destruct st; cbn; auto) r ltac:(apply in_seq; lia)).
  rewrite forallb_forall in A. specialize (A d ltac:(apply in_seq; lia)).
  rewrite forallb_forall in A. specialize (A is (tuples_all r d is Hl Hf)).
  unfold option_nat_eqb in A.
  destruct (named st r d (enum_value is)) as [v|]; [|discriminate].
  destruct (multiindex st (repeat d r) is) as [w|]; [|discriminate].
  apply Nat.eqb_eq in A. subst w. eauto.
Qed.

Example C51_named_case : named symmetric 4 3 (enum_value [2; 0; 1; 2]) = Some 10.
Proof. reflexivity. Qed.

(** ** C52: in-place arithmetic *)

Lemma elementwise_nth {T} (op : T -> T -> T) (a b : list T) i x y :
  nth_error a i = Some x -> nth_error b i = Some y ->
  nth_error (elementwise op a b) i = Some (op x y).
Proof.
  revert b i. induction a as [|u a IH]; intros [|w b] [|i] Ha Hb; try discriminate; cbn in *.
  - congruence.
  - eauto.
Qed.

Lemma elementwise_length {T} (op : T -> T -> T) (a b : list T) :
  length a = length b -> length (elementwise op a b) = length a.
Proof. revert b. induction a as [|u a IH]; intros [|w b] H; try discriminate; cbn in *; auto. Qed.

(** The statement of C52 for one operation: after [p op= q] the object at
    [p] holds the element-wise results and every other object is unchanged. *)
Definition in_place_correct {T} (op : T -> T -> T) (m : memory T) (p q : nat) :=
  length (op_assign op m p q p) = length (m p) /\
  (forall i x y, nth_error (m p) i = Some x -> nth_error (m q) i = Some y ->
     nth_error (op_assign op m p q p) i = Some (op x y)) /\
  (forall s, s <> p -> op_assign op m p q s = m s).

Theorem C52_distinct_objects {T} (op : T -> T -> T) (m : memory T) p q :
  p <> q -> length (m p) = length (m q) -> in_place_correct op m p q.
Proof.
  intros Hpq Hl. unfold in_place_correct, op_assign.
  destruct (Nat.eqb_spec p q) as [|_]; [contradiction|].
  assert (E : store m p (elementwise op (m p) (m q)) p = elementwise op (m p) (m q))
    by (unfold store; now rewrite Nat.eqb_refl).
  rewrite E. split; [now apply elementwise_length|]. split.
  - intros i x y. apply elementwise_nth.
  - intros s Hs. unfold store. destruct (Nat.eqb_spec s p); [contradiction|reflexivity].
Qed.

(** [a += a] leaves [a] unchanged: the self-test meant for assignment was
    copied into the arithmetic operators. *)
Theorem C52_alias_refuted :
  exists (m : memory Z) p, ~ in_place_correct Z.add m p p.
Proof.
  exists (fun _ => [1]%Z), 0. intros (_ & H & _).
  specialize (H 0 1%Z 1%Z eq_refl eq_refl). discriminate.
Qed.

(** [a += a] and [a -= a] change nothing at all, on every value. *)
Theorem C52_alias_no_effect {T} (op : T -> T -> T) (m : memory T) p :
  op_assign op m p p = m.
Proof. unfold op_assign. now rewrite Nat.eqb_refl. Qed.

(** The binary operators work on a fresh copy and are right for [a + a] too. *)
Theorem C52_binary_operators {T} (op : T -> T -> T) (m : memory T) tmp a b :
  tmp <> a -> tmp <> b -> length (m a) = length (m b) ->
  length (binary op m tmp a b) = length (m a) /\
  (forall i x y, nth_error (m a) i = Some x -> nth_error (m b) i = Some y ->
     nth_error (binary op m tmp a b) i = Some (op x y)).
Proof.
  intros Ha Hb Hl. unfold binary.
  assert (Et : store m tmp (m a) tmp = m a) by (unfold store; now rewrite Nat.eqb_refl).
  assert (Eb : store m tmp (m a) b = m b)
    by (unfold store; destruct (Nat.eqb_spec b tmp); [congruence|reflexivity]).
  pose proof (C52_distinct_objects op (store m tmp (m a)) tmp b Hb) as (H1 & H2 & _).
  { now rewrite Et, Eb. }
  rewrite Et in *. rewrite Eb in *. split; [exact H1|]. exact H2.
Qed.

(** Scalar updates and comparison. *)
Theorem C52_scalar {T} (op : T -> T -> T) (m : memory T) p x :
  (forall i a, nth_error (m p) i = Some a ->
     nth_error (op_assign_scalar op m p x p) i = Some (op a x)) /\
  length (op_assign_scalar op m p x p) = length (m p) /\
  (forall s, s <> p -> op_assign_scalar op m p x s = m s).
Proof.
  unfold op_assign_scalar, store. rewrite Nat.eqb_refl. split; [|split].
  - intros i a H. now apply (map_nth_error (fun a => op a x)).
  - apply map_length.
  - intros s Hs. destruct (Nat.eqb_spec s p); [contradiction|reflexivity].
Qed.

Theorem C52_comparison {T} (eqb : T -> T -> bool) (a b : list T) :
  (forall x y, eqb x y = true <-> x = y) -> length a = length b ->
  (eq_loop eqb a b = true <-> a = b) /\ ne_loop eqb a b = negb (eq_loop eqb a b).
Proof.
  intros He. revert b. induction a as [|x a IH]; intros [|y b] Hl; try discriminate; cbn.
  - tauto.
  - destruct (eqb x y) eqn:E; cbn.
    + apply He in E. subst y. destruct (IH b) as (H1 & H2); [now injection Hl|].
      rewrite H1, H2. split; [|reflexivity]. split; congruence.
    + split; [|reflexivity]. split; [discriminate|]. intros [= -> ->].
      assert (eqb y y = true) by now apply He. congruence.
Qed.

Example C52_case :
  let m := (fun p => if Nat.eqb p 0 then [1; 2]%Z else [10; 20]%Z) in
  op_assign Z.add m 0 1 0 = [11; 22]%Z /\ binary Z.add m 5 0 0 = [2; 4]%Z.
Proof. split; reflexivity. Qed.

Print Assumptions C51_cells_are_classes.
Print Assumptions C51_cells_all_used.
Print Assumptions C51_generic.
Print Assumptions C51_named_access.
Print Assumptions C52_distinct_objects.
Print Assumptions C52_alias_refuted.
Print Assumptions C52_binary_operators.
Print Assumptions C52_comparison.
