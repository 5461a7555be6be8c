(** Correctness of the splitter search and of the parallel sort. *)
From Coq Require Import Permutation Sorted.
From Verif Require Import Base BuildTree_model Exchange_model Exchange_props PSort_model.

(** ** Sums and prefixes *)
Lemma sumto_ext n f g : (forall i, i < n -> f i = g i) -> sumto n f = sumto n g.
Proof. induction n as [|n IH]; intros H; [reflexivity|]. cbn. rewrite IH by (intros; apply H; lia). rewrite H by lia. reflexivity. Qed.
Lemma sumto_le n f g : (forall i, i < n -> f i <= g i) -> sumto n f <= sumto n g.
Proof. induction n as [|n IH]; intros H; cbn; [lia|]. pose proof (H n ltac:(lia)). specialize (IH ltac:(intros; apply H; lia)). lia. Qed.
Lemma sumto_lt n f g k : (forall i, i < n -> f i <= g i) -> k < n -> f k < g k -> sumto n f < sumto n g.
Proof.
  induction n as [|n IH]; intros H Hk Hlt; [lia|]. cbn. destruct (Nat.eq_dec k n) as [->|].
  - pose proof (sumto_le n f g ltac:(intros; apply H; lia)). lia.
  - specialize (IH ltac:(intros; apply H; lia) ltac:(lia) Hlt). pose proof (H n ltac:(lia)). lia.
Qed.
Lemma sumto_sub n f g : (forall i, i < n -> g i <= f i) -> sumto n (fun i => f i - g i) + sumto n g = sumto n f.
Proof. induction n as [|n IH]; intros H; cbn; [reflexivity|]. specialize (IH ltac:(intros; apply H; lia)). pose proof (H n ltac:(lia)). lia. Qed.
Lemma sumto_pos n f : 0 < sumto n f -> exists i, i < n /\ 0 < f i.
Proof.
  induction n as [|n IH]; cbn; intros H; [lia|]. destruct (Nat.eq_dec (f n) 0) as [E|E].
  - destruct (IH ltac:(lia)) as (i & Hi & Hf). exists i. split; [lia|assumption].
  - exists n. lia.
Qed.
Lemma sumto_zero n : sumto n (fun _ => 0) = 0.
Proof. induction n; cbn; lia. Qed.
Lemma sumto_mono n m f : n <= m -> sumto n f <= sumto m f.
Proof. induction 1; cbn; lia. Qed.

Lemma takewhile_all {B} (p : B -> bool) l x : In x (takewhile p l) -> p x = true.
Proof. induction l as [|y l IH]; cbn; [tauto|]. destruct (p y) eqn:E; cbn; [|tauto]. intros [->|H]; auto. Qed.
Lemma takewhile_len {B} (p : B -> bool) l : length (takewhile p l) <= length l.
Proof. induction l as [|y l IH]; cbn; [lia|]. destruct (p y); cbn; lia. Qed.
Lemma takewhile_nth {B} (p : B -> bool) l k x : k < length (takewhile p l) -> nth_error l k = Some x -> p x = true.
Proof.
  revert k. induction l as [|y l IH]; cbn; intros k Hk E; [lia|]. destruct (p y) eqn:Ey; cbn in Hk; [|lia].
  destruct k as [|k]; cbn in E; [congruence|]. apply (IH k); [lia|assumption].
Qed.
Lemma takewhile_stop {B} (p : B -> bool) l x : nth_error l (length (takewhile p l)) = Some x -> p x = false.
Proof.
  induction l as [|y l IH]; cbn; [discriminate|]. destruct (p y) eqn:Ey; cbn; [exact IH|]. congruence.
Qed.
Lemma takewhile_imp {B} (p q : B -> bool) l : (forall x, p x = true -> q x = true) -> length (takewhile p l) <= length (takewhile q l).
Proof. intros H. induction l as [|y l IH]; cbn; [lia|]. destruct (p y) eqn:E; cbn; [|lia]. rewrite H by assumption. cbn. lia. Qed.
(** in a seq, with a monotone predicate *)
Lemma takewhile_seq (p : nat -> bool) a n : (forall t t', a <= t <= t' -> t' < a + n -> p t' = true -> p t = true) ->
  forall t, a <= t < a + n -> (t < a + length (takewhile p (seq a n)) <-> p t = true).
Proof.
  revert a. induction n as [|n IH]; intros a H t Ht; [lia|]. cbn [seq takewhile]. destruct (p a) eqn:E; cbn [length].
  - destruct (Nat.eq_dec t a) as [->|]; [split; [auto|lia]|]. rewrite <- (IH (S a)); [split; lia|intros; eapply H; eauto; lia|lia].
  - split; [lia|]. intros Hp. rewrite (H a t) in E; [discriminate|lia|lia|assumption].
Qed.

Lemma nth_error_skip {B} (l : list B) k p : nth_error (skipn k l) p = nth_error l (k + p).
Proof. revert l. induction k as [|k IH]; intros l; [reflexivity|]. destruct l as [|x l]; [rewrite skipn_nil; destruct p; reflexivity|]. cbn. apply IH. Qed.
Lemma nth_error_first {B} (l : list B) k p : p < k -> nth_error (firstn k l) p = nth_error l p.
Proof. revert l p. induction k as [|k IH]; intros l p H; [lia|]. destruct l as [|x l]; [reflexivity|]. destruct p as [|p]; [reflexivity|]. cbn. apply IH. lia. Qed.

Lemma sum_perm (f : nat -> nat) l l' : Permutation l l' -> nsum (map f l) = nsum (map f l').
Proof. induction 1; cbn [map nsum]; lia. Qed.
Lemma nsum_seq f n : nsum (map f (seq 0 n)) = sumto n f.
Proof. induction n as [|n IH]; [reflexivity|]. rewrite seq_S, map_app, nsum_app, IH. cbn. lia. Qed.

(** ** Excess distribution *)
Section Excess.
Variables lo hi : nat -> nat.
Local Open Scope Z_scope.
Lemma excess_nonneg n e : (forall i, (i < n)%nat -> (lo i <= hi i)%nat) -> 0 <= e -> 0 <= excess lo hi e n.
Proof. induction n as [|n IH]; intros H He; cbn [excess]; [assumption|]. specialize (IH ltac:(intros; apply H; lia) He). cbv zeta. pose proof (H n ltac:(lia)). lia. Qed.
Lemma excess_mono n e e' : (forall i, (i < n)%nat -> (lo i <= hi i)%nat) -> e <= e' -> excess lo hi e n <= excess lo hi e' n.
Proof. induction n as [|n IH]; intros H He; cbn [excess]; [assumption|]. specialize (IH ltac:(intros; apply H; lia) He). cbv zeta. pose proof (H n ltac:(lia)). lia. Qed.
Lemma excess_sum n e : (forall i, (i < n)%nat -> (lo i <= hi i)%nat) -> 0 <= e ->
  Z.of_nat (sumto n (amount lo hi e)) = Z.of_nat (sumto n lo) + e - excess lo hi e n /\
  (excess lo hi e n = 0 \/ excess lo hi e n = e - (Z.of_nat (sumto n hi) - Z.of_nat (sumto n lo))).
Proof.
  induction n as [|n IH]; intros H He; cbn [excess sumto]; [lia|]. destruct (IH ltac:(intros; apply H; lia) He) as [IH1 IH2].
  pose proof (excess_nonneg n e ltac:(intros; apply H; lia) He). pose proof (H n ltac:(lia)). unfold amount at 2. cbv zeta.
  set (x := excess lo hi e n) in *. split; [lia|].
  destruct (Z.min_spec (Z.of_nat (lo n) + x) (Z.of_nat (hi n))) as [[Q ->]|[Q ->]]; [left; lia|]. destruct IH2; [left; lia|right; lia].
Qed.
Lemma amount_bounds n e i : (forall k, (k < n)%nat -> (lo k <= hi k)%nat) -> 0 <= e -> (i < n)%nat -> (lo i <= amount lo hi e i <= hi i)%nat.
Proof.
  intros H He Hi. unfold amount. pose proof (excess_nonneg i e ltac:(intros; apply H; lia) He). pose proof (H i Hi). lia.
Qed.
Lemma amount_mono n e e' i : (forall k, (k < n)%nat -> (lo k <= hi k)%nat) -> e <= e' -> (i < n)%nat -> (amount lo hi e i <= amount lo hi e' i)%nat.
Proof.
  intros H He Hi. unfold amount. pose proof (excess_mono i e e' ltac:(intros; apply H; lia) He). lia.
Qed.
Lemma amount_sum n s : (forall i, (i < n)%nat -> (lo i <= hi i)%nat) -> (sumto n lo <= s <= sumto n hi)%nat ->
  sumto n (amount lo hi (Z.of_nat s - Z.of_nat (sumto n lo))) = s.
Proof.
  intros H Hs. destruct (excess_sum n (Z.of_nat s - Z.of_nat (sumto n lo)) H ltac:(lia)) as [E1 E2].
  pose proof (excess_nonneg n (Z.of_nat s - Z.of_nat (sumto n lo)) H ltac:(lia)). lia.
Qed.
End Excess.

(** ** The search *)
Record swo {A} (comp : A -> A -> bool) : Prop := {
  swo_irrefl : forall a, comp a a = false;
  swo_trans : forall a b c, comp a b = true -> comp b c = true -> comp a c = true;
  swo_neg : forall a b c, comp a b = false -> comp b c = false -> comp a c = false }.

Section Split.
Context {A : Type} (comp : A -> A -> bool) (HC : swo comp).
Context (size : nat) (data : nat -> list A) (dist : nat -> nat) (past : nat -> nat -> A).
Context (perm_sort : (nat -> A) -> list nat -> list nat).
Context (Hperm : forall w l, Permutation (perm_sort w l) l).
(** a is not after b *)
Definition le (a b : A) : Prop := comp b a = false.
Definition locally_sorted (l : list A) : Prop := forall p p' x y, p < p' -> nth_error l p = Some x -> nth_error l p' = Some y -> le x y.
Context (Hsorted : forall r, r < size -> locally_sorted (data r)).
Context (Hdist : forall r, r < size -> dist r = length (data r)).
Context (Hsize : 2 <= size) (Hfirst : 0 < dist 0).
Context (Htail : forall i j, i < j -> j < size -> dist i = 0 -> dist j = 0).

Notation target := (target dist).
Notation n_real := (n_real size dist).
Notation median := (median data past).
Notation query := (query size data dist past perm_sort).

Lemma le_trans a b c : le a b -> le b c -> le a c.
Proof. unfold le. intros H1 H2. apply (swo_neg _ HC c b a); assumption. Qed.
Lemma le_refl a : le a a.
Proof. apply (swo_irrefl _ HC). Qed.
Lemma lt_le a b : comp a b = true -> le a b.
Proof.
  intros H. unfold le. destruct (comp b a) eqn:E; [|reflexivity]. pose proof (swo_trans _ HC a b a H E) as Q. rewrite (swo_irrefl _ HC) in Q. discriminate.
Qed.

Definition vle (f g : nat -> nat) : Prop := forall i, i < size -> f i <= g i.
(** a cut of all arrays: everything before it is below everything after it *)
Definition cut (c : nat -> nat) : Prop :=
  vle c (fun i => length (data i)) /\
  forall i j p p' x y, i < size -> j < size -> p < c i -> c j <= p' -> nth_error (data i) p = Some x -> nth_error (data j) p' = Some y -> le x y.

Record wfa (a : active) : Prop := {
  wa_fst : cut (dfst a);
  wa_snd : cut (dsnd a);
  wa_le : vle (dfst a) (dsnd a);
  wa_sub : forall i, i < size -> subdist a i = dsnd a i - dfst a i;
  wa_out : forall i, i < size -> outleft a i = dfst a i;
  wa_t : tlo a < thi a <= size - 1;
  wa_tgt : forall t, tlo a <= t < thi a -> sumto size (dfst a) < target t <= sumto size (dsnd a) }.

Lemma n_real_spec : n_real <= size /\ (forall i, i < n_real -> dist i <> 0) /\ (forall i, n_real <= i < size -> dist i = 0).
Proof.
  assert (G : forall k i, i + k = size -> i <= first_zero dist k i <= size /\ (forall j, i <= j < first_zero dist k i -> dist j <> 0) /\
    (first_zero dist k i < size -> dist (first_zero dist k i) = 0)).
  { induction k as [|k IH]; intros i Hi; cbn [first_zero]; [split; [lia|split; intros; lia]|].
    destruct (Nat.eqb_spec (dist i) 0) as [E|E].
    - split; [lia|split; [intros; lia|intros; assumption]].
    - destruct (IH (S i) ltac:(lia)) as (H1 & H2 & H3). split; [lia|split; [|assumption]].
      intros j Hj. destruct (Nat.eq_dec j i) as [->|]; [assumption|apply H2; lia]. }
  unfold PSort_model.n_real. destruct (G size 0 ltac:(lia)) as (H1 & H2 & H3). split; [lia|]. split; [intros; apply H2; lia|].
  intros i Hi. destruct (Nat.eq_dec i (first_zero dist size 0)) as [->|]; [apply H3; lia|].
  apply (Htail (first_zero dist size 0) i); [lia|lia|apply H3; lia].
Qed.

Lemma pick_ok sub l : forall mid, (mid <= Z.of_nat (nsum (map sub l)))%Z -> 0 < nsum (map sub l) ->
  exists i, pick sub l mid = Some i /\ In i l /\ 0 < sub i.
Proof.
  induction l as [|i l IH]; intros mid Hm Hp; cbn [map nsum pick] in *; [lia|]. destruct (Nat.eqb_spec (sub i) 0) as [E|E].
  - rewrite E in *. destruct (IH mid ltac:(lia) ltac:(lia)) as (j & -> & Hj & Hs). exists j. cbn. auto.
  - cbv zeta. destruct (Z.leb_spec (mid - Z.of_nat (sub i)) 0) as [L|L].
    + exists i. cbn. repeat split; auto; lia.
    + destruct (IH (mid - Z.of_nat (sub i))%Z ltac:(lia) ltac:(lia)) as (j & -> & Hj & Hs). exists j. cbn. auto.
Qed.

(** The query is an element of the range. *)
Lemma query_ok a : wfa a -> exists q i p, query a = Some q /\ i < size /\ dfst a i <= p < dsnd a i /\ nth_error (data i) p = Some q.
Proof.
  intros W. unfold PSort_model.query. destruct n_real_spec as (N1 & N2 & N3).
  assert (Nr : n_real <> 0). { intros E. specialize (N3 0 ltac:(lia)). lia. }
  rewrite (proj2 (Nat.eqb_neq _ _) Nr).
  pose proof (wa_snd _ W) as [Hs _]. pose proof (wa_le _ W) as Hle.
  assert (Z0 : forall i, n_real <= i < size -> subdist a i = 0).
  { intros i Hi. rewrite (wa_sub _ W) by lia. pose proof (Hs i ltac:(lia)) as H. cbv beta in H. rewrite <- Hdist, N3 in H by lia. lia. }
  assert (Es : sumto n_real (subdist a) = sumto size (subdist a)).
  { revert Z0. generalize n_real, N1. clear. intros n N1 Z0. induction N1 as [|m Hm IH]; [reflexivity|]. cbn. rewrite <- IH by (intros; apply Z0; lia). rewrite Z0 by lia. lia. }
  assert (Pos : 0 < sumto size (subdist a)).
  { pose proof (wa_t _ W). pose proof (wa_tgt _ W (tlo a) ltac:(lia)).
    rewrite (sumto_ext size (subdist a) (fun i => dsnd a i - dfst a i)) by (apply (wa_sub _ W)). pose proof (sumto_sub size (dsnd a) (dfst a) Hle). lia. }
  set (l := perm_sort (median a) (seq 0 n_real)).
  assert (Hl : nsum (map (subdist a) l) = sumto size (subdist a)).
  { unfold l. rewrite (sum_perm _ _ _ (Hperm _ _)), nsum_seq. exact Es. }
  assert (Hmid : (Z.of_nat (sumto size (subdist a) / 2) <= Z.of_nat (nsum (map (subdist a) l)))%Z).
  { rewrite Hl. pose proof (Nat.div_le_upper_bound (sumto size (subdist a)) 2 (sumto size (subdist a)) ltac:(lia) ltac:(lia)). lia. }
  destruct (pick_ok (subdist a) l _ Hmid ltac:(lia)) as (i & -> & Hin & Hpos).
  assert (Hi : i < size). { apply (Permutation_in i (Hperm _ _)) in Hin. apply in_seq in Hin. lia. }
  assert (Hp : dfst a i <= dfst a i + subdist a i / 2 < dsnd a i).
  { pose proof (Nat.div_lt (subdist a i) 2 ltac:(lia) ltac:(lia)). pose proof (wa_sub _ W i Hi). lia. }
  pose proof (Hs i Hi) as Hlen. cbv beta in Hlen.
  destruct (nth_error (data i) (dfst a i + subdist a i / 2)) as [q|] eqn:E.
  - exists q, i, (dfst a i + subdist a i / 2). unfold PSort_model.median, read. rewrite E. repeat split; auto; lia.
  - apply nth_error_None in E. lia.
Qed.

Lemma range_nth a i p : p < dsnd a i - dfst a i -> nth_error (range_of data a i) p = nth_error (data i) (dfst a i + p).
Proof. intros H. unfold range_of. rewrite nth_error_first by assumption. apply nth_error_skip. Qed.
Lemma range_len a i : wfa a -> i < size -> length (range_of data a i) = dsnd a i - dfst a i.
Proof.
  intros W Hi. unfold range_of. rewrite firstn_length, skipn_length. pose proof (wa_snd _ W) as [Hs _]. specialize (Hs i Hi). cbv beta in Hs. lia.
Qed.

Section Range.
Context (a : active) (W : wfa a) (q : A).
Notation lo := (ind_low comp data a q).
Notation hi := (ind_high comp data a q).

Lemma lo_bounds i : i < size -> dfst a i <= lo i <= dsnd a i.
Proof.
  intros Hi. unfold ind_low. pose proof (takewhile_len (fun x => comp x q) (range_of data a i)). rewrite range_len in H by assumption.
  pose proof (wa_le _ W i Hi). lia.
Qed.
Lemma hi_bounds i : i < size -> dfst a i <= hi i <= dsnd a i.
Proof.
  intros Hi. unfold ind_high. pose proof (takewhile_len (fun x => negb (comp q x)) (range_of data a i)). rewrite range_len in H by assumption.
  pose proof (wa_le _ W i Hi). lia.
Qed.
Lemma lo_hi i : i < size -> lo i <= hi i.
Proof.
  intros Hi. unfold ind_low, ind_high. pose proof (takewhile_imp (fun x => comp x q) (fun x => negb (comp q x)) (range_of data a i)) as H.
  assert (length (takewhile (fun x => comp x q) (range_of data a i)) <= length (takewhile (fun x => negb (comp q x)) (range_of data a i))); [|lia].
  apply H. intros x Hx. apply lt_le in Hx. unfold le in Hx. rewrite Hx. reflexivity.
Qed.
Lemma below_lo i p x : i < size -> dfst a i <= p < lo i -> nth_error (data i) p = Some x -> comp x q = true.
Proof.
  intros Hi Hp E. pose proof (lo_bounds i Hi). unfold ind_low in *. apply (takewhile_nth (fun x => comp x q) (range_of data a i) (p - dfst a i)); [lia|].
  rewrite range_nth by lia. replace (dfst a i + (p - dfst a i)) with p by lia. exact E.
Qed.
Lemma above_lo i p y : i < size -> lo i <= p < dsnd a i -> nth_error (data i) p = Some y -> le q y.
Proof.
  intros Hi Hp E. set (m := length (takewhile (fun x => comp x q) (range_of data a i))).
  assert (Elo : lo i = dfst a i + m) by reflexivity.
  assert (exists x, nth_error (data i) (lo i) = Some x) as [x Ex].
  { destruct (nth_error (data i) (lo i)) eqn:Q; [eauto|]. apply nth_error_None in Q. assert (nth_error (data i) p <> None) by congruence. apply nth_error_Some in H. lia. }
  assert (Hx : le q x).
  { unfold le. apply (takewhile_stop (fun x => comp x q) (range_of data a i)). fold m. rewrite range_nth by lia. rewrite <- Elo. exact Ex. }
  destruct (Nat.eq_dec p (lo i)) as [->|Hne]; [replace y with x by congruence; exact Hx|].
  apply (le_trans q x y Hx). apply (Hsorted i Hi (lo i) p); [lia|exact Ex|exact E].
Qed.
Lemma below_hi i p x : i < size -> dfst a i <= p < hi i -> nth_error (data i) p = Some x -> le x q.
Proof.
  intros Hi Hp E. pose proof (hi_bounds i Hi). unfold ind_high in *.
  assert (Q : negb (comp q x) = true).
  { apply (takewhile_nth (fun x => negb (comp q x)) (range_of data a i) (p - dfst a i)); [lia|].
    rewrite range_nth by lia. replace (dfst a i + (p - dfst a i)) with p by lia. exact E. }
  apply negb_true_iff in Q. exact Q.
Qed.
Lemma above_hi i p y : i < size -> hi i <= p < dsnd a i -> nth_error (data i) p = Some y -> comp q y = true.
Proof.
  intros Hi Hp E. set (m := length (takewhile (fun x => negb (comp q x)) (range_of data a i))).
  assert (Ehi : hi i = dfst a i + m) by reflexivity.
  assert (exists x, nth_error (data i) (hi i) = Some x) as [x Ex].
  { destruct (nth_error (data i) (hi i)) eqn:Q; [eauto|]. apply nth_error_None in Q. assert (nth_error (data i) p <> None) by congruence. apply nth_error_Some in H. lia. }
  assert (Hx : comp q x = true).
  { apply negb_false_iff. apply (takewhile_stop (fun x => negb (comp q x)) (range_of data a i)). fold m. rewrite range_nth by lia. rewrite <- Ehi. exact Ex. }
  destruct (Nat.eq_dec p (hi i)) as [->|Hne]; [congruence|].
  assert (Hxy : le x y) by (apply (Hsorted i Hi (hi i) p); [lia|exact Ex|exact E]).
  destruct (comp q y) eqn:Q; [reflexivity|]. unfold le in Hxy. pose proof (swo_neg _ HC q y x Q Hxy). congruence.
Qed.

(** Every choice between the two bounds is a cut. *)
Lemma between_cut c : vle lo c -> vle c hi -> cut c.
Proof.
  intros H1 H2. pose proof (wa_snd _ W) as [S1 S2]. pose proof (wa_fst _ W) as [F1 F2]. split.
  - intros i Hi. pose proof (H2 i Hi). pose proof (hi_bounds i Hi). specialize (S1 i Hi). cbv beta in S1. lia.
  - intros i j p p' x y Hi Hj Hp Hp' Ex Ey. pose proof (H1 i Hi). pose proof (H2 i Hi). pose proof (H1 j Hj). pose proof (H2 j Hj).
    pose proof (lo_bounds i Hi). pose proof (hi_bounds i Hi). pose proof (lo_bounds j Hj). pose proof (hi_bounds j Hj).
    destruct (Nat.lt_ge_cases p (dfst a i)) as [L|L].
    + apply (F2 i j p p'); auto; lia.
    + destruct (Nat.lt_ge_cases p' (dsnd a j)) as [L'|L'].
      * apply (le_trans x q y); [apply (below_hi i p); auto; lia|apply (above_lo j p'); auto; lia].
      * apply (S2 i j p p'); auto; lia.
Qed.
End Range.

(** ** Settled and open targets in order *)
Inductive item := IDone (t : nat) (c : nat -> nat) | IAct (a : active).
Definition ilo (it : item) : nat -> nat := match it with IDone _ c => c | IAct a => dfst a end.
Definition ihi (it : item) : nat -> nat := match it with IDone _ c => c | IAct a => dsnd a end.
Definition itgts (it : item) : list nat := match it with IDone t _ => [t] | IAct a => seq (tlo a) (thi a - tlo a) end.
Definition wfi (it : item) : Prop := match it with IDone t c => cut c /\ sumto size c = target t | IAct a => wfa a end.
Definition acts_of (l : list item) : list active := flat_map (fun it => match it with IAct a => [a] | _ => [] end) l.
Fixpoint chain (prev : nat -> nat) (l : list item) : Prop :=
  match l with
  | [] => vle prev (fun i => length (data i))
  | it :: r => vle prev (ilo it) /\ chain (ihi it) r
  end.
Definition isize (it : item) : nat := match it with IDone _ _ => 0 | IAct a => sumto size (subdist a) end.

Lemma vle_trans f g h : vle f g -> vle g h -> vle f h.
Proof. intros H1 H2 i Hi. specialize (H1 i Hi). specialize (H2 i Hi). lia. Qed.
Lemma vle_refl f : vle f f.
Proof. intros i Hi. lia. Qed.
Lemma chain_mono l : forall p p', vle p' p -> chain p l -> chain p' l.
Proof. destruct l as [|it l]; intros p p' H C; cbn in *; [eapply vle_trans; eauto|]. destruct C as [C1 C2]. split; [eapply vle_trans; eauto|exact C2]. Qed.

Lemma target_mono t t' : t <= t' -> target t <= target t'.
Proof. intros H. unfold PSort_model.target. apply sumto_mono. lia. Qed.

Lemma all_below_true n p : (forall i, i < n -> p i = true) -> all_below n p = true.
Proof. induction n as [|n IH]; intros H; [reflexivity|]. cbn. rewrite H, IH by (auto; intros; apply H; lia). reflexivity. Qed.

(** One active range: what it settles and leaves, as items in order. *)
Lemma round1_ok a : wfa a -> exists hits news items,
  round1 comp size data dist past perm_sort a = Some (hits, news) /\
  acts_of items = news /\ Forall wfi items /\
  flat_map itgts items = seq (tlo a) (thi a - tlo a) /\
  (forall t c, In (IDone t c) items <-> In (t, c) hits) /\
  (forall rest prev, chain prev (IAct a :: rest) -> chain prev (items ++ rest)) /\
  nsum (map isize items) < sumto size (subdist a).
Proof.
  intros W. destruct (query_ok a W) as (q & i0 & p0 & Eq & Hi0 & Hp0 & Enth).
  set (lo := ind_low comp data a q). set (hi := ind_high comp data a q).
  assert (Blo : forall i, i < size -> dfst a i <= lo i <= dsnd a i) by (intros; apply lo_bounds; assumption).
  assert (Bhi : forall i, i < size -> dfst a i <= hi i <= dsnd a i) by (intros; apply hi_bounds; assumption).
  assert (Blh : forall i, i < size -> lo i <= hi i) by (intros; apply lo_hi; assumption).
  assert (Bstrict : lo i0 < hi i0).
  { destruct (Nat.le_gt_cases (hi i0) p0) as [L|L].
    - pose proof (above_hi a q i0 p0 q Hi0 ltac:(fold hi; lia) Enth) as Q. rewrite (swo_irrefl _ HC) in Q. discriminate.
    - destruct (Nat.lt_ge_cases p0 (lo i0)) as [L'|L']; [|lia].
      pose proof (below_lo a W q i0 p0 q Hi0 ltac:(fold lo; lia) Enth) as Q. rewrite (swo_irrefl _ HC) in Q. discriminate. }
  set (gf := sumto size lo). set (gs := sumto size hi).
  pose proof (wa_t _ W) as Ht. pose proof (wa_tgt _ W) as Htg.
  set (m := thi a - tlo a).
  set (sl := split_low dist a gf). set (sh := split_high dist a gs).
  assert (Sl : forall t, tlo a <= t < thi a -> (t < sl <-> target t < gf)).
  { intros t Hr. unfold sl, split_low. fold m. rewrite (takewhile_seq (fun t => target t <? gf) (tlo a) m); [apply Nat.ltb_lt| |unfold m; lia].
    intros u u' Hu _ Q. apply Nat.ltb_lt in Q. apply Nat.ltb_lt. pose proof (target_mono u u' ltac:(lia)). lia. }
  assert (Sh : forall t, tlo a <= t < thi a -> (t < sh <-> target t <= gs)).
  { intros t Hr. unfold sh, split_high. fold m. rewrite (takewhile_seq (fun t => target t <=? gs) (tlo a) m); [apply Nat.leb_le| |unfold m; lia].
    intros u u' Hu _ Q. apply Nat.leb_le in Q. apply Nat.leb_le. pose proof (target_mono u u' ltac:(lia)). lia. }
  assert (gfs : gf < gs) by (apply (sumto_lt size lo hi i0); auto).
  assert (Rl : tlo a <= sl <= thi a). { unfold sl, split_low. pose proof (takewhile_len (fun t => target t <? gf) (seq (tlo a) (thi a - tlo a))) as Q. rewrite seq_length in Q. lia. }
  assert (Rh : tlo a <= sh <= thi a). { unfold sh, split_high. pose proof (takewhile_len (fun t => target t <=? gs) (seq (tlo a) (thi a - tlo a))) as Q. rewrite seq_length in Q. lia. }
  assert (Rlh : sl <= sh).
  { destruct (Nat.le_gt_cases sl sh) as [|L]; [assumption|]. assert (Q : sh < sl) by lia. apply Sl in Q; [|lia]. assert (sh < sh) by (apply Sh; lia). lia. }
  set (hits := seq sl (sh - sl)).
  set (am := fun t => amount lo hi (Z.of_nat (target t) - Z.of_nat gf)).
  assert (Hh : forall t, In t hits -> gf <= target t <= gs /\ tlo a <= t < thi a).
  { intros t Hin. apply in_seq in Hin. assert (R : tlo a <= t < thi a) by lia. split; [|exact R].
    split; [destruct (Nat.le_gt_cases gf (target t)); [assumption|]; assert (t < sl) by (apply Sl; lia); lia|apply Sh; lia]. }
  assert (Eround : round1 comp size data dist past perm_sort a = Some (map (fun t => (t, am t)) hits,
    (if 0 <? sl - tlo a then [Act (dfst a) lo (fun i => lo i - outleft a i) (outleft a) (tlo a) sl] else []) ++
    (if 0 <? thi a - sh then [Act hi (dsnd a) (fun i => outleft a i + subdist a i - hi i) hi sh (thi a)] else []))).
  { unfold round1. rewrite all_below_true; [|intros i Hi; apply Z.eqb_eq; rewrite (wa_sub _ W i Hi); pose proof (wa_le _ W i Hi); lia].
    rewrite Eq. cbv zeta. fold lo hi. fold gf gs. fold sl sh. fold hits.
    assert (F : forallb (fun t => 0 <? target t) hits = true).
    { apply forallb_forall. intros t Hin. apply Nat.ltb_lt. destruct (Hh t Hin) as [_ R]. specialize (Htg t R). lia. }
    rewrite F. reflexivity. }
  set (A1 := Act (dfst a) lo (fun i => lo i - outleft a i) (outleft a) (tlo a) sl) in *.
  set (A2 := Act hi (dsnd a) (fun i => outleft a i + subdist a i - hi i) hi sh (thi a)) in *.
  set (I1 := if 0 <? sl - tlo a then [IAct A1] else []). set (I3 := if 0 <? thi a - sh then [IAct A2] else []).
  set (I2 := map (fun t => IDone t (am t)) hits).
  exists (map (fun t => (t, am t)) hits), ((if 0 <? sl - tlo a then [A1] else []) ++ (if 0 <? thi a - sh then [A2] else [])), (I1 ++ I2 ++ I3).
  assert (Vlo : vle lo hi) by exact Blh.
  assert (W1 : tlo a < sl -> wfa A1).
  { intros L. constructor; cbn [A1 dfst dsnd subdist outleft tlo thi].
    - apply (wa_fst _ W).
    - apply (between_cut a W q); [apply vle_refl|exact Vlo].
    - intros i Hi. apply Blo. exact Hi.
    - intros i Hi. rewrite (wa_out _ W i Hi). reflexivity.
    - apply (wa_out _ W).
    - lia.
    - intros t R. specialize (Htg t ltac:(lia)). assert (target t < gf) by (apply Sl; lia). fold gf. lia. }
  assert (W2 : sh < thi a -> wfa A2).
  { intros L. constructor; cbn [A2 dfst dsnd subdist outleft tlo thi].
    - apply (between_cut a W q); [exact Vlo|apply vle_refl].
    - apply (wa_snd _ W).
    - intros i Hi. apply Bhi. exact Hi.
    - intros i Hi. rewrite (wa_out _ W i Hi), (wa_sub _ W i Hi). specialize (Bhi i Hi). pose proof (wa_le _ W i Hi). lia.
    - reflexivity.
    - lia.
    - intros t R. specialize (Htg t ltac:(lia)). assert (~ target t <= gs) by (intros Q; apply Sh in Q; lia). fold gs. lia. }
  assert (Am : forall t, In t hits -> vle lo (am t) /\ vle (am t) hi).
  { intros t Hin. destruct (Hh t Hin) as [B _]. split; intros i Hi; apply (amount_bounds lo hi size); auto; lia. }
  split; [exact Eround|]. split; [|split; [|split; [|split; [|split]]]].
  - unfold acts_of. rewrite !flat_map_app. assert (E2 : flat_map (fun it => match it with IAct a => [a] | _ => [] end) I2 = []).
    { unfold I2. generalize hits. clear. intros l0. induction l0 as [|t l IH]; [reflexivity|]. cbn. exact IH. }
    rewrite E2. unfold I1, I3. destruct (0 <? sl - tlo a), (0 <? thi a - sh); reflexivity.
  - apply Forall_app. split; [|apply Forall_app; split].
    + unfold I1. destruct (Nat.ltb_spec 0 (sl - tlo a)); constructor; [apply W1; lia|constructor].
    + apply Forall_forall. intros it Hin. apply in_map_iff in Hin. destruct Hin as (t & <- & Hin). cbn. destruct (Am t Hin) as [V1 V2]. split.
      * apply (between_cut a W q); assumption.
      * apply amount_sum; [exact Blh|]. fold gf gs. apply (Hh t Hin).
    + unfold I3. destruct (Nat.ltb_spec 0 (thi a - sh)); constructor; [apply W2; lia|constructor].
  - rewrite !flat_map_app. assert (E2 : flat_map itgts I2 = hits). { unfold I2. generalize hits. clear. intros l0. induction l0 as [|t l IH]; [reflexivity|]. cbn. f_equal. exact IH. }
    rewrite E2. assert (E1 : flat_map itgts I1 = seq (tlo a) (sl - tlo a)).
    { unfold I1. destruct (Nat.ltb_spec 0 (sl - tlo a)) as [L|L]; [cbn; apply app_nil_r|]. replace (sl - tlo a) with 0 by lia. reflexivity. }
    assert (E3 : flat_map itgts I3 = seq sh (thi a - sh)).
    { unfold I3. destruct (Nat.ltb_spec 0 (thi a - sh)) as [L|L]; [cbn; apply app_nil_r|]. replace (thi a - sh) with 0 by lia. reflexivity. }
    rewrite E1, E3. unfold hits. 
    transitivity (seq (tlo a) ((sl - tlo a) + ((sh - sl) + (thi a - sh)))); [|f_equal; lia].
    rewrite !seq_app. replace (tlo a + (sl - tlo a)) with sl by lia. replace (sl + (sh - sl)) with sh by lia. reflexivity.
  - intros t c. rewrite !in_app_iff. split.
    + intros [Hin|[Hin|Hin]].
      * unfold I1 in Hin. destruct (0 <? sl - tlo a); [destruct Hin as [Hin|[]]; discriminate|destruct Hin].
      * apply in_map_iff in Hin. destruct Hin as (u & E & Hu). injection E as <- <-. apply in_map_iff. exists u. auto.
      * unfold I3 in Hin. destruct (0 <? thi a - sh); [destruct Hin as [Hin|[]]; discriminate|destruct Hin].
    + intros Hin. apply in_map_iff in Hin. destruct Hin as (u & E & Hu). injection E as <- <-. right; left. apply in_map_iff. exists u. auto.
  - intros rest prev [C1 C2]. cbn [ilo ihi] in C1, C2.
    assert (C3 : chain hi (I3 ++ rest)).
    { unfold I3. destruct (0 <? thi a - sh); cbn [app chain].
      - split; [apply vle_refl|exact C2].
      - eapply chain_mono; [|exact C2]. intros i Hi. apply Bhi. exact Hi. }
    assert (Cm : forall l pr, (forall t, In t l -> In t hits) -> StronglySorted lt l -> vle pr hi -> (forall t, In t l -> vle pr (am t)) ->
      chain pr (map (fun t => IDone t (am t)) l ++ I3 ++ rest)).
    { induction l as [|t l IH]; intros pr Hl Hs Hpr Ha; cbn [map app chain]; [eapply chain_mono; [|exact C3]; exact Hpr|].
      cbn [ilo ihi]. inversion Hs as [|? ? Hs' Hf]; subst. split; [apply Ha; left; reflexivity|]. apply IH; auto.
      - intros u Hu. apply Hl. right. exact Hu.
      - apply Am. apply Hl. left. reflexivity.
      - intros u Hu i Hi. apply (amount_mono lo hi size); auto. rewrite Forall_forall in Hf. specialize (Hf u Hu). pose proof (target_mono t u ltac:(lia)). lia. }
    assert (Ssort : StronglySorted lt hits).
    { assert (Q : forall k s, StronglySorted lt (seq s k)); [|apply Q]. clear. intros k. induction k as [|k IH]; intros s; cbn; constructor; [apply IH|]. apply Forall_forall. intros u Hu. apply in_seq in Hu. lia. }
    rewrite <- !app_assoc. unfold I1. destruct (0 <? sl - tlo a); cbn [app chain].
    + cbn [ilo ihi A1 dfst dsnd]. split; [exact C1|]. apply Cm; auto. intros t Hin. apply Am. exact Hin.
    + apply Cm; auto.
      * eapply vle_trans; [exact C1|]. intros i Hi. apply Bhi. exact Hi.
      * intros t Hin. eapply vle_trans; [exact C1|]. eapply vle_trans; [|apply Am; exact Hin]. intros i Hi. apply Blo. exact Hi.
  - rewrite !map_app, !nsum_app. assert (E2 : nsum (map isize I2) = 0). { unfold I2. generalize hits. clear. intros l0. induction l0 as [|t l IH]; [reflexivity|]. cbn. exact IH. }
    rewrite E2.
    assert (E1 : nsum (map isize I1) <= sumto size (fun i => lo i - dfst a i)).
    { unfold I1. destruct (0 <? sl - tlo a); cbn [map nsum isize A1 subdist]; [|lia].
      rewrite (sumto_ext size (fun i => lo i - outleft a i) (fun i => lo i - dfst a i)); [lia|]. intros i Hi. rewrite (wa_out _ W i Hi). reflexivity. }
    assert (E3 : nsum (map isize I3) <= sumto size (fun i => dsnd a i - hi i)).
    { unfold I3. destruct (0 <? thi a - sh); cbn [map nsum isize A2 subdist]; [|lia].
      rewrite (sumto_ext size (fun i => outleft a i + subdist a i - hi i) (fun i => dsnd a i - hi i)); [lia|].
      intros i Hi. rewrite (wa_out _ W i Hi), (wa_sub _ W i Hi). pose proof (wa_le _ W i Hi). lia. }
    rewrite (sumto_ext size (subdist a) (fun i => dsnd a i - dfst a i)) by (apply (wa_sub _ W)).
    pose proof (sumto_sub size lo (dfst a) ltac:(intros; apply Blo; assumption)). pose proof (sumto_sub size (dsnd a) hi ltac:(intros; apply Bhi; assumption)).
    pose proof (sumto_sub size (dsnd a) (dfst a) (wa_le _ W)). fold gf in H. fold gs in H0. lia.
Qed.

Definition re_t := nat -> nat -> nat.
Lemma write_spec hits : forall (re : re_t) t c, NoDup (map fst hits) -> In (t, c) hits -> write hits re (S t) = c.
Proof.
  unfold write. assert (G : forall hits re u, ~ In u (map (fun h => S (fst h)) hits) ->
    fold_left (fun (re : re_t) (h : nat * (nat -> nat)) => fun u => if u =? S (fst h) then snd h else re u) hits re u = re u).
  { induction hits0 as [|h l IH]; intros re u Hu; [reflexivity|]. cbn [fold_left]. rewrite IH by (intros Q; apply Hu; right; exact Q).
    destruct (Nat.eqb_spec u (S (fst h))) as [->|]; [|reflexivity]. exfalso. apply Hu. left. reflexivity. }
  induction hits as [|h l IH]; intros re t c Hn Hin; [destruct Hin|]. cbn [fold_left]. cbn [map] in Hn. inversion Hn as [|? ? Hx Hn']; subst.
  destruct Hin as [->|Hin]; [|apply IH; assumption]. rewrite G; [cbn [fst snd]; rewrite Nat.eqb_refl; reflexivity|].
  intros Q. apply Hx. apply in_map_iff in Q. destruct Q as (h & E & Hh). injection E as E. cbn [fst] in *. rewrite <- E. apply in_map. exact Hh.
Qed.
Lemma write_other hits : forall (re : re_t) u, (forall t, In t (map fst hits) -> u <> S t) -> write hits re u = re u.
Proof.
  unfold write. induction hits as [|h l IH]; intros re u Hu; [reflexivity|]. cbn [fold_left]. rewrite IH by (intros t Ht; apply Hu; right; exact Ht).
  destruct (Nat.eqb_spec u (S (fst h))) as [->|]; [|reflexivity]. exfalso. apply (Hu (fst h)); [left; reflexivity|reflexivity].
Qed.

Lemma NoDup_app_l {B} (a b : list B) : NoDup (a ++ b) -> NoDup a.
Proof. induction a as [|x a IH]; intros H; [constructor|]. inversion H; subst. constructor; [intros Q; apply H2; apply in_or_app; left; exact Q|apply IH; assumption]. Qed.
Lemma NoDup_app_r {B} (a b : list B) : NoDup (a ++ b) -> NoDup b.
Proof. induction a as [|x a IH]; intros H; [exact H|]. inversion H; subst. apply IH; assumption. Qed.
Lemma NoDup_app_disj {B} (a b : list B) x : NoDup (a ++ b) -> In x a -> In x b -> False.
Proof.
  induction a as [|y a IH]; intros H Ha Hb; [destruct Ha|]. inversion H; subst. destruct Ha as [->|Ha]; [|apply IH; assumption].
  apply H2. apply in_or_app. right. exact Hb.
Qed.

(** One pass of the loop. *)
Lemma round_ok : forall items (re : re_t), Forall wfi items -> NoDup (flat_map itgts items) ->
  exists items' re', round comp size data dist past perm_sort (acts_of items) re = Some (acts_of items', re') /\
    Forall wfi items' /\ flat_map itgts items' = flat_map itgts items /\
    (forall prev, chain prev items -> chain prev items') /\
    (forall t c, In (IDone t c) items' -> In (IDone t c) items \/ re' (S t) = c) /\
    (forall u, (forall a t, In (IAct a) items -> In t (itgts (IAct a)) -> u <> S t) -> re' u = re u) /\
    nsum (map isize items') + length (acts_of items) <= nsum (map isize items).
Proof.
  induction items as [|it items IH]; intros re Hw Hn.
  - exists [], re. cbn. repeat split; auto.
  - inversion Hw as [|? ? Hit Hw']; subst. cbn [flat_map] in Hn. pose proof (NoDup_app_r _ _ Hn) as Hn'.
    destruct it as [t0 c0|a].
    + destruct (IH re Hw' Hn') as (items' & re' & E & H1 & H2 & H3 & H4 & H5 & H6).
      exists (IDone t0 c0 :: items'), re'. cbn [acts_of flat_map app map nsum isize]. fold (acts_of items) (acts_of items'). split; [exact E|].
      split; [constructor; assumption|]. split; [rewrite H2; reflexivity|]. split; [|split; [|split]].
      * intros prev [C1 C2]. split; [exact C1|]. apply H3. exact C2.
      * intros t c [Q|Q]; [left; left; exact Q|]. destruct (H4 t c Q) as [Q'|Q']; [left; right; exact Q'|right; exact Q'].
      * intros u Hu. apply H5. intros a t Ha. apply Hu. right. exact Ha.
      * cbn. lia.
    + destruct (round1_ok a Hit) as (hits & news & its & E1 & A1 & W1 & T1 & D1 & C1 & M1).
      assert (Hfst : forall t, In t (map fst hits) -> In t (itgts (IAct a))).
      { intros t Ht. apply in_map_iff in Ht. destruct Ht as ([t' c] & <- & Hin). apply D1 in Hin. cbn [fst itgts]. rewrite <- T1. apply in_flat_map. exists (IDone t' c). split; [exact Hin|left; reflexivity]. }
      assert (Hnd : NoDup (map fst hits)).
      { unfold round1 in E1. destruct (all_below _ _); [|discriminate]. destruct (query a); [|discriminate]. cbv zeta in E1. destruct (forallb _ _); [|discriminate].
        injection E1 as <- _. rewrite map_map. cbn [fst]. rewrite map_id. apply seq_NoDup. }
      destruct (IH (write hits re) Hw' Hn') as (items' & re' & E & H1 & H2 & H3 & H4 & H5 & H6).
      exists (its ++ items'), re'. cbn [acts_of flat_map app round]. fold (acts_of items). rewrite E1. cbn [fst snd]. rewrite E. cbn [fst snd].
      split; [unfold acts_of; rewrite flat_map_app; fold (acts_of its) (acts_of items'); rewrite A1; reflexivity|].
      split; [apply Forall_app; split; assumption|].
      split; [rewrite flat_map_app, T1, H2; reflexivity|]. split; [|split; [|split]].
      * intros prev C. specialize (C1 items prev C). revert C1. clear -H3. revert prev. induction its as [|x its IHi]; intros prev C; cbn [app] in *; [apply H3; exact C|].
        destruct C as [Ca Cb]. split; [exact Ca|]. apply IHi. exact Cb.
      * intros t c Hin. apply in_app_or in Hin. destruct Hin as [Hin|Hin].
        -- right. apply D1 in Hin. rewrite H5; [apply write_spec; assumption|].
           intros b t' Hb Ht' Ee. injection Ee as <-. apply (NoDup_app_disj _ _ t Hn).
           ++ apply Hfst. apply in_map_iff. exists (t, c). auto.
           ++ apply in_flat_map. exists (IAct b). split; assumption.
        -- destruct (H4 t c Hin) as [Q|Q]; [left; right; exact Q|right; exact Q].
      * intros u Hu. rewrite H5; [apply write_other|].
        -- intros t Ht. apply (Hu a t); [left; reflexivity|apply Hfst; exact Ht].
        -- intros b t Hb. apply Hu. right. exact Hb.
      * rewrite map_app, nsum_app. cbn [map nsum isize length]. lia.
Qed.

(** The whole search. *)
Lemma loop_ok : forall fuel items (re : re_t), nsum (map isize items) <= fuel -> Forall wfi items -> NoDup (flat_map itgts items) ->
  (forall t c, In (IDone t c) items -> re (S t) = c) ->
  exists items' re', loop comp size data dist past perm_sort fuel (acts_of items) re = Some re' /\ acts_of items' = [] /\
    Forall wfi items' /\ flat_map itgts items' = flat_map itgts items /\
    (forall prev, chain prev items -> chain prev items') /\
    (forall t c, In (IDone t c) items' -> re' (S t) = c) /\
    (forall u, (forall t, In t (flat_map itgts items) -> u <> S t) -> re' u = re u).
Proof.
  induction fuel as [|fuel IH]; intros items re Hf Hw Hn Hd.
  - destruct (acts_of items) as [|a l] eqn:E.
    + exists items, re. cbn. repeat split; auto.
    + exfalso. assert (Hin : In a (acts_of items)) by (rewrite E; left; reflexivity). apply in_flat_map in Hin. destruct Hin as (it & Hit & Ha).
      destruct it as [|b]; [destruct Ha|]. destruct Ha as [->|[]]. rewrite Forall_forall in Hw. pose proof (Hw _ Hit) as Wa. cbn in Wa.
      destruct (round1_ok a Wa) as (_ & _ & its & _ & _ & _ & _ & _ & _ & M).
      assert (isize (IAct a) <= nsum (map isize items)); [|cbn [isize] in H; lia].
      clear -Hit. induction items as [|x l IH]; [destruct Hit|]. cbn [map nsum]. destruct Hit as [->|Hit]; [lia|]. specialize (IH Hit). lia.
  - destruct (acts_of items) as [|a l] eqn:E.
    + exists items, re. cbn. repeat split; auto.
    + cbn [loop]. destruct (round_ok items re Hw Hn) as (items1 & re1 & E1 & H1 & H2 & H3 & H4 & H5 & H6). rewrite E in E1, H6. rewrite E1. cbn [fst snd length] in *.
      destruct (IH items1 re1) as (items2 & re2 & E2 & K1 & K2 & K3 & K4 & K5 & K6).
      * lia.
      * exact H1.
      * rewrite H2. exact Hn.
      * intros t c Hin. destruct (H4 t c Hin) as [Q|Q]; [|exact Q]. rewrite H5; [apply Hd; exact Q|].
        intros b t' Hb Ht' Ee. injection Ee as <-. apply in_split in Q. destruct Q as (u & v & ->). rewrite flat_map_app in Hn. cbn [flat_map itgts app] in Hn.
        apply in_app_or in Hb. destruct Hb as [Hb|[Hb|Hb]]; [|discriminate|].
        -- apply (NoDup_app_disj _ _ t Hn); [apply in_flat_map; exists (IAct b); auto|left; reflexivity].
        -- apply NoDup_app_r in Hn. inversion Hn as [|? ? Hx _]. apply Hx. apply in_flat_map. exists (IAct b). auto.
      * exists items2, re2. split; [exact E2|]. split; [exact K1|]. split; [exact K2|]. split; [rewrite K3; exact H2|]. split; [|split].
        -- intros prev C. apply K4, H3, C.
        -- exact K5.
        -- intros u Hu. rewrite K6 by (rewrite H2; exact Hu). apply H5. intros b t Hb Ht. apply Hu. apply in_flat_map. exists (IAct b). auto.
Qed.

Definition total : nat := sumto size dist.
Lemma data_cut : cut (fun i => length (data i)).
Proof.
  split; [intros i Hi; lia|]. intros i j p p' x y Hi Hj Hp Hp' Ex Ey. assert (nth_error (data j) p' <> None) by congruence. apply nth_error_Some in H. lia.
Qed.
Lemma zero_cut : cut (fun _ => 0).
Proof. split; [intros i Hi; lia|]. intros; lia. Qed.

(** The right ends: cuts with the requested sums, increasing in the target. *)
Lemma split_ok fuel : total <= fuel -> exists re, split comp size data dist past perm_sort fuel = Some re /\
  (forall i, i < size -> re 0 i = 0) /\ (forall i, i < size -> re size i = dist i) /\
  (forall u, u <= size -> cut (re u) /\ sumto size (re u) = sumto u dist) /\
  (forall u, u < size -> vle (re u) (re (S u))).
Proof.
  intros Hf. unfold split. set (a0 := Act (fun _ => 0) (fun i => length (data i)) dist (fun _ => 0) 0 (size - 1)).
  assert (Elen : sumto size (fun i => length (data i)) = sumto size dist) by (apply sumto_ext; intros; symmetry; apply Hdist; assumption).
  assert (W0 : wfa a0).
  { constructor; cbn [a0 dfst dsnd subdist outleft tlo thi].
    - apply zero_cut.
    - apply data_cut.
    - intros i Hi. lia.
    - intros i Hi. rewrite Hdist by assumption. lia.
    - reflexivity.
    - lia.
    - intros t Ht. rewrite sumto_zero, Elen. unfold PSort_model.target. split; [|apply sumto_mono; lia].
      apply Nat.lt_le_trans with (sumto 1 dist); [cbn; lia|apply sumto_mono; lia]. }
  set (re0 := (fun u => if u =? size then dist else fun _ => 0) : re_t).
  destruct (loop_ok fuel [IAct a0] re0) as (items & re & E & H1 & H2 & H3 & H4 & H5 & H6).
  - cbn [map nsum isize a0 subdist]. unfold total in Hf. lia.
  - constructor; [exact W0|constructor].
  - cbn [flat_map itgts app]. rewrite app_nil_r. apply seq_NoDup.
  - intros t c [Q|[]]. discriminate.
  - change (acts_of [IAct a0]) with [a0] in E. exists re. split; [exact E|].
    cbn [flat_map itgts app a0 tlo thi] in H3, H6. rewrite app_nil_r, Nat.sub_0_r in H3, H6.
    assert (R0 : forall i, re 0 i = 0). { intros i. rewrite H6 by (intros; lia). unfold re0. rewrite (proj2 (Nat.eqb_neq _ _)) by lia. reflexivity. }
    assert (Rs : forall i, re size i = dist i). { intros i. rewrite H6 by (intros t Ht; apply in_seq in Ht; lia). unfold re0. rewrite Nat.eqb_refl. reflexivity. }
    assert (C0 : chain (fun _ => 0) items). { apply H4. cbn. split; intros i Hi; lia. }
    (* the items are the settled targets 0, ..., size-2 in order *)
    assert (G : forall its k prev, acts_of its = [] -> flat_map itgts its = seq k (length its) -> chain prev its -> Forall wfi its ->
      (forall t c, In (IDone t c) its -> re (S t) = c) ->
      (forall t, k <= t < k + length its -> cut (re (S t)) /\ sumto size (re (S t)) = target t) /\
      (0 < length its -> vle prev (re (S k))) /\
      (forall t, k <= t -> S t < k + length its -> vle (re (S t)) (re (S (S t)))) /\
      (0 < length its -> vle (re (k + length its)) (fun i => length (data i)))).
    { clear -size. induction its as [|it its IH]; intros k prev Ha Ht Hc Hw Hd.
      - cbn. repeat split; intros; lia.
      - destruct it as [t c|a]; [|cbn in Ha; discriminate]. cbn [acts_of flat_map app] in Ha. fold (acts_of its) in Ha.
        cbn [flat_map itgts app length seq] in Ht. injection Ht as -> Ht. destruct Hc as [Hc1 Hc2]. cbn [ilo ihi] in Hc1, Hc2. inversion Hw as [|? ? Hw1 Hw2]; subst.
        assert (Ec : re (S k) = c) by (apply Hd; left; reflexivity). destruct Hw1 as [Hw1a Hw1b].
        destruct (IH (S k) c Ha Ht Hc2 Hw2 ltac:(intros t' c' Hin; apply Hd; right; exact Hin)) as (G1 & G2 & G3 & G4). cbn [length].
        split; [|split; [|split]].
        + intros t Hr. destruct (Nat.eq_dec t k) as [->|]; [rewrite Ec; auto|apply G1; lia].
        + intros _. rewrite Ec. exact Hc1.
        + intros t Hr Hr'. destruct (Nat.eq_dec t k) as [->|]; [rewrite Ec; apply G2; lia|apply G3; lia].
        + intros _. destruct its as [|x its]; [cbn [length chain] in *; rewrite Nat.add_1_r, Ec; exact Hc2|].
          cbn [length] in *. replace (k + S (S (length its))) with (S k + S (length its)) by lia. apply G4. lia. }
    assert (Elen' : length items = size - 1).
    { assert (Q : forall its, acts_of its = [] -> length (flat_map itgts its) = length its).
      { clear. induction its as [|it its IH]; intros Ha; [reflexivity|]. destruct it; [|cbn in Ha; discriminate]. cbn. f_equal. apply IH. exact Ha. }
      rewrite <- (Q items H1), H3. apply seq_length. }
    destruct (G items 0 (fun _ => 0) H1) as (G1 & G2 & G3 & G4); auto.
    { rewrite H3, Elen'. reflexivity. }
    rewrite Elen' in *. cbn [Nat.add] in *.
    split; [intros; apply R0|]. split; [intros; apply Rs|]. split.
    + intros u Hu. destruct u as [|u].
      * split; [|rewrite (sumto_ext size (re 0) (fun _ => 0)) by (intros; apply R0); apply sumto_zero].
        split; [intros i Hi; rewrite R0; lia|]. intros i j p p' x y Hi Hj Hp. rewrite R0 in Hp. lia.
      * destruct (Nat.eq_dec (S u) size) as [->|Hne].
        -- split; [|apply sumto_ext; intros; apply Rs].
           split; [intros i Hi; rewrite Rs, Hdist by assumption; lia|]. intros i j p p' x y Hi Hj Hp Hp' Ex Ey.
           rewrite Rs, Hdist in Hp' by assumption. assert (nth_error (data j) p' <> None) by congruence. apply nth_error_Some in H. lia.
        -- apply G1. lia.
    + intros u Hu. destruct u as [|u]; [intros i Hi; rewrite R0; lia|].
      destruct (Nat.eq_dec (S (S u)) size) as [Ee|Hne].
      * rewrite Ee. intros i Hi. rewrite Rs, Hdist by assumption. replace (S u) with (size - 1) by lia. apply (G4 ltac:(lia) i Hi).
      * apply G3; lia.
Qed.
End Split.
