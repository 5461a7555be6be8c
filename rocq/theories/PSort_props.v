(** C20, C21, C60: the particle orderings, the parallel sort and the balance. *)
From Coq Require Import Permutation Sorted.
From Verif Require Import Base BuildTree_model Exchange_model Exchange_props PSort_model PSort_proofs.

(** ** C20 *)
(** irreflexive, asymmetric, transitive, incomparability transitive *)
Definition strict_weak {A} (c : A -> A -> bool) : Prop :=
  (forall x, c x x = false) /\ (forall x y, c x y = true -> c y x = false) /\
  (forall x y z, c x y = true -> c y z = true -> c x z = true) /\
  (forall x y z, c x y = false -> c y x = false -> c y z = false -> c z y = false -> c x z = false /\ c z x = false).

Lemma body_comp_iff l r : body_comp l r = true <-> (sb_key l < sb_key r \/ sb_key l = sb_key r /\ sb_id l < sb_id r)%N.
Proof.
  unfold body_comp. destruct (N.ltb_spec (sb_key l) (sb_key r)); [split; auto|]. destruct (N.eqb_spec (sb_key l) (sb_key r)).
  - rewrite N.ltb_lt. split; [intros; right; auto|intros [?|[_ ?]]; [lia|assumption]].
  - split; [discriminate|intros [?|[? _]]; lia].
Qed.
Lemma body_comp_false l r : body_comp l r = false <-> (sb_key r < sb_key l \/ sb_key l = sb_key r /\ sb_id r <= sb_id l)%N.
Proof. pose proof (body_comp_iff l r) as H. destruct (body_comp l r); split; intros; try discriminate; try reflexivity; [exfalso; pose proof (proj1 H eq_refl); lia|].
  assert (~ (sb_key l < sb_key r \/ sb_key l = sb_key r /\ sb_id l < sb_id r)%N) by (intros Q; apply H in Q; discriminate). lia. Qed.
Theorem C20_body_comp : strict_weak body_comp.
Proof.
  split; [|split; [|split]].
  - intros x. apply body_comp_false. lia.
  - intros x y H. apply body_comp_iff in H. apply body_comp_false. lia.
  - intros x y z H1 H2. apply body_comp_iff in H1, H2. apply body_comp_iff. lia.
  - intros x y z H1 H2 H3 H4. apply body_comp_false in H1, H2, H3, H4. rewrite !body_comp_false. lia.
Qed.
(** Two particles with different ids are never tied. *)
Theorem C20_body_comp_total x y : sb_id x <> sb_id y -> body_comp x y = true \/ body_comp y x = true.
Proof. intros H. rewrite !body_comp_iff. lia. Qed.
Example C20_case : body_comp (SBody 9 1) (SBody 9 2) = true /\ body_comp (SBody 9 2) (SBody 9 1) = false /\ body_comp (SBody 8 7) (SBody 9 1) = true.
Proof. repeat split. Qed.
(** entity::operator< is reflexive. *)
Theorem C20_entity_less_refuted : exists x y, entity_less x x = true /\ entity_less x y = true /\ entity_less y x = true /\ x <> y.
Proof. exists (SBody 5 1), (SBody 5 2). repeat split; discriminate. Qed.

Lemma body_comp_swo : swo body_comp.
Proof.
  constructor.
  - apply C20_body_comp.
  - intros a b c. apply C20_body_comp.
  - intros a b c H1 H2. apply body_comp_false in H1, H2. apply body_comp_false. lia.
Qed.

(** ** C21 *)
Lemma sorted_local {A} (comp : A -> A -> bool) l : StronglySorted (fun x y => comp y x = false) l -> locally_sorted comp l.
Proof.
  induction 1 as [|a l H IH F]; intros p p' x y Hp Ex Ey; [destruct p; discriminate|]. destruct p' as [|p']; [lia|]. destruct p as [|p]; cbn in Ex, Ey.
  - injection Ex as <-. rewrite Forall_forall in F. apply (F y). eapply nth_error_In. exact Ey.
  - apply (IH p p'); [lia|assumption|assumption].
Qed.
Lemma ssorted_app {A} (R : A -> A -> Prop) a b : StronglySorted R a -> StronglySorted R b -> (forall x y, In x a -> In y b -> R x y) -> StronglySorted R (a ++ b).
Proof.
  intros Ha Hb H. induction Ha as [|x a Ha IH F]; [exact Hb|]. cbn. constructor; [apply IH; intros; apply H; [right|]; assumption|].
  apply Forall_app. split; [exact F|]. apply Forall_forall. intros y Hy. apply H; [left; reflexivity|exact Hy].
Qed.
Lemma ssorted_blocks {A} (R : A -> A -> Prop) (f : nat -> list A) n : (forall i, i < n -> StronglySorted R (f i)) ->
  (forall i j x y, i < j < n -> In x (f i) -> In y (f j) -> R x y) -> StronglySorted R (flat_map f (seq 0 n)).
Proof.
  induction n as [|n IH]; intros H1 H2; [constructor|]. rewrite seq_S, flat_map_app. cbn [Nat.add flat_map]. rewrite app_nil_r. apply ssorted_app.
  - apply IH; [intros; apply H1; lia|intros i j x y Hij; apply H2; lia].
  - apply H1. lia.
  - intros x y Hx Hy. apply in_flat_map in Hx. destruct Hx as (i & Hi & Hx). apply in_seq in Hi. apply (H2 i n x y); [lia|assumption|assumption].
Qed.
Lemma flat_map_perm {A B} (f g : A -> list B) l : (forall x, In x l -> Permutation (f x) (g x)) -> Permutation (flat_map f l) (flat_map g l).
Proof. induction l as [|x l IH]; intros H; [constructor|]. cbn. apply Permutation_app; [apply H; left; reflexivity|apply IH; intros; apply H; right; assumption]. Qed.
Lemma flat_map_swap {A B C} (f : A -> B -> list C) la lb : Permutation (flat_map (fun a => flat_map (f a) lb) la) (flat_map (fun b => flat_map (fun a => f a b) la) lb).
Proof.
  induction la as [|a la IH]; cbn; [induction lb; [constructor|assumption]|]. rewrite IH. clear IH.
  induction lb as [|b lb IH]; cbn; [constructor|]. rewrite <- IH. rewrite <- !app_assoc. apply Permutation_app_head. rewrite !app_assoc. apply Permutation_app_tail. apply Permutation_app_comm.
Qed.
Lemma in_sub_nth {B} (l : list B) k c x : In x (firstn c (skipn k l)) -> exists p, k <= p < k + c /\ nth_error l p = Some x.
Proof.
  intros H. apply In_nth_error in H. destruct H as [q H]. assert (q < c).
  { assert (nth_error (firstn c (skipn k l)) q <> None) by congruence. apply nth_error_Some in H0. rewrite firstn_length in H0. lia. }
  rewrite nth_error_first in H by assumption. rewrite nth_error_skip in H. exists (k + q). split; [lia|exact H].
Qed.
Lemma zsum_map_ext {B} (f g : B -> Z) l : (forall x, In x l -> f x = g x) -> zsum (map f l) = zsum (map g l).
Proof. intros H. f_equal. apply map_ext_in. exact H. Qed.
Lemma zsum_seq_sub (f g : nat -> nat) n : zsum (map (fun i => Z.of_nat (f i) - Z.of_nat (g i))%Z (seq 0 n)) = (Z.of_nat (sumto n f) - Z.of_nat (sumto n g))%Z.
Proof. induction n as [|n IH]; [reflexivity|]. rewrite seq_S, map_app, zsum_app, IH. cbn. lia. Qed.
Lemma zsum_telescope (f : nat -> nat) n : zsum (map (fun i => Z.of_nat (f (S i)) - Z.of_nat (f i))%Z (seq 0 n)) = (Z.of_nat (f n) - Z.of_nat (f 0%nat))%Z.
Proof. induction n as [|n IH]; [cbn; lia|]. rewrite seq_S, map_app, zsum_app, IH. cbn. lia. Qed.
Lemma firstn_seq k n : k <= n -> firstn k (seq 0 n) = seq 0 k.
Proof. intros H. replace n with (k + (n - k)) by lia. rewrite seq_app. rewrite firstn_app, seq_length, Nat.sub_diag, firstn_O, app_nil_r. apply firstn_all2. rewrite seq_length. lia. Qed.
Lemma all_some_map {B} (l : list B) : all_some (map Some l) = Some l.
Proof. induction l as [|x l IH]; [reflexivity|]. cbn. rewrite IH. reflexivity. Qed.
Lemma map_seq_nth {B} (f : nat -> B) n i d : i < n -> nth i (map f (seq 0 n)) d = f i.
Proof. intros H. rewrite (nth_indep _ d (f 0)) by (rewrite map_length, seq_length; exact H). rewrite map_nth, seq_nth by exact H. reflexivity. Qed.

Section Psort.
Context {A : Type} (comp : A -> A -> bool) (past : nat -> nat -> A) (perm_sort : (nat -> A) -> list nat -> list nat) (sortA : list A -> list A).
Context (size : nat) (vec : nat -> list A) (dist : nat -> nat) (order : nat -> list nat).

(** what the standard library's sort guarantees *)
Definition sorts : Prop := forall l, Permutation (sortA l) l /\ StronglySorted (fun x y => comp y x = false) (sortA l).

Section Proof.
Hypothesis (HC : swo comp).
Hypothesis (Hperm : forall w l, Permutation (perm_sort w l) l) (HS : sorts).
Hypothesis (Hdist : forall r, r < size -> dist r = length (vec r) /\ (Z.of_nat (dist r) < 2 ^ 31)%Z).
Hypothesis (Hsize : 1 <= size) (Hfirst : 0 < dist 0) (Htail : forall i j, i < j -> j < size -> dist i = 0 -> dist j = 0).
Hypothesis (Horder : forall r, Permutation (order r) (seq 0 size)).

Lemma psort_ok fuel : sumto size dist <= fuel -> exists out,
  (forall r, r < size -> psort comp past perm_sort sortA size vec dist fuel order r = Some (out r)) /\
  (forall r, r < size -> length (out r) = dist r) /\
  Permutation (flat_map out (seq 0 size)) (flat_map vec (seq 0 size)) /\
  StronglySorted (fun x y => comp y x = false) (flat_map out (seq 0 size)).
Proof.
  intros Hf. set (data := fun r => sortA (vec r)). destruct (Nat.eq_dec size 1) as [E1|E1].
  - exists data. unfold psort. rewrite (proj2 (Nat.eqb_eq _ _) E1). subst size. split; [reflexivity|]. split; [|split].
    + intros r Hr. unfold data. rewrite (Permutation_length (proj1 (HS (vec r)))). symmetry. apply Hdist. exact Hr.
    + apply flat_map_perm. intros r _. apply HS.
    + cbn. rewrite app_nil_r. apply HS.
  - assert (Hlen : forall r, r < size -> dist r = length (data r)).
    { intros r Hr. unfold data. rewrite (Permutation_length (proj1 (HS (vec r)))). apply Hdist. exact Hr. }
    destruct (split_ok comp HC size data dist past perm_sort Hperm) with (fuel := fuel) as (re & Es & R0 & Rs & Rc & Rm); auto; [intros; apply sorted_local, HS|lia|].
    assert (Mono : forall u v r, u <= v -> v <= size -> r < size -> re u r <= re v r).
    { intros u v r Huv. induction Huv as [|v Huv IH]; intros Hv Hr; [lia|]. specialize (IH ltac:(lia) Hr). pose proof (Rm v ltac:(lia) r Hr). lia. }
    set (counts := send_counts size re). set (bufs := map data (seq 0 size)).
    assert (Ln : length counts = size) by (unfold counts, send_counts; rewrite map_length, seq_length; reflexivity).
    assert (Lrow : forall r, r < size -> nth r counts [] = map (fun i => (Z.of_nat (re (S i) r) - Z.of_nat (re i r))%Z) (seq 0 size)).
    { intros r Hr. unfold counts, send_counts. rewrite (map_seq_nth (fun r => map (fun i => (Z.of_nat (re (S i) r) - Z.of_nat (re i r))%Z) (seq 0 size)) size r [] Hr). reflexivity. }
    assert (Lbuf : forall r, r < size -> nth r bufs [] = data r) by (intros r Hr; unfold bufs; apply map_seq_nth; exact Hr).
    assert (Lcol : forall i, i < size -> zsum (map (fun row => nth i row 0%Z) counts) = Z.of_nat (dist i)).
    { intros i Hi. unfold counts, send_counts. rewrite map_map.
      rewrite (zsum_map_ext _ (fun r => (Z.of_nat (re (S i) r) - Z.of_nat (re i r))%Z)) by (intros r _; apply (map_seq_nth (fun i => (Z.of_nat (re (S i) r) - Z.of_nat (re i r))%Z)); exact Hi).
      rewrite zsum_seq_sub. destruct (Rc (S i) ltac:(lia)) as [_ ->]. destruct (Rc i ltac:(lia)) as [_ ->]. cbn [sumto]. lia. }
    assert (Lsum : forall r, r < size -> zsum (nth r counts []) = Z.of_nat (dist r)).
    { intros r Hr. rewrite Lrow by exact Hr. rewrite (zsum_telescope (fun u => re u r)), Rs, R0 by exact Hr. lia. }
    assert (X : exchange_ok 1 counts bufs).
    { constructor; rewrite ?Ln.
      - lia.
      - unfold bufs. rewrite map_length, seq_length. reflexivity.
      - intros r Hr. split; [|split].
        + rewrite Lrow by exact Hr. rewrite map_length, seq_length. reflexivity.
        + rewrite Lrow by exact Hr. apply Forall_forall. intros c Hc. apply in_map_iff in Hc. destruct Hc as (i & <- & Hi). apply in_seq in Hi. pose proof (Rm i ltac:(lia) r Hr). lia.
        + rewrite Lsum by exact Hr. destruct (Hdist r Hr). lia.
      - intros r Hr. rewrite Lbuf, Lsum, Hlen by exact Hr. reflexivity.
      - intros i Hi. rewrite Lcol by exact Hi. destruct (Hdist i Hi). lia. }
    set (got := fun i => flat_map (fun r => segment counts bufs r i) (seq 0 size)).
    assert (Sg : forall r i, r < size -> i < size -> segment counts bufs r i = firstn (re (S i) r - re i r) (skipn (re i r) (data r))).
    { intros r i Hr Hi. unfold segment. cbv zeta. rewrite Lrow, Lbuf by exact Hr.
      rewrite (map_seq_nth (fun i => (Z.of_nat (re (S i) r) - Z.of_nat (re i r))%Z) size i 0%Z Hi). rewrite firstn_map, firstn_seq by lia. rewrite (zsum_telescope (fun u => re u r)), R0 by exact Hr.
      f_equal; [lia|f_equal; lia]. }
    assert (Lgot : forall i, i < size -> Z.of_nat (length (got i)) = Z.of_nat (dist i)).
    { intros i Hi. rewrite <- (Lcol i Hi). change (map (fun row => nth i row 0%Z) counts) with (recvcount counts i).
      pose proof (recvcount_prefix 1 counts bufs X i size ltac:(lia) ltac:(lia)) as Q. rewrite firstn_all2 in Q by (unfold recvcount; rewrite map_length; lia). rewrite Q. f_equal.
      unfold got, slen. rewrite flat_map_concat_map. generalize (seq 0 size). intros l. induction l as [|x l IH]; [reflexivity|]. cbn. rewrite app_length, IH. reflexivity. }
    exists (fun i => sortA (got i)). split; [|split; [|split]].
    + intros r Hr. unfold psort. rewrite (proj2 (Nat.eqb_neq _ _) E1). cbv zeta. fold data. rewrite Es. unfold psort_rank. cbv zeta. fold counts bufs.
      assert (F : forallb (forallb (fun c => (0 <=? c)%Z)) counts = true).
      { apply forallb_forall. intros row Hrow. apply (In_nth _ _ []) in Hrow. destruct Hrow as (k & Hk & <-). apply forallb_forall. intros c Hc. apply Z.leb_le.
        destruct (xo_row _ _ _ X k Hk) as (_ & Q & _). rewrite Forall_forall in Q. apply Q. exact Hc. }
      rewrite F. rewrite fold_zsum. unfold recvcount. rewrite Lcol by exact Hr. rewrite (Hlen r Hr), Z.add_0_l, Z.eqb_refl.
      pose proof (C24_alltoallv 1 counts bufs X r (order r)) as Q. rewrite Ln in Q. rewrite (Q Hr (Horder r)). fold (got r). rewrite all_some_map. reflexivity.
    + intros r Hr. rewrite (Permutation_length (proj1 (HS (got r)))). pose proof (Lgot r Hr). lia.
    + etransitivity; [apply (flat_map_perm _ got); intros; apply HS|]. unfold got. etransitivity; [apply (flat_map_swap (fun i r => segment counts bufs r i))|].
      apply flat_map_perm. intros r Hr. apply in_seq in Hr. pose proof (C24_segments_partition 1 counts bufs X r) as Q. rewrite Ln in Q. cbv beta. rewrite Lbuf in Q by lia. specialize (Q ltac:(lia)). eapply Permutation_trans; [apply Permutation_refl'; exact Q|apply HS].
    + apply ssorted_blocks; [intros; apply HS|]. intros i j x y Hij Hx Hy.
      apply (Permutation_in _ (proj1 (HS (got i)))) in Hx. apply (Permutation_in _ (proj1 (HS (got j)))) in Hy.
      apply in_flat_map in Hx, Hy. destruct Hx as (r & Hr & Hx), Hy as (r' & Hr' & Hy). apply in_seq in Hr, Hr'. rewrite Sg in Hx, Hy by lia.
      apply in_sub_nth in Hx, Hy. destruct Hx as (p & Hp & Ex), Hy as (p' & Hp' & Ey).
      destruct (Rc (S i) ltac:(lia)) as [[_ Cut] _]. apply (Cut r r' p p' x y); [lia|lia| | |exact Ex|exact Ey].
      * pose proof (Rm i ltac:(lia) r ltac:(lia)). lia.
      * pose proof (Mono (S i) j r' ltac:(lia) ltac:(lia) ltac:(lia)). lia.
Qed.
End Proof.

(** The sort as used: every rank asks for what it has, only ranks at the end are
    empty.  Then every rank finishes, the concatenation is a sorted permutation
    and every rank has what it asked for, whatever order messages arrive in,
    however ties are broken and whatever lies behind the arrays. *)
Theorem C21_psort fuel : swo comp -> (forall w l, Permutation (perm_sort w l) l) -> sorts ->
  (forall r, r < size -> dist r = length (vec r) /\ (Z.of_nat (dist r) < 2 ^ 31)%Z) ->
  1 <= size -> 0 < dist 0 -> (forall i j, i < j -> j < size -> dist i = 0 -> dist j = 0) ->
  (forall r, Permutation (order r) (seq 0 size)) -> sumto size dist <= fuel ->
  exists out,
    (forall r, r < size -> psort comp past perm_sort sortA size vec dist fuel order r = Some (out r)) /\
    (forall r, r < size -> length (out r) = dist r) /\
    Permutation (flat_map out (seq 0 size)) (flat_map vec (seq 0 size)) /\
    StronglySorted (fun x y => comp y x = false) (flat_map out (seq 0 size)).
Proof. intros. apply psort_ok; assumption. Qed.

(** With any other request the first assertion stops the run. *)
Theorem C21_other_request fuel r : sorts -> size <> 1 -> (exists k, k < size /\ dist k <> length (vec k)) ->
  psort comp past perm_sort sortA size vec dist fuel order r = None.
Proof.
  intros HS H1 (k & Hk & Hd). unfold psort. rewrite (proj2 (Nat.eqb_neq _ _) H1). cbv zeta. unfold split. destruct fuel as [|f]; [reflexivity|]. cbn [loop round].
  unfold round1. cbn [subdist dsnd dfst].
  assert (F : all_below size (fun i => (Z.of_nat (dist i) =? Z.of_nat (length (sortA (vec i))) - Z.of_nat 0)%Z) = false).
  { clear H1. revert k Hk Hd. induction size as [|n IH]; intros k Hk Hd; [lia|]. cbn [all_below]. destruct (Nat.eq_dec k n) as [->|Hne]; [|rewrite (IH k) by (auto; lia); apply andb_false_r].
    rewrite (proj2 (Z.eqb_neq _ _)); [reflexivity|]. rewrite (Permutation_length (proj1 (HS (vec n)))). lia. }
  rewrite F. reflexivity.
Qed.
End Psort.

(** A concrete run: three ranks, equal keys across ranks. *)
Fixpoint insert {A} (c : A -> A -> bool) (x : A) (l : list A) : list A :=
  match l with [] => [x] | y :: r => if c y x then y :: insert c x r else x :: l end.
Definition isort {A} (c : A -> A -> bool) (l : list A) : list A := fold_right (insert c) [] l.
Definition psort_idx {A} (c : A -> A -> bool) (w : nat -> A) (l : list nat) : list nat := isort (fun a b => c (w a) (w b)) l.
Lemma insert_perm {A} (c : A -> A -> bool) x l : Permutation (insert c x l) (x :: l).
Proof. induction l as [|y l IH]; cbn; [constructor; constructor|]. destruct (c y x); [|reflexivity]. rewrite IH. constructor. Qed.
Lemma isort_perm {A} (c : A -> A -> bool) l : Permutation (isort c l) l.
Proof. induction l as [|y l IH]; cbn; [constructor|]. rewrite insert_perm. constructor. exact IH. Qed.
Lemma insert_sorted {A} (c : A -> A -> bool) (HC : swo c) x l : StronglySorted (fun x y => c y x = false) l -> StronglySorted (fun x y => c y x = false) (insert c x l).
Proof.
  induction 1 as [|y l H IH F]; cbn; [repeat constructor|]. destruct (c y x) eqn:E.
  - constructor; [exact IH|]. apply Forall_forall. intros z Hz. apply (Permutation_in _ (insert_perm c x l)) in Hz. destruct Hz as [<-|Hz]; [apply (lt_le c HC); exact E|].
    rewrite Forall_forall in F. apply F. exact Hz.
  - constructor; [constructor; assumption|]. constructor; [exact E|]. rewrite Forall_forall in F |- *. intros z Hz. apply (swo_neg _ HC z y x); [apply F; exact Hz|exact E].
Qed.
Lemma isort_sorted {A} (c : A -> A -> bool) (HC : swo c) l : StronglySorted (fun x y => c y x = false) (isort c l).
Proof. induction l as [|x l IH]; cbn; [constructor|]. apply insert_sorted; assumption. Qed.
Lemma isort_sorts {A} (c : A -> A -> bool) (HC : swo c) : sorts c (isort c).
Proof. intros l. split; [apply isort_perm|apply isort_sorted, HC]. Qed.

Definition run3 (a b c : list sbody) (r : nat) : option (list sbody) :=
  redistribute (fun _ _ => SBody 0 0) (psort_idx body_comp) (isort body_comp) 3 (fun r => nth r [a; b; c] []) 20 (fun _ => [2; 0; 1]) r.
Example C21_case :
  map (run3 [SBody 7 1; SBody 3 2; SBody 7 6] [SBody 3 3] [SBody 1 4; SBody 7 5]) [0; 1; 2] =
  [Some [SBody 1 4; SBody 3 2; SBody 3 3]; Some [SBody 7 1]; Some [SBody 7 5; SBody 7 6]].
Proof. vm_compute. reflexivity. Qed.
(** An empty rank before a full one: the query search fails its assertion. *)
Theorem C21_empty_rank_refuted : exists a b c, b = [] /\ (forall r, r < 3 -> run3 a b c r = None).
Proof.
  exists [SBody 5 1], [], [SBody 1 2; SBody 2 3]. split; [reflexivity|]. intros r Hr. assert (Q : r = 0 \/ r = 1 \/ r = 2) by lia. destruct Q as [ -> | [ -> | -> ] ]; vm_compute; reflexivity.
Qed.
(** An empty first rank: at(0) of an empty vector throws, whatever the other ranks
    hold. *)
Theorem C21_first_empty_refuted : exists a, forall b c r, run3 a b c r = None.
Proof. exists []. intros b c r. unfold run3, redistribute, psort, split, loop, round, round1. cbn [Nat.eqb]. destruct (all_below _ _); reflexivity. Qed.
(** Reads outside the arrays do happen: after the first pass for one particle per
    rank, some rank's median is behind its array. *)
Definition first_pass (data : nat -> list sbody) (dist : nat -> nat) (size : nat) : option (list active) :=
  option_map fst (round body_comp size data dist (fun _ _ => SBody 0 0) (psort_idx body_comp)
    [Act (fun _ => 0) (fun i => length (data i)) dist (fun _ => 0) 0 (size - 1)] (fun _ _ => 0)).
Theorem C21_reads_inside_refuted : exists data : nat -> list sbody, exists acts, (forall r, r < 3 -> length (data r) = 1) /\
  first_pass data (fun _ => 1) 3 = Some acts /\ exists a, In a acts /\ exists i, i < 3 /\ length (data i) <= dfst a i + subdist a i / 2.
Proof.
  exists (fun r => nth r [[SBody 1 1]; [SBody 2 2]; [SBody 3 3]] []).
  destruct (first_pass (fun r => nth r [[SBody 1 1]; [SBody 2 2]; [SBody 3 3]] []) (fun _ => 1) 3) as [acts|] eqn:E; [|vm_compute in E; discriminate].
  exists acts. split; [intros r Hr; destruct r as [|[|[|r]]]; try reflexivity; lia|]. split; [reflexivity|].
  unfold first_pass in E. cbn in E. injection E as <-. eexists. split; [left; reflexivity|]. exists 0. cbn. lia.
Qed.

(** ** C60: the sort never moves the balance. *)
Theorem C60_sizes_unchanged past perm_sort sortA size vec fuel order : (forall w l, Permutation (perm_sort w l) l) -> sorts body_comp sortA ->
  (forall r, r < size -> (Z.of_nat (length (vec r)) < 2 ^ 31)%Z /\ vec r <> []) -> 1 <= size -> (forall r, Permutation (order r) (seq 0 size)) ->
  sumto size (fun r => length (vec r)) <= fuel ->
  forall r, r < size -> exists out, redistribute past perm_sort sortA size vec fuel order r = Some out /\ length out = length (vec r).
Proof.
  intros H1 H2 H3 H4 H5 H6 r Hr. assert (NE : forall k, k < size -> length (vec k) <> 0) by (intros k Hk Q; apply (proj2 (H3 k Hk)); apply length_zero_iff_nil; exact Q).
  destruct (C21_psort body_comp past perm_sort sortA size vec (fun r => length (vec r)) order fuel body_comp_swo H1 H2) as (out & E & L & _).
  - intros k Hk. split; [reflexivity|apply H3; exact Hk].
  - exact H4.
  - pose proof (NE 0 ltac:(lia)). lia.
  - intros i j Hij Hj Q. exfalso. apply (NE i); [lia|exact Q].
  - exact H5.
  - exact H6.
  - exists (out r). split; [apply E; exact Hr|apply L; exact Hr].
Qed.
Theorem C60_balance_refuted : exists a b c x y z, run3 a b c 0 = Some x /\ run3 a b c 1 = Some y /\ run3 a b c 2 = Some z /\ length x > length y + 1.
Proof.
  exists [SBody 7 1; SBody 3 2; SBody 7 6], [SBody 3 3], [SBody 1 4; SBody 7 5]. do 3 eexists. split; [vm_compute; reflexivity|]. split; [vm_compute; reflexivity|]. split; [vm_compute; reflexivity|]. cbn. lia.
Qed.

Print Assumptions C20_body_comp.
Print Assumptions C20_body_comp_total.
Print Assumptions C20_entity_less_refuted.
Print Assumptions C21_psort.
Print Assumptions C21_other_request.
Print Assumptions C21_empty_rank_refuted.
Print Assumptions C21_first_empty_refuted.
Print Assumptions C21_reads_inside_refuted.
Print Assumptions C60_sizes_unchanged.
Print Assumptions C60_balance_refuted.
