(** C24: exchange helpers. *)
From Coq Require Import Permutation.
From Verif Require Import Base BuildTree_model Exchange_model.
Local Open Scope Z_scope.

Fixpoint nsum (l : list nat) : nat := match l with [] => 0 | x :: r => x + nsum r end%nat.
Lemma nsum_app a b : nsum (a ++ b) = (nsum a + nsum b)%nat.
Proof. induction a as [|x a IH]; cbn [nsum app]; lia. Qed.
Fixpoint zsum (l : list Z) : Z := match l with [] => 0 | x :: r => x + zsum r end.
Lemma zsum_app a b : zsum (a ++ b) = zsum a + zsum b.
Proof. induction a as [|x a IH]; cbn [zsum app]; lia. Qed.
Lemma zsum_nonneg l : Forall (fun c => 0 <= c) l -> 0 <= zsum l.
Proof. induction 1; cbn [zsum]; lia. Qed.
Lemma zsum_firstn_le l i : Forall (fun c => 0 <= c) l -> 0 <= zsum (firstn i l) <= zsum l.
Proof.
  intros H. rewrite <- (firstn_skipn i l) in H at 1. apply Forall_app in H. destruct H as [H1 H2].
  pose proof (zsum_app (firstn i l) (skipn i l)) as E. rewrite firstn_skipn in E.
  apply zsum_nonneg in H1, H2. lia.
Qed.
Lemma nth_le_zsum l i : Forall (fun c => 0 <= c) l -> 0 <= nth i l 0 <= zsum l.
Proof.
  intros H. revert i. induction H as [|x l Hx Hl IH]; intros i; [destruct i; cbn; lia|].
  cbn [zsum]. pose proof (zsum_nonneg l Hl). destruct i as [|i]; cbn [nth]; [lia|]. specialize (IH i). lia.
Qed.
Lemma zsum_firstn_S l i : (i < length l)%nat -> zsum (firstn (S i) l) = zsum (firstn i l) + nth i l 0.
Proof.
  revert i. induction l as [|x l IH]; intros i Hi; cbn in Hi; [lia|]. destruct i as [|i]; cbn [firstn zsum nth]; [lia|].
  cbn [firstn] in IH. pose proof (IH i ltac:(lia)) as E. cbn [firstn] in E.
  rewrite E. lia.
Qed.

Lemma psum_ok : forall l acc, 0 <= acc -> Forall (fun c => 0 <= c) l -> acc + zsum l < 2 ^ 31 ->
  exists p, psum_from acc l = Some p /\ length p = length l /\ forall i, (i < length l)%nat -> nth i p 0 = acc + zsum (firstn (S i) l).
Proof.
  induction l as [|x l IH]; intros acc Ha Hl Hs; cbn [psum_from].
  - exists []. repeat split. intros i Hi. cbn in Hi. lia.
  - inversion Hl as [|? ? Hx Hl']; subst. cbn [zsum] in Hs. pose proof (zsum_nonneg l Hl').
    assert (E : int32_ok (acc + x) = true) by (unfold int32_ok; lia). rewrite E.
    destruct (IH (acc + x) ltac:(lia) Hl' ltac:(lia)) as (p & -> & Hp & Hn). exists (acc + x :: p). split; [reflexivity|]. split; [cbn; lia|].
    intros [|i] Hi; [cbn; lia|]. change (firstn (S (S i)) (x :: l)) with (x :: firstn (S i) l).
    cbn [nth zsum]. cbn in Hi. rewrite Hn by lia. lia.
Qed.
Lemma offsets_ok l : Forall (fun c => 0 <= c) l -> zsum l < 2 ^ 31 ->
  exists o, offsets l = Some o /\ length o = S (length l) /\ (forall i, (i <= length l)%nat -> nth i o 0 = zsum (firstn i l)) /\ last o 0 = zsum l.
Proof.
  intros Hl Hs. destruct (psum_ok l 0 ltac:(lia) Hl ltac:(lia)) as (p & E & Hp & Hn). unfold offsets. rewrite E. exists (0 :: p).
  assert (N : forall i, (i <= length l)%nat -> nth i (0 :: p) 0 = zsum (firstn i l)).
  { intros [|i] Hi; [reflexivity|]. cbn [nth]. rewrite Hn by lia. lia. }
  split; [reflexivity|]. split; [cbn; lia|]. split; [exact N|].
  transitivity (nth (length l) (0 :: p) 0).
  - rewrite <- (firstn_skipn (length l) (0 :: p)) at 1.
    assert (El : skipn (length l) (0 :: p) = [nth (length l) (0 :: p) 0]).
    { assert (Hlen : length (0 :: p) = S (length l)) by (cbn; lia). revert Hlen. generalize (0 :: p). generalize (length l). clear.
      induction n as [|n IH]; intros q Hq; [destruct q as [|a [|b q]]; cbn in *; try lia; reflexivity|].
      destruct q as [|a q]; cbn in Hq; [lia|]. cbn [skipn nth]. apply IH. lia. }
    rewrite El. rewrite last_last. reflexivity.
  - rewrite N, firstn_all by lia. reflexivity.
Qed.

Lemma wrap32_id z : 0 <= z < 2 ^ 31 -> wrap32 z = z.
Proof. intros H. unfold wrap32. rewrite Z.mod_small by lia. lia. Qed.
Lemma to_bytes_ok sz z : 0 <= z * sz < 2 ^ 31 -> to_bytes sz z = Some (z * sz).
Proof. intros H. unfold to_bytes. rewrite wrap32_id by assumption. cbv zeta. rewrite (proj2 (Z.leb_le _ _)) by lia. reflexivity. Qed.
Lemma elems_ok sz z : 0 < sz -> elems sz (z * sz) = Some (Z.to_nat z).
Proof. intros H. unfold elems. rewrite Z_mod_mult, Z.div_mul by lia. reflexivity. Qed.

(** ** Blocks of the receive buffer *)
Section Blocks.
Context {A : Type}.
Definition blocks (seg : nat -> list A) (done : nat -> bool) (n : nat) : list (option A) :=
  flat_map (fun r => if done r then map Some (seg r) else repeat None (length (seg r))) (seq 0 n).
Definition slen (seg : nat -> list A) (n : nat) : nat := nsum (map (fun r => length (seg r)) (seq 0 n)).

Lemma flat_map_ext_in {B C} (f g : B -> list C) l : (forall x, In x l -> f x = g x) -> flat_map f l = flat_map g l.
Proof. induction l as [|x l IH]; intros H; [reflexivity|]. cbn. rewrite H by (left; reflexivity). f_equal. apply IH. intros; apply H; right; assumption. Qed.

Lemma blocks_length seg done n : length (blocks seg done n) = slen seg n.
Proof.
  unfold blocks, slen. induction (seq 0 n) as [|r l IH]; [reflexivity|]. cbn [flat_map map nsum]. rewrite app_length, IH.
  destruct (done r); [rewrite map_length|rewrite repeat_length]; reflexivity.
Qed.
Lemma slen_split seg n r : (r < n)%nat -> exists t, slen seg n = (slen seg r + length (seg r) + t)%nat /\
  (forall done, exists pre post, blocks seg done n = pre ++ (if done r then map Some (seg r) else repeat None (length (seg r))) ++ post /\
     pre = blocks seg done r /\ length post = t /\ post = flat_map (fun r => if done r then map Some (seg r) else repeat None (length (seg r))) (seq (S r) (n - S r))).
Proof.
  intros H. assert (Es : seq 0 n = seq 0 r ++ r :: seq (S r) (n - S r)).
  { replace n with (r + S (n - S r))%nat at 1 by lia. rewrite seq_app. reflexivity. }
  exists (nsum (map (fun r => length (seg r)) (seq (S r) (n - S r)))). unfold slen, blocks. rewrite Es. split.
  - rewrite map_app, nsum_app. cbn. lia.
  - intros done. exists (blocks seg done r), (flat_map (fun r => if done r then map Some (seg r) else repeat None (length (seg r))) (seq (S r) (n - S r))).
    rewrite flat_map_app. cbn [flat_map]. split; [reflexivity|]. split; [reflexivity|]. split; [|reflexivity].
    clear Es.     induction (seq (S r) (n - S r)) as [|r' l IH]; [reflexivity|]. cbn [flat_map map nsum]. rewrite app_length, IH.
    destruct (done r'); [rewrite map_length|rewrite repeat_length]; reflexivity.
Qed.
Lemma put_block seg done n r : (r < n)%nat ->
  put (blocks seg done n) (slen seg r) (seg r) = Some (blocks seg (fun k => Nat.eqb k r || done k) n).
Proof.
  intros H. destruct (slen_split seg n r H) as (t & Hs & HB). unfold put. rewrite blocks_length.
  rewrite (proj2 (Nat.leb_le _ _)) by lia. f_equal.
  destruct (HB done) as (pre & post & E & Epre & Ht & Epost). destruct (HB (fun k => Nat.eqb k r || done k)) as (pre' & post' & E' & Epre' & Ht' & Epost').
  assert (Lp : length pre = slen seg r) by (rewrite Epre; apply blocks_length).
  assert (Q1 : pre' = pre).
  { rewrite Epre, Epre'. unfold blocks. apply flat_map_ext_in. intros x Hx. apply in_seq in Hx. destruct (Nat.eqb_spec x r); [lia|]. reflexivity. }
  assert (Q2 : post' = post).
  { rewrite Epost, Epost'. apply flat_map_ext_in. intros x Hx. apply in_seq in Hx. destruct (Nat.eqb_spec x r); [lia|]. reflexivity. }
  rewrite Q1, Q2, Nat.eqb_refl in E'. cbn [orb] in E'. rewrite E, E'. clear E E' Epre Epost Epre' Epost' Ht' Q1 Q2 HB.
  set (mid := if done r then map Some (seg r) else repeat None (length (seg r))).
  assert (Lm : length mid = length (seg r)) by (unfold mid; destruct (done r); [apply map_length|apply repeat_length]).
  rewrite firstn_app, <- Lp. replace (length pre - length pre)%nat with 0%nat by lia. rewrite firstn_all. cbn [firstn]. rewrite app_nil_r. f_equal. f_equal.
  rewrite (app_assoc pre mid post). rewrite skipn_app. rewrite skipn_all2 by (rewrite app_length; lia). cbn [app].
  rewrite app_length. replace (length pre + length (seg r) - (length pre + length mid))%nat with 0%nat by lia. rewrite skipn_O. reflexivity.
Qed.
Lemma blocks_all seg done n : (forall r, (r < n)%nat -> done r = true) -> blocks seg done n = map Some (flat_map seg (seq 0 n)).
Proof.
  intros H. unfold blocks. rewrite flat_map_concat_map, (flat_map_concat_map seg), concat_map, map_map. f_equal. apply map_ext_in.
  intros r Hr. apply in_seq in Hr. rewrite H by lia. reflexivity.
Qed.
Lemma blocks_none seg done n : (forall r, (r < n)%nat -> done r = false) -> blocks seg done n = repeat None (slen seg n).
Proof.
  intros H. unfold blocks, slen. assert (G : forall r, In r (seq 0 n) -> done r = false) by (intros r Hr; apply in_seq in Hr; apply H; lia). clear H.
  induction (seq 0 n) as [|r l IH]; [reflexivity|]. cbn [flat_map map nsum]. rewrite G by (left; reflexivity). rewrite IH by (intros; apply G; right; assumption).
  cbn. rewrite repeat_app. reflexivity.
Qed.
End Blocks.

(** ** The exchange *)
Section Exchange.
Context {A : Type} (sz : Z) (counts : list (list Z)) (bufs : list (list A)).
Notation n := (length counts).

(** The counts form a square matrix, cover the send buffers, and no rank sends
    or receives 2^31 bytes or more. *)
Record exchange_ok : Prop := {
  xo_sz : 0 < sz;
  xo_len : length bufs = n;
  xo_row : forall r, (r < n)%nat -> length (nth r counts []) = n /\ Forall (fun c => 0 <= c) (nth r counts []) /\ zsum (nth r counts []) * sz < 2 ^ 31;
  xo_buf : forall r, (r < n)%nat -> Z.of_nat (length (nth r bufs [])) = zsum (nth r counts []);
  xo_col : forall i, (i < n)%nat -> zsum (map (fun row => nth i row 0) counts) * sz < 2 ^ 31 }.

(** What rank r has for rank i: after the elements for the lower ranks. *)
Definition segment (r i : nat) : list A :=
  let row := nth r counts [] in
  firstn (Z.to_nat (nth i row 0)) (skipn (Z.to_nat (zsum (firstn i row))) (nth r bufs [])).

Context (H : exchange_ok).

Lemma nth_error_nth_some {B} (l : list B) i d : (i < length l)%nat -> nth_error l i = Some (nth i l d).
Proof. intros Hi. apply nth_error_nth'. exact Hi. Qed.

Lemma segment_length r i : (r < n)%nat -> (i < n)%nat -> Z.of_nat (length (segment r i)) = cnt counts r i.
Proof using H.
  intros Hr Hi. unfold segment, cnt. destruct (xo_row H r Hr) as (Hl & Hp & _). rewrite firstn_length, skipn_length.
  pose proof (xo_buf H r Hr). pose proof (zsum_firstn_le (nth r counts []) (S i) Hp). pose proof (zsum_firstn_le (nth r counts []) i Hp).
  rewrite zsum_firstn_S in H1 by lia. pose proof (nth_le_zsum (nth r counts []) i Hp). lia.
Qed.
Lemma message_ok r i : (r < n)%nat -> (i < n)%nat -> message sz counts bufs r i = Some (segment r i).
Proof using H.
  intros Hr Hi. unfold message. destruct (xo_row H r Hr) as (Hl & Hp & Hs). pose proof (xo_sz H) as Hsz.
  rewrite (nth_error_nth_some counts r [] Hr). pose proof (zsum_nonneg _ Hp).
  destruct (offsets_ok (nth r counts []) Hp ltac:(nia)) as (o & -> & _ & Hn & _). rewrite Hn by lia.
  pose proof (zsum_firstn_le (nth r counts []) i Hp). pose proof (nth_le_zsum (nth r counts []) i Hp).
  rewrite !to_bytes_ok by nia. rewrite (nth_error_nth_some bufs r []) by (rewrite (xo_len H); exact Hr).
  rewrite !elems_ok by exact Hsz. unfold slice.
  pose proof (xo_buf H r Hr). pose proof (zsum_firstn_le (nth r counts []) (S i) Hp) as Q. rewrite zsum_firstn_S in Q by lia.
  rewrite (proj2 (Nat.leb_le _ _)) by lia. reflexivity.
Qed.
Lemma col_nonneg i : (i < n)%nat -> Forall (fun c => 0 <= c) (recvcount counts i).
Proof using H.
  intros Hi. apply Forall_forall. intros c Hc. apply in_map_iff in Hc. destruct Hc as (row & <- & Hin).
  apply (In_nth _ _ []) in Hin. destruct Hin as (r & Hr & <-). destruct (xo_row H r Hr) as (_ & Hp & _). apply nth_le_zsum. exact Hp.
Qed.
Lemma recvcount_nth r i : (r < n)%nat -> nth r (recvcount counts i) 0 = cnt counts r i.
Proof.
  intros Hr. unfold recvcount, cnt. rewrite (nth_indep _ 0 (nth i [] 0)) by (rewrite map_length; exact Hr).
  rewrite (map_nth (fun row => nth i row 0)). reflexivity.
Qed.
Lemma recvcount_prefix i k : (i < n)%nat -> (k <= n)%nat -> zsum (firstn k (recvcount counts i)) = Z.of_nat (slen (fun r => segment r i) k).
Proof using H.
  intros Hi. induction k as [|k IH]; intros Hk; [reflexivity|].
  rewrite zsum_firstn_S by (unfold recvcount; rewrite map_length; lia). rewrite IH, recvcount_nth by lia.
  unfold slen. rewrite seq_S, map_app, nsum_app. cbn [map nsum]. rewrite <- segment_length by lia. cbn. lia.
Qed.
Lemma receive_ok i ro done r : (i < n)%nat -> (r < n)%nat -> offsets (recvcount counts i) = Some ro ->
  receive sz counts bufs i ro (blocks (fun r => segment r i) done n) r =
  Some (blocks (fun r => segment r i) (fun k => Nat.eqb k r || done k) n).
Proof using H.
  intros Hi Hr Ho. unfold receive. rewrite message_ok by assumption. pose proof (xo_sz H) as Hsz. pose proof (xo_col H i Hi) as Hc.
  pose proof (col_nonneg i Hi) as Hp. pose proof (zsum_nonneg _ Hp). fold (recvcount counts i) in Hc.
  destruct (offsets_ok (recvcount counts i) Hp ltac:(nia)) as (o & E & _ & Hn & _). rewrite E in Ho. injection Ho as <-.
  assert (Ln : length (recvcount counts i) = n) by apply map_length. rewrite Hn by lia.
  pose proof (zsum_firstn_le (recvcount counts i) r Hp). pose proof (nth_le_zsum (recvcount counts i) r Hp).
  rewrite !to_bytes_ok by nia. rewrite !elems_ok by exact Hsz. rewrite recvcount_nth by assumption. rewrite <- segment_length by assumption.
  rewrite Nat2Z.id, Nat.eqb_refl, recvcount_prefix by lia. rewrite Nat2Z.id. apply (put_block (fun r => segment r i)). exact Hr.
Qed.

Lemma receive_all_ok i ro : (i < n)%nat -> offsets (recvcount counts i) = Some ro -> forall order done,
  Forall (fun r => (r < n)%nat) order ->
  receive_all sz counts bufs i ro order (blocks (fun r => segment r i) done n) =
  Some (blocks (fun r => segment r i) (fun k => existsb (Nat.eqb k) order || done k) n).
Proof using H.
  intros Hi Ho. induction order as [|r order IH]; intros done Hf; [reflexivity|]. inversion Hf as [|? ? Hr Hf']; subst. cbn [receive_all].
  rewrite receive_ok by assumption. rewrite IH by assumption. f_equal. apply flat_map_ext_in. intros k _. cbn [existsb].
  destruct (Nat.eqb k r), (existsb (Nat.eqb k) order), (done k); reflexivity.
Qed.

Lemma init_blocks i ro : (i < n)%nat -> offsets (recvcount counts i) = Some ro ->
  repeat None (Z.to_nat (last ro 0)) = blocks (fun r => segment r i) (fun _ => false) n.
Proof using H.
  intros Hi Ho. pose proof (xo_sz H) as Hsz. pose proof (xo_col H i Hi) as Hc. pose proof (col_nonneg i Hi) as Hp. pose proof (zsum_nonneg _ Hp). fold (recvcount counts i) in Hc.
  destruct (offsets_ok (recvcount counts i) Hp ltac:(nia)) as (o & E & _ & _ & Hl). rewrite E in Ho. injection Ho as <-. rewrite Hl.
  rewrite blocks_none by reflexivity. f_equal. rewrite <- (Nat2Z.id (slen _ _)), <- recvcount_prefix by lia.
  rewrite <- (map_length (fun row => nth i row 0) counts) at 1. fold (recvcount counts i). rewrite firstn_all. reflexivity.
Qed.
Lemma offsets_col i : (i < n)%nat -> exists ro, offsets (recvcount counts i) = Some ro.
Proof using H.
  intros Hi. pose proof (xo_sz H) as Hsz. pose proof (xo_col H i Hi) as Hc. pose proof (col_nonneg i Hi) as Hp. pose proof (zsum_nonneg _ Hp). fold (recvcount counts i) in Hc.
  destruct (offsets_ok (recvcount counts i) Hp ltac:(nia)) as (o & E & _). eauto.
Qed.
Lemma existsb_perm order k : Permutation order (seq 0 n) -> (k < n)%nat -> existsb (Nat.eqb k) order = true.
Proof.
  intros Hp Hk. apply existsb_exists. exists k. split; [|apply Nat.eqb_refl]. apply (Permutation_in k (Permutation_sym Hp)). apply in_seq. lia.
Qed.
Lemma perm_bounds order : Permutation order (seq 0 n) -> Forall (fun r => (r < n)%nat) order.
Proof. intros Hp. apply Forall_forall. intros r Hr. apply (Permutation_in r Hp) in Hr. apply in_seq in Hr. lia. Qed.

(** Whatever the order of arrival, rank i ends with the segments of the ranks in
    rank order, each once, with no gap, overlap or access outside a buffer. *)
Theorem C24_alltoallv i order : (i < n)%nat -> Permutation order (seq 0 n) ->
  alltoallv sz counts bufs i order = Some (map Some (flat_map (fun r => segment r i) (seq 0 n))).
Proof using H.
  intros Hi Hp. unfold alltoallv. destruct (offsets_col i Hi) as [ro E]. rewrite E. rewrite (init_blocks i ro Hi E).
  rewrite (receive_all_ok i ro Hi E order _ (perm_bounds order Hp)). f_equal. apply blocks_all. intros r Hr.
  rewrite existsb_perm by assumption. reflexivity.
Qed.

(** The segments of one sender are its buffer, in order. *)
Theorem C24_segments_partition r : (r < n)%nat -> flat_map (segment r) (seq 0 n) = nth r bufs [].
Proof using H.
  intros Hr. destruct (xo_row H r Hr) as (Hl & Hp & _). pose proof (xo_buf H r Hr) as Hb.
  assert (G : forall k, (k <= n)%nat -> flat_map (segment r) (seq 0 k) = firstn (Z.to_nat (zsum (firstn k (nth r counts [])))) (nth r bufs [])).
  { induction k as [|k IH]; intros Hk; [reflexivity|]. rewrite seq_S, flat_map_app, IH by lia. cbn [flat_map]. rewrite app_nil_r. unfold segment. cbn [Nat.add].
    rewrite zsum_firstn_S by lia. pose proof (zsum_firstn_le (nth r counts []) k Hp). pose proof (nth_le_zsum (nth r counts []) k Hp).
    rewrite Z2Nat.inj_add by lia. symmetry. generalize (Z.to_nat (zsum (firstn k (nth r counts [])))) (Z.to_nat (nth k (nth r counts []) 0)) (nth r bufs []).
    clear. intros a b l. revert l. induction a as [|a IH]; intros l; [reflexivity|]. destruct l as [|x l]; [cbn; rewrite firstn_nil; reflexivity|]. cbn. f_equal. apply IH. }
  rewrite G, <- Hl, firstn_all by lia. rewrite <- Hb, Nat2Z.id. apply firstn_all.
Qed.

(** ** Point to point *)
Definition pinv (s : @pstate A) : Prop := forall r, (r < n)%nat ->
  match p_pc s r with
  | Start => p_buf s r = blocks (fun k => segment k r) (fun _ => false) n
  | AtRecv i => (i <= n)%nat /\ p_buf s r = blocks (fun k => segment k r) (fun k => Nat.ltb k i) n
  | AtWait i => (i < n)%nat /\ p_buf s r = blocks (fun k => segment k r) (fun k => Nat.leb k i) n
  end.
Lemma blocks_eq (seg : nat -> list A) d d' : (forall k, (k < n)%nat -> length (seg k) <> 0%nat -> d k = d' k) -> blocks seg d n = blocks seg d' n.
Proof.
  intros E. apply flat_map_ext_in. intros k Hk. apply in_seq in Hk. destruct (length (seg k)) eqn:L.
  - apply length_zero_iff_nil in L. rewrite L. destruct (d k), (d' k); reflexivity.
  - rewrite (E k) by lia. reflexivity.
Qed.
Lemma pinv_init : pinv (pinit counts).
Proof using H.
  intros r Hr. cbn [pinit p_pc p_buf]. destruct (offsets_col r Hr) as [ro E]. rewrite E. apply init_blocks; assumption.
Qed.
Lemma pinv_step eager s s' : pinv s -> pstep sz counts bufs eager s s' -> pinv s'.
Proof using H.
  intros I Hs. inversion Hs as [? r Hr Hpc | ? r i ro b Hr Hi Hpc Hc Hst Ho Hrecv | ? r i Hr Hi Hpc Hc | ? r i Hr Hpc Hw]; subst; intros k Hk; specialize (I k Hk);
    cbn [set_pc set_buf p_pc p_buf]; destruct (Nat.eqb_spec k r) as [->|Hne]; try exact I.
  - rewrite Hpc in I. split; [lia|]. rewrite I. reflexivity.
  - rewrite Hpc in I. destruct I as [_ I]. split; [exact Hi|]. rewrite I in Hrecv. rewrite receive_ok in Hrecv by assumption.
    injection Hrecv as <-. apply blocks_eq. intros k _ _. destruct (Nat.eqb_spec k i), (Nat.ltb_spec k i), (Nat.leb_spec k i); cbn; try reflexivity; lia.
  - rewrite Hpc in I. destruct I as [_ I]. split; [exact Hi|]. rewrite I. apply blocks_eq. intros k Hk' Hl.
    assert (k <> i). { intros ->. pose proof (segment_length i r ltac:(lia) Hr). lia. }
    destruct (Nat.ltb_spec k i), (Nat.leb_spec k i); try reflexivity; lia.
  - rewrite Hpc in I. destruct I as [Hi I]. split; [lia|]. rewrite I. apply blocks_eq. intros k _ _. destruct (Nat.ltb_spec k (S i)), (Nat.leb_spec k i); try reflexivity; lia.
Qed.
Lemma preach_inv eager s : preach sz counts bufs eager s -> pinv s.
Proof using H. induction 1; [apply pinv_init|]. eapply pinv_step; eassumption. Qed.

(** The point-to-point exchange never blocks, whichever sends MPI buffers ... *)
Theorem C24_p2p_no_deadlock eager s : preach sz counts bufs eager s -> pfinal counts s \/ exists s', pstep sz counts bufs eager s s'.
Proof using H.
  intros Hreach. pose proof (preach_inv eager s Hreach) as I.
  set (can := exists s', pstep sz counts bufs eager s s').
  (* a rank that has not started, or is before a receive, can step (or its sender can start) *)
  assert (S0 : forall k, (k < n)%nat -> p_pc s k = Start -> can).
  { intros k Hk E. eexists. apply ps_start; eassumption. }
  assert (R0 : forall k p, (k < n)%nat -> (p < n)%nat -> p_pc s k = AtRecv p -> can).
  { intros k p Hk Hp E. pose proof (I k Hk) as Ik. rewrite E in Ik. destruct Ik as [_ Ib].
    destruct (Z.eq_dec (cnt counts p k) 0) as [Hz|Hz].
    - eexists. apply (ps_norecv _ _ _ _ s k p); auto.
    - destruct (p_pc s p) eqn:Ep; [apply (S0 p Hp Ep)| |];
      (destruct (offsets_col k Hk) as [ro Ho];
       pose proof (receive_ok k ro (fun j => Nat.ltb j p) p Hk Hp Ho) as Hr'; rewrite <- Ib in Hr';
       eexists; eapply (ps_recv _ _ _ _ s k p ro); eauto; unfold started; rewrite Ep; discriminate). }
  (* a blocked wait leads to another one with a smaller sum of indices *)
  assert (W : forall m k i, (k + i < m)%nat -> (k < n)%nat -> p_pc s k = AtWait i -> can).
  { induction m as [|m IH]; intros k i Hm Hk E; [lia|].
    pose proof (I k Hk) as Ik. rewrite E in Ik. destruct Ik as [Hi _].
    assert (Hgo : received s k i -> can) by (intros Hrec; eexists; apply (ps_wait _ _ _ _ s k i); auto).
    unfold received in Hgo. destruct (p_pc s i) as [|p|p] eqn:Ei.
    - apply (S0 i Hi Ei).
    - destruct (Nat.lt_ge_cases k p) as [L|L]; [auto|]. apply (R0 i p Hi); [lia|exact Ei].
    - destruct (Nat.le_gt_cases k p) as [L|L]; [auto|]. apply (IH i p); [lia|exact Hi|exact Ei]. }
  assert (G : forall m, (m <= n)%nat -> (forall r, (r < m)%nat -> p_pc s r = AtRecv n) \/ can).
  { induction m as [|m IH]; intros Hm; [left; intros; lia|]. destruct (IH ltac:(lia)) as [F|C]; [|right; exact C].
    destruct (p_pc s m) as [|p|p] eqn:E.
    - right. apply (S0 m); [lia|exact E].
    - destruct (Nat.eq_dec p n) as [->|Hne].
      + left. intros r Hr. destruct (Nat.eq_dec r m) as [->|]; [exact E|apply F; lia].
      + right. pose proof (I m ltac:(lia)) as Im. rewrite E in Im. destruct Im as [Hp _]. apply (R0 m p); [lia|lia|exact E].
    - right. apply (W (S (m + p)) m p); [lia|lia|exact E]. }
  destruct (G n ltac:(lia)) as [F|C]; [left; exact F|right; exact C].
Qed.

(** ... every step moves one rank forward, so the exchange ends ... *)
Definition pc_rank (c : pc) : nat := match c with Start => 0 | AtRecv i => S (2 * i) | AtWait i => S (S (2 * i)) end.
Definition pmeasure (s : @pstate A) : nat := nsum (map (fun r => pc_rank (p_pc s r)) (seq 0 n)).
Lemma nsum_upd (f g : nat -> nat) l r : NoDup l -> In r l -> (forall k, k <> r -> f k = g k) -> (nsum (map g l) + f r = nsum (map f l) + g r)%nat.
Proof.
  intros Hn Hin E. induction Hn as [|x l Hx Hn IH]; [destruct Hin|]. cbn [map nsum]. fold (nsum (map g l)) (nsum (map f l)).
  destruct Hin as [->|Hin].
  - assert (Em : map g l = map f l) by (apply map_ext_in; intros k Hk; symmetry; apply E; intros ->; contradiction). rewrite Em. cbn. lia.
  - specialize (IH Hin). rewrite (E x) by (intros ->; contradiction). cbn. lia.
Qed.
Theorem C24_p2p_progress eager s s' : preach sz counts bufs eager s -> pstep sz counts bufs eager s s' ->
  (pmeasure s < pmeasure s' <= n * S (2 * n))%nat.
Proof using H.
  intros Hreach Hs. pose proof (preach_inv eager s' (pr_step _ _ _ _ _ _ Hreach Hs)) as I'. split.
  - unfold pmeasure.
    assert (G : exists r c, (r < n)%nat /\ (forall k, p_pc s' k = if Nat.eqb k r then c else p_pc s k) /\ (pc_rank (p_pc s r) < pc_rank c)%nat).
    { inversion Hs as [? r Hr Hpc | ? r i ro b Hr Hi Hpc Hc Hst Ho Hrecv | ? r i Hr Hi Hpc Hc | ? r i Hr Hpc Hw]; subst; exists r; eexists; (split; [exact Hr|]); (split; [intros k; cbn; reflexivity|]); rewrite Hpc; cbn; lia. }
    destruct G as (r & c & Hr & E & Hc).
    pose proof (nsum_upd (fun k => pc_rank (p_pc s k)) (fun k => pc_rank (p_pc s' k)) (seq 0 n) r (seq_NoDup n 0)) as L.
    specialize (L ltac:(apply in_seq; lia)). specialize (L ltac:(intros k Hk; cbv beta; rewrite E; destruct (Nat.eqb_spec k r); [contradiction|reflexivity])).
    cbv beta in L. rewrite (E r), Nat.eqb_refl in L. lia.
  - unfold pmeasure. assert (G : forall r, In r (seq 0 n) -> (pc_rank (p_pc s' r) <= S (2 * n))%nat).
    { intros r Hr. apply in_seq in Hr. specialize (I' r ltac:(lia)). destruct (p_pc s' r); cbn; [lia| |]; destruct I' as [Hi _]; lia. }
    rewrite <- (seq_length n 0) at 2. induction (seq 0 n) as [|r l IH]; [cbn; lia|]. cbn [map nsum length].
    fold (nsum (map (fun r => pc_rank (p_pc s' r)) l)). specialize (IH (fun r' Hr' => G r' (or_intror Hr'))). pose proof (G r (or_introl eq_refl)). lia.
Qed.
(** ... with the same buffers as the collective exchange. *)
Theorem C24_p2p_result eager s i : preach sz counts bufs eager s -> pfinal counts s -> (i < n)%nat ->
  p_buf s i = map Some (flat_map (fun r => segment r i) (seq 0 n)).
Proof using H.
  intros Hreach Hf Hi. pose proof (preach_inv eager s Hreach i Hi) as I. rewrite (Hf i Hi) in I. destruct I as [_ ->].
  apply blocks_all. intros r Hr. apply Nat.ltb_lt. exact Hr.
Qed.
End Exchange.

(** ** All gather *)
Section Gather.
Context {A : Type} (sz : Z) (bufs : list (list A)).
Notation n := (length bufs).
Lemma fold_zsum l a : fold_left Z.add l a = a + zsum l.
Proof. revert a. induction l as [|x l IH]; intros a; cbn [fold_left zsum]; [lia|]. rewrite IH. lia. Qed.
Theorem C24_allgatherv order : 0 < sz -> zsum (map (fun b => Z.of_nat (length b)) bufs) * sz < 2 ^ 31 -> Permutation order (seq 0 n) ->
  allgatherv sz bufs order = Some (map Some (concat bufs)).
Proof.
  intros Hsz Hs Hp. unfold allgatherv. set (sizes := map (fun b => Z.of_nat (length b)) bufs) in *.
  assert (Hpos : Forall (fun c => 0 <= c) sizes) by (apply Forall_forall; intros c Hc; apply in_map_iff in Hc; destruct Hc as (b & <- & _); lia).
  assert (Hle : forall c, In c sizes -> 0 <= c /\ c * sz < 2 ^ 31).
  { intros c Hc. apply (In_nth _ _ 0) in Hc. destruct Hc as (k & _ & <-). pose proof (nth_le_zsum sizes k Hpos). nia. }
  assert (Eb : map (fun c => wrap32 (c * sz)) sizes = map (fun c => c * sz) sizes).
  { apply map_ext_in. intros c Hc. destruct (Hle c Hc). apply wrap32_id. nia. }
  cbv zeta. rewrite Eb. set (cb := map (fun c => c * sz) sizes).
  assert (Hcb : Forall (fun c => 0 <= c) cb) by (apply Forall_forall; intros c Hc; apply in_map_iff in Hc; destruct Hc as (d & <- & Hd); apply Hle in Hd; nia).
  assert (Zcb : forall k, zsum (firstn k cb) = zsum (firstn k sizes) * sz).
  { intros k. unfold cb. rewrite firstn_map. induction (firstn k sizes) as [|x l IH]; [reflexivity|]. cbn [map zsum]. rewrite IH. lia. }
  assert (Scb : zsum cb < 2 ^ 31). { specialize (Zcb (length cb)). rewrite firstn_all in Zcb. unfold cb in Zcb at 2. rewrite map_length in Zcb. rewrite firstn_all in Zcb. lia. }
  assert (T1 : forallb (fun c => int32_ok c) sizes = true).
  { apply forallb_forall. intros c Hc. destruct (Hle c Hc). unfold int32_ok. nia. }
  assert (T2 : forallb (fun c => 0 <=? c) cb = true).
  { apply forallb_forall. intros c Hc. rewrite Forall_forall in Hcb. apply Z.leb_le. apply Hcb. exact Hc. }
  rewrite T1, T2. cbn [andb]. destruct (offsets_ok cb Hcb Scb) as (o & -> & _ & Hn & _).
  set (seg := fun r => nth r bufs []).
  assert (Ls : forall k, (k <= n)%nat -> zsum (firstn k sizes) = Z.of_nat (slen seg k)).
  { induction k as [|k IH]; intros Hk; [reflexivity|]. rewrite zsum_firstn_S by (unfold sizes; rewrite map_length; lia). rewrite IH by lia.
    unfold slen. rewrite seq_S, map_app, nsum_app. cbn. unfold sizes. rewrite (nth_indep _ 0 (Z.of_nat (length (@nil A)))) by (rewrite map_length; lia).
    rewrite (map_nth (fun b => Z.of_nat (length b))). unfold seg. lia. }
  assert (Etot : Z.to_nat (fold_left Z.add sizes 0) = slen seg n).
  { rewrite fold_zsum. rewrite <- (firstn_all sizes). unfold sizes at 1. rewrite map_length. rewrite Ls by lia. lia. }
  rewrite Etot. rewrite <- (blocks_none seg (fun _ => false)) by reflexivity.
  assert (G : forall ord done, Forall (fun r => (r < n)%nat) ord ->
     fold_left (fun (ob : option (list (option A))) r => b <- ob ;; sb <- nth_error bufs r ;; o0 <- elems sz (nth r o 0) ;; c <- elems sz (nth r cb 0) ;; m <- slice sb 0 c ;; put b o0 m)
       ord (Some (blocks seg done n)) = Some (blocks seg (fun k => existsb (Nat.eqb k) ord || done k) n)).
  { induction ord as [|r ord IH]; intros done Hf; [reflexivity|]. inversion Hf as [|? ? Hr Hf']; subst. cbn [fold_left].
    rewrite (nth_error_nth' bufs []) by exact Hr. rewrite Hn by (unfold cb, sizes; rewrite !map_length; lia). rewrite Zcb, elems_ok by exact Hsz.
    unfold cb. rewrite (nth_indep _ 0 (0 * sz)) by (unfold sizes; rewrite !map_length; lia). rewrite (map_nth (fun c => c * sz)), elems_ok by exact Hsz.
    unfold sizes at 2. rewrite (nth_indep _ 0 (Z.of_nat (length (@nil A)))) by (rewrite map_length; lia). rewrite (map_nth (fun b => Z.of_nat (length b))).
    rewrite Nat2Z.id. unfold slice. rewrite (proj2 (Nat.leb_le _ _)) by lia. rewrite skipn_O, firstn_all. rewrite Ls, Nat2Z.id by lia.
    fold (seg r). rewrite put_block by exact Hr. rewrite IH by assumption. f_equal. apply flat_map_ext_in. intros k _. cbn [existsb].
    destruct (Nat.eqb k r), (existsb (Nat.eqb k) ord), (done k); reflexivity. }
  rewrite G.
  - f_equal. rewrite blocks_all.
    + f_equal. unfold seg. rewrite flat_map_concat_map. f_equal. clear. induction bufs as [|b l IH]; [reflexivity|]. cbn [length seq map nth]. f_equal. rewrite <- seq_shift, map_map. exact IH.
    + intros r Hr. apply orb_true_iff. left. apply existsb_exists. exists r. split; [|apply Nat.eqb_refl]. apply (Permutation_in r (Permutation_sym Hp)). apply in_seq. lia.
  - apply Forall_forall. intros r Hr. apply (Permutation_in r Hp) in Hr. apply in_seq in Hr. lia.
Qed.
End Gather.

(** Without the size bound the byte counts wrap: 2^28 elements of 16 bytes are
    announced but none is sent, and no assertion notices. *)
Lemma large_lost {A} sz c (buf : list A) : 0 < sz -> offsets [c] = Some [0; c] -> to_bytes sz 0 = Some 0 -> to_bytes sz c = Some 0 ->
  alltoallv sz [[c]] [buf] 0 [0%nat] = Some (repeat None (Z.to_nat c)).
Proof.
  intros Hs Ho H0 Hc. unfold alltoallv. change (recvcount [[c]] 0) with [c]. rewrite Ho. cbn [receive_all]. unfold receive, message.
  cbn [nth_error]. rewrite Ho. cbn [nth]. change (recvcount [[c]] 0) with [c]. cbn [nth]. rewrite H0, Hc.
  assert (E : elems sz 0 = Some 0%nat) by (unfold elems; rewrite Z.mod_0_l, Z.div_0_l by lia; reflexivity). rewrite !E.
  unfold slice. cbn [Nat.add Nat.leb firstn length Nat.eqb]. unfold put. cbn [Nat.add length Nat.leb firstn map app skipn last]. reflexivity.
Qed.
Theorem C24_large_refuted : exists sz : Z, exists c : Z, 0 < sz /\ 0 < c /\ int32_ok c = true /\
  forall buf : list nat, Z.of_nat (length buf) = c -> exists recv,
    alltoallv sz [[c]] [buf] 0 [0%nat] = Some recv /\ forall x, In x recv -> x = None.
Proof.
  exists 16, (2 ^ 28). split; [lia|]. split; [lia|]. split; [reflexivity|]. intros buf _. eexists. split; [apply large_lost; [lia|reflexivity|reflexivity|reflexivity]|].
  intros x Hx. apply repeat_spec in Hx. exact Hx.
Qed.

(** In the overload with one buffer per destination the wait on the own rank has
    no matching send. *)
Theorem C24_nested_wait_refuted : exists rank sendcount i, (i < length sendcount)%nat /\ In i (nested_waited rank sendcount) /\ ~ In i (nested_started rank sendcount).
Proof. exists 0%nat, [1; 0], 0%nat. cbn. repeat split; [lia|left; reflexivity|tauto]. Qed.
Theorem C24_nested_wait_others rank sendcount : nth rank sendcount 0 = 0 -> nested_waited rank sendcount = nested_started rank sendcount.
Proof.
  intros H. unfold nested_waited, nested_started. apply filter_ext. intros i. destruct (Nat.eqb_spec rank i) as [->|]; [rewrite H; reflexivity|]. rewrite andb_true_r. reflexivity.
Qed.

(** A concrete exchange: three ranks, counts with zeros. *)
Example C24_case : exchange_ok 8 [[1; 2; 0]; [0; 0; 1]; [2; 0; 1]] [[10; 11; 12]; [20]; [30; 31; 32]]%nat /\
  alltoallv 8 [[1; 2; 0]; [0; 0; 1]; [2; 0; 1]] [[10; 11; 12]; [20]; [30; 31; 32]]%nat 0 [2; 0; 1]%nat = Some [Some 10; Some 30; Some 31]%nat.
Proof.
  split; [|reflexivity]. constructor; cbn; try lia.
  - intros r Hr. do 3 (destruct r as [|r]; [cbn; repeat split; try lia; repeat constructor; lia|]). lia.
  - intros r Hr. do 3 (destruct r as [|r]; [reflexivity|]). lia.
  - intros i Hi. do 3 (destruct i as [|i]; [cbn; lia|]). lia.
Qed.

Print Assumptions C24_alltoallv.
Print Assumptions C24_segments_partition.
Print Assumptions C24_p2p_no_deadlock.
Print Assumptions C24_p2p_progress.
Print Assumptions C24_p2p_result.
Print Assumptions C24_allgatherv.
Print Assumptions C24_large_refuted.
Print Assumptions C24_nested_wait_refuted.
Print Assumptions C24_nested_wait_others.
