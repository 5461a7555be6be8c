(** C27, C28, C31: splitting, ids, and output followed by a restart. *)
From Coq Require Import String Ascii FinFun.
From Verif Require Import Base BuildTree_model IO_model.
Local Open Scope Z_scope.

(** ** Offsets *)
Fixpoint zsm (l : list Z) : Z := match l with [] => 0 | x :: r => x + zsm r end.
Lemma zsm_app a b : zsm (a ++ b) = zsm a + zsm b.
Proof. induction a as [|x a IH]; cbn [app zsm]; lia. Qed.
Lemma psums_nth l : forall acc k, (k < length l)%nat -> nth k (psums acc l) 0 = acc + zsm (firstn (S k) l).
Proof.
  induction l as [|x l IH]; intros acc k Hk; [cbn in Hk; lia|]. cbn [psums nth]. destruct k as [|k]; [cbn; lia|]. rewrite IH by (cbn in Hk; lia). cbn [firstn zsm]. lia.
Qed.
Lemma psums_length l : forall acc, length (psums acc l) = length l.
Proof. induction l; intros; cbn; auto. Qed.
Lemma io_offset_ok sizes k : (k <= length sizes)%nat -> io_offset sizes k = zsm (firstn k sizes).
Proof.
  intros Hk. unfold io_offset, offcount. destruct k as [|k]; [reflexivity|]. cbn [nth]. rewrite app_nth1 by (rewrite psums_length; lia). rewrite psums_nth by lia. lia.
Qed.
Lemma io_nparticles_ok sizes : io_nparticles sizes = zsm sizes.
Proof. unfold io_nparticles. change (nth (length sizes) (offcount sizes) 0) with (io_offset sizes (length sizes)). rewrite io_offset_ok by lia. rewrite firstn_all. reflexivity. Qed.
Lemma firstn_seq_le : forall k a n, (k <= n)%nat -> firstn k (seq a n) = seq a k.
Proof. induction k as [|k IH]; intros a n H; [reflexivity|]. destruct n as [|n]; [lia|]. cbn. f_equal. apply IH. lia. Qed.
Lemma nprocs_prefix n size k : 0 <= n -> (0 < size)%nat -> (k <= size)%nat ->
  zsm (firstn k (nprocs n size)) = Z.of_nat k * (n / Z.of_nat size) + Z.min (Z.of_nat k) (n mod Z.of_nat size).
Proof.
  intros Hn Hs Hk. unfold nprocs. assert (B := Z.mod_pos_bound n (Z.of_nat size) ltac:(lia)). induction k as [|k IH]; [cbn; lia|].
  assert (Q : firstn (S k) (map (nproc n size) (seq 0 size)) = firstn k (map (nproc n size) (seq 0 size)) ++ [nproc n size k]).
  { rewrite !firstn_map, !firstn_seq_le by lia. rewrite seq_S, map_app. reflexivity. }
  rewrite Q, zsm_app, IH by lia. cbn [zsm]. unfold nproc. destruct (Z.ltb_spec (Z.of_nat k) (n mod Z.of_nat size)); lia.
Qed.
Lemma nprocs_sum n size : 0 <= n -> (0 < size)%nat -> zsm (nprocs n size) = n.
Proof.
  intros Hn Hs. rewrite <- (firstn_all (nprocs n size)). unfold nprocs at 1. rewrite map_length, seq_length. rewrite nprocs_prefix by lia.
  assert (B := Z.mod_pos_bound n (Z.of_nat size) ltac:(lia)). pose proof (Z.div_mod n (Z.of_nat size) ltac:(lia)). lia.
Qed.

(** The blocks [offset, offset + count) of the ranks: the first starts at 0, each
    next one where the one before ends, the last ends at n; the sizes are not
    negative and differ by at most one. *)
Theorem C27_split n size : 0 <= n -> (0 < size)%nat ->
  io_offset (nprocs n size) 0 = 0 /\
  (forall r, (S r < size)%nat -> io_offset (nprocs n size) (S r) = io_offset (nprocs n size) r + nproc n size r) /\
  io_offset (nprocs n size) (size - 1) + nproc n size (size - 1) = n /\
  io_nparticles (nprocs n size) = n /\
  (forall r s, (r < size)%nat -> (s < size)%nat -> 0 <= nproc n size r /\ nproc n size r <= nproc n size s + 1).
Proof.
  intros Hn Hs. assert (L : length (nprocs n size) = size) by (unfold nprocs; rewrite map_length, seq_length; reflexivity).
  assert (B := Z.mod_pos_bound n (Z.of_nat size) ltac:(lia)). pose proof (Z.div_mod n (Z.of_nat size) ltac:(lia)) as D. pose proof (Z.div_pos n (Z.of_nat size) Hn ltac:(lia)) as P.
  split; [reflexivity|]. split; [|split; [|split]].
  - intros r Hr. rewrite !io_offset_ok by lia. rewrite !nprocs_prefix by lia. unfold nproc. destruct (Z.ltb_spec (Z.of_nat r) (n mod Z.of_nat size)); lia.
  - rewrite !io_offset_ok by lia. rewrite !nprocs_prefix by lia. unfold nproc. destruct (Z.ltb_spec (Z.of_nat (size - 1)) (n mod Z.of_nat size)); nia.
  - rewrite io_nparticles_ok. apply nprocs_sum; assumption.
  - intros r s Hr Hss. unfold nproc. destruct (_ <? _), (_ <? _); lia.
Qed.
(** Every particle is in the block of exactly one rank. *)
Theorem C27_cover n size i : 0 <= i < n -> (0 < size)%nat ->
  exists r, (r < size)%nat /\ io_offset (nprocs n size) r <= i < io_offset (nprocs n size) r + nproc n size r /\
  forall s, (s < size)%nat -> io_offset (nprocs n size) s <= i < io_offset (nprocs n size) s + nproc n size s -> s = r.
Proof.
  intros Hi Hs. destruct (C27_split n size ltac:(lia) Hs) as (O & St & E & _ & Pos).
  assert (M : forall r s, (r < s)%nat -> (s < size)%nat -> io_offset (nprocs n size) r + nproc n size r <= io_offset (nprocs n size) s).
  { intros r s Hrs. induction s as [|s IH]; [lia|]. intros Hss. rewrite (St s Hss). destruct (Nat.eq_dec r s) as [->|]; [lia|]. specialize (IH ltac:(lia) ltac:(lia)). specialize (Pos s s ltac:(lia) ltac:(lia)). lia. }
  assert (Ex : forall k, (k < size)%nat -> i < io_offset (nprocs n size) k + nproc n size k -> exists r, (r < size)%nat /\ io_offset (nprocs n size) r <= i < io_offset (nprocs n size) r + nproc n size r).
  { induction k as [|k IH]; intros Hk Hik; [exists 0%nat; lia|]. destruct (Z.le_gt_cases (io_offset (nprocs n size) (S k)) i); [exists (S k); lia|]. apply IH; [lia|]. rewrite <- St by lia. lia. }
  destruct (Ex (size - 1)%nat ltac:(lia) ltac:(lia)) as (r & Hr & Hi'). exists r. split; [exact Hr|]. split; [exact Hi'|]. intros s Hss Hi2.
  destruct (Nat.lt_trichotomy r s) as [H|[H|H]]; [specialize (M r s H Hss); lia|auto|specialize (M s r H Hr); lia].
Qed.
Example C27_case : map (io_offset (nprocs 7 3)) [0; 1; 2]%nat = [0; 3; 5] /\ nprocs 7 3 = [3; 2; 2].
Proof. vm_compute. auto. Qed.

(** ** C28: generated ids *)
Definition all_ids (n : Z) (size : nat) : list Z := flat_map (fun r => gen_ids n size r (nproc n size r)) (seq 0 size).
Lemma gen_ids_in n size r c x : In x (gen_ids n size r c) <-> n / Z.of_nat size * Z.of_nat r + 1 <= x < n / Z.of_nat size * Z.of_nat r + 1 + c.
Proof.
  unfold gen_ids. rewrite in_map_iff. split.
  - intros (i & <- & Hi). apply in_seq in Hi. lia.
  - intros H. exists (Z.to_nat (x - (n / Z.of_nat size * Z.of_nat r + 1))). split; [lia|]. apply in_seq. lia.
Qed.
Lemma gen_ids_nodup n size r c : NoDup (gen_ids n size r c).
Proof. unfold gen_ids. apply Injective_map_NoDup; [intros a b E; lia|apply seq_NoDup]. Qed.
Lemma nodup_flat {A B} (f : A -> list B) l : NoDup l -> (forall a, In a l -> NoDup (f a)) ->
  (forall a b x, In a l -> In b l -> In x (f a) -> In x (f b) -> a = b) -> NoDup (flat_map f l).
Proof.
  induction 1 as [|a l Ha Hn IH]; intros Hf Hd; [constructor|]. cbn [flat_map].
  assert (G : forall (u v : list B), NoDup u -> NoDup v -> (forall x, In x u -> ~ In x v) -> NoDup (u ++ v)).
  { clear. induction 1 as [|x u Hx Hu IHu]; intros Hv Hd; [exact Hv|]. cbn. constructor; [rewrite in_app_iff; intros [H|H]; [contradiction|apply (Hd x); [left; reflexivity|exact H]]|].
    apply IHu; [exact Hv|]. intros y Hy. apply Hd. right. exact Hy. }
  apply G; [apply Hf; left; reflexivity|apply IH; [intros; apply Hf; right; assumption|intros; eapply Hd; try eassumption; right; assumption]|].
  intros x Hx Hx'. apply in_flat_map in Hx'. destruct Hx' as (b & Hb & Hxb). apply Ha. rewrite (Hd a b x); auto; [left; reflexivity|right; exact Hb].
Qed.
(** The ids are distinct exactly when the ranks share the particles evenly (or there
    is at most one particle); then they are 1..n. *)
Theorem C28_unique_iff n size : 0 <= n -> (0 < size)%nat -> (NoDup (all_ids n size) <-> n mod Z.of_nat size = 0 \/ n <= 1).
Proof.
  intros Hn Hs. set (P := Z.of_nat size). assert (B := Z.mod_pos_bound n P ltac:(lia)). pose proof (Z.div_mod n P ltac:(lia)) as D. pose proof (Z.div_pos n P Hn ltac:(lia)) as Q.
  split.
  - intros H. destruct (Z.eq_dec (n mod P) 0) as [|Hm]; [left; assumption|right]. destruct (Z.le_gt_cases n 1) as [|Hn1]; [assumption|exfalso].
    assert (Hs2 : (1 < size)%nat). { destruct (Nat.eq_dec size 1) as [->|]; [|lia]. exfalso. apply Hm. unfold P. cbn. apply Z.mod_1_r. }
    assert (N1 : nproc n size 1 >= 1). { unfold nproc. fold P. destruct (Z.ltb_spec (Z.of_nat 1) (n mod P)); [lia|]. destruct (Z.eq_dec (n / P) 0) as [E|]; [|lia]. rewrite E in D. lia. }
    assert (N0 : nproc n size 0 >= n / P + 1). { unfold nproc. fold P. destruct (Z.ltb_spec (Z.of_nat 0) (n mod P)); lia. }
    unfold all_ids in H. destruct size as [|[|s]]; try lia. cbn [seq flat_map] in H.
    assert (I0 : In (n / P + 1) (gen_ids n (S (S s)) 0 (nproc n (S (S s)) 0))) by (apply gen_ids_in; fold P; lia).
    assert (I1 : In (n / P + 1) (gen_ids n (S (S s)) 1 (nproc n (S (S s)) 1))) by (apply gen_ids_in; fold P; lia).
    revert H I0 I1. generalize (gen_ids n (S (S s)) 0 (nproc n (S (S s)) 0)) (gen_ids n (S (S s)) 1 (nproc n (S (S s)) 1)). intros u v H I0 I1.
    induction u as [|x u IH]; [destruct I0|]. cbn in H. apply NoDup_cons_iff in H. destruct H as [H1 H2]. destruct I0 as [->|I0]; [|auto]. apply H1. rewrite !in_app_iff. auto.
  - intros H. apply nodup_flat; [apply seq_NoDup|intros; apply gen_ids_nodup|]. intros a b x Ha Hb Hxa Hxb. apply in_seq in Ha, Hb. apply gen_ids_in in Hxa, Hxb. fold P in Hxa, Hxb. unfold nproc in Hxa, Hxb. fold P in Hxa, Hxb.
    destruct H as [Hm|Hn1].
    + rewrite Hm in *. destruct (Z.ltb_spec (Z.of_nat a) 0), (Z.ltb_spec (Z.of_nat b) 0); try lia. destruct (Nat.lt_trichotomy a b) as [Hab|[Hab|Hab]]; [nia|exact Hab|nia].
    + destruct (Z.ltb_spec (Z.of_nat a) (n mod P)), (Z.ltb_spec (Z.of_nat b) (n mod P)); nia.
Qed.
Theorem C28_even n size : 0 <= n -> (0 < size)%nat -> n mod Z.of_nat size = 0 -> all_ids n size = map (fun i => 1 + Z.of_nat i) (seq 0 (Z.to_nat n)).
Proof.
  intros Hn Hs Hm. unfold all_ids. set (q := n / Z.of_nat size). assert (E : n = q * Z.of_nat size). { pose proof (Z.div_mod n (Z.of_nat size) ltac:(lia)). unfold q. lia. }
  assert (Q : 0 <= q) by (apply Z.div_pos; lia).
  assert (G : forall k, flat_map (fun r => gen_ids n size r (nproc n size r)) (seq 0 k) = map (fun i => 1 + Z.of_nat i) (seq 0 (Z.to_nat q * k))).
  { induction k as [|k IH]; [rewrite Nat.mul_0_r; reflexivity|]. rewrite seq_S, flat_map_app, IH. cbn [flat_map]. rewrite app_nil_r. rewrite Nat.mul_succ_r, seq_app, map_app. f_equal. cbn [Nat.add].
    unfold gen_ids, nproc. fold q. rewrite Hm. replace (Z.of_nat k <? 0) with false by (symmetry; apply Z.ltb_ge; lia). rewrite Z.add_0_r.
    assert (S0 : forall m a, seq a m = map (fun i => (a + i)%nat) (seq 0 m)).
    { clear. induction m as [|m IHm]; intros a; [reflexivity|]. cbn. f_equal; [lia|]. rewrite (IHm (S a)), (IHm 1%nat), map_map. apply map_ext. intros. lia. }
    rewrite (S0 (Z.to_nat q) (Z.to_nat q * k)%nat), map_map. apply map_ext. intros i. nia. }
  rewrite G. f_equal. f_equal. rewrite E. rewrite Z2Nat.inj_mul by lia. rewrite Nat2Z.id. reflexivity.
Qed.
Theorem C28_uneven_refuted : exists n size, 0 <= n /\ (0 < size)%nat /\ ~ NoDup (all_ids n size).
Proof. exists 3, 2%nat. split; [lia|]. split; [lia|]. rewrite C28_unique_iff by lia. intros [H|H]; [vm_compute in H|]; lia. Qed.
Example C28_case : all_ids 3 2 = [1; 2; 2] /\ all_ids 4 2 = [1; 2; 3; 4].
Proof. vm_compute. auto. Qed.
(** The assertion of the last rank holds exactly for an even split of at least a
    particle per rank (or one rank with particles). *)
Theorem C28_assertion n size : 0 < n -> (0 < size)%nat -> (gen_assert n size (size - 1) (gen_ids n size (size - 1) (nproc n size (size - 1))) = true <-> n mod Z.of_nat size = 0).
Proof.
  intros Hn Hs. unfold gen_assert. replace (S (size - 1) =? size)%nat with true by (symmetry; apply Nat.eqb_eq; lia).
  assert (B := Z.mod_pos_bound n (Z.of_nat size) ltac:(lia)). pose proof (Z.div_mod n (Z.of_nat size) ltac:(lia)) as D. pose proof (Z.div_pos n (Z.of_nat size) ltac:(lia) ltac:(lia)) as Q.
  assert (C : nproc n size (size - 1) = n / Z.of_nat size). { unfold nproc. destruct (Z.ltb_spec (Z.of_nat (size - 1)) (n mod Z.of_nat size)); lia. }
  rewrite C. unfold gen_ids. rewrite map_length, seq_length. destruct (Z.to_nat (n / Z.of_nat size)) as [|m] eqn:Em.
  - cbn. rewrite andb_false_r. split; [discriminate|]. intros H. exfalso. assert (n / Z.of_nat size = 0) by lia. nia.
  - rewrite seq_S, map_app. cbn [map]. rewrite last_last. cbn [Nat.add Nat.eqb negb]. rewrite andb_true_r. rewrite Z.eqb_eq. split; intros; nia.
Qed.

(** ** C31: output and restart *)
Lemma put_block_ok pre d post : put_block (pre ++ repeat 0 (length d) ++ post) (Z.of_nat (length pre)) d = Some (pre ++ d ++ post).
Proof.
  unfold put_block. rewrite !app_length, repeat_length. destruct (Z.leb_spec 0 (Z.of_nat (length pre))); [|lia]. destruct (Z.leb_spec (Z.of_nat (length pre) + Z.of_nat (length d)) (Z.of_nat (length pre + (length d + length post)))); [|lia]. cbn [andb].
  rewrite Nat2Z.id. f_equal. rewrite firstn_app, Nat.sub_diag, firstn_O, app_nil_r, firstn_all. f_equal. f_equal.
  rewrite skipn_app. rewrite (skipn_all2 (n := length pre + length d) pre) by lia. cbn [app]. replace (length pre + length d - length pre)%nat with (length d) by lia.
  rewrite skipn_app, repeat_length, Nat.sub_diag. rewrite skipn_all2 by (rewrite repeat_length; lia). reflexivity.
Qed.
Definition szs (ds : list (list Z)) : list Z := map (fun d => Z.of_nat (length d)) ds.
Lemma szs_sum ds : zsm (szs ds) = Z.of_nat (length (concat ds)).
Proof. induction ds as [|d ds IH]; [reflexivity|]. cbn [szs map zsm concat]. fold (szs ds). rewrite IH, app_length. lia. Qed.
Lemma put_blocks_ok ds : forall done, put_blocks (concat done ++ repeat 0 (length (concat ds))) (szs (done ++ ds)) (length done) ds = Some (concat (done ++ ds)).
Proof.
  induction ds as [|d ds IH]; intros done; cbn [put_blocks concat].
  - cbn. rewrite !app_nil_r. reflexivity.
  - rewrite app_length, repeat_app. unfold szs at 1. rewrite io_offset_ok by (rewrite map_length, app_length; cbn; lia). rewrite map_app, firstn_app, map_length, Nat.sub_diag, firstn_O, app_nil_r.
    rewrite firstn_all2 by (rewrite map_length; lia). fold (szs done). rewrite szs_sum. rewrite put_block_ok. cbv iota beta.
    specialize (IH (done ++ [d])). rewrite <- !app_assoc in IH. cbn [app] in IH. rewrite app_length, Nat.add_1_r in IH. rewrite concat_app in IH. cbn [concat] in IH. rewrite app_nil_r, <- app_assoc in IH. exact IH.
Qed.
Lemma write_dataset_new g name ds : find_name name (g_data g) = None -> write_dataset g name ds = Some (Group (g_attr g) (g_data g ++ [(name, concat ds)])).
Proof.
  intros E. unfold write_dataset. rewrite E. cbv zeta. fold (szs ds). rewrite io_nparticles_ok, szs_sum, Nat2Z.id. pose proof (put_blocks_ok ds []) as Q. cbn [app concat length] in Q. rewrite Q. reflexivity.
Qed.
Lemma find_name_app {A} n (a b : list (string * A)) : find_name n (a ++ b) = match find_name n a with Some v => Some v | None => find_name n b end.
Proof. induction a as [|[m v] a IH]; [reflexivity|]. cbn. destruct (String.eqb n m); [reflexivity|apply IH]. Qed.
(** Writing all datasets into a group that has none of them. *)
Lemma write_all_new ranks os : forall g, NoDup (map fst os) -> (forall n, In n (map fst os) -> find_name n (g_data g) = None) ->
  write_all g ranks os = Some (Group (g_attr g) (g_data g ++ map (fun nv => (fst nv, concat (column ranks (snd nv)))) os)).
Proof.
  induction os as [|[n v] os IH]; intros g Hn Hf; cbn [write_all map fst].
  - rewrite app_nil_r. destruct g; reflexivity.
  - inversion Hn as [|a b Ha Hb]; subst. rewrite write_dataset_new by (apply Hf; left; reflexivity). cbv iota beta. rewrite IH; [| exact Hb |].
    + cbn [g_attr g_data fst snd]. rewrite <- app_assoc. reflexivity.
    + intros m Hm. cbn [g_data]. rewrite find_name_app, (Hf m) by (right; exact Hm). cbn. destruct (String.eqb_spec m n) as [->|]; [|reflexivity]. exfalso. apply Ha. exact Hm.
Qed.
Lemma outputs_nodup dim : NoDup (map fst (outputs dim)).
Proof. cbn. repeat (constructor; [cbn; intuition discriminate|]). constructor. Qed.
Lemma column_concat ranks F : concat (column ranks (fun _ => F)) = map F (concat ranks).
Proof.
  unfold column. generalize 0%nat. induction ranks as [|l ranks IH]; intros k; [reflexivity|]. cbn [length seq combine map concat fst snd]. rewrite map_app. f_equal. apply IH.
Qed.

(** *** Reading *)
Lemma zip_set_length f l : forall d, length (zip_set f l d) = length l.
Proof. induction l as [|b l IH]; intros [|v d]; cbn; auto. Qed.
Lemma zip_set_same f l : forall d, length d = length l -> map (fun b : hbody => b f) (zip_set f l d) = d.
Proof. induction l as [|b l IH]; intros [|v d] H; cbn in *; auto; try discriminate. f_equal; [unfold setf; destruct (fld_eq_dec f f); congruence|apply IH; lia]. Qed.
Lemma zip_set_other f g l : g <> f -> forall d, map (fun b : hbody => b g) (zip_set f l d) = map (fun b : hbody => b g) l.
Proof. intros H. induction l as [|b l IH]; intros [|v d]; cbn; auto. f_equal; [unfold setf; destruct (fld_eq_dec g f); congruence|apply IH]. Qed.
Lemma read_fields_ok g n size rank off cnt fs : NoDup (map snd fs) -> 0 <= cnt ->
  (forall nf, In nf fs -> exists d, read_block g (fst nf) off cnt = Some d /\ length d = Z.to_nat cnt) ->
  forall l, length l = Z.to_nat cnt -> exists o, read_fields g n size rank off cnt l fs = Some o /\ length o = Z.to_nat cnt /\
    (forall nm f d, In (nm, f) fs -> read_block g nm off cnt = Some d -> map (fun b : hbody => b f) o = d) /\
    (forall f, ~ In f (map snd fs) -> map (fun b : hbody => b f) o = map (fun b : hbody => b f) l).
Proof.
  intros Hn Hc. induction fs as [|[nm f] fs IH]; intros Hr l Hl; cbn [read_fields].
  - exists l. repeat split; auto. intros nm f d [].
  - cbn [map snd] in Hn. inversion Hn as [|a b Ha Hb]; subst. destruct (Hr (nm, f) (or_introl eq_refl)) as (d & Ed & Ld). cbn [fst] in Ed. unfold read_field. cbn [fst snd]. rewrite Ed. cbv iota beta.
    destruct (IH Hb ltac:(intros; apply Hr; right; assumption) (zip_set f l d)) as (o & Eo & Lo & H1 & H2); [rewrite zip_set_length; exact Hl|].
    exists o. split; [exact Eo|]. split; [exact Lo|]. split.
    + intros nm' f' d' [E|Hin] Ed'; [|eapply H1; eassumption]. injection E as <- <-. rewrite Ed in Ed'. injection Ed' as <-. rewrite H2 by exact Ha. apply zip_set_same. lia.
    + intros f' Hf'. cbn [map snd In] in Hf'. rewrite H2 by tauto. apply zip_set_other. intros ->. tauto.
Qed.
Lemma inputs_nodup dim : NoDup (map snd (inputs dim)).
Proof. unfold inputs. destruct (2 <=? dim)%nat, (3 <=? dim)%nat; cbn; repeat (constructor; [cbn; intuition discriminate|]); constructor. Qed.
Lemma skip_split {A} (l : list A) a b : (a + b <= length l)%nat -> length (firstn b (skipn a l)) = b.
Proof. intros H. rewrite firstn_length, skipn_length. lia. Qed.
Lemma all_ranks_ok F (Q : nat -> list hbody -> Prop) : forall m k, (forall r, (k <= r < k + m)%nat -> exists l, F r = Some l /\ Q r l) ->
  exists o, all_ranks F k m = Some o /\ length o = m /\ forall r l, nth_error o r = Some l -> Q (k + r)%nat l.
Proof.
  induction m as [|m IH]; intros k H; cbn [all_ranks].
  - exists []. split; [reflexivity|]. split; [reflexivity|]. intros [|r] l E; discriminate.
  - destruct (H k ltac:(lia)) as (l & E & Ql). rewrite E. cbv iota beta. destruct (IH (S k) ltac:(intros; apply H; lia)) as (o & Eo & Lo & Qo). rewrite Eo. cbv iota beta.
    exists (l :: o). split; [reflexivity|]. split; [cbn; lia|]. intros [|r] l' E'; cbn in E'; [injection E' as <-; rewrite Nat.add_0_r; exact Ql|]. replace (k + S r)%nat with (S k + r)%nat by lia. apply Qo. exact E'.
Qed.
Lemma skipn_add {A} a : forall b (l : list A), skipn b (skipn a l) = skipn (a + b) l.
Proof. induction a as [|a IH]; intros b l; [reflexivity|]. destruct l as [|x l]; [cbn; apply skipn_nil|]. cbn. apply IH. Qed.
(** Consecutive blocks put together. *)
Lemma blocks_concat {A} (a : list A) (sizes : list Z) (o : list (list A)) : length o = length sizes -> (forall s, In s sizes -> 0 <= s) -> zsm sizes = Z.of_nat (length a) ->
  (forall r l, nth_error o r = Some l -> l = firstn (Z.to_nat (nth r sizes 0)) (skipn (Z.to_nat (zsm (firstn r sizes))) a)) -> concat o = a.
Proof.
  revert sizes a. induction o as [|l o IH]; intros [|s sizes] a Hl Hp Hs H; cbn in Hl; try discriminate.
  - cbn in Hs. destruct a; [reflexivity|cbn in Hs; lia].
  - cbn [concat]. assert (P : 0 <= s) by (apply Hp; left; reflexivity). cbn [zsm] in Hs.
    assert (Pz : 0 <= zsm sizes). { clear -Hp. induction sizes as [|x t IHt]; cbn; [lia|]. assert (0 <= x) by (apply Hp; right; left; reflexivity). enough (0 <= zsm t) by lia. apply IHt. intros y [<-|Hy]; apply Hp; [left; reflexivity|right; right; exact Hy]. }
    rewrite (H 0%nat l eq_refl). cbn [firstn zsm nth Z.to_nat skipn].
    rewrite (IH sizes (skipn (Z.to_nat s) a)); [apply firstn_skipn|lia|intros; apply Hp; right; assumption|rewrite skipn_length; lia|].
    intros r l' E. rewrite (H (S r) l' E). cbn [nth firstn zsm]. rewrite skipn_add. f_equal. f_equal.
    assert (0 <= zsm (firstn r sizes)). { clear -Hp. revert r. induction sizes as [|x t IHt]; intros [|r]; cbn; try lia. assert (0 <= x) by (apply Hp; right; left; reflexivity). enough (0 <= zsm (firstn r t)) by lia. apply IHt. intros y [<-|Hy]; apply Hp; [left; reflexivity|right; right; exact Hy]. }
    lia.
Qed.
(** One dataset, read by all ranks, gives the whole array. *)
Definition persisted (dim : nat) (f : fld) : Prop :=
  (exists d, (d < dim)%nat /\ (f = Fx d \/ f = Fv d)) \/ In f [Fm; Frho; Fh; FP; Fu; Fid; Fdt; Ftype; Fstate].
Lemma persisted_in dim f : (1 <= dim <= 3)%nat -> persisted dim f -> In f (map snd (inputs dim)).
Proof.
  intros H. unfold persisted, inputs. assert (D : dim = 1%nat \/ dim = 2%nat \/ dim = 3%nat) by lia. destruct D as [ -> | [ -> | -> ] ]; cbn;
    (intros [([|[|[|d]]] & Hd & [ -> | -> ])|Hf]; try lia; auto 20; repeat destruct Hf as [<-|Hf]; try contradiction; auto 20).
Qed.
Local Open Scope string_scope.
Lemma input_written dim nm f : (1 <= dim <= 3)%nat -> In (nm, f) (inputs dim) -> In (nm, fun _ b => b f) (map (fun nv => (fst nv, snd nv)) (outputs dim)) \/ exists v, In (nm, v) (outputs dim) /\ forall r b, v r b = b f.
Proof.
  intros H Hin. right. assert (D : dim = 1%nat \/ dim = 2%nat \/ dim = 3%nat) by lia. unfold inputs in Hin. destruct D as [ -> | [ -> | -> ] ]; cbn in Hin;
    repeat (destruct Hin as [Hin|Hin]; [injection Hin as <- <-; eexists; split; [unfold outputs; cbn; auto 40|intros r b; reflexivity]|]); contradiction.
Qed.
Lemma find_map_in ranks os nm v : NoDup (map fst os) -> In (nm, v) os ->
  find_name nm (map (fun nv => (fst nv, concat (column ranks (snd nv)))) os) = Some (concat (column ranks v)).
Proof.
  induction os as [|[n w] os IH]; intros Hn Hin; [destruct Hin|]. cbn. inversion Hn as [|a b Ha Hb]; subst. destruct (String.eqb_spec nm n) as [->|Hne].
  - destruct Hin as [E|Hin]; [injection E as ->; reflexivity|]. exfalso. apply Ha. apply in_map_iff. exists (n, v). auto.
  - destruct Hin as [E|Hin]; [injection E as -> _; contradiction|]. apply IH; assumption.
Qed.
Lemma column_ext ranks v F : (forall r b, v r b = F b) -> concat (column ranks v) = map F (concat ranks).
Proof.
  intros H. rewrite <- (column_concat ranks F). f_equal. unfold column. apply map_ext. intros [r l]. cbn. apply map_ext. intros b. apply H.
Qed.

(** Whatever the file held (as long as this step is new), the particles written by
    any number of ranks, in any distribution, are read back by any number of ranks
    as the same global sequence, for every field that is read at all; the ranks
    hold consecutive blocks of nearly equal size, and a restart gets the time and
    the time step. *)
Theorem C31_roundtrip dim separate f step it time dt ranks size init : (1 <= dim <= 3)%nat -> (0 < size)%nat ->
  find_step step (f_steps f) = None -> (f_dim f = None \/ f_dim f = Some (Z.of_nat dim)) ->
  exists f' out, write_step dim separate f step it time dt ranks = Some f' /\ read_step dim f' step size init = Some out /\ length out = size /\
    (forall fd, persisted dim fd -> map (fun b : hbody => b fd) (concat out) = map (fun b : hbody => b fd) (concat ranks)) /\
    (forall r l, nth_error out r = Some l -> Z.of_nat (length l) = nproc (Z.of_nat (length (concat ranks))) size r) /\
    (forall dt0 time0, it <> 0%Z -> read_times f' step it dt0 time0 = Some (dt, time)) /\
    (forall s, s <> step -> find_step s (f_steps f') = find_step s (f_steps f)).
Proof.
  intros Hd Hs Hnew Hdim. unfold write_step. set (f1 := if ((step =? 0)%Z || separate)%bool then _ else f). assert (S1 : f_steps f1 = f_steps f) by (unfold f1; destruct (_ || _); reflexivity).
  assert (D1 : match f_dim f1 with Some d => (d =? Z.of_nat dim)%Z | None => true end = true).
  { unfold f1. destruct (_ || _); [cbn|]; destruct Hdim as [->| ->]; cbn; rewrite ?Z.eqb_refl; reflexivity. }
  unfold get_step. rewrite S1, Hnew. cbn [write_attr find_name g_attr g_data]. set (g0 := write_attr _ _ _). assert (A0 : g0 = Group [("time", time); ("iteration", it); ("timestep", dt)] []) by reflexivity. clearbody g0. subst g0.
  rewrite write_all_new by (try apply outputs_nodup; intros; reflexivity). cbn [g_attr g_data app]. set (g := Group _ (map _ _)).
  set (n := length (concat ranks)).
  assert (Col : forall nm fd, In (nm, fd) (inputs dim) -> find_name nm (g_data g) = Some (map (fun b : hbody => b fd) (concat ranks))).
  { intros nm fd Hin. destruct (input_written dim nm fd Hd Hin) as [Hin'|(v & Hv & Ev)].
    - rewrite map_ext with (g := fun x => x) in Hin' by (intros []; reflexivity). rewrite map_id in Hin'. cbn [g g_data]. rewrite (find_map_in ranks _ nm _ (outputs_nodup dim) Hin'). f_equal. apply column_ext. reflexivity.
    - cbn [g g_data]. rewrite (find_map_in ranks _ nm _ (outputs_nodup dim) Hv). f_equal. apply column_ext. exact Ev. }
  assert (Hx : find_name "x" (g_data g) = Some (map (fun b : hbody => b (Fx 0)) (concat ranks))) by (apply Col; left; reflexivity).
  destruct (C27_split (Z.of_nat n) size ltac:(lia) Hs) as (_ & _ & _ & _ & Pos).
  assert (Off : forall r, (r < size)%nat -> (0 <= io_offset (nprocs (Z.of_nat n) size) r /\ io_offset (nprocs (Z.of_nat n) size) r + nproc (Z.of_nat n) size r <= Z.of_nat n)%Z).
  { intros r Hr. assert (L : length (nprocs (Z.of_nat n) size) = size) by (unfold nprocs; rewrite map_length, seq_length; reflexivity). rewrite io_offset_ok by lia. rewrite nprocs_prefix by lia. unfold nproc.
    assert (B := Z.mod_pos_bound (Z.of_nat n) (Z.of_nat size) ltac:(lia)). pose proof (Z.div_mod (Z.of_nat n) (Z.of_nat size) ltac:(lia)) as DM. pose proof (Z.div_pos (Z.of_nat n) (Z.of_nat size) ltac:(lia) ltac:(lia)) as Q.
    destruct (Z.ltb_spec (Z.of_nat r) (Z.of_nat n mod Z.of_nat size)); split; try nia. }
  set (Q := fun (r : nat) (l : list hbody) => length l = Z.to_nat (nproc (Z.of_nat n) size r) /\
    forall fd, persisted dim fd -> map (fun b : hbody => b fd) l = firstn (Z.to_nat (nproc (Z.of_nat n) size r)) (skipn (Z.to_nat (io_offset (nprocs (Z.of_nat n) size) r)) (map (fun b : hbody => b fd) (concat ranks)))).
  assert (Rd : forall nm fd r, (r < size)%nat -> In (nm, fd) (inputs dim) -> read_block g nm (io_offset (nprocs (Z.of_nat n) size) r) (nproc (Z.of_nat n) size r) =
    Some (firstn (Z.to_nat (nproc (Z.of_nat n) size r)) (skipn (Z.to_nat (io_offset (nprocs (Z.of_nat n) size) r)) (map (fun b : hbody => b fd) (concat ranks))))).
  { intros nm fd r Hr Hin. unfold read_block. rewrite (Col nm fd Hin). cbv iota beta. rewrite map_length. fold n. destruct (Off r Hr) as [O1 O2]. destruct (Z.leb_spec 0 (io_offset (nprocs (Z.of_nat n) size) r)); [|lia]. destruct (Z.leb_spec (io_offset (nprocs (Z.of_nat n) size) r + nproc (Z.of_nat n) size r) (Z.of_nat n)); [reflexivity|lia]. }
  destruct (all_ranks_ok (fun r => read_rank dim g (Z.of_nat n) size r (init r)) Q size 0) as (out & Eo & Lo & Qo).
  { intros r Hr. unfold read_rank. cbv zeta. destruct (read_fields_ok g (Z.of_nat n) size r (io_offset (nprocs (Z.of_nat n) size) r) (nproc (Z.of_nat n) size r) (inputs dim) (inputs_nodup dim)) with (l := map (init r) (seq 0 (Z.to_nat (nproc (Z.of_nat n) size r)))) as (o & Eo & Lo & H1 & _).
    - apply (Pos r r); lia.
    - intros [nm fd] Hin. eexists. split; [apply (Rd nm fd r ltac:(lia) Hin)|]. apply skip_split. rewrite map_length. fold n. destruct (Off r ltac:(lia)). destruct (Pos r r ltac:(lia) ltac:(lia)). lia.
    - rewrite map_length, seq_length. reflexivity.
    - exists o. split; [exact Eo|]. split; [exact Lo|]. intros fd Hp. apply (persisted_in dim fd Hd) in Hp. apply in_map_iff in Hp. destruct Hp as ([nm fd'] & E & Hin). cbn in E. subst fd'. eapply H1; [exact Hin|]. apply (Rd nm fd r ltac:(lia) Hin). }
  exists (put_step f1 step g), out. split; [reflexivity|]. cbn [put_step f_steps]. split; [|split; [exact Lo|]].
  - unfold read_step. cbn [put_step f_steps find_step f_dim]. rewrite Z.eqb_refl. cbv iota beta. rewrite Hx. cbv iota beta. rewrite D1, map_length. fold n. exact Eo.
  - split; [|split; [|split]].
    + intros fd Hp. rewrite concat_map. apply (blocks_concat _ (nprocs (Z.of_nat n) size)).
      * rewrite map_length. unfold nprocs. rewrite map_length, seq_length. exact Lo.
      * intros s Hin. unfold nprocs in Hin. apply in_map_iff in Hin. destruct Hin as (r & <- & Hr). apply in_seq in Hr. apply (Pos r r); lia.
      * rewrite nprocs_sum by lia. rewrite map_length. reflexivity.
      * intros r l E. rewrite nth_error_map in E. destruct (nth_error out r) as [l0|] eqn:E0; [|discriminate]. injection E as <-. assert (Hr : (r < size)%nat) by (rewrite <- Lo; apply nth_error_Some; congruence).
        destruct (Qo r l0 E0) as [_ H]. cbn [Nat.add] in H. rewrite (H fd Hp). rewrite io_offset_ok by (unfold nprocs; rewrite map_length, seq_length; lia). f_equal. f_equal.
        unfold nprocs. rewrite (nth_indep _ 0%Z (nproc (Z.of_nat n) size 0)) by (rewrite map_length, seq_length; lia). rewrite map_nth, seq_nth by lia. reflexivity.
    + intros r l E. assert (Hr : (r < size)%nat) by (rewrite <- Lo; apply nth_error_Some; congruence). destruct (Qo r l E) as [H _]. cbn [Nat.add] in H. rewrite H. destruct (Pos r r Hr Hr). lia.
    + intros dt0 time0 Hit. unfold read_times. cbn [put_step f_steps find_step]. rewrite Z.eqb_refl. cbv iota beta. rewrite (proj2 (Z.eqb_neq _ _) Hit). reflexivity.
    + intros s Hne. cbn [find_step]. rewrite (proj2 (Z.eqb_neq _ _) Hne), S1. reflexivity.
Qed.
(** The viscosity coefficient is written but never read back. *)
Definition zero_body : hbody := fun _ => 0%Z.
Theorem C31_alpha_refuted : exists f' out b, write_step 1 false (H5 None []) 0 5 7 9 [[b]] = Some f' /\
  (exists g c, find_step 0 (f_steps f') = Some g /\ find_name "alpha" (g_data g) = Some c /\ c = [b Falpha]) /\
  read_step 1 f' 0 1 (fun _ _ => zero_body) = Some out /\ map (fun c : hbody => c Falpha) (concat out) <> [b Falpha].
Proof.
  exists (match write_step 1 false (H5 None []) 0 5 7 9 [[fun _ => 3%Z]] with Some f => f | None => H5 None [] end).
  eexists. exists (fun _ => 3%Z). split; [vm_compute; reflexivity|]. split; [eexists; eexists; split; [vm_compute; reflexivity|split; vm_compute; reflexivity]|].
  split; [vm_compute; reflexivity|]. vm_compute. discriminate.
Qed.
(** A step that is in the file already is not overwritten: the output is lost
    (a restart into the same file begins with the step it was started from, L779). *)
Theorem C31_existing_step_refuted : exists f f' b c out, write_step 1 false (H5 None []) 0 5 7 9 [[b]] = Some f /\
  write_step 1 false f 0 6 8 9 [[c]] = Some f' /\ read_step 1 f' 0 1 (fun _ _ => zero_body) = Some out /\
  map (fun x : hbody => x Fm) (concat out) = [b Fm] /\ b Fm <> c Fm /\ read_times f' 0 6 0 0 = Some (9, 7)%Z.
Proof.
  exists (match write_step 1 false (H5 None []) 0 5 7 9 [[fun _ => 3%Z]] with Some f => f | None => H5 None [] end). eexists. exists (fun _ => 3%Z), (fun _ => 4%Z). eexists.
  split; [vm_compute; reflexivity|]. split; [vm_compute; reflexivity|]. split; [vm_compute; reflexivity|]. split; [vm_compute; reflexivity|]. split; [discriminate|vm_compute; reflexivity].
Qed.
Example C31_case : exists f' out, write_step 2 true (H5 None []) 3 5 7 9 [[fun _ => 1%Z]; []; [fun _ => 2%Z; fun f => if fld_eq_dec f Fid then 77 else 3]%Z] = Some f' /\
  read_step 2 f' 3 2 (fun _ _ => zero_body) = Some out /\ map (map (fun b : hbody => b Fid)) out = [[1; 2]; [77]]%Z.
Proof.
  eexists. eexists. split; [vm_compute; reflexivity|]. split; [vm_compute; reflexivity|]. vm_compute. reflexivity.
Qed.
(** Restart from a single file: the step found has the requested iteration, is the
    first such step below the bound, and the search fails when there is none. *)
Theorem C30_single_file f it s : find_single f it = Some s ->
  (0 <= s < 1000000)%Z /\ exists g, find_step s (f_steps f) = Some g /\ find_name "iteration" (g_attr g) = Some it.
Proof.
  unfold find_single. assert (G : forall k a, find_iteration f it a k = Some s -> (a <= s < a + Z.of_nat k)%Z /\ exists g, find_step s (f_steps f) = Some g /\ find_name "iteration" (g_attr g) = Some it).
  { induction k as [|k IH]; intros a E; cbn [find_iteration] in E; [discriminate|]. destruct (find_step a (f_steps f)) as [g|] eqn:Es; [destruct (find_name "iteration" (g_attr g)) as [v|] eqn:Ev; [|discriminate]; destruct (Z.eqb_spec v it) as [->|]|].
    - injection E as <-. split; [lia|]. exists g. auto.
    - apply IH in E. destruct E as [E1 E2]. split; [lia|exact E2].
    - apply IH in E. destruct E as [E1 E2]. split; [lia|exact E2]. }
  intros E. apply G in E. rewrite N_nat_Z in E. exact E.
Qed.
Theorem C30_single_file_complete f it s g : (0 <= s < 1000000)%Z -> find_step s (f_steps f) = Some g -> find_name "iteration" (g_attr g) = Some it ->
  (forall t h, (0 <= t < s)%Z -> find_step t (f_steps f) = Some h -> exists v, find_name "iteration" (g_attr h) = Some v /\ v <> it) -> find_single f it = Some s.
Proof.
  intros Hs Es Ei Hb. unfold find_single. assert (G : forall k a, (0 <= a <= s)%Z -> (s < a + Z.of_nat k)%Z -> find_iteration f it a k = Some s).
  { induction k as [|k IH]; intros a Ha Hk; [lia|]. cbn [find_iteration]. destruct (Z.eq_dec a s) as [->|Hne].
    - rewrite Es, Ei, Z.eqb_refl. reflexivity.
    - destruct (find_step a (f_steps f)) as [h|] eqn:Ea; [|apply IH; lia]. destruct (Hb a h ltac:(lia) Ea) as (v & -> & Hv). rewrite (proj2 (Z.eqb_neq _ _) Hv). apply IH; lia. }
  apply G; [lia|]. rewrite N_nat_Z. exact (proj2 Hs).
Qed.
Print Assumptions C31_roundtrip.
Print Assumptions C28_unique_iff.

(** Besides the fields that are read back: the dataset "rank" has the number
    of the rank that held the particle, and the components that do not exist
    are zeros. *)
Theorem C31_written dim separate f step it time dt ranks : (1 <= dim <= 3)%nat -> find_step step (f_steps f) = None ->
  exists f' g, write_step dim separate f step it time dt ranks = Some f' /\ find_step step (f_steps f') = Some g /\
    find_name "rank" (g_data g) = Some (flat_map (fun r => repeat (Z.of_nat r) (length (nth r ranks []))) (seq 0 (length ranks))) /\
    (forall nm d, In (nm, d) [("y", 1); ("z", 2); ("vy", 1); ("vz", 2); ("ay", 1); ("az", 2)]%nat -> (dim <= d)%nat ->
       find_name nm (g_data g) = Some (repeat 0%Z (length (concat ranks)))).
Proof.
  intros Hd Hnew. unfold write_step. set (f1 := if ((step =? 0)%Z || separate)%bool then _ else f). assert (S1 : f_steps f1 = f_steps f) by (unfold f1; destruct (_ || _); reflexivity).
  unfold get_step. rewrite S1, Hnew. set (g0 := write_attr _ _ _). assert (A0 : g0 = Group [("time", time); ("iteration", it); ("timestep", dt)] []) by reflexivity. clearbody g0. subst g0.
  rewrite write_all_new by (try apply outputs_nodup; intros; reflexivity). cbn [g_attr g_data app]. eexists _, _. split; [reflexivity|]. split; [cbn [put_step f_steps find_step]; rewrite Z.eqb_refl; reflexivity|].
  cbn [g_data]. split.
  - rewrite (find_map_in ranks _ "rank" (fun r _ => Z.of_nat r) (outputs_nodup dim)) by (unfold outputs; cbn; auto 40). f_equal. unfold column.
    assert (G : forall rs k, concat (map (fun rl => map (fun _ : hbody => Z.of_nat (fst rl)) (snd rl)) (combine (seq k (length rs)) rs)) =
      flat_map (fun r => repeat (Z.of_nat r) (length (nth (r - k) rs []))) (seq k (length rs))).
    { induction rs as [|l rs IH]; intros k; [reflexivity|]. cbn [length seq combine map concat fst snd flat_map]. rewrite Nat.sub_diag. cbn [nth].
      rewrite IH. f_equal.
      - clear. induction l as [|b l IH]; [reflexivity|]. cbn [map length repeat]. rewrite IH. reflexivity.
      - rewrite ! flat_map_concat_map. f_equal. apply map_ext_in. intros r Hr. apply in_seq in Hr. replace (r - k)%nat with (S (r - S k)) by lia. reflexivity. }
    rewrite (G ranks 0%nat). rewrite ! flat_map_concat_map. f_equal. apply map_ext. intros r. rewrite Nat.sub_0_r. reflexivity.
  - intros nm d Hin Hdd. assert (Z0 : concat (column ranks (fun _ _ => 0%Z)) = repeat 0%Z (length (concat ranks))).
    { rewrite (column_concat ranks (fun _ => 0%Z)). clear. induction (concat ranks) as [|b l IH]; [reflexivity|]. cbn [map length repeat]. rewrite IH. reflexivity. }
    rewrite <- Z0. assert (Cz : forall F, column ranks (comp dim F d) = column ranks (fun _ _ => 0%Z)).
    { intros F. unfold column, comp. apply map_ext. intros rl. apply map_ext. intros b. rewrite (proj2 (Nat.ltb_ge d dim)) by exact Hdd. reflexivity. }
    repeat (destruct Hin as [Hin|Hin]; [injection Hin as <- <-|]); try contradiction;
      match goal with |- find_name ?s _ = _ => first
        [ rewrite (find_map_in ranks _ s (comp dim Fx _) (outputs_nodup dim)) by (unfold outputs; cbn; auto 40)
        | rewrite (find_map_in ranks _ s (comp dim Fv _) (outputs_nodup dim)) by (unfold outputs; cbn; auto 40)
        | rewrite (find_map_in ranks _ s (comp dim Fa _) (outputs_nodup dim)) by (unfold outputs; cbn; auto 40) ] end; rewrite Cz; reflexivity.
Qed.
Print Assumptions C31_written.
