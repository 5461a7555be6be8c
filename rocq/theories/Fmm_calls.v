(** The calls made by the FMM traversal of a built tree. *)
From Coq Require Import Sorted Permutation.
From Verif Require Import Base Key_model Key_spec Key_proofs HCell_model HCell_props BuildTree_model BuildTree_spec BuildTree_lemmas
  BuildTree_inv BuildTree_shape BuildTree_props Vec Geometry_model Geometry_props Cofm_model Cofm_spec Cofm_proofs Search_model
  Search_proofs Search_sph Search_props Gravity_model Fmm_model Fmm_spec Fmm_proofs.
Local Open Scope N_scope.
Local Notation up := BuildTree_spec.up.

Section Calls.
Variable dim : N.
Hypothesis Hdim : dim_ok dim.
Variables (t : table) (cofms : list cofm) (bodies : list body) (MAC : R).
Notation n := (N.to_nat dim).
Hypothesis Hmass : forall b, In b bodies -> (0 < b_mass b)%R.
Notation okt := (okt dim t cofms bodies).
Notation kidsof := (kidsof dim).
Notation size := (size dim).
Notation gb := (get_body bodies).
Notation tpair := ((N * tree) * (N * tree))%type.
Notation cell_facts := (cell_facts dim Hdim t cofms bodies Hmass).

Definition subs' (x : N * tree) : list (N * tree) := subs dim (fst x) (snd x).
Lemma subs_unfold x : subs' x = x :: flat_map subs' (kidsof x).
Proof.
  destruct x as [p [i|k ch]]; [reflexivity|]. unfold subs'. cbn [fst snd subs Fmm_proofs.kidsof]. f_equal. cbn. unfold kids.
  induction ch as [|a ch IH]; [reflexivity|]. cbn [flat_map map fst snd]. rewrite IH. reflexivity.
Qed.

Lemma node_size x : length (cells dim (fst x) (snd x)) = S (size (kidsof x)).
Proof. destruct x as [p [i|k ch]]; [reflexivity|]. apply size_node. Qed.

Lemma walk_all {A} (func : N -> cell -> list A -> option (bool * list A)) (o : N * tree -> list A) :
  (forall x c acc, okt x -> tfind t (fst x) = Some c -> func (fst x) c acc = Some (true, acc ++ o x)) ->
  forall fuel stk acc, Forall okt stk -> (size stk <= fuel)%nat ->
  exists l, walk dim t fuel func (map fst stk) acc = Some (acc ++ l) /\ Permutation l (flat_map o (flat_map subs' stk)).
Proof using Hdim Hmass.
  intros HF. induction fuel as [|fuel IH]; intros stk acc Hok Hf.
  - destruct stk as [|[p tr] stk]; [exists []; rewrite app_nil_r; split; [reflexivity|constructor]|].
    rewrite size_cons in Hf. pose proof (size_pos dim p tr). cbn [fst snd] in Hf. lia.
  - destruct stk as [|x stk]; [exists []; rewrite app_nil_r; split; [reflexivity|constructor]|].
    inversion Hok as [|? ? Hp Hstk]; subst. rewrite size_cons, node_size in Hf.
    destruct (cell_facts x Hp) as (c & Hc & _).
    cbn [map walk]. rewrite Hc, (HF x c acc Hp Hc). cbn [fst snd].
    rewrite (node_keys dim Hdim t cofms bodies Hmass x c Hp Hc).
    assert (E1 : rev (map fst (kidsof x)) ++ map fst stk = map fst (rev (kidsof x) ++ stk)).
    { rewrite map_app, map_rev. reflexivity. }
    rewrite E1. destruct (IH (rev (kidsof x) ++ stk) (acc ++ o x)) as (l & E2 & HP2).
    + apply Forall_app. split; [apply Forall_rev; apply (kidsof_ok dim Hdim t cofms bodies Hmass); assumption|assumption].
    + rewrite size_app, size_rev. lia.
    + rewrite E2. exists (o x ++ l). rewrite app_assoc. split; [reflexivity|]. rewrite HP2.
      cbn [flat_map]. rewrite subs_unfold. cbn [app flat_map]. apply Permutation_app_head.
      rewrite !flat_map_app. apply Permutation_app_tail. apply Permutation_flat_map, Permutation_flat_map, Permutation_sym, Permutation_rev.
Qed.

(** ** after the queue *)
Definition is_c2p (x : N * tree) (c : call) : Prop := exists l, c = C_c2p (fst x) l /\ Permutation l (leaves (snd x)).
Definition ppcall (z : tpair) : list call :=
  match snd (fst z), snd (snd z) with Leaf i, Leaf j => [C_p2p i None [j]] | _, _ => [] end.
Definition hit (calls : list call) (x : N * tree) : bool := negb (isleaf x) && affected calls (fst x).

Lemma affected_ok calls fuel r : okt r -> (size [r] <= fuel)%nat ->
  exists X, walk dim t fuel (affected_func calls) [fst r] [] = Some (map fst X) /\ Permutation X (filter (hit calls) (subs' r)).
Proof using Hdim Hmass.
  intros Hr Hf.
  destruct (walk_all (affected_func calls) (fun x => if hit calls x then [fst x] else [])) with (fuel := fuel) (stk := [r]) (acc := @nil N)
    as (l & E & HP); auto.
  - intros x c acc Hx Hc. destruct (cell_facts x Hx) as (c' & Hc' & Hn & _). rewrite Hc in Hc'. injection Hc' as <-.
    unfold affected_func. rewrite Hn. unfold hit. destruct (negb (isleaf x) && affected calls (fst x)); [|rewrite app_nil_r]; reflexivity.
  - assert (E' : flat_map (fun x => if hit calls x then [fst x] else []) (flat_map subs' [r]) = map fst (filter (hit calls) (subs' r))).
    { cbn [flat_map]. rewrite app_nil_r. clear. induction (subs' r) as [|a q IH]; [reflexivity|]. cbn [flat_map filter].
      rewrite IH. destruct (hit calls a); reflexivity. }
    rewrite E' in HP. destruct (Permutation_map_inv _ _ HP) as (X & -> & HX). exists X. split; [exact E|]. apply Permutation_sym. assumption.
Qed.

Lemma c2p_calls_ok fuel X : Forall (fun x => okt x /\ (size [x] <= fuel)%nat) X ->
  exists cs, c2p_calls dim t bodies fuel (map fst X) = Some cs /\ Forall2 is_c2p X cs.
Proof using Hdim Hmass.
  induction 1 as [|[p tr] X [Hx Hs] H (cs & E & F)]; [exists []; split; [reflexivity|constructor]|].
  destruct (group_ok dim Hdim t cofms bodies Hmass fuel p tr Hx Hs) as (l & El & HP).
  exists (C_c2p p l :: cs). cbn [map fst c2p_calls]. rewrite El, E. split; [reflexivity|]. constructor; [|assumption]. exists l. auto.
Qed.

Lemma p2p_calls_ok fuel Dn : Forall (fun z => okt (fst z) /\ okt (snd z)) Dn ->
  p2p_calls dim t bodies fuel (flat_map pps_of Dn) = Some (flat_map ppcall Dn).
Proof using Hdim Hmass.
  induction 1 as [|[x y] D' [Hx Hy] H IH]; [reflexivity|]. cbn [flat_map]. unfold pps_of at 1, ppcall at 1. cbn [fst snd] in *.
  destruct (cell_facts x Hx) as (c1 & E1 & N1 & _ & F1). destruct (cell_facts y Hy) as (c2 & E2 & N2 & _ & F2).
  destruct x as [p [i|k ch]], y as [p' [j|k' ch']]; cbn [isleaf andb fst snd negb] in *; try exact IH.
  cbn [app p2p_calls keyp fst snd]. rewrite E1, E2. unfold cell_ents. rewrite N1, N2.
  destruct F1 as (i' & Ei & G1). destruct F2 as (j' & Ej & G2). injection Ei as <-. injection Ej as <-. rewrite G1, G2, IH. reflexivity.
Qed.

Lemma sub_size r x : In x (subs' r) -> (size [x] <= size [r])%nat.
Proof.
  destruct r as [p tr]. unfold subs'. cbn [fst snd]. revert x.
  apply (subs_ind (fun x => (size [x] <= size [(p, tr)])%nat)); [|lia].
  intros x y Hx Hy. pose proof (kid_size dim x y Hy). rewrite !size_cons in *. lia.
Qed.
Lemma sub_ok r x : okt r -> In x (subs' r) -> okt x.
Proof using Hdim Hmass.
  destruct r as [p tr]. intros Hr. unfold subs'. cbn [fst snd]. revert x. apply subs_ind; [|assumption].
  intros x y Hx Hy. apply (kid_ok dim Hdim t cofms bodies Hmass x y Hx Hy).
Qed.

Lemma traversal_fmm_ok root : okt (1, root) -> kfat root ->
  forall fuel, (2 * size [(1%N, root)] <= fuel)%nat ->
  let Dn := gqueue dim t cofms bodies MAC fuel [((1, root), (1, root))] in
  let first := flat_map calls_of Dn in
  exists X cs, traversal_fmm dim t cofms bodies MAC fuel = Some (first ++ cs ++ flat_map ppcall Dn) /\
    Permutation X (filter (hit first) (subs' (1, root))) /\ Forall2 is_c2p X cs /\
    Forall (fun z => In (fst z) (subs' (1, root)) /\ In (snd z) (subs' (1, root)) /\ okt (fst z) /\ okt (snd z)) Dn.
Proof using Hdim Hmass.
  intros Hr Hk fuel Hf Dn first.
  assert (Hokp : Forall (okp dim t cofms bodies) [((1, root), (1, root))]).
  { constructor; [|constructor]. unfold okp. cbn [fst snd]. split; [assumption|]. split; [assumption|]. split; [assumption|]. split; [assumption|]. congruence. }
  assert (Hsz : Forall (fun z => (psize dim z <= fuel)%nat) [((1, root), (1, root))]).
  { constructor; [|constructor]. unfold psize. cbn [fst snd]. rewrite size_cons in Hf. cbn [fst snd] in Hf. lia. }
  assert (HD : Forall (fun z => In (fst z) (subs' (1, root)) /\ In (snd z) (subs' (1, root)) /\ okt (fst z) /\ okt (snd z)) Dn).
  { assert (HD : Forall (fun z => In (fst z) (subs' (1, root)) /\ In (snd z) (subs' (1, root))) Dn).
    - apply (gqueue_ind dim t cofms bodies MAC).
      + intros z z' [H1 H2] Hz'. apply gnew_in in Hz'.
        assert (G : forall x y, In x (subs' (1, root)) -> In y (kidsof x) -> In y (subs' (1, root))) by (intros x y; apply subs_kids).
        destruct Hz' as [[(A & C & _)|[(A & C & _)|(A & C & _)]]|(_ & A & C)].
        * exact (conj (G _ _ H1 A) (G _ _ H2 C)).
        * rewrite C. exact (conj (G _ _ H1 A) H2).
        * rewrite A. exact (conj H1 (G _ _ H2 C)).
        * exact (conj (G _ _ H1 A) (G _ _ H1 C)).
      + constructor; [|constructor]. cbn [fst snd]. split; apply subs_self.
    - eapply Forall_impl; [|exact HD]. intros z [H1 H2]. repeat (split; [assumption|]).
      split; eapply sub_ok; eauto. }
  unfold traversal_fmm. change [(key_root, key_root)] with (map keyp [((1, root), (1, root))]).
  rewrite (fmm_queue_ok dim Hdim t cofms bodies MAC Hmass fuel _ Hokp Hsz). cbn [fst snd]. fold Dn. fold first.
  destruct (affected_ok first fuel (1, root) Hr) as (X & EX & HX); [lia|].
  change [key_root] with [fst (1, root)]. rewrite EX.
  destruct (c2p_calls_ok fuel X) as (cs & Ecs & Hcs).
  { apply Forall_forall. intros x Hx. apply (Permutation_in _ HX) in Hx. apply filter_In in Hx. destruct Hx as [Hx _].
    split; [eapply sub_ok; eauto|]. pose proof (sub_size _ _ Hx). lia. }
  rewrite Ecs, p2p_calls_ok by (eapply Forall_impl; [|exact HD]; intros z (_ & _ & H1 & H2); exact (conj H1 H2)). exists X, cs. auto.
Qed.
End Calls.

(** ** the sub-trees of the canonical tree *)
Section Canon.
Variable dim : N.
Hypothesis Hdim : dim_ok dim.
Variable ks : list N.
Hypothesis Hs : StronglySorted N.lt ks.
Hypothesis Hf : Forall (full dim) ks.
Notation D := (max_depth dim).
Notation B := (2 ^ dim).
Notation root := (canon dim (N.to_nat D) 1 (numbered ks)).

(** the keys below a sub-tree *)
Definition below (x : N * tree) : Prop := exists m l, (m <= N.to_nat D)%nat /\ at_level dim (N.of_nat m) (fst x) /\
  StronglySorted (fun a b => snd a < snd b) l /\
  (forall a, In a l <-> In a (numbered ks) /\ up dim (N.of_nat m) (snd a) = fst x) /\
  (snd x = canon dim m (fst x) l /\ (m = 0%nat -> l = []) /\ (fst x = 1 \/ (2 <= length l)%nat) \/ exists i k, snd x = Leaf i /\ l = [(i, k)]).

Lemma numbered_full a : In a (numbered ks) -> full dim (snd a).
Proof using Hf. intros H. destruct a as [i k]. unfold numbered in H. apply in_combine_r in H. rewrite Forall_forall in Hf. auto. Qed.

Lemma below_root : below (1, root).
Proof using Hdim Hs Hf.
  exists (N.to_nat D), (numbered ks). cbn [fst snd]. rewrite N2Nat.id. split; [lia|].
  split; [unfold at_level; rewrite N.sub_diag, N.pow_0_r; lia|]. split; [apply numbered_sorted; assumption|].
  split; [|left; split; [reflexivity|split; [pose proof (D_ge1 dim Hdim); lia|left; reflexivity]]].
  intros a. split; [|tauto]. intros H. split; [assumption|]. apply up_root; auto. apply numbered_full. assumption.
Qed.

Lemma below_kids x y : below x -> In y (kidsof dim x) -> below y.
Proof using Hdim.
  destruct x as [p tr]. intros (m & l & Hm & Hlev & Hsl & Hl & [(E & H0 & _)|(i & k & E & _)]) Hy; cbn [fst snd] in *; subst tr; [|destruct Hy].
  destruct m as [|m]; [destruct Hy|]. unfold kidsof in Hy. cbn [snd fst] in Hy. rewrite (canon_S dim) in Hy. unfold kids in Hy.
  apply in_map_iff in Hy. destruct Hy as ([d tr] & <- & Hy). apply in_flat_map in Hy. destruct Hy as (d' & Hd & Hy).
  apply (digits_in dim) in Hd. pose proof (cchild_fst _ _ _ _ _ _ Hy) as Ed. cbn [fst snd] in *. subst d'.
  set (l' := filter (fun a => up dim (N.of_nat m) (snd a) =? p * B + d) l).
  assert (Hl' : forall a, In a l' <-> In a (numbered ks) /\ up dim (N.of_nat m) (snd a) = p * B + d).
  { intros a. unfold l'. rewrite filter_In, N.eqb_eq, Hl. split; [tauto|]. intros [H1 H2]. split; [|assumption]. split; [assumption|].
    replace (N.of_nat (S m)) with (N.of_nat m + 1) by lia. rewrite (up_S dim Hdim), H2. rewrite N.div_add_l by (apply N.pow_nonzero; lia).
    rewrite (N.div_small d) by assumption. lia. }
  assert (Hs' : StronglySorted (fun a b => snd a < snd b) l') by (apply StronglySorted_filter; assumption).
  exists m, l'. split; [lia|]. split.
  { destruct Hlev as [A1 A2]. unfold at_level. cbn [fst]. replace (D - N.of_nat m) with (D - N.of_nat (S m) + 1) by lia.
    rewrite N.pow_add_r, N.pow_1_r. nia. }
  split; [assumption|]. split; [exact Hl'|]. unfold cchild in Hy. fold l' in Hy.
  destruct l' as [|a [|b g]]; [destruct Hy| |]; destruct Hy as [Ey|[]]; injection Ey as <-; cbn [snd fst].
  - right. destruct a as [i k]. eauto.
  - left. split; [reflexivity|]. split; [|right; cbn; lia]. intros ->. exfalso.
    pose proof (proj1 (Hl' a) (or_introl eq_refl)) as [_ E1]. pose proof (proj1 (Hl' b) (or_intror (or_introl eq_refl))) as [_ E2].
    change (N.of_nat 0) with 0 in *. rewrite (up_0 dim) in *.
    assert (snd a < snd b) by (inversion Hs' as [|? ? ? HF]; inversion HF; assumption). lia.
Qed.

Lemma below_leaves x : below x -> exists m l, (m <= N.to_nat D)%nat /\ at_level dim (N.of_nat m) (fst x) /\
  leaves (snd x) = map fst l /\ NoDup l /\ (forall a, In a l <-> In a (numbered ks) /\ up dim (N.of_nat m) (snd a) = fst x).
Proof using Hdim.
  intros (m & l & Hm & Hlev & Hsl & Hl & HT). exists m, l. split; [assumption|]. split; [assumption|].
  split; [|split; [|exact Hl]].
  - destruct HT as [(-> & H0 & _)|(i & k & -> & ->)]; [|reflexivity].
    apply (leaves_canon dim Hdim); auto; [lia|]. intros a Ha. apply Hl. assumption.
  - clear - Hsl. induction Hsl as [|a l H IH F]; constructor; [|assumption]. intros Ha. rewrite Forall_forall in F.
    specialize (F a Ha). cbn in F. lia.
Qed.

Lemma numbered_in i k : In (i, k) (numbered ks) <-> (i < length ks)%nat /\ k = nth i ks 0.
Proof.
  split.
  - intros H. apply numbered_nth in H. split; [|symmetry; apply nth_error_nth; assumption]. apply nth_error_Some. congruence.
  - intros [H ->]. unfold numbered. assert (G : forall a l (i : nat), (i < length l)%nat -> In ((a + i)%nat, nth i l 0) (combine (seq a (length l)) l)).
    { clear. intros a l. revert a. induction l as [|k l IH]; intros a i Hi; [cbn in Hi; lia|]. cbn [length seq combine].
      destruct i as [|i]; [left; rewrite Nat.add_0_r; reflexivity|right]. cbn [nth]. replace (a + S i)%nat with (S a + i)%nat by lia.
      apply IH. cbn in Hi. lia. }
    apply (G 0%nat ks i H).
Qed.

Lemma below_in x j : below x -> (j < length ks)%nat -> In j (leaves (snd x)) <-> under dim (fst x) (nth j ks 0) = true.
Proof using Hdim Hf.
  intros Hx Hj. destruct (below_leaves x Hx) as (m & l & Hm & Hlev & -> & Hnd & Hl).
  assert (Hfull : full dim (nth j ks 0)) by (rewrite Forall_forall in Hf; apply Hf, nth_In; assumption).
  unfold under. rewrite existsb_exists. split.
  - intros H. apply in_map_iff in H. destruct H as ([i k] & E & H). cbn [fst] in E. subst i. apply Hl in H. destruct H as [H E].
    apply numbered_in in H. destruct H as [_ ->]. exists m. split; [apply in_seq; lia|]. apply N.eqb_eq. assumption.
  - intros (r & Hr & E). apply in_seq in Hr. apply N.eqb_eq in E. apply in_map_iff. exists (j, nth j ks 0). split; [reflexivity|].
    apply Hl. split; [apply numbered_in; auto|]. cbn [snd].
    replace (N.of_nat m) with (N.of_nat r); [assumption|].
    apply (level_unique dim Hdim) with (p := fst x); [lia|lia| |assumption]. rewrite <- E. apply up_range; auto. lia.
Qed.

Lemma below_nodup x : below x -> NoDup (leaves (snd x)).
Proof using Hdim.
  intros Hx. destruct (below_leaves x Hx) as (m & l & Hm & Hlev & -> & Hnd & Hl).
  assert (G : forall a b, In a l -> In b l -> fst a = fst b -> a = b).
  { intros [i k] [i' k'] Ha Hb E. cbn [fst] in E. subst i'. apply Hl in Ha. apply Hl in Hb. destruct Ha as [Ha _], Hb as [Hb _].
    apply numbered_in in Ha. apply numbered_in in Hb. destruct Ha as [_ ->], Hb as [_ ->]. reflexivity. }
  clear - Hnd G. induction l as [|a l IH]; [constructor|]. inversion Hnd; subst. cbn [map]. constructor.
  - intros H. apply in_map_iff in H. destruct H as (b & E & Hb). apply H1. rewrite (G a b); auto; [left; reflexivity|right; assumption].
  - apply IH; [assumption|]. intros. apply G; auto; right; assumption.
Qed.

Lemma below_cnt x j : below x -> (j < length ks)%nat -> cnt j x = inside dim ks (fst x) j.
Proof using Hdim Hf.
  intros Hx Hj. pose proof (below_in x j Hx Hj) as H. unfold cnt, inside.
  pose proof (proj1 (NoDup_count_occ Nat.eq_dec _) (below_nodup x Hx) j) as Hle.
  destruct (under dim (fst x) (nth j ks 0)); cbn [b2n].
  - pose proof (proj1 (count_occ_In Nat.eq_dec _ _) (proj2 H eq_refl)). lia.
  - apply count_occ_not_In. intros G. apply H in G. discriminate.
Qed.

Lemma below_subs x : In x (subs dim 1 root) -> below x.
Proof using Hdim Hs Hf. revert x. apply subs_ind; [exact below_kids|exact below_root]. Qed.

Lemma fat_of tr : forall p, (forall x, In x (subs dim p tr) -> isleaf x = false -> (2 <= length (leaves (snd x)))%nat /\ NoDup (leaves (snd x))) -> fat tr.
Proof.
  induction tr as [i|k ch IH] using tree_ind'; intros p H; [exact I|]. cbn [fat].
  destruct (H (p, Node k ch)) as [H1 H2]; [apply subs_self|reflexivity|]. split; [exact H1|]. split; [exact H2|].
  apply fold_and_Forall. apply Forall_forall. intros x Hx. rewrite Forall_forall in IH. apply (IH x Hx (p * B + fst x)).
  intros y Hy. apply H. cbn [subs]. right. apply in_flat_map. eauto.
Qed.

Lemma subs_gt tr : forall p y, 1 < p -> In y (subs dim p tr) -> 1 < fst y.
Proof.
  induction tr as [i|k ch IH] using tree_ind'; intros p y Hp Hy; cbn [subs] in Hy.
  - destruct Hy as [<-|[]]. assumption.
  - destruct Hy as [<-|Hy]; [assumption|]. apply in_flat_map in Hy. destruct Hy as (x & Hx & Hy). rewrite Forall_forall in IH.
    apply (IH x Hx (p * B + fst x)); [|assumption]. assert (0 < B) by (apply N.neq_0_lt_0, N.pow_nonzero; lia). nia.
Qed.

Lemma root_kfat : kfat root.
Proof using Hdim Hs Hf.
  destruct root as [i|k ch] eqn:E; [exact I|]. cbn [kfat]. apply Forall_forall. intros x Hx.
  assert (HB : 2 <= B) by (apply (B_ge2 dim Hdim)).
  apply (fat_of (snd x) (1 * B + fst x)). intros y Hy Hlf.
  assert (Hyr : In y (subs dim 1 root)). { rewrite E. cbn [subs]. right. apply in_flat_map. eauto. }
  pose proof (below_subs y Hyr) as Hb. split; [|apply below_nodup; assumption].
  assert (H1 : 1 < fst y) by (eapply subs_gt; [|exact Hy]; lia).
  destruct Hb as (m & l & Hm & Hlev & Hsl & Hl & [(E' & H0 & [G|G])|(i & k' & E' & _)]); [lia| |].
  - rewrite E', (leaves_canon dim Hdim), map_length; auto; [lia|]. intros a Ha. apply Hl. assumption.
  - unfold isleaf in Hlf. destruct y as [p tr]. cbn [snd] in *. subst tr. discriminate.
Qed.
End Canon.
