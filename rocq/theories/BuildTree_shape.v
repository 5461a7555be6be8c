(** From the invariant to the canonical tree; leaves, cells and traversal of
    the canonical tree. *)
From Coq Require Import Sorted Permutation.
From Verif Require Import Base Key_model Key_spec Key_proofs HCell_model HCell_props
  BuildTree_model BuildTree_spec BuildTree_lemmas BuildTree_inv BuildTree_turn BuildTree_proofs.
Local Open Scope N_scope.

(** The table [t] with summaries [cofm] holds tree [tr] at cell [p]. *)
Fixpoint holds {S} (fcc : N -> list nat -> list S -> S) (dim : N) (t : table) (cofm : list S) (p : N) (tr : tree)
  : Prop :=
  match tr with
  | Leaf i => exists c, tfind t p = Some c /\ c_ent c = Some i /\ c_node c = None /\
                forall d, N.testbit (c_word c) d = false
  | Node k ch => k = p /\
      (exists c j s, tfind t p = Some c /\ c_ent c = None /\ c_node c = Some j /\
         nth_error cofm j = Some s /\ eval fcc tr = inr s /\
         map fst ch = filter (N.testbit (c_word c)) (digits dim) /\
         forall d, N.testbit (c_word c) d = true <-> In d (map fst ch)) /\
      fold_right and True (map (fun x => holds fcc dim t cofm (p * 2 ^ dim + fst x) (snd x)) ch)
  end.

Section Shape.
Variable dim : N.
Hypothesis Hdim : dim_ok dim.
Notation D := (max_depth dim).
Notation B := (2 ^ dim).
Notation up := (up dim).
Notation full := (full dim).
Notation grp := (grp dim).

(** ** the children of a canonical node *)
Definition cchild (r' : nat) (p : N) (l : list (nat * N)) (d : N) : list (N * tree) :=
  match filter (fun x => up (N.of_nat r') (snd x) =? p * B + d) l with
  | [] => []
  | [x] => [(d, Leaf (fst x))]
  | g => [(d, canon dim r' (p * B + d) g)]
  end.

Lemma canon_S r' p l : canon dim (S r') p l = Node p (flat_map (cchild r' p l) (digits dim)).
Proof. cbn [canon]. rewrite <- (digits_eq dim). reflexivity. Qed.

Lemma cchild_fst r' p l d x : In x (cchild r' p l d) -> fst x = d.
Proof.
  unfold cchild. destruct (filter _ _) as [|y [|z g]]; cbn; [intros []| |]; intros [<-|[]]; reflexivity.
Qed.

Lemma cchild_digits r' p l ds : map fst (flat_map (cchild r' p l) ds) =
  filter (fun d => match cchild r' p l d with [] => false | _ => true end) ds.
Proof.
  induction ds as [|d ds IH]; [reflexivity|]. cbn [flat_map filter]. rewrite map_app, IH.
  unfold cchild at 1 3. destruct (filter (fun x => up (N.of_nat r') (snd x) =? p * B + d) l) as [|x [|y g]]; reflexivity.
Qed.

Section Single.
Variable Sm : Type.
Variable fcc : N -> list nat -> list Sm -> Sm.
Variable ks : list N.
Hypothesis Hnd : NoDup ks.
Hypothesis Hfull : Forall full ks.
Variable st : state Sm.
Variable P : N -> N -> Prop.
Hypothesis HP : forall r q, P r q.
Hypothesis HI : Inv dim Sm fcc ks st ks ks P.

Notation has := (has dim ks).
Notation many := (many dim ks).
Notation internal := (internal dim ks).
Notation cell_ex := (cell_ex dim ks ks).

Lemma settled_all r q : settled dim ks ks ks r q.
Proof. split; auto. Qed.

Lemma many_0 q : ~ many 0 q.
Proof. intros (a & b & _ & _ & Hn & Ea & Eb). apply Hn. rewrite (up_0 dim) in *. congruence. Qed.

Lemma fold_and_Forall {A} (f : A -> Prop) l : fold_right and True (map f l) <-> Forall f l.
Proof.
  induction l; cbn; [split; auto|]. rewrite IHl. split; [intros []; constructor; auto|intros H; inversion H; auto].
Qed.

Lemma holds_canon : forall n q, let r := N.of_nat n in r <= D -> cell_ex r q -> internal r q -> has r q ->
  holds fcc dim (st_tab st) (st_cofm st) q (canon dim n q (grp ks r q)).
Proof.
  induction n as [|n IH]; intros q r Hr Hex Hint Hhas.
  - exfalso. destruct Hint as [H|H]; [pose proof (D_ge1 dim Hdim); subst r; lia|]. revert H. apply many_0.
  - destruct (inv_complete _ _ _ _ _ _ _ _ HI r q Hr Hex) as (c & Hc & He & Hw & Hn).
    rewrite canon_S.
    set (ch := flat_map _ _).
    assert (Hch : forall d, d < B -> cchild n q (grp ks r q) d =
       match grp ks (r - 1) (q * B + d) with
       | [] => [] | [x] => [(d, Leaf (fst x))] | g => [(d, canon dim n (q * B + d) g)] end).
    { intros d Hd. unfold cchild. replace (N.of_nat n) with (r - 1) by (subst r; lia).
      rewrite grp_child; auto; try (exact (fun _ => 0%N)); subst r; lia. }
    assert (Hgrp : forall d, d < B -> has (r - 1) (q * B + d) <-> grp ks (r - 1) (q * B + d) <> []).
    { intros d Hd. split.
      - intros Hh E. eapply grp_nil; [symmetry; apply app_nil_r|exact E|exact Hh].
      - intros Hg. destruct (grp ks (r - 1) (q * B + d)) as [|[i k] g] eqn:E; [congruence|].
        assert (Hin : In (i, k) (grp ks (r - 1) (q * B + d))) by (rewrite E; left; reflexivity).
        apply grp_in in Hin. exists k. split; [eapply nth_error_In; apply Hin|apply Hin]. }
    cbn [holds]. split; [reflexivity|]. split.
    + destruct (c_node c) as [j|] eqn:Ej.
      2:{ exfalso. apply Hn. auto. }
      destruct Hn as (_ & _ & _ & s & Hs & Hsum). exists c, j, s.
      split; [assumption|]. split.
      { destruct (c_ent c) as [i|]; [|reflexivity]. exfalso.
        destruct (proj1 (He i) eq_refl) as (A & A' & _). destruct Hint; [lia|contradiction]. }
      split; [assumption|]. split; [assumption|]. split.
      { rewrite <- Hsum. unfold summary. replace (N.to_nat r) with (S n) by (subst r; lia).
        rewrite canon_S. reflexivity. }
      assert (Hbits : forall d, N.testbit (c_word c) d = true <-> In d (map fst ch)).
      { intros d. rewrite Hw. rewrite in_map_iff. split.
      * intros (Hd & H1 & Hcx). apply (child_ex dim Hdim ks ks r q d ltac:(lia) Hd Hint) in Hcx.
        apply Hgrp in Hcx; [|assumption].
        destruct (cchild n q (grp ks r q) d) as [|x ?] eqn:Ex.
        { rewrite Hch in Ex by assumption. destruct (grp ks (r - 1) (q * B + d)) as [|? [|? ?]]; congruence. }
        exists x. split; [apply (cchild_fst n q (grp ks r q)); rewrite Ex; left; reflexivity|].
        unfold ch. apply in_flat_map. exists d. split; [apply (digits_in dim); assumption|]. rewrite Ex. left. reflexivity.
      * intros (x & <- & Hx). unfold ch in Hx. apply in_flat_map in Hx. destruct Hx as (d & Hd & Hx).
        apply (digits_in dim) in Hd. pose proof (cchild_fst _ _ _ _ _ Hx) as ->.
        split; [assumption|]. split; [subst r; lia|]. apply (child_ex dim Hdim); auto; [subst r; lia|].
        apply Hgrp; [assumption|]. rewrite Hch in Hx by assumption.
        destruct (grp ks (r - 1) (q * B + d)); [destruct Hx|discriminate]. }
      split; [|exact Hbits]. unfold ch in *. rewrite cchild_digits in *.
      apply filter_ext_in. intros d Hd. specialize (Hbits d). rewrite filter_In in Hbits.
      apply Bool.eq_true_iff_eq. clear - Hbits Hd. tauto.
    + apply fold_and_Forall. apply Forall_forall. intros x Hx. unfold ch in Hx.
      apply in_flat_map in Hx. destruct Hx as (d & Hd & Hx). apply (digits_in dim) in Hd.
      pose proof (cchild_fst _ _ _ _ _ Hx) as Ef. rewrite Ef. rewrite Hch in Hx by assumption.
      pose proof (Hgrp d Hd) as Hg.
      assert (Hr1 : 1 <= r <= D) by (subst r; lia).
      pose proof (settled_all (r - 1) (q * B + d)) as Hset.
      destruct (grp ks (r - 1) (q * B + d)) as [|y [|z g]] eqn:Eg; cbn in Hx.
      * destruct Hx.
      * destruct Hx as [<-|[]]. cbn [snd holds].
        destruct (grp_one dim ks ks ks [] (eq_sym (app_nil_r ks)) Hnd (r - 1) (q * B + d) y Hset Eg) as (A1 & A2 & A3).
        assert (Hcx : cell_ex (r - 1) (q * B + d)).
        { apply (child_ex dim Hdim); auto. apply Hg. discriminate. }
        destruct (inv_complete _ _ _ _ _ _ _ _ HI (r - 1) (q * B + d) ltac:(lia) Hcx) as (c' & Hc' & He' & Hw' & Hn').
        exists c'. split; [assumption|]. split; [|split].
        -- apply He'. split; [lia|]. split; [assumption|]. eauto.
        -- destruct (c_node c'); [|reflexivity]. destruct Hn' as ([Hi|Hi] & _); [lia|contradiction].
        -- intros d'. destruct (N.testbit (c_word c') d') eqn:Et; [|reflexivity]. exfalso.
           apply Hw' in Et. destruct Et as (Hd' & Hr2 & [[Hz _]|(_ & _ & Hi)]); [lia|].
           rewrite (child_parent dim) in Hi by assumption. replace (r - 1 - 1 + 1) with (r - 1) in Hi by lia.
           destruct Hi as [Hi|Hi]; [lia|contradiction].
      * destruct Hx as [<-|[]]. cbn [snd]. rewrite <- Eg. replace (r - 1) with (N.of_nat n) in * by (subst r; lia).
        apply IH.
        -- lia.
        -- replace (N.of_nat n) with (r - 1) by (subst r; lia). apply (child_ex dim Hdim); auto.
           replace (r - 1) with (N.of_nat n) by (subst r; lia). apply Hg. discriminate.
        -- right. exact (grp_two dim ks ks ks (fun x H => H) Hnd _ _ _ _ _ Hset Eg).
        -- apply Hg. discriminate.
Qed.

Lemma grp_root : ks <> [] -> grp ks D 1 = numbered ks /\ has D 1.
Proof using Hdim Hfull. clear - Hdim Hfull.
  intros Hne. split.
  - unfold BuildTree_inv.grp. assert (G : forall x, In x (numbered ks) -> up D (snd x) = 1).
    { intros [i k] H. apply numbered_nth, nth_error_In in H. rewrite Forall_forall in Hfull.
      apply up_root; auto. }
    induction (numbered ks) as [|x l IH]; cbn [filter]; [reflexivity|].
    rewrite G by (left; reflexivity). rewrite N.eqb_refl, IH; [reflexivity|]. intros; apply G; right; assumption.
  - destruct ks as [|k l]; [congruence|]. exists k. split; [left; reflexivity|].
    apply up_root; auto. inversion Hfull; assumption.
Qed.

Lemma holds_root : ks <> [] -> holds fcc dim (st_tab st) (st_cofm st) 1 (canon dim (N.to_nat D) 1 (numbered ks)).
Proof.
  intros Hne. destruct (grp_root Hne) as [E H]. rewrite <- E.
  pose proof (holds_canon (N.to_nat D) 1) as G. rewrite N2Nat.id in G. apply G; auto; [lia| |left; reflexivity].
  left. auto.
Qed.
End Single.

(** ** leaves *)
Lemma filter_split_sorted {A} (g : A -> N) a (l : list A) :
  StronglySorted (fun x y => g x <= g y) l -> (forall x, In x l -> a <= g x) ->
  l = filter (fun x => g x =? a) l ++ filter (fun x => negb (g x =? a)) l.
Proof.
  induction l as [|x l IH]; intros Hs Hr; [reflexivity|]. inversion Hs; subst. cbn [filter].
  destruct (N.eqb_spec (g x) a) as [E|E]; cbn [negb].
  - cbn [app]. f_equal. apply IH; auto. intros; apply Hr; right; assumption.
  - assert (F : filter (fun y => g y =? a) l = []).
    { rewrite Forall_forall in H2. pose proof (Hr x (or_introl eq_refl)).
      clear - H2 H E. induction l as [|y l IH]; [reflexivity|]. cbn.
      pose proof (H2 y (or_introl eq_refl)). destruct (N.eqb_spec (g y) a); [lia|]. apply IH.
      intros; apply H2; right; assumption. }
    rewrite F. cbn [app]. f_equal. symmetry. rewrite F in IH. cbn [app] in IH. symmetry. apply IH; auto.
    intros; apply Hr; right; assumption.
Qed.

Lemma filter_filter_ne {A} (g : A -> N) a d (l : list A) : a <> d ->
  filter (fun x => g x =? d) (filter (fun x => negb (g x =? a)) l) = filter (fun x => g x =? d) l.
Proof.
  intros Hne. induction l as [|x l IH]; [reflexivity|]. cbn.
  destruct (N.eqb_spec (g x) a) as [E|E]; cbn.
  - rewrite E. destruct (N.eqb_spec a d); [contradiction|assumption].
  - destruct (g x =? d); rewrite IH; reflexivity.
Qed.

Lemma StronglySorted_filter {A} (R : A -> A -> Prop) f (l : list A) :
  StronglySorted R l -> StronglySorted R (filter f l).
Proof.
  induction 1; cbn; [constructor|]. destruct (f a); [|assumption]. constructor; [assumption|].
  apply Forall_forall. intros x Hx. apply filter_In in Hx. rewrite Forall_forall in H0. apply H0. tauto.
Qed.

Lemma partition_sorted {A} (g : A -> N) : forall n a (l : list A),
  StronglySorted (fun x y => g x <= g y) l -> (forall x, In x l -> a <= g x < a + N.of_nat n) ->
  l = flat_map (fun d => filter (fun x => g x =? a + d) l) (map N.of_nat (seq 0 n)).
Proof.
  induction n as [|n IH]; intros a l Hs Hr.
  - destruct l as [|x l]; [reflexivity|]. pose proof (Hr x (or_introl eq_refl)). lia.
  - cbn [seq map flat_map]. change (N.of_nat 0) with 0. rewrite N.add_0_r.
    rewrite (filter_split_sorted g a l Hs) at 1 by (intros x Hx; pose proof (Hr x Hx); lia). f_equal.
    set (l' := filter (fun x => negb (g x =? a)) l).
    rewrite (IH (a + 1) l').
    + rewrite <- seq_shift, map_map. rewrite !flat_map_concat_map, !map_map. f_equal. apply map_ext.
      intros d. rewrite <- (filter_filter_ne g a (a + N.of_nat (S d)) l) by lia. fold l'.
      replace (a + 1 + N.of_nat d) with (a + N.of_nat (S d)) by lia. reflexivity.
    + apply StronglySorted_filter. assumption.
    + intros x Hx. unfold l' in Hx. apply filter_In in Hx. destruct Hx as [Hx Hn]. pose proof (Hr x Hx).
      apply Bool.negb_true_iff, N.eqb_neq in Hn. lia.
Qed.

Lemma SS_impl {A} (R R' : A -> A -> Prop) l : (forall x y, R x y -> R' x y) -> StronglySorted R l -> StronglySorted R' l.
Proof.
  intros H. induction 1; constructor; auto. eapply Forall_impl; [|eassumption]. auto.
Qed.

Lemma leaves_canon : forall n p (l : list (nat * N)), N.of_nat n <= D ->
  StronglySorted (fun x y => snd x < snd y) l -> (forall x, In x l -> up (N.of_nat n) (snd x) = p) ->
  (n = 0%nat -> l = []) -> leaves (canon dim n p l) = map fst l.
Proof.
  induction n as [|n IH]; intros p l Hn Hs Hp H0.
  - rewrite H0 by reflexivity. reflexivity.
  - rewrite canon_S. cbn [leaves].
    rewrite (partition_sorted (fun x => up (N.of_nat n) (snd x)) (N.to_nat B) (p * B) l) at 2.
    + rewrite (digits_eq dim).
      assert (E : forall ds, (forall d, In d ds -> d < B) ->
        flat_map (fun x : N * tree => leaves (snd x)) (flat_map (cchild n p l) ds) =
        map fst (flat_map (fun d => filter (fun x : nat * N => up (N.of_nat n) (snd x) =? p * B + d) l) ds)).
      { induction ds as [|d ds IHds]; intros Hds; [reflexivity|]. cbn [flat_map]. rewrite flat_map_app, map_app.
        rewrite IHds by (intros; apply Hds; right; assumption). f_equal.
        unfold cchild. set (g := filter _ l).
        assert (Hg : forall x, In x g -> up (N.of_nat n) (snd x) = p * B + d).
        { intros x Hx. unfold g in Hx. apply filter_In in Hx. apply N.eqb_eq. tauto. }
        assert (Hgs : StronglySorted (fun x y => snd x < snd y) g) by (apply StronglySorted_filter; assumption).
        clearbody g. destruct g as [|x [|y g]]; [reflexivity|reflexivity|].
        cbn [flat_map snd]. rewrite app_nil_r. apply IH; auto; [lia|].
        intros ->. exfalso.
        assert (Hlt : snd x < snd y) by (inversion Hgs as [|? ? ? HF]; inversion HF; assumption).
        pose proof (Hg x (or_introl eq_refl)) as E1. pose proof (Hg y (or_intror (or_introl eq_refl))) as E2.
        change (N.of_nat 0) with 0 in *. rewrite (up_0 dim) in *. lia. }
      apply E. intros d Hd. apply (digits_in dim). rewrite (digits_eq dim). assumption.
    + eapply SS_impl; [|exact Hs]. cbn. intros x y Hxy. apply up_mono; auto. lia.
    + intros x Hx. rewrite N2Nat.id. pose proof (Hp x Hx) as E.
      rewrite (up_child dim Hdim) in E by lia. replace (N.of_nat (S n) - 1) with (N.of_nat n) in E by lia.
      pose proof (B_ge2 dim Hdim). subst p. pose proof (N.div_mod (up (N.of_nat n) (snd x)) B ltac:(lia)).
      pose proof (N.mod_lt (up (N.of_nat n) (snd x)) B ltac:(lia)). nia.
Qed.

Lemma numbered_sorted ks : StronglySorted N.lt ks -> StronglySorted (fun x y : nat * N => snd x < snd y) (numbered ks).
Proof.
  unfold numbered. generalize 0%nat. induction ks as [|k ks IH]; intros n Hs; cbn; [constructor|].
  inversion Hs; subst. constructor; [apply IH; assumption|]. apply Forall_forall. intros [i x] Hx.
  apply in_combine_r in Hx. rewrite Forall_forall in H2. apply H2. assumption.
Qed.

Lemma numbered_fst ks : map fst (numbered ks) = seq 0 (length ks).
Proof.
  unfold numbered. generalize 0%nat. induction ks as [|k ks IH]; intros n; cbn; [reflexivity|]. f_equal. apply IH.
Qed.

Lemma leaves_root ks : StronglySorted N.lt ks -> Forall full ks ->
  leaves (canon dim (N.to_nat D) 1 (numbered ks)) = seq 0 (length ks).
Proof.
  intros Hs Hf. rewrite leaves_canon, numbered_fst; [reflexivity| | | |].
  - lia.
  - apply numbered_sorted. assumption.
  - intros [i k] Hx. rewrite N2Nat.id. apply numbered_nth, nth_error_In in Hx. rewrite Forall_forall in Hf.
    apply up_root; auto.
  - pose proof (D_ge1 dim Hdim). lia.
Qed.

(** ** cells of the canonical tree *)
Lemma cells_level : forall n p l q, N.of_nat n <= D -> at_level dim (N.of_nat n) p ->
  In q (cells dim p (canon dim n p l)) ->
  exists r, r <= N.of_nat n /\ at_level dim r q /\ up (N.of_nat n - r) q = p.
Proof.
  induction n as [|n IH]; intros p l q Hn Hlev Hq.
  - cbn in Hq. destruct Hq as [<-|[]]. exists 0. split; [lia|]. split; [assumption|]. apply (up_0 dim).
  - rewrite canon_S in Hq. cbn [cells] in Hq. destruct Hq as [<-|Hq].
    { exists (N.of_nat (S n)). split; [lia|]. split; [assumption|]. rewrite N.sub_diag. apply (up_0 dim). }
    apply in_flat_map in Hq. destruct Hq as (x & Hx & Hq). apply in_flat_map in Hx. destruct Hx as (d & Hd & Hx).
    apply (digits_in dim) in Hd. pose proof (cchild_fst _ _ _ _ _ Hx) as Ef. rewrite Ef in Hq.
    assert (Hlev' : at_level dim (N.of_nat n) (p * B + d)).
    { destruct Hlev as [A1 A2]. unfold at_level.
      replace (D - N.of_nat n) with (D - N.of_nat (S n) + 1) by lia.
      rewrite N.pow_add_r, N.pow_1_r. nia. }
    assert (G : exists r, r <= N.of_nat n /\ at_level dim r q /\ up (N.of_nat n - r) q = p * B + d).
    { unfold cchild in Hx. destruct (filter _ l) as [|y [|z g]].
      - destruct Hx.
      - destruct Hx as [<-|[]]. cbn in Hq. destruct Hq as [<-|[]]. exists (N.of_nat n). split; [lia|].
        split; [assumption|]. rewrite N.sub_diag. apply (up_0 dim).
      - destruct Hx as [<-|[]]. apply (IH _ (y :: z :: g)); auto. lia. }
    destruct G as (r & A1 & A2 & A3). exists r. split; [lia|]. split; [assumption|].
    replace (N.of_nat (S n) - r) with (N.of_nat n - r + 1) by lia.
    rewrite (up_S dim Hdim), A3. apply (child_parent dim). assumption.
Qed.

Lemma NoDup_flat_map {A C} (f : A -> list C) l : NoDup l -> (forall x, In x l -> NoDup (f x)) ->
  (forall x y z, In x l -> In y l -> In z (f x) -> In z (f y) -> x = y) -> NoDup (flat_map f l).
Proof.
  induction l as [|a l IH]; intros Hn Hf Hd; cbn; [constructor|]. inversion Hn; subst.
  assert (G : forall (u v : list C), NoDup u -> NoDup v -> (forall z, In z u -> ~ In z v) -> NoDup (u ++ v)).
  { clear. induction u as [|x u IHu]; intros v Hu Hv Hs; cbn; [assumption|]. inversion Hu; subst. constructor.
    - intros H. apply in_app_or in H. destruct H as [H|H]; [contradiction|]. apply (Hs x); [left; reflexivity|assumption].
    - apply IHu; auto. intros z Hz. apply Hs. right. assumption. }
  apply G.
  - apply Hf. left. reflexivity.
  - apply IH; auto. intros; apply Hf; right; assumption. intros x y z Hx Hy. apply Hd; right; assumption.
  - intros z Hz Hin. apply in_flat_map in Hin. destruct Hin as (y & Hy & Hz').
    assert (a = y) as -> by (eapply Hd; eauto; [left; reflexivity|right; assumption]). contradiction.
Qed.

Lemma cells_nodup : forall n p l, N.of_nat n <= D -> at_level dim (N.of_nat n) p ->
  NoDup (cells dim p (canon dim n p l)).
Proof.
  induction n as [|n IH]; intros p l Hn Hlev.
  - cbn. constructor; [intros []|constructor].
  - assert (Hlev' : forall d, d < B -> at_level dim (N.of_nat n) (p * B + d)).
    { intros d Hd. destruct Hlev as [A1 A2]. unfold at_level.
      replace (D - N.of_nat n) with (D - N.of_nat (S n) + 1) by lia.
      rewrite N.pow_add_r, N.pow_1_r. nia. }
    rewrite canon_S. cbn [cells].
    assert (Hlv : forall x q, In x (flat_map (cchild n p l) (digits dim)) ->
       In q (cells dim (p * B + fst x) (snd x)) ->
       exists r, r <= N.of_nat n /\ at_level dim r q /\ up (N.of_nat n - r) q = p * B + fst x).
    { intros x q Hx Hq. apply in_flat_map in Hx. destruct Hx as (d & Hd & Hx).
      apply (digits_in dim) in Hd. pose proof (cchild_fst _ _ _ _ _ Hx) as Ef. rewrite Ef in *.
      unfold cchild in Hx. destruct (filter _ l) as [|y [|z g]].
      - destruct Hx.
      - destruct Hx as [<-|[]]. cbn in Hq. destruct Hq as [<-|[]]. exists (N.of_nat n). split; [lia|].
        split; [auto|]. rewrite N.sub_diag. apply (up_0 dim).
      - destruct Hx as [<-|[]]. apply (cells_level _ _ (y :: z :: g)); auto. lia. }
    constructor.
    + intros Hin. apply in_flat_map in Hin. destruct Hin as (x & Hx & Hq). destruct (Hlv x p Hx Hq) as (r & A1 & A2 & _).
      assert (r = N.of_nat (S n)) by (apply (level_unique dim Hdim r (N.of_nat (S n)) p); auto; lia). lia.
    + apply NoDup_flat_map.
      * (* children are distinct *)
        apply NoDup_flat_map.
        -- rewrite (digits_eq dim). apply FinFun.Injective_map_NoDup; [|apply seq_NoDup]. intros a b E. lia.
        -- intros d _. unfold cchild. destruct (filter _ l) as [|y [|z g]]; repeat constructor; auto.
        -- intros d d' z _ _ Hz Hz'. apply cchild_fst in Hz. apply cchild_fst in Hz'. congruence.
      * intros x Hx. apply in_flat_map in Hx. destruct Hx as (d & Hd & Hx).
        apply (digits_in dim) in Hd. pose proof (cchild_fst _ _ _ _ _ Hx) as Ef. rewrite Ef in *.
        unfold cchild in Hx. destruct (filter _ l) as [|y [|z g]].
        -- destruct Hx.
        -- destruct Hx as [<-|[]]. cbn. constructor; [intros []|constructor].
        -- destruct Hx as [<-|[]]. apply IH; auto. lia.
      * intros x y z Hx Hy Hz Hz'. destruct (Hlv x z Hx Hz) as (r & A1 & A2 & A3).
        destruct (Hlv y z Hy Hz') as (r' & A1' & A2' & A3').
        assert (r = r') by (apply (level_unique dim Hdim r r' z); auto; lia). subst r'.
        apply in_flat_map in Hx. destruct Hx as (d & Hd & Hx). apply in_flat_map in Hy. destruct Hy as (d' & Hd' & Hy).
        pose proof (cchild_fst _ _ _ _ _ Hx) as Ef. pose proof (cchild_fst _ _ _ _ _ Hy) as Ef'.
        apply (digits_in dim) in Hd. apply (digits_in dim) in Hd'.
        assert (Edd : p * B + d = p * B + d') by congruence.
        apply (child_digit dim) in Edd; auto. destruct Edd as [_ <-].
        unfold cchild in Hx, Hy. destruct (filter _ l) as [|u [|v g]]; [destruct Hx| |];
          destruct Hx as [<-|[]], Hy as [<-|[]]; reflexivity.
Qed.

(** ** every cell of the table is in the tree *)
Section AllCells.
Variable ks : list N.
Hypothesis Hnd : NoDup ks.
Notation has := (has dim ks).
Notation many := (many dim ks).
Notation internal := (internal dim ks).
Notation cell_ex := (cell_ex dim ks ks).

Lemma cells_complete : forall n p r q, N.of_nat n <= D -> r < N.of_nat n -> cell_ex r q ->
  up (N.of_nat n - r) q = p -> In q (cells dim p (canon dim n p (grp ks (N.of_nat n) p))).
Proof.
  induction n as [|n IH]; intros p r q Hn Hr Hex Hp; [lia|].
  rewrite canon_S. cbn [cells]. right.
  destruct Hex as [[E _]|(HrD & Hhas & Hint)]; [lia|].
  set (ch := up (N.of_nat n - r) q).
  assert (Ech : ch / B = p).
  { unfold ch. rewrite <- (up_S dim Hdim), <- Hp. f_equal. lia. }
  set (d := ch mod B). pose proof (B_ge2 dim Hdim) as HB.
  assert (Hd : d < B) by (apply N.mod_lt; lia).
  assert (Ed : p * B + d = ch) by (unfold d; rewrite <- Ech, N.mul_comm; symmetry; apply N.div_mod; lia).
  destruct Hhas as (k & Hk & Ek).
  assert (Hkc : up (N.of_nat n) k = ch).
  { unfold ch. rewrite <- Ek, <- (up_up dim Hdim). f_equal. lia. }
  apply In_nth_error in Hk. destruct Hk as [i Hi].
  assert (Hin : In (i, k) (grp ks (N.of_nat n) ch)) by (apply grp_in; auto).
  assert (Hg : filter (fun x => up (N.of_nat n) (snd x) =? p * B + d) (grp ks (N.of_nat (S n)) p)
               = grp ks (N.of_nat n) (p * B + d)).
  { pose proof (grp_child dim Hdim ks (N.of_nat (S n)) p d ltac:(lia) Hd) as G.
    replace (N.of_nat (S n) - 1) with (N.of_nat n) in G by lia. exact G. }
  apply in_flat_map.
  destruct (grp ks (N.of_nat n) ch) as [|x [|y g]] eqn:Eg; [destruct Hin| |].
  - (* a single key: q is the leaf cell *)
    exists (d, Leaf (fst x)). split.
    + apply in_flat_map. exists d. split; [apply (digits_in dim); assumption|].
      unfold cchild. rewrite Hg, Ed, Eg. left. reflexivity.
    + cbn [fst snd cells]. left. rewrite Ed. unfold ch.
      destruct (N.eq_dec r (N.of_nat n)) as [->|Hne]; [rewrite N.sub_diag; apply (up_0 dim)|]. exfalso.
      assert (Hset : settled dim ks ks ks (N.of_nat n) ch) by (split; auto).
      destruct (grp_one dim ks ks ks [] (eq_sym (app_nil_r ks)) Hnd _ _ _ Hset Eg) as (A1 & _). apply A1.
      destruct Hint as [Hi'|Hi']; [lia|].
      rewrite <- Hkc. apply (many_up dim Hdim ks (r + 1) (N.of_nat n) (q / B) k); auto; [lia|].
      rewrite (up_S dim Hdim), Ek. reflexivity.
  - exists (d, canon dim n (p * B + d) (grp ks (N.of_nat n) (p * B + d))). split.
    + apply in_flat_map. exists d. split; [apply (digits_in dim); assumption|].
      unfold cchild. rewrite Hg, Ed, Eg. left. reflexivity.
    + cbn [fst snd]. destruct (N.eq_dec r (N.of_nat n)) as [E|Hne].
      * assert (Hq : q = p * B + d). { rewrite Ed. unfold ch. rewrite E, N.sub_diag. symmetry. apply (up_0 dim). }
        rewrite <- Hq. destruct n; cbn [canon cells]; left; reflexivity.
      * apply (IH _ r); auto; [lia|lia|]. right. split; [assumption|]. split; [|assumption].
        exists k. split; [eapply nth_error_In; eauto|assumption].
Qed.
End AllCells.

(** ** traversal *)
Lemma tree_ind' (Q : tree -> Prop) : (forall i, Q (Leaf i)) ->
  (forall k ch, Forall (fun x => Q (snd x)) ch -> Q (Node k ch)) -> forall t, Q t.
Proof.
  intros HL HN. fix F 1. intros [i|k ch]; [apply HL|]. apply HN.
  induction ch as [|x ch IH]; constructor; [apply F|exact IH].
Qed.

Definition ent_of (t : table) (q : N) : list nat :=
  match tfind t q with Some c => match c_ent c with Some i => [i] | None => [] end | None => [] end.

Lemma ents_cells {S} (fcc : N -> list nat -> list S -> S) t cofm tr : forall p, holds fcc dim t cofm p tr ->
  flat_map (ent_of t) (cells dim p tr) = leaves tr.
Proof.
  induction tr as [i|k ch IH] using tree_ind'; intros p H; cbn [holds] in H.
  - destruct H as (c & H1 & H2 & _). cbn. unfold ent_of. rewrite H1, H2. reflexivity.
  - destruct H as (-> & (c & j & s & H1 & H2 & _) & H). apply fold_and_Forall in H.
    cbn [cells leaves flat_map]. unfold ent_of at 1. rewrite H1, H2. cbn [app].
    clear H1 H2. induction ch as [|x ch IHch]; [reflexivity|]. inversion IH; subst. inversion H; subst.
    cbn [flat_map]. rewrite flat_map_app, IHch by assumption. f_equal. auto.
Qed.

Lemma holds_cells' {S} (fcc : N -> list nat -> list S -> S) t cofm tr : forall p q, holds fcc dim t cofm p tr ->
  In q (cells dim p tr) -> tfind t q <> None.
Proof.
  induction tr as [i|k ch IH] using tree_ind'; intros p q H Hq; cbn [holds] in H.
  - destruct H as (c & H1 & _). destruct Hq as [<-|[]]. congruence.
  - destruct H as (_ & (c & j & s & H1 & _) & H). apply fold_and_Forall in H. cbn [cells] in Hq.
    destruct Hq as [<-|Hq]; [congruence|]. apply in_flat_map in Hq. destruct Hq as (x & Hx & Hq).
    rewrite Forall_forall in IH, H. eapply IH; eauto.
Qed.

Definition good {S} (fcc : N -> list nat -> list S -> S) t cofm (x : N * tree) : Prop :=
  holds fcc dim t cofm (fst x) (snd x) /\ exists n, N.of_nat n <= D /\ at_level dim (N.of_nat n) (fst x) /\
    ((exists i, snd x = Leaf i) \/ exists l, snd x = canon dim n (fst x) l).

Lemma good_children {S} (fcc : N -> list nat -> list S -> S) t cofm p k ch :
  good fcc t cofm (p, Node k ch) ->
  Forall (good fcc t cofm) (map (fun x => (p * B + fst x, snd x)) ch) /\ (ch <> [] -> exists r, 1 <= r <= D /\ at_level dim r p).
Proof.
  intros [Hh (n & Hn & Hlev & [[i E]|[l E]])]; cbn [fst snd] in *; [discriminate|].
  cbn [holds] in Hh. destruct Hh as (_ & _ & Hh). apply fold_and_Forall in Hh.
  destruct n as [|n]; [cbn in E; injection E as <- ->; split; [constructor|congruence]|].
  rewrite canon_S in E. injection E as _ ->. split; [|intros _; exists (N.of_nat (Datatypes.S n)); split; [lia|assumption]].
  apply Forall_forall. intros y Hy. apply in_map_iff in Hy. destruct Hy as (x & <- & Hx).
  rewrite Forall_forall in Hh. split; [apply Hh; assumption|]. cbn [fst snd].
  apply in_flat_map in Hx. destruct Hx as (d & Hd & Hx). apply (digits_in dim) in Hd.
  pose proof (cchild_fst _ _ _ _ _ Hx) as Ef. rewrite Ef.
  exists n. split; [lia|]. split.
  - destruct Hlev as [A1 A2]. unfold at_level. replace (D - N.of_nat n) with (D - N.of_nat (Datatypes.S n) + 1) by lia.
    rewrite N.pow_add_r, N.pow_1_r. nia.
  - unfold cchild in Hx. destruct (filter _ l) as [|y [|z g]]; [destruct Hx| |]; destruct Hx as [<-|[]]; cbn [snd].
    + left. eauto.
    + right. eauto.
Qed.

Lemma child_keys_ok t p w ds : (forall d, In d (filter (N.testbit w) ds) -> d < B /\ tfind t (p * B + d) <> None) ->
  (filter (N.testbit w) ds <> [] -> exists r, 1 <= r <= D /\ at_level dim r p) ->
  child_keys dim t p w ds = Some (map (fun d => p * B + d) (filter (N.testbit w) ds)).
Proof.
  induction ds as [|d ds IH]; intros H1 H2; [reflexivity|]. cbn [child_keys filter] in *.
  rewrite get_child_testbit. destruct (N.testbit w d) eqn:E.
  - destruct (H2 ltac:(discriminate)) as (r & Hr & Hlev). destruct (H1 d (or_introl eq_refl)) as [Hd Hf].
    rewrite (push_child dim Hdim r) by assumption. destruct (tfind t (p * B + d)); [|congruence].
    rewrite IH; [reflexivity| |].
    + intros d' Hd'. apply H1. right. assumption.
    + intros _. eauto.
  - apply IH; assumption.
Qed.

Lemma holds_found {S} (fcc : N -> list nat -> list S -> S) t cofm p tr : holds fcc dim t cofm p tr -> tfind t p <> None.
Proof. destruct tr; cbn; intros H; [destruct H as (c & E & _)|destruct H as (_ & (c & j & s & E & _) & _)]; congruence. Qed.

Lemma traversal_ok {S} (fcc : N -> list nat -> list S -> S) t cofm : forall fuel (stk : list (N * tree)),
  Forall (good fcc t cofm) stk ->
  (length (flat_map (fun x => cells dim (fst x) (snd x)) stk) <= fuel)%nat ->
  exists vis, traversal fuel dim t (fun _ _ => true) (map fst stk) = Some vis /\   Permutation vis (flat_map (fun x => cells dim (fst x) (snd x)) stk).
Proof.
  induction fuel as [|fuel IH]; intros stk Hg Hf.
  - destruct stk as [|[p tr] stk]; [exists []; split; [reflexivity|constructor]|].
    cbn [flat_map fst snd] in Hf. rewrite app_length in Hf. destruct tr; cbn in Hf; lia.
  - destruct stk as [|[p tr] stk]; [exists []; split; [reflexivity|constructor]|].
    cbn [map fst traversal]. inversion Hg as [|? ? Hp Hstk]; subst.
    cbn [flat_map fst snd] in Hf |- *. rewrite app_length in Hf.
    destruct tr as [i|k ch].
    + destruct Hp as [Hh _]. cbn [fst snd holds] in Hh. destruct Hh as (c & Hc & _ & _ & Hw). rewrite Hc.
      assert (E : forall ds, filter (N.testbit (c_word c)) ds = []).
      { induction ds as [|d ds IHds]; cbn; [reflexivity|]. rewrite Hw. assumption. }
      rewrite child_keys_ok.
      * rewrite E. cbn [map rev app].
        destruct (IH stk Hstk) as (vis & E1 & E2); [cbn in Hf; lia|]. rewrite E1.
        exists (p :: vis). split; [reflexivity|]. cbn [cells app]. constructor. assumption.
      * intros d Hd. apply filter_In in Hd. rewrite Hw in Hd. destruct Hd. discriminate.
      * intros H. exfalso. apply H, E.
    + destruct (good_children fcc t cofm p k ch Hp) as [Hch Hlv].
      destruct Hp as [Hh _]. cbn [fst snd holds] in Hh. destruct Hh as (-> & (c & j & s & Hc & _ & _ & _ & _ & Hdig & _) & Hh).
      apply fold_and_Forall in Hh. rewrite Hc.
      rewrite child_keys_ok.
      * rewrite <- Hdig.
        assert (E : rev (map (fun d => p * B + d) (map fst ch)) ++ map fst stk =
           map fst (rev (map (fun x => (p * B + fst x, snd x)) ch) ++ stk)).
        { rewrite map_app, <- map_rev, <- !map_rev, !map_map. reflexivity. }
        rewrite E. destruct (IH (rev (map (fun x => (p * B + fst x, snd x)) ch) ++ stk)) as (vis & E1 & E2).
        -- apply Forall_app. split; [apply Forall_rev; assumption|assumption].
        -- rewrite flat_map_app, app_length. cbn [cells length] in Hf.
           assert (El : length (flat_map (fun x => cells dim (fst x) (snd x)) (rev (map (fun x => (p * B + fst x, snd x)) ch)))
             = length (flat_map (fun x => cells dim (p * B + fst x) (snd x)) ch)).
           { rewrite (Permutation_length (Permutation_flat_map _ (Permutation_sym (Permutation_rev _)))).
             rewrite !flat_map_concat_map, map_map. reflexivity. }
           rewrite El. lia.
        -- rewrite E1. exists (p :: vis). split; [reflexivity|]. cbn [cells app]. constructor.
           rewrite E2, flat_map_app. apply Permutation_app_tail.
           rewrite (Permutation_flat_map _ (Permutation_sym (Permutation_rev _))).
           rewrite !flat_map_concat_map, map_map. reflexivity.
      * intros d Hd. rewrite <- Hdig in Hd. split.
        -- rewrite Hdig in Hd. apply filter_In in Hd. apply (digits_in dim). tauto.
        -- apply in_map_iff in Hd. destruct Hd as (x & <- & Hx). rewrite Forall_forall in Hh.
           eapply holds_found. apply Hh. assumption.
      * rewrite <- Hdig. intros Hne. apply Hlv. intros ->. apply Hne. reflexivity.
Qed.
End Shape.

Lemma holds_cells {S} (fcc : N -> list nat -> list S -> S) dim t cofm tr p q : In q (cells dim p tr) ->
  holds fcc dim t cofm p tr -> tfind t q <> None.
Proof. intros. eapply holds_cells'; eauto. Qed.
