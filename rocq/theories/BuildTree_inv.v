(** Invariant of the tree construction: closed form of the table after some
    keys have been inserted; the climbing loop (finish_). *)
From Coq Require Import Sorted.
From Verif Require Import Base Key_model Key_spec Key_proofs HCell_model HCell_props
  BuildTree_model BuildTree_spec BuildTree_lemmas.
Local Open Scope N_scope.

Section Inv.
Variable dim : N.
Hypothesis Hdim : dim_ok dim.
Variable Sm : Type.
Variable fcc : N -> list nat -> list Sm -> Sm.
Variable ks : list N.
Variable lo : option N.

Notation D := (max_depth dim).
Notation B := (2 ^ dim).
Notation up := (up dim).
Notation full := (full dim).
Notation state := (state Sm).

Definition has (L : list N) (r p : N) : Prop := exists k, In k L /\ up r k = p.
Definition many (K : list N) (r p : N) : Prop :=
  exists k1 k2, In k1 K /\ In k2 K /\ k1 <> k2 /\ up r k1 = p /\ up r k2 = p.
Definition internal (K : list N) (r p : N) : Prop := r = D \/ many K r p.
Definition cell_ex (K L : list N) (r p : N) : Prop :=
  (r = D /\ p = 1) \/ (r < D /\ has L r p /\ internal K (r + 1) (p / B)).

Definition lo_free (r q : N) : Prop := match lo with Some x => up r x <> q | None => True end.
Definition closed (l o r q : N) : Prop := ~ (o <= r /\ up r l = q) /\ lo_free r q.

Definition grp (r q : N) : list (nat * N) := filter (fun x => up r (snd x) =? q) (numbered ks).
Definition summary (r q : N) : nat + Sm := eval fcc (canon dim (N.to_nat r) q (grp r q)).

(** [P r q] tells which cells are finished. *)
Definition cell_ok (K L : list N) (cofm : list Sm) (P : N -> N -> Prop) (r q : N) (c : cell) : Prop :=
  (forall i, c_ent c = Some i <-> r < D /\ ~ many K r q /\ exists k, nth_error L i = Some k /\ up r k = q) /\
  (forall d, N.testbit (c_word c) d = true <-> d < B /\ 1 <= r /\ cell_ex K L (r - 1) (q * B + d)) /\
  (match c_node c with
   | Some j => internal K r q /\ has L r q /\ P r q /\
       exists s, nth_error cofm j = Some s /\ summary r q = inr s
   | None => ~ (internal K r q /\ has L r q /\ P r q)
   end).

Record Inv (st : state) (K L : list N) (P : N -> N -> Prop) : Prop :=
  { inv_sound : forall q c, tfind (st_tab st) q = Some c -> exists r, r <= D /\ cell_ex K L r q;
    inv_complete : forall r q, r <= D -> cell_ex K L r q ->
      exists c, tfind (st_tab st) q = Some c /\ cell_ok K L (st_cofm st) P r q c;
    inv_inj : forall q q' c c' j, tfind (st_tab st) q = Some c -> tfind (st_tab st) q' = Some c' ->
      c_node c = Some j -> c_node c' = Some j -> q = q';
    inv_surj : forall j, (j < length (st_cofm st))%nat ->
      exists q c, tfind (st_tab st) q = Some c /\ c_node c = Some j }.

(** ** basic facts *)
Lemma many_has K r p : many K r p -> has K r p.
Proof using. clear fcc Sm lo ks. intros (a & b & H & _ & _ & E & _). exists a. auto. Qed.

Lemma many_up K r s p k : r <= s -> up r k = p -> many K r p -> many K s (up s k).
Proof using Hdim. clear fcc Sm lo ks.
  intros H E (a & b & Ha & Hb & Hn & Ea & Eb). exists a, b. repeat split; auto.
  - apply up_eq_mono with r; congruence.
  - apply up_eq_mono with r; congruence.
Qed.

Lemma up_child r k : 1 <= r -> up r k = up (r - 1) k / B.
Proof using Hdim. clear fcc Sm lo ks. intros. rewrite <- (up_S dim Hdim). f_equal. lia. Qed.

Lemma cell_ex_level K L r q : Forall full L -> r <= D -> cell_ex K L r q -> at_level dim r q.
Proof using Hdim. clear fcc Sm lo ks.
  intros HL Hr [[-> ->]|(Hlt & (k & Hk & <-) & _)].
  - unfold at_level. rewrite N.sub_diag, N.pow_0_r. lia.
  - apply up_range; auto. rewrite Forall_forall in HL. auto.
Qed.

Lemma cell_ex_unique K L r r' q : Forall full L -> r <= D -> r' <= D ->
  cell_ex K L r q -> cell_ex K L r' q -> r = r'.
Proof using Hdim. clear fcc Sm lo ks.
  intros HL Hr Hr' H H'. apply (level_unique dim Hdim r r' q); auto; eapply cell_ex_level; eauto.
Qed.

Lemma child_ex K L r q d : 1 <= r <= D -> d < B -> internal K r q ->
  (cell_ex K L (r - 1) (q * B + d) <-> has L (r - 1) (q * B + d)).
Proof using Hdim. clear fcc Sm lo ks.
  intros Hr Hd Hi. split.
  - intros [[H _]|(_ & H & _)]; [lia|exact H].
  - intros H. right. split; [lia|]. split; [exact H|].
    replace (r - 1 + 1) with r by lia. rewrite (child_parent dim) by assumption. exact Hi.
Qed.

Lemma internal_dec K r p : {internal K r p} + {~ internal K r p}.
Proof using. clear fcc Sm lo ks.
  unfold internal. destruct (N.eq_dec r D) as [E|E]; [left; auto|].
  destruct (filter (fun k => up r k =? p) K) as [|x l] eqn:F.
  - right. intros [H|(a & b & Ha & _ & _ & Ea & _)]; [contradiction|].
    assert (In a (filter (fun k => up r k =? p) K)) by (apply filter_In; rewrite N.eqb_eq; auto).
    rewrite F in *. contradiction.
  - assert (Hx : In x (filter (fun k => up r k =? p) K)) by (rewrite F; left; reflexivity).
    apply filter_In in Hx. rewrite N.eqb_eq in Hx.
    destruct (find (fun y => negb (y =? x)) l) as [y|] eqn:G.
    + left. right. apply find_some in G. destruct G as [G1 G2].
      assert (Hy : In y (filter (fun k => up r k =? p) K)) by (rewrite F; right; assumption).
      apply filter_In in Hy. rewrite N.eqb_eq in Hy.
      exists x, y. repeat split; try tauto. intros ->. rewrite N.eqb_refl in G2. discriminate.
    + right. intros [H|(a & b & Ha & Hb & Hn & Ea & Eb)]; [contradiction|].
      assert (A : forall a, In a K -> up r a = p -> a = x).
      { intros z Hz Ez. assert (Hin : In z (filter (fun k => up r k =? p) K)) by (apply filter_In; rewrite N.eqb_eq; auto).
        rewrite F in Hin. destruct Hin as [|Hin]; [auto|]. apply (find_none _ _ G) in Hin.
        apply Bool.negb_false_iff in Hin. apply N.eqb_eq in Hin. assumption. }
      apply Hn. rewrite (A a), (A b); auto.
Qed.

(** ** groups *)
Lemma numbered_nth i k (l : list N) : In (i, k) (numbered l) <-> nth_error l i = Some k.
Proof using. clear - i.
  unfold numbered.
  assert (G : forall n i, In (i, k) (combine (seq n (length l)) l) <-> (n <= i)%nat /\ nth_error l (i - n) = Some k).
  { clear i. induction l as [|x l IH]; intros n i; cbn [length seq combine].
    - split; [intros []|]. intros [_ H]. destruct (i - n)%nat; discriminate.
    - cbn [In]. rewrite IH. split.
      + intros [E|[H1 H2]].
        * injection E as <- <-. split; [lia|]. rewrite Nat.sub_diag. reflexivity.
        * split; [lia|]. replace (i - n)%nat with (Datatypes.S (i - Datatypes.S n)) by lia. exact H2.
      + intros [H1 H2]. destruct (Nat.eq_dec i n) as [->|Hn].
        * left. rewrite Nat.sub_diag in H2. cbn in H2. congruence.
        * right. split; [lia|]. replace (i - n)%nat with (Datatypes.S (i - Datatypes.S n)) in H2 by lia. exact H2. }
  rewrite (G 0%nat i). rewrite Nat.sub_0_r. split; [intros [_ H]; exact H|intros H; split; [lia|exact H]].
Qed.

Lemma grp_in r q i k : In (i, k) (grp r q) <-> nth_error ks i = Some k /\ up r k = q.
Proof. unfold grp. rewrite filter_In, numbered_nth. cbn [snd]. rewrite N.eqb_eq. reflexivity. Qed.

Lemma NoDup_numbered l : NoDup (numbered l).
Proof using. clear.
  unfold numbered. generalize 0%nat. induction l as [|x l IH]; intros n; cbn; [constructor|].
  constructor; [|apply IH]. intros H. apply in_combine_l in H. apply in_seq in H. lia.
Qed.

Lemma grp_child r q d : 1 <= r -> d < B ->
  filter (fun x => up (r - 1) (snd x) =? q * B + d) (grp r q) = grp (r - 1) (q * B + d).
Proof using Hdim. clear fcc Sm lo.
  intros Hr Hd. unfold grp. generalize (numbered ks). intros l.
  induction l as [|x l IH]; cbn [filter]; [reflexivity|].
  destruct (N.eqb_spec (up (r - 1) (snd x)) (q * B + d)) as [E|E].
  - assert (up r (snd x) = q) as ->.
    { rewrite up_child, E by lia. apply (child_parent dim). assumption. }
    rewrite N.eqb_refl. cbn [filter]. rewrite E, N.eqb_refl, IH. reflexivity.
  - destruct (up r (snd x) =? q); cbn [filter]; [|exact IH].
    destruct (N.eqb_spec (up (r - 1) (snd x)) (q * B + d)); [contradiction|exact IH].
Qed.

Definition child_eval (r q d : N) : list (nat + Sm) :=
  match grp (r - 1) (q * B + d) with
  | [] => []
  | [x] => [inl (fst x)]
  | _ => [summary (r - 1) (q * B + d)]
  end.

Lemma map_flat_map {A C E} (f : C -> E) (g : A -> list C) l :
  map f (flat_map g l) = flat_map (fun x => map f (g x)) l.
Proof. induction l; cbn; [reflexivity|]. rewrite map_app, IHl. reflexivity. Qed.

Lemma flat_map_ext_in {A C} (f g : A -> list C) l : (forall x, In x l -> f x = g x) ->
  flat_map f l = flat_map g l.
Proof.
  induction l; intros H; cbn; [reflexivity|]. rewrite H by (left; reflexivity).
  rewrite IHl; [reflexivity|]. intros; apply H; right; assumption.
Qed.

Lemma summary_unfold r q : 1 <= r ->
  summary r q = inr (fcc q (lefts (flat_map (child_eval r q) (digits dim)))
                           (rights (flat_map (child_eval r q) (digits dim)))).
Proof.
  intros Hr. unfold summary.
  replace (N.to_nat r) with (Datatypes.S (N.to_nat (r - 1))) by lia.
  cbn [canon eval]. rewrite <- digits_eq.
  assert (E : map (fun x : N * tree => eval fcc (snd x))
     (flat_map (fun d => match filter (fun x => up (N.of_nat (N.to_nat (r - 1))) (snd x) =? q * B + d) (grp r q) with
        | [] => [] | [x] => [(d, Leaf (fst x))]
        | (_ :: _ :: _) as g => [(d, canon dim (N.to_nat (r - 1)) (q * B + d) g)] end) (digits dim))
     = flat_map (child_eval r q) (digits dim)).
  { rewrite map_flat_map. apply flat_map_ext_in. intros d Hd. apply (digits_in dim) in Hd.
    rewrite N2Nat.id, grp_child by assumption. unfold child_eval, summary.
    destruct (grp (r - 1) (q * B + d)) as [|x [|y g]]; reflexivity. }
  cbv zeta. rewrite E. reflexivity.
Qed.

(** When all keys of [ks] below q are among the prefix L, and the keys known
    below q are local. *)
Definition settled (K L : list N) (r q : N) : Prop :=
  (forall x, In x ks -> up r x = q -> In x L) /\ (forall x, In x K -> up r x = q -> In x L).

Lemma settled_child K L r q d : 1 <= r -> d < B -> settled K L r q -> settled K L (r - 1) (q * B + d).
Proof using Hdim. clear fcc Sm lo.
  intros Hr Hd [H1 H2].
  assert (G : forall x, up (r - 1) x = q * B + d -> up r x = q).
  { intros x E. rewrite up_child, E by lia. apply (child_parent dim). assumption. }
  split; intros x Hx E; eauto.
Qed.

Section Prefix.
Variables (K L rest : list N).
Hypothesis Hks : ks = L ++ rest.
Hypothesis HKL : forall x, In x L -> In x K.
Hypothesis Hnd : NoDup ks.

Lemma nth_L i k : nth_error ks i = Some k -> In k L -> nth_error L i = Some k.
Proof.
  intros H Hin. apply In_nth_error in Hin. destruct Hin as [j Hj].
  assert (nth_error ks j = Some k).
  { rewrite Hks, nth_error_app1; [assumption|]. apply nth_error_Some. congruence. }
  assert (i = j) as ->; [|assumption].
  rewrite NoDup_nth_error in Hnd. apply Hnd; [apply nth_error_Some; congruence|congruence].
Qed.

Lemma nth_L_ks i k : nth_error L i = Some k -> nth_error ks i = Some k.
Proof. intros H. rewrite Hks, nth_error_app1; [assumption|]. apply nth_error_Some. congruence. Qed.

Lemma grp_nil r q : grp r q = [] -> ~ has L r q.
Proof.
  intros E (k & Hk & Hu). apply In_nth_error in Hk. destruct Hk as [i Hi].
  apply nth_L_ks in Hi. assert (In (i, k) (grp r q)) by (apply grp_in; auto). rewrite E in H. destruct H.
Qed.

Lemma grp_one r q x : settled K L r q -> grp r q = [x] ->
  ~ many K r q /\ nth_error L (fst x) = Some (snd x) /\ up r (snd x) = q.
Proof.
  intros [H1 H2] E. destruct x as [i k].
  assert (Hi : In (i, k) (grp r q)) by (rewrite E; left; reflexivity).
  apply grp_in in Hi. destruct Hi as [Hi Hu]. cbn [fst snd].
  split; [|split; [apply nth_L; [assumption|]; apply H1; [eapply nth_error_In; eauto|assumption]|assumption]].
  intros (a & b & Ha & Hb & Hne & Ea & Eb).
  apply H2 in Ha; [|assumption]. apply H2 in Hb; [|assumption].
  assert (G : forall z, In z L -> up r z = q -> z = k).
  { intros z Hz Ez. apply In_nth_error in Hz. destruct Hz as [j Hj]. apply nth_L_ks in Hj.
    assert (In (j, z) (grp r q)) as Hin by (apply grp_in; auto). rewrite E in Hin.
    destruct Hin as [Hin|[]]. congruence. }
  apply Hne. rewrite (G a), (G b); auto.
Qed.

Lemma grp_two r q x y g : settled K L r q -> grp r q = x :: y :: g -> many K r q.
Proof.
  intros [H1 H2] E. destruct x as [i k], y as [j k'].
  assert (Hi : In (i, k) (grp r q)) by (rewrite E; left; reflexivity).
  assert (Hj : In (j, k') (grp r q)) by (rewrite E; right; left; reflexivity).
  assert (Hn : NoDup (grp r q)) by (apply NoDup_filter, NoDup_numbered).
  rewrite E in Hn. inversion Hn as [|? ? Hnin]; subst.
  apply grp_in in Hi. apply grp_in in Hj. destruct Hi as [Hi Ei], Hj as [Hj Ej].
  exists k, k'. repeat split; auto.
  - apply HKL, H1; auto. eapply nth_error_In; eauto.
  - apply HKL, H1; auto. eapply nth_error_In; eauto.
  - intros ->. apply Hnin. left. f_equal.
    rewrite NoDup_nth_error in Hnd. symmetry. apply Hnd; [apply nth_error_Some; congruence|congruence].
Qed.

Hypothesis HfL : Forall full L.

(** ** finish_ *)
Lemma finish_daughters st P r q w (ds : list N) t :
  Inv st K L P -> 1 <= r <= D -> at_level dim r q -> internal K r q -> settled K L r q ->
  (forall d, d < B -> P (r - 1) (q * B + d)) ->
  (forall d, N.testbit w d = true <-> d < B /\ 1 <= r /\ cell_ex K L (r - 1) (q * B + d)) ->
  (forall d, d < B -> tfind t (q * B + d) = tfind (st_tab st) (q * B + d)) ->
  (forall d, In d ds -> d < B) ->
  exists cs, daughters dim t q w ds = Some cs /\
    split_daughters Sm (st_cofm st) cs =
      Some (lefts (flat_map (child_eval r q) ds), rights (flat_map (child_eval r q) ds)).
Proof.
  intros HI Hr Hlev Hint Hset HP Hw Ht. induction ds as [|d ds IH]; intros Hds.
  - exists []. split; reflexivity.
  - destruct IH as (cs & E1 & E2); [intros; apply Hds; right; assumption|].
    assert (Hd : d < B) by (apply Hds; left; reflexivity).
    cbn [daughters flat_map]. unfold lefts, rights in *. rewrite !flat_map_app.
    rewrite get_child_testbit.
    destruct (N.testbit w d) eqn:Ew.
    + apply Hw in Ew. destruct Ew as (_ & _ & Hex).
      rewrite (push_child dim Hdim r) by assumption.
      destruct (inv_complete _ _ _ _ HI (r - 1) (q * B + d) ltac:(lia) Hex) as (c & Hc & Hent & _ & Hnode).
      rewrite Ht by assumption. rewrite Hc, E1.
      exists (c :: cs). split; [reflexivity|]. cbn [split_daughters]. rewrite E2. cbn [fst snd].
      pose proof (settled_child K L r q d ltac:(lia) Hd Hset) as Hset'.
      assert (Hhas : has L (r - 1) (q * B + d)) by (apply (child_ex K L r q d Hr Hd Hint); assumption).
      assert (Ec : child_eval r q d = match grp (r - 1) (q * B + d) with
        | [] => [] | [x] => [inl (fst x)] | _ => [summary (r - 1) (q * B + d)] end) by reflexivity.
      rewrite !Ec. clear Ec.
      destruct (grp (r - 1) (q * B + d)) as [|x [|y g]] eqn:Eg.
      * exfalso. eapply grp_nil; eauto.
      * destruct (grp_one _ _ _ Hset' Eg) as (Hnm & Hx & Hu).
        assert (Hn : c_node c = None).
        { destruct (c_node c); [|reflexivity]. destruct Hnode as ([Hi|Hi] & _); [lia|contradiction]. }
        rewrite Hn.
        assert (He : c_ent c = Some (fst x)).
        { apply Hent. split; [lia|]. split; [assumption|]. eauto. }
        rewrite He. reflexivity.
      * pose proof (grp_two _ _ _ _ _ Hset' Eg) as Hm.
        destruct (c_node c) as [j|].
        -- destruct Hnode as (_ & _ & _ & s & Hj & Hs). rewrite Hj, Hs. reflexivity.
        -- exfalso. apply Hnode. split; [right; assumption|]. split; [assumption|]. apply HP. assumption.
    + exists cs. split; [assumption|]. rewrite E2.
      assert (Hg : grp (r - 1) (q * B + d) = []).
      { destruct (grp (r - 1) (q * B + d)) as [|[i k] g] eqn:Eg; [reflexivity|]. exfalso.
        assert (Hin : In (i, k) (grp (r - 1) (q * B + d))) by (rewrite Eg; left; reflexivity).
        apply grp_in in Hin. destruct Hin as [Hi Hu].
        assert (N.testbit w d = true); [|congruence].
        apply Hw. split; [assumption|]. split; [lia|].
        apply (child_ex K L r q d Hr Hd Hint). exists k. split; [|assumption].
        apply (proj1 (settled_child K L r q d ltac:(lia) Hd Hset)); [eapply nth_error_In; eauto|assumption]. }
      assert (Ec : child_eval r q d = []) by (unfold child_eval; rewrite Hg; reflexivity).
      rewrite !Ec. reflexivity.
Qed.

Lemma finish_ok st P r q :
  Inv st K L P -> 1 <= r <= D -> cell_ex K L r q -> internal K r q -> has L r q -> settled K L r q ->
  ~ P r q -> (forall d, d < B -> P (r - 1) (q * B + d)) ->
  exists st', finish Sm fcc dim st q = Some st' /\
    Inv st' K L (fun r' q' => P r' q' \/ (r' = r /\ q' = q)).
Proof.
  intros HI Hr Hex Hint Hhas Hset HnP HP.
  pose proof (cell_ex_level K L r q HfL ltac:(lia) Hex) as Hlev.
  destruct (inv_complete _ _ _ _ HI r q ltac:(lia) Hex) as (c & Hc & Hent & Hw & Hnode).
  unfold finish. rewrite Hc.
  assert (Hnm : ~ (r < D /\ ~ many K r q)) by (destruct Hint; [lia|tauto]).
  assert (He : c_ent c = None).
  { destruct (c_ent c) as [i|] eqn:E; [|reflexivity]. exfalso. apply Hnm.
    destruct (proj1 (Hent i) eq_refl) as (A & A' & _). auto. }
  rewrite He.
  assert (Hn : c_node c = None).
  { destruct (c_node c); [|reflexivity]. exfalso. apply HnP, Hnode. }
  set (t := tset (st_tab st) q (mkcell (c_word c) (Some (length (st_cofm st))) None)).
  assert (Ht : forall x, tfind t x = if x =? q then Some (mkcell (c_word c) (Some (length (st_cofm st))) None)
                                     else tfind (st_tab st) x).
  { intros x. unfold t. rewrite tfind_tset, Hc. reflexivity. }
  assert (Hq : 1 <= q) by (destruct Hlev as [A _]; pose proof (powB_pos dim Hdim (D - r)); lia).
  destruct (finish_daughters st P r q (c_word c) (digits dim) t) as (cs & E1 & E2); auto.
  { intros d Hd. rewrite Ht. destruct (N.eqb_spec (q * B + d) q); [|reflexivity].
    pose proof (B_ge2 dim Hdim). nia. }
  { intros d Hd. apply (digits_in dim). assumption. }
  rewrite E1, E2. cbn [fst snd].
  eexists. split; [reflexivity|].
  assert (Hsum := summary_unfold r q ltac:(lia)).
  set (sval := fcc q _ _) in *.
  constructor; cbn [st_tab st_cofm].
  - intros x cx. rewrite Ht. destruct (N.eqb_spec x q) as [->|Hx].
    + intros _. exists r. split; [lia|assumption].
    + apply (inv_sound _ _ _ _ HI).
  - intros r' q' Hr' Hex'. rewrite Ht. destruct (N.eqb_spec q' q) as [->|Hx].
    + assert (r' = r) as -> by (eapply cell_ex_unique; eauto; lia).
      eexists. split; [reflexivity|]. split; [|split]; cbn [c_ent c_word c_node].
      * intros i. split; [discriminate|]. intros (A & A' & _). tauto.
      * exact Hw.
      * split; [assumption|]. split; [assumption|]. split; [right; auto|].
        exists sval. split; [|exact Hsum].
        rewrite nth_error_app2, Nat.sub_diag by lia. reflexivity.
    + destruct (inv_complete _ _ _ _ HI r' q' Hr' Hex') as (c' & Hc' & A1 & A2 & A3).
      exists c'. split; [assumption|]. split; [exact A1|]. split; [exact A2|].
      destruct (c_node c') as [j|].
      * destruct A3 as (B1 & B2 & B3 & s & B4 & B5). repeat split; auto.
        exists s. split; [|assumption]. rewrite nth_error_app1; [assumption|].
        apply nth_error_Some. congruence.
      * intros (B1 & B2 & [B3|[_ B3]]); [|contradiction]. apply A3. auto.
  - intros x x' cx cx' j. rewrite !Ht.
    assert (G : forall y cy, tfind (st_tab st) y = Some cy -> c_node cy = Some (length (st_cofm st)) -> False).
    { intros y cy Hy Hny. destruct (inv_sound _ _ _ _ HI y cy Hy) as (ry & Hry & Hexy).
      destruct (inv_complete _ _ _ _ HI ry y Hry Hexy) as (cy' & Hy' & _ & _ & A3).
      rewrite Hy in Hy'. injection Hy' as <-. rewrite Hny in A3.
      destruct A3 as (_ & _ & _ & s & Hs & _).
      assert (length (st_cofm st) < length (st_cofm st))%nat by (apply nth_error_Some; congruence). lia. }
    destruct (N.eqb_spec x q) as [->|Hx], (N.eqb_spec x' q) as [->|Hx']; intros H1 H2 J1 J2; auto.
    + injection H1 as <-. cbn in J1. injection J1 as <-. exfalso. eauto.
    + injection H2 as <-. cbn in J2. injection J2 as <-. exfalso. eauto.
    + eapply (inv_inj _ _ _ _ HI); eauto.
  - intros j. rewrite app_length. cbn [length]. intros Hj.
    destruct (Nat.eq_dec j (length (st_cofm st))) as [->|Hne].
    + exists q. eexists. rewrite Ht, N.eqb_refl. split; reflexivity.
    + destruct (inv_surj _ _ _ _ HI j ltac:(lia)) as (x & cx & Hx & Hjx).
      destruct (N.eq_dec x q) as [->|Hxq]; [congruence|].
      exists x, cx. rewrite Ht. destruct (N.eqb_spec x q); [contradiction|]. auto.
Qed.

Lemma Inv_ext st P Q : Inv st K L P ->
  (forall r q, r <= D -> cell_ex K L r q -> internal K r q -> has L r q -> (P r q <-> Q r q)) -> Inv st K L Q.
Proof.
  intros HI E. constructor; try apply HI.
  intros r q Hr Hex. destruct (inv_complete _ _ _ _ HI r q Hr Hex) as (c & Hc & A1 & A2 & A3).
  exists c. split; [assumption|]. split; [exact A1|]. split; [exact A2|].
  destruct (c_node c).
  - destruct A3 as (B1 & B2 & B3 & B4). repeat split; auto. apply (E r q); auto.
  - intros (B1 & B2 & B3). apply A3. repeat split; auto. apply (E r q); auto.
Qed.
End Prefix.
End Inv.
