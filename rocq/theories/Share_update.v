(** cofm_update_: nothing while a bound is missing, every node with both. *)
From Coq Require Import Sorted.
From Verif Require Import Base Key_model Key_spec Key_proofs HCell_model HCell_props
  BuildTree_model BuildTree_spec BuildTree_lemmas BuildTree_inv BuildTree_turn BuildTree_proofs BuildTree_shape.
From Verif Require Import Share_model Share_lemmas Share_sums Share_table Share_steps.
From Verif Require Comms_lemmas.
Local Open Scope N_scope.

Lemma key_min_pow dim : dim_ok dim -> key_min dim = (2 ^ dim) ^ max_depth dim.
Proof. intros [->|[->| ->]]; reflexivity. Qed.
Lemma key_max_pow dim : dim_ok dim -> key_max dim = 2 * (2 ^ dim) ^ max_depth dim - 1.
Proof. intros [->|[->| ->]]; vm_compute; reflexivity. Qed.

Lemma B_ge2 dim : dim_ok dim -> 2 <= 2 ^ dim.
Proof. intros [->|[->| ->]]; vm_compute; discriminate. Qed.
Lemma level_step dim l q d : dim_ok dim -> 1 <= l <= max_depth dim -> at_level dim l q -> d < 2 ^ dim -> at_level dim (l - 1) (q * 2 ^ dim + d).
Proof.
  intros Hdim Hl [A1 A2] Hd. unfold at_level. replace (max_depth dim - (l - 1)) with (max_depth dim - l + 1) by lia.
  rewrite N.pow_add_r, N.pow_1_r. set (x := (2 ^ dim) ^ (max_depth dim - l)) in *. set (b := 2 ^ dim) in *. nia.
Qed.
Lemma boundary_ok dim : dim_ok dim -> forall m fuel mn mx, N.of_nat m <= max_depth dim -> (m < fuel)%nat -> at_level dim (N.of_nat m) mn -> at_level dim (N.of_nat m) mx ->
  key_boundary dim fuel mn mx = Some (mn * (2 ^ dim) ^ N.of_nat m, (mx + 1) * (2 ^ dim) ^ N.of_nat m - 1).
Proof.
  intros Hdim. pose proof (B_ge2 dim Hdim) as HB. induction m as [|m IH]; intros fuel mn mx Hm Hf Hn Hx; (destruct fuel as [|fuel]; [lia|]); cbn [key_boundary]; rewrite (key_min_pow dim Hdim).
  - destruct Hn as [Hn _]. rewrite N.sub_0_r in Hn. replace (mn <? _) with false by lia. change (N.of_nat 0) with 0. rewrite N.pow_0_r. f_equal. f_equal; lia.
  - assert (mn < (2 ^ dim) ^ max_depth dim).
    { destruct Hn as [_ Hn]. apply N.lt_le_trans with (1 := Hn). replace ((2 ^ dim) ^ max_depth dim) with ((2 ^ dim) ^ (1 + (max_depth dim - N.of_nat (S m)) + N.of_nat m)) by (f_equal; lia).
      rewrite !N.pow_add_r, N.pow_1_r. assert ((2 ^ dim) ^ N.of_nat m <> 0) by (apply N.pow_nonzero; lia). set (x := (2 ^ dim) ^ (max_depth dim - N.of_nat (S m))). set (y := (2 ^ dim) ^ N.of_nat m) in *.
      assert (2 * x <= 2 ^ dim * x) by (apply N.mul_le_mono_r; lia). assert (2 ^ dim * x * 1 <= 2 ^ dim * x * y) by (apply N.mul_le_mono_l; lia). lia. }
    replace (mn <? _) with true by lia. rewrite N.shiftl_1_l.
    rewrite (push_child dim Hdim (N.of_nat (S m)) mx), (push_child dim Hdim (N.of_nat (S m)) mn) by (lia || assumption).
    replace (N.of_nat m) with (N.of_nat (S m) - 1) in IH by lia. rewrite IH; [|lia | lia | apply level_step; (assumption || lia) | apply level_step; (assumption || lia)].
    replace (N.of_nat (S m)) with (1 + (N.of_nat (S m) - 1)) at 3 4 by lia. rewrite N.pow_add_r, N.pow_1_r. f_equal. f_equal; [lia|]. replace (mx * 2 ^ dim + (2 ^ dim - 1) + 1) with ((mx + 1) * 2 ^ dim) by nia. lia.
Qed.
Lemma boundary_root dim : dim_ok dim -> key_boundary dim 66 key_root key_root = Some (key_min dim, key_max dim).
Proof.
  intros Hdim. pose proof (D_le dim Hdim). assert (at_level dim (max_depth dim) key_root) by (unfold at_level; rewrite N.sub_diag, N.pow_0_r; unfold key_root; lia).
  rewrite (boundary_ok dim Hdim (N.to_nat (max_depth dim))); [|lia | lia | rewrite N2Nat.id; assumption | rewrite N2Nat.id; assumption].
  rewrite N2Nat.id, (key_min_pow dim Hdim), (key_max_pow dim Hdim). unfold key_root. f_equal. f_equal; lia.
Qed.

Lemma shared_wf dim w : wf_w dim w -> wf_w dim (set_shared dim w) /\ (forall x, x < 2 ^ dim -> get_child (set_shared dim w) x = get_child w x) /\
  requested dim (set_shared dim w) = requested dim w /\ nchildren_to_receive dim (set_shared dim w) = nchildren_to_receive dim w.
Proof. intros Hw. destruct (Comms_lemmas.op_getters dim w SetShared Hw) as (A & A1 & A2 & A3); [exact I|]. cbn [HCell_props.exec1] in *. split; [exact A|]. split; [|split; assumption]. intros x Hx. rewrite (A1 x Hx). apply orb_false_r. Qed.

Set Default Proof Using "All".
Section Upd.
Context {Ent Sum : Type} (dim : N) (Hdim : dim_ok dim) (f : N -> list Ent -> list Sum -> Sum).
Context (pss : list (list (N * Ent))).
Notation D := (max_depth dim).
Notation B := (2 ^ dim).
Notation up := (up dim).
Notation full := (full dim).
Notation has := (has dim).
Notation many := (many dim).
Notation internal := (internal dim).
Notation K := (K pss).
Notation ks := (ks pss).
Notation nr := (nr pss).
Notation solo := (solo dim pss).
Notation lone := (lone dim pss).
Notation gdat := (gdat dim f pss).
Notation stable := (stable Ent Sum).
Notation scell := (scell Ent Sum).
Notation TI := (TI dim f pss).
Notation cok := (cok dim f pss).
Notation okX := (okX dim pss).
Implicit Types (t : stable) (c : scell) (X L F : N -> N -> Prop).
Hypothesis Hne : forall ps, In ps pss -> ps <> [].
Hypothesis Hsort : StronglySorted N.lt K.
Hypothesis Hfull : Forall full K.

Lemma lone_0 q : has K 0 q -> lone 0 q.
Proof.
  intros (k & Hk & E). rewrite up_0 in E. subst q. destruct (K_in dim Hdim pss Hne Hsort Hfull k Hk) as (s & _ & Hs). exists s. split; [exists k; split; [exact Hs | apply up_0]|].
  intros x _ Hx2. rewrite up_0 in Hx2. subst x. exact Hs.
Qed.
Lemma not_lone_many l q : has K l q -> ~ lone l q -> many K l q.
Proof.
  intros (k & Hk & E) Hl. destruct (K_in dim Hdim pss Hne Hsort Hfull k Hk) as (s & _ & Hs).
  destruct (existsb (fun k' => (up l k' =? q) && negb (k' =? k)) K) eqn:Ex.
  - apply existsb_exists in Ex. destruct Ex as (k' & H1 & H2). exists k, k'. repeat split; try assumption; lia.
  - exfalso. apply Hl. exists s. split; [exists k; split; assumption|]. intros x Hx Ex2. destruct (N.eq_dec x k) as [->|Hn]; [exact Hs|]. exfalso.
    assert (existsb (fun k' => (up l k' =? q) && negb (k' =? k)) K = true) by (apply existsb_exists; exists x; split; [exact Hx | lia]). congruence.
Qed.

Lemma update_none lo hi t fuel c : t key_root = Some c -> (key_min dim < lo \/ hi < key_max dim) -> cofm_update dim f (S fuel) lo hi t key_root = Some t.
Proof.
  intros Hc H. cbn [cofm_update]. rewrite Hc, (boundary_root dim Hdim). cbn [fst snd].
  destruct (lo <=? key_min dim) eqn:E1; cbn [andb]; [|reflexivity]. destruct (key_max dim <=? hi) eqn:E2; [|reflexivity]. exfalso. lia.
Qed.

Section Full.
Variables (X : N -> N -> Prop) (lo hi : N).
Hypothesis HX : okX X.
Hypothesis Hlo : lo <= key_min dim.
Hypothesis Hhi : key_max dim <= hi.
Hypothesis HC : forall l q d, X l q -> ~ lone l q -> 1 <= l -> d < B -> has K (l - 1) (q * B + d) -> X (l - 1) (q * B + d).

Definition below (l q l' q' : N) : Prop := l' <= l /\ up (l - l') q' = q.
Definition okF F : Prop := (forall l q, X l q -> lone l q -> F l q) /\ (forall l q, X l q -> l < D -> F (l + 1) (q / B) -> F l q).
Lemma okF_down F l q : okF F -> F l q -> forall l' q', X l' q' -> l <= D -> below l q l' q' -> F l' q'.
Proof.
  intros [_ HF] H l' q' Hx Hl [H1 H2]. destruct HX as (_ & _ & HU).
  assert (G : forall a b, a + b + l' = l -> X (l' + b) (up b q') /\ F (l' + b) (up b q')); [|specialize (G (l - l') 0 ltac:(lia)); rewrite N.add_0_r, up_0 in G; apply G].
  assert (GX : forall b, b + l' <= l -> X (l' + b) (up b q')).
  { induction b as [|b IH] using N.peano_ind; intros Hb; [rewrite N.add_0_r, up_0; exact Hx|]. replace (N.succ b) with (b + 1) by lia. replace (l' + (b + 1)) with (l' + b + 1) by lia. rewrite (up_S dim Hdim). apply HU; [apply IH; lia | lia]. }
  induction a as [|a IH] using N.peano_ind; intros b Hb.
  - assert (Eb : l - l' = b) by lia. split; [apply GX; lia|]. rewrite <- Eb, H2. replace (l' + (l - l')) with l by lia. exact H.
  - split; [apply GX; lia|]. apply HF; [apply GX; lia | lia|]. rewrite <- (up_S dim Hdim). replace (l' + b + 1) with (l' + (b + 1)) by lia. apply IH. lia.
Qed.
Lemma okF_below F l q : okF F -> okF (fun l' q' => F l' q' \/ below l q l' q').
Proof.
  intros [H1 H2]. split; [intros; left; apply H1; assumption|]. intros l' q' Hx Hl [H|[H3 H4]]; [left; apply H2; assumption|]. right. split; [lia|].
  rewrite <- H4. replace (l - l') with (1 + (l - (l' + 1))) by lia. rewrite (up_up dim Hdim). f_equal. replace 1 with (0 + 1) by lia. rewrite (up_S dim Hdim), up_0. reflexivity.
Qed.
Lemma within l q : l <= D -> at_level dim l q -> (lo <=? q * B ^ l) && ((q + 1) * B ^ l - 1 <=? hi) = true.
Proof.
  intros Hl [A1 A2]. rewrite (key_min_pow dim Hdim) in Hlo. rewrite (key_max_pow dim Hdim) in Hhi. replace D with (D - l + l) in Hlo, Hhi by lia. rewrite N.pow_add_r in Hlo, Hhi.
  set (x := B ^ (D - l)) in *. set (y := B ^ l) in *. apply andb_true_iff. split; apply N.leb_le; [nia|]. apply N.le_trans with (2 := Hhi).
  assert ((q + 1) * y <= 2 * x * y) by (apply N.mul_le_mono_r; lia). lia.
Qed.
Lemma kid_data_ok F t l q c : 1 <= l <= D -> X l q -> ~ lone l q -> TI X X F t -> t q = Some c -> (forall d, d < B -> X (l - 1) (q * B + d) -> F (l - 1) (q * B + d)) ->
  forall ds, incl ds (digits dim) -> kid_data dim t q (s_word c) ds = Some (kids_dat dim f pss l q ds).
Proof.
  intros Hl Hx Hnl HT Hc HF. pose proof HX as (HK & _ & _). pose proof (HK _ _ Hx) as [_ Hh]. pose proof (has_level dim Hdim f pss Hne Hsort Hfull l q ltac:(lia) Hh) as Hlv.
  destruct (ti_cell _ _ _ _ _ _ _ HT l q ltac:(lia) Hx) as (c' & Hc' & C). rewrite Hc in Hc'. injection Hc' as <-.
  induction ds as [|d ds IH]; intros Hi; [reflexivity|]. assert (Hd : d < B) by (apply (digits_in dim), Hi; left; reflexivity). cbn [kid_data]. unfold kids_dat. cbn [flat_map]. fold (kids_dat dim f pss l q ds).
  assert (E : get_child (s_word c) d = hasb dim pss (l - 1) (q * B + d)).
  { apply eq_true_iff_eq. rewrite (ck_kid _ _ _ _ _ _ _ _ C d Hd), (hasb_spec dim Hdim f pss Hne Hsort Hfull). split; [intros [_ H]; apply HK in H; tauto | intros H; split; [lia | apply HC; (assumption || lia)]]. }
  rewrite <- E. destruct (get_child (s_word c) d) eqn:G; cbn [app]; [|apply IH; intros x Hxx; apply Hi; right; exact Hxx].
  apply (ck_kid _ _ _ _ _ _ _ _ C d Hd) in G. destruct G as [_ G]. rewrite (push_child dim Hdim l q d) by (lia || assumption).
  destruct (ti_cell _ _ _ _ _ _ _ HT (l - 1) (q * B + d) ltac:(lia) G) as (c2 & Hc2 & C2). rewrite Hc2. pose proof (ck_set _ _ _ _ _ _ _ _ C2) as S. destruct (s_set c2) as [x|]; [|destruct S; apply HF; assumption].
  destruct S as [_ ->]. rewrite IH by (intros x Hxx; apply Hi; right; exact Hxx). reflexivity.
Qed.
Lemma update_ok : forall m fuel F t q, (m < fuel)%nat -> N.of_nat m <= D -> X (N.of_nat m) q -> okF F -> TI X X F t ->
  exists t', cofm_update dim f fuel lo hi t q = Some t' /\ TI X X (fun l' q' => F l' q' \/ below (N.of_nat m) q l' q') t'.
Proof.
  pose proof HX as (HK & HR & HU).
  induction m as [|m IH]; intros fuel F t q Hf Hm Hx HF HT; (destruct fuel as [|fuel]; [lia|]); cbn [cofm_update]; pose proof (HK _ _ Hx) as [_ Hh];
    pose proof (has_level dim Hdim f pss Hne Hsort Hfull _ q Hm Hh) as Hlv; destruct (ti_cell _ _ _ _ _ _ _ HT _ q Hm Hx) as (c & Hc & C); rewrite Hc;
    rewrite (boundary_ok dim Hdim _ 66 q q Hm) by (assumption || (pose proof (D_le dim Hdim); lia)); cbn [fst snd]; rewrite (within _ q Hm Hlv); pose proof (ck_set _ _ _ _ _ _ _ _ C) as S.
  - assert (HF0 : F 0 q) by (apply (proj1 HF); [exact Hx | apply lone_0, Hh]). destruct (s_set c) as [x|]; [|contradiction]. exists t. split; [reflexivity|].
    apply (TI_ext dim Hdim f pss Hne Hsort Hfull X X X X F _); try (intros; reflexivity); [|exact HT]. intros l' q' Hl' Hx'. split; [tauto|]. intros [H|[H1 H2]]; [exact H|]. change (N.of_nat 0) with 0 in *. assert (l' = 0) by lia. subst l'. rewrite N.sub_diag, up_0 in H2. subst q'. exact HF0.
  - set (l := N.of_nat (Datatypes.S m)) in *. assert (El : l - 1 = N.of_nat m) by lia. destruct (s_set c) as [x|] eqn:Es.
    + exists t. split; [reflexivity|]. apply (TI_ext dim Hdim f pss Hne Hsort Hfull X X X X F _); try (intros; reflexivity); [|exact HT]. intros l' q' Hl' Hx'. split; [tauto|]. intros [H|H]; [exact H|]. destruct S as [S _]. apply (okF_down F l q HF S); assumption.
    + assert (Hnl : ~ lone l q) by (intros H; apply S; apply (proj1 HF); assumption).
      rewrite (skids_ok dim Hdim f pss Hne Hsort Hfull X t HX F HT l q c Hm Hx Hc (digits dim)) by apply incl_refl.
      assert (Hkids : forall q', In q' (map (fun d => q * B + d) (filter (get_child (s_word c)) (digits dim))) <-> X (l - 1) q' /\ q' / B = q).
      { intros q'. rewrite (kids_in dim Hdim f pss Hne Hsort Hfull X t HX F HT l q c q' Hm Hx Hc). split; [tauto|]. intros H. split; [lia | exact H]. }
      revert Hkids. generalize (map (fun d => q * B + d) (filter (get_child (s_word c)) (digits dim))). intros kids Hkids.
      assert (FL : forall kl G u, (forall q', In q' kl -> X (l - 1) q') -> okF G -> TI X X G u ->
        exists u', fold_left (fun a d => match a with Some u0 => cofm_update dim f fuel lo hi u0 d | None => None end) kl (Some u) = Some u' /\
          okF (fun l' q' => G l' q' \/ exists d, In d kl /\ below (l - 1) d l' q') /\ TI X X (fun l' q' => G l' q' \/ exists d, In d kl /\ below (l - 1) d l' q') u').
      { induction kl as [|k kl IHk]; intros G u Hk HG HTu.
        - exists u. split; [reflexivity|]. split.
          + destruct HG as [G1 G2]. split; [intros; left; apply G1; assumption|]. intros l' q' H1 H2 [H|(d & [] & _)]. left. apply G2; assumption.
          + apply (TI_ext dim Hdim f pss Hne Hsort Hfull X X X X G _); try (intros; reflexivity); [|exact HTu]. intros l' q' _ _. split; [tauto | intros [H|(d & [] & _)]; exact H].
        - cbn [fold_left]. destruct (IH fuel G u k) as (u1 & E1 & T1); [lia | lia | rewrite <- El; apply Hk; left; reflexivity | exact HG | exact HTu|]. rewrite E1. rewrite <- El in T1.
          destruct (IHk (fun l' q' => G l' q' \/ below (l - 1) k l' q') u1) as (u' & E2 & O2 & T2); [intros y Hy; apply Hk; right; exact Hy | apply okF_below, HG | exact T1|].
          exists u'. split; [exact E2|].
          assert (EQ : forall l' q', ((G l' q' \/ below (l - 1) k l' q') \/ (exists d, In d kl /\ below (l - 1) d l' q')) <-> (G l' q' \/ (exists d, In d (k :: kl) /\ below (l - 1) d l' q'))).
          { intros l' q'. split; [intros [[H|H]|(d & H1 & H2)]; [tauto | right; exists k; split; [left; reflexivity | exact H] | right; exists d; split; [right; exact H1 | exact H2]] | intros [H|(d & [<-|H1] & H2)]; [tauto | tauto | right; exists d; tauto]]. }
          split.
          + destruct O2 as [O1 O2]. split; [intros; apply EQ, O1; assumption|]. intros l' q' H1 H2 H. apply EQ, O2; [assumption | assumption | apply EQ, H].
          + apply (TI_ext dim Hdim f pss Hne Hsort Hfull X X X X _ _ u') with (4 := T2); try (intros; reflexivity). intros l' q' _ _. apply EQ. }
      destruct (FL kids F t) as (t1 & E1 & O1 & T1); [intros q' Hq'; apply Hkids, Hq' | exact HF | exact HT|]. rewrite E1.
      destruct (ti_cell _ _ _ _ _ _ _ T1 l q Hm Hx) as (c1 & Hc1 & C1). rewrite Hc1.
      rewrite (kid_data_ok _ t1 l q c1 ltac:(lia) Hx Hnl T1 Hc1) by (apply incl_refl || (intros d Hd Hxd; right; exists (q * B + d); split; [apply Hkids; split; [exact Hxd | apply (child_parent dim), Hd] | split; [lia | rewrite N.sub_diag; apply up_0]])).
      eexists. split; [reflexivity|].
      pose proof (gdat_unfold dim Hdim f pss Hne Hsort Hfull l q ltac:(lia) (or_intror (not_lone_many l q Hh Hnl))) as GU.
      apply (TI_put dim Hdim f pss Hne Hsort Hfull X X X X (fun l' q' => F l' q' \/ (exists d, In d kids /\ below (l - 1) d l' q')) _ t1 l q); [exact HK | exact Hm | exact Hh | | intros; reflexivity | | | exact T1].
      * intros l' q'. split; [tauto|]. intros [H|[-> ->]]; assumption.
      * intros l' q' Hx' Hn. assert (Hlv' : l' <= D) by (apply HK in Hx'; tauto). split.
        -- intros [H|(d & Hd & H1 & H2)]; [tauto|]. right. split; [lia|]. apply Hkids in Hd. destruct Hd as [_ Hd]. replace (l - l') with (l - 1 - l' + 1) by lia. rewrite (up_S dim Hdim), H2. exact Hd.
        -- intros [H|[H1 H2]]; [tauto|]. right. assert (l' <> l) by (intros ->; rewrite N.sub_diag, up_0 in H2; congruence). exists (up (l - 1 - l') q'). split; [|split; [lia | reflexivity]].
           apply Hkids. replace (l - l') with (l - 1 - l' + 1) in H2 by lia. rewrite (up_S dim Hdim) in H2. split; [|exact H2].
           assert (GX : forall b, b + l' <= l - 1 -> X (l' + b) (up b q')).
           { induction b as [|b IHb] using N.peano_ind; intros Hb; [rewrite N.add_0_r, up_0; exact Hx'|]. replace (N.succ b) with (b + 1) by lia. replace (l' + (b + 1)) with (l' + b + 1) by lia. rewrite (up_S dim Hdim). apply HU; [apply IHb; lia | lia]. }
           replace (l - 1) with (l' + (l - 1 - l')) at 1 by lia. apply GX. lia.
      * destruct (shared_wf dim _ (ck_w _ _ _ _ _ _ _ _ C1)) as (W1 & W2 & W3 & W4). constructor; cbn [s_word s_set s_owner].
        -- exact W1.
        -- rewrite W3. apply (ck_rq _ _ _ _ _ _ _ _ C1).
        -- rewrite W4. apply (ck_nr _ _ _ _ _ _ _ _ C1).
        -- intros d Hd. rewrite (W2 d Hd). apply (ck_kid _ _ _ _ _ _ _ _ C1 d Hd).
        -- split; [right; split; [lia | rewrite N.sub_diag; apply up_0]|]. symmetry. exact GU.
        -- apply (ck_own _ _ _ _ _ _ _ _ C1).
Qed.
Lemma update_root t : TI X X lone t -> exists t', cofm_update dim f 66 lo hi t key_root = Some t' /\ TI X X (fun _ _ => True) t'.
Proof.
  intros HT. pose proof HX as (HK & HR & HU). pose proof (D_le dim Hdim). destruct (update_ok (N.to_nat D) 66 lone t key_root) as (t' & E & T).
  - lia.
  - lia.
  - rewrite N2Nat.id. exact HR.
  - split; [tauto|]. intros l q Hx Hl (s & Hs). pose proof (HK _ _ Hx) as [_ (k & Hk & Ek)]. exists s. subst q. rewrite <- (up_S dim Hdim) in Hs. apply (solo_down dim Hdim pss Hne Hsort Hfull s (l + 1) l k); [lia | exact Hk | exact Hs].
  - exact HT.
  - exists t'. split; [exact E|]. apply (TI_ext dim Hdim f pss Hne Hsort Hfull X X X X _ _ t') with (4 := T); try (intros; reflexivity). intros l q Hl Hx. split; [tauto|]. intros _. right. rewrite N2Nat.id. split; [exact Hl|].
    pose proof (HK _ _ Hx) as [_ (k & Hk & Ek)]. subst q. rewrite <- (up_up dim Hdim). replace (l + (D - l)) with D by lia. apply (up_root dim Hdim), (K_full dim Hdim pss Hne Hsort Hfull k Hk).
Qed.
End Full.
End Upd.
