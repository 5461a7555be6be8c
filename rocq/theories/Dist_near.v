(** The summaries of the whole tree and what the search in it finds. *)
From Coq Require Import Sorted Permutation.
From Verif Require Import Base Key_model Key_spec Key_proofs HCell_model HCell_props
  BuildTree_model BuildTree_spec BuildTree_lemmas BuildTree_inv BuildTree_turn BuildTree_proofs BuildTree_shape.
From Verif Require Import Share_model Share_lemmas Share_sums Share_table Share_steps Share_update Share_local Share_rounds Share_final.
From Verif Require Share_world Comms_lemmas.
From Verif Require Import Vec Geometry_model Geometry_props Cofm_model Cofm_spec Cofm_proofs Search_proofs Search_sph Dist_model Dist_lemmas.
Local Open Scope N_scope.

Lemma nodup_flat {A C} (g : A -> list C) : forall l, NoDup l -> (forall a, In a l -> NoDup (g a)) -> (forall a b x, In a l -> In b l -> In x (g a) -> In x (g b) -> a = b) -> NoDup (flat_map g l).
Proof.
  induction 1 as [|a l Ha H IH]; intros H1 H2; [constructor|]. cbn [flat_map].
  assert (G : forall u v : list C, NoDup u -> NoDup v -> (forall x, In x u -> In x v -> False) -> NoDup (u ++ v)).
  { induction u as [|x u IHu]; intros v Hu Hv Hd; [exact Hv|]. inversion Hu; subst. cbn [app]. constructor; [|apply IHu; [assumption | exact Hv | intros y Hy; apply Hd; right; exact Hy]].
    intros Hx. apply in_app_or in Hx. destruct Hx as [Hx|Hx]; [contradiction | apply (Hd x); [left; reflexivity | exact Hx]]. }
  apply G; [apply H1; left; reflexivity | apply IH; [intros b Hb; apply H1; right; exact Hb | intros b b' x Hb Hb'; apply H2; right; assumption] |].
  intros x Hx Hy. apply in_flat_map in Hy. destruct Hy as (b & Hb & Hy). apply Ha. rewrite (H2 a b x); [exact Hb | left; reflexivity | right; exact Hb | exact Hx | exact Hy].
Qed.

Set Default Proof Using "All".
Section Near.
Context {Ent : Type} (eb : Ent -> body) (dim : N) (Hdim : dim_ok dim).
Notation n := (N.to_nat dim).
Notation f := (cofm_of eb n).
Context (pss : list (list (N * Ent))).
Notation D := (max_depth dim).
Notation B := (2 ^ dim).
Notation up := (BuildTree_spec.up dim).
Notation full := (BuildTree_lemmas.full dim).
Notation has := (has dim).
Notation internal := (internal dim).
Notation cell_ex := (cell_ex dim).
Notation P := (P pss).
Notation K := (K pss).
Notation nr := (nr pss).
Notation gdat := (gdat dim f pss).
Notation stable := (stable Ent cofm).
Notation under := (under dim).
Hypothesis Hne : forall ps, In ps pss -> ps <> [].
Hypothesis Hsort : StronglySorted N.lt K.
Hypothesis Hfull : Forall full K.
Hypothesis Hn0 : (0 < nr)%nat.
Hypothesis Hmass : forall x, In x P -> (0 < b_mass (eb (snd x)))%R.
Hypothesis Hrad : forall x, In x P -> (0 <= b_rad (eb (snd x)))%R.

Definition lv1 (l q : N) : list Ent := map snd (under l q P).
Lemma under_kids l q : 1 <= l -> Permutation (under l q P) (flat_map (fun d => under (l - 1) (q * B + d) P) (digits dim)).
Proof.
  intros Hl. assert (HN : NoDup P) by (apply (NoDup_P dim Hdim f pss Hne Hsort Hfull)). apply NoDup_Permutation.
  - apply NoDup_filter, HN.
  - apply nodup_flat; [apply Comms_lemmas.digits_nodup | intros; apply NoDup_filter, HN|]. intros a b x Ha Hb Hx Hy. apply filter_In in Hx, Hy. destruct Hx as [_ Hx], Hy as [_ Hy]. lia.
  - intros x. rewrite in_flat_map. rewrite (under_in dim Hdim f pss Hne Hsort Hfull). split.
    + intros [Hx E]. exists (up (l - 1) (fst x) mod B). assert (Hd : up (l - 1) (fst x) mod B < B) by (apply N.mod_lt; pose proof (N.pow_nonzero 2 dim); lia). split; [apply Comms_lemmas.digits_in, Hd|]. rewrite (under_in dim Hdim f pss Hne Hsort Hfull). split; [exact Hx|].
      rewrite <- E. replace l with (l - 1 + 1) at 2 by lia. rewrite (up_S dim Hdim). pose proof (N.div_mod (up (l - 1) (fst x)) B ltac:(pose proof (N.pow_nonzero 2 dim); lia)). lia.
    + intros (d & Hd & Hx). apply Comms_lemmas.digits_in in Hd. rewrite (under_in dim Hdim f pss Hne Hsort Hfull) in Hx. destruct Hx as [Hx E]. split; [exact Hx|]. replace l with (l - 1 + 1) by lia. rewrite (up_S dim Hdim), E, N.div_add_l, N.div_small by lia. lia.
Qed.
Lemma gsummary : forall m l q s, l = N.of_nat m -> l <= D -> has K l q -> internal K l q -> gdat l q = inr s -> summary_ok n s (map eb (lv1 l q)).
Proof.
  induction m as [|m IH]; intros l q s El Hl Hh Hi Es.
  { exfalso. destruct Hi as [E|(k1 & k2 & A1 & A2 & A3 & A4 & A5)]; [subst; destruct Hdim as [->|[->| ->]]; discriminate E|]. apply A3. rewrite El in A4, A5. change (N.of_nat 0) with 0 in *. rewrite up_0 in A4, A5. congruence. }
  assert (Hl1 : 1 <= l <= D) by lia. rewrite (gdat_unfold dim Hdim f pss Hne Hsort Hfull l q Hl1 Hi) in Es. injection Es as <-. unfold cofm_of.
  set (kd := kids_dat dim f pss l q).
  assert (G : forall ds, (forall d, In d ds -> d < B) -> exists pp, Forall2 (summary_ok n) (sums_of (kd ds)) pp /\ Permutation (map eb (ents_of (kd ds)) ++ concat pp) (map eb (map snd (flat_map (fun d => under (l - 1) (q * B + d) P) ds)))).
  { induction ds as [|d ds IHd]; intros Hds; [exists []; split; [constructor | apply Permutation_refl]|]. destruct IHd as (pp & F & PP); [intros x Hx; apply Hds; right; exact Hx|]. specialize (Hds d (or_introl eq_refl)).
    unfold kd, kids_dat in *. cbn [flat_map]. rewrite !map_app. fold (kids_dat dim f pss l q ds) in *. set (c := q * B + d) in *.
    destruct (hasb dim pss (l - 1) c) eqn:Eb.
    - pose proof (proj1 (hasb_spec dim Hdim f pss Hne Hsort Hfull (l - 1) c) Eb) as Hc. destruct (gdat (l - 1) c) as [e|s] eqn:Eg; cbn [app ents_of sums_of flat_map].
      + assert (Hnl : ~ internal K (l - 1) c) by (intros X; apply (gdat_kind dim Hdim f pss Hne Hsort Hfull) in X; [destruct X as (s & X); congruence | lia | exact Hc]).
        destruct (gdat_leaf dim Hdim f pss Hne Hsort Hfull (l - 1) c Hnl ltac:(lia) Hc) as (x & _ & _ & Ex & Eu). rewrite Eg in Ex. injection Ex as ->. exists pp. split; [exact F|]. rewrite Eu. cbn [map app]. constructor. exact PP.
      + assert (Hin : internal K (l - 1) c) by (apply (gdat_kind dim Hdim f pss Hne Hsort Hfull); [lia | exact Hc | exists s; exact Eg]).
        exists (map eb (lv1 (l - 1) c) :: pp). split; [constructor; [apply (IH (l - 1)); [lia | lia | exact Hc | exact Hin | exact Eg] | exact F]|]. cbn [concat]. unfold lv1. etransitivity; [apply Permutation_app_swap_app|]. apply Permutation_app_head. exact PP.
    - exists pp. cbn [app]. assert (Eu : under (l - 1) c P = []) by (unfold hasb in Eb; destruct (Share_sums.under dim (l - 1) c P); [reflexivity | discriminate]). rewrite Eu. cbn [map app]. split; [exact F | exact PP]. }
  destruct (G (digits dim)) as (pp & F & PP); [intros d Hd; apply Comms_lemmas.digits_in, Hd|].
  apply summary_perm with (map eb (ents_of (kd (digits dim))) ++ concat pp).
  - rewrite PP. unfold lv1. apply Permutation_map, Permutation_map, Permutation_sym, under_kids. lia.
  - apply compute_cofm_ok; [|exact F]. intros b Hb. apply (Permutation_in _ PP) in Hb. rewrite map_map in Hb. apply in_map_iff in Hb. destruct Hb as (x & <- & Hx). apply Hmass. apply in_flat_map in Hx. destruct Hx as (d & _ & Hx). apply filter_In in Hx. tauto.
Qed.

Definition near_max (a e : Ent) : Prop := (dist n (b_pos (eb a)) (b_pos (eb e)) <= Rmax (b_rad (eb a)) (b_rad (eb e)))%R.
Definition near_mean (a e : Ent) : Prop := (dist n (b_pos (eb a)) (b_pos (eb e)) <= (b_rad (eb a) + b_rad (eb e)) / 2)%R.
(** as in Search_sph *)
Definition ext (L Rm : list Ent) (nbs nbs' : list (Ent * list Ent)) : Prop :=
  Forall2 (fun x y => fst y = fst x /\ exists l rest, snd y = snd x ++ l /\ Permutation (l ++ rest ++ Rm) L /\
    (forall e, In e l -> near_max (fst x) e) /\ (forall e, In e rest -> ~ near_mean (fst x) e)) nbs nbs'.
Lemma ext_fst L Rm a b : ext L Rm a b -> map fst b = map fst a.
Proof. induction 1 as [|x y a b [E _] H IH]; cbn; [reflexivity|]. rewrite E, IH. reflexivity. Qed.
Lemma ext_par L1 R1 L2 R2 a b c : ext L1 R1 a b -> ext L2 R2 b c -> ext (L1 ++ L2) (R1 ++ R2) a c.
Proof.
  intros H. revert c. induction H as [|x y a b Hxy H IH]; intros c Hc; inversion Hc as [|? z ? c' Hyz Hc']; subst; [constructor|].
  constructor; [|apply IH; assumption].
  destruct Hxy as (E1 & l1 & r1 & F1 & P1 & A1 & B1). destruct Hyz as (E2 & l2 & r2 & F2 & P2 & A2 & B2).
  split; [congruence|]. exists (l1 ++ l2), (r1 ++ r2). rewrite F2, F1, <- app_assoc. split; [reflexivity|].
  rewrite E1 in *. split; [|split; intros e He; apply in_app_or in He; destruct He; auto].
  rewrite <- P1, <- P2. clear.
  rewrite <- !app_assoc. apply Permutation_app_head.
  transitivity (r1 ++ l2 ++ r2 ++ R1 ++ R2); [apply Permutation_app_swap_app|]. apply Permutation_app_head.
  transitivity (l2 ++ R1 ++ r2 ++ R2); [apply Permutation_app_head, Permutation_app_swap_app|].
  apply Permutation_app_swap_app.
Qed.
Lemma ext_seq L M Rm a b c : ext L M a b -> ext M Rm b c -> ext L Rm a c.
Proof.
  intros H. revert c. induction H as [|x y a b Hxy H IH]; intros c Hc; inversion Hc as [|? z ? c' Hyz Hc']; subst; [constructor|].
  constructor; [|apply IH; assumption].
  destruct Hxy as (E1 & l1 & r1 & F1 & P1 & A1 & B1). destruct Hyz as (E2 & l2 & r2 & F2 & P2 & A2 & B2).
  split; [congruence|]. exists (l1 ++ l2), (r1 ++ r2). rewrite F2, F1, <- app_assoc. split; [reflexivity|].
  rewrite E1 in *. split; [|split; intros e He; apply in_app_or in He; destruct He; auto].
  rewrite <- P1, <- P2. clear. rewrite <- !app_assoc. apply Permutation_app_head. apply Permutation_app_swap_app.
Qed.
Lemma ext_skip L nbs : (forall x e, In x nbs -> In e L -> ~ near_mean (fst x) e) -> ext L [] nbs nbs.
Proof.
  intros H. unfold ext. induction nbs as [|x nbs IH]; constructor.
  - split; [reflexivity|]. exists [], L. rewrite app_nil_r. cbn [app]. rewrite app_nil_r.
    split; [reflexivity|]. split; [apply Permutation_refl|]. split; [intros e []|]. intros e He. apply H; [left; reflexivity|assumption].
  - apply IH. intros. apply H; [right; assumption|assumption].
Qed.
Lemma ext_keep L nbs : ext L L nbs nbs.
Proof.
  induction nbs as [|x nbs IH]; constructor; [|assumption].
  split; [reflexivity|]. exists [], []. rewrite app_nil_r. repeat split; auto; intros e [].
Qed.
Lemma ext_perm L L' Rm a b : Permutation L L' -> ext L Rm a b -> ext L' Rm a b.
Proof.
  intros HP. induction 1 as [|x y a b (E & l & rest & A1 & A2 & A3) H IH]; constructor; [|exact IH]. split; [exact E|]. exists l, rest. split; [exact A1|]. split; [|exact A3]. rewrite A2. exact HP.
Qed.
Lemma ext_permR L Rm Rm' a b : Permutation Rm Rm' -> ext L Rm a b -> ext L Rm' a b.
Proof.
  intros HP. induction 1 as [|x y a b (E & l & rest & A1 & A2 & A3) H IH]; constructor; [|exact IH]. split; [exact E|]. exists l, rest. split; [exact A1|]. split; [|exact A3]. rewrite <- A2. apply Permutation_app_head, Permutation_app_head, Permutation_sym, HP.
Qed.
(** the summary of the target cell, if any, covers the targets *)
Definition cur_ok (cur : option cofm) (nbs : list (Ent * list Ent)) : Prop :=
  (forall x, In x nbs -> (0 <= b_rad (eb (fst x)))%R) /\
  match cur with
  | Some cn => exists G, summary_ok n cn (map eb G) /\ forall x, In x nbs -> In (fst x) G
  | None => True
  end.
Lemma cur_ok_fst cur a b : map fst b = map fst a -> cur_ok cur a -> cur_ok cur b.
Proof.
  intros E [H1 H2]. assert (G : forall x, In x b -> exists y, In y a /\ fst y = fst x).
  { intros x Hx. apply (in_map fst) in Hx. rewrite E in Hx. apply in_map_iff in Hx. destruct Hx as (y & Ey & Hy). eauto. }
  split.
  - intros x Hx. destruct (G x Hx) as (y & Hy & <-). auto.
  - destruct cur as [cn|]; [|exact I]. destruct H2 as (G' & Hs & HG). exists G'. split; [assumption|].
    intros x Hx. destruct (G x Hx) as (y & Hy & <-). auto.
Qed.

Variable one : stable.
Hypothesis H1 : one_ok dim f pss one.
Notation lk := (look_s one).
Definition okc (x : N * N) : Prop := fst x <= D /\ cell_ex K K (fst x) (snd x).
Lemma one_look x : okc x -> exists w, lk (snd x) = Some (w, gdat (fst x) (snd x)) /\
  (internal K (fst x) (snd x) -> is_empty_node dim w = false /\ Comms_lemmas.okkey dim (snd x)) /\
  (forall d, d < B -> (get_child w d = true <-> 1 <= fst x /\ okc (fst x - 1, snd x * B + d))).
Proof.
  destruct x as [l q]. intros [Hl He]. cbn [fst snd] in *. destruct (one_cell _ _ _ _ H1 l q Hl He) as (c & Hc & Hw & Hs & _ & _ & Hnr & Hk). unfold look_s. rewrite Hc, Hs. exists (s_word c). split; [reflexivity|]. split.
  - intros Hi. destruct (Share_world.w_wf dim Hdim f pss Hne Hsort Hfull Hn0 one H1) as [_ WW]. destruct (Share_world.w_at dim Hdim f pss Hne Hsort Hfull Hn0 one H1 l q Hl He) as (Ek & Ei & _). destruct (WW q (proj2 Ei Hi)) as [Ok Kd]. split; [|exact Ok].
    rewrite Comms_lemmas.empty_spec, Hnr. replace (nchildren dim (s_word c) <? 0) with false by lia. rewrite orb_false_r. apply N.eqb_neq. intros E0.
    apply Kd. destruct (Comms_lemmas.kids dim _ q) as [|d ds] eqn:EK; [reflexivity|]. exfalso. assert (Hd : In d (Comms_lemmas.kids dim (Share_world.tree_of one) q)) by (rewrite EK; left; reflexivity). apply Comms_lemmas.kids_in in Hd. destruct Hd as [Hd Hg]. unfold Comms_lemmas.w_kid, Share_world.tree_of in Hg. rewrite Hc in Hg.
    rewrite Comms_lemmas.nchildren_filter in E0. assert (Hf : In d (filter (get_child (s_word c)) (digits dim))) by (apply filter_In; split; [apply Comms_lemmas.digits_in, Hd | exact Hg]). destruct (filter _ _); [destruct Hf | cbn in E0; lia].
  - intros d Hd. rewrite (Hk d Hd). unfold okc. cbn [fst snd]. split; intros [A1 A2]; (split; [exact A1|]); [split; [lia | exact A2] | apply A2].
Qed.
Lemma one_sub q w x : lk q = Some (w, x) -> exists l, okc (l, q) /\ x = gdat l q.
Proof.
  intros E. assert (Hc : exists c, one q = Some c) by (unfold look_s in E; destruct (one q) as [c|]; [exists c; reflexivity | discriminate]). destruct Hc as (c & Hc). destruct (one_sound _ _ _ _ H1 q c Hc) as (l & Hl & He). exists l. assert (O : okc (l, q)) by (split; assumption). split; [exact O|].
  destruct (one_look (l, q) O) as (w' & E' & _). cbn [fst snd] in E'. congruence.
Qed.
Definition lvs (qs : list (N * N)) : list Ent := flat_map (fun x => lv1 (fst x) (snd x)) qs.

Lemma in_lv1 l q e : In e (lv1 l q) -> exists x, In x P /\ snd x = e.
Proof. unfold lv1. intros H. apply in_map_iff in H. destruct H as (x & E & H). apply filter_In in H. exists x. tauto. Qed.
Lemma dist_cell_ok cur x nbs : okc x -> cur_ok cur nbs ->
  exists q nbs', dist_cell eb dim lk cur (snd x) nbs = Some (false, map snd q, nbs') /\ Forall okc q /\ (forall y, In y q -> fst y + 1 = fst x) /\ ext (lv1 (fst x) (snd x)) (lvs q) nbs nbs'.
Proof.
  intros Hx [Hr0 Hcur]. destruct (one_look x Hx) as (w & El & Hi & Hk). destruct x as [l q]. cbn [fst snd] in *. destruct Hx as [Hl He]. cbn [fst snd] in Hl, He. pose proof (ex_has_K dim Hdim f pss Hne Hsort Hfull l q Hn0 Hl He) as HhK.
  unfold dist_cell. rewrite El. cbn [fst snd]. destruct (gdat l q) as [e|s] eqn:Eg.
  - assert (Hnl : ~ internal K l q) by (intros X; apply (gdat_kind dim Hdim f pss Hne Hsort Hfull) in X; [destruct X as (s & X); congruence | exact Hl | exact HhK]).
    destruct (gdat_leaf dim Hdim f pss Hne Hsort Hfull l q Hnl Hl HhK) as (x & HxP & _ & Ex & Eu). rewrite Eg in Ex. injection Ex as ->. unfold lv1. rewrite Eu. cbn [map].
    assert (Hpass : forall y, In y nbs -> near_mean (fst y) (snd x) -> match cur with
       | Some cn => negb (within_distance2 n (b_pos (eb (snd x))) (cm_pos cn) (Rmax (b_rad (eb (snd x))) (cm_lap cn) + cm_rad cn))
       | None => false end = false).
    { intros y Hy Hnear. destruct cur as [cn|]; [|reflexivity]. destruct Hcur as (G & Hs & HG). apply negb_false_iff. unfold within_distance2. rewrite Rleb_true.
      assert (Hb : In (eb (fst y)) (map eb G)) by (apply in_map, HG, Hy).
      pose proof (so_rad _ _ _ Hs _ Hb). pose proof (so_lap _ _ _ Hs _ Hb). pose proof (so_rad0 _ _ _ Hs). pose proof (so_lap0 _ _ _ Hs).
      pose proof (dist_nonneg n (cm_pos cn) (b_pos (eb (fst y)))). pose proof (dist_triangle n (cm_pos cn) (b_pos (eb (fst y))) (b_pos (eb (snd x)))).
      pose proof (mean_le_max (b_rad (eb (fst y))) (b_rad (eb (snd x)))). unfold near_mean in Hnear.
      assert (Rmax (b_rad (eb (fst y))) (b_rad (eb (snd x))) <= Rmax (b_rad (eb (snd x))) (cm_lap cn))%R.
      { unfold Rmax. destruct (Rle_dec (b_rad (eb (fst y))) (b_rad (eb (snd x)))), (Rle_dec (b_rad (eb (snd x))) (cm_lap cn)); lra. }
      rewrite dist2_sym. apply dist_le_iff; [|lra]. pose proof (Rmax_r (b_rad (eb (snd x))) (cm_lap cn)). lra. }
    match goal with |- context [if ?b then Some (false, [], nbs) else _] => destruct b eqn:Ecur end.
    + exists [], nbs. split; [reflexivity|]. split; [constructor|]. split; [intros y []|]. apply ext_skip. intros y e Hy [<-|[]] Hnear. specialize (Hpass y Hy Hnear). discriminate.
    + exists []. eexists. split; [reflexivity|]. split; [constructor|]. split; [intros y []|]. cbn [lvs flat_map]. clear Hpass Ecur Hcur. unfold ext. induction nbs as [|y nbs IH]; cbn [map]; constructor.
      * assert (Hm0 : (0 <= Rmax (b_rad (eb (fst y))) (b_rad (eb (snd x))))%R) by (apply Rmax_nonneg, Hrad, HxP).
        destruct (within_distance2 _ _ _ _) eqn:Ew; cbn [fst snd].
        -- split; [reflexivity|]. exists [snd x], []. split; [reflexivity|]. split; [apply Permutation_refl|]. split; [|intros e []]. intros e [<-|[]]. unfold near_max. apply dist_le_iff; [assumption|]. apply Rleb_true. exact Ew.
        -- split; [reflexivity|]. exists [], [snd x]. rewrite app_nil_r. split; [reflexivity|]. split; [apply Permutation_refl|]. split; [intros e []|]. intros e [<-|[]] Hnear. unfold near_mean in Hnear. unfold within_distance2 in Ew. apply Rleb_false in Ew. apply Rlt_not_le in Ew. apply Ew. apply dist_le_iff; [assumption|]. eapply Rle_trans; [exact Hnear|apply mean_le_max].
      * apply IH. intros z Hz. apply Hr0. right. assumption.
  - assert (Hin : internal K l q) by (apply (gdat_kind dim Hdim f pss Hne Hsort Hfull); [exact Hl | exact HhK | exists s; exact Eg]). destruct (Hi Hin) as [Hemp Hok].
    pose proof (gsummary (N.to_nat l) l q s ltac:(lia) Hl HhK Hin Eg) as Hsum. pose proof (Share_world.int_pos dim Hdim f pss Hne Hsort Hfull Hn0 one H1 l q Hl Hin) as Hl1.
    match goal with |- context [if ?b then Some (false, [], nbs) else _] => destruct b eqn:Ecur end.
    + exists [], nbs. split; [reflexivity|]. split; [constructor|]. split; [intros y []|]. apply ext_skip. intros y e Hy He' Hnear. destruct cur as [cn|]; [|discriminate]. destruct Hcur as (G & HG & HG'). apply negb_true_iff in Ecur.
      rewrite (near_boxes dim s _ cn _ (eb e) (eb (fst y)) Hsum HG (in_map _ _ _ He') (in_map _ _ _ (HG' y Hy))) in Ecur; [discriminate|]. unfold near_mean in Hnear. rewrite dist_sym. lra.
    + destruct (existsb _ nbs) eqn:Eex.
      * rewrite Hemp. rewrite (dkids_look dim lk q w Hok); [|intros d Hd Hg; apply (Hk d Hd) in Hg; destruct Hg as [_ Hg]; destruct (one_look _ Hg) as (w' & E' & _); cbn [fst snd] in E'; unfold Comms_lemmas.ck; congruence | intros d Hd; apply Comms_lemmas.digits_in, Hd].
        exists (map (fun d => (l - 1, q * B + d)) (filter (get_child w) (digits dim))), nbs. split; [rewrite map_map; reflexivity|]. split; [|split].
        -- apply Forall_forall. intros y Hy. apply in_map_iff in Hy. destruct Hy as (d & <- & Hd). apply filter_In in Hd. destruct Hd as [Hd Hg]. apply Comms_lemmas.digits_in in Hd. apply (Hk d Hd), Hg.
        -- intros y Hy. apply in_map_iff in Hy. destruct Hy as (d & <- & Hd). cbn [fst]. lia.
        -- apply ext_permR with (lv1 l q); [|apply ext_keep]. unfold lv1, lvs. rewrite (Permutation_map snd (under_kids l q Hl1)). rewrite flat_map_concat_map, concat_map, map_map, flat_map_concat_map, map_map. cbn [fst snd].
           assert (DI : forall d, In d (digits dim) -> d < B) by (intros d; apply Comms_lemmas.digits_in). revert DI. generalize (digits dim). intros ds DI. induction ds as [|d ds IHd]; [apply Permutation_refl|]. cbn [map concat filter].
           assert (IHd' := IHd (fun x Hx => DI x (or_intror Hx))). specialize (DI d (or_introl eq_refl)). destruct (get_child w d) eqn:Eg1; [cbn [map concat]; apply Permutation_app_head; exact IHd'|].
           replace (under (l - 1) (q * B + d) P) with (@nil (N * Ent)); [exact IHd'|]. symmetry. destruct (under (l - 1) (q * B + d) P) as [|x u] eqn:Eu; [reflexivity|]. exfalso.
           assert (Hx : In x (under (l - 1) (q * B + d) P)) by (rewrite Eu; left; reflexivity). apply (under_in dim Hdim f pss Hne Hsort Hfull) in Hx. destruct Hx as [HxP Ex].
           enough (get_child w d = true) by congruence. apply (Hk d DI). split; [exact Hl1|]. split; cbn [fst snd]; [lia|]. right. split; [lia|]. split; [exists (fst x); split; [apply in_map, HxP | exact Ex]|]. rewrite N.div_add_l, N.div_small by lia. replace (l - 1 + 1) with l by lia. rewrite N.add_0_r. exact Hin.
      * exists [], nbs. split; [reflexivity|]. split; [constructor|]. split; [intros y []|]. apply ext_skip. intros y e Hy He' Hnear. destruct (in_lv1 l q e He') as (x & HxP & Ex).
        assert (E : intersects_sphere_box n (cm_min s) (cm_max s) (b_pos (eb (fst y))) (b_rad (eb (fst y))) = true).
        { apply (near_box dim Hdim s _ (eb e) _ _ Hsum (in_map _ _ _ He')); [rewrite <- Ex; apply Hrad, HxP | apply Hr0, Hy | exact Hnear]. }
        pose proof (proj1 (existsb_false _ _) Eex y Hy) as E'. cbv beta zeta in E'. rewrite E in E'. discriminate.
Qed.
Lemma dist_level_ok cur : forall qs nbs, Forall okc qs -> cur_ok cur nbs ->
  exists q nbs', dist_level eb dim lk cur (map snd qs) nbs = Some (false, map snd q, nbs') /\ Forall okc q /\ (forall y, In y q -> exists x, In x qs /\ fst y + 1 = fst x) /\ ext (lvs qs) (lvs q) nbs nbs'.
Proof.
  induction qs as [|x qs IH]; intros nbs Hq Hcur; [exists [], nbs; split; [reflexivity|]; split; [constructor|]; split; [intros y []|]; apply ext_keep|].
  inversion Hq as [|? ? Hx Hq']; subst. cbn [map dist_level]. destruct (dist_cell_ok cur x nbs Hx Hcur) as (q1 & n1 & E1 & O1 & L1 & X1). rewrite E1.
  destruct (IH n1 Hq') as (q2 & n2 & E2 & O2 & L2 & X2); [apply (cur_ok_fst cur nbs); [apply (ext_fst _ _ _ _ X1) | exact Hcur]|]. rewrite E2. exists (q1 ++ q2), n2. rewrite map_app. split; [reflexivity|]. split; [apply Forall_app; split; assumption|]. split.
  - intros y Hy. apply in_app_or in Hy. destruct Hy as [Hy|Hy]; [exists x; split; [left; reflexivity | apply L1, Hy] | destruct (L2 y Hy) as (z & Hz & Ez); exists z; split; [right; exact Hz | exact Ez]].
  - unfold lvs. cbn [flat_map]. rewrite flat_map_app. apply (ext_par _ _ _ _ nbs n1 n2 X1 X2).
Qed.
Lemma dist_queue_ok cur : forall fuel qs nbs, Forall okc qs -> cur_ok cur nbs -> (forall x, In x qs -> (N.to_nat (fst x) < fuel)%nat) ->
  exists nbs', dist_queue eb dim lk fuel cur (map snd qs) nbs = Some (Some nbs') /\ ext (lvs qs) [] nbs nbs'.
Proof.
  induction fuel as [|fuel IH]; intros qs nbs Hq Hcur Hf.
  - destruct qs as [|x qs]; [exists nbs; split; [reflexivity | apply ext_keep]|]. specialize (Hf x (or_introl eq_refl)). lia.
  - destruct qs as [|x qs]; [exists nbs; split; [reflexivity | apply ext_keep]|]. destruct (dist_level_ok cur (x :: qs) nbs Hq Hcur) as (q & n1 & E1 & O1 & L1 & X1). cbn [dist_queue map]. change (snd x :: map snd qs) with (map snd (x :: qs)). rewrite E1.
    destruct (IH q n1 O1) as (n2 & E2 & X2); [apply (cur_ok_fst cur nbs); [apply (ext_fst _ _ _ _ X1) | exact Hcur] | intros y Hy; destruct (L1 y Hy) as (z & Hz & Ez); specialize (Hf z Hz); lia|].
    exists n2. split; [exact E2 | apply (ext_seq _ _ _ _ _ _ X1 X2)].
Qed.
Lemma lv_root : lvs [(D, 1)] = map snd P.
Proof.
  unfold lvs. cbn [flat_map fst snd]. rewrite app_nil_r. unfold lv1. f_equal. unfold Share_sums.under. rewrite (proj2 (forallb_forall _ _)) || idtac.
  assert (G : forall l : list (N * Ent), (forall x, In x l -> up D (fst x) =? 1 = true) -> filter (fun x => up D (fst x) =? 1) l = l) by (induction l as [|a l IH]; intros H; [reflexivity|]; cbn [filter]; rewrite (H a (or_introl eq_refl)), IH; [reflexivity | intros x Hx; apply H; right; exact Hx]).
  apply G. intros x Hx. apply N.eqb_eq. apply (up_root dim Hdim), (K_full dim Hdim pss Hne Hsort Hfull). apply in_map, Hx.
Qed.
Lemma dist_search_ok cur nbs : cur_ok cur nbs -> exists nbs', dist_queue eb dim lk 66 cur [key_root] nbs = Some (Some nbs') /\ ext (map snd P) [] nbs nbs'.
Proof.
  intros Hcur. destruct (dist_queue_ok cur 66 [(D, 1)] nbs) as (nbs' & E & X); [constructor; [split; cbn [fst snd]; [lia | left; split; reflexivity] | constructor] | exact Hcur | intros x [<-|[]]; cbn [fst]; destruct Hdim as [->|[->| ->]]; vm_compute; lia|].
  exists nbs'. split; [exact E|]. rewrite <- lv_root. exact X.
Qed.
End Near.
