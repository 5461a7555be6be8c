(** The SPH neighbour search on one process. *)
From Coq Require Import Sorted Permutation.
From Verif Require Import Base Key_model Key_spec Key_proofs HCell_model HCell_props BuildTree_model BuildTree_spec BuildTree_lemmas
  BuildTree_inv BuildTree_shape BuildTree_props Vec Geometry_model Geometry_props Cofm_model Cofm_spec Cofm_proofs Search_model
  Search_proofs.
Local Open Scope N_scope.

Section Sph.
Variable dim : N.
Hypothesis Hdim : dim_ok dim.
Variables (t : table) (cofms : list cofm) (bodies : list body).
Notation B := (2 ^ dim).
Notation n := (N.to_nat dim).
Notation fcc := (fcc_cofm n bodies).
Hypothesis Hmass : forall b, In b bodies -> (0 < b_mass b)%R.
Hypothesis Hrad : forall b, In b bodies -> (0 <= b_rad b)%R.
Notation okt := (okt dim t cofms bodies).
Notation kids := (kids dim).
Notation size := (size dim).
Notation gb := (get_body bodies).

Definition near_max (i e : nat) : Prop :=
  (dist n (b_pos (gb i)) (b_pos (gb e)) <= Rmax (b_rad (gb i)) (b_rad (gb e)))%R.
Definition near_mean (i e : nat) : Prop :=
  (dist n (b_pos (gb i)) (b_pos (gb e)) <= (b_rad (gb i) + b_rad (gb e)) / 2)%R.

Definition lv (q : list (N * tree)) : list nat := flat_map (fun x => leaves (snd x)) q.

(** [nbs'] extends [nbs]: of the particles [L], those in [Rm] are still to be
    looked at, the others are either added, being near, or dropped, not being
    near. *)
Definition ext (L Rm : list nat) (nbs nbs' : list (nat * list nat)) : Prop :=
  Forall2 (fun x y => fst y = fst x /\ exists l rest, snd y = snd x ++ l /\ Permutation (l ++ rest ++ Rm) L /\
    (forall e, In e l -> near_max (fst x) e) /\ (forall e, In e rest -> ~ near_mean (fst x) e)) nbs nbs'.

Lemma ext_fst L Rm a b : ext L Rm a b -> map fst b = map fst a.
Proof. induction 1 as [|x y a b [E _] H IH]; cbn; [reflexivity|]. rewrite E, IH. reflexivity. Qed.

Lemma ext_par L1 R1 L2 R2 a b c : ext L1 R1 a b -> ext L2 R2 b c -> ext (L1 ++ L2) (R1 ++ R2) a c.
Proof.
  intros H. revert c. induction H as [|x y a b Hxy H IH]; intros c Hc; inversion Hc as [|? z ? c' Hyz Hc']; subst; [constructor|].
  constructor; [|apply IH; assumption].
  destruct Hxy as (E1 & l1 & r1 & F1 & P1 & A1 & B1). destruct Hyz as (E2 & l2 & r2 & F2 & P2 & A2 & B2).
  split; [congruence|]. exists (l1 ++ l2), (r1 ++ r2). rewrite F2, F1, <- app_assoc. split; [reflexivity|].
  rewrite E1 in *. split; [|split; intros e He; apply in_app_or in He; destruct He; auto].
  rewrite <- P1, <- P2. clear.
  rewrite <- !app_assoc. apply Permutation_app_head.
  transitivity (r1 ++ l2 ++ r2 ++ R1 ++ R2); [apply Permutation_app_swap_app|]. apply Permutation_app_head.
  transitivity (l2 ++ R1 ++ r2 ++ R2); [apply Permutation_app_head, Permutation_app_swap_app|].
  apply Permutation_app_swap_app.
Qed.

Lemma ext_seq L M Rm a b c : ext L M a b -> ext M Rm b c -> ext L Rm a c.
Proof.
  intros H. revert c. induction H as [|x y a b Hxy H IH]; intros c Hc; inversion Hc as [|? z ? c' Hyz Hc']; subst; [constructor|].
  constructor; [|apply IH; assumption].
  destruct Hxy as (E1 & l1 & r1 & F1 & P1 & A1 & B1). destruct Hyz as (E2 & l2 & r2 & F2 & P2 & A2 & B2).
  split; [congruence|]. exists (l1 ++ l2), (r1 ++ r2). rewrite F2, F1, <- app_assoc. split; [reflexivity|].
  rewrite E1 in *. split; [|split; intros e He; apply in_app_or in He; destruct He; auto].
  rewrite <- P1, <- P2. clear. rewrite <- !app_assoc. apply Permutation_app_head. apply Permutation_app_swap_app.
Qed.

Lemma ext_skip L nbs : (forall x e, In x nbs -> In e L -> ~ near_mean (fst x) e) -> ext L [] nbs nbs.
Proof.
  intros H. unfold ext. induction nbs as [|x nbs IH]; constructor.
  - split; [reflexivity|]. exists [], L. rewrite app_nil_r. cbn [app]. rewrite app_nil_r.
    split; [reflexivity|]. split; [apply Permutation_refl|]. split; [intros e []|]. intros e He. apply H; [left; reflexivity|assumption].
  - apply IH. intros. apply H; [right; assumption|assumption].
Qed.

Lemma ext_keep L nbs : ext L L nbs nbs.
Proof.
  induction nbs as [|x nbs IH]; constructor; [|assumption].
  split; [reflexivity|]. exists [], []. rewrite app_nil_r. repeat split; auto; intros e [].
Qed.

Lemma mean_le_max a b : ((a + b) / 2 <= Rmax a b)%R.
Proof. unfold Rmax. destruct (Rle_dec a b); lra. Qed.

(** The summary of the target cell, if any, covers the targets. *)
Definition cur_ok (cur : option cofm) (nbs : list (nat * list nat)) : Prop :=
  (forall x, In x nbs -> (fst x < length bodies)%nat) /\
  match cur with
  | Some cn => exists G, summary_ok n cn (map gb G) /\ forall x, In x nbs -> In (fst x) G
  | None => True
  end.

Lemma cur_ok_fst cur a b : map fst b = map fst a -> cur_ok cur a -> cur_ok cur b.
Proof.
  intros E [H1 H2]. assert (G : forall x, In x b -> exists y, In y a /\ fst y = fst x).
  { intros x Hx. apply (in_map fst) in Hx. rewrite E in Hx. apply in_map_iff in Hx. destruct Hx as (y & Ey & Hy). eauto. }
  split.
  - intros x Hx. destruct (G x Hx) as (y & Hy & <-). auto.
  - destruct cur as [cn|]; [|exact I]. destruct H2 as (G' & Hs & HG). exists G'. split; [assumption|].
    intros x Hx. destruct (G x Hx) as (y & Hy & <-). auto.
Qed.

(** A particle in a box widened by half its radius is close to the box. *)
Lemma near_box cn ps b c r : summary_ok n cn ps -> In b ps -> (0 <= b_rad b)%R -> (0 <= r)%R ->
  (dist n c (b_pos b) <= (r + b_rad b) / 2)%R ->
  intersects_sphere_box n (cm_min cn) (cm_max cn) c r = true.
Proof using Hdim.
  intros Hs Hb Hb0 Hr Hd.
  assert (Hn : n = 1%nat \/ n = 2%nat \/ n = 3%nat) by (destruct Hdim as [->|[->| ->]]; auto).
  assert (Hbox : forall i, (i < n)%nat -> (cm_min cn i <= cm_max cn i)%R).
  { intros i _. pose proof (so_box _ _ _ Hs b Hb i). lra. }
  apply (proj1 (C57_sphere_box n (cm_min cn) (cm_max cn) c r Hr Hn Hbox)).
  destruct (proj2 (balls_meet n c (r / 2) (b_pos b) (b_rad b / 2) ltac:(lra) ltac:(lra)) ltac:(lra)) as (x & H1 & H2).
  exists x. split.
  - unfold ball in *. lra.
  - intros i Hi. pose proof (so_box _ _ _ Hs b Hb i) as [G1 G2]. unfold ball in H2.
    pose proof (coord_le_dist n x (b_pos b) i Hi) as H3. apply Rabs_le_between in H3 || apply Rabs_def2b in H3 || idtac.
    assert (- (b_rad b / 2) <= x i - b_pos b i <= b_rad b / 2)%R.
    { split; [|]; [pose proof (Rle_abs (- (x i - b_pos b i))) as Q; rewrite Rabs_Ropp in Q|pose proof (Rle_abs (x i - b_pos b i)) as Q]; lra. }
    lra.
Qed.

Lemma near_boxes cn1 ps1 cn2 ps2 b1 b2 : summary_ok n cn1 ps1 -> summary_ok n cn2 ps2 -> In b1 ps1 -> In b2 ps2 ->
  (dist n (b_pos b1) (b_pos b2) <= (b_rad b1 + b_rad b2) / 2)%R ->
  intersects_box_box n (cm_min cn1) (cm_max cn1) (cm_min cn2) (cm_max cn2) = true.
Proof.
  intros Hs1 Hs2 Hb1 Hb2 Hd. apply box_box_true. intros i Hi.
  pose proof (so_box _ _ _ Hs1 b1 Hb1 i). pose proof (so_box _ _ _ Hs2 b2 Hb2 i).
  pose proof (coord_le_dist n (b_pos b1) (b_pos b2) i Hi) as H3.
  pose proof (Rle_abs (- (b_pos b1 i - b_pos b2 i))) as Q1. rewrite Rabs_Ropp in Q1.
  pose proof (Rle_abs (b_pos b1 i - b_pos b2 i)) as Q2. lra.
Qed.

Lemma sph_cell_ok cur p tr nbs : okt (p, tr) -> cur_ok cur nbs ->
  exists q nbs', sph_cell dim t cofms bodies cur p nbs = Some (map fst q, nbs') /\ Forall okt q /\
    (S (size q) <= length (cells dim p tr))%nat /\ ext (leaves tr) (lv q) nbs nbs'.
Proof using Hdim Hmass Hrad.
  intros Hp [Hlen Hcur]. destruct tr as [i|k ch].
  - destruct (leaf_facts dim t cofms bodies p i Hp) as (c & Hc & Hn & He & _ & Hi).
    unfold sph_cell. rewrite Hc, Hn, He. cbn [fst snd]. exists [].
    assert (Hpass : forall x, In x nbs -> near_mean (fst x) i -> match cur with
       | Some cn => negb (within_distance2 n (b_pos (gb i)) (cm_pos cn) (Rmax (b_rad (gb i)) (cm_lap cn) + cm_rad cn))
       | None => false end = false).
    { intros x Hx Hnear. destruct cur as [cn|]; [|reflexivity]. destruct Hcur as (G & Hs & HG).
      apply negb_false_iff. unfold within_distance2. rewrite Rleb_true.
      assert (Hb : In (gb (fst x)) (map gb G)) by (apply in_map, HG, Hx).
      pose proof (so_rad _ _ _ Hs _ Hb). pose proof (so_lap _ _ _ Hs _ Hb). pose proof (so_rad0 _ _ _ Hs). pose proof (so_lap0 _ _ _ Hs).
      pose proof (dist_nonneg n (cm_pos cn) (b_pos (gb (fst x)))).
      pose proof (dist_triangle n (cm_pos cn) (b_pos (gb (fst x))) (b_pos (gb i))).
      pose proof (mean_le_max (b_rad (gb (fst x))) (b_rad (gb i))). unfold near_mean in Hnear.
      assert (Rmax (b_rad (gb (fst x))) (b_rad (gb i)) <= Rmax (b_rad (gb i)) (cm_lap cn))%R.
      { unfold Rmax. destruct (Rle_dec (b_rad (gb (fst x))) (b_rad (gb i))), (Rle_dec (b_rad (gb i)) (cm_lap cn)); lra. }
      rewrite dist2_sym. apply dist_le_iff; [|lra]. pose proof (Rmax_r (b_rad (gb i)) (cm_lap cn)). lra. }
    match goal with |- context [if ?b then Some ([], nbs) else _] => destruct b eqn:Ecur end.
    + exists nbs. split; [reflexivity|]. split; [constructor|]. split; [cbn; lia|].
      apply ext_skip. cbn [leaves]. intros x e Hx [<-|[]] Hnear. specialize (Hpass x Hx Hnear). discriminate.
    + eexists. split; [reflexivity|]. split; [constructor|]. split; [cbn; lia|].
      cbn [leaves lv flat_map]. clear Hpass Ecur Hcur. unfold ext. induction nbs as [|x nbs IH]; cbn [map]; constructor.
      * assert (Hx : (fst x < length bodies)%nat) by (apply Hlen; left; reflexivity).
        assert (Hm0 : (0 <= Rmax (b_rad (gb (fst x))) (b_rad (gb i)))%R).
        { apply Rmax_nonneg, Hrad, get_body_in, Hi. }
        destruct (within_distance2 _ _ _ _) eqn:Ew; cbn [fst snd].
        -- split; [reflexivity|]. exists [i], []. split; [reflexivity|]. split; [apply Permutation_refl|]. split; [|intros e []].
           intros e [<-|[]]. unfold near_max. apply dist_le_iff; [assumption|]. apply Rleb_true. exact Ew.
        -- split; [reflexivity|]. exists [], [i]. rewrite app_nil_r. split; [reflexivity|]. split; [apply Permutation_refl|]. split; [intros e []|].
           intros e [<-|[]] Hnear. unfold near_mean in Hnear. unfold within_distance2 in Ew. apply Rleb_false in Ew.
           apply Rlt_not_le in Ew. apply Ew. apply dist_le_iff; [assumption|].
           eapply Rle_trans; [exact Hnear|apply mean_le_max].
      * apply IH. intros y Hy. apply Hlen. right. assumption.
  - destruct (node_facts dim Hdim t cofms bodies Hmass p k ch Hp) as (c & s & Hc & Hn & Hs & Hsum & Hk & Hkids & _ & Hemp & Hne).
    unfold sph_cell. rewrite Hc, Hn, Hs.
    assert (Hb : forall e, In e (leaves (Node k ch)) -> In (gb e) (map gb (leaves (Node k ch)))) by (intros; apply in_map; assumption).
    assert (Hlt : forall e, In e (leaves (Node k ch)) -> (e < length bodies)%nat) by (intros; apply Hp; assumption).
    assert (Hs0 : (1 <= length (cells dim p (Node k ch)))%nat) by apply size_pos.
    match goal with |- context [if ?b then Some ([], nbs) else _] => destruct b eqn:Ecur end.
    + exists [], nbs. split; [reflexivity|]. split; [constructor|]. split; [exact Hs0|].
      apply ext_skip. intros x e Hx He Hnear. destruct cur as [cn|]; [|discriminate]. destruct Hcur as (G & HG & HG').
      apply negb_true_iff in Ecur.
      rewrite (near_boxes s _ cn _ (gb e) (gb (fst x)) Hsum HG (Hb e He) (in_map _ _ _ (HG' x Hx))) in Ecur; [discriminate|].
      unfold near_mean in Hnear. rewrite dist_sym. lra.
    + destruct (existsb _ nbs) eqn:Eex.
      * rewrite Hemp, Hk. exists (kids p ch), nbs. split; [reflexivity|]. split; [assumption|].
        split; [rewrite size_node; lia|]. unfold lv. rewrite kids_leaves. apply ext_keep.
      * exists [], nbs. split; [reflexivity|]. split; [constructor|]. split; [exact Hs0|].
        apply ext_skip. intros x e Hx He Hnear.
        assert (E : intersects_sphere_box n (cm_min s) (cm_max s) (b_pos (gb (fst x))) (b_rad (gb (fst x))) = true).
        { apply (near_box s _ (gb e) _ _ Hsum (Hb e He)); [apply Hrad, get_body_in, Hlt, He|apply Hrad, get_body_in, Hlen, Hx|exact Hnear]. }
        pose proof (proj1 (existsb_false _ _) Eex x Hx) as E'. cbv beta zeta in E'. rewrite E in E'. discriminate.
Qed.

Lemma sph_level_ok cur : forall q nbs, Forall okt q -> cur_ok cur nbs ->
  exists q' nbs', sph_level dim t cofms bodies cur (map fst q) nbs = Some (map fst q', nbs') /\ Forall okt q' /\
    (size q' + length q <= size q)%nat /\ ext (lv q) (lv q') nbs nbs'.
Proof using Hdim Hmass Hrad.
  induction q as [|[p tr] q IH]; intros nbs Hq Hcur.
  - exists [], nbs. cbn. repeat split; auto. apply ext_keep.
  - inversion Hq as [|? ? Hp Hq']; subst. cbn [map fst sph_level].
    destruct (sph_cell_ok cur p tr nbs Hp Hcur) as (q1 & nbs1 & E1 & Hok1 & Hs1 & Hx1). rewrite E1. cbn [fst snd].
    destruct (IH nbs1 Hq') as (q2 & nbs2 & E2 & Hok2 & Hs2 & Hx2).
    { eapply cur_ok_fst; [|exact Hcur]. eapply ext_fst. exact Hx1. }
    rewrite E2. cbn [fst snd]. exists (q1 ++ q2), nbs2. rewrite map_app. split; [reflexivity|].
    split; [apply Forall_app; auto|]. split.
    + rewrite size_app, size_cons. cbn [length fst snd]. lia.
    + unfold lv. rewrite flat_map_app. cbn [flat_map snd]. eapply ext_par; [exact Hx1|exact Hx2].
Qed.

Lemma sph_queue_ok cur : forall fuel q nbs, Forall okt q -> cur_ok cur nbs -> (size q <= fuel)%nat ->
  exists nbs', sph_queue dim t cofms bodies fuel cur (map fst q) nbs = Some nbs' /\ ext (lv q) [] nbs nbs'.
Proof using Hdim Hmass Hrad.
  induction fuel as [|fuel IH]; intros q nbs Hq Hcur Hf.
  - destruct q as [|[p tr] q].
    + exists nbs. split; [reflexivity|apply ext_keep].
    + rewrite size_cons in Hf. pose proof (size_pos dim p tr). cbn [fst snd] in Hf. lia.
  - destruct q as [|x q]; [exists nbs; split; [reflexivity|apply ext_keep]|].
    destruct (sph_level_ok cur (x :: q) nbs Hq Hcur) as (q' & nbs1 & E1 & Hok1 & Hs1 & Hx1).
    cbn [sph_queue map]. change (fst x :: map fst q) with (map fst (x :: q)). rewrite E1. cbn [fst snd].
    destruct (IH q' nbs1 Hok1) as (nbs2 & E2 & Hx2).
    { eapply cur_ok_fst; [|exact Hcur]. eapply ext_fst. exact Hx1. }
    { cbn [length] in Hs1. lia. }
    exists nbs2. split; [exact E2|]. eapply ext_seq; eauto.
Qed.

(** ** the target cells *)
Fixpoint cov (sent : nat) (p : N) (tr : tree) : list (N * tree) :=
  match tr with
  | Leaf _ => [(p, tr)]
  | Node _ ch => if (sent <? length (leaves tr))%nat then flat_map (fun x => cov sent (p * B + fst x) (snd x)) ch
                 else [(p, tr)]
  end.

Lemma cov_kids sent p k ch : (sent <? length (leaves (Node k ch)))%nat = true ->
  cov sent p (Node k ch) = flat_map (fun x => cov sent (fst x) (snd x)) (kids p ch).
Proof.
  intros H. cbn [cov]. cbn [leaves] in *. rewrite H. unfold Search_proofs.kids.
  rewrite !flat_map_concat_map, map_map. reflexivity.
Qed.

Lemma cov_leaves sent tr : forall p, lv (cov sent p tr) = leaves tr.
Proof.
  induction tr as [i|k ch IH] using tree_ind'; intros p; [reflexivity|].
  cbn [cov]. destruct (_ <? _)%nat; [|unfold lv; cbn; rewrite app_nil_r; reflexivity].
  cbn [leaves]. unfold lv. induction ch as [|x ch IHc]; [reflexivity|]. inversion IH; subst. cbn [flat_map].
  rewrite flat_map_app. f_equal; [apply H1|auto].
Qed.

Lemma cov_ok sent tr : forall p, okt (p, tr) -> Forall okt (cov sent p tr).
Proof using Hdim Hmass.
  induction tr as [i|k ch IH] using tree_ind'; intros p Hp; [constructor; [assumption|constructor]|].
  destruct (sent <? length (leaves (Node k ch)))%nat eqn:E.
  - rewrite cov_kids by assumption.
    destruct (node_facts dim Hdim t cofms bodies Hmass p k ch Hp) as (_ & _ & _ & _ & _ & _ & _ & Hkids & _).
    unfold Search_proofs.kids in *. clear Hp E. induction ch as [|x ch IHc]; [constructor|].
    inversion IH; subst. inversion Hkids; subst. cbn [map flat_map fst snd]. apply Forall_app. split; auto.
  - cbn [cov]. cbn [leaves] in *. rewrite E. constructor; [assumption|constructor].
Qed.

Lemma cells_ok sent fuel p tr : okt (p, tr) -> (size [(p, tr)] <= fuel)%nat ->
  exists ks, walk dim t fuel (cells_func dim cofms sent) [p] [] = Some ks /\
    Permutation ks (map fst (cov sent p tr)).
Proof using Hdim Hmass.
  intros Hp Hf.
  destruct (walk_spec dim Hdim t cofms bodies Hmass (cells_func dim cofms sent) (fun x => map fst (cov sent (fst x) (snd x))))
    with (fuel := fuel) (stk := [(p, tr)]) (acc := @nil N) as (l & E & HP); auto.
  - intros p' i c acc Hp' Hc. destruct (leaf_facts dim t cofms bodies p' i Hp') as (c' & Hc' & Hn & _ & Hsh & _).
    rewrite Hc in Hc'. injection Hc' as <-. unfold cells_func. rewrite Hn, Hsh. exists [p']. split; [reflexivity|]. apply Permutation_refl.
  - intros p' k ch c acc Hp' Hc.
    destruct (node_facts dim Hdim t cofms bodies Hmass p' k ch Hp') as (c' & s & Hc' & Hn & Hs & Hsum & _ & _ & Hsh & _).
    rewrite Hc in Hc'. injection Hc' as <-. unfold cells_func. rewrite Hn, Hs, Hsh. cbn [orb].
    rewrite (so_sub _ _ _ Hsum), map_length. cbn [fst snd].
    destruct (sent <? length (leaves (Node k ch)))%nat eqn:Es.
    + left. split; [reflexivity|]. rewrite cov_kids by assumption.
      rewrite !flat_map_concat_map, concat_map, map_map. apply Permutation_refl.
    + right. exists [p']. split; [reflexivity|]. cbn [cov]. cbn [leaves] in *. rewrite Es. apply Permutation_refl.
  - exists l. cbn [map fst app] in E. split; [exact E|]. rewrite HP. cbn. rewrite app_nil_r. apply Permutation_refl.
Qed.

Lemma group_ok fuel p tr : okt (p, tr) -> (size [(p, tr)] <= fuel)%nat ->
  exists l, walk dim t fuel (group_func dim bodies) [p] [] = Some l /\ Permutation l (leaves tr).
Proof using Hdim Hmass.
  intros Hp Hf.
  destruct (walk_spec dim Hdim t cofms bodies Hmass (group_func dim bodies) (fun x => leaves (snd x)))
    with (fuel := fuel) (stk := [(p, tr)]) (acc := @nil nat) as (l & E & HP); auto.
  - intros p' i c acc Hp' Hc. destruct (leaf_facts dim t cofms bodies p' i Hp') as (c' & Hc' & Hn & He & Hsh & _).
    rewrite Hc in Hc'. injection Hc' as <-. unfold group_func. rewrite Hn, Hsh, He. exists [i]. split; [reflexivity|]. apply Permutation_refl.
  - intros p' k ch c acc Hp' Hc.
    destruct (node_facts dim Hdim t cofms bodies Hmass p' k ch Hp') as (c' & s & Hc' & Hn & _).
    rewrite Hc in Hc'. injection Hc' as <-. unfold group_func. rewrite Hn. left. split; [reflexivity|].
    rewrite kids_leaves. apply Permutation_refl.
  - exists l. cbn [map fst app] in E. split; [exact E|]. rewrite HP. cbn. rewrite app_nil_r. apply Permutation_refl.
Qed.

(** What one target gets. *)
Definition nb_ok (L : list nat) (x : nat * list nat) : Prop :=
  exists rest, Permutation (snd x ++ rest) L /\ (forall e, In e (snd x) -> near_max (fst x) e) /\
    (forall e, In e rest -> ~ near_mean (fst x) e).

Lemma ext_nb_ok L es nbs' : ext L [] (map (fun i => (i, [])) es) nbs' -> map fst nbs' = es /\ Forall (nb_ok L) nbs'.
Proof.
  intros H. split.
  - rewrite (ext_fst _ _ _ _ H), map_map. cbn [fst]. apply map_id.
  - remember (map (fun i => (i, [])) es) as a eqn:Ea. revert es Ea. induction H as [|x y a b Hxy H IH]; intros es Ea; constructor.
    + destruct es as [|i es]; [discriminate|]. injection Ea as -> ->.
      destruct Hxy as (E & l & rest & El & HP & H1 & H2). cbn [fst snd app] in *. rewrite app_nil_r in HP.
      exists rest. rewrite E, El. auto.
    + destruct es as [|i es]; [discriminate|]. injection Ea as -> ->. eapply IH. reflexivity.
Qed.

Variable root : tree.
Hypothesis Hroot : okt (1, root).

Lemma target_ok fuel p tr : okt (p, tr) -> (size [(p, tr)] <= fuel)%nat -> (size [(1%N, root)] <= fuel)%nat ->
  exists out, sph_target dim t cofms bodies fuel p = Some out /\
    Permutation (map fst out) (leaves tr) /\ Forall (nb_ok (leaves root)) out.
Proof using Hdim Hmass Hrad Hroot.
  intros Hp Hf Hfr. destruct tr as [i|k ch].
  - destruct (leaf_facts dim t cofms bodies p i Hp) as (c & Hc & Hn & He & _ & Hi).
    unfold sph_target. rewrite Hc, Hn, He. cbn [fst].
    destruct (sph_queue_ok None fuel [(1, root)] [(i, [])]) as (out & E & Hx); auto.
    { split; [|exact I]. intros x [<-|[]]. exact Hi. }
    exists out. split; [exact E|]. cbn [lv flat_map snd] in Hx. rewrite app_nil_r in Hx.
    change [(i, @nil nat)] with (map (fun i => (i, @nil nat)) [i]) in Hx.
    destruct (ext_nb_ok _ _ _ Hx) as [H1 H2]. rewrite H1. split; [apply Permutation_refl|assumption].
  - destruct (node_facts dim Hdim t cofms bodies Hmass p k ch Hp) as (c & s & Hc & Hn & Hs & Hsum & _).
    unfold sph_target. rewrite Hc, Hn.
    destruct (group_ok fuel p (Node k ch) Hp Hf) as (es & Ee & HP). rewrite Ee, Hs.
    destruct (sph_queue_ok (Some s) fuel [(1, root)] (map (fun i => (i, [])) es)) as (out & E & Hx); auto.
    { split.
      - intros x Hx. apply in_map_iff in Hx. destruct Hx as (i & <- & Hi). cbn [fst].
        apply (Permutation_in _ HP) in Hi. apply Hp. exact Hi.
      - exists (leaves (Node k ch)). split; [assumption|]. intros x Hx. apply in_map_iff in Hx.
        destruct Hx as (i & <- & Hi). cbn [fst]. apply (Permutation_in _ HP). assumption. }
    exists out. split; [exact E|]. cbn [lv flat_map snd] in Hx. rewrite app_nil_r in Hx.
    destruct (ext_nb_ok _ _ _ Hx) as [H1 H2]. rewrite H1. split; assumption.
Qed.

Lemma targets_ok fuel : forall cs, Forall okt cs -> (forall x, In x cs -> (size [x] <= fuel)%nat) -> (size [(1%N, root)] <= fuel)%nat ->
  exists out, sph_targets dim t cofms bodies fuel (map fst cs) = Some out /\
    Permutation (map fst out) (lv cs) /\ Forall (nb_ok (leaves root)) out.
Proof using Hdim Hmass Hrad Hroot.
  induction cs as [|[p tr] cs IH]; intros Hok Hf Hfr.
  - exists []. repeat split; constructor.
  - inversion Hok as [|? ? Hp Hcs]; subst. cbn [map fst sph_targets].
    destruct (target_ok fuel p tr Hp) as (o1 & E1 & P1 & F1); [apply Hf; left; reflexivity|assumption|]. rewrite E1.
    destruct (IH Hcs) as (o2 & E2 & P2 & F2); [intros; apply Hf; right; assumption|assumption|]. rewrite E2.
    exists (o1 ++ o2). split; [reflexivity|]. split; [|apply Forall_app; auto].
    rewrite map_app. unfold lv. cbn [flat_map snd]. apply Permutation_app; assumption.
Qed.

Lemma cov_size sent tr : forall p x, In x (cov sent p tr) -> (size [x] <= size [(p, tr)])%nat.
Proof.
  induction tr as [i|k ch IH] using tree_ind'; intros p x Hx.
  - destruct Hx as [<-|[]]. lia.
  - destruct (sent <? length (leaves (Node k ch)))%nat eqn:E.
    + rewrite cov_kids in Hx by assumption. apply in_flat_map in Hx. destruct Hx as (y & Hy & Hx).
      assert (Hle : (size [y] <= size (kids p ch))%nat).
      { clear - Hy. induction (kids p ch) as [|z l IHl]; [destruct Hy|]. rewrite (size_cons dim z l).
        destruct Hy as [->|Hy].
        - rewrite size_cons. change (size []) with 0%nat. lia.
        - specialize (IHl Hy). lia. }
      unfold Search_proofs.kids in Hy. apply in_map_iff in Hy. destruct Hy as (z & <- & Hz). cbn [fst snd] in *.
      rewrite Forall_forall in IH. specialize (IH z Hz _ _ Hx). rewrite (size_cons dim (p, Node k ch)). cbn [fst snd].
      rewrite size_node. lia.
    + cbn [cov leaves] in *. rewrite E in Hx. destruct Hx as [<-|[]]. lia.
Qed.

Lemma traversal_sph_ok fuel : (size [(1%N, root)] <= fuel)%nat ->
  exists out, traversal_sph dim t cofms bodies fuel = Some out /\
    Permutation (map fst out) (leaves root) /\ Forall (nb_ok (leaves root)) out.
Proof using Hdim Hmass Hrad Hroot.
  intros Hf. unfold traversal_sph.
  destruct (cells_ok sub_entities_limit fuel 1 root Hroot Hf) as (ks & E & HP).
  change key_root with 1. rewrite E. apply Permutation_map_inv in HP. destruct HP as (cs & -> & HP).
  destruct (targets_ok fuel cs) as (out & E2 & P2 & F2).
  - eapply Permutation_Forall; [exact HP|]. apply cov_ok. assumption.
  - intros x Hx. eapply Nat.le_trans; [|exact Hf]. eapply cov_size. eapply Permutation_in; [apply Permutation_sym, HP|exact Hx].
  - assumption.
  - exists out. split; [exact E2|]. split; [|assumption]. rewrite P2, <- (cov_leaves sub_entities_limit root 1).
    unfold lv. apply Permutation_flat_map, Permutation_sym, HP.
Qed.
End Sph.
