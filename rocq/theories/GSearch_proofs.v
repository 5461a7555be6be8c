(** Traversals of a built tree for any summaries and tests (the arguments of
    Search_proofs.v and Search_sph.v with the facts about summaries and tests as
    hypotheses). *)
From Coq Require Import Sorted Permutation.
From Verif Require Import Base Key_model Key_spec Key_proofs HCell_model HCell_props BuildTree_model BuildTree_spec BuildTree_lemmas
  BuildTree_inv BuildTree_shape BuildTree_props Vec Geometry_model Geometry_props Cofm_model Cofm_spec Cofm_proofs Search_model
  Search_proofs GSearch_model.
Local Open Scope N_scope.

Section GSearch.
Variable dim : N.
Hypothesis Hdim : dim_ok dim.
Variables (T : tests) (t : table) (cofms : list cofm) (bodies : list body).
Variable fcc : N -> list nat -> list cofm -> cofm.
Notation B := (2 ^ dim).
Notation n := (N.to_nat dim).
Notation gb := (get_body bodies).
Notation kids := (kids dim).
Notation size := (size dim).

Definition okt (x : N * tree) : Prop :=
  good dim fcc t cofms x /\ ne (snd x) /\ forall i, In i (leaves (snd x)) -> (i < length bodies)%nat.

(** What the summary of a node says about the particles below it. *)
Variable Sum : cofm -> list nat -> Prop.
Hypothesis HSum : forall p k ch s, okt (p, Node k ch) -> eval fcc (Node k ch) = inr s -> Sum s (leaves (Node k ch)).
Lemma leaf_facts p i : okt (p, Leaf i) -> exists c, tfind t p = Some c /\ is_node c = Some false /\
  get_entity bodies c = Some (i, gb i) /\ is_shared dim (c_word c) = false /\ (i < length bodies)%nat.
Proof.
  intros [[Hh _] [_ Hl]]. cbn [fst snd holds] in Hh. destruct Hh as (c & Hc & He & Hn & Hw).
  specialize (Hl i (or_introl eq_refl)). exists c. unfold is_node, get_entity. rewrite Hn, He, (get_body_ok bodies i Hl).
  repeat split; auto. apply low_bits. intros d Hd. rewrite Hw in Hd. discriminate.
Qed.

Lemma node_facts p k ch : okt (p, Node k ch) -> exists c s, tfind t p = Some c /\ is_node c = Some true /\
  get_node cofms c = Some s /\ Sum s (leaves (Node k ch)) /\
  child_keys dim t p (c_word c) (digits dim) = Some (map fst (kids p ch)) /\
  Forall okt (kids p ch) /\ is_shared dim (c_word c) = false /\ is_empty_node dim (c_word c) = false /\ ch <> [].
Proof.
  intros Hall. pose proof Hall as [Hg [[Hne Hnc] Hl]]. cbn [fst snd] in *.
  destruct (good_children dim fcc t cofms p k ch Hg) as [Hch Hlv].
  destruct Hg as [Hh _]. cbn [fst snd holds] in Hh.
  destruct Hh as (-> & (c & j & s & Hc & He & Hn & Hs & Hev & Hdig & Hbits) & Hh).
  apply fold_and_Forall in Hh. apply fold_and_Forall in Hnc. exists c, s.
  assert (Hlow : forall d, N.testbit (c_word c) d = true -> d < B).
  { intros d Hd. apply Hbits in Hd. rewrite Hdig in Hd. apply filter_In in Hd. apply (digits_in dim). tauto. }
  destruct (low_bits dim (c_word c) Hlow) as [Hsh Hrecv].
  split; [assumption|]. split; [unfold is_node; rewrite Hn; reflexivity|].
  split; [unfold get_node; rewrite Hn; assumption|].
  split; [eapply HSum; [exact Hall|assumption]|].
  split; [|split; [|split; [assumption|split; [|assumption]]]].
  - rewrite (child_keys_ok dim Hdim).
    + rewrite <- Hdig. unfold Search_proofs.kids. rewrite !map_map. reflexivity.
    + intros d Hd. rewrite <- Hdig in Hd. split.
      * rewrite Hdig in Hd. apply filter_In in Hd. apply (digits_in dim). tauto.
      * apply in_map_iff in Hd. destruct Hd as (x & <- & Hx). rewrite Forall_forall in Hh.
        eapply holds_found. apply Hh. assumption.
    + intros _. apply Hlv. assumption.
  - unfold Search_proofs.kids. apply Forall_forall. intros y Hy. apply in_map_iff in Hy. destruct Hy as (x & <- & Hx).
    rewrite Forall_forall in Hch, Hnc. split; [|split].
    + apply Hch. unfold Search_proofs.kids. apply in_map_iff. eauto.
    + apply (Hnc x Hx).
    + cbn [snd]. intros i Hi. apply Hl. cbn [leaves]. apply in_flat_map. eauto.
  - unfold is_empty_node. rewrite Hrecv. rewrite (proj2 (N.ltb_ge _ _) (N.le_0_l _)), orb_false_r.
    apply negb_false_iff. unfold has_child. apply negb_true_iff. apply N.eqb_neq. intros E0.
    destruct ch as [|[d tr] ch]; [congruence|].
    assert (Hd : N.testbit (c_word c) d = true) by (apply Hbits; left; reflexivity).
    assert (Ht : N.testbit (N.land (c_word c) (N.shiftl 1 (N.shiftl 1 dim) - 1)) d = true).
    { rewrite N.land_spec, Hd. cbn [andb]. rewrite !N.shiftl_1_l, N.sub_1_r, <- N.ones_equiv.
      apply N.ones_spec_low. apply Hlow. assumption. }
    rewrite E0, N.bits_0 in Ht. discriminate.
Qed.

(** A traversal appends, up to order, what [out] says for each visited tree. *)
Lemma walk_spec {A} (func : N -> cell -> list A -> option (bool * list A)) (out : N * tree -> list A) :
  (forall p i c acc, okt (p, Leaf i) -> tfind t p = Some c -> 
     exists l, func p c acc = Some (false, acc ++ l) /\ Permutation l (out (p, Leaf i))) ->
  (forall p k ch c acc, okt (p, Node k ch) -> tfind t p = Some c ->
     (func p c acc = Some (true, acc) /\ Permutation (flat_map out (kids p ch)) (out (p, Node k ch))) \/
     exists l, func p c acc = Some (false, acc ++ l) /\ Permutation l (out (p, Node k ch))) ->
  forall fuel stk acc, Forall okt stk -> (size stk <= fuel)%nat ->
  exists l, walk dim t fuel func (map fst stk) acc = Some (acc ++ l) /\ Permutation l (flat_map out stk).
Proof using Hdim HSum.
  intros HL HN. induction fuel as [|fuel IH]; intros stk acc Hok Hf.
  - destruct stk as [|[p tr] stk]; [exists []; rewrite app_nil_r; split; [reflexivity|constructor]|].
    rewrite size_cons in Hf. pose proof (size_pos dim p tr). cbn [fst snd] in Hf. lia.
  - destruct stk as [|[p tr] stk]; [exists []; rewrite app_nil_r; split; [reflexivity|constructor]|].
    inversion Hok as [|? ? Hp Hstk]; subst. rewrite size_cons in Hf. cbn [fst snd] in Hf.
    assert (SK : forall c l, tfind t p = Some c -> func p c acc = Some (false, acc ++ l) ->
      Permutation l (out (p, tr)) ->
      exists l0, walk dim t (S fuel) func (map fst ((p, tr) :: stk)) acc = Some (acc ++ l0) /\
        Permutation l0 (flat_map out ((p, tr) :: stk))).
    { intros c l Hc E HP. cbn [map fst walk]. rewrite Hc, E. cbn [fst snd].
      destruct (IH stk (acc ++ l) Hstk) as (l' & E' & HP'); [pose proof (size_pos dim p tr); lia|].
      rewrite E'. exists (l ++ l'). rewrite app_assoc. split; [reflexivity|]. cbn [flat_map]. apply Permutation_app; assumption. }
    destruct tr as [i|k ch].
    + destruct (leaf_facts p i Hp) as (c & Hc & _).
      destruct (HL p i c acc Hp Hc) as (l & E & HP). eapply SK; eauto.
    + destruct (node_facts p k ch Hp) as (c & s & Hc & _ & _ & _ & Hk & Hkids & _).
      destruct (HN p k ch c acc Hp Hc) as [[E HP]|(l & E & HP)]; [|eapply SK; eauto].
      cbn [map fst walk]. rewrite Hc, E. cbn [fst snd]. rewrite Hk.
      assert (E1 : rev (map fst (kids p ch)) ++ map fst stk = map fst (rev (kids p ch) ++ stk)).
      { rewrite map_app, map_rev. reflexivity. }
      rewrite E1. destruct (IH (rev (kids p ch) ++ stk) acc) as (l & E2 & HP2).
      * apply Forall_app. split; [apply Forall_rev; assumption|assumption].
      * rewrite size_app, size_rev. rewrite size_node in Hf. lia.
      * rewrite E2. exists l. split; [reflexivity|]. rewrite HP2, flat_map_app. cbn [flat_map].
        apply Permutation_app_tail. rewrite <- HP. apply Permutation_flat_map, Permutation_sym, Permutation_rev.
Qed.


(** ** radius search: [hit] are the particles the test accepts, and the test of a
    node holds when there is one below that must be found *)
Lemma gfind_spec center radius (must : nat -> Prop) fuel stk acc :
  (forall s L e, Sum s L -> In e L -> (e < length bodies)%nat -> must e -> t_fnode T s center radius = true) ->
  (forall e, (e < length bodies)%nat -> must e -> t_fent T center radius (gb e) = true) ->
  Forall okt stk -> (size stk <= fuel)%nat ->
  exists l rest, walk dim t fuel (gfind_func T cofms bodies center radius) (map fst stk) acc = Some (acc ++ l) /\
    Permutation (l ++ rest) (flat_map (fun x => leaves (snd x)) stk) /\
    (forall e, In e l -> t_fent T center radius (gb e) = true) /\ (forall e, In e rest -> ~ must e).
Proof using Hdim HSum.
  intros Hn He. revert stk acc. induction fuel as [|fuel IH]; intros stk acc Hok Hf.
  - destruct stk as [|[p tr] stk].
    + exists [], []. rewrite app_nil_r. repeat split; [constructor|intros e []|intros e []].
    + rewrite size_cons in Hf. pose proof (size_pos dim p tr). cbn [fst snd] in Hf. lia.
  - destruct stk as [|[p tr] stk].
    { exists [], []. rewrite app_nil_r. repeat split; [constructor|intros e []|intros e []]. }
    inversion Hok as [|? ? Hp Hstk]; subst. rewrite size_cons in Hf. cbn [fst snd] in Hf. pose proof (size_pos dim p tr) as Hsz.
    destruct tr as [i|k ch].
    + destruct (leaf_facts p i Hp) as (c & Hc & Hnd & Hent & _ & Hi). cbn [map fst walk]. rewrite Hc. unfold gfind_func at 1. rewrite Hnd, Hent. cbn [fst snd].
      destruct (t_fent T center radius (gb i)) eqn:Et.
      * destruct (IH stk (acc ++ [i]) Hstk ltac:(lia)) as (l & rest & E & HP & A1 & A2). rewrite E. exists (i :: l), rest.
        split; [rewrite <- app_assoc; reflexivity|]. split; [cbn [flat_map snd leaves app]; constructor; exact HP|].
        split; [|exact A2]. intros e [<-|H]; [exact Et|auto].
      * destruct (IH stk acc Hstk ltac:(lia)) as (l & rest & E & HP & A1 & A2). rewrite E. exists l, (i :: rest).
        split; [reflexivity|]. split.
        -- cbn [flat_map snd leaves app]. rewrite <- HP. apply Permutation_sym, Permutation_middle.
        -- split; [exact A1|]. intros e [<-|H]; [|auto]. intros M. rewrite (He i Hi M) in Et. discriminate.
    + destruct (node_facts p k ch Hp) as (c & s & Hc & Hnd & Hs & Hsum & Hk & Hkids & _). cbn [map fst walk]. rewrite Hc. unfold gfind_func at 1. rewrite Hnd, Hs. cbn [fst snd].
      destruct (t_fnode T s center radius) eqn:Et.
      * rewrite Hk. assert (E1 : rev (map fst (kids p ch)) ++ map fst stk = map fst (rev (kids p ch) ++ stk)) by (rewrite map_app, map_rev; reflexivity).
        rewrite E1. destruct (IH (rev (kids p ch) ++ stk) acc) as (l & rest & E2 & HP & A1 & A2).
        -- apply Forall_app. split; [apply Forall_rev; assumption|assumption].
        -- rewrite size_app, size_rev. rewrite size_node in Hf. lia.
        -- exists l, rest. split; [exact E2|]. split; [|auto]. rewrite HP, flat_map_app. cbn [flat_map]. apply Permutation_app_tail.
           change (leaves (snd (p, Node k ch))) with (flat_map (fun x : N * tree => leaves (snd x)) ch). rewrite <- (kids_leaves dim p ch). apply Permutation_flat_map, Permutation_sym, Permutation_rev.
      * destruct (IH stk acc Hstk ltac:(lia)) as (l & rest & E & HP & A1 & A2). rewrite E. exists l, (leaves (Node k ch) ++ rest).
        split; [reflexivity|]. split.
        -- cbn [flat_map]. rewrite <- HP. apply Permutation_app_swap_app.
        -- split; [exact A1|]. intros e H. apply in_app_or in H. destruct H as [H|H]; [|auto]. intros M.
           rewrite (Hn s _ e Hsum H) in Et; [discriminate| |exact M]. apply Hp. exact H.
Qed.

(** ** the SPH search *)
Hypothesis Hsub : forall s L, Sum s L -> cm_sub s = length L.
Variables (near close : nat -> nat -> Prop).
Hypothesis Hleaf1 : forall i e, (i < length bodies)%nat -> (e < length bodies)%nat -> t_leaf T (gb i) (gb e) = true -> near i e.
Hypothesis Hleaf2 : forall i e, (i < length bodies)%nat -> (e < length bodies)%nat -> close i e -> t_leaf T (gb i) (gb e) = true.
Hypothesis Hbox : forall s L cn L' i e, Sum s L -> Sum cn L' -> In e L -> In i L' -> (i < length bodies)%nat -> (e < length bodies)%nat ->
  close i e -> t_box T s cn = true.
Hypothesis Hsph : forall s L i e, Sum s L -> In e L -> (i < length bodies)%nat -> (e < length bodies)%nat -> close i e -> t_sph T s (gb i) = true.
Hypothesis Hent : forall cn L' i e, Sum cn L' -> In i L' -> (i < length bodies)%nat -> (e < length bodies)%nat -> close i e -> t_ent T (gb e) cn = true.
Definition lv (q : list (N * tree)) : list nat := flat_map (fun x => leaves (snd x)) q.

(** [nbs'] extends [nbs]: of the particles [L], those in [Rm] are still to be
    looked at, the others are either added, being near, or dropped, not being
    near. *)
Definition ext (L Rm : list nat) (nbs nbs' : list (nat * list nat)) : Prop :=
  Forall2 (fun x y => fst y = fst x /\ exists l rest, snd y = snd x ++ l /\ Permutation (l ++ rest ++ Rm) L /\
    (forall e, In e l -> near (fst x) e) /\ (forall e, In e rest -> ~ close (fst x) e)) nbs nbs'.

Lemma ext_fst L Rm a b : ext L Rm a b -> map fst b = map fst a.
Proof. induction 1 as [|x y a b [E _] H IH]; cbn; [reflexivity|]. rewrite E, IH. reflexivity. Qed.

Lemma ext_par L1 R1 L2 R2 a b c : ext L1 R1 a b -> ext L2 R2 b c -> ext (L1 ++ L2) (R1 ++ R2) a c.
Proof.
  intros H. revert c. induction H as [|x y a b Hxy H IH]; intros c Hc; inversion Hc as [|? z ? c' Hyz Hc']; subst; [constructor|].
  constructor; [|apply IH; assumption].
  destruct Hxy as (E1 & l1 & r1 & F1 & P1 & A1 & B1). destruct Hyz as (E2 & l2 & r2 & F2 & P2 & A2 & B2).
  split; [congruence|]. exists (l1 ++ l2), (r1 ++ r2). rewrite F2, F1, <- app_assoc. split; [reflexivity|].
  rewrite E1 in *. split; [|split; intros e He; apply in_app_or in He; destruct He; auto].
  rewrite <- P1, <- P2. clear.
  rewrite <- !app_assoc. apply Permutation_app_head.
  transitivity (r1 ++ l2 ++ r2 ++ R1 ++ R2); [apply Permutation_app_swap_app|]. apply Permutation_app_head.
  transitivity (l2 ++ R1 ++ r2 ++ R2); [apply Permutation_app_head, Permutation_app_swap_app|].
  apply Permutation_app_swap_app.
Qed.

Lemma ext_seq L M Rm a b c : ext L M a b -> ext M Rm b c -> ext L Rm a c.
Proof.
  intros H. revert c. induction H as [|x y a b Hxy H IH]; intros c Hc; inversion Hc as [|? z ? c' Hyz Hc']; subst; [constructor|].
  constructor; [|apply IH; assumption].
  destruct Hxy as (E1 & l1 & r1 & F1 & P1 & A1 & B1). destruct Hyz as (E2 & l2 & r2 & F2 & P2 & A2 & B2).
  split; [congruence|]. exists (l1 ++ l2), (r1 ++ r2). rewrite F2, F1, <- app_assoc. split; [reflexivity|].
  rewrite E1 in *. split; [|split; intros e He; apply in_app_or in He; destruct He; auto].
  rewrite <- P1, <- P2. clear. rewrite <- !app_assoc. apply Permutation_app_head. apply Permutation_app_swap_app.
Qed.

Lemma ext_skip L nbs : (forall x e, In x nbs -> In e L -> ~ close (fst x) e) -> ext L [] nbs nbs.
Proof.
  intros H. unfold ext. induction nbs as [|x nbs IH]; constructor.
  - split; [reflexivity|]. exists [], L. rewrite app_nil_r. cbn [app]. rewrite app_nil_r.
    split; [reflexivity|]. split; [apply Permutation_refl|]. split; [intros e []|]. intros e He. apply H; [left; reflexivity|assumption].
  - apply IH. intros. apply H; [right; assumption|assumption].
Qed.

Lemma ext_keep L nbs : ext L L nbs nbs.
Proof.
  induction nbs as [|x nbs IH]; constructor; [|assumption].
  split; [reflexivity|]. exists [], []. rewrite app_nil_r. repeat split; auto; intros e [].
Qed.

(** The summary of the target cell, if any, covers the targets. *)
Definition cur_ok (cur : option cofm) (nbs : list (nat * list nat)) : Prop :=
  (forall x, In x nbs -> (fst x < length bodies)%nat) /\
  match cur with
  | Some cn => exists G, Sum cn G /\ forall x, In x nbs -> In (fst x) G
  | None => True
  end.

Lemma cur_ok_fst cur a b : map fst b = map fst a -> cur_ok cur a -> cur_ok cur b.
Proof.
  intros E [H1 H2]. assert (G : forall x, In x b -> exists y, In y a /\ fst y = fst x).
  { intros x Hx. apply (in_map fst) in Hx. rewrite E in Hx. apply in_map_iff in Hx. destruct Hx as (y & Ey & Hy). eauto. }
  split.
  - intros x Hx. destruct (G x Hx) as (y & Hy & <-). auto.
  - destruct cur as [cn|]; [|exact I]. destruct H2 as (G' & Hs & HG). exists G'. split; [assumption|].
    intros x Hx. destruct (G x Hx) as (y & Hy & <-). auto.
Qed.

Lemma sph_cell_ok cur p tr nbs : okt (p, tr) -> cur_ok cur nbs ->
  exists q nbs', gsph_cell dim T t cofms bodies cur p nbs = Some (map fst q, nbs') /\ Forall okt q /\
    (S (size q) <= length (cells dim p tr))%nat /\ ext (leaves tr) (lv q) nbs nbs'.
Proof using Hdim HSum Hsub Hleaf1 Hleaf2 Hbox Hsph Hent.
  intros Hp [Hlen Hcur]. destruct tr as [i|k ch].
  - destruct (leaf_facts p i Hp) as (c & Hc & Hn & He & _ & Hi).
    unfold gsph_cell. rewrite Hc, Hn, He. cbn [fst snd]. exists [].
    match goal with |- context [if ?b then Some ([], nbs) else _] => destruct b eqn:Ecur end.
    + exists nbs. split; [reflexivity|]. split; [constructor|]. split; [cbn; lia|].
      apply ext_skip. cbn [leaves]. intros x e Hx [<-|[]] Hnear. destruct cur as [cn|]; [|discriminate]. destruct Hcur as (G & Hs & HG).
      rewrite (Hent cn G (fst x) i Hs (HG x Hx) (Hlen x Hx) Hi Hnear) in Ecur. discriminate.
    + eexists. split; [reflexivity|]. split; [constructor|]. split; [cbn; lia|].
      cbn [leaves lv flat_map]. clear Ecur Hcur. unfold ext. induction nbs as [|x nbs IH]; cbn [map]; constructor.
      * assert (Hx : (fst x < length bodies)%nat) by (apply Hlen; left; reflexivity).
        destruct (t_leaf T (gb (fst x)) (gb i)) eqn:Ew; cbn [fst snd].
        -- split; [reflexivity|]. exists [i], []. split; [reflexivity|]. split; [apply Permutation_refl|]. split; [|intros e []].
           intros e [<-|[]]. apply Hleaf1; assumption.
        -- split; [reflexivity|]. exists [], [i]. rewrite app_nil_r. split; [reflexivity|]. split; [apply Permutation_refl|]. split; [intros e []|].
           intros e [<-|[]] Hnear. rewrite (Hleaf2 _ _ Hx Hi Hnear) in Ew. discriminate.
      * apply IH. intros y Hy. apply Hlen. right. assumption.
  - destruct (node_facts p k ch Hp) as (c & s & Hc & Hn & Hs & Hsum & Hk & Hkids & _ & Hemp & Hne).
    unfold gsph_cell. rewrite Hc, Hn, Hs.
    assert (Hlt : forall e, In e (leaves (Node k ch)) -> (e < length bodies)%nat) by (intros; apply Hp; assumption).
    assert (Hs0 : (1 <= length (cells dim p (Node k ch)))%nat) by apply size_pos.
    match goal with |- context [if ?b then Some ([], nbs) else _] => destruct b eqn:Ecur end.
    + exists [], nbs. split; [reflexivity|]. split; [constructor|]. split; [exact Hs0|].
      apply ext_skip. intros x e Hx He Hnear. destruct cur as [cn|]; [|discriminate]. destruct Hcur as (G & HG & HG').
      rewrite (Hbox s _ cn G (fst x) e Hsum HG He (HG' x Hx) (Hlen x Hx) (Hlt e He) Hnear) in Ecur. discriminate.
    + destruct (existsb _ nbs) eqn:Eex.
      * rewrite Hemp, Hk. exists (kids p ch), nbs. split; [reflexivity|]. split; [assumption|].
        split; [rewrite size_node; lia|]. unfold lv. rewrite kids_leaves. apply ext_keep.
      * exists [], nbs. split; [reflexivity|]. split; [constructor|]. split; [exact Hs0|].
        apply ext_skip. intros x e Hx He Hnear.
        pose proof (proj1 (existsb_false _ _) Eex x Hx) as E'. cbv beta in E'.
        rewrite (Hsph s _ (fst x) e Hsum He (Hlen x Hx) (Hlt e He) Hnear) in E'. discriminate.
Qed.

Lemma sph_level_ok cur : forall q nbs, Forall okt q -> cur_ok cur nbs ->
  exists q' nbs', gsph_level dim T t cofms bodies cur (map fst q) nbs = Some (map fst q', nbs') /\ Forall okt q' /\
    (size q' + length q <= size q)%nat /\ ext (lv q) (lv q') nbs nbs'.
Proof using Hdim HSum Hsub Hleaf1 Hleaf2 Hbox Hsph Hent.
  induction q as [|[p tr] q IH]; intros nbs Hq Hcur.
  - exists [], nbs. cbn. repeat split; auto. apply ext_keep.
  - inversion Hq as [|? ? Hp Hq']; subst. cbn [map fst gsph_level].
    destruct (sph_cell_ok cur p tr nbs Hp Hcur) as (q1 & nbs1 & E1 & Hok1 & Hs1 & Hx1). rewrite E1. cbn [fst snd].
    destruct (IH nbs1 Hq') as (q2 & nbs2 & E2 & Hok2 & Hs2 & Hx2).
    { eapply cur_ok_fst; [|exact Hcur]. eapply ext_fst. exact Hx1. }
    rewrite E2. cbn [fst snd]. exists (q1 ++ q2), nbs2. rewrite map_app. split; [reflexivity|].
    split; [apply Forall_app; auto|]. split.
    + rewrite size_app, size_cons. cbn [length fst snd]. lia.
    + unfold lv. rewrite flat_map_app. cbn [flat_map snd]. eapply ext_par; [exact Hx1|exact Hx2].
Qed.

Lemma sph_queue_ok cur : forall fuel q nbs, Forall okt q -> cur_ok cur nbs -> (size q <= fuel)%nat ->
  exists nbs', gsph_queue dim T t cofms bodies fuel cur (map fst q) nbs = Some nbs' /\ ext (lv q) [] nbs nbs'.
Proof using Hdim HSum Hsub Hleaf1 Hleaf2 Hbox Hsph Hent.
  induction fuel as [|fuel IH]; intros q nbs Hq Hcur Hf.
  - destruct q as [|[p tr] q].
    + exists nbs. split; [reflexivity|apply ext_keep].
    + rewrite size_cons in Hf. pose proof (size_pos dim p tr). cbn [fst snd] in Hf. lia.
  - destruct q as [|x q]; [exists nbs; split; [reflexivity|apply ext_keep]|].
    destruct (sph_level_ok cur (x :: q) nbs Hq Hcur) as (q' & nbs1 & E1 & Hok1 & Hs1 & Hx1).
    cbn [gsph_queue map]. change (fst x :: map fst q) with (map fst (x :: q)). rewrite E1. cbn [fst snd].
    destruct (IH q' nbs1 Hok1) as (nbs2 & E2 & Hx2).
    { eapply cur_ok_fst; [|exact Hcur]. eapply ext_fst. exact Hx1. }
    { cbn [length] in Hs1. lia. }
    exists nbs2. split; [exact E2|]. eapply ext_seq; eauto.
Qed.

(** ** the target cells *)
Fixpoint cov (sent : nat) (p : N) (tr : tree) : list (N * tree) :=
  match tr with
  | Leaf _ => [(p, tr)]
  | Node _ ch => if (sent <? length (leaves tr))%nat then flat_map (fun x => cov sent (p * B + fst x) (snd x)) ch
                 else [(p, tr)]
  end.

Lemma cov_kids sent p k ch : (sent <? length (leaves (Node k ch)))%nat = true ->
  cov sent p (Node k ch) = flat_map (fun x => cov sent (fst x) (snd x)) (kids p ch).
Proof.
  intros H. cbn [cov]. cbn [leaves] in *. rewrite H. unfold Search_proofs.kids.
  rewrite !flat_map_concat_map, map_map. reflexivity.
Qed.

Lemma cov_leaves sent tr : forall p, lv (cov sent p tr) = leaves tr.
Proof.
  induction tr as [i|k ch IH] using tree_ind'; intros p; [reflexivity|].
  cbn [cov]. destruct (_ <? _)%nat; [|unfold lv; cbn; rewrite app_nil_r; reflexivity].
  cbn [leaves]. unfold lv. induction ch as [|x ch IHc]; [reflexivity|]. inversion IH; subst. cbn [flat_map].
  rewrite flat_map_app. f_equal; [apply H1|auto].
Qed.

Lemma cov_ok sent tr : forall p, okt (p, tr) -> Forall okt (cov sent p tr).
Proof using Hdim HSum Hsub.
  induction tr as [i|k ch IH] using tree_ind'; intros p Hp; [constructor; [assumption|constructor]|].
  destruct (sent <? length (leaves (Node k ch)))%nat eqn:E.
  - rewrite cov_kids by assumption.
    destruct (node_facts p k ch Hp) as (_ & _ & _ & _ & _ & _ & _ & Hkids & _).
    unfold Search_proofs.kids in *. clear Hp E. induction ch as [|x ch IHc]; [constructor|].
    inversion IH; subst. inversion Hkids; subst. cbn [map flat_map fst snd]. apply Forall_app. split; auto.
  - cbn [cov]. cbn [leaves] in *. rewrite E. constructor; [assumption|constructor].
Qed.

Lemma cells_ok sent fuel p tr : okt (p, tr) -> (size [(p, tr)] <= fuel)%nat ->
  exists ks, walk dim t fuel (cells_func dim cofms sent) [p] [] = Some ks /\
    Permutation ks (map fst (cov sent p tr)).
Proof using Hdim HSum Hsub.
  intros Hp Hf.
  destruct (walk_spec (cells_func dim cofms sent) (fun x => map fst (cov sent (fst x) (snd x))))
    with (fuel := fuel) (stk := [(p, tr)]) (acc := @nil N) as (l & E & HP); auto.
  - intros p' i c acc Hp' Hc. destruct (leaf_facts p' i Hp') as (c' & Hc' & Hn & _ & Hsh & _).
    rewrite Hc in Hc'. injection Hc' as <-. unfold cells_func. rewrite Hn, Hsh. exists [p']. split; [reflexivity|]. apply Permutation_refl.
  - intros p' k ch c acc Hp' Hc.
    destruct (node_facts p' k ch Hp') as (c' & s & Hc' & Hn & Hs & Hsum & _ & _ & Hsh & _).
    rewrite Hc in Hc'. injection Hc' as <-. unfold cells_func. rewrite Hn, Hs, Hsh. cbn [orb].
    rewrite (Hsub _ _ Hsum). cbn [fst snd].
    destruct (sent <? length (leaves (Node k ch)))%nat eqn:Es.
    + left. split; [reflexivity|]. rewrite cov_kids by assumption.
      rewrite !flat_map_concat_map, concat_map, map_map. apply Permutation_refl.
    + right. exists [p']. split; [reflexivity|]. cbn [cov]. cbn [leaves] in *. rewrite Es. apply Permutation_refl.
  - exists l. cbn [map fst app] in E. split; [exact E|]. rewrite HP. cbn. rewrite app_nil_r. apply Permutation_refl.
Qed.

Lemma group_ok fuel p tr : okt (p, tr) -> (size [(p, tr)] <= fuel)%nat ->
  exists l, walk dim t fuel (group_func dim bodies) [p] [] = Some l /\ Permutation l (leaves tr).
Proof using Hdim HSum Hsub.
  intros Hp Hf.
  destruct (walk_spec (group_func dim bodies) (fun x => leaves (snd x)))
    with (fuel := fuel) (stk := [(p, tr)]) (acc := @nil nat) as (l & E & HP); auto.
  - intros p' i c acc Hp' Hc. destruct (leaf_facts p' i Hp') as (c' & Hc' & Hn & He & Hsh & _).
    rewrite Hc in Hc'. injection Hc' as <-. unfold group_func. rewrite Hn, Hsh, He. exists [i]. split; [reflexivity|]. apply Permutation_refl.
  - intros p' k ch c acc Hp' Hc.
    destruct (node_facts p' k ch Hp') as (c' & s & Hc' & Hn & _).
    rewrite Hc in Hc'. injection Hc' as <-. unfold group_func. rewrite Hn. left. split; [reflexivity|].
    rewrite kids_leaves. apply Permutation_refl.
  - exists l. cbn [map fst app] in E. split; [exact E|]. rewrite HP. cbn. rewrite app_nil_r. apply Permutation_refl.
Qed.

(** What one target gets. *)
Definition nb_ok (L : list nat) (x : nat * list nat) : Prop :=
  exists rest, Permutation (snd x ++ rest) L /\ (forall e, In e (snd x) -> near (fst x) e) /\
    (forall e, In e rest -> ~ close (fst x) e).

Lemma ext_nb_ok L es nbs' : ext L [] (map (fun i => (i, [])) es) nbs' -> map fst nbs' = es /\ Forall (nb_ok L) nbs'.
Proof.
  intros H. split.
  - rewrite (ext_fst _ _ _ _ H), map_map. cbn [fst]. apply map_id.
  - remember (map (fun i => (i, [])) es) as a eqn:Ea. revert es Ea. induction H as [|x y a b Hxy H IH]; intros es Ea; constructor.
    + destruct es as [|i es]; [discriminate|]. injection Ea as -> ->.
      destruct Hxy as (E & l & rest & El & HP & H1 & H2). cbn [fst snd app] in *. rewrite app_nil_r in HP.
      exists rest. rewrite E, El. auto.
    + destruct es as [|i es]; [discriminate|]. injection Ea as -> ->. eapply IH. reflexivity.
Qed.

Variable root : tree.
Hypothesis Hroot : okt (1, root).

Lemma target_ok fuel p tr : okt (p, tr) -> (size [(p, tr)] <= fuel)%nat -> (size [(1%N, root)] <= fuel)%nat ->
  exists out, gsph_target dim T t cofms bodies fuel p = Some out /\
    Permutation (map fst out) (leaves tr) /\ Forall (nb_ok (leaves root)) out.
Proof using Hdim HSum Hsub Hleaf1 Hleaf2 Hbox Hsph Hent Hroot.
  intros Hp Hf Hfr. destruct tr as [i|k ch].
  - destruct (leaf_facts p i Hp) as (c & Hc & Hn & He & _ & Hi).
    unfold gsph_target. rewrite Hc, Hn, He. cbn [fst].
    destruct (sph_queue_ok None fuel [(1, root)] [(i, [])]) as (out & E & Hx); auto.
    { split; [|exact I]. intros x [<-|[]]. exact Hi. }
    exists out. split; [exact E|]. cbn [lv flat_map snd] in Hx. rewrite app_nil_r in Hx.
    change [(i, @nil nat)] with (map (fun i => (i, @nil nat)) [i]) in Hx.
    destruct (ext_nb_ok _ _ _ Hx) as [H1 H2]. rewrite H1. split; [apply Permutation_refl|assumption].
  - destruct (node_facts p k ch Hp) as (c & s & Hc & Hn & Hs & Hsum & _).
    unfold gsph_target. rewrite Hc, Hn.
    destruct (group_ok fuel p (Node k ch) Hp Hf) as (es & Ee & HP). rewrite Ee, Hs.
    destruct (sph_queue_ok (Some s) fuel [(1, root)] (map (fun i => (i, [])) es)) as (out & E & Hx); auto.
    { split.
      - intros x Hx. apply in_map_iff in Hx. destruct Hx as (i & <- & Hi). cbn [fst].
        apply (Permutation_in _ HP) in Hi. apply Hp. exact Hi.
      - exists (leaves (Node k ch)). split; [assumption|]. intros x Hx. apply in_map_iff in Hx.
        destruct Hx as (i & <- & Hi). cbn [fst]. apply (Permutation_in _ HP). assumption. }
    exists out. split; [exact E|]. cbn [lv flat_map snd] in Hx. rewrite app_nil_r in Hx.
    destruct (ext_nb_ok _ _ _ Hx) as [H1 H2]. rewrite H1. split; assumption.
Qed.

Lemma targets_ok fuel : forall cs, Forall okt cs -> (forall x, In x cs -> (size [x] <= fuel)%nat) -> (size [(1%N, root)] <= fuel)%nat ->
  exists out, gsph_targets dim T t cofms bodies fuel (map fst cs) = Some out /\
    Permutation (map fst out) (lv cs) /\ Forall (nb_ok (leaves root)) out.
Proof using Hdim HSum Hsub Hleaf1 Hleaf2 Hbox Hsph Hent Hroot.
  induction cs as [|[p tr] cs IH]; intros Hok Hf Hfr.
  - exists []. repeat split; constructor.
  - inversion Hok as [|? ? Hp Hcs]; subst. cbn [map fst gsph_targets].
    destruct (target_ok fuel p tr Hp) as (o1 & E1 & P1 & F1); [apply Hf; left; reflexivity|assumption|]. rewrite E1.
    destruct (IH Hcs) as (o2 & E2 & P2 & F2); [intros; apply Hf; right; assumption|assumption|]. rewrite E2.
    exists (o1 ++ o2). split; [reflexivity|]. split; [|apply Forall_app; auto].
    rewrite map_app. unfold lv. cbn [flat_map snd]. apply Permutation_app; assumption.
Qed.

Lemma cov_size sent tr : forall p x, In x (cov sent p tr) -> (size [x] <= size [(p, tr)])%nat.
Proof.
  induction tr as [i|k ch IH] using tree_ind'; intros p x Hx.
  - destruct Hx as [<-|[]]. lia.
  - destruct (sent <? length (leaves (Node k ch)))%nat eqn:E.
    + rewrite cov_kids in Hx by assumption. apply in_flat_map in Hx. destruct Hx as (y & Hy & Hx).
      assert (Hle : (size [y] <= size (kids p ch))%nat).
      { clear - Hy. induction (kids p ch) as [|z l IHl]; [destruct Hy|]. rewrite (size_cons dim z l).
        destruct Hy as [->|Hy].
        - rewrite size_cons. change (size []) with 0%nat. lia.
        - specialize (IHl Hy). lia. }
      unfold Search_proofs.kids in Hy. apply in_map_iff in Hy. destruct Hy as (z & <- & Hz). cbn [fst snd] in *.
      rewrite Forall_forall in IH. specialize (IH z Hz _ _ Hx). rewrite (size_cons dim (p, Node k ch)). cbn [fst snd].
      rewrite size_node. lia.
    + cbn [cov leaves] in *. rewrite E in Hx. destruct Hx as [<-|[]]. lia.
Qed.

Lemma gtraversal_sph_ok fuel : (size [(1%N, root)] <= fuel)%nat ->
  exists out, gtraversal_sph dim T t cofms bodies fuel = Some out /\
    Permutation (map fst out) (leaves root) /\ Forall (nb_ok (leaves root)) out.
Proof using Hdim HSum Hsub Hleaf1 Hleaf2 Hbox Hsph Hent Hroot.
  intros Hf. unfold gtraversal_sph.
  destruct (cells_ok sub_entities_limit fuel 1 root Hroot Hf) as (ks & E & HP).
  change key_root with 1. rewrite E. apply Permutation_map_inv in HP. destruct HP as (cs & -> & HP).
  destruct (targets_ok fuel cs) as (out & E2 & P2 & F2).
  - eapply Permutation_Forall; [exact HP|]. apply cov_ok. assumption.
  - intros x Hx. eapply Nat.le_trans; [|exact Hf]. eapply cov_size. eapply Permutation_in; [apply Permutation_sym, HP|exact Hx].
  - assumption.
  - exists out. split; [exact E2|]. split; [|assumption]. rewrite P2, <- (cov_leaves sub_entities_limit root 1).
    unfold lv. apply Permutation_flat_map, Permutation_sym, HP.
Qed.
End GSearch.
