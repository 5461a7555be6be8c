(** The FMM traversal on a built tree: what the queue of pairs becomes. *)
From Coq Require Import Sorted Permutation.
From Verif Require Import Base Key_model Key_spec Key_proofs HCell_model HCell_props BuildTree_model BuildTree_spec BuildTree_lemmas
  BuildTree_inv BuildTree_shape BuildTree_props Vec Geometry_model Geometry_props Cofm_model Cofm_spec Cofm_proofs Search_model
  Search_proofs Search_sph Gravity_model Fmm_model.
Local Open Scope N_scope.
Local Notation up := BuildTree_spec.up.

(** Sums of natural numbers over a list. *)
Definition nsum {A} (f : A -> nat) (l : list A) : nat := list_sum (map f l).
Lemma nsum_cons {A} (f : A -> nat) x l : nsum f (x :: l) = (f x + nsum f l)%nat.
Proof. reflexivity. Qed.
Lemma nsum_app {A} (f : A -> nat) a b : nsum f (a ++ b) = (nsum f a + nsum f b)%nat.
Proof. unfold nsum. rewrite map_app, list_sum_app. reflexivity. Qed.
Lemma nsum_flat_map {A C} (f : C -> nat) (g : A -> list C) l : nsum f (flat_map g l) = nsum (fun x => nsum f (g x)) l.
Proof. induction l; [reflexivity|]. cbn [flat_map]. rewrite nsum_app, nsum_cons, IHl. reflexivity. Qed.
Lemma nsum_map {A C} (f : C -> nat) (g : A -> C) l : nsum f (map g l) = nsum (fun x => f (g x)) l.
Proof. unfold nsum. rewrite map_map. reflexivity. Qed.
Lemma nsum_ext {A} (f g : A -> nat) l : (forall x, In x l -> f x = g x) -> nsum f l = nsum g l.
Proof. intros H. unfold nsum. f_equal. apply map_ext_in. assumption. Qed.
Lemma nsum_plus {A} (f g : A -> nat) l : nsum (fun x => (f x + g x)%nat) l = (nsum f l + nsum g l)%nat.
Proof. induction l; [reflexivity|]. rewrite !nsum_cons, IHl. lia. Qed.
Lemma nsum_scal {A} c (f : A -> nat) l : nsum (fun x => (c * f x)%nat) l = (c * nsum f l)%nat.
Proof. induction l; [unfold nsum; cbn; lia|]. rewrite !nsum_cons, IHl. lia. Qed.
Lemma nsum_0 {A} (f : A -> nat) l : (forall x, In x l -> f x = 0%nat) -> nsum f l = 0%nat.
Proof. induction l as [|a l IH]; intros H; [reflexivity|]. rewrite nsum_cons, H, IH; auto; [intros; apply H; right; assumption|left; reflexivity]. Qed.
Lemma nsum_swap {A C} (f : A -> C -> nat) l m : nsum (fun x => nsum (f x) m) l = nsum (fun y => nsum (fun x => f x y) l) m.
Proof.
  induction l as [|a l IH]; [symmetry; apply nsum_0; reflexivity|]. rewrite nsum_cons, IH, <- nsum_plus. apply nsum_ext. reflexivity.
Qed.
Lemma nsum_perm {A} (f : A -> nat) l m : Permutation l m -> nsum f l = nsum f m.
Proof. induction 1; rewrite ?nsum_cons in *; lia. Qed.

(** The sub-trees of a tree, with their keys. *)
Fixpoint subs (dim p : N) (tr : tree) : list (N * tree) :=
  (p, tr) :: match tr with
             | Leaf _ => []
             | Node _ ch => flat_map (fun x => subs dim (p * 2 ^ dim + fst x) (snd x)) ch
             end.
Definition kidsof (dim : N) (x : N * tree) : list (N * tree) :=
  match snd x with Leaf _ => [] | Node _ ch => kids dim (fst x) ch end.

Lemma subs_self dim p tr : In (p, tr) (subs dim p tr).
Proof. destruct tr; left; reflexivity. Qed.
Lemma subs_keys dim tr : forall p, map fst (subs dim p tr) = cells dim p tr.
Proof.
  induction tr as [i|k ch IH] using tree_ind'; intros p; [reflexivity|].
  cbn [subs cells map fst]. f_equal. rewrite !flat_map_concat_map, concat_map, map_map. f_equal. apply map_ext_in.
  rewrite Forall_forall in IH. intros x Hx. apply (IH x Hx).
Qed.
Lemma subs_kids dim tr : forall p x y, In x (subs dim p tr) -> In y (kidsof dim x) -> In y (subs dim p tr).
Proof.
  induction tr as [i|k ch IH] using tree_ind'; intros p x y Hx Hy.
  - destruct Hx as [<-|[]]. destruct Hy.
  - cbn [subs] in Hx |- *. rewrite Forall_forall in IH. destruct Hx as [<-|Hx].
    + right. cbn in Hy. unfold kids in Hy. apply in_map_iff in Hy. destruct Hy as (z & <- & Hz).
      apply in_flat_map. exists z. split; [assumption|]. apply subs_self.
    + right. apply in_flat_map in Hx. destruct Hx as (z & Hz & Hx). apply in_flat_map. exists z. split; [assumption|].
      eapply IH; eauto.
Qed.
Lemma subs_ind (Q : N * tree -> Prop) dim : (forall x y, Q x -> In y (kidsof dim x) -> Q y) ->
  forall tr p, Q (p, tr) -> forall x, In x (subs dim p tr) -> Q x.
Proof.
  intros HQ tr. induction tr as [i|k ch IH] using tree_ind'; intros p H0 x Hx; cbn [subs] in Hx.
  - destruct Hx as [<-|[]]. assumption.
  - destruct Hx as [<-|Hx]; [assumption|]. apply in_flat_map in Hx. destruct Hx as (z & Hz & Hx). rewrite Forall_forall in IH.
    apply (IH z Hz (p * 2 ^ dim + fst z)); [|assumption]. apply (HQ (p, Node k ch)); [assumption|].
    cbn. unfold kids. apply in_map_iff. exists z. auto.
Qed.

(** Nodes with at least two leaves, all different. *)
Fixpoint fat (tr : tree) : Prop :=
  match tr with
  | Leaf _ => True
  | Node _ ch => (2 <= length (leaves tr))%nat /\ NoDup (leaves tr) /\ fold_right and True (map (fun x => fat (snd x)) ch)
  end.
Definition kfat (tr : tree) : Prop :=
  match tr with Leaf _ => True | Node _ ch => Forall (fun x => fat (snd x)) ch end.
Lemma fat_kfat tr : fat tr -> kfat tr.
Proof. destruct tr as [|k ch]; [trivial|]. intros (_ & _ & H). apply fold_and_Forall in H. assumption. Qed.

Section Fmm.
Variable dim : N.
Hypothesis Hdim : dim_ok dim.
Variables (t : table) (cofms : list cofm) (bodies : list body) (MAC : R).
Notation B := (2 ^ dim).
Notation n := (N.to_nat dim).
Notation fcc := (fcc_cofm n bodies).
Hypothesis Hmass : forall b, In b bodies -> (0 < b_mass b)%R.
Notation okt := (okt dim t cofms bodies).
Notation kids := (kids dim).
Notation kidsof := (kidsof dim).
Notation size := (size dim).
Notation gb := (get_body bodies).
Notation ncells x := (length (cells dim (fst x) (snd x))).

Definition summary_at (p : N) : option cofm := c <- tfind t p ;; get_node cofms c.
Definition gpos (x : N * tree) : point :=
  match snd x with
  | Leaf i => b_pos (gb i)
  | Node _ _ => match summary_at (fst x) with Some s => cm_pos s | None => vzero end
  end.
Definition grad (x : N * tree) : R :=
  match snd x with
  | Leaf _ => 0%R
  | Node _ _ => match summary_at (fst x) with Some s => cm_rad s | None => 0%R end
  end.
Definition isleaf (x : N * tree) : bool := match snd x with Leaf _ => true | Node _ _ => false end.

Notation tpair := ((N * tree) * (N * tree))%type.
Definition keyp (z : tpair) : N * N := (fst (fst z), fst (snd z)).

(** One pair: the pairs that replace it and whether it is final. *)
Definition gnew (z : tpair) : list tpair :=
  let (x, y) := z in
  if isleaf x && isleaf y then []
  else if fst x =? fst y then self_pairs (kidsof x)
  else if mac n (gpos x) (grad x) (gpos y) (grad y) MAC then []
  else if Rltb (grad y) (grad x) then map (fun k => (k, y)) (kidsof x)
  else map (fun k => (x, k)) (kidsof y).
Definition gfin (z : tpair) : list tpair :=
  let (x, y) := z in
  if isleaf x && isleaf y then [z]
  else if fst x =? fst y then []
  else if mac n (gpos x) (grad x) (gpos y) (grad y) MAC then [z]
  else [].
Fixpoint gqueue (fuel : nat) (q : list tpair) : list tpair :=
  match q with
  | [] => []
  | _ => match fuel with
         | O => []
         | S f => flat_map gfin q ++ gqueue f (flat_map gnew q)
         end
  end.

(** What a final pair does. *)
Definition calls_of (z : tpair) : list call :=
  match snd (fst z), snd (snd z) with
  | Leaf _, Leaf _ => []
  | Node _ _, Node _ _ => [C_c2c (fst (fst z)) (fst (snd z))]
  | Node _ _, Leaf j => [C_p2c (fst (fst z)) j]
  | Leaf i, Node _ _ => [C_p2p i (Some (fst (snd z))) []]
  end.
Definition pps_of (z : tpair) : list (N * N) := if isleaf (fst z) && isleaf (snd z) then [keyp z] else [].

(** The tree below a cell is determined by the table. *)
Lemma holds_inj tr : forall p tr', holds fcc dim t cofms p tr -> holds fcc dim t cofms p tr' -> tr = tr'.
Proof.
  induction tr as [i|k ch IH] using tree_ind'; intros p [i'|k' ch'] H H'; cbn [holds] in H, H'.
  - destruct H as (c & E & F & _), H' as (c' & E' & F' & _). congruence.
  - destruct H as (c & E & F & G & _), H' as (_ & (c' & j & s & E' & F' & G' & _) & _). congruence.
  - destruct H' as (c & E & F & G & _), H as (_ & (c' & j & s & E' & F' & G' & _) & _). congruence.
  - destruct H as (-> & (c & j & s & E & _ & _ & _ & _ & D1 & _) & H).
    destruct H' as (-> & (c' & j' & s' & E' & _ & _ & _ & _ & D2 & _) & H'). f_equal.
    rewrite E in E'. injection E' as <-. rewrite <- D2 in D1. clear - IH H H' D1.
    apply fold_and_Forall in H. apply fold_and_Forall in H'.
    revert ch' H' D1. induction ch as [|[d x] ch IHc]; intros [|[d' x'] ch'] H' D1; try discriminate; [reflexivity|].
    inversion IH; inversion H; inversion H'; subst. injection D1 as -> D1. cbn [fst snd] in *. f_equal; [f_equal; eauto|].
    apply IHc; assumption.
Qed.

Lemma okt_inj x y : okt x -> okt y -> fst x = fst y -> x = y.
Proof.
  destruct x as [p tr], y as [p' tr']. intros [[H _] _] [[H' _] _]. cbn [fst snd] in *. intros <-. f_equal.
  eapply holds_inj; eauto.
Qed.

Lemma kidsof_ok x : okt x -> Forall okt (kidsof x).
Proof using Hdim Hmass.
  destruct x as [p [i|k ch]]; intros H; [constructor|].
  destruct (node_facts dim Hdim t cofms bodies Hmass p k ch H) as (c & s & _ & _ & _ & _ & _ & Hk & _). exact Hk.
Qed.

Lemma leaf_keys x c : okt x -> isleaf x = true -> tfind t (fst x) = Some c -> child_keys dim t (fst x) (c_word c) (digits dim) = Some [].
Proof using Hdim.
  destruct x as [p [i|k ch]]; intros [[H _] _] Hl; [|discriminate]. cbn [fst snd holds] in *. destruct H as (c' & E & _ & _ & Hw).
  rewrite E. intros Q. injection Q as <-.
  assert (Hf : filter (N.testbit (c_word c')) (digits dim) = []).
  { clear - Hw. induction (digits dim) as [|d l IH]; [reflexivity|]. cbn [filter]. rewrite Hw. assumption. }
  rewrite (child_keys_ok dim Hdim); rewrite Hf; [reflexivity|intros d []|congruence].
Qed.

Lemma node_keys x c : okt x -> tfind t (fst x) = Some c -> child_keys dim t (fst x) (c_word c) (digits dim) = Some (map fst (kidsof x)).
Proof using Hdim Hmass.
  destruct x as [p [i|k ch]]; intros H E.
  - apply (leaf_keys _ _ H); [reflexivity|assumption].
  - destruct (node_facts dim Hdim t cofms bodies Hmass p k ch H) as (c' & s & E' & _ & _ & _ & Hk & _). cbn [fst] in *.
    rewrite E in E'. injection E' as <-. exact Hk.
Qed.

Lemma map_self_pairs {A C} (f : A -> C) l : map (fun z => (f (fst z), f (snd z))) (self_pairs l) = self_pairs (map f l).
Proof.
  induction l as [|a l IH]; [reflexivity|]. cbn [self_pairs map fst snd]. f_equal. rewrite map_app, IH. f_equal.
  clear IH. induction l as [|b l IHl]; [reflexivity|]. cbn [flat_map map app fst snd]. f_equal. f_equal. exact IHl.
Qed.

Lemma cell_facts x : okt x -> exists c, tfind t (fst x) = Some c /\ is_node c = Some (negb (isleaf x)) /\
  extent cofms bodies c = Some (gpos x, grad x, length (leaves (snd x))) /\
  (if isleaf x then exists i, snd x = Leaf i /\ get_entity bodies c = Some (i, gb i)
   else exists s, get_node cofms c = Some s /\ summary_at (fst x) = Some s /\ summary_ok n s (map gb (leaves (snd x))) /\
     is_empty_node dim (c_word c) = false).
Proof using Hdim Hmass.
  destruct x as [p [i|k ch]]; intros H.
  - destruct (leaf_facts dim t cofms bodies p i H) as (c & E & Hn & He & _). exists c. cbn [fst snd isleaf negb].
    split; [assumption|]. split; [assumption|]. split; [unfold extent; rewrite Hn, He; reflexivity|eauto].
  - destruct (node_facts dim Hdim t cofms bodies Hmass p k ch H) as (c & s & E & Hn & Hs & Hok & _ & _ & _ & Hem & _). exists c.
    assert (Hsum : summary_at p = Some s) by (unfold summary_at; rewrite E; exact Hs).
    split; [assumption|]. split; [assumption|]. cbn [fst snd isleaf].
    split; [unfold extent; rewrite Hn, Hs; unfold gpos, grad; cbn [snd fst]; rewrite Hsum, (so_sub _ _ _ Hok), map_length; reflexivity|].
    exists s. auto.
Qed.

Lemma fmm_pair_ok x y : okt x -> okt y ->
  fmm_pair dim t cofms bodies MAC (keyp (x, y)) =
    Some (map keyp (gnew (x, y)), flat_map calls_of (gfin (x, y)), flat_map pps_of (gfin (x, y))).
Proof using Hdim Hmass.
  intros Hx Hy. destruct (cell_facts x Hx) as (c1 & E1 & N1 & X1 & F1). destruct (cell_facts y Hy) as (c2 & E2 & N2 & X2 & F2).
  unfold fmm_pair, keyp. cbn [fst snd]. rewrite E1, E2, N2, N1, X1, X2. cbv beta iota.
  replace (negb (isleaf y) && is_empty_node dim (c_word c2)) with false
    by (destruct (isleaf y); [reflexivity|]; destruct F2 as (s & _ & _ & _ & ->); reflexivity).
  rewrite !negb_involutive. unfold gnew, gfin.
  destruct (isleaf x && isleaf y) eqn:Ell.
  { unfold pps_of, calls_of. cbn [flat_map fst snd]. rewrite Ell. apply andb_true_iff in Ell. destruct Ell as [L1 L2].
    destruct x as [p [i|]], y as [p' [j|]]; try discriminate. reflexivity. }
  destruct (fst x =? fst y) eqn:Ek.
  { apply N.eqb_eq in Ek. pose proof (okt_inj x y Hx Hy Ek) as ->. rewrite andb_diag in Ell. rewrite Ell in F1.
    destruct F1 as (s & -> & _ & _ & _). unfold fmm_sub_limit. rewrite (proj2 (Nat.ltb_ge _ _) (Nat.le_0_l _)).
    rewrite (node_keys y c1 Hy E1). cbn [flat_map]. do 3 f_equal. rewrite <- map_self_pairs. reflexivity. }
  destruct (mac n (gpos x) (grad x) (gpos y) (grad y) MAC) eqn:Em.
  { cbn [flat_map map]. unfold calls_of, pps_of. cbn [fst snd]. rewrite Ell. cbn [app].
    destruct x as [p [i|k ch]], y as [p' [j|k' ch']]; cbn [isleaf snd fst negb andb] in *; try discriminate.
    - destruct F1 as (i' & Ei & ->). injection Ei as ->. reflexivity.
    - destruct F2 as (i' & Ei & ->). injection Ei as ->. reflexivity.
    - reflexivity. }
  unfold fmm_sub_limit. rewrite (proj2 (Nat.ltb_ge _ _) (Nat.le_0_l _)). cbn [flat_map].
  destruct (Rltb (grad y) (grad x)).
  - rewrite (node_keys x c1 Hx E1), !map_map. reflexivity.
  - rewrite (node_keys y c2 Hy E2), !map_map. reflexivity.
Qed.

(** ** the queue *)
Definition psize (z : tpair) : nat := (ncells (fst z) + ncells (snd z))%nat.
Definition okp (z : tpair) : Prop := okt (fst z) /\ okt (snd z) /\ kfat (snd (fst z)) /\ kfat (snd (snd z)) /\
  (fst (fst z) <> fst (snd z) -> fat (snd (fst z)) /\ fat (snd (snd z))).

Lemma self_pairs_in {A} (l : list A) z : In z (self_pairs l) -> In (fst z) l /\ In (snd z) l.
Proof.
  induction l as [|a l IH]; [intros []|]. cbn [self_pairs]. intros [<-|Hz]; [cbn; auto|].
  apply in_app_or in Hz. destruct Hz as [Hz|Hz]; [|apply IH in Hz; cbn; tauto].
  apply in_flat_map in Hz. destruct Hz as (b & Hb & [<-|[<-|[]]]); cbn; auto.
Qed.

Lemma gnew_in z z' : In z' (gnew z) ->
  (In (fst z') (kidsof (fst z)) /\ In (snd z') (kidsof (snd z)) /\ fst (fst z) = fst (snd z) \/
   In (fst z') (kidsof (fst z)) /\ snd z' = snd z /\ fst (fst z) <> fst (snd z) \/
   fst z' = fst z /\ In (snd z') (kidsof (snd z)) /\ fst (fst z) <> fst (snd z)) \/ (fst (fst z) = fst (snd z) /\
   In (fst z') (kidsof (fst z)) /\ In (snd z') (kidsof (fst z))).
Proof.
  destruct z as [x y]. unfold gnew. cbn [fst snd]. destruct (isleaf x && isleaf y); [intros []|].
  destruct (N.eqb_spec (fst x) (fst y)) as [E|E].
  - intros H. apply self_pairs_in in H. right. tauto.
  - destruct (mac _ _ _ _ _ _); [intros []|]. destruct (Rltb _ _); intros H; apply in_map_iff in H; destruct H as (k & <- & Hk); cbn [fst snd];
    left; right; [left|right]; auto.
Qed.

Lemma kid_fat x k : kfat (snd x) -> In k (kidsof x) -> fat (snd k).
Proof.
  destruct x as [p [i|d ch]]; cbn; [intros _ []|]. intros H Hk. unfold kids in Hk. apply in_map_iff in Hk.
  destruct Hk as (z & <- & Hz). rewrite Forall_forall in H. apply (H z Hz).
Qed.
Lemma kid_size x k : In k (kidsof x) -> (ncells k < ncells x)%nat.
Proof.
  destruct x as [p [i|d ch]]; [intros []|]. intros H. cbn [fst snd]. rewrite size_node. cbn in H.
  clear - H. induction (Search_proofs.kids dim p ch) as [|a l IH]; [destruct H|]. rewrite size_cons. destruct H as [->|H]; [lia|]. apply IH in H. lia.
Qed.
Lemma kid_ok x k : okt x -> In k (kidsof x) -> okt k.
Proof using Hdim Hmass. intros H Hk. pose proof (kidsof_ok x H) as F. rewrite Forall_forall in F. auto. Qed.

Lemma gnew_ok z z' : okp z -> In z' (gnew z) -> okp z' /\ (psize z' < psize z)%nat.
Proof using Hdim Hmass.
  intros (O1 & O2 & K1 & K2 & F) H. apply gnew_in in H. unfold okp, psize.
  assert (E : fst (fst z) = fst (snd z) -> fst z = snd z) by (apply okt_inj; assumption).
  destruct H as [[(H1 & H2 & H3)|[(H1 & -> & H3)|(-> & H2 & H3)]]|(H3 & H1 & H2)].
  - pose proof (kid_size _ _ H1). pose proof (kid_size _ _ H2). pose proof (kid_fat _ _ K1 H1). pose proof (kid_fat _ _ K2 H2).
    pose proof (kid_ok _ _ O1 H1). pose proof (kid_ok _ _ O2 H2). split; [|lia]. auto 10 using fat_kfat.
  - pose proof (kid_size _ _ H1). pose proof (kid_fat _ _ K1 H1). pose proof (kid_ok _ _ O1 H1). destruct (F H3). split; [|lia]. auto 10 using fat_kfat.
  - pose proof (kid_size _ _ H2). pose proof (kid_fat _ _ K2 H2). pose proof (kid_ok _ _ O2 H2). destruct (F H3). split; [|lia]. auto 10 using fat_kfat.
  - rewrite <- (E H3). pose proof (kid_size _ _ H1). pose proof (kid_size _ _ H2). pose proof (kid_fat _ _ K1 H1). pose proof (kid_fat _ _ K1 H2).
    pose proof (kid_ok _ _ O1 H1). pose proof (kid_ok _ _ O1 H2). split; [|lia]. auto 10 using fat_kfat.
Qed.

Lemma fmm_level_ok q : Forall okp q -> fmm_level dim t cofms bodies MAC (map keyp q) =
  Some (map keyp (flat_map gnew q), flat_map calls_of (flat_map gfin q), flat_map pps_of (flat_map gfin q)).
Proof using Hdim Hmass.
  induction 1 as [|[x y] q (O1 & O2 & _) H IH]; [reflexivity|]. cbn [map fmm_level]. rewrite fmm_pair_ok, IH by assumption. cbn [fst snd flat_map].
  rewrite map_app, !flat_map_app. reflexivity.
Qed.

Lemma fmm_queue_ok : forall fuel q, Forall okp q -> Forall (fun z => (psize z <= fuel)%nat) q ->
  fmm_queue dim t cofms bodies MAC fuel (map keyp q) =
    Some (flat_map calls_of (gqueue fuel q), flat_map pps_of (gqueue fuel q)).
Proof using Hdim Hmass.
  induction fuel as [|fuel IH]; intros q Hq Hf.
  - destruct q as [|z q]; [reflexivity|]. exfalso. inversion Hf; subst. unfold psize in *.
    pose proof (size_pos dim (fst (fst z)) (snd (fst z))). lia.
  - destruct q as [|z q]; [reflexivity|].
    change (fmm_queue dim t cofms bodies MAC (S fuel) (map keyp (z :: q))) with
      (a <- fmm_level dim t cofms bodies MAC (map keyp (z :: q)) ;;
       b <- fmm_queue dim t cofms bodies MAC fuel (fst (fst a)) ;; Some (snd (fst a) ++ fst b, snd a ++ snd b)).
    rewrite fmm_level_ok by assumption. cbn [fst snd]. rewrite IH.
    + cbn [fst snd]. change (gqueue (S fuel) (z :: q)) with (flat_map gfin (z :: q) ++ gqueue fuel (flat_map gnew (z :: q))).
      rewrite !flat_map_app. reflexivity.
    + apply Forall_forall. intros z' Hz'. apply in_flat_map in Hz'. destruct Hz' as (z0 & H0 & Hz').
      rewrite Forall_forall in Hq. eapply gnew_ok; eauto.
    + apply Forall_forall. intros z' Hz'. apply in_flat_map in Hz'. destruct Hz' as (z0 & H0 & Hz').
      rewrite Forall_forall in Hq, Hf. specialize (Hf _ H0). destruct (gnew_ok z0 z' (Hq _ H0) Hz'). lia.
Qed.

(** A property kept by [gnew] holds of the final pairs. *)
Lemma gqueue_ind (Q : tpair -> Prop) : (forall z z', Q z -> In z' (gnew z) -> Q z') ->
  forall fuel q, Forall Q q -> Forall Q (gqueue fuel q).
Proof.
  intros HQ. induction fuel as [|fuel IH]; intros q Hq; (destruct q as [|z q]; [constructor|]).
  - constructor.
  - change (gqueue (S fuel) (z :: q)) with (flat_map gfin (z :: q) ++ gqueue fuel (flat_map gnew (z :: q))).
    rewrite Forall_forall in Hq. apply Forall_app. split.
    + apply Forall_forall. intros z' Hz'. apply in_flat_map in Hz'. destruct Hz' as ([x y] & H0 & Hz').
      unfold gfin in Hz'. destruct (isleaf x && isleaf y); [destruct Hz' as [<-|[]]; auto|]. destruct (_ =? _); [destruct Hz'|].
      destruct (mac _ _ _ _ _ _); [destruct Hz' as [<-|[]]; auto|destruct Hz'].
    + apply IH. apply Forall_forall. intros z' Hz'. apply in_flat_map in Hz'. destruct Hz' as (z0 & H0 & Hz'). eauto.
Qed.

(** Final pairs satisfy the acceptance criterion or are pairs of particles. *)
Definition accepted (z : tpair) : Prop :=
  isleaf (fst z) && isleaf (snd z) = true \/ fst (fst z) <> fst (snd z) /\ mac n (gpos (fst z)) (grad (fst z)) (gpos (snd z)) (grad (snd z)) MAC = true.
Lemma gqueue_accepted : forall fuel q, Forall accepted (gqueue fuel q).
Proof.
  induction fuel as [|fuel IH]; intros q; (destruct q as [|z q]; [constructor|]).
  - constructor.
  - change (gqueue (S fuel) (z :: q)) with (flat_map gfin (z :: q) ++ gqueue fuel (flat_map gnew (z :: q))).
    apply Forall_app. split; [|apply IH]. apply Forall_forall. intros z' Hz'. apply in_flat_map in Hz'. destruct Hz' as ([x y] & H0 & Hz').
    unfold gfin in Hz'. unfold accepted.
    destruct (isleaf x && isleaf y) eqn:E; [destruct Hz' as [<-|[]]; auto|]. destruct (N.eqb_spec (fst x) (fst y)) as [Ek|Ek]; [destruct Hz'|].
    destruct (mac _ _ _ _ _ _) eqn:E'; [destruct Hz' as [<-|[]]; auto|destruct Hz'].
Qed.

(** ** each pair of particles is covered once *)
Definition cnt (i : nat) (x : N * tree) : nat := count_occ Nat.eq_dec (leaves (snd x)) i.
Definition cov (i j : nat) (z : tpair) : nat := (cnt i (fst z) * cnt j (snd z))%nat.

Lemma count_flat_map {A} (f : A -> list nat) l i :
  count_occ Nat.eq_dec (flat_map f l) i = nsum (fun x => count_occ Nat.eq_dec (f x) i) l.
Proof. induction l; [reflexivity|]. cbn [flat_map]. rewrite count_occ_app, nsum_cons, IHl. reflexivity. Qed.
Lemma cnt_kids i x : isleaf x = false -> cnt i x = nsum (cnt i) (kidsof x).
Proof.
  destruct x as [p [j|k ch]]; [discriminate|]. intros _. unfold cnt. cbn [snd leaves Fmm_proofs.kidsof]. cbn. unfold kids.
  rewrite count_flat_map, nsum_map. reflexivity.
Qed.
Lemma cov_self i j l : nsum (cov i j) (self_pairs l) = (nsum (cnt i) l * nsum (cnt j) l)%nat.
Proof.
  induction l as [|a l IH]; [reflexivity|]. cbn [self_pairs]. rewrite nsum_cons, nsum_app, IH, nsum_flat_map, !nsum_cons.
  rewrite (nsum_ext _ (fun y => (cnt i a * cnt j y + cnt j a * cnt i y)%nat)).
  - rewrite nsum_plus, !nsum_scal. unfold cov. cbn [fst snd]. nia.
  - intros y _. unfold nsum, cov. cbn. nia.
Qed.

Hypothesis Hdist : forall i j, (i < length bodies)%nat -> (j < length bodies)%nat -> i <> j ->
  ~ peq n (b_pos (get_body bodies i)) (b_pos (get_body bodies j)).
Lemma fat_radius x s : okt x -> isleaf x = false -> fat (snd x) -> summary_at (fst x) = Some s -> summary_ok n s (map gb (leaves (snd x))) ->
  (0 < cm_rad s)%R.
Proof using Hdist.
  intros Hx Hl Hf Hs Hok. destruct x as [p [i|k ch]]; [discriminate|]. destruct Hf as (Hlen & Hnd & _). cbn [snd] in *.
  destruct Hx as (_ & _ & Hlt). cbn [snd] in Hlt.
  destruct (leaves (Node k ch)) as [|a [|b l]]; cbn [length] in Hlen; try lia.
  pose proof (so_rad0 _ _ _ Hok) as H0. destruct (Req_dec (cm_rad s) 0) as [E|E]; [exfalso|lra].
  assert (Hab : a <> b). { inversion Hnd as [|? ? Hni _]; subst. intros ->. apply Hni. left. reflexivity. }
  apply (Hdist a b); [apply Hlt; left; reflexivity|apply Hlt; right; left; reflexivity|assumption|].
  assert (G : forall c, In c (a :: b :: l) -> dist n (cm_pos s) (b_pos (gb c)) = 0%R).
  { intros c Hc. apply (in_map gb) in Hc. pose proof (so_rad _ _ _ Hok _ Hc). pose proof (dist_nonneg n (cm_pos s) (b_pos (gb c))). lra. }
  pose proof (G a (or_introl eq_refl)) as G1. pose proof (G b (or_intror (or_introl eq_refl))) as G2.
  apply dist_zero in G1. apply dist_zero in G2. intros m Hm. rewrite <- (G1 m Hm), <- (G2 m Hm). reflexivity.
Qed.

Lemma cov_step i j z : okp z -> cov i j z = (nsum (cov i j) (gfin z) + nsum (cov i j) (gnew z))%nat.
Proof using Hdim Hmass Hdist.
  destruct z as [x y]. intros (O1 & O2 & K1 & K2 & F). cbn [fst snd] in *. unfold gfin, gnew.
  destruct (isleaf x && isleaf y) eqn:Ell; [unfold nsum; cbn; lia|].
  destruct (N.eqb_spec (fst x) (fst y)) as [E|E].
  - pose proof (okt_inj x y O1 O2 E) as ->. rewrite andb_diag in Ell. rewrite cov_self, <- !cnt_kids by assumption. reflexivity.
  - destruct (mac _ _ _ _ _ _) eqn:Em; [unfold nsum; cbn; lia|]. destruct (F E) as [F1 F2].
    change (nsum (cov i j) []) with 0%nat. rewrite Nat.add_0_l.
    destruct (cell_facts x O1) as (c1 & _ & _ & _ & G1). destruct (cell_facts y O2) as (c2 & _ & _ & _ & G2).
    assert (Hlx : isleaf x = true -> grad x = 0%R) by (clear; destruct x as [p []]; cbn; [reflexivity|discriminate]).
    assert (Hly : isleaf y = true -> grad y = 0%R) by (clear; destruct y as [p []]; cbn; [reflexivity|discriminate]).
    assert (Hnx : isleaf x = false -> (0 < grad x)%R).
    { intros L. rewrite L in G1. destruct G1 as (s & _ & Es & Hok & _). pose proof (fat_radius x s O1 L F1 Es Hok) as Hr.
      destruct x as [p []]; [discriminate|]. unfold grad. cbn [snd fst] in *. rewrite Es. assumption. }
    assert (Hny : isleaf y = false -> (0 < grad y)%R).
    { intros L. rewrite L in G2. destruct G2 as (s & _ & Es & Hok & _). pose proof (fat_radius y s O2 L F2 Es Hok) as Hr.
      destruct y as [p []]; [discriminate|]. unfold grad. cbn [snd fst] in *. rewrite Es. assumption. }
    destruct (Rltb (grad y) (grad x)) eqn:Er.
    + apply Rltb_true in Er. assert (L : isleaf x = false).
      { destruct (isleaf x); [|reflexivity]. rewrite (Hlx eq_refl) in Er. destruct (isleaf y); [specialize (Hly eq_refl)|specialize (Hny eq_refl)]; lra. }
      rewrite nsum_map. unfold cov. cbn [fst snd]. rewrite (cnt_kids i x L).
      rewrite Nat.mul_comm, <- nsum_scal. apply nsum_ext. intros; lia.
    + apply Rltb_false in Er. assert (L : isleaf y = false).
      { destruct (isleaf y); [|reflexivity]. rewrite (Hly eq_refl) in Er. rewrite andb_true_r in Ell. specialize (Hnx Ell). lra. }
      rewrite nsum_map. unfold cov. cbn [fst snd]. rewrite nsum_scal, (cnt_kids j y L). reflexivity.
Qed.

Lemma cov_queue i j : forall fuel q, Forall okp q -> Forall (fun z => (psize z <= fuel)%nat) q ->
  nsum (cov i j) (gqueue fuel q) = nsum (cov i j) q.
Proof using Hdim Hmass Hdist.
  induction fuel as [|fuel IH]; intros q Hq Hf.
  - destruct q as [|z q]; [reflexivity|]. exfalso. inversion Hf; subst. unfold psize in *.
    pose proof (size_pos dim (fst (fst z)) (snd (fst z))). lia.
  - destruct q as [|z q]; [reflexivity|].
    change (gqueue (S fuel) (z :: q)) with (flat_map gfin (z :: q) ++ gqueue fuel (flat_map gnew (z :: q))).
    rewrite nsum_app, IH.
    + rewrite !nsum_flat_map, <- nsum_plus. apply nsum_ext. intros z' Hz'. rewrite Forall_forall in Hq. symmetry. apply cov_step. auto.
    + apply Forall_forall. intros z' Hz'. apply in_flat_map in Hz'. destruct Hz' as (z0 & H0 & Hz').
      rewrite Forall_forall in Hq. eapply gnew_ok; eauto.
    + apply Forall_forall. intros z' Hz'. apply in_flat_map in Hz'. destruct Hz' as (z0 & H0 & Hz').
      rewrite Forall_forall in Hq, Hf. specialize (Hf _ H0). destruct (gnew_ok z0 z' (Hq _ H0) Hz'). lia.
Qed.
End Fmm.
