(** What the calls of the FMM traversal compute. *)
From Coq Require Import Sorted Permutation.
From Verif Require Import Base Key_model Key_spec Key_proofs HCell_model HCell_props BuildTree_model BuildTree_spec BuildTree_lemmas
  BuildTree_inv BuildTree_shape BuildTree_props Vec Geometry_model Geometry_props Cofm_model Cofm_spec Cofm_proofs Search_model
  Search_proofs Search_sph Search_props Gravity_model Fmm_model Fmm_spec Fmm_proofs Fmm_calls.
Local Open Scope R_scope.

Lemma exec_all_app n gc na bodies : forall a s b,
  exec_all n gc na bodies s (a ++ b) = (s' <- exec_all n gc na bodies s a ;; exec_all n gc na bodies s' b).
Proof. induction a as [|c a IH]; intros s b; [reflexivity|]. cbn [app exec_all]. destruct (exec n gc na bodies s c); [apply IH|reflexivity]. Qed.

Lemma suml_unique {A} (key : A -> N) (f : A -> R) X x0 : NoDup (map key X) -> In x0 X ->
  suml (fun x => if (key x =? key x0)%N then f x else 0) X = f x0.
Proof.
  induction X as [|a X IH]; [intros _ []|]. cbn [map suml]. intros Hnd Hin. inversion Hnd; subst.
  assert (Z : forall l, (forall x, In x l -> key x <> key x0) -> suml (fun x => if (key x =? key x0)%N then f x else 0) l = 0).
  { intros l H. rewrite (suml_ext _ (fun _ => 0)); [apply suml_zero|]. intros x Hx. destruct (N.eqb_spec (key x) (key x0)) as [E|E]; [|reflexivity].
    exfalso. apply (H x Hx E). }
  destruct Hin as [->|Hin].
  - rewrite N.eqb_refl, Z; [ring|]. intros x Hx E. apply H1. rewrite <- E. apply in_map. assumption.
  - destruct (N.eqb_spec (key a) (key x0)) as [E|E].
    + exfalso. apply H1. rewrite E. apply in_map. assumption.
    + rewrite IH by assumption. ring.
Qed.

Section Exec.
Variable dim : N.
Hypothesis Hdim : dim_ok dim.
Variables (t : table) (cofms : list cofm) (bodies : list body) (gc : R).
Notation n := (N.to_nat dim).
Hypothesis Hmass : forall b, In b bodies -> (0 < b_mass b)%R.
Notation okt := (okt dim t cofms bodies).
Notation gb := (get_body bodies).
Notation tpair := ((N * tree) * (N * tree))%type.
Notation cell_facts := (cell_facts dim Hdim t cofms bodies Hmass).
Notation gpos := (gpos t cofms bodies).
Notation node_at := (summary_at t cofms).
Notation run := (exec_all n gc node_at bodies).

Definition gm (x : N * tree) : R :=
  match snd x with
  | Leaf i => b_mass (gb i)
  | Node _ _ => match node_at (fst x) with Some s => cm_mass s | None => 0 end
  end.
Definition KA (z : tpair) : point := p2p_acc n gc (gpos (fst z)) (gpos (snd z)) (gm (snd z)).
Definition KP (z : tpair) : R := p2p_pot n gc (gpos (fst z)) (gpos (snd z)) (gm (snd z)).

Definition nodeq (q : N) (z : tpair) : bool := negb (isleaf (fst z)) && (fst (fst z) =? q)%N.
Definition leafn (i : nat) (z : tpair) : bool :=
  match snd (fst z), snd (snd z) with Leaf i', Node _ _ => Nat.eqb i i' | _, _ => false end.
Definition leafl (i : nat) (z : tpair) : bool :=
  match snd (fst z), snd (snd z) with Leaf i', Leaf j' => Nat.eqb i i' && negb (Nat.eqb j' i') | _, _ => false end.

Definition okz (z : tpair) : Prop := okt (fst z) /\ okt (snd z).

Lemma fc_acc_eq f x y M k : fc_acc n gc f x y M k = f k + p2p_acc n gc x y M k.
Proof. unfold fc_acc, p2p_acc, Rdiv. ring. Qed.
Lemma fc_pot_eq p x y M : fc_pot n gc p x y M = p + p2p_pot n gc x y M.
Proof. reflexivity. Qed.

Lemma to_node_ok s x : okt x -> isleaf x = false -> to_node node_at s (fst x) = Some (GNode (gpos x) (gm x) (s_pc s (fst x)) (s_fc s (fst x))).
Proof using Hdim Hmass.
  intros Hx Hl. destruct (cell_facts x Hx) as (c & _ & _ & _ & F). rewrite Hl in F. destruct F as (m & _ & E & _).
  unfold to_node. rewrite E. destruct x as [p [i|k ch]]; [discriminate|]. unfold Fmm_proofs.gpos, gm. cbn [fst snd] in *. rewrite E. reflexivity.
Qed.

Lemma to_node_ok' s p k ch : okt (p, Node k ch) -> to_node node_at s p =
  Some (GNode (gpos (p, Node k ch)) (gm (p, Node k ch)) (s_pc s p) (s_fc s p)).
Proof using Hdim Hmass. intros H. apply (to_node_ok s (p, Node k ch) H eq_refl). Qed.

Lemma exec_first : forall L s, Forall okz L -> exists s', run s (flat_map calls_of L) = Some s' /\
  (forall q, s_pc s' q = s_pc s q + suml (fun z => if nodeq q z then KP z else 0) L) /\
  (forall q k, s_fc s' q k = s_fc s q k + suml (fun z => if nodeq q z then KA z k else 0) L) /\
  (forall i, s_pot s' i = s_pot s i + suml (fun z => if leafn i z then KP z else 0) L) /\
  (forall i k, s_acc s' i k = s_acc s i k + suml (fun z => if leafn i z then KA z k else 0) L).
Proof using Hdim Hmass.
  induction L as [|z L IH]; intros s H.
  - exists s. cbn [flat_map exec_all suml]. repeat split; intros; ring.
  - inversion H as [|? ? [Hx Hy] HL]; subst. cbn [flat_map]. rewrite exec_all_app.
    assert (S1 : exists s1, run s (calls_of z) = Some s1 /\
      (forall q, s_pc s1 q = s_pc s q + (if nodeq q z then KP z else 0)) /\
      (forall q k, s_fc s1 q k = s_fc s q k + (if nodeq q z then KA z k else 0)) /\
      (forall i, s_pot s1 i = s_pot s i + (if leafn i z then KP z else 0)) /\
      (forall i k, s_acc s1 i k = s_acc s i k + (if leafn i z then KA z k else 0))).
    { destruct z as [x y]. cbn [fst snd] in Hx, Hy. unfold nodeq, leafn, KP, KA.
      destruct x as [p [i|k0 ch]], y as [p' [j|k' ch']]; unfold calls_of; cbn [fst snd isleaf negb andb].
      - exists s. cbn [exec_all]. repeat split; intros; ring.
      - cbn [exec_all exec]. rewrite (to_node_ok' _ _ _ _ Hy).
        eexists. split; [reflexivity|]. unfold put_body, p2p_one, to_body. cbn [s_pc s_fc s_pot s_acc fold_left map g_id g_pot g_acc fst snd g_pos gn_pos gn_mass].
        split; [intros; ring|]. split; [intros; ring|].
        split; intros i'; [|intros k]; destruct (Nat.eqb_spec i' i) as [->|_]; rewrite ?fc_acc_eq, ?fc_pot_eq; try ring; reflexivity.
      - cbn [exec_all exec]. rewrite (to_node_ok' _ _ _ _ Hx).
        eexists. split; [reflexivity|]. unfold put_node, taylor_p2c, to_body. cbn [s_pc s_fc s_pot s_acc gn_pc gn_fc gn_pos gn_mass g_pos g_mass].
        split; [|split; [|split; intros; ring]].
        + intros q. rewrite (N.eqb_sym p q). destruct (N.eqb_spec q p) as [->|_]; [rewrite fc_pot_eq; reflexivity|ring].
        + intros q k. rewrite (N.eqb_sym p q). destruct (N.eqb_spec q p) as [->|_]; [rewrite fc_acc_eq; reflexivity|ring].
      - cbn [exec_all exec]. rewrite (to_node_ok' _ _ _ _ Hx), (to_node_ok' _ _ _ _ Hy).
        eexists. split; [reflexivity|]. unfold put_node, taylor_c2c, to_body. cbn [s_pc s_fc s_pot s_acc gn_pc gn_fc gn_pos gn_mass g_pos g_mass].
        split; [|split; [|split; intros; ring]].
        + intros q. rewrite (N.eqb_sym p q). destruct (N.eqb_spec q p) as [->|_]; [rewrite fc_pot_eq; reflexivity|ring].
        + intros q k. rewrite (N.eqb_sym p q). destruct (N.eqb_spec q p) as [->|_]; [rewrite fc_acc_eq; reflexivity|ring]. }
    destruct S1 as (s1 & E1 & A1 & B1 & C1 & D1). rewrite E1. destruct (IH s1 HL) as (s' & E & A & B' & C & D').
    exists s'. split; [exact E|]. cbn [suml].
    split; [intros; rewrite A, A1; ring|]. split; [intros; rewrite B', B1; ring|]. split; [intros; rewrite C, C1; ring|].
    intros; rewrite D', D1; ring.
Qed.

Lemma exec_c2p_one a : forall l s, let s' := fold_left (fun s i => put_body s (interaction_c2p n (to_body bodies s i) a)) l s in
  s_pc s' = s_pc s /\ s_fc s' = s_fc s /\
  (forall i, s_pot s' i = s_pot s i + INR (count_occ Nat.eq_dec l i) *
     (gn_pc a + sumn n (fun m => - (b_pos (gb i) m - gn_pos a m) * gn_fc a m))) /\
  (forall i k, s_acc s' i k = s_acc s i k + INR (count_occ Nat.eq_dec l i) * gn_fc a k).
Proof.
  induction l as [|j l IH]; intros s; cbv zeta.
  - cbn [fold_left count_occ INR]. repeat split; intros; ring.
  - cbn [fold_left]. destruct (IH (put_body s (interaction_c2p n (to_body bodies s j) a))) as (A & B' & C & D').
    rewrite A, B'. split; [reflexivity|]. split; [reflexivity|].
    split; intros i; [rewrite C|intros k; rewrite D']; cbn [count_occ]; unfold put_body, interaction_c2p, to_body;
      cbn [s_pot s_acc g_id g_pot g_acc g_pos]; destruct (Nat.eqb_spec i j) as [->|Hne];
      (destruct (Nat.eq_dec j j) as [_|Hn]; [|congruence]) || (destruct (Nat.eq_dec j i) as [E|_]; [congruence|]); rewrite ?S_INR; ring.
Qed.

Lemma exec_c2p : forall X cs s, Forall2 is_c2p X cs -> Forall (fun x => okt x /\ isleaf x = false) X -> exists s', run s cs = Some s' /\
  s_pc s' = s_pc s /\ s_fc s' = s_fc s /\
  (forall i, s_pot s' i = s_pot s i + suml (fun x => INR (cnt i x) *
     (s_pc s (fst x) + sumn n (fun m => - (b_pos (gb i) m - gpos x m) * s_fc s (fst x) m))) X) /\
  (forall i k, s_acc s' i k = s_acc s i k + suml (fun x => INR (cnt i x) * s_fc s (fst x) k) X).
Proof using Hdim Hmass.
  intros X cs s H. revert s. induction H as [|x c X cs (l & -> & HP) H IH]; intros s HX.
  - exists s. cbn [exec_all suml]. repeat split; intros; ring.
  - inversion HX as [|? ? [Hx Hl] HX']; subst. cbn [exec_all exec]. rewrite to_node_ok by assumption.
    destruct (exec_c2p_one (GNode (gpos x) (gm x) (s_pc s (fst x)) (s_fc s (fst x))) l s) as (A & B' & C & D').
    set (s1 := fold_left _ l s) in *. destruct (IH s1 HX') as (s' & E & A1 & B1 & C1 & D1).
    exists s'. split; [exact E|]. rewrite A1, B1, A, B'. split; [reflexivity|]. split; [reflexivity|].
    assert (Hc : forall i, count_occ Nat.eq_dec l i = cnt i x).
    { intros i. unfold cnt. revert i. apply Permutation_count_occ. assumption. }
    split; intros i; [|intros k]; cbn [suml].
    + rewrite C1, C, A, B', Hc. cbn [gn_pc gn_fc gn_pos]. ring.
    + rewrite D1, D', B', Hc. cbn [gn_fc]. ring.
Qed.

Lemma exec_p2p : forall L s, exists s', run s (flat_map ppcall L) = Some s' /\
  (forall i, s_pot s' i = s_pot s i + suml (fun z => if leafl i z then KP z else 0) L) /\
  (forall i k, s_acc s' i k = s_acc s i k + suml (fun z => if leafl i z then KA z k else 0) L).
Proof.
  induction L as [|z L IH]; intros s.
  - exists s. cbn [flat_map exec_all suml]. repeat split; intros; ring.
  - cbn [flat_map]. rewrite exec_all_app.
    assert (S1 : exists s1, run s (ppcall z) = Some s1 /\
      (forall i, s_pot s1 i = s_pot s i + (if leafl i z then KP z else 0)) /\
      (forall i k, s_acc s1 i k = s_acc s i k + (if leafl i z then KA z k else 0))).
    { destruct z as [[p [i|k0 ch]] [p' [j|k' ch']]]; unfold ppcall, leafl, KP, KA; cbn [fst snd];
        try (exists s; cbn [exec_all]; repeat split; intros; ring).
      cbn [exec_all exec]. eexists. split; [reflexivity|]. unfold put_body, p2p_one, to_body, Fmm_proofs.gpos, gm.
      cbn [s_pot s_acc fold_left map g_id g_pot g_acc fst snd g_pos g_mass].
      split; intros i'; [|intros k]; destruct (Nat.eqb_spec i' i) as [->|_], (Nat.eqb_spec j i) as [Ej|_]; cbn [andb negb fst snd]; unfold vadd; try ring; reflexivity. }
    destruct S1 as (s1 & E1 & C1 & D1). rewrite E1. destruct (IH s1) as (s' & E & C & D').
    exists s'. split; [exact E|]. cbn [suml]. split; [intros; rewrite C, C1; ring|]. intros; rewrite D', D1; ring.
Qed.

(** the effect of the pair [z] on particle [i] *)
Definition same_leaf (z : tpair) : bool :=
  match snd (fst z), snd (snd z) with Leaf i', Leaf j' => Nat.eqb j' i' | _, _ => false end.
Definition EA (i : nat) (k : nat) (z : tpair) : R := if same_leaf z then 0 else INR (cnt i (fst z)) * KA z k.
Definition EP (i : nat) (z : tpair) : R := if same_leaf z then 0 else
  INR (cnt i (fst z)) * (KP z + sumn n (fun m => - (b_pos (gb i) m - gpos (fst z) m) * KA z m)).

Lemma exec_fmm L X cs s0 : Forall okz L -> Forall2 is_c2p X cs -> Forall (fun x => okt x /\ isleaf x = false) X ->
  NoDup (map fst X) -> (forall z, In z L -> isleaf (fst z) = false -> In (fst z) X) -> s0 = gstate0 ->
  exists s', run s0 (flat_map calls_of L ++ cs ++ flat_map ppcall L) = Some s' /\
    (forall i, s_pot s' i = suml (EP i) L) /\ (forall i k, s_acc s' i k = suml (EA i k) L).
Proof using Hdim Hmass.
  intros HL HF HX Hnd HLX ->.
  destruct (exec_first L gstate0 HL) as (s1 & E1 & A1 & B1 & C1 & D1).
  destruct (exec_c2p X cs s1 HF HX) as (s2 & E2 & A2 & B2 & C2 & D2).
  destruct (exec_p2p L s2) as (s3 & E3 & C3 & D3).
  exists s3. rewrite exec_all_app, E1, exec_all_app, E2. split; [exact E3|].
  assert (SW : forall (w : N * tree -> R) (f : tpair -> R),
     suml (fun x => w x * suml (fun z => if nodeq (fst x) z then f z else 0) L) X =
     suml (fun z => if isleaf (fst z) then 0 else w (fst z) * f z) L).
  { intros w f. rewrite (suml_ext _ (fun x => suml (fun z => w x * (if nodeq (fst x) z then f z else 0)) L))
      by (intros x _; rewrite suml_scal; reflexivity).
    rewrite suml_swap. apply suml_ext. intros z Hz. unfold nodeq. destruct (isleaf (fst z)) eqn:El; cbn [negb andb].
    - rewrite (suml_ext _ (fun _ => 0)) by (intros; ring). apply suml_zero.
    - rewrite (suml_ext _ (fun x => if (fst x =? fst (fst z))%N then w x * f z else 0)).
      + apply (suml_unique fst (fun x => w x * f z)); auto.
      + intros x _. rewrite (N.eqb_sym (fst (fst z))). destruct (_ =? _)%N; ring. }
  split; intros i; [|intros k].
  - rewrite C3, C2, C1. cbn [gstate0 s_pot]. rewrite (suml_ext _ (fun x => INR (cnt i x) * suml (fun z => if nodeq (fst x) z then
       KP z + sumn n (fun m => - (b_pos (gb i) m - gpos (fst z) m) * KA z m) else 0) L)).
    + rewrite SW, Rplus_0_l, <- !suml_plus. apply suml_ext. intros z _. unfold leafn, leafl, EP, same_leaf, cnt, isleaf.
      destruct z as [[p [i'|k0 ch]] [p' [j'|k' ch']]]; cbn [fst snd leaves].
      * cbn [count_occ]. destruct (Nat.eqb_spec j' i') as [->|Hj]; [rewrite andb_false_r; ring|]. rewrite andb_true_r.
        destruct (Nat.eqb_spec i i') as [->|Hi]; [destruct (Nat.eq_dec i' i'); [|congruence]|destruct (Nat.eq_dec i' i); [congruence|]]; cbn [INR].
        -- rewrite (sumn_ext n _ (fun _ => 0)) by (intros m _; unfold Fmm_proofs.gpos; cbn [snd]; ring). rewrite sumn_zero. ring.
        -- ring.
      * cbn [count_occ]. destruct (Nat.eqb_spec i i') as [->|Hi]; [destruct (Nat.eq_dec i' i'); [|congruence]|destruct (Nat.eq_dec i' i); [congruence|]]; cbn [INR].
        -- rewrite (sumn_ext n _ (fun _ => 0)) by (intros m _; unfold Fmm_proofs.gpos; cbn [snd]; ring). rewrite sumn_zero. ring.
        -- ring.
      * ring.
      * ring.
    + intros x Hx. f_equal. rewrite A1. cbn [gstate0 s_pc].
      rewrite (sumn_ext n _ (fun m => suml (fun z => if nodeq (fst x) z then - (b_pos (gb i) m - gpos (fst z) m) * KA z m else 0) L)).
      * rewrite <- suml_sumn, Rplus_0_l, <- suml_plus. apply suml_ext. intros z _. destruct (nodeq (fst x) z); [ring|]. rewrite sumn_zero. ring.
      * intros m _. rewrite B1. cbn [gstate0 s_fc]. unfold vzero. rewrite Rplus_0_l, <- suml_scal. apply suml_ext. intros z Hz.
        destruct (nodeq (fst x) z) eqn:En; [|ring]. do 3 f_equal. unfold nodeq in En. apply andb_true_iff in En. destruct En as [En1 En2].
        apply N.eqb_eq in En2. f_equal. f_equal. apply negb_true_iff in En1. rewrite Forall_forall in HL, HX.
        symmetry. apply (okt_inj dim t cofms bodies); [apply (HL z Hz)|apply (HX x Hx)|assumption].
  - rewrite D3, D2, D1. cbn [gstate0 s_acc]. unfold vzero.
    rewrite (suml_ext _ (fun x => INR (cnt i x) * suml (fun z => if nodeq (fst x) z then KA z k else 0) L)).
    + rewrite SW, Rplus_0_l, <- !suml_plus. apply suml_ext. intros z _. unfold leafn, leafl, EA, same_leaf, cnt, isleaf.
      destruct z as [[p [i'|k0 ch]] [p' [j'|k' ch']]]; cbn [fst snd leaves].
      * cbn [count_occ]. destruct (Nat.eqb_spec j' i') as [->|Hj]; [rewrite andb_false_r; ring|]. rewrite andb_true_r.
        destruct (Nat.eqb_spec i i') as [->|Hi]; [destruct (Nat.eq_dec i' i'); [|congruence]|destruct (Nat.eq_dec i' i); [congruence|]]; cbn [INR]; ring.
      * cbn [count_occ]. destruct (Nat.eqb_spec i i') as [->|Hi]; [destruct (Nat.eq_dec i' i'); [|congruence]|destruct (Nat.eq_dec i' i); [congruence|]]; cbn [INR]; ring.
      * ring.
      * ring.
    + intros x Hx. rewrite B1. cbn [gstate0 s_fc]. unfold vzero. rewrite Rplus_0_l. reflexivity.
Qed.
End Exec.
