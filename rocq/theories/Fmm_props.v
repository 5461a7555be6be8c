(** C15, C68, C69: the gravity traversal on one process. *)
From Coq Require Import Sorted Permutation.
From Verif Require Import Base Key_model Key_spec Key_proofs HCell_model HCell_props BuildTree_model BuildTree_spec BuildTree_lemmas
  BuildTree_inv BuildTree_proofs BuildTree_shape BuildTree_props Vec Geometry_model Geometry_props Cofm_model Cofm_spec Cofm_proofs
  Search_model Search_proofs Search_sph Search_props Gravity_model Fmm_model Fmm_spec Fmm_proofs Fmm_calls Fmm_exec Fmm_built.
Local Open Scope N_scope.
Local Notation up := BuildTree_spec.up.

(** What the theorems assume: sorted distinct full keys, one particle per key,
    positive masses, distinct positions. *)
Definition fmm_input (dim : N) (ks : list N) (bodies : list body) : Prop :=
  dim_ok dim /\ ks <> [] /\ StronglySorted N.lt ks /\ Forall (full_key dim) ks /\ length bodies = length ks /\
  (forall b, In b bodies -> (0 < b_mass b)%R) /\
  (forall i j, (i < length bodies)%nat -> (j < length bodies)%nat -> i <> j ->
     ~ peq (N.to_nat dim) (b_pos (get_body bodies i)) (b_pos (get_body bodies j))).

(** ** counting *)
Lemma nsum_unique {A} (key : A -> N) (f : A -> nat) X x0 : NoDup (map key X) -> In x0 X ->
  nsum (fun x => if key x =? key x0 then f x else 0%nat) X = f x0.
Proof.
  induction X as [|a X IH]; [intros _ []|]. cbn [map]. rewrite nsum_cons. intros Hnd Hin. inversion Hnd as [|? ? H1 H2]; subst.
  destruct Hin as [->|Hin].
  - rewrite N.eqb_refl, nsum_0; [lia|]. intros x Hx. destruct (N.eqb_spec (key x) (key x0)) as [E|E]; [|reflexivity].
    exfalso. apply H1. rewrite <- E. apply in_map. assumption.
  - destruct (N.eqb_spec (key a) (key x0)) as [E|E].
    + exfalso. apply H1. rewrite E. apply in_map. assumption.
    + rewrite IH by assumption. lia.
Qed.

Lemma Forall2_in_r {A C} (Q : A -> C -> Prop) l m y : Forall2 Q l m -> In y m -> exists x, In x l /\ Q x y.
Proof.
  induction 1 as [|a b l m H H' IH]; [intros []|]. intros [<-|Hy]; [exists a; split; [left; reflexivity|assumption]|].
  destruct (IH Hy) as (x & Hx & HQ). exists x. split; [right; assumption|assumption].
Qed.

(** Every ordered pair (target, source) is served by exactly one route. *)
Theorem C15_each_pair_once dim lob hib ks bodies MAC : fmm_input dim ks bodies ->
  exists st mx fuel0, build_tree cofm (fcc_cofm (N.to_nat dim) bodies) dim true true lob hib ks = Some (st, mx) /\
  forall fuel, (fuel0 <= fuel)%nat -> exists calls,
    traversal_fmm dim (st_tab st) (st_cofm st) bodies MAC fuel = Some calls /\
    forall i j, (i < length ks)%nat -> (j < length ks)%nat -> routes dim ks calls i j = 1%nat.
Proof.
  intros (Hdim & Hne & Hs & Hf & Hlen & Hmass & Hdist).
  destruct (fmm_built dim lob hib ks bodies MAC Hdim Hne Hs Hf Hlen Hmass) as (st & mx & E & Hok & HT).
  exists st, mx, (fuel0 dim ks). split; [exact E|]. intros fuel Hfuel.
  destruct (HT fuel Hfuel) as (calls & ET & HR). exists calls. split; [exact ET|]. intros i j Hi Hj.
  rewrite <- (fmm_covers dim ks bodies MAC Hdim Hs Hf Hlen Hmass Hdist st Hok fuel Hfuel i j Hi Hj).
  set (Dn := gqueue _ _ _ _ _ _ _) in *. clearbody Dn. clear ET HT.
  destruct HR as [Hsub HOK _ _ (X & cs & -> & HF & HX & Hnd & HLX)].
  pose proof (full_keys_full dim ks Hf) as Hf'.
  assert (CNT : forall x, In x (subs dim 1 (canon dim (N.to_nat (max_depth dim)) 1 (numbered ks))) -> cnt j x = inside dim ks (fst x) j).
  { intros x Hx. apply below_cnt; auto. apply (below_subs dim Hdim ks Hs Hf'). assumption. }
  unfold routes. change @total with @nsum. set (calls := flat_map calls_of Dn ++ cs ++ flat_map ppcall Dn).
  (* what a cell receives *)
  assert (ON : forall p, nsum (on_cell dim ks p j) calls =
     nsum (fun z => if isleaf (fst z) then 0%nat else if fst (fst z) =? p then cnt j (snd z) else 0%nat) Dn).
  { intros p. unfold calls. rewrite !nsum_app. rewrite (nsum_0 _ cs), (nsum_0 _ (flat_map ppcall Dn)), !Nat.add_0_r.
    - rewrite nsum_flat_map. apply nsum_ext. intros z Hz. destruct (Hsub z Hz) as [_ H2]. specialize (CNT (snd z) H2).
      unfold calls_of, isleaf. destruct z as [[q [i'|k ch]] [q' [j'|k' ch']]]; cbn [fst snd] in *; unfold nsum; cbn [map on_cell list_sum fold_right]; try reflexivity.
      + unfold cnt. cbn [snd leaves count_occ]. destruct (Nat.eqb_spec j' j) as [->|Hj'].
        * destruct (Nat.eq_dec j j) as [_|C]; [|congruence]. destruct (q =? p); reflexivity.
        * destruct (Nat.eq_dec j' j) as [C|_]; [congruence|]. rewrite andb_false_r. destruct (q =? p); reflexivity.
      + rewrite CNT, Nat.add_0_r. reflexivity.
    - intros c Hc. apply in_flat_map in Hc. destruct Hc as (z & _ & Hc). unfold ppcall in Hc.
      destruct (snd (fst z)), (snd (snd z)); try destruct Hc as [<-|[]]; try destruct Hc. reflexivity.
    - intros c Hc. destruct (Forall2_in_r _ _ _ _ HF Hc) as (x & _ & l & -> & _). reflexivity. }
  assert (Ecalls : calls = flat_map calls_of Dn ++ cs ++ flat_map ppcall Dn) by reflexivity. clearbody calls.
  assert (PASS : nsum (passed_on dim ks calls i j) calls =
     nsum (fun z => if isleaf (fst z) then 0%nat else cov i j z) Dn).
  { rewrite Ecalls at 2. rewrite !nsum_app. rewrite (nsum_0 _ (flat_map calls_of Dn)), (nsum_0 _ (flat_map ppcall Dn)), Nat.add_0_r, Nat.add_0_l.
    - transitivity (nsum (fun x => (cnt i x * nsum (on_cell dim ks (fst x) j) calls)%nat) X).
      + clear - HF. induction HF as [|x c X cs (l & -> & HP) HF IH]; [reflexivity|]. rewrite !nsum_cons, IH. f_equal. cbn [passed_on].
        f_equal. unfold cnt. apply (proj1 (Permutation_count_occ Nat.eq_dec _ _) HP).
      + rewrite (nsum_ext _ (fun x => nsum (fun z => (cnt i x * (if isleaf (fst z) then 0 else if (fst (fst z) =? fst x)%N then cnt j (snd z) else 0))%nat) Dn))
          by (intros x _; rewrite ON, nsum_scal; reflexivity).
        rewrite nsum_swap. apply nsum_ext. intros z Hz. destruct (isleaf (fst z)) eqn:El; [apply nsum_0; intros; lia|].
        rewrite (nsum_ext _ (fun x => if fst x =? fst (fst z) then (cnt i x * cnt j (snd z))%nat else 0%nat)).
        * apply (nsum_unique fst (fun x => (cnt i x * cnt j (snd z))%nat)); auto.
        * intros x _. rewrite (N.eqb_sym (fst (fst z))). destruct (_ =? _); lia.
    - intros c Hc. apply in_flat_map in Hc. destruct Hc as (z & _ & Hc). unfold ppcall in Hc.
      destruct (snd (fst z)), (snd (snd z)); try destruct Hc as [<-|[]]; try destruct Hc. reflexivity.
    - intros c Hc. apply in_flat_map in Hc. destruct Hc as (z & _ & Hc). unfold calls_of in Hc.
      destruct (snd (fst z)), (snd (snd z)); try destruct Hc as [<-|[]]; try destruct Hc; reflexivity. }
  rewrite PASS, Ecalls. rewrite !nsum_app, (nsum_0 _ cs), Nat.add_0_l.
  - rewrite !nsum_flat_map, <- !nsum_plus. apply nsum_ext. intros z Hz. destruct (Hsub z Hz) as [_ H2]. specialize (CNT (snd z) H2).
    unfold calls_of, ppcall, isleaf, cov. destruct z as [[q [i'|k ch]] [q' [j'|k' ch']]]; cbn [fst snd] in *; unfold nsum;
      cbn [map direct list_sum fold_right]; try lia.
    + unfold cnt. cbn [snd leaves count_occ]. destruct (Nat.eqb_spec i' i) as [->|Hi'].
      * destruct (Nat.eq_dec i i) as [_|C]; [|congruence]. destruct (Nat.eq_dec j' j); lia.
      * destruct (Nat.eq_dec i' i) as [C|_]; [congruence|]. lia.
    + rewrite CNT. unfold cnt. cbn [snd leaves count_occ]. destruct (Nat.eqb_spec i' i) as [->|Hi'].
      * destruct (Nat.eq_dec i i) as [_|C]; [|congruence]. lia.
      * destruct (Nat.eq_dec i' i) as [C|_]; [congruence|]. lia.
  - intros c Hc. destruct (Forall2_in_r _ _ _ _ HF Hc) as (x & _ & l & -> & _). reflexivity.
Qed.

(** ** the field *)
Local Open Scope R_scope.

Lemma pick_unique {A} (f : A -> nat) l : nsum f l = 1%nat -> exists z0, find (fun z => Nat.eqb (f z) 1) l = Some z0 /\ In z0 l /\ f z0 = 1%nat /\
  forall g : A -> R, suml (fun z => INR (f z) * g z) l = g z0.
Proof.
  induction l as [|a l IH]; [discriminate|]. rewrite nsum_cons. intros H. cbn [find].
  destruct (Nat.eqb_spec (f a) 1) as [E|E].
  - exists a. split; [reflexivity|]. split; [left; reflexivity|]. split; [assumption|]. intros g. cbn [suml]. rewrite E. cbn [INR].
    assert (Z : nsum f l = 0%nat) by lia. clear - Z.
    assert (suml (fun z => INR (f z) * g z) l = 0).
    { induction l as [|b l IH]; [reflexivity|]. rewrite nsum_cons in Z. cbn [suml]. rewrite IH by lia. replace (f b) with 0%nat by lia. cbn [INR]. ring. }
    rewrite H. ring.
  - assert (f a = 0%nat) by lia. destruct (IH ltac:(lia)) as (z0 & E0 & Hin & H1 & HG). exists z0. split; [assumption|]. split; [right; assumption|].
    split; [assumption|]. intros g. cbn [suml]. rewrite HG, H0. cbn [INR]. ring.
Qed.

Lemma suml_count f (l : list nat) N0 : (forall j, In j l -> (j < N0)%nat) ->
  suml f l = suml (fun j => INR (count_occ Nat.eq_dec l j) * f j) (seq 0 N0).
Proof.
  induction l as [|a l IH]; intros H.
  - cbn [suml count_occ INR]. rewrite (suml_ext _ (fun _ => 0)) by (intros; ring). rewrite suml_zero. reflexivity.
  - cbn [suml]. rewrite IH by (intros; apply H; right; assumption).
    assert (Ha : (a < N0)%nat) by (apply H; left; reflexivity).
    rewrite (suml_ext (fun j => INR (count_occ Nat.eq_dec (a :: l) j) * f j)
      (fun j => (if (N.of_nat j =? N.of_nat a)%N then f j else 0) + INR (count_occ Nat.eq_dec l j) * f j)).
    + rewrite suml_plus. f_equal. symmetry. apply (suml_unique N.of_nat f); [|apply in_seq; lia].
      apply FinFun.Injective_map_NoDup; [intros x y; lia|apply seq_NoDup].
    + intros j _. cbn [count_occ]. destruct (Nat.eq_dec a j) as [->|Hne].
      * rewrite N.eqb_refl, S_INR. ring.
      * destruct (N.eqb_spec (N.of_nat j) (N.of_nat a)); [lia|]. ring.
Qed.

Section Field.
Variables (dim : N) (ks : list N) (bodies : list body) (MAC gc : R) (t : table) (cofms : list cofm).
Variable Dn : list ((N * tree) * (N * tree)).
Hypothesis Hdim : dim_ok dim.
Hypothesis Hmass : forall b, In b bodies -> (0 < b_mass b)%R.
Hypothesis Hlen : length bodies = length ks.
Notation n := (N.to_nat dim).
Notation gb := (get_body bodies).
Notation gpos := (gpos t cofms bodies).
Notation grad := (grad t cofms).
Notation gm := (gm t cofms bodies).
Notation okt := (okt dim t cofms bodies).

Lemma gm_sum y : okt y -> gm y = suml (fun j => INR (cnt j y) * b_mass (gb j)) (seq 0 (length ks)).
Proof using Hdim Hmass Hlen.
  intros Hy. unfold cnt. rewrite <- (suml_count (fun j => b_mass (gb j)) (leaves (snd y))).
  - destruct (cell_facts dim Hdim t cofms bodies Hmass y Hy) as (c & _ & _ & _ & F). unfold Fmm_exec.gm.
    destruct y as [p [i|k ch]]; cbn [snd fst isleaf leaves suml] in *; [ring|].
    destruct F as (s & _ & E & Hs & _). cbn [fst] in E. rewrite E, (so_mass _ _ _ Hs), suml_map. reflexivity.
  - destruct Hy as (_ & _ & H). intros j Hj. rewrite <- Hlen. apply H. assumption.
Qed.

Lemma grad_dist x i : okt x -> cnt i x = 1%nat -> 0 <= grad x /\ dist n (b_pos (gb i)) (gpos x) <= grad x.
Proof using Hdim Hmass Hlen.
  intros Hx Hi. assert (Hin : In i (leaves (snd x))) by (apply (count_occ_In Nat.eq_dec); unfold cnt in Hi; lia).
  destruct (cell_facts dim Hdim t cofms bodies Hmass x Hx) as (c & _ & _ & _ & F). unfold Fmm_proofs.grad, Fmm_proofs.gpos.
  destruct x as [p [i'|k ch]]; cbn [snd fst isleaf leaves] in *.
  - destruct Hin as [->|[]]. rewrite dist_self. lra.
  - destruct F as (s & _ & E & Hs & _). rewrite E. split; [apply (so_rad0 _ _ _ Hs)|]. rewrite dist_sym. apply (so_rad _ _ _ Hs). apply in_map. assumption.
Qed.

Hypothesis Hok : forall z, In z Dn -> okt (fst z) /\ okt (snd z).
Hypothesis Hacc : forall z, In z Dn -> accepted dim t cofms bodies MAC z.
Hypothesis Hsep : forall z i, In z Dn -> fst (fst z) <> fst (snd z) -> cov i i z = 0%nat.
Hypothesis Hcov : forall i j, (i < length ks)%nat -> (j < length ks)%nat -> nsum (cov i j) Dn = 1%nat.

Definition pick (i j : nat) : (N * tree) * (N * tree) :=
  match find (fun z => Nat.eqb (cov i j z) 1) Dn with Some z => z | None => ((0%N, Leaf 0), (0%N, Leaf 0)) end.
Definition others (i : nat) : list nat := filter (fun j => negb (Nat.eqb j i)) (seq 0 (length ks)).

Lemma pick_ok i j : (i < length ks)%nat -> (j < length ks)%nat -> In (pick i j) Dn /\ cnt i (fst (pick i j)) = 1%nat /\ cnt j (snd (pick i j)) = 1%nat /\
  (forall g, suml (fun z => INR (cov i j z) * g z) Dn = g (pick i j)) /\ same_leaf (pick i j) = Nat.eqb j i.
Proof using Hacc Hcov Hsep Hok.
  intros Hi Hj. destruct (pick_unique (cov i j) Dn (Hcov i j Hi Hj)) as (z0 & E & Hin & H1 & HG). unfold pick. rewrite E.
  assert (C1 : cnt i (fst z0) = 1%nat) by (unfold cov in H1; apply Nat.eq_mul_1 in H1; tauto).
  assert (C2 : cnt j (snd z0) = 1%nat) by (unfold cov in H1; apply Nat.eq_mul_1 in H1; tauto).
  split; [assumption|]. split; [assumption|]. split; [assumption|]. split; [assumption|].
  destruct (Nat.eqb_spec j i) as [->|Hne].
  - destruct (N.eq_dec (fst (fst z0)) (fst (snd z0))) as [Ek|Ek]; [|rewrite (Hsep z0 i Hin Ek) in H1; discriminate].
    destruct (Hacc z0 Hin) as [L|[Ek' _]]; [|contradiction]. destruct (Hok z0 Hin) as [O1 O2].
    pose proof (okt_inj dim t cofms bodies _ _ O1 O2 Ek) as Ex. destruct z0 as [[p [a|k ch]] y]; cbn [fst snd] in *; [|discriminate].
    subst y. unfold same_leaf. cbn [fst snd]. apply Nat.eqb_refl.
  - unfold same_leaf. destruct z0 as [[p [a|k ch]] [p' [b|k' ch']]]; cbn [fst snd] in *; try reflexivity.
    unfold cnt in C1, C2. cbn [snd leaves count_occ] in C1, C2. destruct (Nat.eq_dec a i), (Nat.eq_dec b j); try discriminate. subst.
    apply Nat.eqb_neq. assumption.
Qed.

Lemma field_acc i k : (i < length ks)%nat -> suml (EA dim t cofms bodies gc i k) Dn =
  suml (fun j => p2p_acc n gc (gpos (fst (pick i j))) (gpos (snd (pick i j))) (b_mass (gb j)) k) (others i).
Proof using Hdim Hmass Hlen Hacc Hcov Hsep Hok.
  intros Hi.
  rewrite (suml_ext _ (fun z => suml (fun j => INR (cov i j z) * (if same_leaf z then 0 else
     p2p_acc n gc (gpos (fst z)) (gpos (snd z)) (b_mass (gb j)) k)) (seq 0 (length ks)))).
  - rewrite suml_swap. unfold others.
    assert (G : forall l, (forall j, In j l -> (j < length ks)%nat) ->
      suml (fun j => suml (fun z => INR (cov i j z) * (if same_leaf z then 0 else p2p_acc n gc (gpos (fst z)) (gpos (snd z)) (b_mass (gb j)) k)) Dn) l =
      suml (fun j => p2p_acc n gc (gpos (fst (pick i j))) (gpos (snd (pick i j))) (b_mass (gb j)) k) (filter (fun j => negb (Nat.eqb j i)) l)).
    { induction l as [|j l IH]; intros Hl; [reflexivity|]. cbn [suml filter]. rewrite IH by (intros; apply Hl; right; assumption).
      destruct (pick_ok i j Hi (Hl j (or_introl eq_refl))) as (_ & _ & _ & HG & HS). rewrite HG, HS.
      destruct (Nat.eqb j i); cbn [negb suml]; ring. }
    apply G. intros j Hj. apply in_seq in Hj. lia.
  - intros z Hz. unfold EA, KA. destruct (same_leaf z).
    + symmetry. rewrite (suml_ext _ (fun _ => 0)) by (intros; ring). apply suml_zero.
    + destruct (Hok z Hz) as [_ O2]. unfold p2p_acc at 1. rewrite (gm_sum (snd z) O2).
      transitivity (INR (cnt i (fst z)) * (- gc / (dist n (gpos (fst z)) (gpos (snd z)) * dist n (gpos (fst z)) (gpos (snd z)) * dist n (gpos (fst z)) (gpos (snd z))) *
        (gpos (fst z) k - gpos (snd z) k)) * suml (fun j => INR (cnt j (snd z)) * b_mass (gb j)) (seq 0 (length ks))); [unfold Rdiv; ring|].
      rewrite <- suml_scal. apply suml_ext. intros j _. unfold cov, p2p_acc. rewrite mult_INR. unfold Rdiv. ring.
Qed.

Lemma field_pot i : (i < length ks)%nat -> suml (EP dim t cofms bodies gc i) Dn =
  suml (fun j => p2p_pot n gc (gpos (fst (pick i j))) (gpos (snd (pick i j))) (b_mass (gb j)) +
    sumn n (fun m => - (b_pos (gb i) m - gpos (fst (pick i j)) m) *
      p2p_acc n gc (gpos (fst (pick i j))) (gpos (snd (pick i j))) (b_mass (gb j)) m)) (others i).
Proof using Hdim Hmass Hlen Hacc Hcov Hsep Hok.
  intros Hi.
  set (h := fun (z : (N * tree) * (N * tree)) j => p2p_pot n gc (gpos (fst z)) (gpos (snd z)) (b_mass (gb j)) +
    sumn n (fun m => - (b_pos (gb i) m - gpos (fst z) m) * p2p_acc n gc (gpos (fst z)) (gpos (snd z)) (b_mass (gb j)) m)).
  change (suml (EP dim t cofms bodies gc i) Dn = suml (fun j => h (pick i j) j) (others i)).
  rewrite (suml_ext _ (fun z => suml (fun j => INR (cov i j z) * (if same_leaf z then 0 else h z j)) (seq 0 (length ks)))).
  - rewrite suml_swap. unfold others.
    assert (G : forall l, (forall j, In j l -> (j < length ks)%nat) ->
      suml (fun j => suml (fun z => INR (cov i j z) * (if same_leaf z then 0 else h z j)) Dn) l =
      suml (fun j => h (pick i j) j) (filter (fun j => negb (Nat.eqb j i)) l)).
    { induction l as [|j l IH]; intros Hl; [reflexivity|]. cbn [suml filter]. rewrite IH by (intros; apply Hl; right; assumption).
      destruct (pick_ok i j Hi (Hl j (or_introl eq_refl))) as (_ & _ & _ & HG & HS). rewrite HG, HS.
      destruct (Nat.eqb j i); cbn [negb suml]; ring. }
    apply G. intros j Hj. apply in_seq in Hj. lia.
  - intros z Hz. unfold EP, KP, KA. destruct (same_leaf z).
    + symmetry. rewrite (suml_ext _ (fun _ => 0)) by (intros; ring). apply suml_zero.
    + destruct (Hok z Hz) as [_ O2]. unfold p2p_pot at 1, p2p_acc at 1. rewrite (gm_sum (snd z) O2).
      set (x := gpos (fst z)). set (y := gpos (snd z)). set (M := suml _ (seq 0 (length ks))).
      transitivity (INR (cnt i (fst z)) * (- gc / dist n x y + sumn n (fun m => - (b_pos (gb i) m - x m) *
         (- gc / (dist n x y * dist n x y * dist n x y) * (x m - y m)))) * M).
      * match goal with |- ?a * ?b = ?a * ?c * ?d => replace (a * c * d) with (a * (c * d)) by ring end. f_equal.
        rewrite Rmult_plus_distr_r, (Rmult_comm (sumn _ _) M), <- sumn_scal. f_equal; [unfold Rdiv; ring|].
        apply sumn_ext. intros. fold x y. unfold Rdiv. ring.
      * unfold M. rewrite <- suml_scal. apply suml_ext. intros j _. unfold cov, h, p2p_acc, p2p_pot. fold x y. rewrite mult_INR.
        match goal with |- ?a * ?b * (?c * ?m) = ?a * ?c * ?e => transitivity (a * c * (m * b)); [ring|] end. f_equal.
        rewrite Rmult_plus_distr_l, <- sumn_scal. f_equal; [unfold Rdiv; ring|].
        apply sumn_ext. intros. unfold Rdiv. ring.
Qed.
End Field.

(** The traversal with the functions of fmm.h: the acceleration of a particle
    is the sum over the other particles, each counted once, of the attraction
    between replacement positions.  Either both positions are the true ones, or
    they are within distances rx and ry that satisfy the acceptance criterion.
    The potential is the same sum expanded to first order. *)
Theorem C15_field dim lob hib ks bodies MAC gc : fmm_input dim ks bodies ->
  let n := N.to_nat dim in
  let pos := fun i => b_pos (get_body bodies i) in
  let mass := fun i => b_mass (get_body bodies i) in
  let rest := fun i => filter (fun j => negb (Nat.eqb j i)) (seq 0 (length ks)) in
  exists st mx fuel0, build_tree cofm (fcc_cofm n bodies) dim true true lob hib ks = Some (st, mx) /\
  forall fuel, (fuel0 <= fuel)%nat -> exists calls s,
    traversal_fmm dim (st_tab st) (st_cofm st) bodies MAC fuel = Some calls /\
    exec_all n gc (summary_at (st_tab st) (st_cofm st)) bodies gstate0 calls = Some s /\
    exists sx sy : nat -> nat -> point,
      (forall i j, (i < length ks)%nat -> (j < length ks)%nat -> i <> j -> exists rx ry,
         dist n (pos i) (sx i j) <= rx /\ dist n (pos j) (sy i j) <= ry /\
         (sx i j = pos i /\ sy i j = pos j \/ rx + ry < MAC * dist n (sx i j) (sy i j))) /\
      (forall i k, (i < length ks)%nat -> s_acc s i k = suml (fun j => p2p_acc n gc (sx i j) (sy i j) (mass j) k) (rest i)) /\
      (forall i, (i < length ks)%nat -> s_pot s i = suml (fun j => p2p_pot n gc (sx i j) (sy i j) (mass j) +
         sumn n (fun m => - (pos i m - sx i j m) * p2p_acc n gc (sx i j) (sy i j) (mass j) m)) (rest i)).
Proof.
  intros (Hdim & Hne & Hs & Hf & Hlen & Hmass & Hdist). cbv zeta.
  destruct (fmm_built dim lob hib ks bodies MAC Hdim Hne Hs Hf Hlen Hmass) as (st & mx & E & Hok & HT).
  exists st, mx, (fuel0 dim ks). split; [exact E|]. intros fuel Hfuel.
  destruct (HT fuel Hfuel) as (calls & ET & HR).
  pose proof (fmm_covers dim ks bodies MAC Hdim Hs Hf Hlen Hmass Hdist st Hok fuel Hfuel) as HC.
  set (Dn := gqueue _ _ _ _ _ _ _) in *. clearbody Dn.
  destruct HR as [Hsub HOK Hacc Hsep (X & cs & Ec & HF & HX & Hnd & HLX)].
  destruct (exec_fmm dim Hdim (st_tab st) (st_cofm st) bodies gc Hmass Dn X cs gstate0) as (s & Es & HP & HA); auto.
  { apply Forall_forall. intros z Hz. exact (HOK z Hz). }
  exists calls, s. split; [exact ET|]. rewrite Ec. split; [exact Es|].
  exists (fun i j => gpos (st_tab st) (st_cofm st) bodies (fst (pick Dn i j))), (fun i j => gpos (st_tab st) (st_cofm st) bodies (snd (pick Dn i j))).
  split; [|split].
  - intros i j Hi Hj Hij. destruct (pick_ok dim ks bodies MAC (st_tab st) (st_cofm st) Dn HOK Hacc Hsep HC i j Hi Hj) as (Hin & C1 & C2 & _).
    destruct (HOK _ Hin) as [O1 O2].
    destruct (grad_dist dim ks bodies (st_tab st) (st_cofm st) Hdim Hmass Hlen _ i O1 C1) as [_ D1].
    destruct (grad_dist dim ks bodies (st_tab st) (st_cofm st) Hdim Hmass Hlen _ j O2 C2) as [_ D2].
    exists (grad (st_tab st) (st_cofm st) (fst (pick Dn i j))), (grad (st_tab st) (st_cofm st) (snd (pick Dn i j))).
    split; [exact D1|]. split; [exact D2|]. destruct (Hacc _ Hin) as [L|[_ M]].
    + left. apply andb_true_iff in L. destruct L as [L1 L2]. destruct (pick Dn i j) as [[p [a|k ch]] [p' [b|k' ch']]]; try discriminate.
      unfold cnt in C1, C2. cbn [fst snd leaves count_occ] in *. destruct (Nat.eq_dec a i), (Nat.eq_dec b j); try discriminate. subst. split; reflexivity.
    + right. unfold mac in M. apply Rltb_true in M. exact M.
  - intros i k Hi. rewrite HA. apply (field_acc dim ks bodies MAC gc (st_tab st) (st_cofm st) Dn Hdim Hmass Hlen HOK Hacc Hsep HC i k Hi).
  - intros i Hi. rewrite HP. apply (field_pot dim ks bodies MAC gc (st_tab st) (st_cofm st) Dn Hdim Hmass Hlen HOK Hacc Hsep HC i Hi).
Qed.

(** With an acceptance parameter that accepts nothing the result is the direct
    sum over all other particles. *)
Theorem C15_direct dim lob hib ks bodies MAC gc : fmm_input dim ks bodies -> MAC <= 0 ->
  let n := N.to_nat dim in
  let pos := fun i => b_pos (get_body bodies i) in
  let mass := fun i => b_mass (get_body bodies i) in
  let rest := fun i => filter (fun j => negb (Nat.eqb j i)) (seq 0 (length ks)) in
  exists st mx fuel0, build_tree cofm (fcc_cofm n bodies) dim true true lob hib ks = Some (st, mx) /\
  forall fuel, (fuel0 <= fuel)%nat -> exists calls s,
    traversal_fmm dim (st_tab st) (st_cofm st) bodies MAC fuel = Some calls /\
    exec_all n gc (summary_at (st_tab st) (st_cofm st)) bodies gstate0 calls = Some s /\
    forall i, (i < length ks)%nat ->
      (forall k, s_acc s i k = suml (fun j => - gc * mass j / (dist n (pos i) (pos j) * dist n (pos i) (pos j) * dist n (pos i) (pos j)) *
         (pos i k - pos j k)) (rest i)) /\
      s_pot s i = suml (fun j => - gc * mass j / dist n (pos i) (pos j)) (rest i).
Proof.
  intros Hin HM. cbv zeta. destruct (C15_field dim lob hib ks bodies MAC gc Hin) as (st & mx & f0 & E & H).
  exists st, mx, f0. split; [exact E|]. intros fuel Hfuel. destruct (H fuel Hfuel) as (calls & s & E1 & E2 & sx & sy & H1 & H2 & H3).
  exists calls, s. split; [exact E1|]. split; [exact E2|]. intros i Hi.
  assert (G : forall j, In j (filter (fun j => negb (Nat.eqb j i)) (seq 0 (length ks))) -> sx i j = b_pos (get_body bodies i) /\ sy i j = b_pos (get_body bodies j)).
  { intros j Hj. apply filter_In in Hj. destruct Hj as [Hj Hne]. apply in_seq in Hj. apply negb_true_iff, Nat.eqb_neq in Hne.
    destruct (H1 i j Hi ltac:(lia) ltac:(lia)) as (rx & ry & D1 & D2 & [Q|Q]); [exact Q|]. exfalso.
    pose proof (dist_nonneg (N.to_nat dim) (b_pos (get_body bodies i)) (sx i j)). pose proof (dist_nonneg (N.to_nat dim) (b_pos (get_body bodies j)) (sy i j)).
    pose proof (dist_nonneg (N.to_nat dim) (sx i j) (sy i j)). nra. }
  split; [intros k; rewrite H2 by assumption|rewrite H3 by assumption]; apply suml_ext; intros j Hj; destruct (G j Hj) as [-> ->].
  - reflexivity.
  - rewrite (sumn_ext _ _ (fun _ => 0)) by (intros; ring). rewrite sumn_zero. unfold p2p_pot. ring.
Qed.

Print Assumptions C15_each_pair_once.
Print Assumptions C15_field.
Print Assumptions C15_direct.
