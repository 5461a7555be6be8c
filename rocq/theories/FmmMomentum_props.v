(** C68: total momentum of the gravity traversal. *)
From Coq Require Import Sorted Permutation.
From Verif Require Import Base Key_model Key_spec Key_proofs HCell_model HCell_props BuildTree_model BuildTree_spec BuildTree_lemmas
  BuildTree_inv BuildTree_proofs BuildTree_shape BuildTree_props Vec Geometry_model Geometry_props Cofm_model Cofm_spec Cofm_proofs
  Search_model Search_proofs Search_sph Search_props Gravity_model Gravity_props Fmm_model Fmm_spec Fmm_proofs Fmm_calls Fmm_exec Fmm_built Fmm_props.
Local Open Scope N_scope.
Local Open Scope R_scope.
Local Notation up := BuildTree_spec.up.

Definition swap {A} (z : A * A) : A * A := (snd z, fst z).

Lemma self_pairs_swap {A} (l : list A) : Permutation (self_pairs l) (map swap (self_pairs l)).
Proof.
  induction l as [|a l IH]; [constructor|]. cbn [self_pairs map]. rewrite map_app. unfold swap at 1. cbn [fst snd].
  constructor. apply Permutation_app; [|assumption]. clear. induction l as [|b l IH]; [constructor|].
  cbn [flat_map map app]. unfold swap at 1 2. cbn [fst snd]. eapply perm_trans; [apply perm_swap|]. do 2 constructor. assumption.
Qed.

Section Sym.
Variable dim : N.
Hypothesis Hdim : dim_ok dim.
Variables (t : table) (cofms : list cofm) (bodies : list body) (MAC : R).
Notation n := (N.to_nat dim).
Hypothesis Hmass : forall b, In b bodies -> (0 < b_mass b)%R.
Hypothesis Hdist : forall i j, (i < length bodies)%nat -> (j < length bodies)%nat -> i <> j ->
  ~ peq n (b_pos (get_body bodies i)) (b_pos (get_body bodies j)).
Hypothesis Hrad : forall p p' s s', p <> p' -> summary_at t cofms p = Some s -> summary_at t cofms p' = Some s' -> cm_rad s <> cm_rad s'.
Notation okt := (okt dim t cofms bodies).
Notation okp := (okp dim t cofms bodies).
Notation grad := (grad t cofms).
Notation gpos := (gpos t cofms bodies).
Notation gnew := (gnew dim t cofms bodies MAC).
Notation gfin := (gfin dim t cofms bodies MAC).
Notation gqueue := (gqueue dim t cofms bodies MAC).

Lemma mac_sym x y rx ry : mac n x rx y ry MAC = mac n y ry x rx MAC.
Proof. unfold mac. rewrite (dist_sym n x y), (Rplus_comm rx). reflexivity. Qed.

Lemma grads_differ x y : okt x -> okt y -> fat (snd x) -> fat (snd y) -> fst x <> fst y -> isleaf x && isleaf y = false -> grad x <> grad y.
Proof using Hdim Hmass Hdist Hrad.
  intros O1 O2 F1 F2 E L.
  destruct (cell_facts dim Hdim t cofms bodies Hmass x O1) as (c1 & _ & _ & _ & G1).
  destruct (cell_facts dim Hdim t cofms bodies Hmass y O2) as (c2 & _ & _ & _ & G2).
  destruct (isleaf x) eqn:L1, (isleaf y) eqn:L2; try discriminate.
  - destruct G2 as (s & _ & Es & Hok & _). pose proof (fat_radius dim t cofms bodies Hdist y s O2 L2 F2 Es Hok) as Hr.
    unfold Fmm_proofs.grad. destruct x as [p []], y as [p' []]; try discriminate. cbn [snd fst] in *. rewrite Es. lra.
  - destruct G1 as (s & _ & Es & Hok & _). pose proof (fat_radius dim t cofms bodies Hdist x s O1 L1 F1 Es Hok) as Hr.
    unfold Fmm_proofs.grad. destruct x as [p []], y as [p' []]; try discriminate. cbn [snd fst] in *. rewrite Es. lra.
  - destruct G1 as (s & _ & Es & _). destruct G2 as (s' & _ & Es' & _).
    unfold Fmm_proofs.grad. destruct x as [p []], y as [p' []]; try discriminate. cbn [snd fst] in *. rewrite Es, Es'.
    apply (Hrad p p'); assumption.
Qed.

Lemma gfin_swap z : gfin (swap z) = map swap (gfin z).
Proof.
  destruct z as [x y]. unfold swap at 1. cbn [fst snd]. unfold Fmm_proofs.gfin. rewrite (andb_comm (isleaf y)), (N.eqb_sym (fst y)), mac_sym.
  destruct (isleaf x && isleaf y); [reflexivity|]. destruct (_ =? _)%N; [reflexivity|]. destruct (mac _ _ _ _ _ _); reflexivity.
Qed.

Lemma gnew_swap z : okp z -> Permutation (gnew (swap z)) (map swap (gnew z)).
Proof using Hdim Hmass Hdist Hrad.
  destruct z as [x y]. intros (O1 & O2 & _ & _ & F). cbn [fst snd] in *. unfold swap at 1. cbn [fst snd]. unfold Fmm_proofs.gnew.
  rewrite (andb_comm (isleaf y)), (N.eqb_sym (fst y)), mac_sym.
  destruct (isleaf x && isleaf y) eqn:L; [constructor|].
  destruct (N.eqb_spec (fst x) (fst y)) as [E|E].
  - rewrite (okt_inj dim t cofms bodies x y O1 O2 E). apply self_pairs_swap.
  - destruct (mac _ _ _ _ _ _); [constructor|]. destruct (F E) as [F1 F2].
    pose proof (grads_differ x y O1 O2 F1 F2 E L) as Hd.
    destruct (Rltb (grad x) (grad y)) eqn:R1, (Rltb (grad y) (grad x)) eqn:R2;
      try apply Rltb_true in R1; try apply Rltb_true in R2; try apply Rltb_false in R1; try apply Rltb_false in R2; try lra;
      rewrite map_map; apply Permutation_refl.
Qed.

Lemma flat_map_swap {A} (f : A * A -> list (A * A)) q : (forall z, In z q -> Permutation (f (swap z)) (map swap (f z))) ->
  Permutation q (map swap q) -> Permutation (flat_map f q) (map swap (flat_map f q)).
Proof.
  intros H Hp. eapply perm_trans; [apply (Permutation_flat_map f Hp)|]. clear Hp.
  induction q as [|z q IH]; [constructor|]. cbn [map flat_map]. rewrite map_app. apply Permutation_app; [apply H; left; reflexivity|].
  apply IH. intros; apply H; right; assumption.
Qed.

Lemma gqueue_swap : forall fuel q, Forall okp q -> Permutation q (map swap q) -> Permutation (gqueue fuel q) (map swap (gqueue fuel q)).
Proof using Hdim Hmass Hdist Hrad.
  induction fuel as [|fuel IH]; intros q Hq Hp; [destruct q; constructor|]. destruct q as [|z q]; [constructor|].
  change (gqueue (S fuel) (z :: q)) with (flat_map gfin (z :: q) ++ gqueue fuel (flat_map gnew (z :: q))).
  rewrite map_app. apply Permutation_app.
  - apply flat_map_swap; [|assumption]. intros z' _. rewrite gfin_swap. apply Permutation_refl.
  - apply IH.
    + apply Forall_forall. intros z' Hz'. apply in_flat_map in Hz'. destruct Hz' as (z0 & H0 & Hz').
      rewrite Forall_forall in Hq. destruct (gnew_ok dim Hdim t cofms bodies MAC Hmass z0 z' (Hq _ H0) Hz'). assumption.
    + apply flat_map_swap; [|assumption]. intros z' Hz'. apply gnew_swap. rewrite Forall_forall in Hq. auto.
Qed.
End Sym.

(** The total force as a sum over the accepted pairs. *)
Definition pair_force (dim : N) t cofms bodies gc (k : nat) (z : (N * tree) * (N * tree)) : R :=
  if same_leaf z then 0 else gm t cofms bodies (fst z) *
    p2p_acc (N.to_nat dim) gc (gpos t cofms bodies (fst z)) (gpos t cofms bodies (snd z)) (gm t cofms bodies (snd z)) k.

Lemma total_force dim (ks : list N) bodies gc t cofms Dn k : dim_ok dim -> (forall b, In b bodies -> 0 < b_mass b) -> length bodies = length ks ->
  (forall z, In z Dn -> okt dim t cofms bodies (fst z) /\ okt dim t cofms bodies (snd z)) ->
  suml (fun i => b_mass (get_body bodies i) * suml (EA dim t cofms bodies gc i k) Dn) (seq 0 (length ks)) =
  suml (pair_force dim t cofms bodies gc k) Dn.
Proof.
  intros Hdim Hmass Hlen Hok.
  rewrite (suml_ext _ (fun i => suml (fun z => b_mass (get_body bodies i) * EA dim t cofms bodies gc i k z) Dn))
    by (intros; rewrite suml_scal; reflexivity).
  rewrite suml_swap. apply suml_ext. intros z Hz. unfold pair_force, EA, KA. destruct (same_leaf z).
  - rewrite (suml_ext _ (fun _ => 0)) by (intros; ring). apply suml_zero.
  - rewrite (gm_sum dim ks bodies t cofms Hdim Hmass Hlen (fst z) (proj1 (Hok z Hz))), Rmult_comm, <- suml_scal.
    apply suml_ext. intros i _. ring.
Qed.

Lemma pair_force_swap dim t cofms bodies gc k z : pair_force dim t cofms bodies gc k (swap z) = - pair_force dim t cofms bodies gc k z.
Proof.
  destruct z as [x y]. unfold pair_force, swap. cbn [fst snd].
  assert (S : same_leaf (y, x) = same_leaf (x, y)).
  { unfold same_leaf. cbn [fst snd]. destruct x as [p []], y as [p' []]; cbn [snd]; try reflexivity. apply Nat.eqb_sym. }
  rewrite S. destruct (same_leaf (x, y)); [ring|]. unfold p2p_acc. rewrite (dist_sym _ (gpos t cofms bodies y)). unfold Rdiv. ring.
Qed.

(** When no two nodes have the same radius the forces cancel. *)
Theorem C68_fmm_momentum dim lob hib ks bodies MAC gc : fmm_input dim ks bodies ->
  let n := N.to_nat dim in
  exists st mx fuel0, build_tree cofm (fcc_cofm n bodies) dim true true lob hib ks = Some (st, mx) /\
  ((forall p p' s s', p <> p' -> summary_at (st_tab st) (st_cofm st) p = Some s -> summary_at (st_tab st) (st_cofm st) p' = Some s' ->
      cm_rad s <> cm_rad s') ->
   forall fuel, (fuel0 <= fuel)%nat -> exists calls s,
    traversal_fmm dim (st_tab st) (st_cofm st) bodies MAC fuel = Some calls /\
    exec_all n gc (summary_at (st_tab st) (st_cofm st)) bodies gstate0 calls = Some s /\
    forall k, suml (fun i => b_mass (get_body bodies i) * s_acc s i k) (seq 0 (length ks)) = 0).
Proof.
  intros (Hdim & Hne & Hs & Hf & Hlen & Hmass & Hdist). cbv zeta.
  destruct (fmm_built dim lob hib ks bodies MAC Hdim Hne Hs Hf Hlen Hmass) as (st & mx & E & Hok & HT).
  exists st, mx, (fuel0 dim ks). split; [exact E|]. intros Hrad fuel Hfuel.
  destruct (HT fuel Hfuel) as (calls & ET & HR).
  assert (HP : let Dn := gqueue dim (st_tab st) (st_cofm st) bodies MAC fuel
     [((1%N, canon dim (N.to_nat (max_depth dim)) 1 (numbered ks)), (1%N, canon dim (N.to_nat (max_depth dim)) 1 (numbered ks)))] in Permutation Dn (map swap Dn)).
  { cbv zeta. apply gqueue_swap; auto. constructor; [|constructor]. unfold okp. cbn [fst snd].
    pose proof (root_kfat dim Hdim ks Hs (full_keys_full dim ks Hf)).
    split; [assumption|]. split; [assumption|]. split; [assumption|]. split; [assumption|]. congruence. }
  cbv zeta in HP. set (Dn := gqueue _ _ _ _ _ _ _) in *. clearbody Dn.
  destruct HR as [Hsub HOK Hacc Hsep (X & cs & Ec & HF & HX & Hnd & HLX)].
  destruct (exec_fmm dim Hdim (st_tab st) (st_cofm st) bodies gc Hmass Dn X cs gstate0) as (s & Es & HPot & HA); auto.
  { apply Forall_forall. intros z Hz. exact (HOK z Hz). }
  exists calls, s. split; [exact ET|]. rewrite Ec. split; [exact Es|]. intros k.
  rewrite (suml_ext _ (fun i => b_mass (get_body bodies i) * suml (EA dim (st_tab st) (st_cofm st) bodies gc i k) Dn)) by (intros; rewrite HA; cbn; ring).
  rewrite (total_force dim ks bodies gc _ _ Dn k Hdim Hmass Hlen HOK).
  assert (Q : suml (pair_force dim (st_tab st) (st_cofm st) bodies gc k) Dn = - suml (pair_force dim (st_tab st) (st_cofm st) bodies gc k) Dn).
  { rewrite (suml_perm _ _ _ HP) at 1. rewrite suml_map, <- suml_opp. apply suml_ext. intros. apply pair_force_swap. }
  lra.
Qed.

(** ** Nodes of equal radius

    Four particles on a line at 0, 1, 2, 3 with masses 1, 3, 1, 3, the domain
    being [0, 4]^3: two nodes of radius 3/4.  With acceptance parameter 1/2 the
    pair (A, B) and the pair (B, A) both split their second member, so the
    interactions of A with B and of B with A are evaluated differently. *)
Definition ks68 : list N := [8 ^ 21; 8 ^ 21 + 8 ^ 19; 8 ^ 21 + 8 ^ 20; 8 ^ 21 + 8 ^ 20 + 8 ^ 19]%N.
Definition xpt (x : R) : point := fun k => match k with O => x | _ => 0 end.
Definition bodies68 : list body := [mkbody (xpt 0) 1 1; mkbody (xpt 1) 3 1; mkbody (xpt 2) 1 1; mkbody (xpt 3) 3 1].

Lemma xpt_dist a b : dist 3 (xpt a) (xpt b) = Rabs (a - b).
Proof. unfold dist, dist2. cbn [sumn xpt]. rewrite <- sqrt_Rsqr_abs. f_equal. unfold Rsqr. ring. Qed.

Example C15_C68_case : fmm_input 3 ks68 bodies68.
Proof.
  split; [right; right; reflexivity|]. split; [discriminate|].
  split; [apply sorted_dec; vm_compute; reflexivity|]. split.
  { apply Forall_forall. intros k Hk.
    assert (E : forallb (fun k => (2 ^ (3 * max_depth 3) <=? k) && (k <? 2 * 2 ^ (3 * max_depth 3)))%N ks68 = true) by (vm_compute; reflexivity).
    rewrite forallb_forall in E. specialize (E k Hk). apply andb_true_iff in E. destruct E as [E1 E2].
    split; [apply N.leb_le|apply N.ltb_lt]; assumption. }
  split; [reflexivity|]. split.
  { intros b [<-|[<-|[<-|[<-|[]]]]]; cbn; lra. }
  intros i j Hi Hj Hij Hp. specialize (Hp 0%nat ltac:(vm_compute; lia)). cbn [length bodies68] in Hi, Hj.
  do 4 (destruct i as [|i]; [do 4 (destruct j as [|j]; [first [congruence | cbn in Hp; lra]|]); lia|]). lia.
Qed.

Definition tA := Node 8 [(0%N, Leaf 0); (1%N, Leaf 1)].
Definition tB := Node 9 [(0%N, Leaf 2); (1%N, Leaf 3)].
Lemma root68 : canon 3 (N.to_nat (max_depth 3)) 1 (numbered ks68) = Node 1 [(0%N, tA); (1%N, tB)].
Proof. vm_compute. reflexivity. Qed.

Lemma summary_eval dim t cofms bodies p k ch : okt dim t cofms bodies (p, Node k ch) ->
  exists s, eval (fcc_cofm (N.to_nat dim) bodies) (Node k ch) = inr s /\ summary_at t cofms p = Some s.
Proof.
  intros [[Hh _] _]. cbn [fst snd holds] in Hh. destruct Hh as (-> & (c & j & s & Hc & He & Hn & Hs & Hev & _) & _).
  exists s. split; [exact Hev|]. unfold summary_at. rewrite Hc. unfold get_node. rewrite Hn. exact Hs.
Qed.

Lemma gqueue_S dim t cofms bodies MAC f z q : gqueue dim t cofms bodies MAC (S f) (z :: q) =
  flat_map (gfin dim t cofms bodies MAC) (z :: q) ++ gqueue dim t cofms bodies MAC f (flat_map (gnew dim t cofms bodies MAC) (z :: q)).
Proof. reflexivity. Qed.

Section Ties.
Variables (t : table) (cofms : list cofm).
Hypothesis Hok : okt 3 t cofms bodies68 (1%N, Node 1 [(0%N, tA); (1%N, tB)]).
Notation x0 := (64%N, Leaf 0).
Notation x1 := (65%N, Leaf 1).
Notation x2 := (72%N, Leaf 2).
Notation x3 := (73%N, Leaf 3).
Notation xA := (8%N, tA).
Notation xB := (9%N, tB).
Notation gp := (gpos t cofms bodies68).
Notation gr := (grad t cofms).

Lemma ok_kids : okt 3 t cofms bodies68 xA /\ okt 3 t cofms bodies68 xB.
Proof using Hok.
  assert (Hm : forall b, In b bodies68 -> 0 < b_mass b) by (apply C15_C68_case).
  pose proof (kidsof_ok 3 (or_intror (or_intror eq_refl)) t cofms bodies68 Hm _ Hok) as H.
  cbn in H. inversion H as [|? ? H1 H2]; subst. inversion H2 as [|? ? H3 H4]; subst. split; assumption.
Qed.

Lemma node_A : peq 3 (gp xA) (xpt (3 / 4)) /\ gr xA = 3 / 4 /\ gm t cofms bodies68 xA = 4.
Proof using Hok.
  destruct ok_kids as [HA _]. destruct (summary_eval _ _ _ _ _ _ _ HA) as (s & Es & Hs).
  assert (Hs' : summary_at t cofms 8 = Some s) by exact Hs.
  cbn in Es. unfold fcc_cofm, get_body in Es. cbn [map nth bodies68] in Es. injection Es as Es.
  assert (P : peq 3 (cm_pos s) (xpt (3 / 4))).
  { intros k Hk. rewrite <- Es. unfold compute_cofm. cbn [cm_pos fold_left b_mass b_pos].
    destruct k as [|[|[|k]]]; cbn [xpt]; lra. }
  assert (M : cm_mass s = 4) by (rewrite <- Es; cbn; lra).
  assert (Rd : cm_rad s = 3 / 4).
  { transitivity (Rmax (Rmax 0 (dist 3 (cm_pos s) (xpt 0))) (dist 3 (cm_pos s) (xpt 1))); [rewrite <- Es; reflexivity|].
    rewrite !(dist_ext 3 (cm_pos s) (xpt (3 / 4)) _ _ P (fun _ _ => eq_refl)), !xpt_dist.
    rewrite Rabs_right, Rabs_left by lra. unfold Rmax. repeat destruct (Rle_dec _ _); lra. }
  unfold Fmm_proofs.gpos, Fmm_proofs.grad, gm. cbn [snd fst tA isleaf]. rewrite Hs'. auto.
Qed.

Lemma node_B : peq 3 (gp xB) (xpt (11 / 4)) /\ gr xB = 3 / 4 /\ gm t cofms bodies68 xB = 4.
Proof using Hok.
  destruct ok_kids as [_ HB]. destruct (summary_eval _ _ _ _ _ _ _ HB) as (s & Es & Hs).
  assert (Hs' : summary_at t cofms 9 = Some s) by exact Hs.
  cbn in Es. unfold fcc_cofm, get_body in Es. cbn [map nth bodies68] in Es. injection Es as Es.
  assert (P : peq 3 (cm_pos s) (xpt (11 / 4))).
  { intros k Hk. rewrite <- Es. unfold compute_cofm. cbn [cm_pos fold_left b_mass b_pos].
    destruct k as [|[|[|k]]]; cbn [xpt]; lra. }
  assert (M : cm_mass s = 4) by (rewrite <- Es; cbn; lra).
  assert (Rd : cm_rad s = 3 / 4).
  { transitivity (Rmax (Rmax 0 (dist 3 (cm_pos s) (xpt 2))) (dist 3 (cm_pos s) (xpt 3))); [rewrite <- Es; reflexivity|].
    rewrite !(dist_ext 3 (cm_pos s) (xpt (11 / 4)) _ _ P (fun _ _ => eq_refl)), !xpt_dist.
    rewrite Rabs_right, Rabs_left by lra. unfold Rmax. repeat destruct (Rle_dec _ _); lra. }
  unfold Fmm_proofs.gpos, Fmm_proofs.grad, gm. cbn [snd fst tB isleaf]. rewrite Hs'. auto.
Qed.

Definition Dn68 : list ((N * tree) * (N * tree)) :=
  [(x0, x0); (x0, x1); (x1, x0); (x1, x1); (xA, x3); (xB, x0); (xB, x1); (x2, x2); (x2, x3); (x3, x2); (x3, x3); (x0, x2); (x1, x2)].

Lemma macs_AB a b : mac 3 (gp xA) (gr xA) (xpt a) b (1 / 2) = Rltb (3 / 4 + b) (1 / 2 * Rabs (3 / 4 - a)).
Proof using Hok. destruct node_A as (P & -> & _). unfold mac. rewrite (dist_ext 3 _ (xpt (3 / 4)) _ (xpt a) P (fun _ _ => eq_refl)), xpt_dist. reflexivity. Qed.
Lemma macs_BA a b : mac 3 (gp xB) (gr xB) (xpt a) b (1 / 2) = Rltb (3 / 4 + b) (1 / 2 * Rabs (11 / 4 - a)).
Proof using Hok. destruct node_B as (P & -> & _). unfold mac. rewrite (dist_ext 3 _ (xpt (11 / 4)) _ (xpt a) P (fun _ _ => eq_refl)), xpt_dist. reflexivity. Qed.

Lemma Rltb_t a b : a < b -> Rltb a b = true. Proof. apply Rltb_true. Qed.
Lemma Rltb_f a b : b <= a -> Rltb a b = false. Proof. apply Rltb_false. Qed.

Lemma queue68 f : gqueue 3 t cofms bodies68 (1 / 2) (S (S (S (S f)))) [((1%N, Node 1 [(0%N, tA); (1%N, tB)]), (1%N, Node 1 [(0%N, tA); (1%N, tB)]))] = Dn68.
Proof using Hok.
  assert (AB : mac 3 (gp xA) (gr xA) (gp xB) (gr xB) (1 / 2) = false).
  { destruct node_A as (P & -> & _), node_B as (P' & -> & _). unfold mac. rewrite (dist_ext 3 _ _ _ _ P P'), xpt_dist. apply Rltb_f.
    rewrite Rabs_left; lra. }
  assert (BA : mac 3 (gp xB) (gr xB) (gp xA) (gr xA) (1 / 2) = false) by (rewrite <- AB; apply (mac_sym 3)).
  assert (T1 : Rltb (gr xB) (gr xA) = false) by (destruct node_A as (_ & -> & _), node_B as (_ & -> & _); apply Rltb_f; lra).
  assert (T2 : Rltb (gr xA) (gr xB) = false) by (destruct node_A as (_ & -> & _), node_B as (_ & -> & _); apply Rltb_f; lra).
  assert (A2 : mac 3 (gp xA) (gr xA) (gp x2) (gr x2) (1 / 2) = false).
  { change (gp x2) with (xpt 2). change (gr x2) with 0. rewrite macs_AB. apply Rltb_f. rewrite Rabs_left; lra. }
  assert (A3 : mac 3 (gp xA) (gr xA) (gp x3) (gr x3) (1 / 2) = true).
  { change (gp x3) with (xpt 3). change (gr x3) with 0. rewrite macs_AB. apply Rltb_t. rewrite Rabs_left; lra. }
  assert (B0 : mac 3 (gp xB) (gr xB) (gp x0) (gr x0) (1 / 2) = true).
  { change (gp x0) with (xpt 0). change (gr x0) with 0. rewrite macs_BA. apply Rltb_t. rewrite Rabs_right; lra. }
  assert (B1 : mac 3 (gp xB) (gr xB) (gp x1) (gr x1) (1 / 2) = true).
  { change (gp x1) with (xpt 1). change (gr x1) with 0. rewrite macs_BA. apply Rltb_t. rewrite Rabs_right; lra. }
  assert (TA : Rltb (gr x2) (gr xA) = true) by (destruct node_A as (_ & -> & _); apply Rltb_t; cbn; lra).
  rewrite gqueue_S.
  assert (G1 : gnew 3 t cofms bodies68 (1 / 2) ((1%N, Node 1 [(0%N, tA); (1%N, tB)]), (1%N, Node 1 [(0%N, tA); (1%N, tB)])) = [(xA, xA); (xA, xB); (xB, xA); (xB, xB)]) by reflexivity.
  cbn [flat_map]. rewrite G1. cbn [app].
  change (gfin 3 t cofms bodies68 (1 / 2) ((1%N, Node 1 [(0%N, tA); (1%N, tB)]), (1%N, Node 1 [(0%N, tA); (1%N, tB)]))) with (@nil ((N * tree) * (N * tree))).
  cbn [app]. rewrite gqueue_S.
  assert (F : forall f, flat_map f [(xA, xA); (xA, xB); (xB, xA); (xB, xB)] = f (xA, xA) ++ f (xA, xB) ++ f (xB, xA) ++ f (xB, xB) ++ @nil ((N * tree) * (N * tree))) by reflexivity.
  rewrite !F. clear F.
  assert (NAA : gnew 3 t cofms bodies68 (1 / 2) (xA, xA) = [(x0, x0); (x0, x1); (x1, x0); (x1, x1)]) by reflexivity.
  assert (NBB : gnew 3 t cofms bodies68 (1 / 2) (xB, xB) = [(x2, x2); (x2, x3); (x3, x2); (x3, x3)]) by reflexivity.
  assert (NAB : gnew 3 t cofms bodies68 (1 / 2) (xA, xB) = [(xA, x2); (xA, x3)]).
  { unfold gnew. change (isleaf xA && isleaf xB) with false. change (fst xA =? fst xB)%N with false. cbv iota. change (N.to_nat 3) with 3%nat. rewrite AB, T1. reflexivity. }
  assert (NBA : gnew 3 t cofms bodies68 (1 / 2) (xB, xA) = [(xB, x0); (xB, x1)]).
  { unfold gnew. change (isleaf xB && isleaf xA) with false. change (fst xB =? fst xA)%N with false. cbv iota. change (N.to_nat 3) with 3%nat. rewrite BA, T2. reflexivity. }
  assert (FAB : gfin 3 t cofms bodies68 (1 / 2) (xA, xB) = []).
  { unfold gfin. change (isleaf xA && isleaf xB) with false. change (fst xA =? fst xB)%N with false. cbv iota. change (N.to_nat 3) with 3%nat. rewrite AB. reflexivity. }
  assert (FBA : gfin 3 t cofms bodies68 (1 / 2) (xB, xA) = []).
  { unfold gfin. change (isleaf xB && isleaf xA) with false. change (fst xB =? fst xA)%N with false. cbv iota. change (N.to_nat 3) with 3%nat. rewrite BA. reflexivity. }
  rewrite NAA, NBB, NAB, NBA, FAB, FBA. change (gfin 3 t cofms bodies68 (1 / 2) (xA, xA)) with (@nil ((N * tree) * (N * tree))).
  change (gfin 3 t cofms bodies68 (1 / 2) (xB, xB)) with (@nil ((N * tree) * (N * tree))). cbn [app]. rewrite gqueue_S.
  assert (NA2 : gnew 3 t cofms bodies68 (1 / 2) (xA, x2) = [(x0, x2); (x1, x2)]).
  { unfold gnew. change (isleaf xA && isleaf x2) with false. change (fst xA =? fst x2)%N with false. cbv iota. change (N.to_nat 3) with 3%nat. rewrite A2, TA. reflexivity. }
  assert (NA3 : gnew 3 t cofms bodies68 (1 / 2) (xA, x3) = []).
  { unfold gnew. change (isleaf xA && isleaf x3) with false. change (fst xA =? fst x3)%N with false. cbv iota. change (N.to_nat 3) with 3%nat. rewrite A3. reflexivity. }
  assert (NB0 : gnew 3 t cofms bodies68 (1 / 2) (xB, x0) = []).
  { unfold gnew. change (isleaf xB && isleaf x0) with false. change (fst xB =? fst x0)%N with false. cbv iota. change (N.to_nat 3) with 3%nat. rewrite B0. reflexivity. }
  assert (NB1 : gnew 3 t cofms bodies68 (1 / 2) (xB, x1) = []).
  { unfold gnew. change (isleaf xB && isleaf x1) with false. change (fst xB =? fst x1)%N with false. cbv iota. change (N.to_nat 3) with 3%nat. rewrite B1. reflexivity. }
  assert (FA2 : gfin 3 t cofms bodies68 (1 / 2) (xA, x2) = []).
  { unfold gfin. change (isleaf xA && isleaf x2) with false. change (fst xA =? fst x2)%N with false. cbv iota. change (N.to_nat 3) with 3%nat. rewrite A2. reflexivity. }
  assert (FA3 : gfin 3 t cofms bodies68 (1 / 2) (xA, x3) = [(xA, x3)]).
  { unfold gfin. change (isleaf xA && isleaf x3) with false. change (fst xA =? fst x3)%N with false. cbv iota. change (N.to_nat 3) with 3%nat. rewrite A3. reflexivity. }
  assert (FB0 : gfin 3 t cofms bodies68 (1 / 2) (xB, x0) = [(xB, x0)]).
  { unfold gfin. change (isleaf xB && isleaf x0) with false. change (fst xB =? fst x0)%N with false. cbv iota. change (N.to_nat 3) with 3%nat. rewrite B0. reflexivity. }
  assert (FB1 : gfin 3 t cofms bodies68 (1 / 2) (xB, x1) = [(xB, x1)]).
  { unfold gfin. change (isleaf xB && isleaf x1) with false. change (fst xB =? fst x1)%N with false. cbv iota. change (N.to_nat 3) with 3%nat. rewrite B1. reflexivity. }
  assert (LL : forall p i q j, gfin 3 t cofms bodies68 (1 / 2) ((p, Leaf i), (q, Leaf j)) = [((p, Leaf i), (q, Leaf j))] /\
     gnew 3 t cofms bodies68 (1 / 2) ((p, Leaf i), (q, Leaf j)) = []) by (intros; split; reflexivity).
  cbn [flat_map].
  rewrite NA2, NA3, NB0, NB1, FA2, FA3, FB0, FB1.
  repeat match goal with |- context [gfin 3 t cofms bodies68 (1 / 2) ((?p, Leaf ?i), (?q, Leaf ?j))] => rewrite (proj1 (LL p i q j)) end.
  repeat match goal with |- context [gnew 3 t cofms bodies68 (1 / 2) ((?p, Leaf ?i), (?q, Leaf ?j))] => rewrite (proj2 (LL p i q j)) end.
  cbn [app]. rewrite gqueue_S. cbn [flat_map].
  repeat match goal with |- context [gfin 3 t cofms bodies68 (1 / 2) ((?p, Leaf ?i), (?q, Leaf ?j))] => rewrite (proj1 (LL p i q j)) end.
  repeat match goal with |- context [gnew 3 t cofms bodies68 (1 / 2) ((?p, Leaf ?i), (?q, Leaf ?j))] => rewrite (proj2 (LL p i q j)) end.
  cbn [app].
  destruct f; reflexivity.
Qed.

Lemma force68 : suml (pair_force 3 t cofms bodies68 1 0) Dn68 <> 0.
Proof using Hok.
  destruct node_A as (PA & _ & MA), node_B as (PB & _ & MB).
  assert (LL : forall p i q j a b ma mb, nth i bodies68 dummy_body = mkbody (xpt a) ma 1 -> nth j bodies68 dummy_body = mkbody (xpt b) mb 1 -> i <> j ->
    pair_force 3 t cofms bodies68 1 0 ((p, Leaf i), (q, Leaf j)) = ma * (- 1 * mb / (Rabs (a - b) * Rabs (a - b) * Rabs (a - b)) * (a - b))).
  { intros p i q j a b ma mb Ei Ej Hij. unfold pair_force, same_leaf, gm, Fmm_proofs.gpos, get_body. cbn [fst snd isleaf]. change (N.to_nat 3) with 3%nat.
    rewrite Ei, Ej. destruct (Nat.eqb_spec j i); [congruence|]. cbn [b_mass b_pos]. unfold p2p_acc. rewrite xpt_dist. reflexivity. }
  assert (SS : forall p q i, pair_force 3 t cofms bodies68 1 0 ((p, Leaf i), (q, Leaf i)) = 0).
  { intros. unfold pair_force, same_leaf. cbn [fst snd]. rewrite Nat.eqb_refl. reflexivity. }
  assert (CA : forall q j b mb, nth j bodies68 dummy_body = mkbody (xpt b) mb 1 ->
    pair_force 3 t cofms bodies68 1 0 (xA, (q, Leaf j)) = 4 * (- 1 * mb / (Rabs (3 / 4 - b) * Rabs (3 / 4 - b) * Rabs (3 / 4 - b)) * (3 / 4 - b))).
  { intros q j b mb Ej. unfold pair_force. change (same_leaf (xA, (q, Leaf j))) with false. cbv iota. cbn [fst snd]. change (N.to_nat 3) with 3%nat.
    rewrite MA. unfold p2p_acc. rewrite (PA 0%nat ltac:(lia)).
    assert (EG : gp (q, Leaf j) = xpt b) by (unfold Fmm_proofs.gpos, get_body; cbn [snd]; rewrite Ej; reflexivity).
    assert (EM : gm t cofms bodies68 (q, Leaf j) = mb) by (unfold gm, get_body; cbn [snd isleaf]; rewrite Ej; reflexivity).
    rewrite EG, EM. rewrite (dist_ext 3 _ (xpt (3 / 4)) _ (xpt b) PA (fun _ _ => eq_refl)), xpt_dist. reflexivity. }
  assert (CB : forall q j b mb, nth j bodies68 dummy_body = mkbody (xpt b) mb 1 ->
    pair_force 3 t cofms bodies68 1 0 (xB, (q, Leaf j)) = 4 * (- 1 * mb / (Rabs (11 / 4 - b) * Rabs (11 / 4 - b) * Rabs (11 / 4 - b)) * (11 / 4 - b))).
  { intros q j b mb Ej. unfold pair_force. change (same_leaf (xB, (q, Leaf j))) with false. cbv iota. cbn [fst snd]. change (N.to_nat 3) with 3%nat.
    rewrite MB. unfold p2p_acc. rewrite (PB 0%nat ltac:(lia)).
    assert (EG : gp (q, Leaf j) = xpt b) by (unfold Fmm_proofs.gpos, get_body; cbn [snd]; rewrite Ej; reflexivity).
    assert (EM : gm t cofms bodies68 (q, Leaf j) = mb) by (unfold gm, get_body; cbn [snd isleaf]; rewrite Ej; reflexivity).
    rewrite EG, EM. rewrite (dist_ext 3 _ (xpt (11 / 4)) _ (xpt b) PB (fun _ _ => eq_refl)), xpt_dist. reflexivity. }
  unfold Dn68. cbn [suml].
  rewrite !SS, (CA 73%N 3%nat 3 3 eq_refl), (CB 64%N 0%nat 0 1 eq_refl), (CB 65%N 1%nat 1 3 eq_refl).
  rewrite (LL 64%N 0%nat 65%N 1%nat 0 1 1 3 eq_refl eq_refl ltac:(lia)), (LL 65%N 1%nat 64%N 0%nat 1 0 3 1 eq_refl eq_refl ltac:(lia)).
  rewrite (LL 72%N 2%nat 73%N 3%nat 2 3 1 3 eq_refl eq_refl ltac:(lia)), (LL 73%N 3%nat 72%N 2%nat 3 2 3 1 eq_refl eq_refl ltac:(lia)).
  rewrite (LL 64%N 0%nat 72%N 2%nat 0 2 1 1 eq_refl eq_refl ltac:(lia)), (LL 65%N 1%nat 72%N 2%nat 1 2 3 1 eq_refl eq_refl ltac:(lia)).
  rewrite (Rabs_left (0 - 1)), (Rabs_right (1 - 0)), (Rabs_left (3 / 4 - 3)), (Rabs_right (11 / 4 - 0)), (Rabs_right (11 / 4 - 1)),
    (Rabs_left (2 - 3)), (Rabs_right (3 - 2)), (Rabs_left (0 - 2)), (Rabs_left (1 - 2)) by lra.
  match goal with |- ?e <> 0 => replace e with (13 / 4 + 64 / 27 - 64 / 121 - 192 / 49) by field end. lra.
Qed.
End Ties.

Theorem C68_fmm_momentum_ties_refuted : exists ks bodies MAC gc st mx fuel calls s,
  fmm_input 3 ks bodies /\ 0 < MAC < 1 /\
  build_tree cofm (fcc_cofm 3 bodies) 3 true true 0 (2 ^ 64) ks = Some (st, mx) /\
  traversal_fmm 3 (st_tab st) (st_cofm st) bodies MAC fuel = Some calls /\
  exec_all 3 gc (summary_at (st_tab st) (st_cofm st)) bodies gstate0 calls = Some s /\
  suml (fun i => b_mass (get_body bodies i) * s_acc s i 0%nat) (seq 0 (length ks)) <> 0.
Proof.
  pose proof C15_C68_case as Hin. destruct Hin as (Hdim & Hne & Hs & Hf & Hlen & Hmass & Hdist).
  destruct (fmm_built 3 0 (2 ^ 64) ks68 bodies68 (1 / 2) Hdim Hne Hs Hf Hlen Hmass) as (st & mx & E & Hok & HT).
  destruct (HT (4 + fuel0 3 ks68)%nat ltac:(lia)) as (calls & ET & HR).
  rewrite root68 in Hok, HR. cbn [Nat.add] in HR. rewrite (queue68 _ _ Hok) in HR.
  destruct HR as [Hsub HOK Hacc Hsep (X & cs & Ec & HF & HX & Hnd & HLX)].
  destruct (exec_fmm 3 Hdim (st_tab st) (st_cofm st) bodies68 1 Hmass Dn68 X cs gstate0) as (s & Es & HPot & HA); auto.
  { apply Forall_forall. intros z Hz. exact (HOK z Hz). }
  exists ks68, bodies68, (1 / 2), 1, st, mx, (4 + fuel0 3 ks68)%nat, calls, s.
  split; [exact C15_C68_case|]. split; [lra|]. split; [exact E|]. split; [exact ET|]. split; [rewrite Ec; exact Es|].
  rewrite (suml_ext _ (fun i => b_mass (get_body bodies68 i) * suml (EA 3 (st_tab st) (st_cofm st) bodies68 1 i 0%nat) Dn68)) by (intros; rewrite HA; cbn; ring).
  rewrite (total_force 3 ks68 bodies68 1 _ _ Dn68 0%nat Hdim Hmass Hlen HOK). apply force68. exact Hok.
Qed.

Print Assumptions C68_fmm_momentum.
Print Assumptions C68_fmm_momentum_ties_refuted.
