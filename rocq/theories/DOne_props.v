(** C104: gravity on several processes is the gravity of the traversal on one process, as it is
    modelled in Fmm_model and proved in C15, C68 and C69. *)
From Coq Require Import Sorted Permutation.
From Verif Require Import Base Key_model HCell_model BuildTree_model BuildTree_spec BuildTree_shape BuildTree_props Vec Geometry_model Geometry_props Cofm_model
  Share_model Share_lemmas Share_world Share_props Comms_model Dist_model Dist_refuted Dist_props Dist_all_props.
From Verif Require Import Search_model Gravity_model Fmm_model Fmm_spec Fmm_proofs Fmm_exec Fmm_props DFmm_model DFmm_props DSame_props DOne_lemmas.
Local Open Scope N_scope.

Section One.
Context (eb : nat -> body) (dim : N) (ps : list (N * nat)) (lob hib : N).
Notation n := (N.to_nat dim).
Notation parts := (length ps).
Notation bodies := (map eb (seq 0 parts)).
Notation ks := (map fst ps).
Context (Hdim : dim_ok dim) (Hne : ps <> []) (Hs : StronglySorted N.lt ks) (Hf : Forall (full_key dim) ks) (Hids : map snd ps = seq 0 parts).
Lemma body_eb i : (i < parts)%nat -> nth_error bodies i = Some (eb i) /\ get_body bodies i = eb i.
Proof using.
  intros Hi. assert (E : nth_error bodies i = Some (eb i)) by (rewrite nth_error_map, (nth_error_nth' _ 0%nat) by (rewrite seq_length; exact Hi); rewrite List.seq_nth by exact Hi; reflexivity).
  split; [exact E|]. unfold get_body. apply nth_error_nth, E.
Qed.
Lemma one_found : exists st mx one, build_tree cofm (fcc_cofm n bodies) dim true true lob hib ks = Some (st, mx) /\ build_all dim (cofm_of eb n) [ps] = Some [one] /\
  forall k, found eb (st_tab st) (st_cofm st) bodies (look_r (tables [one] 0%nat)) (iam_owner 0 (tables [one] 0%nat)) k.
Proof using Hdim Hne Hs Hf Hids.
  assert (Hk : ks <> []) by (destruct ps; [congruence | discriminate]).
  destruct (C09_build_tree_canonical dim cofm (fcc_cofm n bodies) lob hib ks Hdim Hk Hs Hf) as (st & mx & E & H1 & I1 & _).
  destruct (C09_build_tree_canonical dim cofm (on_ents (cofm_of eb n) (map snd ps)) (key_min dim) (key_max dim) ks Hdim Hk Hs Hf) as (st2 & mx2 & E2 & H2 & I2 & _).
  exists st, mx, (mkrs (from_build 0 (map snd ps) st2) (key_min dim) (key_max dim)). split; [exact E|]. split.
  - unfold build_all. cbn [length seq mapo]. unfold rank_build. cbn [nth_error length Nat.eqb Nat.sub]. destruct ps as [|x0 ps0] eqn:Ep; [congruence|]. cbn [first_key]. rewrite E2. cbn [fst mapo]. reflexivity.
  - assert (FG : forall k es ss, Forall (fun i => (i < parts)%nat) es -> fcc_cofm n bodies k es ss = on_ents (cofm_of eb n) (map snd ps) k es ss).
    { intros k es ss He. unfold fcc_cofm, on_ents, cofm_of. f_equal. rewrite Hids. induction He as [|i es Hi He IH]; [reflexivity|]. cbn [map flat_map]. rewrite (nth_error_nth' (seq 0 parts) 0%nat) by (rewrite seq_length; exact Hi). rewrite List.seq_nth by exact Hi. cbn [app map plus]. rewrite IH, (proj2 (body_eb i Hi)). reflexivity. }
    set (tree := canon dim (N.to_nat (max_depth dim)) 1 (numbered ks)) in *.
    assert (LV : Forall (fun i => (i < parts)%nat) (leaves tree)).
    { unfold tree. rewrite leaves_root; [|exact Hdim | exact Hs | apply full_keys_full, Hf]. apply Forall_forall. intros i Hi. apply in_seq in Hi. rewrite map_length in Hi. lia. }
    intros k. unfold found, look_r, iam_owner, tables, to_rtab, from_build. cbn [nth_error k_tab]. destruct (tfind (st_tab st) k) as [c|] eqn:Ek.
    + assert (In k (cells dim 1 tree)) as Hin by (apply I1; congruence). destruct (holds_like dim _ _ parts FG (st_tab st) (st_tab st2) (st_cofm st) (st_cofm st2) tree LV 1 H1 H2 k Hin) as (a & b & A1 & A2 & A3 & A4 & A5).
      rewrite Ek in A1. injection A1 as <-. rewrite A2. cbn [option_map to_rcell r_owner r_data r_word s_word s_set s_owner]. split; [reflexivity|]. rewrite A3. unfold get_node. destruct (c_node c) as [i|] eqn:Ci, (c_node b) as [j|] eqn:Cj; try contradiction.
      * destruct A5 as (_ & x & X1 & X2). rewrite X2. exists (inr x). split; [reflexivity | exact X1].
      * destruct A5 as (i & X1 & X2). rewrite <- A4, X1, Hids, (nth_error_nth' (seq 0 parts) 0%nat) by (rewrite seq_length; exact X2). rewrite List.seq_nth by exact X2. exists (inl i). split; [reflexivity|]. split; [reflexivity|]. split; [reflexivity | apply body_eb, X2].
    + destruct (tfind (st_tab st2) k) eqn:E3; [|reflexivity]. assert (In k (cells dim 1 tree)) as Hin by (apply I2; congruence). apply I1 in Hin. contradiction.
Qed.
End One.

Lemma exec_ext n gc na nb bodies s c : (forall k, na k = nb k) -> exec n gc na bodies s c = exec n gc nb bodies s c.
Proof. intros H. destruct c as [k1 k2|k1 j|i [k|] js|k is]; cbn [exec]; unfold to_node; rewrite ?H; reflexivity. Qed.
Lemma exec_all_ext n gc na nb bodies cs : (forall k, na k = nb k) -> forall s, exec_all n gc na bodies s cs = exec_all n gc nb bodies s cs.
Proof. intros H. induction cs as [|c cs IH]; intros s; cbn [exec_all]; [reflexivity|]. rewrite (exec_ext _ _ _ _ _ _ _ H). destruct (exec n gc nb bodies s c); [apply IH | reflexivity]. Qed.

Lemma map_repeated {A B} (g : A -> B) x k : map g (repeat x k) = repeat (g x) k.
Proof. induction k; cbn [repeat map]; congruence. Qed.

Section Whole.
Context (eb : nat -> body) (dim : N) (MAC gc : R) (pss : list (list (N * nat))) (lob hib : N).
Notation n := (N.to_nat dim).
Notation f := (cofm_of eb n).
Notation ps := (concat pss).
Notation parts := (length ps).
Notation bodies := (map eb (seq 0 parts)).
Notation ks := (map fst ps).
Notation passes r ss := (dfmm_passes eb dim MAC (map (view r) ss) [(key_root, key_root)]).
Notation finish r s fu cs pp := (dfmm_end dim (look_r (g_tab s r)) (iam_owner r (g_tab s r)) fu cs pp).
Notation forces r s calls := (exec_all n gc (node_of (look_r (g_tab s r))) bodies gstate0 calls).

Lemma parts_input : spread dim pss -> (forall x, In x ps -> (0 < b_mass (eb (snd x)))%R) -> map snd ps = seq 0 parts ->
  (forall i j, (i < parts)%nat -> (j < parts)%nat -> i <> j -> ~ peq n (b_pos (eb i)) (b_pos (eb j))) -> fmm_input dim ks bodies /\ spread dim [ps].
Proof.
  intros (Hdim & (m & Hm) & Hne & Hs & Hf) Hmass Hids Hpos.
  assert (Hps : ps <> []) by (destruct pss as [|p0 q]; [cbn in Hm; pose proof (Nat.pow_nonzero 2 m); lia|]; pose proof (Hne p0 (or_introl eq_refl)); destruct p0; [congruence | discriminate]).
  split.
  - split; [exact Hdim|]. split; [destruct ps; [congruence | discriminate]|]. split; [exact Hs|]. split; [exact Hf|]. rewrite !map_length, seq_length. split; [reflexivity|]. split.
    + intros b Hb. apply in_map_iff in Hb. destruct Hb as (i & <- & Hi). rewrite <- Hids in Hi. apply in_map_iff in Hi. destruct Hi as (x & <- & Hx). apply Hmass, Hx.
    + intros i j Hi Hj Hij. rewrite (proj2 (body_eb eb ps i Hi)), (proj2 (body_eb eb ps j Hj)). apply Hpos; assumption.
  - split; [exact Hdim|]. split; [exists 0%nat; reflexivity|]. split; [intros q [<-|[]]; exact Hps|]. cbn [concat]. rewrite app_nil_r. split; assumption.
Qed.

(** Every run on any number of ranks, in any order of messages, gives every particle of a rank the acceleration and the
    potential that the traversal on one process gives it. *)
Theorem C104_same_as_one l fuel dn al w : spread dim pss -> build_all dim f pss = Some l ->
  (forall x, In x ps -> (0 < b_mass (eb (snd x)))%R) -> (forall x, In x ps -> (0 <= b_rad (eb (snd x)))%R) -> map snd ps = seq 0 parts ->
  (forall i j, (i < parts)%nat -> (j < parts)%nat -> i <> j -> ~ peq n (b_pos (eb i)) (b_pos (eb j))) ->
  exists st mx fuel0, build_tree cofm (fcc_cofm n bodies) dim true true lob hib ks = Some (st, mx) /\
  forall fuel1, (fuel0 <= fuel1)%nat -> exists calls sg, traversal_fmm dim (st_tab st) (st_cofm st) bodies MAC fuel1 = Some calls /\
    exec_all n gc (summary_at (st_tab st) (st_cofm st)) bodies gstate0 calls = Some sg /\
    forall ss sf r cs pp fu rest, in_order dim pss fuel (g_init (tables l) dn al w) (ss ++ [sf]) -> (r < length pss)%nat -> passes r ss = Some ([], cs, pp) -> finish r sf fu cs pp = Some rest ->
      exists s, forces r sf (cs ++ rest) = Some s /\ forall i, In i (map snd (nth r pss [])) -> (forall k, s_acc s i k = s_acc sg i k) /\ s_pot s i = s_pot sg i.
Proof.
  intros HS El Hmass Hrad Hids Hpos. destruct (parts_input HS Hmass Hids Hpos) as [HI HS1]. pose proof HI as (Hdim & Hne & Hs & Hf & _).
  assert (Hps : ps <> []) by (destruct ps; [cbn in Hne; congruence | discriminate]).
  destruct (C15_field dim lob hib ks bodies MAC gc HI) as (st & mx & fuel0 & E & HT). destruct (one_found eb dim ps lob hib Hdim Hps Hs Hf Hids) as (st' & mx' & one & E' & B & FO).
  rewrite E in E'. injection E' as <- <-. exists st, mx, fuel0. split; [exact E|]. intros fuel1 Hfu. destruct (HT fuel1 Hfu) as (calls & sg & T1 & T2 & _). exists calls, sg. split; [exact T1|]. split; [exact T2|].
  intros ss sf r cs pp fu rest CH Hr EP EF.
  destruct (sim_all eb dim MAC _ _ _ _ _ FO _ _ T1) as (k & cs' & pp' & rest' & P1 & P2 & ->).
  set (s1 := g_init (tables [one]) dn al w).
  assert (CH1 : in_order dim [ps] fuel s1 (repeat s1 k ++ [s1])) by (clear; induction k as [|k IH]; cbn [repeat app in_order]; (split; [apply st_refl|]); [exact I | exact IH]).
  assert (EP1 : passes 0%nat (repeat s1 k) = Some ([], cs', pp')) by (rewrite map_repeated; exact P1).
  destruct (C101_same eb dim MAC gc pss [ps] l [one] fuel fuel dn dn al al w w HS HS1 ltac:(cbn [concat]; rewrite app_nil_r; reflexivity) El B Hmass Hrad Hids Hpos ss sf r cs pp fu rest (repeat s1 k) s1 0%nat cs' pp' fuel1 rest' CH Hr EP EF CH1 ltac:(cbn; lia) EP1 P2) as (s & s' & F1 & F2 & F3).
  exists s. split; [exact F1|]. intros i Hi.
  assert (s' = sg) as ->.
  { rewrite (exec_all_ext _ _ _ (summary_at (st_tab st) (st_cofm st))) in F2 by (intros q; apply (sim_node eb _ _ _ _ _ FO)). change (exec_all n gc (summary_at (st_tab st) (st_cofm st)) bodies gstate0 (cs' ++ rest') = Some s') in F2. congruence. }
  apply F3; [exact Hi|]. cbn [nth]. apply in_map_iff in Hi. destruct Hi as (x & <- & Hx). apply in_map. apply in_concat. exists (nth r pss []). split; [apply nth_In; exact Hr | exact Hx].
Qed.
(** On one rank the traversal of the parallel program makes the calls of the traversal on one process, in the same order. *)
Theorem C104_one_rank fuel dn al w : spread dim pss -> length pss = 1%nat ->
  (forall x, In x ps -> (0 < b_mass (eb (snd x)))%R) -> map snd ps = seq 0 parts ->
  (forall i j, (i < parts)%nat -> (j < parts)%nat -> i <> j -> ~ peq n (b_pos (eb i)) (b_pos (eb j))) ->
  exists st mx l fuel0, build_tree cofm (fcc_cofm n bodies) dim true true lob hib ks = Some (st, mx) /\ build_all dim f pss = Some l /\
  forall fuel1, (fuel0 <= fuel1)%nat -> exists calls, traversal_fmm dim (st_tab st) (st_cofm st) bodies MAC fuel1 = Some calls /\
    let s := g_init (tables l) dn al w in exists k cs pp rest, in_order dim pss fuel s (repeat s k ++ [s]) /\ passes 0%nat (repeat s k) = Some ([], cs, pp) /\ finish 0%nat s fuel1 cs pp = Some rest /\ calls = cs ++ rest.
Proof.
  intros HS HL Hmass Hids Hpos. destruct (parts_input HS Hmass Hids Hpos) as [HI _]. pose proof HI as (Hdim & Hne & Hs & Hf & _).
  assert (Hps : ps <> []) by (destruct ps; [cbn in Hne; congruence | discriminate]).
  destruct (C15_each_pair_once dim lob hib ks bodies MAC HI) as (st & mx & fuel0 & E & HT). destruct (one_found eb dim ps lob hib Hdim Hps Hs Hf Hids) as (st' & mx' & one & E' & B & FO).
  rewrite E in E'. injection E' as <- <-. exists st, mx, [one], fuel0. split; [exact E|]. assert (EQ : [ps] = pss) by (destruct pss as [|q [|q' r']]; try discriminate HL; cbn [concat]; rewrite app_nil_r; reflexivity).
  split; [transitivity (build_all dim f [ps]); [rewrite EQ; reflexivity | exact B]|]. intros fuel1 Hfu. destruct (HT fuel1 Hfu) as (calls & T1 & _). exists calls. split; [exact T1|]. intros s.
  destruct (sim_all eb dim MAC _ _ _ _ _ FO _ _ T1) as (k & cs' & pp' & rest' & P1 & P2 & Q). exists k, cs', pp', rest'. split; [clear; induction k as [|k IH]; cbn [repeat app in_order]; (split; [apply st_refl|]); [exact I | exact IH]|].
  split; [rewrite map_repeated; exact P1|]. split; [exact P2 | exact Q].
Qed.
End Whole.

(** C104_same_as_one: rank 1 of two ends its traversal; its particles 1 and 2 have the accelerations of the traversal on one process *)
Example C104_same_as_one_example gc : exists l, spread 1 pss3 /\ build_all 1 (cofm_of eb3 (N.to_nat 1)) pss3 = Some l /\
  (forall x, In x (concat pss3) -> (0 < b_mass (eb3 (snd x)))%R) /\ (forall x, In x (concat pss3) -> (0 <= b_rad (eb3 (snd x)))%R) /\
  map snd (concat pss3) = seq 0 (length (concat pss3)) /\ (forall i j, (i < length (concat pss3))%nat -> (j < length (concat pss3))%nat -> i <> j -> ~ peq (N.to_nat 1) (b_pos (eb3 i)) (b_pos (eb3 j))) /\
  let s := g_init (tables l) (fun _ _ => false) (fun _ => false) (fun _ => []) in
  let calls := [C_p2c 3 0; C_c2p 3 [2; 1]%nat; C_p2p 1 None [1%nat]; C_p2p 1 None [2%nat]; C_p2p 2 None [1%nat]; C_p2p 2 None [2%nat]] in
  exists st mx fuel1 calls' sf sg, build_tree cofm (fcc_cofm 1 (map eb3 (seq 0 3))) 1 true true 0 0 (map fst (concat pss3)) = Some (st, mx) /\
    traversal_fmm 1 (st_tab st) (st_cofm st) (map eb3 (seq 0 3)) mac3 fuel1 = Some calls' /\
    exec_all 1 gc (node_of (look_r (g_tab s 1%nat))) (map eb3 (seq 0 3)) gstate0 calls = Some sf /\
    exec_all 1 gc (summary_at (st_tab st) (st_cofm st)) (map eb3 (seq 0 3)) gstate0 calls' = Some sg /\
    s_acc sf 1%nat 0%nat = s_acc sg 1%nat 0%nat /\ s_acc sf 2%nat 0%nat = s_acc sg 2%nat 0%nat /\ s_pot sf 2%nat = s_pot sg 2%nat.
Proof.
  destruct C99_each_pair_once_example as (l & H1 & H2 & H3 & H4 & H5 & H6 & H7 & H8 & H9 & _). exists l. split; [exact H1|]. split; [exact H2|]. split; [exact H3|]. split; [exact H4|]. split; [exact H5|]. split; [exact H6|]. intros s calls.
  destruct (C104_same_as_one eb3 1 mac3 gc pss3 0 0 l 9 (fun _ _ => false) (fun _ => false) (fun _ => []) H1 H2 H3 H4 H5 H6) as (st & mx & fuel0 & E & HT). destruct (HT fuel0 (le_n _)) as (calls' & sg & T1 & T2 & T3).
  destruct (T3 [s; s; s] s 1%nat _ _ 9%nat _ H7 ltac:(cbn; lia) H8 H9) as (sf & F1 & F2). exists st, mx, fuel0, calls', sf, sg. split; [exact E|]. split; [exact T1|]. split; [exact F1|]. split; [exact T2|].
  split; [apply F2; cbn; tauto|]. split; apply F2; cbn; tauto.
Qed.
(** C104_one_rank: the three particles on one rank *)
Example C104_one_rank_example : spread 1 [concat pss3] /\ length [concat pss3] = 1%nat /\
  (forall x, In x (concat [concat pss3]) -> (0 < b_mass (eb3 (snd x)))%R) /\ map snd (concat [concat pss3]) = seq 0 (length (concat [concat pss3])) /\
  (forall i j, (i < length (concat [concat pss3]))%nat -> (j < length (concat [concat pss3]))%nat -> i <> j -> ~ peq (N.to_nat 1) (b_pos (eb3 i)) (b_pos (eb3 j))).
Proof.
  destruct C99_each_pair_once_example as (l & H1 & _ & H3 & _ & H5 & H6 & _). split.
  { destruct H1 as (X1 & _ & X2 & X3 & X4). split; [exact X1|]. split; [exists 0%nat; reflexivity|]. split; [intros ps [<-|[]]; discriminate|]. cbn [concat] in *. rewrite ?app_nil_r in *. split; assumption. }
  split; [reflexivity|]. split; [exact H3|]. split; [exact H5 | exact H6].
Qed.
Print Assumptions C104_same_as_one.
Print Assumptions C104_one_rank.
