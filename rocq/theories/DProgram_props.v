(** C106: the driver with gravity on several processes.  The gravity of an iteration is that of the traversal on the tree shared
    by the ranks; a run on any number of ranks is a run of the passes on the undistributed particles with the traversal of one
    process. *)
From Coq Require Import Sorted Permutation FunctionalExtensionality.
From Verif Require Import Base Key_model HCell_model BuildTree_model BuildTree_spec BuildTree_props Vec Geometry_model Geometry_props Cofm_model Sph_model Driver_model
  Driver_tree Pass_model Pass_props Share_model Share_lemmas Share_world Share_props Comms_model Dist_model Dist_refuted Dist_props Dist_all_props.
From Verif Require Import Search_model Gravity_model Fmm_model Fmm_spec Fmm_proofs Fmm_exec Fmm_props DFmm_model DFmm_props DSame_props DOne_props DFinish_props.
From Verif Require Import Driver_proofs Pass_proofs Pass_same Kernel_model.

Section Gravity.
Context (dim : N) (M : nat) (MAC gc : R) (key : (nat -> dbody) -> point -> N).
Notation n := (N.to_nat dim).
(** the particles of a state and their keys in the order [sigma] *)
Definition in_key_order (s : nat -> dbody) (sigma : list nat) (ks : list N) : Prop :=
  (forall i, (i < M)%nat -> 0 < p_m (d_p (s i)) /\ 0 <= p_h (d_p (s i)))%R /\ Permutation sigma (seq 0 M) /\
  ks = map (fun i => key s (p_pos (d_p (s i)))) sigma /\ StronglySorted N.lt ks /\ Forall (full_key dim) ks.
(** bodies_system.h L152-229 and L282-290 on one process: the tree of all particles and its traversal *)
Definition grav_one (s : nat -> dbody) (g : nat -> point * R) : Prop := exists sigma ks st mx fuel0, in_key_order s sigma ks /\
  let bodies := map (fun i => tree_body (s i)) sigma in
  build_tree cofm (fcc_cofm n bodies) dim true true (key_min dim) (key_max dim) ks = Some (st, mx) /\
  forall fuel, (fuel0 <= fuel)%nat -> exists calls sg, traversal_fmm dim (st_tab st) (st_cofm st) bodies MAC fuel = Some calls /\
    exec_all n gc (summary_at (st_tab st) (st_cofm st)) bodies gstate0 calls = Some sg /\
    forall j, (j < M)%nat -> g (nth j sigma 0%nat) = (s_acc sg j, s_pot sg j).
(** ... on [nr] ranks: the tree is shared by the ranks, each of which goes through it in its own states of one execution of
    the exchange of messages *)
Definition grav_ranks (nr : nat) (s : nat -> dbody) (g : nat -> point * R) : Prop := exists sigma ks pss l fuel dn al w, in_key_order s sigma ks /\
  length pss = nr /\ (exists m, nr = 2 ^ m)%nat /\ (forall ps, In ps pss -> ps <> []) /\ map fst (concat pss) = ks /\ map snd (concat pss) = seq 0 M /\
  let eb := fun j => tree_body (s (nth j sigma 0%nat)) in
  build_all dim (cofm_of eb n) pss = Some l /\
  forall r, (r < nr)%nat -> exists ss sf cs pp fu rest sr, in_order dim pss fuel (g_init (tables l) dn al w) (ss ++ [sf]) /\
    dfmm_passes eb dim MAC (map (view r) ss) [(key_root, key_root)] = Some ([], cs, pp) /\ dfmm_end dim (look_r (g_tab sf r)) (iam_owner r (g_tab sf r)) fu cs pp = Some rest /\
    exec_all n gc (node_of (look_r (g_tab sf r))) (map eb (seq 0 M)) gstate0 (cs ++ rest) = Some sr /\
    forall j, In j (map snd (nth r pss [])) -> g (nth j sigma 0%nat) = (s_acc sr j, s_pot sr j).

Context (Hdim : dim_ok dim) (HM : (0 < M)%nat).
(** the key is a function of the position in the box of all particles *)
Context (Hkey : forall s x y, peq n x y -> key s x = key s y).
Context (Hbox : forall s s' x, (forall i, (i < M)%nat -> p_pos (d_p (s i)) = p_pos (d_p (s' i)) /\ p_h (d_p (s i)) = p_h (d_p (s' i))) -> key s x = key s' x).

Lemma map_nth_seq {A} (l : list A) d : map (fun j => nth j l d) (seq 0 (length l)) = l.
Proof. induction l as [|a l IH]; [reflexivity|]. cbn [length seq map nth]. rewrite <- seq_shift, map_map. f_equal. exact IH. Qed.
Lemma sorted_nodup (ks : list N) : StronglySorted N.lt ks -> NoDup ks.
Proof. induction 1 as [|a l Hs IH Ha]; constructor; [|exact IH]. intros H. rewrite Forall_forall in Ha. specialize (Ha a H). lia. Qed.

Theorem C106_gravity nr s g : grav_ranks nr s g -> grav_one s g.
Proof.
  intros (sigma & ks & pss & l & fuel & dn & al & w & HK & Hnr & Hpow & Hne & Hks & Hids & El & HR). pose proof HK as (Hpos & Hperm & Ek & Hs & Hf).
  assert (HL : length sigma = M) by (rewrite (Permutation_length Hperm), seq_length; reflexivity).
  assert (HLk : length (concat pss) = M) by (rewrite <- (map_length snd), Hids, seq_length; reflexivity).
  assert (SM : forall j, (j < M)%nat -> (nth j sigma 0 < M)%nat).
  { intros j Hj. assert (In (nth j sigma 0%nat) (seq 0 M)) by (eapply Permutation_in; [exact Hperm | apply nth_In; lia]). apply in_seq in H. lia. }
  set (eb := fun j => tree_body (s (nth j sigma 0%nat))) in *.
  assert (EB : map eb (seq 0 M) = map (fun i => tree_body (s i)) sigma) by (unfold eb; rewrite <- (map_map (fun j => nth j sigma 0%nat) (fun i => tree_body (s i))), <- HL, map_nth_seq; reflexivity).
  assert (ID : forall x, In x (concat pss) -> (snd x < M)%nat) by (intros x Hx; assert (In (snd x) (seq 0 M)) by (rewrite <- Hids; apply in_map, Hx); apply in_seq in H; lia).
  destruct (C104_same_as_one eb dim MAC gc pss (key_min dim) (key_max dim) l fuel dn al w) as (st & mx & fuel0 & E & HT).
  - split; [exact Hdim|]. split; [rewrite Hnr; exact Hpow|]. split; [exact Hne|]. rewrite Hks. split; assumption.
  - exact El.
  - intros x Hx. cbn. apply Hpos, SM, ID, Hx.
  - intros x Hx. cbn. apply Hpos, SM, ID, Hx.
  - rewrite HLk. exact Hids.
  - rewrite HLk. intros i j Hi Hj Hij Q. cbn in Q. assert (K : nth i ks 0%N = nth j ks 0%N).
    { assert (G : forall q, (q < M)%nat -> nth q ks 0%N = key s (p_pos (d_p (s (nth q sigma 0%nat))))).
      { intros q Hq. rewrite Ek, (nth_indep _ 0%N (key s (p_pos (d_p (s 0%nat))))) by (rewrite map_length; lia). apply (map_nth (fun i => key s (p_pos (d_p (s i))))). }
      rewrite !G by assumption. apply Hkey, Q. }
    apply Hij. apply (proj1 (NoDup_nth ks 0%N) (sorted_nodup ks Hs)); [rewrite Ek, map_length; lia | rewrite Ek, map_length; lia | exact K].
  - rewrite HLk, EB, Hks in E. exists sigma, ks, st, mx, fuel0. split; [exact HK|]. cbv zeta. split; [exact E|]. intros fuel1 Hfu. destruct (HT fuel1 Hfu) as (calls & sg & T1 & T2 & T3). rewrite HLk, EB in T1, T2. exists calls, sg. split; [exact T1|]. split; [exact T2|].
    intros j Hj. assert (Hin : In j (map snd (concat pss))) by (rewrite Hids; apply in_seq; lia). apply in_map_iff in Hin. destruct Hin as (x & <- & Hx). apply in_concat in Hx. destruct Hx as (ps & Hp & Hx). apply (In_nth _ _ []) in Hp. destruct Hp as (r & Hr & <-).
    rewrite Hnr in Hr. destruct (HR r Hr) as (ss & sf & cs & pp & fu & rest & sr & R1 & R2 & R3 & R4 & R5). rewrite (R5 (snd x) (in_map snd _ x Hx)).
    rewrite <- Hnr in Hr. destruct (T3 ss sf r cs pp fu rest R1 Hr R2 R3) as (s0 & F1 & F2). rewrite HLk, R4 in F1. injection F1 as <-. destruct (F2 (snd x) (in_map snd _ x Hx)) as [A1 A2]. f_equal; [apply functional_extensionality; exact A1 | exact A2].
Qed.

Lemma ranks_run nr s sigma ks : (exists m, nr = 2 ^ m)%nat -> (nr <= M)%nat -> in_key_order s sigma ks ->
  let bodies := map (fun i => tree_body (s i)) sigma in
  exists st mx, build_tree cofm (fcc_cofm n bodies) dim true true (key_min dim) (key_max dim) ks = Some (st, mx) /\
  (forall g, (exists fuel0, forall fuel, (fuel0 <= fuel)%nat -> exists calls sg, traversal_fmm dim (st_tab st) (st_cofm st) bodies MAC fuel = Some calls /\
    exec_all n gc (summary_at (st_tab st) (st_cofm st)) bodies gstate0 calls = Some sg /\ (forall j, (j < M)%nat -> g (nth j sigma 0%nat) = (s_acc sg j, s_pot sg j))) -> grav_ranks nr s g) /\
  exists fuel0 sg0, forall fuel, (fuel0 <= fuel)%nat -> exists calls sg, traversal_fmm dim (st_tab st) (st_cofm st) bodies MAC fuel = Some calls /\
    exec_all n gc (summary_at (st_tab st) (st_cofm st)) bodies gstate0 calls = Some sg /\ (forall j, (j < M)%nat -> s_acc sg j = s_acc sg0 j /\ s_pot sg j = s_pot sg0 j).
Proof.
  intros Hpow HnM HK bodies. pose proof HK as (Hpos & Hperm & Ek & Hs & Hf).
  assert (Hn1 : (1 <= nr)%nat) by (destruct Hpow as [m ->]; pose proof (Nat.pow_nonzero 2 m ltac:(lia)); lia).
  assert (HL : length sigma = M) by (rewrite (Permutation_length Hperm), seq_length; reflexivity).
  assert (HLs : length ks = M) by (rewrite Ek, map_length; exact HL).
  set (L := combine ks (seq 0 M)). assert (LL : length L = M) by (unfold L; rewrite combine_length, seq_length, HLs; lia).
  set (pss := map (fun x => [x]) (firstn (nr - 1) L) ++ [skipn (nr - 1) L]).
  assert (EC : concat pss = L).
  { unfold pss. rewrite concat_app. cbn [concat]. rewrite app_nil_r. assert (G : forall l : list (N * nat), concat (map (fun x => [x]) l) = l) by (induction l as [|x l IH]; [reflexivity|]; cbn [map concat app]; rewrite IH; reflexivity). rewrite G. apply firstn_skipn. }
  assert (Hnr : length pss = nr) by (unfold pss; rewrite app_length, map_length, firstn_length; cbn [length]; lia).
  assert (Hne : forall ps, In ps pss -> ps <> []).
  { intros ps Hp. apply in_app_or in Hp. destruct Hp as [Hp|[<-|[]]]; [apply in_map_iff in Hp; destruct Hp as (x & <- & _); discriminate|]. intros X. apply (f_equal (@length _)) in X. rewrite skipn_length in X. cbn in X. lia. }
  assert (Hks : map fst (concat pss) = ks).
  { rewrite EC. unfold L. clear - HLs. revert M HLs. assert (G : forall (l : list N) (l' : list nat), length l = length l' -> map fst (combine l l') = l) by (induction l as [|x l IH]; intros [|y l'] H; try discriminate; [reflexivity|]; cbn [combine map fst]; rewrite IH by (cbn in H; congruence); reflexivity). intros M HLs. apply G. rewrite seq_length. exact HLs. }
  assert (Hids : map snd (concat pss) = seq 0 M).
  { rewrite EC. unfold L. clear - HLs. revert M HLs. assert (G : forall (l : list N) (l' : list nat), length l = length l' -> map snd (combine l l') = l') by (induction l as [|x l IH]; intros [|y l'] H; try discriminate; [reflexivity|]; cbn [combine map snd]; rewrite IH by (cbn in H; congruence); reflexivity). intros M HLs. apply G. rewrite seq_length. exact HLs. }
  assert (HLk : length (concat pss) = M) by (rewrite EC; exact LL).
  assert (SM : forall j, (j < M)%nat -> (nth j sigma 0 < M)%nat).
  { intros j Hj. assert (In (nth j sigma 0%nat) (seq 0 M)) by (eapply Permutation_in; [exact Hperm | apply nth_In; lia]). apply in_seq in H. lia. }
  set (eb := fun j => tree_body (s (nth j sigma 0%nat))).
  assert (EB : map eb (seq 0 M) = map (fun i => tree_body (s i)) sigma) by (unfold eb; rewrite <- (map_map (fun j => nth j sigma 0%nat) (fun i => tree_body (s i))), <- HL, map_nth_seq; reflexivity).
  assert (ID : forall x, In x (concat pss) -> (snd x < M)%nat) by (intros x Hx; assert (In (snd x) (seq 0 M)) by (rewrite <- Hids; apply in_map, Hx); apply in_seq in H; lia).
  assert (HS : spread dim pss) by (split; [exact Hdim|]; split; [rewrite Hnr; exact Hpow|]; split; [exact Hne|]; rewrite Hks; split; assumption).
  destruct (C61_share dim (cofm_of eb n) pss HS) as (one & l & _ & El & _).
  assert (Q1 : forall x, In x (concat pss) -> (0 < b_mass (eb (snd x)))%R) by (intros x Hx; cbn; apply Hpos, SM, ID, Hx).
  assert (Q2 : forall x, In x (concat pss) -> (0 <= b_rad (eb (snd x)))%R) by (intros x Hx; cbn; apply Hpos, SM, ID, Hx).
  assert (Q3 : map snd (concat pss) = seq 0 (length (concat pss))) by (rewrite HLk; exact Hids).
  assert (Q4 : forall i j, (i < length (concat pss))%nat -> (j < length (concat pss))%nat -> i <> j -> ~ peq n (b_pos (eb i)) (b_pos (eb j))).
  { rewrite HLk. intros i j Hi Hj Hij Q. cbn in Q. assert (K : nth i ks 0%N = nth j ks 0%N).
    { assert (G : forall q, (q < M)%nat -> nth q ks 0%N = key s (p_pos (d_p (s (nth q sigma 0%nat))))).
      { intros q Hq. rewrite Ek, (nth_indep _ 0%N (key s (p_pos (d_p (s 0%nat))))) by (rewrite map_length; lia). apply (map_nth (fun i => key s (p_pos (d_p (s i))))). }
      rewrite !G by assumption. apply Hkey, Q. }
    apply Hij. apply (proj1 (NoDup_nth ks 0%N) (sorted_nodup ks Hs)); lia || exact K. }
  destruct (C104_same_as_one eb dim MAC gc pss (key_min dim) (key_max dim) l 0 (fun _ _ => false) (fun _ => false) (fun _ => []) HS El Q1 Q2 Q3 Q4) as (st1 & mx1 & fuel1 & E1 & HT1).
  rewrite HLk, EB, Hks in E1. exists st1, mx1. split; [exact E1|].
  destruct (C102_completes eb dim MAC pss l 0 (fun _ _ => false) (fun _ => false) (fun _ => []) HS El Q1 Q2 Q3 Q4 (fun _ => []) (g_init (tables l) (fun _ _ => false) (fun _ => false) (fun _ => []))) as (ss & sf & HC).
  { apply st_refl. }
  { intros r Hr. split; [split; [apply st_refl | exact I] | left; reflexivity]. }
  split.
  - intros g (fuel0 & HT). destruct (HT (Nat.max fuel0 fuel1) ltac:(lia)) as (calls & sg & T1 & T2 & T3). destruct (HT1 (Nat.max fuel0 fuel1) ltac:(lia)) as (calls1 & sg1 & V1 & V2 & V3). rewrite HLk, EB in V1, V2. fold bodies in V1, V2. rewrite T1 in V1. injection V1 as <-. rewrite T2 in V2. injection V2 as <-.
    exists sigma, ks, pss, l, 0%nat, (fun _ _ => false), (fun _ => false), (fun _ => []). split; [exact HK|]. split; [exact Hnr|]. split; [exact Hpow|]. split; [exact Hne|]. split; [exact Hks|]. split; [exact Hids|]. cbv zeta. fold eb. split; [exact El|].
    intros r Hr. rewrite <- Hnr in Hr. destruct (HC r Hr) as (C1 & _ & cs & pp & C2). cbn [app] in C2.
    destruct (C99_runs eb dim MAC pss l 0 (fun _ _ => false) (fun _ => false) (fun _ => []) HS El Q1 Q2 Q3 Q4 (ss r) sf r C1 Hr) as (q & cs' & pp' & D1 & (fu & rest & D2) & _). rewrite C2 in D1. injection D1 as <- <- <-.
    destruct (V3 (ss r) sf r cs pp fu rest C1 Hr C2 D2) as (sr & W1 & W2). rewrite HLk in W1. exists (ss r), sf, cs, pp, fu, rest, sr. split; [exact C1|]. split; [exact C2|]. split; [exact D2|]. split; [exact W1|].
    intros j Hj. assert (Hjm : (j < M)%nat) by (assert (In j (map snd (concat pss))) by (apply in_map_iff in Hj; destruct Hj as (x & <- & Hx); apply in_map, in_concat; exists (nth r pss []); split; [apply nth_In, Hr | exact Hx]); rewrite Hids in H; apply in_seq in H; lia).
    rewrite (T3 j Hjm). destruct (W2 j Hj) as [A1 A2]. f_equal; [apply functional_extensionality; intros k; symmetry; apply A1 | symmetry; exact A2].
  - destruct (HT1 fuel1 (le_n _)) as (calls0 & sg0 & _ & _ & V0). exists fuel1, sg0. intros fuel2 Hf2. destruct (HT1 fuel2 Hf2) as (calls & sg & V1 & V2 & V3). rewrite HLk, EB in V1, V2. exists calls, sg. split; [exact V1|]. split; [exact V2|].
    intros j Hj. assert (Hin : In j (map snd (concat pss))) by (rewrite Hids; apply in_seq; lia). apply in_map_iff in Hin. destruct Hin as (x & <- & Hx). apply in_concat in Hx. destruct Hx as (ps & Hp & Hx). apply (In_nth _ _ []) in Hp. destruct Hp as (r & Hr & <-).
    destruct (HC r Hr) as (C1 & _ & cs & pp & C2). cbn [app] in C2.
    destruct (C99_runs eb dim MAC pss l 0 (fun _ _ => false) (fun _ => false) (fun _ => []) HS El Q1 Q2 Q3 Q4 (ss r) sf r C1 Hr) as (q & cs' & pp' & D1 & (fu & rest & D2) & _). rewrite C2 in D1. injection D1 as <- <- <-.
    destruct (V3 (ss r) sf r cs pp fu rest C1 Hr C2 D2) as (sr & W1 & W2). destruct (V0 (ss r) sf r cs pp fu rest C1 Hr C2 D2) as (sr0 & W3 & W4). rewrite W1 in W3. injection W3 as <-. destruct (W2 _ (in_map snd _ x Hx)) as [A1 A2]. destruct (W4 _ (in_map snd _ x Hx)) as [B1 B2].
    split; [apply functional_extensionality; intros k; rewrite <- A1; apply B1 | congruence].
Qed.
(** ... and every number of ranks computes the gravity of one process. *)
Theorem C106_realised nr s g : (exists m, nr = 2 ^ m)%nat -> (nr <= M)%nat -> grav_one s g -> grav_ranks nr s g.
Proof.
  intros Hpow HnM (sigma & ks & st & mx & fuel0 & HK & E & HT). destruct (ranks_run nr s sigma ks Hpow HnM HK) as (st1 & mx1 & E1 & G & _). cbv zeta in *. rewrite E in E1. injection E1 as <- <-. apply G. exists fuel0. exact HT.
Qed.
Fixpoint place (l : list nat) (i : nat) : nat := match l with [] => 0%nat | j :: l => if Nat.eqb j i then 0%nat else S (place l i) end.
Lemma place_nth l j d : NoDup l -> (j < length l)%nat -> place l (nth j l d) = j.
Proof.
  intros H. revert j. induction H as [|a l Ha H IH]; intros j Hj; cbn [length] in Hj; [lia|]. destruct j as [|j]; cbn [nth place]; [rewrite Nat.eqb_refl; reflexivity|].
  destruct (Nat.eqb_spec a (nth j l d)) as [->|_]; [destruct Ha; apply nth_In; lia | f_equal; apply IH; lia].
Qed.
(** Gravity is computed whenever the keys of the particles are different. *)
Theorem C106_exists s sigma ks : in_key_order s sigma ks -> exists g, grav_one s g.
Proof.
  intros HK. destruct (ranks_run 1 s sigma ks (ex_intro _ 0%nat eq_refl) HM HK) as (st & mx & E & _ & fuel0 & sg0 & HT). pose proof HK as (_ & Hperm & _). exists (fun i => (s_acc sg0 (place sigma i), s_pot sg0 (place sigma i))), sigma, ks, st, mx, fuel0. split; [exact HK|]. cbv zeta. split; [exact E|].
  intros fuel Hfu. destruct (HT fuel Hfu) as (calls & sg & T1 & T2 & T3). exists calls, sg. split; [exact T1|]. split; [exact T2|]. intros j Hj. rewrite place_nth.
  - destruct (T3 j Hj) as [-> ->]. reflexivity.
  - apply (Permutation_NoDup (Permutation_sym Hperm)), seq_NoDup.
  - rewrite (Permutation_length Hperm), seq_length. exact Hj.
Qed.

Lemma order_unique (f : nat -> N) l l' : Permutation l l' -> StronglySorted N.lt (map f l) -> StronglySorted N.lt (map f l') -> l = l'.
Proof.
  revert l'. induction l as [|a l IH]; intros l' HP H1 H2; [apply Permutation_nil in HP; congruence|]. destruct l' as [|b l']; [apply Permutation_sym, Permutation_nil in HP; discriminate|].
  cbn [map] in H1, H2. inversion H1 as [|? ? S1 F1]; subst. inversion H2 as [|? ? S2 F2]; subst. rewrite Forall_forall in F1, F2.
  assert (a = b) as ->.
  { assert (A : In a (b :: l')) by (eapply Permutation_in; [exact HP | left; reflexivity]). assert (B : In b (a :: l)) by (eapply Permutation_in; [apply Permutation_sym, HP | left; reflexivity]).
    destruct A as [A|A]; [congruence|]. destruct B as [B|B]; [congruence|]. pose proof (F2 _ (in_map f _ _ A)). pose proof (F1 _ (in_map f _ _ B)). lia. }
  f_equal. apply IH; [eapply Permutation_cons_inv; exact HP | exact S1 | exact S2].
Qed.
Theorem C106_function : grav_fun M grav_one.
Proof.
  split.
  - intros s s' g Hss (sigma & ks & st & mx & fuel0 & (H1 & H2 & H3 & H4 & H5) & E & HT). assert (IN : forall i, In i sigma -> (i < M)%nat) by (intros i Hi; assert (In i (seq 0 M)) by (eapply Permutation_in; [exact H2 | exact Hi]); apply in_seq in H; lia).
    assert (EB : map (fun i => tree_body (s' i)) sigma = map (fun i => tree_body (s i)) sigma) by (apply map_ext_in; intros i Hi; destruct (Hss i (IN i Hi)) as (A & B & C); unfold tree_body; rewrite A, B, C; reflexivity).
    exists sigma, ks, st, mx, fuel0. split; [|cbv zeta; rewrite EB; split; [exact E | exact HT]]. split; [intros i Hi; destruct (Hss i Hi) as (_ & <- & <-); apply H1, Hi|]. split; [exact H2|]. split; [|split; assumption]. rewrite H3. apply map_ext_in. intros i Hi. destruct (Hss i (IN i Hi)) as (A & _). rewrite A. apply Hbox. intros j Hj. destruct (Hss j Hj) as (X & _ & Y). split; assumption.
  - intros s g g' (sigma & ks & st & mx & fuel0 & (H1 & H2 & H3 & H4 & H5) & E & HT) (sigma' & ks' & st' & mx' & fuel0' & (H1' & H2' & H3' & H4' & H5') & E' & HT') i Hi.
    assert (sigma' = sigma) as -> by (apply (order_unique (fun i => key s (p_pos (d_p (s i))))); [eapply Permutation_trans; [exact H2' | apply Permutation_sym, H2] | rewrite <- H3'; exact H4' | rewrite <- H3; exact H4]).
    assert (ks' = ks) as -> by congruence. rewrite E in E'. injection E' as <- <-. destruct (HT (Nat.max fuel0 fuel0') ltac:(lia)) as (calls & sg & T1 & T2 & T3). destruct (HT' (Nat.max fuel0 fuel0') ltac:(lia)) as (calls' & sg' & T1' & T2' & T3').
    rewrite T1 in T1'. injection T1' as <-. rewrite T2 in T2'. injection T2' as <-. assert (Hin : In i sigma) by (eapply Permutation_in; [apply Permutation_sym, H2 | apply in_seq; lia]). apply (In_nth _ _ 0%nat) in Hin. destruct Hin as (j & Hj & <-).
    assert (length sigma = M) by (rewrite (Permutation_length H2), seq_length; reflexivity). rewrite T3, T3' by lia. reflexivity.
Qed.
Lemma dist_ops_more dp nranks (grav grav' : (nat -> dbody) -> (nat -> point * R) -> Prop) l st st' : (forall s g, grav s g -> grav' s g) -> dist_ops dp M nranks grav l st st' -> dist_ops dp M nranks grav' l st st'.
Proof.
  intros HG. revert st. induction l as [|o l IH]; intros st H; [exact H|]. cbn [dist_ops] in *. destruct H as (m & H1 & H2). exists m. split; [|apply IH, H2]. destruct o; try exact H1. cbn [dist_op] in *. destruct H1 as (A & (g & G & B) & C). split; [exact A|]. split; [|exact C]. exists g. split; [apply HG, G | exact B].
Qed.
(** Every run of the driver on [nr] ranks, gravity included, is a run of the passes on the undistributed particles with the
    gravity of one process, up to the signal speeds. *)
Theorem C106_sequential dp nr k0 dt dt' dts st st' : cullen (dp_sph dp) = false -> dist_ops dp M nr (grav_ranks nr) (program dp true k0 dt dt' dts) st st' ->
  exists s', do_ops dp M (complete (dp_dim dp) M) grav_one (program dp true k0 dt dt' dts) (ds_cur st) s' /\ forall i, (i < M)%nat -> but_vsig (s' i) (ds_cur st' i).
Proof. intros Hc H. apply (C79_sequential dp M grav_one true Hc (fun _ => C106_function) nr). eapply dist_ops_more; [|exact H]. intros s g. apply C106_gravity. Qed.
(** Runs on [nr] and on [nr'] ranks that start from the same particles end with the same particles, up to the signal speeds. *)
Theorem C106_same dp nr nr' k0 dt dt' dts st1 st2 st1' st2' : cullen (dp_sph dp) = false -> (1 <= dp_dim dp <= 3)%nat -> (0 < dp_etaw dp)%R -> (dp_rrad dp <= 1)%R ->
  (forall i, (i < M)%nat -> ds_cur st1 i = ds_cur st2 i /\ 0 < p_m (d_p (ds_cur st1 i)) /\ 0 < p_h (d_p (ds_cur st1 i)))%R ->
  dist_ops dp M nr (grav_ranks nr) (program dp true k0 dt dt' dts) st1 st1' -> dist_ops dp M nr' (grav_ranks nr') (program dp true k0 dt dt' dts) st2 st2' ->
  forall i, (i < M)%nat -> but_vsig (ds_cur st1' i) (ds_cur st2' i).
Proof.
  intros Hc Hd Hw Hr H0 H1 H2. apply (C79_same dp M grav_one true Hc (fun _ => C106_function) nr nr' k0 dt dt' dts st1 st2); try assumption; (eapply dist_ops_more; [|eassumption]); intros s g; apply C106_gravity.
Qed.
(** ... and every such run can be done on every number of ranks that is a power of two. *)
Theorem C106_any_ranks dp nr own ord k0 dt dt' dts s s' : cullen (dp_sph dp) = false -> (exists m, nr = 2 ^ m)%nat -> (nr <= M)%nat ->
  (forall i, (i < M)%nat -> (own i < nr)%nat) -> Permutation ord (seq 0 M) -> do_ops dp M (complete (dp_dim dp) M) grav_one (program dp true k0 dt dt' dts) s s' ->
  exists st st', ds_cur st = s /\ dist_ops dp M nr (grav_ranks nr) (program dp true k0 dt dt' dts) st st' /\ ds_own st' = own /\ forall i, (i < M)%nat -> but_vsig (s' i) (ds_cur st' i).
Proof.
  intros Hc Hpow HnM Hown Hord H. destruct (C79_realised dp M grav_one true Hc (fun _ => C106_function) nr own ord k0 dt dt' dts s s' Hown Hord H) as (st & st' & A & B & C & D). exists st, st'. split; [exact A|]. split; [|split; assumption].
  eapply dist_ops_more; [|exact B]. intros s0 g. apply C106_realised; assumption.
Qed.

Section First.
Context (dp : dparams) (s0 : nat -> dbody) (sigma : list nat) (ks : list N) (HK : in_key_order s0 sigma ks).
Context (Hd : (1 <= dp_dim dp <= 3)%nat) (Hw : (0 < dp_etaw dp)%R) (Hc : cullen (dp_sph dp) = false) (Ht : dp_thermo dp = false).
Context (Hk : SphMore_props.decreasing (the_kernel (dp_sph dp))) (Hs : (1 <= sinc_index (dp_sph dp) <= 12)%R).
Notation go := (Pass_props.go dp M grav_one).
(** the particles are where they were *)
Definition still (s : nat -> dbody) : Prop := forall i, (i < M)%nat -> p_pos (d_p (s i)) = p_pos (d_p (s0 i)) /\ p_m (d_p (s i)) = p_m (d_p (s0 i)) /\ p_h (d_p (s i)) = p_h (d_p (s0 i)).
Definition SA s := PA M s /\ still s.
Definition SB s := PB M s /\ still s.
Lemma still_key s : still s -> in_key_order s sigma ks.
Proof using HK Hbox.
  clear Hkey Ht Hd Hc HM Hw Hdim Hk Hs. destruct HK as (H1 & H2 & H3 & H4 & H5). intros H. assert (IN : forall i, In i sigma -> (i < M)%nat) by (intros i Hi; assert (X : In i (seq 0 M)) by (eapply Permutation_in; [exact H2 | exact Hi]); apply in_seq in X; lia).
  split; [intros i Hi; destruct (H i Hi) as (_ & -> & ->); apply H1, Hi|]. split; [exact H2|]. split; [|split; assumption]. rewrite H3. apply map_ext_in. intros i Hi. destruct (H i (IN i Hi)) as (A & _). rewrite A. apply Hbox. intros j Hj. destruct (H j Hj) as (X & _ & Y). split; congruence.
Qed.
Lemma first_all (f : dbody -> dbody) (P : _ -> Prop) : P = SA \/ P = SB -> (forall b, EM b (f b) /\ p_pos (d_p (f b)) = p_pos (d_p b)) -> go P [all f] P.
Proof using.
  intros HP K s H. exists (fun i => f (s i)). split; [eexists; split; [|reflexivity]; cbn; reflexivity|].
  assert (G : still s -> still (fun i => f (s i))) by (intros X i Hi; destruct (X i Hi) as (A & B & C); destruct (K (s i)) as ((E1 & E2 & _) & E3); split; [congruence|]; split; congruence).
  destruct HP as [HP|HP]; subst P; destruct H as [H X]; (split; [|apply G, X]); [apply (stable_A M s) | apply (stable_B M s)]; try exact H; intros i Hi; apply K.
Qed.
Lemma first_density dt : go SA [OPass (density_pass dp dt)] SB.
Proof using Hd HM Hw Hc Ht Hk Hs.
  intros s (H & X). destruct (Pass_props.go_density dp M grav_one Hd HM Hc Ht Hk Hs dt s H) as (s' & D & H'). exists s'. split; [exact D|]. split; [exact H'|].
  cbn [do_ops] in D. destruct D as (m & (nb & _ & D) & E). assert (E' : s' = m) by exact E. subst m. intros i Hi. specialize (D i Hi). apply density_keeps in D. destruct D as ((_ & F1 & F2 & _) & F3 & _). destruct (X i Hi) as (A & B & C). unfold same_h in F3. split; [congruence|]. split; congruence.
Qed.
(** The first iteration, gravity included, runs on every number of ranks that is a power of two if the keys are different. *)
Theorem C106_first nr own k dt dt' : (forall i, (i < M)%nat -> 0 < p_h (d_p (s0 i)))%R -> (exists m, nr = 2 ^ m)%nat -> (nr <= M)%nat -> (forall i, (i < M)%nat -> (own i < nr)%nat) ->
  exists st st', ds_cur st = s0 /\ dist_ops dp M nr (grav_ranks nr) (program dp true k dt dt' []) st st' /\ ds_own st' = own.
Proof using All.
  intros Hh Hpow HnM Hown. assert (G : go SA (program dp true k dt dt' []) (fun _ => True)).
  { unfold program. cbn [loop_ops]. rewrite app_nil_r. unfold initial_ops. cbv zeta. rewrite Hc, Ht. cbn [opt app andb].
    eapply Pass_props.go_cons; [apply (Pass_props.go_update dp M grav_one SA)|]. eapply Pass_props.go_cons; [apply first_all; [left; reflexivity | intro; repeat split]|].
    eapply Pass_props.go_cons; [apply first_density|]. eapply Pass_props.go_cons; [apply first_all; [right; reflexivity | intro; repeat split]|].
    unfold forces. cbn [opt app]. eapply Pass_props.go_cons; [apply (Pass_props.go_reset dp M grav_one SB)|].
    assert (GP : go SB [OPass (acceleration_pass dp)] SB).
    { intros s (H & X). eexists. split; [eexists; split; [exists (fun _ => seq 0 M); split; [apply all_complete; assumption | intros i Hi; reflexivity] | reflexivity]|]. split; [apply (stable_B M s); [intros i Hi; repeat split | exact H]|]. intros i Hi. apply (X i Hi). }
    eapply Pass_props.go_cons; [exact GP|].
    assert (GG : go SB [OGrav] (PB M)).
    { intros s (H & X). destruct (C106_exists s sigma ks (still_key s X)) as (g & Hgr). eexists. split; [eexists; split; [exists g; split; [exact Hgr | intros i Hi; reflexivity] | reflexivity]|]. apply (stable_B M s); [intros i Hi; repeat split | exact H]. }
    eapply Pass_props.go_cons; [exact GG|]. eapply (Pass_props.go_app dp M grav_one (PB M) (PB M)).
    - apply Pass_props.go_opt. eapply Pass_props.go_cons; [apply Pass_props.go_all; [apply stable_B | intro; repeat split]|]. apply Pass_props.go_pass; try assumption; [apply stable_B | intros; repeat split].
    - eapply (Pass_props.go_app dp M grav_one (PB M) (PB M)); [apply Pass_props.go_opt, Pass_props.go_rounds; assumption|]. intros s H. destruct (Pass_props.go_smooth dp M grav_one Hd HM Hw s H) as (s' & A & _). exists s'. split; [exact A | exact I]. }
  destruct (G s0) as (s' & D & _). { destruct HK as (H1 & _). split; [split; intros i Hi; [apply H1, Hi | apply Hh, Hi] | intros i Hi; repeat split]. }
  destruct (C106_any_ranks dp nr own (seq 0 M) k dt dt' [] s0 s' Hc Hpow HnM Hown (Permutation_refl _) D) as (st & st' & A & B & C & _). exists st, st'. split; [exact A|]. split; assumption.
Qed.
End First.
End Gravity.

From Verif Require Import Range_model FCell_model.
(** bodies_system.h L231-268 and filling_curve.h L490-525: the Morton key in double precision of a position in the range of all
    particles; 0, which is no key of a particle, when an operation overflows *)
Definition range_key (dim : N) (M : nat) (s : nat -> dbody) (x : point) : N :=
  match compute_range_fl (N.to_nat dim) [map (fun i => RBody (p_pos (d_p (s i))) (p_h (d_p (s i)))) (seq 0 M)] with
  | Some rg => match key_fl dim rg x with Some k => k | None => 0%N end
  | None => 0%N
  end.
(** The keys of the code satisfy what is asked of keys above. *)
Theorem C106_range_key dim M :
  (forall s x y, peq (N.to_nat dim) x y -> range_key dim M s x = range_key dim M s y) /\
  (forall s s' x, (forall i, (i < M)%nat -> p_pos (d_p (s i)) = p_pos (d_p (s' i)) /\ p_h (d_p (s i)) = p_h (d_p (s' i))) -> range_key dim M s x = range_key dim M s' x).
Proof.
  split.
  - intros s x y H. unfold range_key. destruct compute_range_fl as [rg|]; [|reflexivity]. unfold key_fl. assert (G : forall m, (m <= N.to_nat dim)%nat -> cells_fl dim m rg x = cells_fl dim m rg y).
    { induction m as [|m IH]; intros Hm; cbn [cells_fl]; [reflexivity|]. rewrite IH by lia. rewrite (H m) by lia. reflexivity. }
    rewrite G by lia. reflexivity.
  - intros s s' x H. unfold range_key. replace (map (fun i => RBody (p_pos (d_p (s' i))) (p_h (d_p (s' i)))) (seq 0 M)) with (map (fun i => RBody (p_pos (d_p (s i))) (p_h (d_p (s i)))) (seq 0 M)); [reflexivity|]. apply map_ext_in. intros i Hi. apply in_seq in Hi. destruct (H i ltac:(lia)) as [-> ->]. reflexivity.
Qed.
From Verif Require Import Sph_props SphMore_props Driver_props.
(** Three particles of the line and their keys, gas and gravity: the first iteration on one process and on two ranks. *)
Definition s3 (i : nat) : dbody := match i with 0%nat => DBody (at1 0 1 1 0 0 0 0) 0 vzero 0 0 0 0 0 0 0 | 1%nat => DBody (at1 (1 / 2) (-2) 3 0 0 0 0) 1 vzero 0 0 0 0 0 0 0 | _ => DBody (at1 (3 / 4) 1 2 0 0 0 0) 2 vzero 0 0 0 0 0 0 0 end.
Definition key3 (_ : nat -> dbody) (x : point) : N := if Rlt_dec (x 0%nat) (1 / 4) then (2 ^ 63)%N else if Rlt_dec (x 0%nat) (5 / 8) then (2 ^ 63 + 2 ^ 62)%N else (2 ^ 63 + 2 ^ 62 + 2 ^ 61)%N.
Lemma s3_order : in_key_order 1 3 key3 s3 [0; 1; 2]%nat [2 ^ 63; 2 ^ 63 + 2 ^ 62; 2 ^ 63 + 2 ^ 62 + 2 ^ 61]%N.
Proof.
  split; [intros [|[|[|i]]] Hi; cbn; try lra; lia|]. split; [apply Permutation_refl|]. split.
  - cbn [map]. unfold key3. cbn. repeat destruct Rlt_dec; try lra. reflexivity.
  - split; [repeat constructor|]. repeat constructor; vm_compute; congruence.
Qed.
Example C106_case MAC gc dt dt' : exists st1 st2 st1' st2', ds_cur st1 = s3 /\ ds_cur st2 = s3 /\
  dist_ops (par77 false) 3 1 (grav_ranks 1 3 MAC gc key3 1) (program (par77 false) true 0 dt dt' []) st1 st1' /\
  dist_ops (par77 false) 3 2 (grav_ranks 1 3 MAC gc key3 2) (program (par77 false) true 0 dt dt' []) st2 st2' /\
  ds_own st1' 1%nat <> ds_own st2' 1%nat /\ forall i, (i < 3)%nat -> but_vsig (ds_cur st1' i) (ds_cur st2' i).
Proof.
  assert (D1 : dim_ok 1) by (unfold dim_ok; tauto).
  assert (K1 : forall s x y, peq (N.to_nat 1) x y -> key3 s x = key3 s y) by (intros s x y H; unfold key3; rewrite (H 0%nat) by (cbn; lia); reflexivity).
  assert (Q : forall nr own, (exists m, nr = 2 ^ m)%nat -> (nr <= 3)%nat -> (forall i, (i < 3)%nat -> (own i < nr)%nat) ->
    exists st st', ds_cur st = s3 /\ dist_ops (par77 false) 3 nr (grav_ranks 1 3 MAC gc key3 nr) (program (par77 false) true 0 dt dt' []) st st' /\ ds_own st' = own).
  { intros nr own Hp Hn Ho. apply (C106_first 1 3 MAC gc key3 D1 ltac:(lia) K1 ltac:(reflexivity) (par77 false) s3 _ _ s3_order); try assumption; try reflexivity; cbn; try lia; try lra; [apply C66_case|].
    intros [|[|[|i]]] Hi; cbn; try lra; lia. }
  destruct (Q 1%nat (fun _ => 0%nat)) as (st1 & st1' & A1 & A2 & A3); [exists 0%nat; reflexivity | lia | intros; lia|].
  destruct (Q 2%nat (fun i => match i with 0%nat => 0%nat | _ => 1%nat end)) as (st2 & st2' & B1 & B2 & B3); [exists 1%nat; reflexivity | lia | intros [|i] Hi; lia|].
  exists st1, st2, st1', st2'. split; [exact A1|]. split; [exact B1|]. split; [exact A2|]. split; [exact B2|]. split; [rewrite A3, B3; discriminate|].
  apply (C106_same 1 3 MAC gc key3 D1 ltac:(lia) K1 ltac:(reflexivity) (par77 false) 1 2 0 dt dt' [] st1 st2); try assumption; try reflexivity; cbn; try lia; try lra.
  intros i Hi. rewrite A1, B1. split; [reflexivity|]. destruct i as [|[|[|i]]]; cbn; try lra; lia.
Qed.
Print Assumptions C106_gravity.
Print Assumptions C106_same.
Print Assumptions C106_range_key.
