(** C102: the gravity traversal on several ranks can always be completed.  From any state the ranks
    can get into, however many passes they have made and whatever is on the way, there is a
    continuation in which no pair is left to any of them and all come to the barrier. *)
From Coq Require Import Sorted Permutation.
From Verif Require Import Base Key_model HCell_model BuildTree_model BuildTree_lemmas BuildTree_inv BuildTree_props Vec Geometry_model Geometry_props Cofm_model
  Share_model Share_lemmas Share_sums Share_table Share_rounds Share_final Share_world Share_reach Share_flags Share_props Comms_model Dist_model Dist_lemmas Dist_walk Dist_near Dist_reach Dist_cover Dist_target Dist_refuted Dist_props Dist_all_props.
From Verif Require Comms_lemmas Comms_inv Comms_steps Comms_props Comms_flags Fmm_spec.
From Verif Require Import Search_model Gravity_model Fmm_model Fmm_proofs DFmm_owner DFmm_model DFmm_cells DFmm_pairs DFmm_end DFmm_props Await_lemmas DSame_props.
Local Open Scope N_scope.

Section Barrier.
Context {D : Type} (dim : N) (n : nat) (fuel : nat) (W : world D) (T0 : nat -> rtable D) (dn : nat -> nat -> bool) (al : nat -> bool) (w : nat -> list N).
Notation run := (steps dim n false keeps fuel).
Notation start := (g_init T0 dn al w).
Hypothesis HI : forall s, run start s -> Comms_inv.inv dim n W s.
Lemma tables_ok s : Comms_inv.inv dim n W s -> (forall r, (r < n)%nat -> g_ph s r <> Working) -> Comms_inv.start_ok dim n W (g_tab s).
Proof.
  intros H Hp. split; [exact (Comms_inv.i_wf _ _ _ _ H)|]. intros r Hr. split; [apply (Comms_inv.i_tok _ _ _ _ H r Hr)|]. intros k c Hc. apply (Comms_inv.i_rest _ _ _ _ H r k c Hr Hc). rewrite (Comms_inv.i_quiet _ _ _ _ H r Hr (Hp r Hr)). intros [].
Qed.
Lemma same_reach s : run start s -> steps dim n false (Comms_inv.newtabs dim n) fuel start s.
Proof.
  intros R. remember start as s0 eqn:E0. induction R as [|x y z R IH C]; [apply st_refl|]. subst x. specialize (IH eq_refl HI). refine (st_step _ _ _ _ _ _ _ _ IH _). pose proof (HI y R) as H.
  destruct C as [s r Hr Hp|s r o ks Hr Ho Hp Ha|s r o ks Hsub Hr Ho Hp Ha|s s' r src m rest Hr Hs Hl HC Hh|s r Hr Hp Hf|s r Hr Hp Ha|s r Hr Hp Hd|s t' Hb HN]; [apply s_start | apply s_request | discriminate | apply (s_recv _ _ _ _ _ s s' r src m rest) | apply s_finish | apply s_leave | apply s_waitall|]; try assumption.
  rewrite HN. apply s_barrier; [exact Hb|]. exists W. apply tables_ok; [exact H|]. intros r Hr. rewrite (Hb r Hr). discriminate.
Qed.
(** once the ranks ask for nothing more all come to the barrier *)
Lemma to_barrier s : run start s -> exists s', run s s' /\ forall r, (r < n)%nat -> g_ph s' r = AtBarrier.
Proof.
  intros R. destruct (Comms_props.C17_ends (D := D) dim n fuel T0 dn al w) as (m & Hm).
  assert (S0 : Comms_inv.start_ok dim n W T0) by (apply (tables_ok start (HI start (st_refl _ _ _ _ _ _))); intros r _; cbn; discriminate).
  assert (G : forall j s, (m s < j)%nat -> run start s -> exists s', run s s' /\ forall r, (r < n)%nat -> g_ph s' r = AtBarrier); [|apply (G (S (m s)) s (Nat.lt_succ_diag_r _) R)].
  clear s R. induction j as [|j IH]; intros s Hj R; [lia|].
  destruct (Comms_props.rank_dec n T0 dn al w (fun r => g_ph s r <> AtBarrier)) as [NB|AB].
  - intros r. destruct (Comms_props.phase_dec (g_ph s r) AtBarrier); tauto.
  - destruct (Comms_props.C17_progress dim n fuel W T0 dn al w s S0 (same_reach s R) NB) as (s1 & S1 & W1). pose proof (Hm s s1 _ S1 NB W1) as L1.
    assert (S2 : step dim n false keeps fuel s s1).
    { destruct S1 as [s r Hr Hp|s r o ks Hr Ho Hp Ha|s r o ks Hsub Hr Ho Hp Ha|s s' r src m0 rest Hr Hs Hl HC Hh|s r Hr Hp Hf|s r Hr Hp Ha|s r Hr Hp Hd|s t' Hb HN]; [apply s_start | apply s_request | discriminate | apply (s_recv _ _ _ _ _ s s' r src m0 rest) | apply s_finish | apply s_leave | apply s_waitall|]; try assumption.
      exfalso. destruct NB as (r & Hr & X). apply X, Hb, Hr. }
    destruct (IH s1 ltac:(lia) (st_step _ _ _ _ _ _ _ _ R S2)) as (s' & R' & X). exists s'. split; [apply (steps_trans dim n fuel s s1 s' (steps_one dim n fuel s s1 S2) R') | exact X].
  - exists s. split; [apply st_refl|]. intros r Hr. destruct (Comms_props.phase_dec (g_ph s r) AtBarrier) as [E|E]; [exact E|]. exfalso. apply (AB r Hr E).
Qed.
End Barrier.

Section Order.
Context (dim : N) (pss : list (list (N * nat))) (fuel : nat).
Notation run := (steps dim (length pss) false keeps fuel).
Notation in_order := (in_order dim pss fuel).
Lemma order_run : forall ss s0 sf, in_order s0 (ss ++ [sf]) -> run s0 sf.
Proof. induction ss as [|s ss IH]; intros s0 sf H; cbn [app DFmm_props.in_order] in H; [tauto|]. destruct H as [H1 H2]. apply (steps_trans dim (length pss) fuel _ s); [exact H1 | apply (IH s sf H2)]. Qed.
Lemma order_last : forall ss s0 s s', in_order s0 (ss ++ [s]) -> run s s' -> in_order s0 (ss ++ [s']).
Proof. induction ss as [|x ss IH]; intros s0 s s' H R; cbn [app DFmm_props.in_order] in *; [split; [apply (steps_trans dim (length pss) fuel _ s); tauto | exact I]|]. split; [tauto | apply (IH x s); tauto]. Qed.
Lemma order_app : forall a s0 s b, in_order s0 (a ++ [s]) -> in_order s b -> in_order s0 (a ++ b).
Proof.
  induction a as [|x a IH]; intros s0 s b H1 H2; cbn [app DFmm_props.in_order] in *; [|split; [tauto | apply (IH x s); tauto]]. destruct b as [|y b]; [exact I|]. cbn [DFmm_props.in_order] in *. split; [apply (steps_trans dim (length pss) fuel _ s); tauto | tauto].
Qed.

End Order.

Set Default Proof Using "All".
Section Props.
Context (eb : nat -> body) (dim : N) (MAC : R) (pss : list (list (N * nat))).
Notation n := (N.to_nat dim).
Notation f := (cofm_of eb n).
Notation parts := (length (concat pss)).
Context (l : list (rank_st nat cofm)) (fuel : nat) (dn : nat -> nat -> bool) (al : nat -> bool) (w : nat -> list N).
Notation run := (steps dim (length pss) false keeps fuel).
Notation start := (g_init (tables l) dn al w).
Notation state := (Comms_model.gstate (option (nat + cofm))).
Notation in_order := (in_order dim pss fuel).
Notation passes r ss := (dfmm_passes eb dim MAC (map (view r) ss) [(key_root, key_root)]).

Hypothesis HS : spread dim pss.
Hypothesis El : build_all dim f pss = Some l.
Hypothesis Hmass : forall x, In x (concat pss) -> (0 < b_mass (eb (snd x)))%R.
Hypothesis Hrad : forall x, In x (concat pss) -> (0 <= b_rad (eb (snd x)))%R.
Hypothesis Hids : map snd (concat pss) = seq 0 parts.
Hypothesis Hpos : forall i j, (i < parts)%nat -> (j < parts)%nat -> i <> j -> ~ peq n (b_pos (eb i)) (b_pos (eb j)).

(** passes are made one after another, each when all the nodes it waits for have come *)
Lemma build one r : one_ok dim f pss (k_tab one) -> (0 < nr pss)%nat -> (r < nr pss)%nat ->
  (forall s, run start s -> Comms_inv.inv dim (nr pss) (tree_of (k_tab one)) s /\ (forall r, (r < nr pss)%nat -> Comms_flags.own dim (tree_of (k_tab one)) (above dim pss) r (g_tab s r)) /\ owners dim (nr pss) (tree_of (k_tab one)) (above dim pss) s) ->
  forall ss s, in_order start (ss ++ [s]) -> g_ph s r = Working -> forall j, exists ss' sf, length ss' = j /\ in_order s (ss' ++ [sf]) /\ g_ph sf r = Working /\
    (forall x, g_ph sf x = g_ph s x \/ (g_ph s x = Idle /\ g_ph sf x = Working)) /\ (forall x k, In k (g_wait sf x) -> In k (g_wait s x) \/ (x = r /\ exists a b q cs pp, ss' = a ++ b /\ passes r (ss ++ a) = Some (q, cs, pp) /\ In k (map snd q))) /\
    (forall a s' b qa ca pa, ss' = a ++ s' :: b -> passes r (ss ++ a) = Some (qa, ca, pa) -> forall x c, In x qa -> g_tab s' r (snd x) = Some c -> empty_node dim c = false).
Proof.
  intros O1 Hn Hr HR ss s CH Hp. destruct (HR start (st_refl _ _ _ _ _ _)) as (HI0 & _). destruct (root_pair eb dim MAC pss l fuel dn al w HS El Hmass Hrad Hids Hpos r start one O1 Hn Hr HI0) as (P1 & _ & _).
  induction j as [|j (ss' & sf & Hl & CH' & Hp' & Hph & Hw & Hrd)].
  - exists [], s. split; [reflexivity|]. split; [cbn; split; [apply st_refl | exact I]|]. split; [exact Hp|]. split; [left; reflexivity|]. split; [intros x k Hk; left; exact Hk|]. intros a s' b qa ca pa E. destruct a; discriminate.
  - assert (CA : in_order start ((ss ++ ss') ++ [sf])) by (rewrite <- app_assoc; apply (order_app dim pss fuel ss start s (ss' ++ [sf]) CH CH')).
    destruct (passes_ok eb dim MAC pss l fuel dn al w HS El Hmass Hrad Hids Hpos one r O1 Hn Hr HR (ss ++ ss') start sf [(key_root, key_root)] (st_refl _ _ _ _ _ _) CA (Forall_cons _ P1 (Forall_nil _))) as (q & cs & pp & E & Q & _).
    destruct (HR sf (order_run dim pss fuel _ _ _ CA)) as (HI & HO & _).
    destruct (fetch dim (nr pss) fuel (tree_of (k_tab one)) (above dim pss) r (map snd q) sf Hr HI HO Hp') as (s2 & R2 & C2 & P2 & X2).
    { intros k Hk. apply in_map_iff in Hk. destruct Hk as (z & <- & Hz). rewrite Forall_forall in Q. destruct (Q z Hz) as (_ & A & _). exact A. }
    exists (ss' ++ [s2]), s2. split; [rewrite app_length, Hl; cbn; lia|]. split; [apply (order_app dim pss fuel (ss' ++ [s2]) s s2 [s2]); [rewrite <- app_assoc; apply (order_app dim pss fuel ss' s sf ([s2] ++ [s2]) CH'); cbn; split; [exact R2 | split; [apply st_refl | exact I]] | cbn; split; [apply st_refl | exact I]]|].
    split; [exact P2|]. split; [|split].
    + intros x. destruct (C2 x) as [A _]. specialize (Hph x). destruct A as [A|[A A']], Hph as [B|[B B']]; [left; congruence | right; split; congruence | right; split; congruence | congruence].
    + intros x k Hk. destruct (C2 x) as [_ A]. destruct (A k Hk) as [A1|[A1 A2]].
      * destruct (Hw x k A1) as [B|(B1 & a & b & q0 & c0 & p0 & B2 & B3)]; [left; exact B|]. right. split; [exact B1|]. exists a, (b ++ [s2]), q0, c0, p0. split; [rewrite B2, app_assoc; reflexivity | exact B3].
      * right. split; [exact A1|]. exists ss', [s2], q, cs, pp. split; [reflexivity|]. split; [exact E | exact A2].
    + intros a s' b qa ca pa Ea Ep x c Hx Hc. destruct (exists_last (l := s' :: b) ltac:(discriminate)) as (b' & s3 & Eb). rewrite Eb, app_assoc in Ea. apply app_inj_tail in Ea. destruct Ea as [Ea <-]. destruct b' as [|y b'].
      * cbn in Eb. injection Eb as -> ->. rewrite app_nil_r in Ea. subst a. rewrite E in Ep. injection Ep as <- <- <-. apply (X2 (snd x) c); [apply in_map, Hx | exact Hc].
      * cbn in Eb. injection Eb as <- Eb. apply (Hrd a s' b' qa ca pa Ea Ep x c Hx Hc).
Qed.
(** A rank that works, wherever it has got to: the other ranks need only start and answer, and
    it need only ask for nodes that are the source of a pair in its queue, and its queue
    becomes empty. *)
Theorem C102_queue_empties ss s r : in_order start (ss ++ [s]) -> (r < length pss)%nat -> g_ph s r = Working ->
  exists ss' sf cs pp, in_order s (ss' ++ [sf]) /\ passes r (ss ++ ss') = Some ([], cs, pp) /\ g_ph sf r = Working /\ (forall x, g_ph sf x = g_ph s x \/ (g_ph s x = Idle /\ g_ph sf x = Working)) /\
    (forall x k, In k (g_wait sf x) -> In k (g_wait s x) \/ (x = r /\ exists a b q ca pa, ss' = a ++ b /\ passes r (ss ++ a) = Some (q, ca, pa) /\ In k (map snd q))).
Proof.
  intros CH Hr Hp. destruct (run_owners eb dim MAC pss l fuel dn al w HS El Hmass Hrad Hids Hpos) as (one & O1 & Hn & HR).
  destruct (build one r O1 Hn Hr HR ss s CH Hp (S (2 * N.to_nat (max_depth dim)))) as (ss' & sf & Hl & CH' & Hp' & Hph & Hw & Hrd). exists ss', sf.
  assert (CA : in_order start ((ss ++ ss') ++ [sf])) by (rewrite <- app_assoc; apply (order_app dim pss fuel ss start s (ss' ++ [sf]) CH CH')).
  destruct (C99_runs eb dim MAC pss l fuel dn al w HS El Hmass Hrad Hids Hpos (ss ++ ss') sf r CA Hr) as (q & cs & pp & E & _ & X). rewrite (X ss ss' eq_refl ltac:(lia) Hrd) in E. exists cs, pp. tauto.
Qed.
(** All ranks: wherever they have got to, as long as none has left its loop over the queue, all
    can empty their queues, and come to the barrier. *)
Theorem C102_completes (ss : nat -> list state) s : run start s -> (forall r, (r < length pss)%nat -> in_order start (ss r ++ [s]) /\ (g_ph s r = Idle \/ g_ph s r = Working)) ->
  exists ss' sf, forall r, (r < length pss)%nat -> in_order s (ss' r ++ [sf]) /\ g_ph sf r = AtBarrier /\ exists cs pp, passes r (ss r ++ ss' r) = Some ([], cs, pp).
Proof.
  intros R H. destruct (run_owners eb dim MAC pss l fuel dn al w HS El Hmass Hrad Hids Hpos) as (one & O1 & Hn & HR).
  assert (G : forall m, (m <= length pss)%nat -> exists ss' sf, run s sf /\ (forall x, (x < length pss)%nat -> g_ph sf x = Idle \/ g_ph sf x = Working) /\ forall r, (r < m)%nat -> in_order s (ss' r ++ [sf]) /\ exists cs pp, passes r (ss r ++ ss' r) = Some ([], cs, pp)).
  { induction m as [|m IH]; intros Hm.
    - exists (fun _ => []), s. split; [apply st_refl|]. split; [intros x Hx; apply (proj2 (H x Hx)) | lia].
    - destruct (IH ltac:(lia)) as (ss' & sf & RF & PF & F).
      assert (ST : exists s1, run sf s1 /\ g_ph s1 m = Working /\ forall x, (x < length pss)%nat -> g_ph s1 x = Idle \/ g_ph s1 x = Working).
      { destruct (PF m ltac:(lia)) as [P|P]; [|exists sf; split; [apply st_refl|]; split; [exact P | exact PF]]. eexists. split; [apply steps_one; apply (s_start dim (length pss) false keeps fuel sf m ltac:(lia) P)|]. cbn [g_ph]. split; [apply Comms_inv.upd_same|]. intros x Hx. destruct (Comms_inv.upd_cases (g_ph sf) m Working x) as [[_ E]|[_ E]]; rewrite E; [right; reflexivity | apply PF, Hx]. }
      destruct ST as (s1 & R1 & P1 & PH1). destruct (H m ltac:(lia)) as [CH _].
      destruct (C102_queue_empties (ss m) s1 m (order_last dim pss fuel _ _ _ _ CH (run_trans dim pss fuel _ _ _ RF R1)) ltac:(lia) P1) as (b & s2 & cs & pp & CH2 & E2 & _ & PH2 & _).
      assert (R2 : run s1 s2) by (apply (order_run dim pss fuel b s1 s2 CH2)).
      exists (fun r => if Nat.eqb r m then b else ss' r), s2. split; [apply (run_trans dim pss fuel _ s1); [apply (run_trans dim pss fuel _ sf); assumption | exact R2]|]. split.
      + intros x Hx. destruct (PH2 x) as [A|[_ A]]; [rewrite A; apply PH1, Hx | right; exact A].
      + intros r Hlt. destruct (Nat.eqb_spec r m) as [->|Hne].
        * split; [|exists cs, pp; exact E2]. pose proof (order_app dim pss fuel [] s s1 (b ++ [s2]) (conj (run_trans dim pss fuel _ _ _ RF R1) I) CH2) as Z. exact Z.
        * destruct (F r ltac:(lia)) as [F1 F2]. split; [apply (order_last dim pss fuel _ _ sf); [exact F1 | apply (run_trans dim pss fuel _ s1); assumption] | exact F2]. }
  destruct (G (length pss) (le_n _)) as (ss' & sf & RF & _ & F).
  destruct (to_barrier dim (length pss) fuel (tree_of (k_tab one)) (tables l) dn al w (fun s R => proj1 (HR s R)) sf (run_trans dim pss fuel _ _ _ R RF)) as (s2 & R2 & B).
  exists ss', s2. intros r Hr. destruct (F r Hr) as [F1 F2]. split; [apply (order_last dim pss fuel _ _ sf); assumption|]. split; [apply B, Hr | exact F2].
Qed.
End Props.

(** *** The neighbour search (C76) *)
Section Search.
Context {Ent : Type} (eb : Ent -> body) (dim : N) (pss : list (list (N * Ent))).
Notation n := (N.to_nat dim).
Notation f := (cofm_of eb n).
Context (l : list (rank_st Ent cofm)) (fuel : nat) (dn : nat -> nat -> bool) (al : nat -> bool) (w : nat -> list N).
Notation run := (steps dim (length pss) false keeps fuel).
Notation start := (g_init (tables l) dn al w).
Notation state := (Comms_model.gstate (option (Ent + cofm))).
Notation lists s r key out := (exists fu, dist_target eb dim (look_r (g_tab s r)) fu key = Some (Some out)).
Hypothesis HS : spread dim pss.
Hypothesis El : build_all dim f pss = Some l.
Hypothesis Hmass : forall x, In x (concat pss) -> (0 < b_mass (eb (snd x)))%R.
Hypothesis Hrad : forall x, In x (concat pss) -> (0 <= b_rad (eb (snd x)))%R.
(** A rank that works can get the lists of all cells it has chosen: the other ranks need only
    start and answer. *)
Theorem C102_search s0 s r fu cells : run start s0 -> run s0 s -> (r < length pss)%nat -> dist_cells dim (look_r (g_tab s0 r)) fu = Some cells -> g_ph s r = Working ->
  exists sf outs, run s sf /\ (forall x, g_ph sf x = g_ph s x \/ (g_ph s x = Idle /\ g_ph sf x = Working)) /\ Forall2 (fun key out => lists sf r key out) cells outs.
Proof.
  intros R0 R Hr EC Hp. destruct (run_own eb dim pss l fuel dn al w HS El) as (one & _ & O1 & Hn & HR). destruct (HR s (run_trans dim pss fuel _ _ _ R0 R)) as (HI & HO).
  destruct (fill dim (length pss) fuel (tree_of (k_tab one)) (above dim pss) r s Hr HI HO Hp) as (sf & U & RF & CF & PF & X).
  destruct (C76_runs eb dim pss l fuel dn al w HS El Hmass Hrad s0 r R0 Hr) as (fu1 & cells1 & E1 & F1). assert (cells1 = cells) by (unfold dist_cells in *; pose proof (dwalk_more dim _ _ fu _ _ _ EC (Nat.max fu fu1) ltac:(lia)) as A; pose proof (dwalk_more dim _ _ fu1 _ _ _ E1 (Nat.max fu fu1) ltac:(lia)) as B; congruence). subst cells1.
  assert (G : exists outs, Forall2 (fun key out => lists sf r key out) cells outs).
  { assert (F2 : forall key, In key cells -> exists out, lists sf r key out) by (intros key Hk; destruct (F1 sf key (run_trans dim pss fuel _ _ _ R RF) Hk) as (fu' & [out|] & E & N0); [exists out, fu'; exact E | destruct (N0 X eq_refl)]).
    clear - F2. induction cells as [|key cells IH]; [exists []; constructor|]. destruct (F2 key (or_introl eq_refl)) as (o & Ho). destruct (IH (fun k Hk => F2 k (or_intror Hk))) as (outs & Hos). exists (o :: outs). constructor; assumption. }
  destruct G as (outs & G). exists sf, outs. split; [exact RF|]. split; [intros x; apply (CF x) | exact G].
Qed.
(** All ranks: as long as none has left its loop, all can get their lists and come to the
    barrier. *)
Theorem C102_search_completes (s0 : nat -> state) fu cells s : (forall r, (r < length pss)%nat -> run start (s0 r) /\ run (s0 r) s /\ dist_cells dim (look_r (g_tab (s0 r) r)) fu = Some (cells r) /\ (g_ph s r = Idle \/ g_ph s r = Working)) ->
  run start s -> exists sf, run s sf /\ forall r, (r < length pss)%nat -> g_ph sf r = AtBarrier /\ exists s1 outs, run s s1 /\ run s1 sf /\ Forall2 (fun key out => lists s1 r key out) (cells r) outs.
Proof.
  intros H R. destruct (run_own eb dim pss l fuel dn al w HS El) as (one & _ & O1 & Hn & HR).
  assert (G : forall m, (m <= length pss)%nat -> exists sf, run s sf /\ (forall x, (x < length pss)%nat -> g_ph sf x = Idle \/ g_ph sf x = Working) /\ forall r, (r < m)%nat -> exists s1 outs, run s s1 /\ run s1 sf /\ Forall2 (fun key out => lists s1 r key out) (cells r) outs).
  { induction m as [|m IH]; intros Hm.
    - exists s. split; [apply st_refl|]. split; [intros x Hx; apply (H x Hx) | lia].
    - destruct (IH ltac:(lia)) as (sf & RF & PF & F).
      assert (ST : exists s1, run sf s1 /\ g_ph s1 m = Working /\ forall x, (x < length pss)%nat -> g_ph s1 x = Idle \/ g_ph s1 x = Working).
      { destruct (PF m ltac:(lia)) as [P|P]; [|exists sf; split; [apply st_refl|]; split; [exact P | exact PF]]. eexists. split; [apply steps_one; apply (s_start dim (length pss) false keeps fuel sf m ltac:(lia) P)|]. cbn [g_ph]. split; [apply Comms_inv.upd_same|]. intros x Hx. destruct (Comms_inv.upd_cases (g_ph sf) m Working x) as [[_ E]|[_ E]]; rewrite E; [right; reflexivity | apply PF, Hx]. }
      destruct ST as (s1 & R1 & P1 & PH1). destruct (H m ltac:(lia)) as (A1 & A2 & A3 & _). pose proof (run_trans dim pss fuel _ _ _ RF R1) as R01.
      destruct (C102_search (s0 m) s1 m fu (cells m) A1 (run_trans dim pss fuel _ _ _ A2 R01) ltac:(lia) A3 P1) as (s2 & outs & R2 & PH2 & F2).
      exists s2. split; [apply (run_trans dim pss fuel _ s1); assumption|]. split.
      + intros x Hx. destruct (PH2 x) as [A|[_ A]]; [rewrite A; apply PH1, Hx | right; exact A].
      + intros r Hlt. destruct (Nat.eq_dec r m) as [->|Hne]; [exists s2, outs; split; [apply (run_trans dim pss fuel _ s1); assumption | split; [apply st_refl | exact F2]]|].
        destruct (F r ltac:(lia)) as (s3 & o3 & B1 & B2 & B3). exists s3, o3. split; [exact B1|]. split; [apply (run_trans dim pss fuel _ sf); [exact B2 | apply (run_trans dim pss fuel _ s1); assumption] | exact B3]. }
  destruct (G (length pss) (le_n _)) as (sf & RF & _ & F).
  destruct (to_barrier dim (length pss) fuel (tree_of (k_tab one)) (tables l) dn al w (fun s R => proj1 (HR s R)) sf (run_trans dim pss fuel _ _ _ R RF)) as (s2 & R2 & B).
  exists s2. split; [apply (run_trans dim pss fuel _ sf); assumption|]. intros r Hr. split; [apply B, Hr|]. destruct (F r Hr) as (s3 & o3 & B1 & B2 & B3). exists s3, o3. split; [exact B1|]. split; [apply (run_trans dim pss fuel _ sf); assumption | exact B3].
Qed.
End Search.

(** *** Examples: the ranks of Dist_refuted.  Rank 0 has started and made two passes; the pair of its
    particle and node 3 of rank 1 waits, not even asked for; rank 1 has not started. *)
Lemma waiting3 : exists l, spread 1 pss3 /\ build_all 1 (cofm_of eb3 (N.to_nat 1)) pss3 = Some l /\
  let i := g_init (tables l) (fun _ _ => false) (fun _ => false) (fun _ => []) in let s := go i 0 in
  steps 1 2 false keeps 9 i s /\ in_order 1 pss3 9 i [s; s; s] /\ dfmm_passes eb3 1 mac3 (map (view 0) [s; s]) [(key_root, key_root)] = Some ([(2, 3)], [], [(2, 2)]) /\ g_ph s 0%nat = Working /\ g_ph s 1%nat = Idle /\ g_wait s 0%nat = [].
Proof.
  destruct C99_runs_example as (l & H1 & H2 & H3). exists l. split; [exact H1|]. split; [exact H2|]. intros i s. assert (R : steps 1 2 false keeps 9 i s) by (apply steps_one; apply (s_start 1 2 false keeps 9 i 0); [lia | reflexivity]).
  split; [exact R|]. split; [split; [exact R|]; repeat split; apply st_refl|]. split; [exact (H3 0%nat) | repeat split; reflexivity].
Qed.
Example C102_queue_empties_example : exists l s, let i := g_init (tables l) (fun _ _ => false) (fun _ => false) (fun _ => []) in
  dfmm_passes eb3 1 mac3 (map (view 0) [s; s]) [(key_root, key_root)] = Some ([(2, 3)], [], [(2, 2)]) /\ in_order 1 pss3 9 i ([s; s] ++ [s]) /\ (0 < length pss3)%nat /\ g_ph s 0%nat = Working /\
  exists ss' sf cs pp, in_order 1 pss3 9 s (ss' ++ [sf]) /\ dfmm_passes eb3 1 mac3 (map (view 0) ([s; s] ++ ss')) [(key_root, key_root)] = Some ([], cs, pp) /\ ss' <> [].
Proof.
  destruct waiting3 as (l & H1 & H2 & H3). destruct C99_each_pair_once_example as (l' & _ & H2' & M1 & M2 & M3 & M4 & _). rewrite H2 in H2'. injection H2' as <-. cbv zeta in H3. destruct H3 as (_ & O & P & W0 & _). set (s := go _ 0) in *. exists l, s. cbv zeta. split; [exact P|]. split; [exact O|]. split; [cbn; lia|]. split; [exact W0|].
  destruct (C102_queue_empties eb3 1 mac3 pss3 l 9 (fun _ _ => false) (fun _ => false) (fun _ => []) H1 H2 M1 M2 M3 M4 [s; s] s 0%nat O ltac:(cbn; lia) W0) as (ss' & sf & cs & pp & A1 & A2 & _). exists ss', sf, cs, pp. split; [exact A1|]. split; [exact A2|]. intros ->. rewrite app_nil_r, P in A2. discriminate.
Qed.
Example C102_completes_example : exists l s, let i := g_init (tables l) (fun _ _ => false) (fun _ => false) (fun _ => []) in let ss := fun r => match r with 0%nat => [s; s] | _ => [] end in
  dfmm_passes eb3 1 mac3 (map (view 0) (ss 0%nat)) [(key_root, key_root)] = Some ([(2, 3)], [], [(2, 2)]) /\ steps 1 2 false keeps 9 i s /\ g_ph s 0%nat <> g_ph s 1%nat /\
  (forall r, (r < length pss3)%nat -> in_order 1 pss3 9 i (ss r ++ [s]) /\ (g_ph s r = Idle \/ g_ph s r = Working)).
Proof.
  destruct waiting3 as (l & H1 & H2 & H3). cbv zeta in H3. destruct H3 as (R & O & P & W0 & W1 & _). set (s := go _ 0) in *. exists l, s. cbv zeta. split; [exact P|]. split; [exact R|]. split; [rewrite W0, W1; discriminate|].
  intros [|[|r]] Hr; [split; [exact O | right; exact W0] | split; [split; [exact R | exact I] | left; exact W1] | cbn in Hr; lia].
Qed.
(** The same state: rank 0 has chosen its cell 2 before it started. *)
Example C102_search_example : exists l fu, let i := g_init (tables l) (fun _ _ => false) (fun _ => false) (fun _ => []) in let s := go i 0 in
  steps 1 2 false keeps 9 i s /\ g_ph s 0%nat = Working /\ g_ph s 1%nat = Idle /\ dist_cells 1 (look_r (g_tab i 0%nat)) fu = Some [2] /\ exists c1, dist_cells 1 (look_r (g_tab s 1%nat)) fu = Some c1.
Proof.
  destruct waiting3 as (l & H1 & H2 & H3). destruct C99_each_pair_once_example as (l' & _ & H2' & M1 & M2 & _). rewrite H2 in H2'. injection H2' as <-. cbv zeta in H3. destruct H3 as (R & _ & _ & W0 & W1 & _).
  destruct (built_two (cofm_of eb3 (N.to_nat 1))) as (st0 & st1 & B2 & L1 & L2 & L3). rewrite H2 in B2. injection B2 as ->. change (cofm_of eb3 (N.to_nat 1) 3 [1%nat; 2%nat] []) with m3 in *. change (cofm_of eb3 (N.to_nat 1) 1 [0%nat] [m3]) with m1 in *.
  assert (LE : forall k, look_r (tables [st0; st1] 0%nat) k = look_s (k_tab st0) k). { intros k. unfold look_r, look_s, tables, to_rtab. cbn [nth_error]. destruct (k_tab st0 k) as [c|]; reflexivity. }
  rewrite <- LE in L1, L2, L3. set (lk := look_r (tables [st0; st1] 0%nat)) in *.
  assert (E0 : dist_cells 1 lk 9 = Some [2]).
  { assert (K1 : dkids 1 lk 1 11 (digits 1) = Some [2; 3]) by (change (digits 1) with [0; 1]; cbn [dkids]; change (get_child 11 0) with true; change (get_child 11 1) with true; cbv beta iota; change (key_push 1 1 0) with (Some 2); change (key_push 1 1 1) with (Some 3); cbv beta iota; rewrite L2, L3; reflexivity).
    clearbody lk. unfold dist_cells. rewrite dwalk_S. change key_root with 1. rewrite L1. cbv beta zeta; cbn [dcells_func snd fst]. change (is_shared 1 11) with true. cbn [orb fst snd]. rewrite K1. cbn [rev app]; rewrite dwalk_S. rewrite L3. cbv beta zeta; cbn [dcells_func snd fst]. change (is_shared 1 8) with true. cbn [orb fst snd]. change (dkids 1 lk 3 8 (digits 1)) with (Some (@nil N)). cbv iota. cbn [rev app]; rewrite dwalk_S.
    rewrite L2. cbv beta zeta; cbn [dcells_func snd fst]. change (is_shared 1 0) with false. reflexivity. }
  destruct (C76_runs eb3 1 pss3 [st0; st1] 9 (fun _ _ => false) (fun _ => false) (fun _ => []) H1 H2 M1 M2 _ 1%nat R ltac:(cbn; lia)) as (fu & c1 & E1 & _).
  exists [st0; st1], (Nat.max 9 fu). cbv zeta. split; [exact R|]. split; [exact W0|]. split; [exact W1|]. split; [apply (dwalk_more 1 lk (dcells_func 1 128) 9 [key_root] [] [2] E0); lia|]. exists c1. apply (dwalk_more 1 _ (dcells_func 1 128) fu [key_root] [] c1 E1). lia.
Qed.
Example C102_search_completes_example : exists l fu cells, let i := g_init (tables l) (fun _ _ => false) (fun _ => false) (fun _ => []) in let s := go i 0 in let s0 := fun r => match r with 0%nat => i | _ => s end in
  cells 0%nat = [2] /\ steps 1 2 false keeps 9 i s /\ forall r, (r < length pss3)%nat -> steps 1 2 false keeps 9 i (s0 r) /\ steps 1 2 false keeps 9 (s0 r) s /\ dist_cells 1 (look_r (g_tab (s0 r) r)) fu = Some (cells r) /\ (g_ph s r = Idle \/ g_ph s r = Working).
Proof.
  destruct C102_search_example as (l & fu & R & W0 & W1 & E0 & c1 & E1). exists l, fu, (fun r => match r with 0%nat => [2] | _ => c1 end). cbv zeta. split; [reflexivity|]. split; [exact R|].
  intros [|[|r]] Hr; [split; [apply st_refl|]; split; [exact R|]; split; [exact E0 | right; exact W0] | split; [exact R|]; split; [apply st_refl|]; split; [exact E1 | left; exact W1] | cbn in Hr; lia].
Qed.


Print Assumptions C102_queue_empties.
Print Assumptions C102_completes.
Print Assumptions C102_search.
Print Assumptions C102_search_completes.
