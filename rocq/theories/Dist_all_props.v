(** C76: the neighbour search on several ranks, all targets of a rank together. *)
From Coq Require Import Sorted Permutation.
From Verif Require Import Base Key_model HCell_model BuildTree_model BuildTree_lemmas BuildTree_props Vec Geometry_model Cofm_model
  Share_model Share_lemmas Share_final Share_world Share_reach Share_flags Share_props Comms_model Dist_model Dist_lemmas Dist_walk Dist_near Dist_reach Dist_cover Dist_target Dist_refuted Dist_props.
From Verif Require Comms_lemmas Comms_props Comms_flags.
Local Open Scope N_scope.

Lemma target_more {Ent} (eb : Ent -> body) dim look fuel key x : dist_target eb dim look fuel key = Some x -> forall f', (fuel <= f')%nat -> dist_target eb dim look f' key = Some x.
Proof.
  unfold dist_target. intros E f' Hf. destruct (look key) as [[w [e|m]]|]; [| |discriminate]; cbn [snd] in *.
  - apply (dqueue_more dim look eb None fuel _ _ _ E f' Hf).
  - destruct (dwalk dim look fuel (dgroup_func dim) [key] []) as [L|] eqn:EL; [|discriminate]. rewrite (dwalk_more dim look _ fuel _ _ _ EL f' Hf). apply (dqueue_more dim look eb _ fuel _ _ _ E f' Hf).
Qed.
Section Props.
Context {Ent : Type} (eb : Ent -> body) (dim : N) (pss : list (list (N * Ent))).
Notation n := (N.to_nat dim).
Notation f := (cofm_of eb n).
Context (l : list (rank_st Ent cofm)) (fuel : nat) (dn : nat -> nat -> bool) (al : nat -> bool) (w : nat -> list N).
Notation run := (steps dim (length pss) false keeps fuel).
Notation start := (g_init (tables l) dn al w).
Hypothesis HS : spread dim pss.
Hypothesis El : build_all dim f pss = Some l.
Hypothesis Hmass : forall x, In x (concat pss) -> (0 < b_mass (eb (snd x)))%R.
Hypothesis Hrad : forall x, In x (concat pss) -> (0 <= b_rad (eb (snd x)))%R.

Lemma run_trans (s s1 s2 : gstate (option (Ent + cofm))) : run s s1 -> run s1 s2 -> run s s2.
Proof using. intros A B. induction B as [|x y z B IH C]; [exact A | exact (st_step _ _ _ _ _ _ _ _ (IH A) C)]. Qed.
Lemma run_there s1 s2 r q one : run start s1 -> run s1 s2 -> (forall s, run start s -> Comms_inv.inv dim (nr pss) (tree_of one) s) -> g_tab s1 r q <> None -> g_tab s2 r q <> None.
Proof.
  intros A B HI. induction B as [|x y z B IH C]; intros H; [exact H|]. apply (Comms_flags.there_step dim (nr pss) (tree_of one) (fun _ _ => False) fuel y z r q C); [|apply IH; assumption]. apply HI. apply (run_trans _ x); assumption.
Qed.
Lemma run_own : exists one, build_all dim f [concat pss] = Some [one] /\ one_ok dim f pss (k_tab one) /\ (0 < nr pss)%nat /\
  forall s, run start s -> Comms_inv.inv dim (nr pss) (tree_of (k_tab one)) s /\ forall r, (r < nr pss)%nat -> Comms_flags.own dim (tree_of (k_tab one)) (above dim pss) r (g_tab s r).
Proof.
  destruct (spread_ok dim f pss HS) as (one & l' & E1 & O1 & El' & Ll & Hn & Hl). rewrite El in El'. injection El' as <-. exists one. split; [exact E1|]. split; [exact O1|]. split; [exact Hn|].
  assert (HI : forall s, run start s -> Comms_inv.inv dim (nr pss) (tree_of (k_tab one)) s) by (intros s R; apply (reach_inv dim f pss one l E1 El fuel dn al w s HS R)).
  intros s R. split; [apply HI, R|]. remember start as s0 eqn:Es. induction R as [|s s1 s2 R IH C]; subst.
  - intros r Hr. cbn [g_init g_tab]. pose proof HS as (Hdim & _ & Hne & Hsort & Hf). apply full_keys_full in Hf. pose (tabs := fun r => match nth_error l r with Some st => k_tab st | None => fun _ => None end).
    assert (E : tables l r = to_rtab (tabs r)) by (destruct (Hl r Hr) as (st & Hst & _); unfold tables, tabs; rewrite Hst; reflexivity). rewrite E.
    apply (own_start dim Hdim f pss Hne Hsort Hf Hn (k_tab one) tabs O1 (nth_rank dim f pss l Ll Hl)); [|exact Hr].
    intros r' Hr'. destruct (Hl r' Hr') as (st & Hst & _). unfold tabs. rewrite Hst. apply (flag_all dim Hdim f pss Hne Hsort Hf l El r' st Hst).
  - apply (Comms_flags.own_step dim (nr pss) (tree_of (k_tab one)) (above dim pss) fuel s1 s2 C); [apply HI, R | apply IH; [reflexivity | exact HI]].
Qed.

(** The rank chooses its cells in some state [s0] of the traversal.  For every cell it has got
    lists [out] in some later state, whatever the messages in between and however often it
    tried.  Then every particle of the rank has got one list; every particle in it is within
    the larger of the two radii, and every particle not in it, of whatever rank, is further
    than the mean of the two. *)
Theorem C76_calls s0 r fu cells outs : run start s0 -> (r < length pss)%nat -> dist_cells dim (look_r (g_tab s0 r)) fu = Some cells ->
  Forall2 (fun key out => exists s fu', run s0 s /\ dist_target eb dim (look_r (g_tab s r)) fu' key = Some (Some out)) cells outs ->
  Permutation (map fst (concat outs)) (map snd (nth r pss [])) /\
  forall a nb, In (a, nb) (concat outs) -> exists rest, Permutation (nb ++ rest) (map snd (concat pss)) /\
    (forall e, In e nb -> (dist n (b_pos (eb a)) (b_pos (eb e)) <= Rmax (b_rad (eb a)) (b_rad (eb e)))%R) /\
    (forall e, In e rest -> ((b_rad (eb a) + b_rad (eb e)) / 2 < dist n (b_pos (eb a)) (b_pos (eb e)))%R).
Proof.
  intros R Hr EC F2. destruct run_own as (one & E1 & O1 & Hn & HR). pose proof HS as (Hdim & _ & Hne & Hsort & Hf). apply full_keys_full in Hf. destruct (HR s0 R) as [HI0 HO0].
  destruct (cells_ok eb dim Hdim pss Hne Hsort Hf Hn Hmass Hrad (k_tab one) O1 s0 HI0 r Hr (HO0 r Hr)) as (n0 & C & QC & PC & WC). specialize (WC (Nat.max n0 fu) ltac:(lia)). unfold dist_cells in *. rewrite (dwalk_more dim _ _ fu _ _ _ EC (Nat.max n0 fu) ltac:(lia)) in WC. injection WC as <-.
  assert (G : Forall2 (out_ok eb dim pss r) cells outs).
  { clear PC EC. induction F2 as [|key out cells outs (s & fu' & Rs & Et) F2 IH]; [constructor|]. inversion QC as [|? ? QK QC']; subst. constructor; [|apply IH, QC']. assert (Rs' : run start s) by (apply (run_trans _ s0); assumption). destruct (HR s Rs') as [HI HO].
    assert (QK' : target eb dim pss s r key). { destruct QK as (lv & (A1 & A2 & A3) & A4). exists lv. split; [|exact A4]. split; [exact A1|]. split; [exact A2|]. apply (run_there s0 s r key (k_tab one) R Rs (fun s R => proj1 (HR s R)) A3). }
    destruct (target_ok eb dim Hdim pss Hne Hsort Hf Hn Hmass Hrad (k_tab one) O1 s HI r Hr (HO r Hr) key QK') as (n1 & H1). destruct (H1 (Nat.max n1 fu') ltac:(lia)) as (res & Er & _ & X). rewrite (target_more eb dim _ fu' key _ Et (Nat.max n1 fu') ltac:(lia)) in Er. injection Er as <-. apply (X out eq_refl). }
  split.
  - rewrite <- (Permutation_map snd PC). clear - G. induction G as [|key out cells outs [A _] G IH]; [constructor|]. cbn [concat flat_map]. rewrite !map_app. apply Permutation_app; assumption.
  - intros a nb Hin. clear - G Hin. induction G as [|key out cells outs [_ A] G IH]; [destruct Hin|]. cbn [concat] in Hin. apply in_app_or in Hin. destruct Hin as [Hin|Hin]; [|apply IH, Hin]. destruct (A a nb Hin) as (rest & A1 & A2 & A3). exists rest. split; [exact A1|]. split; [exact A2|]. intros e He. apply Rnot_le_lt, (A3 e He).
Qed.
(** The choice of the cells never fails, nor does an attempt for one of them in any later
    state; it gives lists at least when no cell of the table is an empty node. *)
Theorem C76_runs s0 r : run start s0 -> (r < length pss)%nat -> exists fu cells, dist_cells dim (look_r (g_tab s0 r)) fu = Some cells /\
  forall s key, run s0 s -> In key cells -> exists fu' res, dist_target eb dim (look_r (g_tab s r)) fu' key = Some res /\
    ((forall k c, g_tab s r k = Some c -> empty_node dim c = false) -> res <> None).
Proof.
  intros R Hr. destruct run_own as (one & E1 & O1 & Hn & HR). pose proof HS as (Hdim & _ & Hne & Hsort & Hf). apply full_keys_full in Hf. destruct (HR s0 R) as [HI0 HO0].
  destruct (cells_ok eb dim Hdim pss Hne Hsort Hf Hn Hmass Hrad (k_tab one) O1 s0 HI0 r Hr (HO0 r Hr)) as (n0 & C & QC & PC & WC). exists n0, C. split; [apply WC; lia|].
  intros s key Rs Hk. assert (Rs' : run start s) by (apply (run_trans _ s0); assumption). destruct (HR s Rs') as [HI HO]. rewrite Forall_forall in QC. destruct (QC key Hk) as (lv & (A1 & A2 & A3) & A4).
  assert (QK' : target eb dim pss s r key). { exists lv. split; [|exact A4]. split; [exact A1|]. split; [exact A2|]. apply (run_there s0 s r key (k_tab one) R Rs (fun s R => proj1 (HR s R)) A3). }
  destruct (target_ok eb dim Hdim pss Hne Hsort Hf Hn Hmass Hrad (k_tab one) O1 s HI r Hr (HO r Hr) key QK') as (n1 & H1). destruct (H1 n1 ltac:(lia)) as (res & Er & Z & _). exists n1, res. split; [exact Er|]. intros HE. apply Z.
  intros k w0 m Ek. apply (look_rank dim Hdim f pss Hne Hsort Hf Hn (k_tab one) O1 s HI r Hr) in Ek. destruct Ek as (c & Hc & <- & Hd). specialize (HE k c Hc). unfold empty_node in HE. destruct (state_cell dim Hdim f pss Hne Hsort Hf Hn (k_tab one) O1 s HI r k c Hr Hc) as (c1 & _ & Ed & En & _). rewrite En, <- Ed, Hd in HE. exact HE.
Qed.
End Props.

(** *** Examples *)
Lemma sph_parts {Ent} (eb : Ent -> body) dim look fu out : dist_sph eb dim look fu = Some (Some out) ->
  exists cells outs, dist_cells dim look fu = Some cells /\ Forall2 (fun key o => dist_target eb dim look fu key = Some (Some o)) cells outs /\ concat outs = out.
Proof.
  unfold dist_sph. destruct (dist_cells dim look fu) as [cells|]; [|discriminate]. intros E. exists cells. revert out E. induction cells as [|k cells IH]; intros out E; cbn [dist_targets] in E; [injection E as <-; exists []; repeat split; constructor|].
  destruct (dist_target eb dim look fu k) as [[a|]|] eqn:Ek; [|destruct (dist_targets eb dim look fu cells) as [[]|]; discriminate | discriminate]. destruct (dist_targets eb dim look fu cells) as [[b|]|]; [|discriminate|discriminate]. injection E as <-. destruct (IH b eq_refl) as (outs & _ & F & C). exists (a :: outs). split; [reflexivity|]. split; [constructor; assumption | cbn [concat]; congruence].
Qed.
(** C76_calls: rank 0 of the two ranks of Dist_refuted, before any message: particle 0 has got
    one list, with itself in it *)
Example C76_calls_example : exists l s0 cells outs, spread 1 pss3 /\ (forall x, In x (concat pss3) -> (0 < b_mass (eb3 (snd x)))%R) /\ (forall x, In x (concat pss3) -> (0 <= b_rad (eb3 (snd x)))%R) /\
  build_all 1 (cofm_of eb3 (N.to_nat 1)) pss3 = Some l /\ steps 1 2 false keeps 9 (g_init (tables l) (fun _ _ => false) (fun _ => false) (fun _ => [])) s0 /\ dist_cells 1 (look_r (g_tab s0 0%nat)) 9 = Some cells /\
  Forall2 (fun key out => exists s fu', steps 1 2 false keeps 9 s0 s /\ dist_target eb3 1 (look_r (g_tab s 0%nat)) fu' key = Some (Some out)) cells outs /\ concat outs = [(0%nat, [0%nat])].
Proof.
  change (N.to_nat 1) with 1%nat. destruct (built_two (cofm_of eb3 1)) as (st0 & st1 & B2 & M1 & M2 & M3). exists [st0; st1]. eexists.
  assert (LE : forall k, look_r (tables [st0; st1] 0%nat) k = look_s (k_tab st0) k). { intros k. unfold look_r, look_s, tables, to_rtab. cbn [nth_error]. destruct (k_tab st0 k) as [c|]; reflexivity. }
  assert (ES : dist_sph eb3 1 (look_r (tables [st0; st1] 0%nat)) 9 = Some (Some [(0%nat, [0%nat])])) by (apply search_rank0; rewrite LE; assumption).
  destruct (sph_parts _ _ _ _ _ ES) as (cells & outs & C1 & C2 & C3). exists cells, outs. split; [apply spread3|]. split; [intros x _; destruct (snd x) as [|[|i]]; cbn; lra|]. split; [intros x _; pose proof (eb3_rad (snd x)); lra|]. split; [exact B2|]. split; [apply st_refl|]. split; [exact C1|]. split; [|exact C3].
  clear - C2. induction C2 as [|k o a b H C2 IH]; constructor; [|exact IH]. eexists. exists 9%nat. split; [apply st_refl | exact H].
Qed.
(** C76_runs: the same rank; its cell 3 is an empty node, though it has lists without asking *)
Example C76_runs_example : exists l, spread 1 pss3 /\ build_all 1 (cofm_of eb3 (N.to_nat 1)) pss3 = Some l /\ exists c, tables l 0%nat 3 = Some c /\ empty_node 1 c = true.
Proof.
  change (N.to_nat 1) with 1%nat. destruct (built_two (cofm_of eb3 1)) as (st0 & st1 & B2 & M1 & M2 & M3). exists [st0; st1]. split; [apply spread3|]. split; [exact B2|]. unfold tables, to_rtab. cbn [nth_error]. unfold look_s in M3. destruct (k_tab st0 3) as [c|]; [|discriminate]. destruct (s_set c) as [x|] eqn:Ex; [|discriminate]. injection M3 as Ew Es. subst x. exists (to_rcell c). split; [reflexivity|].
  unfold empty_node, to_rcell. cbn [r_node r_word]. rewrite Ew, Ex. reflexivity.
Qed.
