(** On one process the traversal of the distributed model (DFmm_model) makes the calls of
    traversal_fmm as modelled for one process (Fmm_model): lemmas. *)
From Coq Require Import Sorted Permutation.
From Verif Require Import Base Key_model Key_spec HCell_model BuildTree_model BuildTree_spec BuildTree_shape Vec Geometry_model Cofm_model Search_model Gravity_model Fmm_model Share_model Comms_model Dist_model DFmm_model.
Local Open Scope N_scope.

(** ** two tables with the same tree *)
Section Same.
Context (dim : N) {S : Type} (f g : N -> list nat -> list S -> S).
Context (m : nat) (Hfg : forall k es ss, Forall (fun i => (i < m)%nat) es -> f k es ss = g k es ss).
Lemma eval_same tr : Forall (fun i => (i < m)%nat) (leaves tr) -> eval f tr = eval g tr.
Proof using Hfg.
  induction tr as [i|k ch IH] using tree_ind'; intros H; [reflexivity|]. cbn [eval leaves] in *. rewrite Forall_forall in IH, H.
  assert (E : map (fun x => eval f (snd x)) ch = map (fun x => eval g (snd x)) ch).
  { apply map_ext_in. intros x Hx. apply (IH x Hx). apply Forall_forall. intros i Hi. apply H. apply in_flat_map. exists x. split; assumption. }
  rewrite E. f_equal. apply Hfg. apply Forall_forall. intros i Hi. unfold lefts in Hi. apply in_flat_map in Hi. destruct Hi as (e & He & Hi). apply in_map_iff in He. destruct He as (x & <- & Hx).
  apply H. apply in_flat_map. exists x. split; [exact Hx|]. destruct (snd x) as [j|]; cbn in Hi |- *; [exact Hi | destruct Hi].
Qed.
(** the same word, and the same particle or equal summaries *)
Definition like (t1 t2 : table) (c1 c2 : list S) (q : N) : Prop := exists a b, tfind t1 q = Some a /\ tfind t2 q = Some b /\ c_word a = c_word b /\ c_ent a = c_ent b /\
  match c_node a, c_node b with None, None => exists i, c_ent a = Some i /\ (i < m)%nat | Some i, Some j => c_ent a = None /\ exists x, nth_error c1 i = Some x /\ nth_error c2 j = Some x | _, _ => False end.
Lemma holds_like t1 t2 c1 c2 tr : Forall (fun i => (i < m)%nat) (leaves tr) -> forall p, holds f dim t1 c1 p tr -> holds g dim t2 c2 p tr -> forall q, In q (cells dim p tr) -> like t1 t2 c1 c2 q.
Proof using Hfg.
  induction tr as [i|k ch IH] using tree_ind'; intros HL p H1 H2 q Hq; cbn [holds cells] in H1, H2, Hq.
  - destruct H1 as (a & A1 & A2 & A3 & A4), H2 as (b & B1 & B2 & B3 & B4). destruct Hq as [<-|[]]. exists a, b. split; [exact A1|]. split; [exact B1|]. split; [apply N.bits_inj; intros d; rewrite A4, B4; reflexivity|]. split; [congruence|]. rewrite A3, B3. exists i. split; [exact A2|]. inversion HL; assumption.
  - pose proof (eval_same (Node k ch) HL) as EV. destruct H1 as (-> & (a & j & s & A1 & A2 & A3 & A4 & A5 & A6 & A7) & H1), H2 as (_ & (b & j' & s' & B1 & B2 & B3 & B4 & B5 & B6 & B7) & H2). destruct Hq as [<-|Hq].
    + exists a, b. split; [exact A1|]. split; [exact B1|]. split; [apply N.bits_inj; intros d; destruct (N.testbit (c_word a) d) eqn:E1, (N.testbit (c_word b) d) eqn:E2; try reflexivity; [apply A7, B7 in E1; congruence | apply B7, A7 in E2; congruence]|]. split; [congruence|]. rewrite A3, B3. split; [exact A2|]. exists s. split; [exact A4|]. congruence.
    + apply fold_and_Forall in H1, H2. apply in_flat_map in Hq. destruct Hq as (x & Hx & Hq). rewrite Forall_forall in IH, H1, H2. apply (IH x Hx) with (p := p * 2 ^ dim + fst x); [|apply H1, Hx | apply H2, Hx | exact Hq].
      apply Forall_forall. intros i Hi. rewrite Forall_forall in HL. apply HL. cbn [leaves]. apply in_flat_map. exists x. split; assumption.
Qed.
End Same.

(** ** simulation *)
Section Sim.
Context (eb : nat -> body) (dim : N) (MAC : R) (t : table) (cofms : list cofm) (bodies : list body).
Context (look : N -> option (N * (nat + cofm))) (mine : N -> bool).
(** every cell of [t] is found by [look], with the same content, and owned *)
Definition found (k : N) : Prop := match tfind t k with
  | None => look k = None
  | Some c => mine k = true /\ exists x, look k = Some (c_word c, x) /\
      match x with
      | inl e => c_node c = None /\ c_ent c = Some e /\ nth_error bodies e = Some (eb e)
      | inr m => get_node cofms c = Some m end end.
Context (HF : forall k, found k).
Lemma found_kids k w ds l : child_keys dim t k w ds = Some l -> dkids dim look k w ds = Some l /\ forall x, In x l -> mine x = true.
Proof using HF.
  revert l. induction ds as [|j ds IH]; intros l H; cbn [child_keys dkids] in *; [injection H as <-; split; [reflexivity | intros x []]|].
  destruct (get_child w j); [|apply IH, H]. destruct (key_push dim k j) as [ck|]; [|discriminate]. pose proof (HF ck) as F. unfold found in F. destruct (tfind t ck) as [c|]; [|discriminate].
  destruct F as (F1 & x & F2 & _). rewrite F2. destruct (child_keys dim t k w ds) as [rest|]; [|discriminate]. destruct (IH rest eq_refl) as [-> I2]. injection H as <-. split; [reflexivity|]. intros y [<-|Hy]; [exact F1 | apply I2, Hy].
Qed.
Lemma mine_all {A} (p : A -> bool) l : (forall x, In x l -> p x = true) -> filter p l = l.
Proof. induction l as [|a l IH]; intros H; [reflexivity|]. cbn [filter]. rewrite (H a (or_introl eq_refl)), IH; [reflexivity | intros x Hx; apply H; right; exact Hx]. Qed.
Lemma self_pairs_in {A} (l : list A) x : In x (self_pairs l) -> In (fst x) l.
Proof.
  induction l as [|a l IH]; [intros []|]. cbn [self_pairs]. intros [<-|H]; [left; reflexivity|]. apply in_app_or in H. destruct H as [H|H]; [|right; apply IH, H].
  apply in_flat_map in H. destruct H as (b & Hb & [<-|[<-|[]]]); [left; reflexivity | right; exact Hb].
Qed.
Lemma node_cell c m : get_node cofms c = Some m -> is_node c = Some true.
Proof. unfold get_node, is_node. destruct (c_node c); [reflexivity | discriminate]. Qed.
Lemma leaf_cell c e : c_node c = None -> c_ent c = Some e -> nth_error bodies e = Some (eb e) -> is_node c = Some false /\ get_entity bodies c = Some (e, eb e).
Proof. unfold is_node, get_entity. intros -> ->. cbn. intros ->. split; reflexivity. Qed.
Lemma sim_pair x r : fmm_pair dim t cofms bodies MAC x = Some r -> dfmm_pair eb dim MAC look mine x = Some r.
Proof using HF.
  unfold fmm_pair, dfmm_pair. pose proof (HF (fst x)) as F1. pose proof (HF (snd x)) as F2. unfold found in F1, F2. destruct (tfind t (fst x)) as [h1|] eqn:T1; [|discriminate]. destruct (tfind t (snd x)) as [h2|] eqn:T2; [|discriminate].
  destruct F1 as (M1 & x1 & L1 & C1), F2 as (M2 & x2 & L2 & C2). rewrite L1, L2, M1. cbn [negb fst snd]. unfold dempty. cbn [fst snd].
  assert (K : forall w l, child_keys dim t (fst x) w (digits dim) = Some l -> dkids dim look (fst x) w (digits dim) = Some l /\ forall x, In x l -> mine x = true) by (intros w l; apply found_kids).
  assert (K2 : forall w l, child_keys dim t (snd x) w (digits dim) = Some l -> dkids dim look (snd x) w (digits dim) = Some l /\ forall x, In x l -> mine x = true) by (intros w l; apply found_kids).
  destruct x1 as [e1|m1]; [destruct C1 as (P1 & P2 & P3); destruct (leaf_cell h1 e1 P1 P2 P3) as [N1 G1]|pose proof (node_cell h1 m1 C1) as N1];
  (destruct x2 as [e2|m2]; [destruct C2 as (Q1 & Q2 & Q3); destruct (leaf_cell h2 e2 Q1 Q2 Q3) as [N2 G2]|pose proof (node_cell h2 m2 C2) as N2]); rewrite N2; cbn [andb negb].
  - rewrite N1. cbn [andb negb]. tauto.
  - destruct (is_empty_node dim (c_word h2)); [discriminate|]. rewrite N1. cbn [andb negb]. destruct (fst x =? snd x); [unfold get_node; rewrite P1; discriminate|]. unfold extent. rewrite N1, N2, G1, C2. cbn [fst snd dextent].
    destruct (mac (N.to_nat dim) (b_pos (eb e1)) 0 (cm_pos m2) (cm_rad m2) MAC); [cbn [fst]; tauto|]. destruct (1 + cm_sub m2 <? fmm_sub_limit)%nat; [tauto|]. destruct (Rltb (cm_rad m2) 0).
    + destruct (child_keys dim t (fst x) (c_word h1) (digits dim)) as [ds|] eqn:E; [|discriminate]. destruct (K _ _ E) as [-> M]. rewrite (mine_all mine ds M). tauto.
    + destruct (child_keys dim t (snd x) (c_word h2) (digits dim)) as [ds|] eqn:E; [|discriminate]. destruct (K2 _ _ E) as [-> _]. tauto.
  - rewrite N1. cbn [andb negb]. destruct (fst x =? snd x) eqn:EQ.
    { apply N.eqb_eq in EQ. exfalso. rewrite EQ in T1. rewrite T1 in T2. injection T2 as ->. congruence. }
    unfold extent. rewrite N1, N2, G2, C1. cbn [fst snd dextent].
    destruct (mac (N.to_nat dim) (cm_pos m1) (cm_rad m1) (b_pos (eb e2)) 0 MAC); [cbn [fst]; tauto|]. destruct (cm_sub m1 + 1 <? fmm_sub_limit)%nat; [tauto|]. destruct (Rltb 0 (cm_rad m1)).
    + destruct (child_keys dim t (fst x) (c_word h1) (digits dim)) as [ds|] eqn:E; [|discriminate]. destruct (K _ _ E) as [-> M]. rewrite (mine_all mine ds M). tauto.
    + destruct (child_keys dim t (snd x) (c_word h2) (digits dim)) as [ds|] eqn:E; [|discriminate]. destruct (K2 _ _ E) as [-> _]. tauto.
  - destruct (is_empty_node dim (c_word h2)); [discriminate|]. rewrite N1. cbn [andb negb]. destruct (fst x =? snd x).
    { rewrite C1. destruct (cm_sub m1 <? fmm_sub_limit)%nat; [tauto|]. destruct (child_keys dim t (fst x) (c_word h1) (digits dim)) as [ds|] eqn:E; [|discriminate]. destruct (K _ _ E) as [-> M]. rewrite (mine_all (fun y => mine (fst y)) (self_pairs ds)); [tauto|]. intros y Hy. apply M, self_pairs_in, Hy. }
    unfold extent. rewrite N1, N2, C1, C2. cbn [fst snd dextent].
    destruct (mac (N.to_nat dim) (cm_pos m1) (cm_rad m1) (cm_pos m2) (cm_rad m2) MAC); [tauto|]. destruct (cm_sub m1 + cm_sub m2 <? fmm_sub_limit)%nat; [tauto|]. destruct (Rltb (cm_rad m2) (cm_rad m1)).
    + destruct (child_keys dim t (fst x) (c_word h1) (digits dim)) as [ds|] eqn:E; [|discriminate]. destruct (K _ _ E) as [-> M]. rewrite (mine_all mine ds M). tauto.
    + destruct (child_keys dim t (snd x) (c_word h2) (digits dim)) as [ds|] eqn:E; [|discriminate]. destruct (K2 _ _ E) as [-> _]. tauto.
Qed.
Lemma sim_level q : forall r, fmm_level dim t cofms bodies MAC q = Some r -> dfmm_pass eb dim MAC look mine q = Some r.
Proof using HF.
  induction q as [|x q IH]; intros r H; cbn [fmm_level dfmm_pass] in *; [exact H|]. destruct (fmm_pair dim t cofms bodies MAC x) as [a|] eqn:E; [|discriminate]. rewrite (sim_pair x a E). destruct (fmm_level dim t cofms bodies MAC q) as [b|]; [|discriminate]. rewrite (IH b eq_refl). exact H.
Qed.
Lemma sim_queue fuel : forall q cs pp, fmm_queue dim t cofms bodies MAC fuel q = Some (cs, pp) -> exists k, dfmm_passes eb dim MAC (repeat (look, mine) k) q = Some ([], cs, pp).
Proof using HF.
  induction fuel as [|fuel IH]; intros q cs pp H; cbn [fmm_queue] in H; (destruct q as [|x q]; [injection H as <- <-; exists 0%nat; reflexivity|]); [discriminate|].
  destruct (fmm_level dim t cofms bodies MAC (x :: q)) as [a|] eqn:E; [|discriminate]. destruct (fmm_queue dim t cofms bodies MAC fuel (fst (fst a))) as [[b1 b2]|] eqn:E2; [|discriminate]. injection H as <- <-. destruct (IH _ _ _ E2) as (k & Ek). exists (S k). cbn [repeat dfmm_passes fst snd]. rewrite (sim_level _ _ E), Ek. reflexivity.
Qed.
Lemma sim_walk {A} (func : N -> cell -> A -> option (bool * A)) (dfunc : N -> N * (nat + cofm) -> A -> bool * A) :
  (forall k c x acc res, tfind t k = Some c -> look k = Some (c_word c, x) -> func k c acc = Some res -> dfunc k (c_word c, x) acc = res) ->
  forall fuel stk acc r, walk dim t fuel func stk acc = Some r -> dwalk dim look fuel dfunc stk acc = Some r.
Proof using HF.
  intros Hd. induction fuel as [|fuel IH]; intros [|k stk] acc r H; cbn [walk dwalk] in *; try exact H. pose proof (HF k) as F. unfold found in F. destruct (tfind t k) as [c|] eqn:E; [|discriminate]. destruct F as (M & x & L & C). rewrite L.
  destruct (func k c acc) as [res|] eqn:EF; [|discriminate]. rewrite (Hd k c x acc res E L EF). cbn [fst]. destruct (fst res); [|apply IH, H]. destruct (child_keys dim t k (c_word c) (digits dim)) as [ds|] eqn:EK; [|discriminate]. destruct (found_kids _ _ _ _ EK) as [-> _]. apply IH, H.
Qed.
Lemma sim_group k c x acc res : tfind t k = Some c -> look k = Some (c_word c, x) -> group_func dim bodies k c acc = Some res -> dgroup_func dim k (c_word c, x) acc = res.
Proof using HF.
  intros E L H. pose proof (HF k) as F. unfold found in F. rewrite E in F. destruct F as (M & y & L' & C). rewrite L in L'. injection L' as <-. unfold group_func in H. unfold dgroup_func. cbn [fst snd]. destruct x as [e|m].
  - destruct C as (P1 & P2 & P3). destruct (leaf_cell c e P1 P2 P3) as [N1 G1]. rewrite N1, G1 in H. destruct (is_shared dim (c_word c)); injection H as <-; reflexivity.
  - rewrite (node_cell c m C) in H. injection H as <-. reflexivity.
Qed.
Lemma sim_affected cs k c x acc res : tfind t k = Some c -> look k = Some (c_word c, x) -> affected_func cs k c acc = Some res -> daffected_func mine cs k (c_word c, x) acc = res.
Proof using HF.
  intros E L H. pose proof (HF k) as F. unfold found in F. rewrite E in F. destruct F as (M & y & L' & C). rewrite L in L'. injection L' as <-. unfold affected_func in H. unfold daffected_func. rewrite M. cbn [fst snd negb]. destruct x as [e|m].
  - destruct C as (P1 & P2 & P3). destruct (leaf_cell c e P1 P2 P3) as [N1 G1]. rewrite N1 in H. injection H as <-. reflexivity.
  - rewrite (node_cell c m C) in H. injection H as <-. reflexivity.
Qed.
Lemma sim_c2p fuel ks : forall r, c2p_calls dim t bodies fuel ks = Some r -> dc2p_calls dim look fuel ks = Some r.
Proof using HF.
  induction ks as [|k ks IH]; intros r H; cbn [c2p_calls dc2p_calls] in *; [exact H|]. destruct (walk dim t fuel (group_func dim bodies) [k] []) as [s|] eqn:E; [|discriminate]. rewrite (sim_walk _ _ sim_group _ _ _ _ E). destruct (c2p_calls dim t bodies fuel ks) as [y|]; [|discriminate]. rewrite (IH y eq_refl). exact H.
Qed.
Lemma sim_ents fuel k c x l : tfind t k = Some c -> look k = Some (c_word c, x) -> cell_ents dim t bodies fuel k c = Some l -> dcell_ents dim look fuel k (c_word c, x) = Some l.
Proof using HF.
  intros E L H. pose proof (HF k) as F. unfold found in F. rewrite E in F. destruct F as (M & y & L' & C). rewrite L in L'. injection L' as <-. unfold cell_ents in H. unfold dcell_ents. cbn [snd]. destruct x as [e|m].
  - destruct C as (P1 & P2 & P3). destruct (leaf_cell c e P1 P2 P3) as [N1 G1]. rewrite N1, G1 in H. exact H.
  - rewrite (node_cell c m C) in H. apply (sim_walk _ _ sim_group _ _ _ _ H).
Qed.
Lemma sim_p2p fuel l : forall r, p2p_calls dim t bodies fuel l = Some r -> dp2p_calls dim look fuel l = Some r.
Proof using HF.
  induction l as [|x l IH]; intros r H; cbn [p2p_calls dp2p_calls] in *; [exact H|]. pose proof (HF (fst x)) as F1. pose proof (HF (snd x)) as F2. unfold found in F1, F2. destruct (tfind t (fst x)) as [h1|] eqn:T1; [|discriminate]. destruct (tfind t (snd x)) as [h2|] eqn:T2; [|discriminate].
  destruct F1 as (M1 & x1 & L1 & C1), F2 as (M2 & x2 & L2 & C2). rewrite L1, L2. destruct (cell_ents dim t bodies fuel (fst x) h1) as [s1|] eqn:E1; [|discriminate]. destruct (cell_ents dim t bodies fuel (snd x) h2) as [s2|] eqn:E2; [|discriminate]. rewrite (sim_ents _ _ _ _ _ T1 L1 E1), (sim_ents _ _ _ _ _ T2 L2 E2). cbn [snd].
  destruct x1 as [e|m].
  - destruct C1 as (P1 & P2 & P3). destruct (leaf_cell h1 e P1 P2 P3) as [N1 G1]. rewrite N1 in H. destruct (p2p_calls dim t bodies fuel l) as [y|]; [|discriminate]. rewrite (IH y eq_refl). rewrite G1 in H. exact H.
  - rewrite (node_cell h1 m C1) in H. destruct (p2p_calls dim t bodies fuel l) as [y|]; [|discriminate]. rewrite (IH y eq_refl). exact H.
Qed.
Lemma sim_all fuel calls : traversal_fmm dim t cofms bodies MAC fuel = Some calls -> exists k cs pp rest, dfmm_passes eb dim MAC (repeat (look, mine) k) [(key_root, key_root)] = Some ([], cs, pp) /\ dfmm_end dim look mine fuel cs pp = Some rest /\ calls = cs ++ rest.
Proof using HF.
  unfold traversal_fmm, dfmm_end. intros H. destruct (fmm_queue dim t cofms bodies MAC fuel [(key_root, key_root)]) as [[cs pp]|] eqn:E; [|discriminate]. cbn [fst snd] in H. destruct (sim_queue _ _ _ _ E) as (k & Ek). exists k, cs, pp.
  destruct (walk dim t fuel (affected_func cs) [key_root] []) as [nodes|] eqn:E1; [|discriminate]. rewrite (sim_walk _ _ (sim_affected cs) _ _ _ _ E1). destruct (c2p_calls dim t bodies fuel nodes) as [a|] eqn:E2; [|discriminate]. rewrite (sim_c2p _ _ _ E2). destruct (p2p_calls dim t bodies fuel pp) as [b|] eqn:E3; [|discriminate]. rewrite (sim_p2p _ _ _ E3).
  injection H as <-. exists (a ++ b). repeat split. exact Ek.
Qed.
(** the nodes the calls are carried out with *)
Lemma sim_node k : node_of look k = match tfind t k with Some c => get_node cofms c | None => None end.
Proof using HF.
  unfold node_of. pose proof (HF k) as F. unfold found in F. destruct (tfind t k) as [c|]; [|rewrite F; reflexivity]. destruct F as (_ & x & -> & C). destruct x as [e|m]; [|rewrite C; reflexivity]. destruct C as (P1 & _). unfold get_node. rewrite P1. reflexivity.
Qed.
End Sim.
