(** The search in the table of a rank compared with the search in the whole tree. *)
From Verif Require Import Base Key_model HCell_model BuildTree_model Vec Geometry_model Cofm_model Share_model Comms_model Dist_model.
From Verif Require Comms_lemmas.
Local Open Scope N_scope.
Notation ck := Comms_lemmas.ck.

Section Sim.
Context {Ent : Type} (eb : Ent -> body) (dim : N) (look look1 : N -> option (N * (Ent + cofm))).
Notation B := (2 ^ dim).
Hypothesis Hdim : 1 <= dim.
(** [look]: part of the tree [look1]; a node not seen as empty has all its daughters *)
Record agrees : Prop := mkag
  { ag_cell : forall k w x, look k = Some (w, x) -> k < 2 ^ 64 /\ exists w1, look1 k = Some (w1, x);
    ag_node : forall k w w1 m, look k = Some (w, inr m) -> look1 k = Some (w1, inr m) -> Comms_lemmas.okkey dim k /\ is_empty_node dim w1 = false /\
      (forall d, d < B -> get_child w1 d = true -> look1 (ck dim k d) <> None) /\
      (is_empty_node dim w = false -> forall d, d < B -> get_child w d = get_child w1 d /\ (get_child w d = true -> look (ck dim k d) <> None)) }.
Hypothesis HA : agrees.
Lemma dkids_look (lk : N -> option (N * (Ent + cofm))) k w : Comms_lemmas.okkey dim k -> (forall d, d < B -> get_child w d = true -> lk (ck dim k d) <> None) ->
  forall ds, (forall d, In d ds -> d < B) -> dkids dim lk k w ds = Some (map (ck dim k) (filter (get_child w) ds)).
Proof.
  intros Hk H. induction ds as [|d ds IH]; intros Hd; [reflexivity|]. cbn [dkids filter]. specialize (IH (fun x Hx => Hd x (or_intror Hx))). specialize (Hd d (or_introl eq_refl)). destruct (get_child w d) eqn:E; [|exact IH].
  rewrite (Comms_lemmas.ck_push dim k d Hk Hd). specialize (H d Hd E). destruct (lk (ck dim k d)); [|congruence]. rewrite IH. reflexivity.
Qed.
Lemma dist_cell_sim cur h nbs : look h <> None -> exists b q nbs', dist_cell eb dim look cur h nbs = Some (b, q, nbs') /\ (forall k, In k q -> look k <> None /\ 2 * h <= k) /\
  (b = false -> dist_cell eb dim look1 cur h nbs = Some (false, q, nbs')) /\ ((forall k w m, look k = Some (w, inr m) -> is_empty_node dim w = false) -> b = false).
Proof.
  intros Hh. destruct (look h) as [[w x]|] eqn:E; [clear Hh|congruence]. destruct (ag_cell HA h w x E) as (Hh64 & w1 & E1). unfold dist_cell. rewrite E, E1. cbn [fst snd]. destruct x as [e|m].
  - match goal with |- context [if ?b then Some (false, [], nbs) else _] => destruct b end; do 3 eexists; (split; [reflexivity|]); (split; [intros k []|]); tauto.
  - match goal with |- context [if ?b then Some (false, [], nbs) else _] => destruct b end; [do 3 eexists; (split; [reflexivity|]); (split; [intros k []|]); tauto|].
    destruct (existsb _ nbs); [|do 3 eexists; (split; [reflexivity|]); (split; [intros k []|]); tauto].
    destruct (ag_node HA h w w1 m E E1) as (Hk & He1 & Hd1 & Hd). destruct (is_empty_node dim w) eqn:Ee.
    + do 3 eexists. split; [reflexivity|]. split; [intros k []|]. split; [discriminate|]. intros X. specialize (X h w m E). congruence.
    + specialize (Hd eq_refl). rewrite He1. assert (DI : forall d, In d (digits dim) -> d < B) by (intros d; apply Comms_lemmas.digits_in).
      rewrite (dkids_look look h w Hk) by (try exact DI; intros d Hdd; apply (Hd d Hdd)). rewrite (dkids_look look1 h w1 Hk Hd1) by exact DI.
      replace (filter (get_child w1) (digits dim)) with (filter (get_child w) (digits dim)) by (apply filter_ext_in; intros d Hdd; apply (Hd d (DI d Hdd))).
      do 3 eexists. split; [reflexivity|]. split; [|tauto]. intros k Hin. apply in_map_iff in Hin. destruct Hin as (d & <- & Hin). apply filter_In in Hin. destruct Hin as [Hin Hg]. split; [apply (Hd d (DI d Hin)), Hg|].
      unfold Comms_lemmas.ck. assert (2 ^ 1 <= B) by (apply N.pow_le_mono_r; lia). change (2 ^ 1) with 2 in *. rewrite (N.mul_comm h). apply N.le_trans with (B * h); [apply N.mul_le_mono_r; lia | lia].
Qed.
Lemma dist_level_sim cur lo : forall queue nbs, (forall k, In k queue -> look k <> None /\ lo <= k) -> exists b q nbs', dist_level eb dim look cur queue nbs = Some (b, q, nbs') /\ (forall k, In k q -> look k <> None /\ 2 * lo <= k) /\
  (b = false -> dist_level eb dim look1 cur queue nbs = Some (false, q, nbs')) /\ ((forall k w m, look k = Some (w, inr m) -> is_empty_node dim w = false) -> b = false).
Proof.
  induction queue as [|h r IH]; intros nbs H; [do 3 eexists; (split; [reflexivity|]); (split; [intros k []|]); tauto|]. cbn [dist_level].
  destruct (dist_cell_sim cur h nbs) as (b1 & q1 & n1 & E1 & K1 & S1 & Z1); [apply H; left; reflexivity|]. rewrite E1. destruct (IH n1) as (b2 & q2 & n2 & E2 & K2 & S2 & Z2); [intros k Hk; apply H; right; exact Hk|]. rewrite E2.
  exists (b1 || b2), (q1 ++ q2), n2. split; [reflexivity|]. destruct (H h (or_introl eq_refl)) as [_ Hlo]. split; [|split].
  - intros k Hk. apply in_app_or in Hk. destruct Hk as [Hk|Hk]; [|apply K2, Hk]. destruct (K1 k Hk). split; [assumption | lia].
  - intros Hb. apply orb_false_iff in Hb. destruct Hb as [-> ->]. rewrite (S1 eq_refl), (S2 eq_refl). reflexivity.
  - intros X. rewrite (Z1 X), (Z2 X). reflexivity.
Qed.
Lemma dist_queue_sim cur : forall fuel i queue nbs, (65 <= fuel + i)%nat -> (forall k, In k queue -> look k <> None /\ 2 ^ N.of_nat i <= k) ->
  exists res, dist_queue eb dim look fuel cur queue nbs = Some res /\ (forall nbs', res = Some nbs' -> dist_queue eb dim look1 fuel cur queue nbs = Some (Some nbs')) /\
    ((forall k w m, look k = Some (w, inr m) -> is_empty_node dim w = false) -> res <> None).
Proof.
  induction fuel as [|fuel IH]; intros i queue nbs Hf H.
  - destruct queue as [|k r]; [exists (Some nbs); split; [reflexivity|]; split; [intros nbs' E; injection E as <-; reflexivity | discriminate]|]. exfalso. destruct (H k (or_introl eq_refl)) as [Hk Hi]. destruct (look k) as [[w x]|] eqn:E; [|congruence]. destruct (ag_cell HA k w x E) as [H64 _].
    assert (2 ^ 64 <= 2 ^ N.of_nat i) by (apply N.pow_le_mono_r; lia). lia.
  - destruct queue as [|h r]; [exists (Some nbs); split; [reflexivity|]; split; [intros nbs' E; injection E as <-; reflexivity | discriminate]|]. cbn [dist_queue].
    destruct (dist_level_sim cur (2 ^ N.of_nat i) (h :: r) nbs H) as (b & q & n1 & E1 & K1 & S1 & Z1). rewrite E1. destruct b.
    + exists None. split; [reflexivity|]. split; [discriminate|]. intros X. specialize (Z1 X). discriminate.
    + rewrite (S1 eq_refl). apply (IH (S i)); [lia|]. intros k Hk. destruct (K1 k Hk). split; [assumption|]. rewrite Nat2N.inj_succ, N.pow_succ_r'. assumption.
Qed.
End Sim.
Arguments agrees {Ent} dim look look1.
