(** The traversal of L192-207 in the table of a rank collects something for every particle. *)
From Coq Require Import Permutation.
From Verif Require Import Base Key_model HCell_model BuildTree_model BuildTree_spec Vec Geometry_model Cofm_model Share_model Share_sums Comms_model Dist_model Dist_lemmas.
From Verif Require Comms_lemmas.
Local Open Scope N_scope.

Section Walk.
Context {Ent : Type} (dim : N) (look : N -> option (N * (Ent + cofm))) (own : list (N * Ent)).
Notation B := (2 ^ dim).
Notation under := (under dim).
(** [V l q]: the cell [q] of level [l] is there *)
Context (V : N -> N -> Prop).
Hypothesis V_there : forall l q, V l q -> look q <> None.
Hypothesis V_node : forall l q w m, V l q -> look q = Some (w, inr m) -> 1 <= l /\ Comms_lemmas.okkey dim q /\
  (forall d, d < B -> get_child w d = true -> V (l - 1) (q * B + d)) /\ (forall d, d < B -> get_child w d = false -> under (l - 1) (q * B + d) own = []) /\
  Permutation (under l q own) (flat_map (fun d => under (l - 1) (q * B + d) own) (digits dim)).

Context {X Y : Type} (func : N -> N * (Ent + cofm) -> list X -> bool * list X) (g : N -> N * (Ent + cofm) -> bool * list X).
Context (M : list X -> list Y) (T : list (N * Ent) -> list Y) (Q : X -> Prop).
Hypothesis func_g : forall q c acc, func q c acc = (fst (g q c), acc ++ snd (g q c)).
Hypothesis M_app : forall a b, M (a ++ b) = M a ++ M b.
Hypothesis T_app : forall a b, T (a ++ b) = T a ++ T b.
Hypothesis M_nil : M [] = [].
Hypothesis T_nil : T [] = [].
Hypothesis T_perm : forall a b, Permutation a b -> Permutation (T a) (T b).
Hypothesis g_out : forall l q w x, V l q -> look q = Some (w, x) -> Forall Q (snd (g q (w, x))) /\
  ((exists m, x = inr m /\ g q (w, x) = (true, [])) \/ (fst (g q (w, x)) = false /\ Permutation (M (snd (g q (w, x)))) (T (under l q own)))).

Lemma walk_cell : forall m l q, l = N.of_nat m -> V l q -> exists n L, Forall Q L /\ Permutation (M L) (T (under l q own)) /\
  forall fuel stk acc, dwalk dim look (n + fuel) func (q :: stk) acc = dwalk dim look fuel func stk (acc ++ L).
Proof.
  induction m as [|m IH]; intros l q El Hv; (destruct (look q) as [[w x]|] eqn:E; [|destruct (V_there l q Hv E)]); destruct (g_out l q w x Hv E) as [HQ [(mm & -> & Eg)|[Ef Hp]]].
  - destruct (V_node l q w mm Hv E) as (Hl & _). lia.
  - exists 1%nat, (snd (g q (w, x))). split; [exact HQ|]. split; [exact Hp|]. intros fuel stk acc. cbn [Nat.add dwalk]. rewrite E, func_g. cbn [fst snd]. rewrite Ef. reflexivity.
  - destruct (V_node l q w mm Hv E) as (Hl & Hk & V1 & V2 & VP).
    assert (G : forall cs, (forall c, In c cs -> V (l - 1) c) -> exists n L, Forall Q L /\ Permutation (M L) (T (flat_map (fun c => under (l - 1) c own) cs)) /\
      forall fuel stk acc, dwalk dim look (n + fuel) func (cs ++ stk) acc = dwalk dim look fuel func stk (acc ++ L)).
    { induction cs as [|c cs IHc]; intros Hcs.
      - exists 0%nat, []. split; [constructor|]. split; [cbn [flat_map]; rewrite M_nil, T_nil; constructor|]. intros fuel stk acc. rewrite app_nil_r. reflexivity.
      - destruct (IH (l - 1) c) as (n1 & L1 & Q1 & P1 & W1); [lia | apply Hcs; left; reflexivity|]. destruct IHc as (n2 & L2 & Q2 & P2 & W2); [intros c' Hc'; apply Hcs; right; exact Hc'|].
        exists (n1 + n2)%nat, (L1 ++ L2). split; [apply Forall_app; split; assumption|]. split; [cbn [flat_map]; rewrite M_app, T_app; apply Permutation_app; assumption|].
        intros fuel stk acc. cbn [app]. rewrite <- Nat.add_assoc, W1, W2, app_assoc. reflexivity. }
    set (ds := map (ck dim q) (filter (get_child w) (digits dim))).
    assert (Hds : forall c, In c (rev ds) -> V (l - 1) c). { intros c Hc. apply in_rev in Hc. unfold ds in Hc. apply in_map_iff in Hc. destruct Hc as (d & <- & Hd). apply filter_In in Hd. destruct Hd as [Hd Hg]. apply Comms_lemmas.digits_in in Hd. apply V1; assumption. }
    destruct (G (rev ds) Hds) as (n & L & QL & PL & WL). exists (S n), L. split; [exact QL|]. split.
    + rewrite PL. apply T_perm. rewrite VP. unfold ds. clear - V2. rewrite <- map_rev. rewrite flat_map_concat_map, map_map, <- flat_map_concat_map. change (fun x => under (l - 1) (ck dim q x) own) with (fun d => under (l - 1) (q * B + d) own).
      assert (PF : forall (h : N -> list (N * Ent)) a b, Permutation a b -> Permutation (flat_map h a) (flat_map h b)). { intros h a b Hab. induction Hab; cbn [flat_map]; [constructor | apply Permutation_app_head; assumption | rewrite !app_assoc; apply Permutation_app_tail, Permutation_app_comm | etransitivity; eassumption]. }
      rewrite (PF _ _ _ (Permutation_sym (Permutation_rev (filter (get_child w) (digits dim))))). assert (DI : forall d, In d (digits dim) -> d < B) by (intros d; apply Comms_lemmas.digits_in).
      induction (digits dim) as [|d r IHr]; [constructor|]. cbn [filter flat_map]. specialize (IHr (fun x Hx => DI x (or_intror Hx))). destruct (get_child w d) eqn:Eg; [cbn [flat_map]; apply Permutation_app_head, IHr|]. rewrite (V2 d (DI d (or_introl eq_refl)) Eg). exact IHr.
    + intros fuel stk acc. cbn [Nat.add dwalk]. rewrite E, func_g, Eg. cbn [fst snd]. rewrite app_nil_r. rewrite (dkids_look dim look q w Hk); [apply WL | | intros d; apply Comms_lemmas.digits_in].
      intros d Hd Hgd. apply (V_there (l - 1)), V1; assumption.
  - exists 1%nat, (snd (g q (w, x))). split; [exact HQ|]. split; [exact Hp|]. intros fuel stk acc. cbn [Nat.add dwalk]. rewrite E, func_g. cbn [fst snd]. rewrite Ef. reflexivity.
Qed.
End Walk.
(** more fuel gives the same *)
Section Fuel.
Context {Ent A : Type} (dim : N) (look : N -> option (N * (Ent + cofm))) (func : N -> N * (Ent + cofm) -> A -> bool * A).
Lemma dwalk_more : forall fuel stk acc a, dwalk dim look fuel func stk acc = Some a -> forall f', (fuel <= f')%nat -> dwalk dim look f' func stk acc = Some a.
Proof.
  induction fuel as [|fuel IH]; intros stk acc a E f' Hf; destruct stk as [|q stk]; try (destruct f'; exact E); try discriminate E. destruct f' as [|f']; [lia|]. cbn [dwalk] in *. destruct (look q) as [c|]; [|discriminate].
  destruct (fst (func q c acc)); [destruct (dkids dim look q (fst c) (digits dim)); [|discriminate]|]; apply (IH _ _ _ E); lia.
Qed.
End Fuel.
Lemma dqueue_more {Ent} dim (look : N -> option (N * (Ent + cofm))) (eb : Ent -> body) cur : forall fuel q nbs a, dist_queue eb dim look fuel cur q nbs = Some a -> forall f', (fuel <= f')%nat -> dist_queue eb dim look f' cur q nbs = Some a.
Proof.
  induction fuel as [|fuel IH]; intros q nbs a E f' Hf; destruct q as [|k q]; try (destruct f'; exact E); try discriminate E. destruct f' as [|f']; [lia|]. cbn [dist_queue] in *. destruct (dist_level eb dim look cur (k :: q) nbs) as [[[b q1] nbs1]|]; [|discriminate]. destruct b; [exact E|]. apply (IH _ _ _ E); lia.
Qed.
