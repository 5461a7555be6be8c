(** Lemmas for Share_props: which keys lie below a cell, on which ranks, and the summaries. *)
From Coq Require Import Sorted.
From Verif Require Import Base Key_model Key_spec Key_proofs HCell_model HCell_props
  BuildTree_model BuildTree_spec BuildTree_lemmas BuildTree_inv BuildTree_turn BuildTree_proofs BuildTree_shape.
From Verif Require Import Share_model.
Local Open Scope N_scope.

Lemma firstn_in {Ent} (l : list (list (N * Ent))) r r' : (r < r')%nat -> (r < length l)%nat -> In (nth r l []) (firstn r' l).
Proof. revert r r'. induction l as [|a l IH]; intros r r' H1 H2; [cbn in H2; lia|]. destruct r' as [|r']; [lia|]. cbn [firstn]. destruct r as [|r]; [left; reflexivity|]. right. apply IH; [lia | cbn in H2; lia]. Qed.
Lemma last_spec {Ent} (ps : list (N * Ent)) x : last_key ps = Some x <-> exists l y, ps = l ++ [y] /\ fst y = x.
Proof.
  unfold last_key. split.
  - destruct (rev ps) as [|y l] eqn:E; [discriminate|]. intros H. injection H as <-. exists (rev l), y. split; [|reflexivity]. rewrite <- (rev_involutive ps), E. reflexivity.
  - intros (l & y & -> & <-). rewrite rev_app_distr. reflexivity.
Qed.
Lemma last_some {Ent} (ps : list (N * Ent)) : ps <> [] -> exists x, last_key ps = Some x.
Proof. intros H. destruct (exists_last H) as (l & y & ->). exists (fst y). apply last_spec. eauto. Qed.
Lemma sorted_cons x (l : list N) : StronglySorted N.lt l -> (forall y, In y l -> x < y) -> StronglySorted N.lt (x :: l).
Proof. intros H Hx. constructor; [exact H | apply Forall_forall, Hx]. Qed.
Lemma sorted_snoc x (l : list N) : StronglySorted N.lt l -> (forall y, In y l -> y < x) -> StronglySorted N.lt (l ++ [x]).
Proof. induction 1 as [|a l H IH Ha]; intros Hx; [repeat constructor|]. cbn [app]. apply sorted_cons; [apply IH; intros y Hy; apply Hx; right; exact Hy|]. rewrite Forall_forall in Ha. intros y Hy. apply in_app_or in Hy. destruct Hy as [Hy|[<-|[]]]; [apply Ha, Hy | apply Hx; left; reflexivity]. Qed.

Set Default Proof Using "All".
Section Ranks.
Context {Ent : Type} (dim : N) (Hdim : dim_ok dim).
Context (pss : list (list (N * Ent))).
Notation D := (max_depth dim).
Notation B := (2 ^ dim).
Notation up := (up dim).
Notation full := (full dim).
Notation has := (has dim).
Notation many := (many dim).
Notation internal := (internal dim).
Notation cell_ex := (cell_ex dim).
Definition nr : nat := length pss.
Definition P : list (N * Ent) := concat pss.
Definition K : list N := map fst P.
Definition ks (r : nat) : list N := map fst (nth r pss []).
Hypothesis Hne : forall ps, In ps pss -> ps <> [].
Hypothesis Hsort : StronglySorted N.lt K.
Hypothesis Hfull : Forall full K.

Lemma concat_split r : (r < nr)%nat -> P = concat (firstn r pss) ++ nth r pss [] ++ concat (skipn (S r) pss).
Proof.
  intros Hr. unfold P. rewrite <- (firstn_skipn r pss) at 1. rewrite concat_app. f_equal.
  unfold nr in Hr. clear - Hr. revert r Hr. induction pss as [|a l IH]; intros r Hr; [cbn in Hr; lia|].
  destruct r; [reflexivity|]. cbn [skipn nth]. cbn [length] in Hr. apply IH. lia.
Qed.
Lemma ks_in r k : In k (ks r) -> (r < nr)%nat /\ In k K.
Proof.
  intros H. assert (Hr : (r < nr)%nat).
  { destruct (Nat.lt_ge_cases r nr) as [|G]; [assumption|]. unfold ks in H. rewrite nth_overflow in H by exact G. destruct H. }
  split; [exact Hr|]. unfold K. rewrite (concat_split r Hr), !map_app. apply in_or_app. right. apply in_or_app. left. exact H.
Qed.
Lemma K_in k : In k K -> exists r, (r < nr)%nat /\ In k (ks r).
Proof.
  unfold K, P. intros H. apply in_map_iff in H. destruct H as (x & <- & H). apply in_concat in H. destruct H as (l & Hl & Hx).
  destruct (In_nth _ _ [] Hl) as (r & Hr & E). exists r. split; [exact Hr|]. unfold ks. rewrite E. apply in_map. exact Hx.
Qed.
Lemma rank_lt r r' k k' : (r < r')%nat -> In k (ks r) -> In k' (ks r') -> k < k'.
Proof.
  intros Hr H H'. destruct (ks_in _ _ H') as [Hr' _]. destruct (ks_in _ _ H) as [Hr1 _]. pose proof Hsort as HS. unfold K in HS. rewrite (concat_split r' Hr'), map_app in HS.
  apply (sorted_app_lt _ _ _ _ HS).
  - apply in_map_iff in H. destruct H as (x & <- & H). apply in_map. apply in_concat. exists (nth r pss []). split; [apply firstn_in; assumption | exact H].
  - rewrite map_app. apply in_or_app. left. exact H'.
Qed.
Lemma rank_unique r r' k : In k (ks r) -> In k (ks r') -> r = r'.
Proof. intros H H'. destruct (Nat.lt_trichotomy r r') as [G|[G|G]]; [|exact G|]; exfalso; [pose proof (rank_lt _ _ _ _ G H H') | pose proof (rank_lt _ _ _ _ G H' H)]; lia. Qed.
Lemma rank_le r r' k k' : In k (ks r) -> In k' (ks r') -> k <= k' -> (r <= r')%nat.
Proof. intros H H' Hk. destruct (Nat.le_gt_cases r r') as [|G]; [assumption|]. pose proof (rank_lt _ _ _ _ G H' H). lia. Qed.
Lemma ks_ne r : (r < nr)%nat -> ks r <> [].
Proof. intros Hr E. apply (Hne (nth r pss [])); [apply nth_In; exact Hr|]. unfold ks in E. destruct (nth r pss []); [reflexivity | discriminate]. Qed.
Lemma ks_sorted r : (r < nr)%nat -> StronglySorted N.lt (ks r).
Proof. intros Hr. pose proof Hsort as HS. unfold K in HS. rewrite (concat_split r Hr), !map_app in HS. apply sorted_app_r in HS. apply sorted_app_l in HS. exact HS. Qed.
Lemma ks_full r k : In k (ks r) -> full k.
Proof. intros H. apply ks_in in H. rewrite Forall_forall in Hfull. apply Hfull. tauto. Qed.
Lemma K_full k : In k K -> full k. Proof. rewrite Forall_forall in Hfull. apply Hfull. Qed.

(** the neighbours' boundary keys *)
Definition lo (r : nat) : option N := match r with O => None | S p => last_key (nth p pss []) end.
Definition hi (r : nat) : option N := if (r =? nr - 1)%nat then None else first_key (nth (S r) pss []).
Lemma lo_spec r x : (r < nr)%nat -> lo r = Some x -> (0 < r)%nat /\ In x (ks (r - 1)) /\ (forall k r', In k (ks r') -> (r' < r)%nat -> k <= x).
Proof.
  intros Hr H. destruct r as [|p]; [discriminate|]. cbn [lo] in H. apply last_spec in H. destruct H as (l & y & E & <-). split; [lia|]. replace (S p - 1)%nat with p by lia.
  assert (HI : In (fst y) (ks p)) by (unfold ks; rewrite E; apply in_map, in_or_app; right; left; reflexivity). split; [exact HI|].
  intros k r' Hk Hr'. destruct (Nat.eq_dec r' p) as [->|Hn]; [|apply N.lt_le_incl; apply (rank_lt r' p); [lia | assumption..]].
  unfold ks in Hk. rewrite E, map_app in Hk. apply in_app_or in Hk. destruct Hk as [Hk|[<-|[]]]; [|lia].
  assert (HS : StronglySorted N.lt (ks p)) by (apply ks_sorted; lia). unfold ks in HS. rewrite E, map_app in HS. apply N.lt_le_incl, (sorted_app_lt _ _ _ _ HS Hk). left. reflexivity.
Qed.
Lemma hi_spec r x : (r < nr)%nat -> hi r = Some x -> (S r < nr)%nat /\ In x (ks (S r)) /\ (forall k r', In k (ks r') -> (r < r')%nat -> x <= k).
Proof.
  intros Hr H. unfold hi in H. destruct (Nat.eqb_spec r (nr - 1)) as [|Hl]; [discriminate|]. assert (HL : (S r < nr)%nat) by lia. split; [exact HL|].
  unfold first_key in H. destruct (nth (S r) pss []) as [|y l] eqn:E; [discriminate|]. injection H as <-.
  assert (HI : In (fst y) (ks (S r))) by (unfold ks; rewrite E; left; reflexivity). split; [exact HI|].
  intros k r' Hk Hr'. destruct (Nat.eq_dec r' (S r)) as [->|Hn]; [|apply N.lt_le_incl; apply (rank_lt (S r) r'); [lia | assumption..]].
  unfold ks in Hk. rewrite E in Hk. destruct Hk as [<-|Hk]; [lia|].
  assert (HS : StronglySorted N.lt (ks (S r))) by (apply ks_sorted; lia). unfold ks in HS. rewrite E in HS. cbn [map] in HS. apply StronglySorted_inv in HS. destruct HS as [_ HS]. rewrite Forall_forall in HS. apply N.lt_le_incl, HS, Hk.
Qed.
Lemma lo_none r : (r < nr)%nat -> lo r = None -> r = 0%nat.
Proof. intros Hr H. destruct r as [|p]; [reflexivity|]. cbn [lo] in H. destruct (last_some (nth p pss [])) as [x E]; [apply Hne, nth_In; unfold nr in Hr; lia|]. congruence. Qed.
Lemma hi_none r : (r < nr)%nat -> hi r = None -> r = (nr - 1)%nat.
Proof. intros Hr H. unfold hi in H. destruct (Nat.eqb_spec r (nr - 1)) as [|Hl]; [assumption|]. unfold first_key in H. destruct (nth (S r) pss []) as [|y l] eqn:E; [|discriminate]. exfalso. apply (Hne (nth (S r) pss [])); [apply nth_In; unfold nr in *; lia | exact E]. Qed.
Definition around (r : nat) : list N := optl (lo r) ++ ks r ++ optl (hi r).
Lemma around_in r k : (r < nr)%nat -> In k (around r) -> In k K.
Proof.
  intros Hr H. unfold around in H. apply in_app_or in H. destruct H as [H|H]; [|apply in_app_or in H; destruct H as [H|H]].
  - destruct (lo r) as [x|] eqn:E; [|destruct H]. destruct H as [<-|[]]. destruct (lo_spec r x Hr E) as (_ & H & _). apply ks_in in H. tauto.
  - apply ks_in in H. tauto.
  - destruct (hi r) as [x|] eqn:E; [|destruct H]. destruct H as [<-|[]]. destruct (hi_spec r x Hr E) as (_ & H & _). apply ks_in in H. tauto.
Qed.
Lemma around_sorted r : (r < nr)%nat -> StronglySorted N.lt (around r).
Proof.
  intros Hr. unfold around. assert (HS := ks_sorted r Hr).
  assert (H1 : StronglySorted N.lt (ks r ++ optl (hi r))).
  { destruct (hi r) as [x|] eqn:E; cbn [optl]; [|rewrite app_nil_r; exact HS]. apply sorted_snoc; [exact HS|]. intros y Hy. destruct (hi_spec r x Hr E) as (_ & Hx & _). apply (rank_lt r (S r)); [lia | assumption..]. }
  destruct (lo r) as [x|] eqn:E; cbn [optl app]; [|exact H1]. destruct (lo_spec r x Hr E) as (H0 & Hx & _). apply sorted_cons; [exact H1|]. intros y Hy. apply in_app_or in Hy. destruct Hy as [Hy|Hy]; [apply (rank_lt (r - 1) r); [lia | assumption..]|].
  destruct (hi r) as [z|] eqn:E'; [|destruct Hy]. destruct Hy as [<-|[]]. destruct (hi_spec r z Hr E') as (_ & Hz & _). apply (rank_lt (r - 1) (S r)); [lia | assumption..].
Qed.
Lemma around_full r : (r < nr)%nat -> Forall full (around r).
Proof. intros Hr. apply Forall_forall. intros k Hk. apply K_full, (around_in r k Hr Hk). Qed.

(** all keys below the cell are of rank s *)
Definition solo (s : nat) (l q : N) : Prop := has (ks s) l q /\ forall k, In k K -> up l k = q -> In k (ks s).
Lemma has_K s l q : has (ks s) l q -> has K l q.
Proof. intros (k & Hk & E). exists k. split; [apply ks_in in Hk; tauto | exact E]. Qed.
Lemma has_rank l q : has K l q -> exists s, (s < nr)%nat /\ has (ks s) l q.
Proof. intros (k & Hk & E). destruct (K_in k Hk) as (s & Hs & H). exists s. split; [exact Hs | exists k; tauto]. Qed.
Lemma solo_lt s l q : solo s l q -> (s < nr)%nat. Proof. intros ((k & Hk & _) & _). apply ks_in in Hk. tauto. Qed.
Lemma solo_has s s' l q : solo s l q -> has (ks s') l q -> s' = s.
Proof. intros [_ H] (k & Hk & E). apply (rank_unique s' s k Hk). apply H; [apply ks_in in Hk; tauto | exact E]. Qed.
Lemma solo_dec s l q : {solo s l q} + {~ solo s l q}.
Proof.
  destruct (existsb (fun k => up l k =? q) (ks s)) eqn:E1.
  - destruct (forallb (fun k => negb (up l k =? q) || existsb (N.eqb k) (ks s)) K) eqn:E2.
    + left. split.
      * apply existsb_exists in E1. destruct E1 as (k & Hk & E). exists k. split; [exact Hk | apply N.eqb_eq, E].
      * intros k Hk E. rewrite forallb_forall in E2. specialize (E2 k Hk). rewrite E, N.eqb_refl in E2. cbn [negb orb] in E2. apply existsb_exists in E2. destruct E2 as (y & Hy & Ey). apply N.eqb_eq in Ey. subst. exact Hy.
    + right. intros [_ H]. assert (X : forallb (fun k => negb (up l k =? q) || existsb (N.eqb k) (ks s)) K = true); [|congruence]. apply forallb_forall. intros k Hk. destruct (N.eqb_spec (up l k) q) as [E|]; [|reflexivity]. cbn [negb orb]. apply existsb_exists. exists k. split; [apply H; assumption | apply N.eqb_refl].
  - right. intros [(k & Hk & E) _]. assert (X : existsb (fun k => up l k =? q) (ks s) = true); [|congruence]. apply existsb_exists. exists k. split; [exact Hk | apply N.eqb_eq, E].
Qed.
Definition lone (l q : N) : Prop := exists s, solo s l q.
Lemma lone_dec l q : {lone l q} + {~ lone l q}.
Proof.
  destruct (existsb (fun s => if solo_dec s l q then true else false) (seq 0 nr)) eqn:E.
  - left. apply existsb_exists in E. destruct E as (s & _ & E). exists s. destruct (solo_dec s l q); [assumption | discriminate].
  - right. intros (s & H). assert (X : existsb (fun s => if solo_dec s l q then true else false) (seq 0 nr) = true); [|congruence]. apply existsb_exists. exists s. split; [apply in_seq; pose proof (solo_lt _ _ _ H); lia|]. destruct (solo_dec s l q); [reflexivity | contradiction].
Qed.
Lemma solo_down s l l' k : l' <= l -> In k K -> solo s l (up l k) -> solo s l' (up l' k).
Proof.
  intros Hl Hk [_ H2]. split.
  - exists k. split; [apply H2; [exact Hk | reflexivity] | reflexivity].
  - intros k' Hk' E. apply H2; [exact Hk'|]. apply (up_eq_mono dim Hdim l' l); assumption.
Qed.

(** keys above and below a rank's own keys, between which the boundary keys lie *)
Lemma between r l q k k' : (r < nr)%nat -> In k (ks r) -> up l k = q -> In k' K -> up l k' = q -> ~ In k' (ks r) ->
  (exists x, lo r = Some x /\ up l x = q) \/ (exists x, hi r = Some x /\ up l x = q).
Proof.
  intros Hr Hk E Hk' E' Hn. destruct (K_in k' Hk') as (r' & Hr' & Hin). destruct (Nat.lt_trichotomy r' r) as [G|[G|G]].
  - left. destruct (lo r) as [x|] eqn:El; [|pose proof (lo_none r Hr El); lia]. exists x. split; [reflexivity|]. destruct (lo_spec r x Hr El) as (H0 & Hx & Hmax).
    assert (k' <= x) by (apply (Hmax k' r' Hin G)). assert (x < k) by (apply (rank_lt (r - 1) r); [lia | assumption..]).
    pose proof (up_mono dim Hdim l k' x ltac:(assumption)). pose proof (up_mono dim Hdim l x k ltac:(lia)). lia.
  - subst. contradiction.
  - right. destruct (hi r) as [x|] eqn:El; [|pose proof (hi_none r Hr El); lia]. exists x. split; [reflexivity|]. destruct (hi_spec r x Hr El) as (H0 & Hx & Hmin).
    assert (x <= k') by (apply (Hmin k' r' Hin G)). assert (k < x) by (apply (rank_lt r (S r)); [lia | assumption..]).
    pose proof (up_mono dim Hdim l x k' ltac:(assumption)). pose proof (up_mono dim Hdim l k x ltac:(lia)). lia.
Qed.
Lemma around_lo r x : lo r = Some x -> In x (around r). Proof. intros E. unfold around. rewrite E. left. reflexivity. Qed.
Lemma around_hi r x : hi r = Some x -> In x (around r). Proof. intros E. unfold around. rewrite E. apply in_or_app. right. apply in_or_app. right. left. reflexivity. Qed.
Lemma around_ks r x : In x (ks r) -> In x (around r). Proof. intros E. unfold around. apply in_or_app. right. apply in_or_app. left. exact E. Qed.
Lemma lo_not_ks r x : (r < nr)%nat -> lo r = Some x -> ~ In x (ks r).
Proof. intros Hr E H. destruct (lo_spec r x Hr E) as (H0 & Hx & _). pose proof (rank_unique _ _ _ H Hx). lia. Qed.
Lemma hi_not_ks r x : (r < nr)%nat -> hi r = Some x -> ~ In x (ks r).
Proof. intros Hr E H. destruct (hi_spec r x Hr E) as (H0 & Hx & _). pose proof (rank_unique _ _ _ H Hx). lia. Qed.
Lemma many_around r l q : (r < nr)%nat -> has (ks r) l q -> (many (around r) l q <-> many K l q).
Proof.
  intros Hr (k & Hk & E). split.
  - intros (a & b & Ha & Hb & Hn & Ea & Eb). exists a, b. repeat split; try assumption; apply (around_in r); assumption.
  - intros (a & b & Ha & Hb & Hn & Ea & Eb).
    assert (X : exists k', In k' K /\ k' <> k /\ up l k' = q) by (destruct (N.eq_dec a k) as [->|]; [exists b | exists a]; auto).
    destruct X as (k' & Hk' & Hkn & E'). destruct (in_dec N.eq_dec k' (ks r)) as [Hin|Hin].
    + exists k, k'. repeat split; try assumption; [apply around_ks, Hk | apply around_ks, Hin | congruence].
    + destruct (between r l q k k' Hr Hk E Hk' E' Hin) as [(x & Ex & Eq)|(x & Ex & Eq)].
      * exists k, x. split; [apply around_ks, Hk|]. split; [apply around_lo, Ex|]. repeat split; try assumption. intros ->. apply (lo_not_ks r x Hr Ex Hk).
      * exists k, x. split; [apply around_ks, Hk|]. split; [apply around_hi, Ex|]. repeat split; try assumption. intros ->. apply (hi_not_ks r x Hr Ex Hk).
Qed.
Lemma solo_around r l q : (r < nr)%nat -> has (ks r) l q -> (solo r l q <-> lo_free dim (lo r) l q /\ match hi r with Some x => up l x <> q | None => True end).
Proof.
  intros Hr Hh. split.
  - intros [_ H]. split.
    + unfold lo_free. destruct (lo r) as [x|] eqn:E; [|exact I]. intros Ex. apply (lo_not_ks r x Hr E), H; [|exact Ex]. apply (around_in r), around_lo; assumption.
    + destruct (hi r) as [x|] eqn:E; [|exact I]. intros Ex. apply (hi_not_ks r x Hr E), H; [|exact Ex]. apply (around_in r), around_hi; assumption.
  - intros [H1 H2]. split; [exact Hh|]. intros k' Hk' E'. destruct (in_dec N.eq_dec k' (ks r)) as [|Hin]; [assumption|]. exfalso. destruct Hh as (k & Hk & E).
    destruct (between r l q k k' Hr Hk E Hk' E' Hin) as [(x & Ex & Eq)|(x & Ex & Eq)].
    + unfold lo_free in H1. rewrite Ex in H1. contradiction.
    + rewrite Ex in H2. contradiction.
Qed.
Lemma ex_around r l q : (r < nr)%nat -> l <= D -> (cell_ex (around r) (ks r) l q <-> cell_ex K (ks r) l q).
Proof.
  intros Hr Hl. unfold cell_ex. split; (intros [H|(H1 & H2 & H3)]; [left; exact H | right; split; [exact H1|]; split; [exact H2|]]).
  - destruct H3 as [H3|H3]; [left; exact H3|]. right. apply (many_around r); [exact Hr | | exact H3]. destruct H2 as (k & Hk & <-). exists k. split; [exact Hk | apply up_S, Hdim].
  - destruct H3 as [H3|H3]; [left; exact H3|]. right. apply (many_around r); [exact Hr | | exact H3]. destruct H2 as (k & Hk & <-). exists k. split; [exact Hk | apply up_S, Hdim].
Qed.
End Ranks.
