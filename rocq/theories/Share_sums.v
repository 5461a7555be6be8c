(** The summary of a cell as a function of the entities below it, and what the local trees hold. *)
From Coq Require Import Sorted.
From Verif Require Import Base Key_model Key_spec Key_proofs HCell_model HCell_props
  BuildTree_model BuildTree_spec BuildTree_lemmas BuildTree_inv BuildTree_turn BuildTree_proofs BuildTree_shape.
From Verif Require Import Share_model Share_lemmas.
Local Open Scope N_scope.

Lemma nodup_app_r {A} (a b : list A) : NoDup (a ++ b) -> NoDup b.
Proof. induction a as [|x a IH]; intros H; [exact H|]. cbn [app] in H. apply NoDup_cons_iff in H. apply IH, H. Qed.
Lemma nodup_app_disj {A} (a b : list A) : NoDup (a ++ b) -> forall x, In x a -> In x b -> False.
Proof. induction a as [|y a IH]; intros H x Hx Hb; [destruct Hx|]. cbn [app] in H. apply NoDup_cons_iff in H. destruct H as [H1 H2]. destruct Hx as [<-|Hx]; [apply H1, in_or_app; right; exact Hb | apply (IH H2 x Hx Hb)]. Qed.

Section Sums.
Context {Ent Sum : Type} (dim : N) (Hdim : dim_ok dim) (f : N -> list Ent -> list Sum -> Sum).
Notation D := (max_depth dim).
Notation B := (2 ^ dim).
Notation up := (up dim).
Definition under (l q : N) (ps : list (N * Ent)) : list (N * Ent) := filter (fun x => up l (fst x) =? q) ps.
Fixpoint gsum (r : nat) (p : N) (ps : list (N * Ent)) : Sum :=
  match r with
  | O => f p [] []
  | S r' =>
    let cs := flat_map (fun d => match under (N.of_nat r') (p * B + d) ps with
                                 | [] => []
                                 | [x] => [inl (snd x)]
                                 | g => [inr (gsum r' (p * B + d) g)]
                                 end) (digits dim) in
    f p (ents_of cs) (sums_of cs)
  end.
Definition matches (ents : list Ent) (x : nat * N) (y : N * Ent) : Prop := snd x = fst y /\ nth_error ents (fst x) = Some (snd y).
Lemma filter_matches ents l q : forall xs ys, Forall2 (matches ents) xs ys -> Forall2 (matches ents) (filter (fun x => up l (snd x) =? q) xs) (under l q ys).
Proof.
  induction 1 as [|x y xs ys [H1 H2] H IH]; [constructor|]. unfold under in *. cbn [filter]. rewrite <- H1. destruct (up l (snd x) =? q); [|exact IH]. constructor; [split; assumption | exact IH].
Qed.
Lemma digits_spec : map N.of_nat (seq 0 (N.to_nat (2 ^ dim))) = digits dim.
Proof. unfold digits. rewrite N.shiftl_1_l. reflexivity. Qed.
Definition par (ents : list Ent) (a : list (nat + Sum)) (c : list (Ent + Sum)) : Prop :=
  flat_map (fun i => match nth_error ents i with Some e => [e] | None => [] end) (lefts a) = ents_of c /\ rights a = sums_of c.
Lemma par_app ents a c a' c' : par ents a c -> par ents a' c' -> par ents (a ++ a') (c ++ c').
Proof. intros [H1 H2] [H3 H4]. unfold par, lefts, rights, ents_of, sums_of in *. rewrite !flat_map_app, H1, H2, H3, H4. split; reflexivity. Qed.
Lemma eval_canon ents : forall r p xs ys, Forall2 (matches ents) xs ys -> eval (on_ents f ents) (canon dim r p xs) = inr (gsum r p ys).
Proof.
  induction r as [|r IH]; intros p xs ys H; [reflexivity|]. cbn [canon eval gsum]. rewrite digits_spec.
  set (es := map (fun x => eval (on_ents f ents) (snd x)) _). set (cs := flat_map _ (digits dim)).
  assert (HP : par ents es cs).
  { unfold es, cs. generalize (digits dim). intros ds. induction ds as [|d ds IHd]; [split; reflexivity|]. cbn [flat_map]. rewrite map_app. apply par_app; [|exact IHd].
    pose proof (filter_matches ents (N.of_nat r) (p * B + d) xs ys H) as G. destruct G as [|x y xs' ys' [G1 G2] G]; [split; reflexivity|].
    destruct G as [|x2 y2 xs' ys' G3 G].
    - cbn [map snd eval]. unfold par, lefts, rights. cbn [flat_map app]. rewrite G2. split; reflexivity.
    - cbn [map snd]. rewrite (IH _ _ (y :: y2 :: ys')) by (constructor; [split; assumption | constructor; assumption]). split; reflexivity. }
  destruct HP as [H1 H2]. unfold on_ents. rewrite H1, H2. reflexivity.
Qed.
Lemma numbered_matches (ps : list (N * Ent)) : Forall2 (matches (map snd ps)) (numbered (map fst ps)) ps.
Proof.
  unfold numbered. rewrite map_length.
  assert (G : forall (ps : list (N * Ent)) n ents, (forall i, nth_error ents (n + i) = nth_error (map snd ps) i) -> Forall2 (matches ents) (combine (seq n (length ps)) (map fst ps)) ps).
  { induction ps0 as [|x l IH]; intros n ents H; [constructor|]. cbn [length seq combine map]. constructor.
    - split; [reflexivity|]. cbn [fst]. specialize (H 0%nat). rewrite Nat.add_0_r in H. rewrite H. reflexivity.
    - apply IH. intros i. rewrite Nat.add_succ_comm. rewrite H. reflexivity. }
  apply G. intros i. reflexivity.
Qed.
End Sums.

Set Default Proof Using "All".
Section Data.
Context {Ent Sum : Type} (dim : N) (Hdim : dim_ok dim) (f : N -> list Ent -> list Sum -> Sum).
Context (pss : list (list (N * Ent))).
Notation D := (max_depth dim).
Notation B := (2 ^ dim).
Notation up := (up dim).
Notation full := (full dim).
Notation has := (has dim).
Notation many := (many dim).
Notation internal := (internal dim).
Notation cell_ex := (cell_ex dim).
Notation P := (P pss).
Notation K := (K pss).
Notation ks := (ks pss).
Notation nr := (nr pss).
Notation solo := (solo dim pss).
Notation lone := (lone dim pss).
Notation under := (under dim).
(** the content of a cell of the tree of all entities *)
Definition gdat (l q : N) : Ent + Sum :=
  match under l q P with
  | [x] => if l <? D then inl (snd x) else inr (gsum dim f (N.to_nat l) q [x])
  | g => inr (gsum dim f (N.to_nat l) q g)
  end.
Hypothesis Hne : forall ps, In ps pss -> ps <> [].
Hypothesis Hsort : StronglySorted N.lt K.
Hypothesis Hfull : Forall full K.

Lemma under_in l q x : In x (under l q P) <-> In x P /\ up l (fst x) = q.
Proof. unfold Share_sums.under. rewrite filter_In, N.eqb_eq. reflexivity. Qed.
Lemma P_key x y : In x P -> In y P -> fst x = fst y -> x = y.
Proof.
  pose proof (sorted_nodup K Hsort) as ND. unfold Share_lemmas.K in ND. generalize dependent P. intros l ND. induction l as [|a l IH]; intros Hx Hy E; [destruct Hx|].
  cbn [map] in ND. apply NoDup_cons_iff in ND. destruct ND as [N1 N2]. destruct Hx as [<-|Hx], Hy as [<-|Hy]; [reflexivity | | | apply IH; assumption].
  - exfalso. apply N1. rewrite E. apply in_map, Hy.
  - exfalso. apply N1. rewrite <- E. apply in_map, Hx.
Qed.
Lemma NoDup_P : NoDup P. Proof. apply (NoDup_map_inv fst). apply (sorted_nodup K Hsort). Qed.
Lemma has_under l q : has K l q <-> under l q P <> [].
Proof.
  split.
  - intros (k & Hk & E). apply in_map_iff in Hk. destruct Hk as (x & <- & Hx). assert (G : In x (under l q P)) by (apply under_in; split; assumption). intros F. rewrite F in G. destruct G.
  - destruct (under l q P) as [|x g] eqn:E; [congruence|]. intros _. assert (G : In x (under l q P)) by (rewrite E; left; reflexivity). apply under_in in G. exists (fst x). split; [apply in_map|]; apply G.
Qed.
Lemma many_under l q : many K l q <-> exists x y g, under l q P = x :: y :: g.
Proof.
  split.
  - intros (a & b & Ha & Hb & Hn & Ea & Eb). apply in_map_iff in Ha. destruct Ha as (x & <- & Hx). apply in_map_iff in Hb. destruct Hb as (y & <- & Hy).
    assert (G1 : In x (under l q P)) by (apply under_in; split; assumption). assert (G2 : In y (under l q P)) by (apply under_in; split; assumption).
    destruct (under l q P) as [|u [|v g]]; [destruct G1| |eauto]. destruct G1 as [<-|[]], G2 as [<-|[]]. congruence.
  - intros (x & y & g & E). assert (G1 : In x (under l q P)) by (rewrite E; left; reflexivity). assert (G2 : In y (under l q P)) by (rewrite E; right; left; reflexivity).
    assert (ND : NoDup (under l q P)) by (apply NoDup_filter, NoDup_P). rewrite E in ND. apply under_in in G1. apply under_in in G2. destruct G1 as [G1 G1'], G2 as [G2 G2'].
    exists (fst x), (fst y). repeat split; try assumption; try (apply in_map; assumption). intros X. apply (P_key x y G1 G2) in X. subst y. apply NoDup_cons_iff in ND. destruct ND as [ND _]. apply ND. left. reflexivity.
Qed.
Lemma gdat_internal l q : internal K l q -> gdat l q = inr (gsum dim f (N.to_nat l) q (under l q P)).
Proof.
  intros H. unfold gdat. destruct (under l q P) as [|x [|y g]] eqn:E; try reflexivity. destruct H as [->|H]; [replace (D <? D) with false by lia; reflexivity|]. apply many_under in H. destruct H as (a & b & c & H). congruence.
Qed.
Lemma gdat_leaf l q : ~ internal K l q -> l <= D -> has K l q -> exists x, In x P /\ up l (fst x) = q /\ gdat l q = inl (snd x) /\ under l q P = [x].
Proof.
  intros H Hl Hh. apply has_under in Hh. destruct (under l q P) as [|x [|y g]] eqn:E; [congruence | | exfalso; apply H; right; apply many_under; eauto].
  assert (G : In x (under l q P)) by (rewrite E; left; reflexivity). apply under_in in G. exists x. split; [apply G|]. split; [apply G|]. split; [|reflexivity]. unfold gdat. rewrite E. replace (l <? D) with true; [reflexivity|]. symmetry. apply N.ltb_lt. assert (l <> D) by (intros ->; apply H; left; reflexivity). lia.
Qed.
Lemma gdat_kind l q : l <= D -> has K l q -> (internal K l q <-> exists s, gdat l q = inr s).
Proof.
  intros Hl Hh. split; [intros H; rewrite (gdat_internal l q H); eauto|]. intros (s & E). destruct (internal_dec dim K l q) as [|H]; [assumption|]. destruct (gdat_leaf l q H Hl Hh) as (x & _ & _ & E' & _). congruence.
Qed.
Lemma under_child l q d : 1 <= l -> d < B -> under (l - 1) (q * B + d) (under l q P) = under (l - 1) (q * B + d) P.
Proof.
  intros Hl Hd. unfold Share_sums.under. generalize P. intros ps. induction ps as [|x ps IH]; [reflexivity|]. cbn [filter]. destruct (N.eqb_spec (up l (fst x)) q) as [E|E].
  - cbn [filter]. rewrite IH. reflexivity.
  - rewrite IH. destruct (N.eqb_spec (up (l - 1) (fst x)) (q * B + d)) as [E'|]; [|reflexivity]. exfalso. apply E. rewrite (up_child dim Hdim) by exact Hl. rewrite E'. apply child_parent; assumption.
Qed.
Definition hasb (l q : N) : bool := match under l q P with [] => false | _ => true end.
Lemma hasb_spec l q : hasb l q = true <-> has K l q.
Proof. unfold hasb. rewrite has_under. destruct (under l q P); split; congruence. Qed.
Definition kids_dat (l q : N) (ds : list N) : list (Ent + Sum) := flat_map (fun d => if hasb (l - 1) (q * B + d) then [gdat (l - 1) (q * B + d)] else []) ds.
Lemma gdat_unfold l q : 1 <= l <= D -> internal K l q -> gdat l q = inr (f q (ents_of (kids_dat l q (digits dim))) (sums_of (kids_dat l q (digits dim)))).
Proof.
  intros Hl Hi. rewrite (gdat_internal l q Hi). replace (N.to_nat l) with (S (N.to_nat (l - 1))) by lia. cbn [gsum]. rewrite N2Nat.id.
  match goal with |- inr (f q (ents_of ?a) _) = inr (f q (ents_of ?b) _) => assert (E : a = b); [|rewrite E; reflexivity] end.
  unfold kids_dat. apply flat_map_ext_in. intros d Hd. apply (digits_in dim) in Hd. rewrite (under_child l q d) by (lia || assumption). unfold hasb, gdat.
  destruct (under (l - 1) (q * B + d) P) as [|x [|y g]]; [reflexivity | | reflexivity]. replace (l - 1 <? D) with true by lia. reflexivity.
Qed.

(** ** The local tables *)
Lemma under_solo r l q : solo r l q -> under l q P = under l q (nth r pss []).
Proof.
  intros [Hh H]. assert (Hr : (r < nr)%nat) by (destruct Hh as (k & Hk & _); apply (ks_in dim Hdim pss Hne Hsort Hfull) in Hk; tauto).
  rewrite (concat_split dim Hdim pss Hne Hsort Hfull r Hr) at 1. unfold Share_sums.under. rewrite !filter_app.
  assert (X : forall a, (forall x, In x a -> In x P /\ ~ In (fst x) (ks r)) -> filter (fun x : N * Ent => up l (fst x) =? q) a = []).
  { intros a Ha. destruct (filter _ a) as [|x g] eqn:E; [reflexivity|]. exfalso. assert (G : In x (filter (fun x : N * Ent => up l (fst x) =? q) a)) by (rewrite E; left; reflexivity).
    apply filter_In in G. destruct G as [G1 G2]. apply N.eqb_eq in G2. destruct (Ha x G1) as [G3 G4]. apply G4, H; [apply in_map, G3 | exact G2]. }
  pose proof (concat_split dim Hdim pss Hne Hsort Hfull r Hr) as SP. pose proof (sorted_nodup K Hsort) as ND. unfold Share_lemmas.K in ND.
  rewrite SP, !map_app in ND.
  rewrite (X (concat (firstn r pss))), (X (concat (skipn (S r) pss))); [cbn [app]; apply app_nil_r | |].
  - intros x Hx. split; [rewrite SP; apply in_or_app; right; apply in_or_app; right; exact Hx|]. intros Hin. unfold Share_lemmas.ks in Hin. apply nodup_app_r in ND. apply (nodup_app_disj _ _ ND (fst x) Hin). apply in_map, Hx.
  - intros x Hx. split; [rewrite SP; apply in_or_app; left; exact Hx|]. intros Hin. unfold Share_lemmas.ks in Hin. apply (nodup_app_disj _ _ ND (fst x)); [apply in_map, Hx | apply in_or_app; left; exact Hin].
Qed.
End Data.
