(** C23: the computed range. *)
From Coq Require Import Reals Lra Permutation.
From Verif Require Import Base BuildTree_model Range_model.
Local Open Scope R_scope.

Lemma widen_spec rg b d : fst (widen rg b) d = Rmin (fst rg d) (rb_x b d - rb_h b) /\ snd (widen rg b) d = Rmax (snd rg d) (rb_x b d + rb_h b).
Proof.
  unfold widen, Rlt_b. cbn. split.
  - destruct (Rlt_dec (rb_x b d - rb_h b) (fst rg d)); [rewrite Rmin_right by lra|rewrite Rmin_left by lra]; reflexivity.
  - destruct (Rlt_dec (snd rg d) (rb_x b d + rb_h b)); [rewrite Rmax_right by lra|rewrite Rmax_left by lra]; reflexivity.
Qed.
(** the least lower bound and greatest upper bound of the start values and bodies *)
Definition is_lower (P : R -> Prop) (m : R) : Prop := P m /\ forall v, P v -> m <= v.
Definition is_upper (P : R -> Prop) (m : R) : Prop := P m /\ forall v, P v -> v <= m.
Lemma fold_widen l : forall rg d,
  is_lower (fun v => v = fst rg d \/ exists b, In b l /\ v = rb_x b d - rb_h b) (fst (fold_left widen l rg) d) /\
  is_upper (fun v => v = snd rg d \/ exists b, In b l /\ v = rb_x b d + rb_h b) (snd (fold_left widen l rg) d).
Proof.
  induction l as [|b l IH]; intros rg d; cbn [fold_left].
  - split; split; [left; reflexivity| |left; reflexivity|]; intros v [->|(x & [] & _)]; lra.
  - destruct (IH (widen rg b) d) as [[L1 L2] [U1 U2]]. destruct (widen_spec rg b d) as [W1 W2]. rewrite W1 in L1, L2. rewrite W2 in U1, U2. split; split.
    + destruct L1 as [->|(x & Hx & ->)]; [|right; exists x; split; [right; exact Hx|reflexivity]].
      unfold Rmin. destruct (Rle_dec (fst rg d) (rb_x b d - rb_h b)); [left; reflexivity|right; exists b; split; [left; reflexivity|reflexivity]].
    + intros v [->|(x & [<-|Hx] & ->)].
      * eapply Rle_trans; [apply L2; left; reflexivity|apply Rmin_l].
      * eapply Rle_trans; [apply L2; left; reflexivity|apply Rmin_r].
      * apply L2. right. exists x. auto.
    + destruct U1 as [->|(x & Hx & ->)]; [|right; exists x; split; [right; exact Hx|reflexivity]].
      unfold Rmax. destruct (Rle_dec (snd rg d) (rb_x b d + rb_h b)); [right; exists b; split; [left; reflexivity|reflexivity]|left; reflexivity].
    + intros v [->|(x & [<-|Hx] & ->)].
      * eapply Rle_trans; [apply Rmax_l|apply U2; left; reflexivity].
      * eapply Rle_trans; [apply Rmax_r|apply U2; left; reflexivity].
      * apply U2. right. exists x. auto.
Qed.
Lemma back_in {A} (l : list A) : l <> [] -> exists x, back l = Some x /\ In x l.
Proof.
  induction l as [|x l IH]; intros H; [contradiction|]. destruct l as [|y l]; [exists x; cbn; auto|].
  destruct (IH ltac:(discriminate)) as (z & E & Hz). exists z. split; [exact E|right; exact Hz].
Qed.
Lemma local_ok bodies : bodies <> [] -> exists rg, local_range bodies = Some rg /\ forall d,
  (forall b, In b bodies -> fst rg d <= rb_x b d - rb_h b /\ rb_x b d + rb_h b <= snd rg d) /\
  (exists b, In b bodies /\ (fst rg d = rb_x b d - rb_h b \/ fst rg d = rb_x b d)) /\
  (exists b, In b bodies /\ (snd rg d = rb_x b d + rb_h b \/ snd rg d = rb_x b d)).
Proof.
  intros H. destruct (back_in bodies H) as (b0 & E & Hb). unfold local_range. rewrite E. eexists. split; [reflexivity|]. intros d.
  destruct (fold_widen bodies (rb_x b0, rb_x b0) d) as [[L1 L2] [U1 U2]]. cbn [fst snd] in L1, L2, U1, U2. split; [|split].
  - intros b Hin. split; [apply L2|apply U2]; right; exists b; auto.
  - destruct L1 as [->|(x & Hx & ->)]; [exists b0|exists x]; auto.
  - destruct U1 as [->|(x & Hx & ->)]; [exists b0|exists x]; auto.
Qed.
Lemma allreduce_ok l : l <> [] -> exists rg, allreduce l = Some rg /\ forall d,
  (forall x, In x l -> fst rg d <= fst x d /\ snd x d <= snd rg d) /\ (exists x, In x l /\ fst rg d = fst x d) /\ (exists x, In x l /\ snd rg d = snd x d).
Proof.
  induction l as [|x l IH]; intros H; [contradiction|]. destruct l as [|y l].
  - exists x. split; [reflexivity|]. intros d. split; [intros z [<-|[]]; lra|]. split; exists x; split; [left|..|left|]; reflexivity.
  - destruct (IH ltac:(discriminate)) as (rg & E & G). cbn [allreduce]. cbn [allreduce] in E. rewrite E. eexists. split; [reflexivity|]. intros d. destruct (G d) as (G1 & (z & Hz & Ez) & (w & Hw & Ew)).
    cbn [combine fst snd]. split; [|split].
    + intros v [<-|Hv]; [split; [apply Rmin_l|apply Rmax_l]|]. destruct (G1 v Hv). split; [eapply Rle_trans; [apply Rmin_r|assumption]|eapply Rle_trans; [eassumption|apply Rmax_r]].
    + unfold Rmin. destruct (Rle_dec (fst x d) (fst rg d)); [exists x; split; [left|]; reflexivity|exists z; split; [right; exact Hz|exact Ez]].
    + unfold Rmax. destruct (Rle_dec (snd x d) (snd rg d)); [exists w; split; [right; exact Hw|exact Ew]|exists x; split; [left|]; reflexivity].
Qed.
Lemma locals_ok ranks : (forall r, In r ranks -> r <> []) -> exists l, locals ranks = Some l /\ length l = length ranks /\
  (forall b, In b ranks -> exists rg, local_range b = Some rg /\ In rg l) /\ (forall rg, In rg l -> exists b, In b ranks /\ local_range b = Some rg).
Proof.
  induction ranks as [|b ranks IH]; intros H; [exists []; cbn; repeat split; intros ? []|].
  destruct (local_ok b (H b (or_introl eq_refl))) as (rg & E & _). destruct (IH (fun r Hr => H r (or_intror Hr))) as (l & El & Ln & L1 & L2).
  exists (rg :: l). cbn [locals]. rewrite E, El. split; [reflexivity|]. split; [cbn; lia|]. split.
  - intros c [<-|Hc]; [exists rg; split; [exact E|left; reflexivity]|]. destruct (L1 c Hc) as (x & Ex & Hx). exists x. split; [exact Ex|right; exact Hx].
  - intros x [<-|Hx]; [exists b; split; [left; reflexivity|exact E]|]. destruct (L2 x Hx) as (c & Hc & Ec). exists c. split; [right; exact Hc|exact Ec].
Qed.

(** When no rank is empty the range exists, contains every particle of every rank
    widened by its radius, and each of its bounds is attained. *)
Theorem C23_range ranks : ranks <> [] -> (forall r, In r ranks -> r <> []) ->
  exists rg, compute_range ranks = Some rg /\ forall d,
    (forall r b, In r ranks -> In b r -> fst rg d <= rb_x b d - rb_h b /\ rb_x b d + rb_h b <= snd rg d) /\
    (exists r b, In r ranks /\ In b r /\ (fst rg d = rb_x b d - rb_h b \/ fst rg d = rb_x b d)) /\
    (exists r b, In r ranks /\ In b r /\ (snd rg d = rb_x b d + rb_h b \/ snd rg d = rb_x b d)).
Proof.
  intros Hn Hne. unfold compute_range. destruct (locals_ok ranks Hne) as (l & El & Ln & L1 & L2). rewrite El.
  assert (l <> []) by (intros ->; destruct ranks; [contradiction|discriminate]).
  destruct (allreduce_ok l H) as (rg & E & G). exists rg. split; [exact E|]. intros d. destruct (G d) as (G1 & (x & Hx & Ex) & (y & Hy & Ey)). split; [|split].
  - intros r b Hr Hb. destruct (L1 r Hr) as (z & Ez & Hz). destruct (local_ok r (Hne r Hr)) as (z' & Ez' & Q). assert (z' = z) by congruence. subst z'.
    destruct (Q d) as (Q1 & _). destruct (Q1 b Hb), (G1 z Hz). lra.
  - destruct (L2 x Hx) as (r & Hr & Er). destruct (local_ok r (Hne r Hr)) as (z & Ez & Q). assert (z = x) by congruence. subst z.
    destruct (Q d) as (_ & (b & Hb & Eb) & _). exists r, b. rewrite Ex. auto.
  - destruct (L2 y Hy) as (r & Hr & Er). destruct (local_ok r (Hne r Hr)) as (z & Ez & Q). assert (z = y) by congruence. subst z.
    destruct (Q d) as (_ & _ & (b & Hb & Eb)). exists r, b. rewrite Ey. auto.
Qed.
(** With radii that are not negative the bounds are the extreme values. *)
Theorem C23_tight ranks rg : compute_range ranks = Some rg -> (forall r, In r ranks -> r <> []) -> (forall r b, In r ranks -> In b r -> 0 <= rb_h b) ->
  forall d, (exists r b, In r ranks /\ In b r /\ fst rg d = rb_x b d - rb_h b) /\ (exists r b, In r ranks /\ In b r /\ snd rg d = rb_x b d + rb_h b).
Proof.
  intros E Hne Hh d. assert (ranks <> []) by (intros ->; discriminate). destruct (C23_range ranks H Hne) as (rg' & E' & G). assert (rg' = rg) by congruence. subst rg'.
  destruct (G d) as (G1 & (r & b & Hr & Hb & Eb) & (r' & b' & Hr' & Hb' & Eb')). split.
  - exists r, b. repeat split; auto. destruct (G1 r b Hr Hb). specialize (Hh r b Hr Hb). destruct Eb; lra.
  - exists r', b'. repeat split; auto. destruct (G1 r' b' Hr' Hb'). specialize (Hh r' b' Hr' Hb'). destruct Eb'; lra.
Qed.
(** The order in which the reduction combines the ranks does not matter, so every
    rank gets the same range. *)
Theorem C23_same_on_all_ranks l l' a b : Permutation l l' -> allreduce l = Some a -> allreduce l' = Some b ->
  forall d, fst a d = fst b d /\ snd a d = snd b d.
Proof.
  intros P E E' d. assert (l <> []) by (intros ->; discriminate). assert (l' <> []) by (intros ->; discriminate).
  destruct (allreduce_ok l H) as (x & Ex & G), (allreduce_ok l' H0) as (y & Ey & G'). assert (x = a) by congruence. assert (y = b) by congruence. subst.
  destruct (G d) as (G1 & (u & Hu & Eu) & (v & Hv & Ev)), (G' d) as (G2 & (u' & Hu' & Eu') & (v' & Hv' & Ev')).
  pose proof (G2 u (Permutation_in u P Hu)). pose proof (G2 v (Permutation_in v P Hv)).
  pose proof (G1 u' (Permutation_in u' (Permutation_sym P) Hu')). pose proof (G1 v' (Permutation_in v' (Permutation_sym P) Hv')). lra.
Qed.
(** The threaded version computes the same local range. *)
Theorem C23_threads threads bodies rg rg' : (1 <= threads)%nat -> local_range bodies = Some rg -> local_range_omp threads bodies = Some rg' ->
  forall d, fst rg d = fst rg' d /\ snd rg d = snd rg' d.
Proof.
  intros Ht E E' d. unfold local_range, local_range_omp in *. destruct (back bodies) as [b0|]; [|discriminate]. injection E as <-. injection E' as <-.
  set (t := fold_left widen bodies (rb_x b0, rb_x b0)).
  destruct (fold_widen bodies (rb_x b0, rb_x b0) d) as [[_ L2] [_ U2]]. cbn [fst snd] in L2, U2. fold t in L2, U2.
  assert (A : fst t d <= rb_x b0 d) by (apply L2; left; reflexivity). assert (B : rb_x b0 d <= snd t d) by (apply U2; left; reflexivity).
  assert (G : forall n a, fst a d = fst t d /\ snd a d = snd t d -> fst (fold_left merge (repeat t n) a) d = fst t d /\ snd (fold_left merge (repeat t n) a) d = snd t d).
  { induction n as [|n IH]; intros a Ha; [exact Ha|]. cbn [repeat fold_left]. apply IH. cbn. destruct Ha as [-> ->]. rewrite Rmin_left, Rmax_left by lra. auto. }
  destruct threads as [|n]; [lia|]. cbn [repeat fold_left]. destruct (G n (merge (rb_x b0, rb_x b0) t)) as [G1 G2]; [cbn; rewrite Rmin_right, Rmax_right by lra; auto|].
  split; [rewrite G1|rewrite G2]; reflexivity.
Qed.
(** A rank without particles: back() of an empty vector. *)
Theorem C23_empty_rank_refuted : exists ranks, ranks <> [] /\ (exists r, In r ranks /\ r <> []) /\ compute_range ranks = None.
Proof.
  exists [[RBody (fun _ => 1) 0]; []]. split; [discriminate|]. split; [|reflexivity]. exists [RBody (fun _ => 1) 0]. split; [left; reflexivity|discriminate].
Qed.
Example C23_case : exists rg, compute_range [[RBody (fun _ => 1) 2; RBody (fun d => INR d) 1]; [RBody (fun d => 4 - INR d) (1/2)]] = Some rg /\
  fst rg 1%nat = -1 /\ snd rg 1%nat = 7/2.
Proof.
  destruct (C23_range [[RBody (fun _ => 1) 2; RBody (fun d => INR d) 1]; [RBody (fun d => 4 - INR d) (1/2)]] ltac:(discriminate)) as (rg & E & G).
  { intros r [<-|[<-|[]]]; discriminate. }
  exists rg. split; [exact E|]. destruct (C23_tight _ rg E) with (d := 1%nat) as [(r & b & Hr & Hb & Eb) (r' & b' & Hr' & Hb' & Eb')].
  { intros r [<-|[<-|[]]]; discriminate. }
  { intros r b [<-|[<-|[]]]; [intros [<-|[<-|[]]]|intros [<-|[]]]; cbn; lra. }
  destruct (G 1%nat) as (G1 & _).
  pose proof (G1 _ _ (or_introl eq_refl) (or_introl eq_refl)) as B1. pose proof (G1 _ _ (or_introl eq_refl) (or_intror (or_introl eq_refl))) as B2.
  pose proof (G1 _ _ (or_intror (or_introl eq_refl)) (or_introl eq_refl)) as B3. cbn in B1, B2, B3.
  split.
  - destruct Hr as [<-|[<-|[]]]; [destruct Hb as [<-|[<-|[]]]|destruct Hb as [<-|[]]]; cbn in Eb; lra.
  - destruct Hr' as [<-|[<-|[]]]; [destruct Hb' as [<-|[<-|[]]]|destruct Hb' as [<-|[]]]; cbn in Eb'; lra.
Qed.
Print Assumptions C23_range.
Print Assumptions C23_tight.
Print Assumptions C23_same_on_all_ranks.
Print Assumptions C23_threads.
Print Assumptions C23_empty_rank_refuted.
