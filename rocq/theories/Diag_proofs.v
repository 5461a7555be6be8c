(** Lemmas about Diag_model. *)
From Coq Require Import Reals Lra.
From Verif Require Import Base BuildTree_model Vec Cofm_model Diag_model Diag_spec.
Local Open Scope R_scope.

(** ** folds *)
Lemma foldmin_N (l : list N) : forall a, least_N (a :: l) (fold_left N.min l a).
Proof.
  induction l as [|x l IH]; intros a; cbn [fold_left]; [split; [left; reflexivity|intros y [<-|[]]; lia]|].
  destruct (IH (N.min a x)) as [[H|H] G].
  - split; [rewrite <- H; destruct (N.min_dec a x) as [E|E]; rewrite E; cbn; auto|].
    intros y [<-|[<-|Hy]]; [| |apply G; right; exact Hy]; rewrite <- H; lia.
  - split; [right; right; exact H|]. pose proof (G _ (or_introl eq_refl)).
    intros y [<-|[<-|Hy]]; [lia|lia|apply G; right; exact Hy].
Qed.
Lemma foldmax_N (l : list N) : forall a, greatest_N (a :: l) (fold_left N.max l a).
Proof.
  induction l as [|x l IH]; intros a; cbn [fold_left]; [split; [left; reflexivity|intros y [<-|[]]; lia]|].
  destruct (IH (N.max a x)) as [[H|H] G].
  - split; [rewrite <- H; destruct (N.max_dec a x) as [E|E]; rewrite E; cbn; auto|].
    intros y [<-|[<-|Hy]]; [| |apply G; right; exact Hy]; rewrite <- H; lia.
  - split; [right; right; exact H|]. pose proof (G _ (or_introl eq_refl)).
    intros y [<-|[<-|Hy]]; [lia|lia|apply G; right; exact Hy].
Qed.
Lemma foldmin_R (l : list R) : forall a, least_R (a :: l) (fold_left Rmin l a).
Proof.
  induction l as [|x l IH]; intros a; cbn [fold_left]; [split; [left; reflexivity|intros y [<-|[]]; lra]|].
  pose proof (Rmin_l a x). pose proof (Rmin_r a x). destruct (IH (Rmin a x)) as [[E|E] G].
  - split; [|intros y [<-|[<-|Hy]]; [rewrite <- E; lra|rewrite <- E; lra|apply G; right; exact Hy]].
    rewrite <- E. unfold Rmin. destruct (Rle_dec a x); cbn; auto.
  - split; [right; right; exact E|]. pose proof (G _ (or_introl eq_refl)). intros y [<-|[<-|Hy]]; [lra|lra|apply G; right; exact Hy].
Qed.
Lemma foldmax_R (l : list R) : forall a, greatest_R (a :: l) (fold_left Rmax l a).
Proof.
  induction l as [|x l IH]; intros a; cbn [fold_left]; [split; [left; reflexivity|intros y [<-|[]]; lra]|].
  pose proof (Rmax_l a x). pose proof (Rmax_r a x). destruct (IH (Rmax a x)) as [[E|E] G].
  - split; [|intros y [<-|[<-|Hy]]; [rewrite <- E; lra|rewrite <- E; lra|apply G; right; exact Hy]].
    rewrite <- E. unfold Rmax. destruct (Rle_dec a x); cbn; auto.
  - split; [right; right; exact E|]. pose proof (G _ (or_introl eq_refl)). intros y [<-|[<-|Hy]]; [lra|lra|apply G; right; exact Hy].
Qed.
Lemma foldsum_N (l : list N) : forall a, fold_left N.add l a = (a + sum_N l)%N.
Proof. induction l as [|x l IH]; intros a; cbn; [lia|rewrite IH; lia]. Qed.
Lemma foldsum_R (l : list R) : forall a, fold_left Rplus l a = a + sum_R l.
Proof. induction l as [|x l IH]; intros a; cbn; [lra|rewrite IH; lra]. Qed.
Lemma sum_N_app l r : sum_N (l ++ r) = (sum_N l + sum_N r)%N.
Proof. induction l as [|x l IH]; cbn; [lia|rewrite IH; lia]. Qed.
Lemma sum_R_app l r : sum_R (l ++ r) = sum_R l + sum_R r.
Proof. induction l as [|x l IH]; cbn; [lra|rewrite IH; lra]. Qed.
Lemma fold_f_map {A B C} (f : C -> B -> C) (g : A -> B) l : forall a, fold_left (fun s x => f s (g x)) l a = fold_left f (map g l) a.
Proof. induction l as [|x l IH]; intros a; cbn; auto. Qed.
Lemma fold_ext {A B} (f g : B -> A -> B) l : (forall s x, f s x = g s x) -> forall a, fold_left f l a = fold_left g l a.
Proof. intros H. induction l as [|x l IH]; intros a; cbn; [reflexivity|rewrite H; apply IH]. Qed.

(** reductions over non-empty lists *)
Lemma allr_min_N d l : l <> [] -> least_N l (allr N.min d l).
Proof. destruct l as [|x l]; [congruence|]. intros _. apply foldmin_N. Qed.
Lemma allr_max_N d l : l <> [] -> greatest_N l (allr N.max d l).
Proof. destruct l as [|x l]; [congruence|]. intros _. apply foldmax_N. Qed.
Lemma allr_min_R d l : l <> [] -> least_R l (allr Rmin d l).
Proof. destruct l as [|x l]; [congruence|]. intros _. apply foldmin_R. Qed.
Lemma allr_max_R d l : l <> [] -> greatest_R l (allr Rmax d l).
Proof. destruct l as [|x l]; [congruence|]. intros _. apply foldmax_R. Qed.
Lemma allr_sum_N l : allr N.add 0%N l = sum_N l.
Proof. destruct l as [|x l]; [reflexivity|]. cbn. apply foldsum_N. Qed.
Lemma allr_sum_R l : allr Rplus 0 l = sum_R l.
Proof. destruct l as [|x l]; [reflexivity|]. cbn. apply foldsum_R. Qed.

Lemma omap_some {A B} (f : A -> option B) l l' : omap f l = Some l' -> Forall2 (fun x y => f x = Some y) l l'.
Proof.
  revert l'. induction l as [|a l IH]; intros l' H; cbn in H; [injection H as <-; constructor|].
  destruct (f a) as [x|] eqn:E; [|discriminate]. cbn in H. destruct (omap f l) as [y|]; [|discriminate]. injection H as <-. constructor; auto.
Qed.
Lemma omap_all {A B} (f : A -> option B) l : (forall x, In x l -> f x <> None) -> exists l', omap f l = Some l'.
Proof.
  induction l as [|a l IH]; intros H; [exists []; reflexivity|]. cbn. destruct (f a) as [x|] eqn:E; [|exfalso; apply (H a (or_introl eq_refl) E)].
  destruct IH as (l' & ->); [intros; apply H; right; assumption|]. eexists. reflexivity.
Qed.
Lemma combine_fst {A B} (l : list A) (r : list B) : length l = length r -> map fst (combine l r) = l.
Proof. revert r. induction l as [|a l IH]; intros [|b r] H; cbn in *; try discriminate; [reflexivity|]. f_equal. apply IH. lia. Qed.
Lemma combine_snd {A B} (l : list A) (r : list B) : length l = length r -> map snd (combine l r) = r.
Proof. revert r. induction l as [|a l IH]; intros [|b r] H; cbn in *; try discriminate; [reflexivity|]. f_equal. apply IH. lia. Qed.

(** least and greatest over ranks *)
Definition extreme {A} (le : A -> A -> Prop) (l : list A) (x : A) : Prop := In x l /\ forall y, In y l -> le x y.
Lemma extreme_concat {A} (le : A -> A -> Prop) : (forall x y z, le x y -> le y z -> le x z) ->
  forall ls ms, Forall2 (extreme le) ls ms -> forall x, extreme le ms x -> extreme le (concat ls) x.
Proof.
  intros Htr ls ms H x [Hx G]. split.
  - clear G. induction H as [|l m ls ms Hl H IH]; [destruct Hx|]. destruct Hx as [->|Hx]; apply in_or_app; [left; apply Hl|right; auto].
  - intros y Hy. apply in_concat in Hy. destruct Hy as (l & Hl & Hy).
    assert (exists m, In m ms /\ extreme le l m) as (m & Hm & Lm).
    { clear - H Hl. induction H as [|l0 m ls ms Hl0 H IH]; [destruct Hl|]. destruct Hl as [->|Hl]; [exists m; split; [left; reflexivity|assumption]|].
      destruct (IH Hl) as (m' & ? & ?). exists m'. split; [right|]; assumption. }
    specialize (G m Hm). apply Lm in Hy. eauto.
Qed.
Lemma Forall2_map_r {A B} (P : A -> B -> Prop) (f : A -> B) l : (forall x, In x l -> P x (f x)) -> Forall2 P l (map f l).
Proof. induction l as [|x l IH]; intros H; cbn; constructor; [apply H; left; reflexivity|apply IH; intros; apply H; right; assumption]. Qed.
Lemma concat_map_map {A B} (f : A -> B) ls : concat (map (map f) ls) = map f (concat ls).
Proof. induction ls as [|l ls IH]; cbn; [reflexivity|rewrite map_app, IH; reflexivity]. Qed.
Lemma sum_concat_N (ls : list (list N)) : sum_N (map sum_N ls) = sum_N (concat ls).
Proof. induction ls as [|l ls IH]; cbn; [reflexivity|rewrite sum_N_app, IH; reflexivity]. Qed.
Lemma sum_concat_R (ls : list (list R)) : sum_R (map sum_R ls) = sum_R (concat ls).
Proof. induction ls as [|l ls IH]; cbn; [reflexivity|rewrite sum_R_app, IH; reflexivity]. Qed.

(** ** one call *)
Definition nbs (c : dcall) : list N := map db_nb (everyone c).
Definition hs (c : dcall) : list R := map db_h (everyone c).
Definition speeds (n : nat) (bs : list dbody) : list R := map (fun b => norm n (db_vel b)) bs.
Definition count (c : dcall) : R := INR (length (everyone c)).
(** what a written row is; [mx]: the maximum so far *)
Record row_ok (n : nat) (mx : N) (c : dcall) (g : dglob) : Prop := {
  ro_min : least_N (nbs c) (g_Nmin g);
  ro_max : greatest_N (mx :: nbs c) (g_Nmax g);
  ro_avg : g_Navg g = (sum_N (nbs c) / N.of_nat (length (everyone c)))%N;
  ro_zero : g_ghosts g = 0%N /\ g_mind g = 0 /\ g_avgd g = 0;
  ro_hmin : least_R (dbl_max :: hs c) (g_hmin g);
  ro_hmax : greatest_R (dbl_min :: hs c) (g_hmax g);
  ro_havg : g_havg g = sum_R (hs c) / count c;
  ro_vmin : least_R (dbl_max :: speeds n (hd [] (dc_ranks c))) (g_vmin g);
  ro_vmax : greatest_R (dbl_min :: speeds n (hd [] (dc_ranks c))) (g_vmax g);
  ro_vavg : g_vavg g = sum_R (speeds n (hd [] (dc_ranks c))) / count c }.
Definition inv (size : nat) (mx : N) (first : bool) (gs : list dglob) : Prop :=
  length gs = size /\ Forall (fun g => g_Nmax g = mx /\ g_ghosts g = 0%N /\ g_mind g = 0 /\ g_avgd g = 0) gs /\ option_map g_first (hd_error gs) = Some first.
Lemma zero_sum l : Forall (fun x => x = 0) l -> sum_R l = 0.
Proof. induction 1 as [|x l E _ IH]; cbn; [reflexivity|lra]. Qed.
Lemma extreme_zero {A} (le : A -> A -> Prop) l x z : Forall (fun y => y = z) l -> extreme le l x -> x = z.
Proof. intros H [Hx _]. rewrite Forall_forall in H. auto. Qed.
Lemma extreme_ext {A} (le : A -> A -> Prop) l l' x : (forall y, In y l <-> In y l') -> extreme le l x -> extreme le l' x.
Proof. intros H [H1 H2]. split; [apply H; exact H1|intros y Hy; apply H2, H, Hy]. Qed.
Lemma in_start {A} (d : A) (ls : list (list A)) : ls <> [] -> forall y, In y (concat (map (cons d) ls)) <-> In y (d :: concat ls).
Proof.
  intros Hne y. split.
  - intros H. apply in_concat in H. destruct H as (l & Hl & Hy). apply in_map_iff in Hl. destruct Hl as (l0 & <- & Hl0).
    destruct Hy as [->|Hy]; [left; reflexivity|right; apply in_concat; exists l0; auto].
  - intros [<-|H].
    + destruct ls as [|l ls]; [congruence|]. left. reflexivity.
    + apply in_concat in H. destruct H as (l & Hl & Hy). apply in_concat. exists (d :: l). split; [apply in_map; exact Hl|right; exact Hy].
Qed.
(** a reduction of local folds started with the same value *)
Lemma reduced {A} (le : A -> A -> Prop) (op : A -> A -> A) (d0 d : A) :
  (forall x y z, le x y -> le y z -> le x z) -> (forall l, l <> [] -> extreme le l (allr op d0 l)) ->
  forall (f : list dbody -> A) (v : list dbody -> list A) ranks, ranks <> [] -> (forall bs, In bs ranks -> extreme le (d :: v bs) (f bs)) ->
  (forall l, v (concat l) = concat (map v l)) -> extreme le (d :: v (concat ranks)) (allr op d0 (map f ranks)).
Proof.
  intros Htr Hop f v ranks Hne Hf Hv. rewrite Hv. apply (extreme_ext le (concat (map (cons d) (map v ranks)))).
  - apply in_start. destruct ranks; [congruence|discriminate].
  - apply (extreme_concat le Htr _ (map f ranks)); [|apply Hop; destruct ranks; [congruence|discriminate]].
    rewrite map_map. clear Hne. induction ranks as [|b r IH]; cbn; constructor; [apply Hf; left; reflexivity|apply IH; intros; apply Hf; right; assumption].
Qed.
Lemma map_concat {A B} (f : A -> B) l : map f (concat l) = concat (map (map f) l).
Proof. symmetry. apply concat_map_map. Qed.
Lemma Ntrans x y z : (x <= y -> y <= z -> x <= z)%N. Proof. lia. Qed.
Lemma Ntrans' x y z : (y <= x -> z <= y -> z <= x)%N. Proof. lia. Qed.
Lemma Rtrans' x y z : y <= x -> z <= y -> z <= x. Proof. lra. Qed.
Lemma Rtrans x y z : x <= y -> y <= z -> x <= z. Proof. lra. Qed.
Lemma map_fst_combine {A B C} (f : A -> C) (l : list A) (r : list B) : length l = length r -> map (fun x => f (fst x)) (combine l r) = map f l.
Proof. intros H. rewrite <- (map_map fst f). f_equal. apply combine_fst. exact H. Qed.
Lemma map_snd_combine {A B C} (f : B -> C) (l : list A) (r : list B) : length l = length r -> map (fun x => f (snd x)) (combine l r) = map f r.
Proof. intros H. rewrite <- (map_map snd f). f_equal. apply combine_snd. exact H. Qed.

Section Call.
Variables (n size : nat) (every : Z) (mx : N) (first : bool) (gs : list dglob) (file : list dline) (c : dcall).
Notation ranks := (dc_ranks c).
Notation total := (ntotal ranks).
Hypothesis Hsize : (1 <= size)%nat.
Hypothesis Hinv : inv size mx first gs.
Hypothesis Hlen : length ranks = size.
Hypothesis Hne : forall bs, In bs ranks -> bs <> [].

Lemma ranks_ne : ranks <> [].
Proof using Hsize Hlen. intros E. rewrite E in Hlen. cbn in Hlen. lia. Qed.
Lemma total_pos : total <> 0%N.
Proof using Hsize Hlen Hne.
  pose proof ranks_ne as Hr. unfold ntotal. destruct ranks as [|b r]; [congruence|]. pose proof (Hne b (or_introl eq_refl)).
  destruct b; [congruence|]. cbn. lia.
Qed.
Definition rank_min (bs : list dbody) : N := match bs with [] => 0%N | b :: _ => fold_left (fun s b => N.min s (db_nb b)) bs (db_nb b) end.
Definition rank_max (bs : list dbody) : N := fold_left (fun s b => N.max s (db_nb b)) bs mx.
Definition rank_sum (bs : list dbody) : N := fold_left (fun s b => s + db_nb b)%N bs 0%N.
Lemma locals : omap (fun x => nb_local (fst x) (snd x)) (combine gs ranks) = Some (map (fun bs => (rank_min bs, rank_max bs, rank_sum bs)) ranks).
Proof using Hsize Hinv Hlen Hne.
  destruct Hinv as (Hl & HF & _). rewrite <- Hlen in Hl. clear Hinv Hlen.
  revert Hl HF Hne. generalize ranks. induction gs as [|g l IH]; intros [|b r] Hl HF Hne; cbn in Hl; try discriminate; [reflexivity|].
  inversion HF as [|? ? (Em & _) HF']; subst. cbn [combine omap fst snd]. unfold nb_local at 1. destruct b as [|b0 b]; [exfalso; apply (Hne [] (or_introl eq_refl)); reflexivity|].
  rewrite IH; [|lia|exact HF'|intros; apply Hne; right; assumption]. rewrite Em. reflexivity.
Qed.
Lemma red_min : least_N (nbs c) (allr N.min 0%N (map rank_min ranks)).
Proof using Hsize Hlen Hne.
  unfold nbs, everyone. rewrite map_concat. apply (extreme_concat N.le Ntrans _ (map rank_min ranks)).
  - assert (G : forall r, (forall bs, In bs r -> bs <> []) -> Forall2 (extreme N.le) (map (map db_nb) r) (map rank_min r)).
    { induction r as [|b r IH]; intros H; cbn; constructor; [|apply IH; intros; apply H; right; assumption].
      destruct b as [|b0 b]; [exfalso; apply (H [] (or_introl eq_refl)); reflexivity|]. unfold rank_min. rewrite (fold_f_map N.min).
      eapply extreme_ext; [|apply foldmin_N]. intros y. cbn. tauto. }
    apply G, Hne.
  - apply allr_min_N. pose proof ranks_ne. destruct ranks; [congruence|discriminate].
Qed.
Lemma red_max : greatest_N (mx :: nbs c) (allr N.max 0%N (map rank_max ranks)).
Proof using Hsize Hlen.
  unfold nbs, everyone. apply (reduced (fun x y => N.le y x) N.max 0%N mx Ntrans' (allr_max_N 0%N) rank_max (map db_nb)); [apply ranks_ne| |apply map_concat].
  intros bs _. unfold rank_max. rewrite (fold_f_map N.max). apply foldmax_N.
Qed.
Lemma red_sum : allr N.add 0%N (map rank_sum ranks) = sum_N (nbs c).
Proof using.
  rewrite allr_sum_N. unfold nbs, everyone. rewrite map_concat, <- sum_concat_N, map_map. f_equal. apply map_ext. intros bs.
  unfold rank_sum. rewrite (fold_f_map N.add). rewrite foldsum_N. reflexivity.
Qed.
Lemma neighbors_ok : exists gs1, neighbors_stats total (combine gs ranks) = Some gs1 /\ inv size (allr N.max 0%N (map rank_max ranks)) first gs1 /\
  Forall (fun g => g_Nmin g = allr N.min 0%N (map rank_min ranks) /\ g_Navg g = (sum_N (nbs c) / total)%N) gs1.
Proof using Hsize Hinv Hlen Hne.
  unfold neighbors_stats. rewrite (proj2 (N.eqb_neq _ _) total_pos), locals. cbn [map]. eexists. split; [reflexivity|].
  destruct Hinv as (Hl & HF & Hf). assert (EL : length gs = length ranks) by lia.
  rewrite !map_map. cbn [fst snd]. rewrite (map_fst_combine g_mind _ _ EL), (map_fst_combine g_avgd _ _ EL), (map_fst_combine g_ghosts _ _ EL).
  fold (rank_sum). assert (gne : gs <> []) by (intros E; rewrite E in Hl; cbn in Hl; lia).
  assert (Z1 : allr Rmin 0 (map g_mind gs) = 0).
  { apply (extreme_zero Rle (map g_mind gs)); [|apply allr_min_R; destruct gs; [congruence|discriminate]].
    apply Forall_map. eapply Forall_impl; [|exact HF]. cbn. tauto. }
  assert (Z2 : allr Rplus 0 (map g_avgd gs) = 0).
  { rewrite allr_sum_R. apply zero_sum. apply Forall_map. eapply Forall_impl; [|exact HF]. cbn. tauto. }
  assert (Z3 : allr N.max 0%N (map g_ghosts gs) = 0%N).
  { apply (extreme_zero (fun x y => N.le y x) (map g_ghosts gs)); [|apply allr_max_N; destruct gs; [congruence|discriminate]].
    apply Forall_map. eapply Forall_impl; [|exact HF]. cbn. tauto. }
  rewrite Z1, Z2, Z3. split; [split; [|split]|].
  - rewrite map_length, combine_length. lia.
  - apply Forall_map, Forall_forall. intros x _. cbn. repeat split; try reflexivity. unfold Rdiv. apply Rmult_0_l.
  - destruct gs as [|g l]; [congruence|]. destruct ranks as [|b r]; [discriminate|]. cbn in Hf |- *. exact Hf.
  - apply Forall_map, Forall_forall. intros x _. cbn. rewrite <- red_sum. split; reflexivity.
Qed.
Lemma fold_min_fun l : forall a, fold_left (fun s h => Rmin h s) l a = fold_left Rmin l a.
Proof using. apply fold_ext. intros. apply Rmin_comm. Qed.
Lemma fold_max_fun l : forall a, fold_left (fun s h => Rmax h s) l a = fold_left Rmax l a.
Proof using. apply fold_ext. intros. apply Rmax_comm. Qed.
Lemma row_written gs3 g r : neighbors_stats total (combine gs ranks) <> None ->
  (forall gs1, neighbors_stats total (combine gs ranks) = Some gs1 -> gs3 = v_stats n total (combine (h_stats total (combine gs1 ranks)) ranks)) ->
  gs3 = g :: r -> row_ok n mx c g /\ g_first g = first /\ exists mx', greatest_N (mx :: nbs c) mx' /\ inv size mx' false (set_first g :: r).
Proof using Hsize Hinv Hlen Hne.
  intros _ E3 E. destruct neighbors_ok as (gs1 & E1 & (L1 & F1 & H1) & F1'). specialize (E3 gs1 E1). rewrite E3 in E. clear E3 E1 gs3.
  assert (Hc : INR (N.to_nat total) = count c) by (unfold ntotal, count, everyone; rewrite Nat2N.id; reflexivity).
  pose proof red_min as Rmn. pose proof red_max as Rmx.
  set (mn := allr N.min 0%N (map rank_min ranks)) in *. set (mx' := allr N.max 0%N (map rank_max ranks)) in *.
  unfold h_stats, v_stats in E. assert (EL : length gs1 = length ranks) by lia.
  rewrite (map_snd_combine (fun bs => fold_left (fun s h => Rmin h s) (map db_h bs) dbl_max) _ _ EL),
    (map_snd_combine (fun bs => fold_left (fun s h => Rmax h s) (map db_h bs) dbl_min) _ _ EL),
    (map_snd_combine (fun bs => fold_left Rplus (map db_h bs) 0) _ _ EL) in E. rewrite Hc in E.
  assert (M1 : least_R (dbl_max :: hs c) (allr Rmin 0 (map (fun bs => fold_left (fun s h => Rmin h s) (map db_h bs) dbl_max) ranks))).
  { unfold hs, everyone. apply (reduced Rle Rmin 0 dbl_max Rtrans (allr_min_R 0) (fun bs => fold_left (fun s h => Rmin h s) (map db_h bs) dbl_max) (map db_h));
      [apply ranks_ne| |apply map_concat]. intros bs _. rewrite fold_min_fun. apply foldmin_R. }
  assert (M2 : greatest_R (dbl_min :: hs c) (allr Rmax 0 (map (fun bs => fold_left (fun s h => Rmax h s) (map db_h bs) dbl_min) ranks))).
  { unfold hs, everyone. apply (reduced (fun x y => Rle y x) Rmax 0 dbl_min Rtrans' (allr_max_R 0) (fun bs => fold_left (fun s h => Rmax h s) (map db_h bs) dbl_min) (map db_h));
      [apply ranks_ne| |apply map_concat]. intros bs _. rewrite fold_max_fun. apply foldmax_R. }
  assert (M3 : allr Rplus 0 (map (fun bs => fold_left Rplus (map db_h bs) 0) ranks) = sum_R (hs c)).
  { rewrite allr_sum_R. unfold hs, everyone. rewrite map_concat, <- sum_concat_R, map_map. f_equal. apply map_ext. intros bs. rewrite foldsum_R. lra. }
  rewrite M3 in E.
  set (hm := allr Rmin 0 _) in *. set (hM := allr Rmax 0 _) in *. clearbody hm hM mn mx'.
  destruct gs1 as [|g1 l1]; [cbn in L1; lia|]. destruct ranks as [|b0 rk] eqn:ER; [cbn in EL; lia|].
  cbn [combine map fst snd] in E. injection E as <- <-.
  inversion F1 as [|? ? (A1 & A2 & A3 & A4) F2]; subst. inversion F1' as [|? ? (B1 & B2) _]; subst. cbn in H1. injection H1 as H1.
  split; [constructor; cbn [g_Nmin g_Nmax g_Navg g_ghosts g_hmin g_hmax g_havg g_mind g_avgd g_vmin g_vmax g_vavg]|].
  - exact Rmn.
  - exact Rmx.
  - rewrite B2. unfold ntotal, everyone. rewrite ER. reflexivity.
  - auto.
  - exact M1.
  - exact M2.
  - reflexivity.
  - rewrite ER. cbn [hd]. rewrite fold_min_fun. apply foldmin_R.
  - rewrite ER. cbn [hd]. rewrite fold_max_fun. apply foldmax_R.
  - rewrite ER. cbn [hd]. rewrite foldsum_R. unfold speeds. rewrite Rplus_0_l. reflexivity.
  - split; [exact H1|]. eexists. split; [exact Rmx|]. split; [|split].
    + cbn [length] in *. rewrite map_length, combine_length, map_length, combine_length. lia.
    + constructor; [cbn; auto|]. apply Forall_map, Forall_forall. intros (g' & b') Hin. apply in_combine_l in Hin. apply in_map_iff in Hin.
      destruct Hin as ((g'' & b'') & <- & Hin). apply in_combine_l in Hin. rewrite Forall_forall in F2. cbn. apply F2, Hin.
    + reflexivity.
Qed.
Lemma output_due : due every c = true -> exists g gs', output n every c (gs, file) = Some (gs', (if first then [DHeader] else file) ++ [DRow (dc_iter c) (dc_time c) g]) /\
  row_ok n mx c g /\ exists mx', greatest_N (mx :: nbs c) mx' /\ inv size mx' false gs'.
Proof using Hsize Hinv Hlen Hne.
  intros Hd. unfold output. rewrite Hd. cbn [negb]. destruct neighbors_ok as (gs1 & E1 & (L1 & _) & _). rewrite E1.
  remember (v_stats n total (combine (h_stats total (combine gs1 ranks)) ranks)) as gs3 eqn:E3.
  assert (L3 : length gs3 = size).
  { rewrite E3. unfold v_stats, h_stats. rewrite map_length, combine_length, map_length, combine_length. lia. }
  destruct gs3 as [|g r]; [cbn in L3; lia|].
  destruct (row_written (g :: r) g r) as (R & F & mx' & G & I); [congruence|intros gs1' E; rewrite E1 in E; injection E as <-; exact E3|reflexivity|].
  exists g, (set_first g :: r). rewrite F. split; [reflexivity|]. split; [exact R|]. exists mx'. auto.
Qed.
End Call.

(** ** a run *)
Lemma greatest_fold (l r : list N) a m m' : greatest_N (a :: l) m -> greatest_N (m :: r) m' -> greatest_N (a :: l ++ r) m'.
Proof.
  intros [H1 H2] [G1 G2]. split.
  - destruct G1 as [<-|G1]; [|right; apply in_or_app; right; exact G1]. destruct H1 as [<-|H1]; [left; reflexivity|right; apply in_or_app; left; exact H1].
  - pose proof (G2 m (or_introl eq_refl)). intros y [<-|Hy]; [specialize (H2 a (or_introl eq_refl)); lia|]. apply in_app_or in Hy.
    destruct Hy as [Hy|Hy]; [specialize (H2 y (or_intror Hy)); lia|apply G2; right; exact Hy].
Qed.
Lemma outputs_ok n size every cs : settled size every cs -> forall mx first gs file, inv size mx first gs ->
  exists gs' rows, outputs n every cs (gs, file) = Some (gs', (if first && negb (length (dues every cs) =? 0)%nat then [DHeader] else file) ++ rows) /\
    length rows = length (dues every cs) /\
    forall k c, nth_error (dues every cs) k = Some c -> exists g m, nth_error rows k = Some (DRow (dc_iter c) (dc_time c) g) /\
      greatest_N (mx :: flat_map nbs (firstn k (dues every cs))) m /\ row_ok n m c g.
Proof.
  intros [Hsize Hset]. induction cs as [|c cs IH]; intros mx first gs file Hinv.
  - exists gs, []. cbn. rewrite andb_false_r, app_nil_r. split; [reflexivity|]. split; [reflexivity|]. intros [|k] c H; discriminate.
  - cbn [outputs]. unfold dues in *. cbn [filter] in *. destruct (due every c) eqn:Ed.
    + destruct (Hset c (or_introl eq_refl)) as [Hlen Hne].
      destruct (output_due n size every mx first gs file c Hsize Hinv Hlen Hne Ed) as (g & gs' & E & R & mx' & G & I). rewrite E.
      destruct (IH (fun c' Hc' => Hset c' (or_intror Hc')) mx' false gs' ((if first then [DHeader] else file) ++ [DRow (dc_iter c) (dc_time c) g]) I) as (gs2 & rows & E2 & L2 & K2). rewrite E2.
      exists gs2, (DRow (dc_iter c) (dc_time c) g :: rows). cbn [length Nat.eqb negb andb].
      split; [rewrite andb_true_r, <- app_assoc; reflexivity|]. split; [rewrite L2; reflexivity|].
      intros [|k] c' H; cbn [nth_error firstn flat_map] in *.
      * injection H as <-. exists g, mx. split; [reflexivity|]. split; [|exact R]. split; [left; reflexivity|intros y [<-|[]]; lia].
      * destruct (K2 k c' H) as (g' & m & H1 & H2 & H3). exists g', m. split; [exact H1|]. split; [|exact H3]. exact (greatest_fold _ _ _ _ _ G H2).
    + unfold output. rewrite Ed. cbn [negb]. apply IH; assumption.
Qed.
Lemma inv0 size : (1 <= size)%nat -> inv size 0 true (repeat glob0 size).
Proof.
  intros H. split; [apply repeat_length|]. split.
  - apply Forall_forall. intros g Hg. apply repeat_spec in Hg. subst g. cbn. auto.
  - destruct size; [lia|]. reflexivity.
Qed.
Lemma run_ok n size every cs file : settled size every cs -> exists rows,
  run n every size cs file = Some ((if (length (dues every cs) =? 0)%nat then file else [DHeader]) ++ rows) /\ length rows = length (dues every cs) /\
  forall k c, nth_error (dues every cs) k = Some c -> exists g m, nth_error rows k = Some (DRow (dc_iter c) (dc_time c) g) /\
      greatest_N (0%N :: flat_map nbs (firstn k (dues every cs))) m /\ row_ok n m c g.
Proof.
  intros H. destruct (outputs_ok n size every cs H 0%N true (repeat glob0 size) file (inv0 size (proj1 H))) as (gs' & rows & E & L & K).
  exists rows. unfold run. rewrite E. cbn [snd andb]. split; [|auto]. destruct (length (dues every cs) =? 0)%nat; reflexivity.
Qed.
