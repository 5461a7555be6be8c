(** Property C92: the printed statistics. *)
From Coq Require Import Reals Lra.
From Verif Require Import Base BuildTree_model Vec Cofm_model Diag_model Diag_spec Diag_proofs.
Local Open Scope R_scope.

(** A line is written at the multiples of a positive frequency. *)
Theorem C92_due every c : due every c = true <-> (0 < every)%Z /\ (every | dc_iter c)%Z.
Proof.
  unfold due. rewrite negb_true_iff, orb_false_iff, negb_false_iff, Z.leb_gt, Z.eqb_eq. split; intros [H1 H2]; (split; [exact H1|]).
  - apply Z.rem_divide; [lia|exact H2].
  - apply Z.rem_divide; [lia|exact H2].
Qed.
(** The file of a run is the header and one line for each of these calls, in order. *)
Theorem C92_lines n size every cs file : settled size every cs -> dues every cs <> [] ->
  exists f, run n every size cs file = Some f /\ hd_error f = Some DHeader /\ length f = S (length (dues every cs)) /\
    forall k c, nth_error (dues every cs) k = Some c -> exists g, nth_error f (S k) = Some (DRow (dc_iter c) (dc_time c) g).
Proof.
  intros Hs Hd. destruct (run_ok n size every cs file Hs) as (rows & E & L & K).
  replace (length (dues every cs) =? 0)%nat with false in E by (destruct (dues every cs); [congruence|reflexivity]).
  eexists. split; [exact E|]. split; [reflexivity|]. split; [cbn; rewrite L; reflexivity|].
  intros k c H. destruct (K k c H) as (g & m & H1 & _). exists g. exact H1.
Qed.
(** Without such a call the file is not touched. *)
Theorem C92_silent n size every cs file : settled size every cs -> dues every cs = [] -> run n every size cs file = Some file.
Proof.
  intros Hs Hd. destruct (run_ok n size every cs file Hs) as (rows & E & L & _). rewrite Hd in *. cbn in *. destruct rows; [|discriminate].
  rewrite app_nil_r in E. exact E.
Qed.

Lemma the_row n size every cs file f k c it t g : settled size every cs -> run n every size cs file = Some f ->
  nth_error (dues every cs) k = Some c -> nth_error f (S k) = Some (DRow it t g) ->
  exists m, greatest_N (0%N :: flat_map nbs (firstn k (dues every cs))) m /\ row_ok n m c g.
Proof.
  intros Hs E Hk Hg. destruct (run_ok n size every cs file Hs) as (rows & E' & L & K). rewrite E in E'. injection E' as ->.
  destruct (dues every cs) as [|c0 l] eqn:Ed; [destruct k; discriminate|]. cbn [length Nat.eqb app nth_error] in Hg.
  destruct (K k c Hk) as (g' & m & H1 & H2 & H3). rewrite Hg in H1. injection H1 as _ _ ->. exists m. auto.
Qed.

(** Columns 6 and 8: the least number of neighbours of all particles and the integer
    part of the mean.  Column 7: the largest number of this and all earlier lines. *)
Theorem C92_neighbours n size every cs file f k c it t g : settled size every cs -> run n every size cs file = Some f ->
  nth_error (dues every cs) k = Some c -> nth_error f (S k) = Some (DRow it t g) ->
  least_N (map db_nb (everyone c)) (g_Nmin g) /\
  greatest_N (flat_map (fun c => map db_nb (everyone c)) (firstn (S k) (dues every cs))) (g_Nmax g) /\
  (g_Navg g * N.of_nat (length (everyone c)) <= sum_N (map db_nb (everyone c)) < (g_Navg g + 1) * N.of_nat (length (everyone c)))%N.
Proof.
  intros Hs E Hk Hg. destruct (the_row n size every cs file f k c it t g Hs E Hk Hg) as (m & Hm & R).
  assert (Hne : everyone c <> []).
  { destruct Hs as [Hs1 Hs2]. destruct (Hs2 c (nth_error_In _ _ Hk)) as [H1 H2]. unfold everyone. destruct (dc_ranks c) as [|b r]; [cbn in H1; lia|].
    pose proof (H2 b (or_introl eq_refl)). destruct b; [congruence|discriminate]. }
  split; [apply (ro_min _ _ _ _ R)|]. split.
  - assert (Ef : firstn (S k) (dues every cs) = firstn k (dues every cs) ++ [c]).
    { clear - Hk. revert k Hk. induction (dues every cs) as [|x l IH]; intros [|k] Hk; cbn in Hk; try discriminate; [injection Hk as ->; reflexivity|].
      cbn [firstn app]. f_equal. apply IH, Hk. }
    rewrite Ef, flat_map_app. cbn [flat_map]. rewrite app_nil_r. pose proof (greatest_fold _ _ _ _ _ Hm (ro_max _ _ _ _ R)) as [G1 G2].
    split; [|intros y Hy; apply G2; right; exact Hy]. destruct G1 as [G1|G1]; [|exact G1]. rewrite <- G1.
    (* a maximum of 0 is attained by the particles of this call *)
    unfold everyone in *. destruct (concat (dc_ranks c)) as [|b r] eqn:Eb; [congruence|]. apply in_or_app. right. left.
    assert (H : (db_nb b <= g_Nmax g)%N) by (apply G2; right; apply in_or_app; right; unfold nbs, everyone; rewrite Eb; left; reflexivity). lia.
  - rewrite (ro_avg _ _ _ _ R). unfold nbs. set (N0 := N.of_nat (length (everyone c))). assert (N0 <> 0%N) by (unfold N0; destruct (everyone c); [congruence|discriminate]).
    set (s := sum_N _). pose proof (N.div_mod s N0 H). pose proof (N.mod_lt s N0 H). split; nia.
Qed.
(** Columns 3 to 5: the smoothing lengths of all particles. *)
Theorem C92_smoothing n size every cs file f k c it t g : settled size every cs -> run n every size cs file = Some f ->
  nth_error (dues every cs) k = Some c -> nth_error f (S k) = Some (DRow it t g) ->
  (forall b, In b (everyone c) -> dbl_min <= db_h b <= dbl_max) ->
  least_R (map db_h (everyone c)) (g_hmin g) /\ greatest_R (map db_h (everyone c)) (g_hmax g) /\
  g_havg g * INR (length (everyone c)) = sum_R (map db_h (everyone c)).
Proof.
  intros Hs E Hk Hg Hh. destruct (the_row n size every cs file f k c it t g Hs E Hk Hg) as (m & Hm & R).
  assert (Hne : everyone c <> []).
  { destruct Hs as [Hs1 Hs2]. destruct (Hs2 c (nth_error_In _ _ Hk)) as [H1 H2]. unfold everyone. destruct (dc_ranks c) as [|b r]; [cbn in H1; lia|].
    pose proof (H2 b (or_introl eq_refl)). destruct b; [congruence|discriminate]. }
  destruct (everyone c) as [|b0 l0] eqn:Eb; [congruence|]. rewrite <- Eb in *. assert (Hb0 : In b0 (everyone c)) by (rewrite Eb; left; reflexivity).
  destruct (ro_hmin _ _ _ _ R) as [A1 A2]. destruct (ro_hmax _ _ _ _ R) as [B1 B2]. unfold hs in *. pose proof (Hh b0 Hb0) as H0.
  pose proof (in_map db_h _ _ Hb0) as I0. split; [|split].
  - split; [|intros y Hy; apply A2; right; exact Hy]. destruct A1 as [A1|A1]; [|exact A1]. pose proof (A2 _ (or_intror I0)).
    replace (g_hmin g) with (db_h b0) by lra. exact I0.
  - split; [|intros y Hy; apply B2; right; exact Hy]. destruct B1 as [B1|B1]; [|exact B1]. pose proof (B2 _ (or_intror I0)).
    replace (g_hmax g) with (db_h b0) by lra. exact I0.
  - rewrite (ro_havg _ _ _ _ R). unfold hs, count. field. apply not_0_INR. rewrite Eb. discriminate.
Qed.
(** Columns 9, 10 and 14 are zero: nothing sets them. *)
Theorem C92_unset n size every cs file f k c it t g : settled size every cs -> run n every size cs file = Some f ->
  nth_error (dues every cs) k = Some c -> nth_error f (S k) = Some (DRow it t g) -> g_mind g = 0 /\ g_avgd g = 0 /\ g_ghosts g = 0%N.
Proof.
  intros Hs E Hk Hg. destruct (the_row n size every cs file f k c it t g Hs E Hk Hg) as (m & Hm & R). destruct (ro_zero _ _ _ _ R) as (? & ? & ?). auto.
Qed.
(** Columns 11 to 13 on one process: the speeds of all particles, when they are normal numbers. *)
Theorem C92_speed_partial n every cs file f k c it t g : settled 1 every cs -> run n every 1 cs file = Some f ->
  nth_error (dues every cs) k = Some c -> nth_error f (S k) = Some (DRow it t g) ->
  (forall b, In b (everyone c) -> dbl_min <= norm n (db_vel b) <= dbl_max) ->
  least_R (map (fun b => norm n (db_vel b)) (everyone c)) (g_vmin g) /\ greatest_R (map (fun b => norm n (db_vel b)) (everyone c)) (g_vmax g) /\
  g_vavg g * INR (length (everyone c)) = sum_R (map (fun b => norm n (db_vel b)) (everyone c)).
Proof.
  intros Hs E Hk Hg Hh. destruct (the_row n 1 every cs file f k c it t g Hs E Hk Hg) as (m & Hm & R).
  destruct Hs as [_ Hs2]. destruct (Hs2 c (nth_error_In _ _ Hk)) as [H1 H2].
  assert (Ec : everyone c = hd [] (dc_ranks c)).
  { unfold everyone. destruct (dc_ranks c) as [|b [|b' r]]; [discriminate| |discriminate]. cbn. apply app_nil_r. }
  assert (Hne : everyone c <> []).
  { rewrite Ec. apply H2. destruct (dc_ranks c); [discriminate|left; reflexivity]. }
  destruct (ro_vmin _ _ _ _ R) as [A1 A2]. destruct (ro_vmax _ _ _ _ R) as [B1 B2]. rewrite <- Ec in *. fold (speeds n (everyone c)).
  destruct (everyone c) as [|b0 l0] eqn:Eb; [congruence|]. rewrite <- Eb in *. assert (Hb0 : In b0 (everyone c)) by (rewrite Eb; left; reflexivity).
  pose proof (Hh b0 Hb0) as H0. pose proof (in_map (fun b => norm n (db_vel b)) _ _ Hb0) as I0. fold (speeds n (everyone c)) in I0. cbv beta in I0. split; [|split].
  - split; [|intros y Hy; apply A2; right; exact Hy]. destruct A1 as [A1|A1]; [|exact A1]. pose proof (A2 _ (or_intror I0)).
    replace (g_vmin g) with (norm n (db_vel b0)) by lra. exact I0.
  - split; [|intros y Hy; apply B2; right; exact Hy]. destruct B1 as [B1|B1]; [|exact B1]. pose proof (B2 _ (or_intror I0)).
    replace (g_vmax g) with (norm n (db_vel b0)) by lra. exact I0.
  - rewrite (ro_vavg _ _ _ _ R), <- Ec. unfold count. field. apply not_0_INR. rewrite Eb. discriminate.
Qed.

(** ** what is false *)
Definition still : point := fun _ => 0.
Definition at_x (x : R) : point := fun i => match i with O => x | _ => 0 end.
Definition one_call (bs : list dbody) (i : Z) : dcall := DCall i 0 [bs].
Lemma settled_one every cs : (forall c, In c cs -> exists bs, dc_ranks c = [bs] /\ bs <> []) -> settled 1 every cs.
Proof.
  intros H. split; [lia|]. intros c Hc. apply filter_In in Hc. destruct (H c (proj1 Hc)) as (bs & -> & Hne). split; [reflexivity|].
  intros bs' [<-|[]]. exact Hne.
Qed.

(** N_max is not the largest number of neighbours: it is never reset. *)
Theorem C92_max_refuted : exists n every cs file f k c it t g, settled 1 every cs /\ run n every 1 cs file = Some f /\
  nth_error (dues every cs) k = Some c /\ nth_error f (S k) = Some (DRow it t g) /\ forall b, In b (everyone c) -> (db_nb b < g_Nmax g)%N.
Proof.
  set (b5 := DBody 5 1 still still). set (b3 := DBody 3 1 still still). set (cs := [one_call [b5] 0; one_call [b3] 1]).
  assert (Hs : settled 1 1 cs) by (apply settled_one; intros c [<-|[<-|[]]]; eexists; (split; [reflexivity|discriminate])).
  destruct (C92_lines 1 1 1 cs [] Hs ltac:(discriminate)) as (f & E & _ & _ & K). destruct (K 1%nat (one_call [b3] 1) eq_refl) as (g & Hg).
  exists 1%nat, 1%Z, cs, [], f, 1%nat, (one_call [b3] 1), 1%Z, 0, g. do 4 (split; [assumption || reflexivity|]).
  destruct (C92_neighbours 1 1 1 cs [] f 1 (one_call [b3] 1) 1 0 g Hs E eq_refl Hg) as (_ & [_ H] & _).
  intros b [<-|[]]. specialize (H 5%N ltac:(left; reflexivity)). cbn. lia.
Qed.
(** The speeds are those of process 0 only. *)
Theorem C92_speed_refuted : exists n size every cs file f k c it t g, settled size every cs /\ run n every size cs file = Some f /\
  nth_error (dues every cs) k = Some c /\ nth_error f (S k) = Some (DRow it t g) /\ (forall b, In b (everyone c) -> dbl_min <= norm n (db_vel b) <= dbl_max) /\
  exists b, In b (everyone c) /\ g_vmax g < norm n (db_vel b) /\ g_vavg g < g_vmin g.
Proof.
  set (p := DBody 1 1 (at_x 1) still). set (q := DBody 1 1 (at_x 2) still). set (c := DCall 0 0 [[p]; [q]]).
  assert (Hs : settled 2 1 [c]).
  { split; [lia|]. intros c' [<-|[]]. split; [reflexivity|]. intros bs [<-|[<-|[]]]; discriminate. }
  assert (N1 : norm 1 (db_vel p) = 1) by (unfold norm, dot; cbn; rewrite Rplus_0_l, Rmult_1_r; apply sqrt_1).
  assert (N2 : norm 1 (db_vel q) = 2) by (unfold norm, dot; cbn; rewrite Rplus_0_l; apply sqrt_square; lra).
  destruct (C92_lines 1 2 1 [c] [] Hs ltac:(discriminate)) as (f & E & _ & _ & K). destruct (K 0%nat c eq_refl) as (g & Hg).
  exists 1%nat, 2%nat, 1%Z, [c], [], f, 0%nat, c, 0%Z, 0, g. do 4 (split; [assumption || reflexivity|]).
  assert (D : 0 < dbl_min <= 1 /\ 2 <= dbl_max).
  { assert (P : 1 <= 2 ^ 1022) by (apply pow_R1_Rle; lra). unfold dbl_min, dbl_max.
    assert (P2 : 1 <= 2 ^ 52) by (apply pow_R1_Rle; lra). split; [split|].
    - apply Rinv_0_lt_compat. lra.
    - rewrite <- Rinv_1. apply Rinv_le_contravar; lra.
    - assert (Q : / 2 ^ 52 <= 1) by (rewrite <- Rinv_1; apply Rinv_le_contravar; lra).
      replace 1023%nat with (1 + 1022)%nat by reflexivity. rewrite pow_add, pow_1. nra. }
  split; [intros b [<-|[<-|[]]]; rewrite ?N1, ?N2; lra|]. exists q. split; [right; left; reflexivity|].
  destruct (the_row 1 2 1 [c] [] f 0 c 0 0 g Hs E eq_refl Hg) as (m & _ & R).
  pose proof (ro_vmax _ _ _ _ R) as [B1 _]. pose proof (ro_vmin _ _ _ _ R) as [A1 _]. pose proof (ro_vavg _ _ _ _ R) as V.
  cbn [c dc_ranks hd speeds map] in *. rewrite N1 in *. rewrite N2. unfold count in V. cbn [everyone c dc_ranks concat app length INR sum_R] in V.
  split; [destruct B1 as [<-|[<-|[]]]; lra|]. rewrite V. destruct A1 as [<-|[<-|[]]]; lra.
Qed.
(** The largest speed of particles at rest is not zero. *)
Theorem C92_rest_refuted : exists n every cs file f k c it t g, settled 1 every cs /\ run n every 1 cs file = Some f /\
  nth_error (dues every cs) k = Some c /\ nth_error f (S k) = Some (DRow it t g) /\ (forall b, In b (everyone c) -> db_vel b = still) /\ 0 < g_vmax g.
Proof.
  set (p := DBody 1 1 still still). set (cs := [one_call [p] 0]).
  assert (Hs : settled 1 1 cs) by (apply settled_one; intros c [<-|[]]; eexists; (split; [reflexivity|discriminate])).
  destruct (C92_lines 1 1 1 cs [] Hs ltac:(discriminate)) as (f & E & _ & _ & K). destruct (K 0%nat (one_call [p] 0) eq_refl) as (g & Hg).
  exists 1%nat, 1%Z, cs, [], f, 0%nat, (one_call [p] 0), 0%Z, 0, g. do 4 (split; [assumption || reflexivity|]).
  split; [intros b [<-|[]]; reflexivity|]. destruct (the_row 1 1 1 cs [] f 0 (one_call [p] 0) 0 0 g Hs E eq_refl Hg) as (m & _ & R).
  pose proof (ro_vmax _ _ _ _ R) as [_ B]. specialize (B dbl_min (or_introl eq_refl)).
  assert (0 < dbl_min) by (unfold dbl_min; apply Rinv_0_lt_compat, pow_lt; lra). lra.
Qed.
(** The column of the least distance is not a distance of particles. *)
Theorem C92_distance_refuted : exists n every cs file f k c it t g, settled 1 every cs /\ run n every 1 cs file = Some f /\
  nth_error (dues every cs) k = Some c /\ nth_error f (S k) = Some (DRow it t g) /\
  ForallOrdPairs (fun a b => g_mind g < dist n (db_pos a) (db_pos b)) (everyone c) /\ (1 < length (everyone c))%nat.
Proof.
  set (p := DBody 1 1 still still). set (q := DBody 1 1 still (at_x 1)). set (cs := [one_call [p; q] 0]).
  assert (Hs : settled 1 1 cs) by (apply settled_one; intros c [<-|[]]; eexists; (split; [reflexivity|discriminate])).
  destruct (C92_lines 1 1 1 cs [] Hs ltac:(discriminate)) as (f & E & _ & _ & K). destruct (K 0%nat (one_call [p; q] 0) eq_refl) as (g & Hg).
  exists 1%nat, 1%Z, cs, [], f, 0%nat, (one_call [p; q] 0), 0%Z, 0, g. do 4 (split; [assumption || reflexivity|]).
  destruct (C92_unset 1 1 1 cs [] f 0 (one_call [p; q] 0) 0 0 g Hs E eq_refl Hg) as (-> & _). split; [|cbn; lia].
  assert (D : 0 < dist 1 (db_pos p) (db_pos q)).
  { rewrite dist_1. cbn. unfold still. replace (0 - 1) with (- (1)) by ring. rewrite Rabs_Ropp, Rabs_R1. lra. }
  cbn. repeat constructor. exact D.
Qed.
(** A second run does not keep the lines of the first. *)
Theorem C92_history_refuted : exists n every cs cs' f f' l, settled 1 every cs /\ settled 1 every cs' /\ run n every 1 cs [] = Some f /\
  run n every 1 cs' f = Some f' /\ In l f /\ ~ In l f'.
Proof.
  set (p := DBody 1 1 still still). set (cs := [one_call [p] 0]). set (cs' := [one_call [p] 1]).
  assert (Hs : settled 1 1 cs) by (apply settled_one; intros c [<-|[]]; eexists; (split; [reflexivity|discriminate])).
  assert (Hs' : settled 1 1 cs') by (apply settled_one; intros c [<-|[]]; eexists; (split; [reflexivity|discriminate])).
  destruct (C92_lines 1 1 1 cs [] Hs ltac:(discriminate)) as (f & E & _ & _ & K). destruct (K 0%nat (one_call [p] 0) eq_refl) as (g & Hg).
  destruct (C92_lines 1 1 1 cs' f Hs' ltac:(discriminate)) as (f' & E' & H0 & L & K'). destruct (K' 0%nat (one_call [p] 1) eq_refl) as (g' & Hg').
  exists 1%nat, 1%Z, cs, cs', f, f', (DRow 0 0 g). do 4 (split; [assumption|]). split; [apply (nth_error_In _ 1), Hg|].
  destruct f' as [|l0 [|l1 [|l2 f']]]; cbn in L; try discriminate. cbn in H0, Hg'. injection H0 as ->. injection Hg' as ->.
  intros [H|[H|[]]]; discriminate H.
Qed.
(** A process without particles reads outside of its vector. *)
Theorem C92_empty_refuted : exists n size every cs file, (forall c, In c cs -> length (dc_ranks c) = size /\ everyone c <> []) /\ run n every size cs file = None.
Proof.
  set (p := DBody 1 1 still still). exists 1%nat, 2%nat, 1%Z, [DCall 0 0 [[p]; []]], []. split; [|reflexivity].
  intros c [<-|[]]. split; [reflexivity|discriminate].
Qed.

(** Two particles on two processes, three iterations, every second written. *)
Example C92_case : let p := DBody 4 1 (at_x 1) still in let q := DBody 6 2 (at_x 1) (at_x 1) in
  let cs := map (fun i => DCall i 0 [[p]; [q]]) [0; 1; 2]%Z in
  settled 2 2 cs /\ length (dues 2 cs) = 2%nat /\ (forall c b, In c cs -> In b (everyone c) -> 1 <= db_h b <= 2).
Proof.
  cbv zeta. split; [|split; [reflexivity|]].
  - split; [lia|]. intros c Hc. apply filter_In, proj1 in Hc. destruct Hc as [<-|[<-|[<-|[]]]]; (split; [reflexivity|]); intros bs [<-|[<-|[]]]; discriminate.
  - intros c b [<-|[<-|[<-|[]]]] [<-|[<-|[]]]; cbn; lra.
Qed.

Print Assumptions C92_due.
Print Assumptions C92_lines.
Print Assumptions C92_silent.
Print Assumptions C92_neighbours.
Print Assumptions C92_smoothing.
Print Assumptions C92_unset.
Print Assumptions C92_speed_partial.
Print Assumptions C92_max_refuted.
Print Assumptions C92_speed_refuted.
Print Assumptions C92_rest_refuted.
Print Assumptions C92_distance_refuted.
Print Assumptions C92_history_refuted.
Print Assumptions C92_empty_refuted.
