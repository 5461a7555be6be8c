(** C108: the driver that tests the tree. *)
From Coq Require Import Sorted Permutation.
From Verif Require Import Base Key_model HCell_model BuildTree_model BuildTree_lemmas BuildTree_props Vec Geometry_model Cofm_model
  Share_model Share_lemmas Share_final Share_world Share_reach Share_flags Share_props Comms_model Dist_model Dist_lemmas Dist_walk Dist_near Dist_reach Dist_cover Dist_target Dist_refuted Dist_props Dist_all_props
  FSearch_spec FSearch_props Search_props FSearch_model FCell_model TreeDriver_model.
From Flocq Require Core.
From Verif Require Comms_lemmas Comms_props Comms_flags.
Local Open Scope N_scope.

Section Calls.
Context {Ent : Type} (id : Ent -> Z).
Lemma found_in e nb : found id e nb = true <-> exists b, In b nb /\ id b = id e.
Proof.
  unfold found. assert (G : forall l fd, fold_left (fun fd b => if (id e =? id b)%Z then true else fd) l fd = true <-> fd = true \/ exists b, In b l /\ id b = id e).
  { induction l as [|b l IH]; intros fd; cbn [fold_left].
    - split; [auto|]. intros [H|(b & [] & _)]. exact H.
    - rewrite IH. destruct (Z.eqb_spec (id e) (id b)) as [E|E].
      + split; [intros _; right; exists b; split; [left; reflexivity | symmetry; exact E] | auto].
      + split; intros [H|(c & Hc & Ec)]; auto; [right; exists c; split; [right; exact Hc | exact Ec]|]. destruct Hc as [->|Hc]; [congruence|]. right. exists c. auto. }
  rewrite G. split; [intros [H|H]; [discriminate|exact H] | auto].
Qed.
(** When the assertion of a particle holds, and what the total is. *)
Theorem C108_calls out t0 : self_calls id t0 out = Some (t0 + N.of_nat (list_sum (map (fun x => length (snd x)) out))) <->
  (forall e nb, In (e, nb) out -> exists b, In b nb /\ id b = id e).
Proof.
  assert (G : forall out t0, (self_calls id t0 out = None /\ ~ (forall e nb, In (e, nb) out -> exists b, In b nb /\ id b = id e)) \/
    (self_calls id t0 out = Some (t0 + N.of_nat (list_sum (map (fun x => length (snd x)) out))) /\ forall e nb, In (e, nb) out -> exists b, In b nb /\ id b = id e)).
  { clear. induction out as [|[e nb] out IH]; intros t0.
    - right. cbn. split; [f_equal; lia|]. intros e nb [].
    - cbn [self_calls]. unfold self_call. destruct (found id e nb) eqn:Ef.
      + destruct (IH (t0 + N.of_nat (length nb))) as [[E H]|[E H]]; rewrite E; [left|right]; (split; [try reflexivity|]).
        * intros H'. apply H. intros a b Hab. apply (H' a b). right. exact Hab.
        * cbn [map]. change (list_sum (?x :: ?l)) with (x + list_sum l)%nat. cbn [snd]. f_equal. lia.
        * intros a b [Hab|Hab]; [injection Hab as <- <-; apply found_in, Ef | apply H, Hab].
      + left. split; [reflexivity|]. intros H. specialize (H e nb (or_introl eq_refl)). apply found_in in H. congruence. }
  destruct (G out t0) as [[E H]|[E H]]; rewrite E; split; auto; [discriminate | intros X; contradiction].
Qed.
Lemma passes N0 (out : list (Ent * list Ent)) : (0 < length out)%nat -> (forall a nb, In (a, nb) out -> In a nb /\ (length nb <= N0)%nat) ->
  exists av, self_pass id (N.of_nat (length out)) out = Some av /\ 1 <= av <= N.of_nat N0 /\
    (let pairs := N.of_nat (list_sum (map (fun x => length (snd x)) out)) in av * N.of_nat (length out) <= pairs < (av + 1) * N.of_nat (length out)).
Proof.
  intros Ho Mine. assert (E : self_calls id 0 out = Some (0 + N.of_nat (list_sum (map (fun x => length (snd x)) out)))).
  { apply C108_calls. intros e nb H. exists e. split; [apply (Mine e nb H) | reflexivity]. }
  unfold self_pass. rewrite E.
  rewrite (proj2 (N.eqb_neq _ _)) by lia. eexists. split; [reflexivity|].
  assert (B : (length out <= list_sum (map (fun x => length (snd x)) out) <= length out * N0)%nat).
  { clear - Mine. induction out as [|[a nb] out IH]; [cbn; lia|]. cbn [map]. change (list_sum (?x :: ?m)) with (x + list_sum m)%nat. cbn [snd length].
    destruct (Mine a nb (or_introl eq_refl)) as [M1 M2]. destruct nb as [|b nb]; [destruct M1|]. cbn [length] in *.
    specialize (IH (fun x y H => Mine x y (or_intror H))). lia. }
  cbv zeta. set (t := N.of_nat (list_sum _)) in *. rewrite N.add_0_l. pose proof (N.div_mod t (N.of_nat (length out)) ltac:(lia)). pose proof (N.mod_lt t (N.of_nat (length out)) ltac:(lia)).
  split; [split|nia].
  - apply N.div_le_lower_bound; lia.
  - apply N.div_le_upper_bound; nia.
Qed.
End Calls.

Section Props.
Context {Ent : Type} (eb : Ent -> body) (dim : N) (pss : list (list (N * Ent))).
Notation n := (N.to_nat dim).
Notation f := (cofm_of eb n).
Context (l : list (rank_st Ent cofm)) (fuel : nat) (dn : nat -> nat -> bool) (al : nat -> bool) (w : nat -> list N).
Notation run := (steps dim (length pss) false keeps fuel).
Notation start := (g_init (tables l) dn al w).
Hypothesis HS : spread dim pss.
Hypothesis El : build_all dim f pss = Some l.
Hypothesis Hmass : forall x, In x (concat pss) -> (0 < b_mass (eb (snd x)))%R.
Hypothesis Hrad : forall x, In x (concat pss) -> (0 <= b_rad (eb (snd x)))%R.

(** Any number of processes, any ids, any course of the communication: no process
    stops with the assertion, and the average printed is between one and the number
    of all particles; it is the number of pairs per particle, rounded down. *)
Theorem C108_self_test (id : Ent -> Z) s0 r fu cells outs : run start s0 -> (r < length pss)%nat -> dist_cells dim (look_r (g_tab s0 r)) fu = Some cells ->
  Forall2 (fun key out => exists s fu', run s0 s /\ dist_target eb dim (look_r (g_tab s r)) fu' key = Some (Some out)) cells outs ->
  nth r pss [] <> [] ->
  exists av, self_pass id (N.of_nat (length (nth r pss []))) (concat outs) = Some av /\ 1 <= av <= N.of_nat (length (concat pss)) /\
    (let pairs := N.of_nat (list_sum (map (fun x => length (snd x)) (concat outs))) in
     av * N.of_nat (length (nth r pss [])) <= pairs < (av + 1) * N.of_nat (length (nth r pss []))).
Proof.
  intros R Hr EC F2 Hne. destruct (C76_calls eb dim pss l fuel dn al w HS El Hmass Hrad s0 r fu cells outs R Hr EC F2) as [P L].
  set (out := concat outs) in *. set (N0 := length (concat pss)).
  assert (Len : length (nth r pss []) = length out) by (apply Permutation_length in P; rewrite !map_length in P; lia).
  assert (Mine : forall a nb, In (a, nb) out -> In a nb /\ (length nb <= N0)%nat).
  { intros a nb H. destruct (L a nb H) as (rest & A1 & _ & A3).
    assert (Ia : In a (map snd (concat pss))).
    { assert (X : In a (map snd (nth r pss []))) by (apply (Permutation_in _ P), in_map_iff; exists (a, nb); auto).
      apply in_map_iff in X. destruct X as (x & <- & Hx). apply in_map, in_concat. exists (nth r pss []). split; [apply nth_In, Hr | exact Hx]. }
    split; [|apply Permutation_length in A1; rewrite app_length, map_length in A1; unfold N0; lia].
    assert (Ia' : In a (nb ++ rest)) by (apply (Permutation_in _ (Permutation_sym A1)), Ia).
    apply in_app_or in Ia'. destruct Ia' as [Ia'|Ia']; [exact Ia'|exfalso]. specialize (A3 a Ia').
    apply in_map_iff in Ia. destruct Ia as (x & <- & Hx). specialize (Hrad x Hx). rewrite dist_self in A3. lra. }
  rewrite Len. apply passes; [rewrite <- Len; destruct (nth r pss []); [congruence|cbn; lia] | exact Mine].
Qed.
End Props.

(** With the rounding of every operation, on one process: the same as long as no
    smoothing length is below 2^-40 of the size of the domain. *)
Theorem C108_self_test_double (id : nat -> Z) dim lob hib ks bodies m :
  dim_ok dim -> ks <> [] -> StronglySorted N.lt ks -> Forall (full_key dim) ks -> length bodies = length ks -> (-400 <= m <= 400)%Z ->
  (forall b, In b bodies -> fl_body m (N.to_nat dim) b) -> (forall b, In b bodies -> (Raux.bpow Zaux.radix2 (m - 40) <= b_rad b)%R) ->
  exists st mx fuel out av, build_tree cofm (fcc_cofm_fl (N.to_nat dim) bodies) dim true true lob hib ks = Some (st, mx) /\
    traversal_sph_fl dim (st_tab st) (st_cofm st) bodies fuel = Some out /\
    self_pass id (N.of_nat (length bodies)) out = Some av /\ 1 <= av <= N.of_nat (length bodies).
Proof.
  intros Hdim Hne Hs Hf Hlen Hm Hb Hr. destruct (C91_sph_neighbours dim lob hib ks bodies m Hdim Hne Hs Hf Hlen Hm Hb) as (st & mx & fuel & out & E & Eo & P & L).
  assert (Len : length bodies = length out) by (apply Permutation_length in P; rewrite map_length, seq_length in P; lia).
  assert (Mine : forall a nb, In (a, nb) out -> In a nb /\ (length nb <= length bodies)%nat).
  { intros a nb H. destruct (L a nb H) as (N1 & N2 & N3).
    assert (La : (a < length bodies)%nat). { assert (X : In a (seq 0 (length bodies))) by (apply (Permutation_in _ P), in_map_iff; exists (a, nb); auto). apply in_seq in X. lia. }
    split.
    - apply N3; [exact La|]. rewrite dist_self. unfold rad. specialize (Hr (get_body bodies a) (nth_In _ _ La)). lra.
    - rewrite <- (seq_length (length bodies) 0). apply NoDup_incl_length; [exact N1|]. intros e He. apply in_seq. destruct (N2 e He). lia. }
  destruct (passes id (length bodies) out) as (av & E' & B & _); [rewrite <- Len; destruct bodies; [destruct ks; [congruence|discriminate]|cbn; lia] | exact Mine|].
  exists st, mx, fuel, out, av. rewrite Len at 1. auto.
Qed.

(** The loop: 5000 passes, whatever the number of neighbours counted in them; it stops
    early only when a pass stops. *)
Theorem C108_loop {S} (body : S -> option S) it s z :
  (exists fuel, tree_loop fuel body tree_passes it s = Some z) <->
  exists tr : nat -> S, tr 0%nat = s /\ (forall i, (i < 5000)%nat -> body (tr i) = Some (tr (Datatypes.S i))) /\ z = (it + 5000, tr 5000%nat)%Z.
Proof.
  assert (G : forall m fuel it s, tree_loop fuel body (N.of_nat (Datatypes.S m)) it s = Some z ->
    exists tr : nat -> S, tr 0%nat = s /\ (forall i, (i < Datatypes.S m)%nat -> body (tr i) = Some (tr (Datatypes.S i))) /\ z = (it + Z.of_nat (Datatypes.S m), tr (Datatypes.S m))%Z).
  { induction m as [|m IH]; intros [|fuel] i0 s0 E; cbn [tree_loop] in E; try discriminate; destruct (body s0) as [s1|] eqn:Eb; try discriminate.
    - replace (N.of_nat 1 - 1 =? 0) with true in E by reflexivity. injection E as <-. exists (fun i => match i with O => s0 | _ => s1 end). split; [reflexivity|]. split; [|reflexivity].
      intros i Hi. replace i with 0%nat by lia. exact Eb.
    - replace (N.of_nat (Datatypes.S (Datatypes.S m)) - 1) with (N.of_nat (Datatypes.S m)) in E by lia. rewrite (proj2 (N.eqb_neq _ _)) in E by lia.
      destruct (IH _ _ _ E) as (tr & T0 & T1 & ->). exists (fun i => match i with O => s0 | Datatypes.S j => tr j end). split; [reflexivity|]. split; [|f_equal; lia].
      intros [|i] Hi; [rewrite T0; exact Eb | apply T1; lia]. }
  assert (H : forall m it s (tr : nat -> S), tr 0%nat = s -> (forall i, (i < Datatypes.S m)%nat -> body (tr i) = Some (tr (Datatypes.S i))) ->
    tree_loop (Datatypes.S m) body (N.of_nat (Datatypes.S m)) it s = Some (it + Z.of_nat (Datatypes.S m), tr (Datatypes.S m))%Z).
  { induction m as [|m IH]; intros i0 s0 tr <- T.
    - cbn [tree_loop]. rewrite (T 0%nat) by lia. reflexivity.
    - cbn [tree_loop]. rewrite (T 0%nat) by lia. replace (N.of_nat (Datatypes.S (Datatypes.S m)) - 1) with (N.of_nat (Datatypes.S m)) by lia. rewrite (proj2 (N.eqb_neq _ _)) by lia.
      change (tree_loop (Datatypes.S m) body (N.of_nat (Datatypes.S m)) (i0 + 1) (tr 1%nat) = Some (i0 + Z.of_nat (Datatypes.S (Datatypes.S m)), tr (Datatypes.S (Datatypes.S m)))%Z).
      rewrite (IH (i0 + 1)%Z (tr 1%nat) (fun i => tr (Datatypes.S i)) eq_refl) by (intros i Hi; apply T; lia). f_equal. f_equal. lia. }
  remember (Nat.pred 5000) as m eqn:Em. assert (E5 : 5000%nat = Datatypes.S m) by (subst m; reflexivity).
  assert (EN : tree_passes = N.of_nat (Datatypes.S m)) by (rewrite <- E5; reflexivity). assert (EZ : 5000%Z = Z.of_nat (Datatypes.S m)) by (rewrite <- E5; reflexivity).
  rewrite EN, EZ, E5. clear Em E5 EN EZ. split.
  - intros (fuel & E). exact (G m fuel it s E).
  - intros (tr & T0 & T1 & ->). exists (Datatypes.S m). apply H; assumption.
Qed.

(** *** Examples *)
(** the two ranks of Dist_refuted: the test of rank 0 passes, the average is 1 *)
Example C108_self_test_case : exists l s0 cells outs, spread 1 pss3 /\ (forall x, In x (concat pss3) -> (0 < b_mass (eb3 (snd x)))%R) /\ (forall x, In x (concat pss3) -> (0 <= b_rad (eb3 (snd x)))%R) /\
  build_all 1 (cofm_of eb3 (N.to_nat 1)) pss3 = Some l /\ steps 1 2 false keeps 9 (g_init (tables l) (fun _ _ => false) (fun _ => false) (fun _ => [])) s0 /\ dist_cells 1 (look_r (g_tab s0 0%nat)) 9 = Some cells /\
  Forall2 (fun key out => exists s fu', steps 1 2 false keeps 9 s0 s /\ dist_target eb3 1 (look_r (g_tab s 0%nat)) fu' key = Some (Some out)) cells outs /\
  nth 0 pss3 [] <> [] /\ self_pass Z.of_nat (N.of_nat (length (nth 0 pss3 []))) (concat outs) = Some 1.
Proof.
  destruct C76_calls_example as (l & s0 & cells & outs & A1 & A2 & A3 & A4 & A5 & A6 & A7 & A8). exists l, s0, cells, outs.
  repeat (split; [assumption|]). split; [discriminate|]. rewrite A8. vm_compute. reflexivity.
Qed.
(** lists with a neighbour of another id only, and with another particle of the id *)
Example C108_calls_case : self_calls (fun x : nat => Z.of_nat (x mod 5)) 0 [(1, [2; 6]); (3, [3])]%nat = Some 3 /\ self_calls (fun x : nat => Z.of_nat (x mod 5)) 0 [(1, [2; 7])]%nat = None.
Proof. split; reflexivity. Qed.
(** the two particles of C91, at the edge of each other's support *)
Example C108_self_test_double_case : dim_ok 2 /\ ks91 <> [] /\ StronglySorted N.lt ks91 /\ Forall (full_key 2) ks91 /\ length bodies91 = length ks91 /\ (-400 <= 30 <= 400)%Z /\
  (forall b, In b bodies91 -> fl_body 30 (N.to_nat 2) b) /\ (forall b, In b bodies91 -> (Raux.bpow Zaux.radix2 (30 - 40) <= b_rad b)%R).
Proof.
  destruct C91_case as (A1 & A2 & A3 & A4 & A5 & A6 & A7 & _). repeat (split; [assumption|]).
  intros b [<-|[<-|[]]]; (apply (Rle_trans _ 1); [change 1%R with (Raux.bpow Zaux.radix2 0); apply Raux.bpow_le; lia | cbn; lra]).
Qed.
Example C108_loop_case : tree_loop 3 (fun s => if s <? 9 then Some (s + 2) else None) 3 10 1 = Some (13%Z, 7) /\ tree_loop 5 (fun s => if s <? 3 then Some (s + 2) else None) 3 10 1 = None.
Proof. split; vm_compute; reflexivity. Qed.
Print Assumptions C108_calls.
Print Assumptions C108_self_test.
Print Assumptions C108_self_test_double.
Print Assumptions C108_loop.
