(** Whole runs of the driver with the lists of the tree: C77. *)
From Verif Require Import Base Key_model Key_spec BuildTree_model BuildTree_spec BuildTree_inv BuildTree_props Vec Geometry_model Geometry_props
  Cofm_model Cofm_spec Cofm_proofs Search_model Search_proofs Search_sph Search_props Kernel_model Sph_model Sph_props SphTree_props SphMore_props
  EForce_model Driver_model Driver_proofs Driver_run Driver_tree.
From Coq Require Import Permutation Sorted.
Local Open Scope R_scope.

Section Statements.
Context (dp : dparams) (dim : N) (N : nat) (grav : (nat -> dbody) -> (nat -> point * R) -> Prop).

(** A run of the driver on [N] particles from the state [s0] at time [t0]
    reaches iteration [k] in state [s] at time [t]; relaxation is over. *)
Definition run (gravity : bool) (k0 : nat) (s0 : nat -> dbody) (t0 : R) (k : nat) (s : nat -> dbody) (t dt : R) : Prop :=
  (dim_ok dim /\ N.to_nat dim = dp_dim dp /\ (0 < N)%nat /\ 0 < dp_etaw dp /\ (dp_relax dp <= k0)%nat /\
   forall i, (i < N)%nat -> 0 < p_m (d_p (s0 i)) /\ 0 < p_h (d_p (s0 i))) /\
  sim dp N (tree_lists dim N) grav gravity k0 s0 t0 k s t dt.

(** Gravity without net force and torque. *)
Definition balanced (gravity : bool) : Prop := gravity = true -> forall s g, grav s g ->
  (forall k, sumn N (fun i => p_m (d_p (s i)) * fst (g i) k) = 0) /\
  (forall k l, sumn N (fun i => p_m (d_p (s i)) * (p_pos (d_p (s i)) k * fst (g i) l - p_pos (d_p (s i)) l * fst (g i) k)) = 0).
End Statements.

(** Without gravity the relation [grav] is never used. *)
Lemma do_ops_nograv dp N lists grav grav' l s s' : ~ In OGrav l -> do_ops dp N lists grav l s s' -> do_ops dp N lists grav' l s s'.
Proof.
  revert s. induction l as [|o l IH]; intros s Hn H; [exact H|]. cbn [do_ops] in *. destruct H as (m & H1 & H2). exists m. split.
  - destruct o; try exact H1. exfalso. apply Hn. left. reflexivity.
  - apply IH; [|exact H2]. intro J. apply Hn. right. exact J.
Qed.

Lemma not_in_forall (l : list op) : Forall (fun o => o <> OGrav) l -> ~ In OGrav l.
Proof. intros H J. rewrite Forall_forall in H. exact (H _ J eq_refl). Qed.

Lemma no_grav_rounds dp r dt m : Forall (fun o => o <> OGrav) (energy_rounds dp r dt m).
Proof.
  assert (A : Forall (fun o => o <> OGrav) (energy_round dp r dt)).
  { unfold energy_round, opt. destruct (dp_thermo dp), r; cbn [app]; repeat constructor; discriminate. }
  induction m as [|m IH]; [constructor|]. cbn [energy_rounds]. destruct m; [exact A|].
  apply Forall_app. split; [exact A|]. constructor; [discriminate|exact IH].
Qed.

Lemma no_grav_forces dp r : Forall (fun o => o <> OGrav) (forces dp false r).
Proof. unfold forces, opt. destruct r; cbn [app]; repeat constructor; discriminate. Qed.

Lemma no_grav_opt (c : bool) l : Forall (fun o => o <> OGrav) l -> Forall (fun o => o <> OGrav) (opt c l).
Proof. destruct c; [auto|constructor]. Qed.

Ltac nograv := repeat match goal with
  | |- Forall _ (_ ++ _) => apply Forall_app; split
  | |- Forall _ (opt _ _) => apply no_grav_opt
  | |- Forall _ (forces _ _ _) => apply no_grav_forces
  | |- Forall _ (energy_rounds _ _ _ _) => apply no_grav_rounds
  | |- Forall _ (_ :: _) => constructor; [discriminate|]
  | |- Forall _ [] => constructor
  end.

Lemma no_grav_step dp k dt : ~ In OGrav (step_ops dp false k dt).
Proof. apply not_in_forall. unfold step_ops. nograv. Qed.
Lemma no_grav_initial dp k dt dt' : ~ In OGrav (initial_ops dp false k dt dt').
Proof. apply not_in_forall. unfold initial_ops. nograv. Qed.

Lemma sim_nograv dp N lists grav grav' k0 s0 t0 k s t dt :
  sim dp N lists grav false k0 s0 t0 k s t dt -> sim dp N lists grav' false k0 s0 t0 k s t dt.
Proof.
  induction 1 as [dt dt' dt'' s H|k s t dt dt' s' H IH Hs].
  - eapply sim_first. eapply do_ops_nograv; [apply no_grav_initial|exact H].
  - eapply sim_next; [exact IH|]. eapply do_ops_nograv; [apply no_grav_step|exact Hs].
Qed.

Section C77.
Context (dp : dparams) (dim : N) (N : nat) (grav : (nat -> dbody) -> (nat -> point * R) -> Prop).

(** No particle is lost or renamed, masses never change, and smoothing lengths
    and densities stay positive. *)
Theorem C77_particles gravity k0 s0 t0 k s t dt : run dp dim N grav gravity k0 s0 t0 k s t dt -> forall i, (i < N)%nat ->
  d_id (s i) = d_id (s0 i) /\ p_m (d_p (s i)) = p_m (d_p (s0 i)) /\ 0 < p_h (d_p (s i)) /\ 0 < p_rho (d_p (s i)).
Proof.
  intros ((Hd & En & HN & Hw & Hr & Hp) & H) i Hi.
  assert (D : (1 <= dp_dim dp <= 3)%nat) by (rewrite <- En; unfold dim_ok in Hd; lia).
  eapply sim_sound in H; try eassumption; [|..].
  - destruct H as (_ & A & _ & B & C). destruct (A i Hi). split; [assumption|]. split; [assumption|]. split; [apply B, Hi|apply C, Hi].
  - intros s1 nb Hl Hh. rewrite <- En. apply tree_lists_ok; assumption.
  - intros j Hj. apply Hp, Hj.
  - intros j Hj. apply Hp, Hj.
Qed.

(** Without external forces the total momentum and angular momentum never
    change and the centre of mass moves uniformly. *)
Theorem C77_motion gravity k0 s0 t0 k s t dt : run dp dim N grav gravity k0 s0 t0 k s t dt ->
  (forall x j, dp_ext dp x j = 0) -> balanced N grav gravity ->
  (forall j, sumn N (fun i => p_m (d_p (s i)) * p_vel (d_p (s i)) j) = sumn N (fun i => p_m (d_p (s0 i)) * p_vel (d_p (s0 i)) j)) /\
  (forall j, sumn N (fun i => p_m (d_p (s i)) * p_pos (d_p (s i)) j) =
     sumn N (fun i => p_m (d_p (s0 i)) * p_pos (d_p (s0 i)) j) + (t - t0) * sumn N (fun i => p_m (d_p (s0 i)) * p_vel (d_p (s0 i)) j)) /\
  (forall j l, sumn N (fun i => p_m (d_p (s i)) * (p_pos (d_p (s i)) j * p_vel (d_p (s i)) l - p_pos (d_p (s i)) l * p_vel (d_p (s i)) j)) =
     sumn N (fun i => p_m (d_p (s0 i)) * (p_pos (d_p (s0 i)) j * p_vel (d_p (s0 i)) l - p_pos (d_p (s0 i)) l * p_vel (d_p (s0 i)) j))).
Proof.
  intros ((Hd & En & HN & Hw & Hr & Hp) & H) Hext Hb.
  assert (D : (1 <= dp_dim dp <= 3)%nat) by (rewrite <- En; unfold dim_ok in Hd; lia).
  assert (HL : forall s1 nb, tree_lists dim N s1 nb -> (forall i, (i < N)%nat -> 0 < p_h (d_p (s1 i))) -> lists_ok (dp_dim dp) N (fun i => d_p (s1 i)) nb).
  { intros s1 nb Hl Hh. rewrite <- En. apply tree_lists_ok; assumption. }
  assert (M0 : pos_m N s0) by (intros j Hj; apply Hp, Hj). assert (H0 : pos_h N s0) by (intros j Hj; apply Hp, Hj).
  destruct gravity.
  - specialize (Hb eq_refl).
    destruct (sim_motion dp N _ grav D HN Hw HL Hext (fun s g Hg => proj1 (Hb s g Hg)) (fun s g Hg => proj2 (Hb s g Hg)) _ _ _ _ _ _ _ _ Hr M0 H0 H)
      as (A & B & C & _). split; [exact A|]. split; [exact B|exact C].
  - apply (sim_nograv _ _ _ _ (fun _ _ => False)) in H.
    assert (F1 : forall (s1 : nat -> dbody) (g : nat -> point * R), False -> forall j, sumn N (fun i => p_m (d_p (s1 i)) * fst (g i) j) = 0) by tauto.
    assert (F2 : forall (s1 : nat -> dbody) (g : nat -> point * R), False -> forall j l,
      sumn N (fun i => p_m (d_p (s1 i)) * (p_pos (d_p (s1 i)) j * fst (g i) l - p_pos (d_p (s1 i)) l * fst (g i) j)) = 0) by tauto.
    destruct (sim_motion dp N _ _ D HN Hw HL Hext F1 F2 _ _ _ _ _ _ _ _ Hr M0 H0 H)
      as (A & B & C & _). split; [exact A|]. split; [exact B|exact C].
Qed.

(** With the thermokinetic formulation the total energy never changes from
    what the start gives it: kinetic, internal and potential energy. *)
Theorem C77_energy k0 s0 t0 k s t dt : run dp dim N grav false k0 s0 t0 k s t dt ->
  dp_thermo dp = true -> (1 <= dp_updates dp)%nat ->
  sumn N (fun i => p_m (d_p (s i)) * d_e (s i)) =
  sumn N (fun i => p_m (d_p (s0 i)) * (1 / 2 * dot (dp_dim dp) (p_vel (d_p (s0 i))) (p_vel (d_p (s0 i))) +
     eos_u (dp_eos dp) (p_rho (d_p (s0 i))) (p_P (d_p (s0 i))) (d_u (s0 i)) (d_K (s0 i)) + dp_pot dp (p_pos (d_p (s0 i))))).
Proof.
  intros ((Hd & En & HN & Hw & Hr & Hp) & H) T U.
  assert (D : (1 <= dp_dim dp <= 3)%nat) by (rewrite <- En; unfold dim_ok in Hd; lia).
  eapply sim_energy in H; try eassumption.
  - destruct H as (H & _). exact H.
  - intros s1 nb Hl Hh. rewrite <- En. apply tree_lists_ok; assumption.
  - intros j Hj. apply Hp, Hj.
  - intros j Hj. apply Hp, Hj.
Qed.
End C77.

(** ** Runs exist: the driver never stops with the internal-energy formulation
    and constant viscosity. *)
Section Progress.
Context (dp : dparams) (dim : N) (N : nat) (grav : (nat -> dbody) -> (nat -> point * R) -> Prop).
Context (Hd : dim_ok dim) (En : N.to_nat dim = dp_dim dp) (HN : (0 < N)%nat).
Context (Hks : exists ks, length ks = N /\ StronglySorted N.lt ks /\ Forall (full_key dim) ks).
Context (Hk : decreasing (the_kernel (dp_sph dp))) (Hsi : 1 <= sinc_index (dp_sph dp) <= 12).
Context (Hg : forall s, exists g, grav s g).
Implicit Types s : nat -> dbody.

Lemma tree_lists_exist s : pos_m N s -> pos_h N s -> exists nb, tree_lists dim N s nb.
Proof using Hd HN Hks.
  clear En Hk Hsi Hg grav dp.
  intros Hm Hh. destruct Hks as (ks & L & S1 & F1). set (bodies := map (fun i => tree_body (s i)) (seq 0 N)).
  destruct (C13_sph_neighbours dim 0%N 0%N ks bodies Hd) as (st & mx & fuel & out & E & Et & HP & _); try assumption.
  { intro C. rewrite C in L. cbn in L. lia. }
  { unfold bodies. rewrite map_length, seq_length. congruence. }
  { intros b Hb. apply in_map_iff in Hb. destruct Hb as (i & <- & Hi). apply in_seq in Hi. cbn. split; [apply Hm; lia|left; apply Hh; lia]. }
  exists (fun i => match find (fun t => Nat.eqb (fst t) i) out with Some t => map (fun e => nth e (seq 0 N) 0%nat) (snd t) | None => [] end).
  split; [exact Hm|]. exists (seq 0 N), 0%N, 0%N, ks, st, mx, fuel, out.
  split; [apply Permutation_refl|]. split; [exact L|]. split; [exact S1|]. split; [exact F1|]. split; [exact E|]. split; [exact Et|].
  assert (LB : length bodies = N) by (unfold bodies; rewrite map_length; apply seq_length). rewrite LB in HP.
  assert (ND : NoDup (map fst out)) by (eapply Permutation_NoDup; [apply Permutation_sym, HP|apply seq_NoDup]).
  intros a l Hin. assert (Ha : (a < N)%nat).
  { assert (J : In a (seq 0 N)) by (apply (Permutation_in _ HP), in_map_iff; exists (a, l); auto). apply in_seq in J. lia. }
  rewrite seq_nth by exact Ha. cbn [Nat.add]. clear - ND Hin.
  induction out as [|[j m] out IH]; [destruct Hin|]. cbn [find fst]. cbn [map fst] in ND. inversion ND; subst. destruct Hin as [Heq|Hin].
  - injection Heq as -> ->. rewrite Nat.eqb_refl. reflexivity.
  - destruct (Nat.eqb_spec j a) as [->|_]; [|apply IH; assumption].
    exfalso. apply H1. apply in_map_iff. exists (a, l). auto.
Qed.

Definition keeps_mh (b b' : dbody) := p_m (d_p b') = p_m (d_p b) /\ p_h (d_p b') = p_h (d_p b).
Definition total_op (o : op) : Prop :=
  match o with
  | OAll f => forall b, exists b', f b = Some b' /\ keeps_mh b b'
  | OPass F => forall b l, In b l -> (forall q, In q l -> 0 < p_m (d_p q) /\ 0 < p_h (d_p q)) -> exists b', F b l = Some b' /\ keeps_mh b b'
  | OSmooth => False
  | _ => True
  end.

Lemma op_progress o s : total_op o -> pos_m N s -> pos_h N s ->
  exists s', do_op dp N (tree_lists dim N) grav o s s' /\ pos_m N s' /\ pos_h N s'.
Proof.
  intros T Hm Hh. destruct o as [| |f|F| |]; cbn [do_op total_op] in *.
  - exists s. auto.
  - exists s. auto.
  - exists (fun i => match f (s i) with Some b => b | None => s i end).
    assert (A : forall i, keeps_mh (s i) (match f (s i) with Some b => b | None => s i end) /\
      f (s i) = Some (match f (s i) with Some b => b | None => s i end)).
    { intro i. destruct (T (s i)) as (b' & E & K). rewrite E. auto. }
    split; [intros i _; apply A|]. split; intros i Hi; destruct (A i) as ((E1 & E2) & _); [rewrite E1; apply Hm, Hi|rewrite E2; apply Hh, Hi].
  - destruct (tree_lists_exist s Hm Hh) as (nb & Hl). pose proof (tree_lists_ok dim N s nb Hd HN Hl Hh) as Ho.
    exists (fun i => match F (s i) (map s (nb i)) with Some b => b | None => s i end).
    assert (A : forall i, (i < N)%nat -> keeps_mh (s i) (match F (s i) (map s (nb i)) with Some b => b | None => s i end) /\
      F (s i) (map s (nb i)) = Some (match F (s i) (map s (nb i)) with Some b => b | None => s i end)).
    { intros i Hi. destruct (Ho i Hi) as (_ & O2 & O3). destruct (T (s i) (map s (nb i))) as (b' & E & K).
      - apply in_map. destruct (in_dec Nat.eq_dec i (nb i)) as [J|J]; [exact J|]. exfalso. specialize (O3 i Hi J).
        rewrite <- dist_norm in O3. unfold dist, dist2 in O3. rewrite (sumn_ext _ _ (fun _ => 0)), sumn_zero, sqrt_0 in O3.
        + specialize (Hh i Hi). lra.
        + intros; ring.
      - intros q Hq. apply in_map_iff in Hq. destruct Hq as (j & <- & Hj). split; [apply Hm, O2, Hj|apply Hh, O2, Hj].
      - rewrite E. auto. }
    split; [exists nb; split; [exact Hl|intros i Hi; apply A, Hi]|].
    split; intros i Hi; destruct (A i Hi) as ((E1 & E2) & _); [rewrite E1; apply Hm, Hi|rewrite E2; apply Hh, Hi].
  - destruct (Hg s) as (g & G). eexists (fun i => set_gpot _ (set_gacc _ (s i))). split; [exists g; split; [exact G|intros i _; reflexivity]|].
    split; intros i Hi; cbn; [apply Hm, Hi|apply Hh, Hi].
  - destruct T.
Qed.

Lemma ops_progress l s : Forall total_op l -> pos_m N s -> pos_h N s ->
  exists s', do_ops dp N (tree_lists dim N) grav (l ++ [OSmooth]) s s'.
Proof.
  revert s. induction l as [|o l IH]; intros s T Hm Hh; cbn [app do_ops].
  - exists (new_h dp N s), (new_h dp N s). split; reflexivity.
  - inversion T; subst. destruct (op_progress o s H1 Hm Hh) as (m & A & B & C). destruct (IH m H2 B C) as (s' & D). exists s', m. auto.
Qed.

Context (Hv : cullen (dp_sph dp) = false) (He : dp_evolve dp && dp_thermo dp = false).

Lemma total_all f : (forall b, keeps_mh b (f b)) -> total_op (all f).
Proof. intros H b. exists (f b). auto. Qed.

Lemma total_density dt : total_op (OPass (density_pass dp dt)).
Proof.
  intros b l Hin Hq. unfold density_pass. cbv zeta. rewrite (proj2 (Rltb_true _ _)), He, Hv.
  - eexists. split; [reflexivity|]. split; reflexivity.
  - apply C67_density_positive; [assumption|rewrite <- En; unfold dim_ok in Hd; lia|assumption|apply in_map, Hin|].
    intros p Hp. apply in_map_iff in Hp. destruct Hp as (q & <- & J). apply Hq, J.
Qed.

Lemma total_rounds r dt m : dp_evolve dp = true -> Forall total_op (energy_rounds dp r dt m).
Proof.
  intro Ev. rewrite Ev in He. cbn in He.
  assert (A : Forall total_op (energy_round dp r dt)).
  { unfold energy_round. rewrite He. destruct r; cbn [opt app]; repeat constructor; try (apply total_all; intro; split; reflexivity).
    - intros b l _ _. eexists. split; [reflexivity|split; reflexivity].
    - intros b l _ _. eexists. split; [reflexivity|split; reflexivity]. }
  induction m as [|m IH]; [constructor|]. cbn [energy_rounds]. destruct m; [exact A|].
  apply Forall_app. split; [exact A|]. constructor; [exact I|exact IH].
Qed.

Lemma total_forces gravity r : Forall total_op (forces dp gravity r).
Proof.
  unfold forces. destruct gravity, r; cbn [opt app]; repeat constructor; try (apply total_all; intro; split; reflexivity);
    intros b l _ _; eexists; (split; [reflexivity|split; reflexivity]).
Qed.

Lemma total_opt (c : bool) l : (c = true -> Forall total_op l) -> Forall total_op (opt c l).
Proof. destruct c; [auto|constructor]. Qed.

Ltac total := repeat match goal with
  | |- Forall _ (_ ++ _) => apply Forall_app; split
  | |- Forall _ (opt _ _) => apply total_opt; intro
  | |- Forall _ (forces _ _ _) => apply total_forces
  | |- Forall _ (energy_rounds _ _ _ _) => apply total_rounds; assumption
  | |- Forall _ (_ :: _) => constructor
  | |- Forall _ [] => constructor
  | |- total_op (OPass (density_pass _ _)) => apply total_density
  | |- total_op (OPass (alpha_pass _ _)) => congruence
  | |- total_op (all (if ?b then _ else _)) => destruct b
  | |- total_op (all _) => apply total_all; intro; split; reflexivity
  | |- total_op OUpdate => exact I
  | |- total_op OReset => exact I
  end.

Lemma step_progress gravity k dt s : pos_m N s -> pos_h N s ->
  exists s', do_ops dp N (tree_lists dim N) grav (step_ops dp gravity k dt) s s'.
Proof.
  intros Hm Hh. unfold step_ops. cbv zeta. rewrite !app_assoc. apply ops_progress; [|assumption..]. total.
Qed.

Lemma initial_progress gravity k dt dt' s : pos_m N s -> pos_h N s ->
  exists s', do_ops dp N (tree_lists dim N) grav (initial_ops dp gravity k dt dt') s s'.
Proof.
  intros Hm Hh. unfold initial_ops. cbv zeta. rewrite !app_assoc. apply ops_progress; [|assumption..]. total.
Qed.
End Progress.

(** From every state with positive masses and smoothing lengths there is a
    run of any number of iterations, whatever the time steps, and it never
    stops on an assertion: with the internal-energy formulation, constant
    viscosity and a kernel that is nowhere negative. *)
Theorem C77_never_stops dp dim N grav gravity k0 s0 t0 (dts : nat -> R) m :
  dim_ok dim -> N.to_nat dim = dp_dim dp -> (0 < N)%nat -> 0 < dp_etaw dp -> (dp_relax dp <= k0)%nat ->
  (exists ks, length ks = N /\ StronglySorted N.lt ks /\ Forall (full_key dim) ks) ->
  decreasing (the_kernel (dp_sph dp)) -> 1 <= sinc_index (dp_sph dp) <= 12 ->
  cullen (dp_sph dp) = false -> dp_evolve dp && dp_thermo dp = false ->
  (gravity = true -> forall s, exists g, grav s g) ->
  (forall i, (i < N)%nat -> 0 < p_m (d_p (s0 i)) /\ 0 < p_h (d_p (s0 i))) ->
  exists s, run dp dim N grav gravity k0 s0 t0 (k0 + m) s (t0 + sumn m dts) (dts m).
Proof.
  intros Hd En HN Hw Hr Hks Hk Hsi Hv He Hg Hp.
  assert (D : (1 <= dp_dim dp <= 3)%nat) by (rewrite <- En; unfold dim_ok in Hd; lia).
  assert (HL : forall s1 nb, tree_lists dim N s1 nb -> (forall i, (i < N)%nat -> 0 < p_h (d_p (s1 i))) -> lists_ok (dp_dim dp) N (fun i => d_p (s1 i)) nb).
  { intros s1 nb Hl Hh. rewrite <- En. apply tree_lists_ok; assumption. }
  assert (M0 : pos_m N s0) by (intros j Hj; apply Hp, Hj). assert (H0 : pos_h N s0) by (intros j Hj; apply Hp, Hj).
  assert (exists s, sim dp N (tree_lists dim N) (fun s g => gravity = true -> grav s g) gravity k0 s0 t0 (k0 + m) s (t0 + sumn m dts) (dts m)) as (s & H).
  { assert (Hg' : forall s, exists g, gravity = true -> grav s g).
    { intro s. destruct gravity; [destruct (Hg eq_refl s) as (g & G); exists g; auto|]. exists (fun _ => (vzero, 0)). discriminate. }
    induction m as [|m IH].
    - rewrite Nat.add_0_r. cbn [sumn]. rewrite Rplus_0_r.
      destruct (initial_progress dp dim N _ Hd En HN Hks Hk Hsi Hg' Hv He gravity k0 (dts 0%nat) (dts 0%nat) s0 M0 H0) as (s & H).
      exists s. eapply sim_first. exact H.
    - destruct IH as (s & H). destruct (sim_sound dp N _ _ D HN Hw HL _ _ _ _ _ _ _ _ Hr M0 H0 H) as (_ & _ & M & P & _).
      destruct (step_progress dp dim N _ Hd En HN Hks Hk Hsi Hg' Hv He gravity (S (k0 + m)) (dts m) s M P) as (s' & H').
      exists s'. rewrite Nat.add_succ_r. cbn [sumn]. rewrite <- Rplus_assoc. eapply sim_next; eassumption. }
  exists s. split; [repeat split; try assumption; try (apply Hd); apply Hp; assumption|].
  destruct gravity.
  - revert H. generalize (k0 + m)%nat, (t0 + sumn m dts), (dts m). intros k t dt H.
    assert (W : forall l a b, do_ops dp N (tree_lists dim N) (fun s g => true = true -> grav s g) l a b -> do_ops dp N (tree_lists dim N) grav l a b).
    { induction l as [|o l IHl]; intros a b J; [exact J|]. cbn [do_ops] in *. destruct J as (c & J1 & J2). exists c. split; [|apply IHl, J2].
      destruct o; try exact J1. cbn [do_op] in *. destruct J1 as (g & G & J1). exists g. split; [apply G; reflexivity|exact J1]. }
    induction H as [dt dt' dt'' s H|k s t dt dt' s' H IH Hs]; [eapply sim_first|eapply sim_next; [exact IH|]]; apply W; eassumption.
  - eapply sim_nograv, H.
Qed.

(** With the thermokinetic formulation the first iteration succeeds if the
    equation of state starts with positive internal energies. *)
Section Thermo.
Context (dp : dparams) (dim : N) (N : nat) (grav : (nat -> dbody) -> (nat -> point * R) -> Prop).
Context (Hd : dim_ok dim) (En : N.to_nat dim = dp_dim dp) (HN : (0 < N)%nat).
Context (Hks : exists ks, length ks = N /\ StronglySorted N.lt ks /\ Forall (full_key dim) ks).
Context (Hk : decreasing (the_kernel (dp_sph dp))) (Hsi : 1 <= sinc_index (dp_sph dp) <= 12).
Context (Hv : cullen (dp_sph dp) = false) (Ht : dp_thermo dp = true).
Implicit Types s : nat -> dbody.

Definition warm (b : dbody) : Prop := 0 < d_e b - ekin dp b - dp_pot dp (p_pos (d_p b)).
Definition warm_op (o : op) : Prop :=
  match o with
  | OAll f => forall b, warm b -> exists b', f b = Some b' /\ keeps_mh b b' /\ warm b'
  | OPass F => forall b l, In b l -> (forall q, In q l -> 0 < p_m (d_p q) /\ 0 < p_h (d_p q)) -> warm b -> exists b', F b l = Some b' /\ keeps_mh b b' /\ warm b'
  | OSmooth | OGrav => False
  | _ => True
  end.

Lemma warm_progress o s : warm_op o -> pos_m N s -> pos_h N s -> (forall i, (i < N)%nat -> warm (s i)) ->
  exists s', do_op dp N (tree_lists dim N) grav o s s' /\ pos_m N s' /\ pos_h N s' /\ (forall i, (i < N)%nat -> warm (s' i)).
Proof.
  intros T Hm Hh Hw. destruct o as [| |f|F| |]; cbn [do_op warm_op] in *; try (exists s; auto; fail); [| |destruct T|destruct T].
  - exists (fun i => match f (s i) with Some b => b | None => s i end).
    assert (A : forall i, (i < N)%nat -> f (s i) = Some (match f (s i) with Some b => b | None => s i end) /\
      keeps_mh (s i) (match f (s i) with Some b => b | None => s i end) /\ warm (match f (s i) with Some b => b | None => s i end)).
    { intros i Hi. destruct (T (s i) (Hw i Hi)) as (b' & E & K & W). rewrite E. auto. }
    split; [intros i Hi; apply A, Hi|]. split; [|split]; intros i Hi; destruct (A i Hi) as (_ & (E1 & E2) & E3);
      [rewrite E1; apply Hm, Hi|rewrite E2; apply Hh, Hi|exact E3].
  - destruct (tree_lists_exist dim N Hd HN Hks s Hm Hh) as (nb & Hl). pose proof (tree_lists_ok dim N s nb Hd HN Hl Hh) as Ho.
    exists (fun i => match F (s i) (map s (nb i)) with Some b => b | None => s i end).
    assert (A : forall i, (i < N)%nat -> F (s i) (map s (nb i)) = Some (match F (s i) (map s (nb i)) with Some b => b | None => s i end) /\
      keeps_mh (s i) (match F (s i) (map s (nb i)) with Some b => b | None => s i end) /\ warm (match F (s i) (map s (nb i)) with Some b => b | None => s i end)).
    { intros i Hi. destruct (Ho i Hi) as (_ & O2 & O3). destruct (T (s i) (map s (nb i))) as (b' & E & K & W).
      - apply in_map. destruct (in_dec Nat.eq_dec i (nb i)) as [J|J]; [exact J|]. exfalso. specialize (O3 i Hi J).
        rewrite <- dist_norm in O3. unfold dist, dist2 in O3. rewrite (sumn_ext _ _ (fun _ => 0)), sumn_zero, sqrt_0 in O3.
        + specialize (Hh i Hi). lra.
        + intros; ring.
      - intros q Hq. apply in_map_iff in Hq. destruct Hq as (j & <- & Hj). split; [apply Hm, O2, Hj|apply Hh, O2, Hj].
      - apply Hw, Hi.
      - rewrite E. auto. }
    split; [exists nb; split; [exact Hl|intros i Hi; apply A, Hi]|]. split; [|split]; intros i Hi; destruct (A i Hi) as (_ & (E1 & E2) & E3);
      [rewrite E1; apply Hm, Hi|rewrite E2; apply Hh, Hi|exact E3].
Qed.

Lemma warms_progress l s : Forall warm_op l -> pos_m N s -> pos_h N s -> (forall i, (i < N)%nat -> warm (s i)) ->
  exists s', do_ops dp N (tree_lists dim N) grav (l ++ [OSmooth]) s s'.
Proof.
  revert s. induction l as [|o l IH]; intros s T Hm Hh Hw; cbn [app do_ops].
  - exists (new_h dp N s), (new_h dp N s). split; reflexivity.
  - inversion T; subst. destruct (warm_progress o s H1 Hm Hh Hw) as (m & A & B & C & D). destruct (IH m H2 B C D) as (s' & E). exists s', m. auto.
Qed.

Lemma warm_density dt : warm_op (OPass (density_pass dp dt)).
Proof.
  intros b l Hin Hq W. unfold density_pass. cbv zeta. rewrite (proj2 (Rltb_true _ _)), Hv.
  - destruct (dp_evolve dp && dp_thermo dp).
    + unfold recover_internal_energy. cbv zeta.
      change (d_e (set_rho (density (dp_sph dp) (dp_dim dp) (d_p b) (map d_p l)) b) - ekin dp (set_rho (density (dp_sph dp) (dp_dim dp) (d_p b) (map d_p l)) b)
        - dp_pot dp (p_pos (d_p (set_rho (density (dp_sph dp) (dp_dim dp) (d_p b) (map d_p l)) b)))) with (d_e b - ekin dp b - dp_pot dp (p_pos (d_p b))).
      rewrite (proj2 (Rltb_true _ _) W). eexists. split; [reflexivity|]. split; [split; reflexivity|exact W].
    + eexists. split; [reflexivity|]. split; [split; reflexivity|exact W].
  - apply C67_density_positive; [assumption|rewrite <- En; unfold dim_ok in Hd; lia|assumption|apply in_map, Hin|].
    intros p Hp. apply in_map_iff in Hp. destruct Hp as (q & <- & J). apply Hq, J.
Qed.

Lemma warm_rounds dt m : Forall warm_op (energy_rounds dp false dt m).
Proof.
  assert (A : Forall warm_op (energy_round dp false dt)).
  { unfold energy_round. rewrite Ht. cbn [opt app]. constructor; [|constructor; [|constructor]].
    - intros b l _ _ W. eexists. split; [reflexivity|]. split; [split; reflexivity|exact W].
    - intros b W. unfold recompute_thermo, recover_internal_energy. cbv zeta. rewrite (proj2 (Rltb_true _ _) W).
      eexists. split; [reflexivity|]. split; [split; reflexivity|exact W]. }
  induction m as [|m IH]; [constructor|]. cbn [energy_rounds]. destruct m; [exact A|].
  apply Forall_app. split; [exact A|]. constructor; [exact I|exact IH].
Qed.

Lemma thermo_first k dt dt' s : (dp_relax dp <= k)%nat -> pos_m N s -> pos_h N s ->
  (forall i, (i < N)%nat -> 0 < d_u (eos_init dp (s i))) ->
  exists s', do_ops dp N (tree_lists dim N) grav (initial_ops dp false k dt dt') s s'.
Proof.
  intros Hr Hm Hh Hu. unfold initial_ops. cbv zeta. rewrite Ht, Hv, (proj2 (Nat.ltb_ge _ _) Hr). cbn [opt andb]. cbn [app do_ops].
  set (s1 := fun i => set_total_energy dp (eos_init dp (s i))).
  destruct (warms_progress ([OPass (density_pass dp dt); all save_velocityhalf] ++ forces dp false false ++ opt (dp_evolve dp) (energy_rounds dp false dt' (dp_updates dp))) s1)
    as (s' & H).
  - apply Forall_app. split; [constructor; [apply warm_density|constructor; [|constructor]]|].
    { intros b W. eexists. split; [reflexivity|]. split; [split; reflexivity|exact W]. }
    apply Forall_app. split.
    + unfold forces. cbn [opt app]. constructor; [exact I|]. constructor; [|constructor].
      intros b l _ _ W. eexists. split; [reflexivity|]. split; [split; reflexivity|exact W].
    + destruct (dp_evolve dp); [apply warm_rounds|constructor].
  - exact Hm.
  - exact Hh.
  - intros i Hi. specialize (Hu i Hi). unfold warm, s1, set_total_energy. cbn [set_e d_e].
    change (ekin dp (set_e (ekin dp (eos_init dp (s i)) + d_u (eos_init dp (s i)) + dp_pot dp (p_pos (d_p (eos_init dp (s i))))) (eos_init dp (s i))))
      with (ekin dp (eos_init dp (s i))).
    change (p_pos (d_p (set_e (ekin dp (eos_init dp (s i)) + d_u (eos_init dp (s i)) + dp_pot dp (p_pos (d_p (eos_init dp (s i))))) (eos_init dp (s i)))))
      with (p_pos (d_p (eos_init dp (s i)))). lra.
  - exists s', s. split; [reflexivity|]. exists (fun i => eos_init dp (s i)). split; [intros i _; reflexivity|].
    exists s1. split; [intros i _; reflexivity|]. rewrite <- !app_assoc in H. cbn [app] in H. exact H.
Qed.
End Thermo.

(** ** A concrete case: two particles of different mass, moving towards each
    other inside each other's kernel, ideal gas, both formulations. *)
Definition ideal : eos_fun :=
  EosFun (fun rho P u K => P / ((7 / 5 - 1) * rho)) (fun _ _ _ K => K) (fun rho _ u _ => (7 / 5 - 1) * rho * u) (fun rho P _ _ => sqrt (7 / 5 * P / rho)).
Definition par77 (thermo : bool) : dparams :=
  DParams (defaults wendland_c4 false) 1 ideal (fun _ => vzero) (fun _ => 0) 0 0 (1 / 4) 0 0 true thermo 2 HVariable (13 / 10).
Definition two (i : nat) : dbody :=
  match i with
  | 0%nat => DBody (at1 0 1 1 0 0 0 0) 0 vzero 0 0 0 0 0 0 0
  | _ => DBody (at1 (1 / 2) (-2) 3 0 0 0 0) 1 vzero 0 0 0 0 0 0 0
  end.

Lemma two_keys : exists ks, length ks = 2%nat /\ StronglySorted N.lt ks /\ Forall (full_key 1) ks.
Proof.
  exists [2 ^ max_depth 1; 2 ^ max_depth 1 + 1]%N. split; [reflexivity|]. split.
  - apply SSorted_cons; [apply SSorted_cons; [apply SSorted_nil|apply Forall_nil]|].
    apply Forall_cons; [|apply Forall_nil]. vm_compute. reflexivity.
  - apply Forall_cons; [|apply Forall_cons; [|apply Forall_nil]]; split; vm_compute; (reflexivity || discriminate).
Qed.

Example C77_case : forall m (dts : nat -> R),
  (exists s, run (par77 false) 1 2 (fun _ _ => False) false 0 two 0 m s (sumn m dts) (dts m) /\
     sumn 2 (fun i => p_m (d_p (s i)) * p_vel (d_p (s i)) 0%nat) = -5) /\
  (exists s dt, run (par77 true) 1 2 (fun _ _ => False) false 0 two 0 0 s 0 dt /\
     sumn 2 (fun i => p_m (d_p (s i)) * d_e (s i)) = 33 / 2).
Proof.
  intros m dts. split.
  - destruct (C77_never_stops (par77 false) 1 2 (fun _ _ => False) false 0 two 0 dts m) as (s & H); cbn [par77 dp_sph dp_dim dp_etaw dp_relax dp_evolve dp_thermo];
      try reflexivity; try lra; try lia.
    + left; reflexivity.
    + exact two_keys.
    + apply C66_case.
    + cbn. lra.
    + intros [|i] _; cbn; lra.
    + cbn [Nat.add] in H. rewrite Rplus_0_l in H. exists s. split; [exact H|].
      destruct (C77_motion _ _ _ _ _ _ _ _ _ _ _ _ H) as (M & _); [reflexivity|discriminate|]. rewrite M. cbn. lra.
  - destruct (thermo_first (par77 true) 1 2 (fun _ _ => False)) with (k := 0%nat) (dt := 1) (dt' := 1) (s := two) as (s & H); try reflexivity; try lia.
    + left; reflexivity.
    + exact two_keys.
    + apply C66_case.
    + cbn. lra.
    + intros [|i] _; cbn; lra.
    + intros [|i] _; cbn; lra.
    + intros [|i] _; cbn; lra.
    + assert (Rn : run (par77 true) 1 2 (fun _ _ => False) false 0 two 0 0 s 0 1).
      { split; [|eapply sim_first; exact H]. split; [left; reflexivity|]. split; [reflexivity|]. split; [lia|]. split; [cbn; lra|].
        split; [cbn; lia|]. intros [|i] _; cbn; lra. }
      exists s, 1. split; [exact Rn|]. rewrite (C77_energy _ _ _ _ _ _ _ _ _ _ _ Rn); [|reflexivity|cbn; lia].
      cbn. unfold dot. cbn. lra.
Qed.

Print Assumptions C77_particles.
Print Assumptions C77_motion.
Print Assumptions C77_energy.
Print Assumptions C77_never_stops.
