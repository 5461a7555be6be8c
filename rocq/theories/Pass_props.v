(** Runs of the driver on several ranks: C79. *)
From Verif Require Import Base Vec Geometry_model Geometry_props Kernel_model Kernel_props Sph_model Sph_props SphMore_props EForce_model
  BuildTree_spec Driver_model Driver_proofs Driver_run Driver_tree Driver_props Pass_model Pass_proofs Pass_run Pass_same.
From Coq Require Import Permutation.
Local Open Scope R_scope.

(** The lists of the tree (C13, C77) are complete. *)
Theorem C79_tree_lists dim N s nb : dim_ok dim -> (0 < N)%nat -> tree_lists dim N s nb ->
  (forall i, (i < N)%nat -> 0 < p_h (d_p (s i))) -> complete (N.to_nat dim) N s nb.
Proof. intros Hd HN Hl Hh i Hi. exact (tree_lists_far dim N s nb Hd HN Hl Hh i Hi). Qed.

Lemma dist_ops_nograv dp N nranks grav grav' l st st' : ~ In OGrav l ->
  dist_ops dp N nranks grav l st st' -> dist_ops dp N nranks grav' l st st'.
Proof.
  revert st. induction l as [|o l IH]; intros st Hn H; [exact H|]. cbn [dist_ops] in *. destruct H as (m & H1 & H2). exists m. split.
  - destruct o; try exact H1. exfalso. apply Hn. left. reflexivity.
  - apply IH; [|exact H2]. intro J. apply Hn. right. exact J.
Qed.
Lemma no_grav_program dp k0 dt dt' dts : ~ In OGrav (program dp false k0 dt dt' dts).
Proof.
  unfold program. rewrite in_app_iff. intros [H|H]; [exact (no_grav_initial _ _ _ _ H)|].
  revert k0 H. induction dts as [|x dts IH]; intros k0 H; [exact H|]. cbn [loop_ops] in H. rewrite in_app_iff in H.
  destruct H as [H|H]; [exact (no_grav_step _ _ _ H)|exact (IH _ H)].
Qed.

(** The gravity solver, if used, is a function of the positions, masses and smoothing lengths (these enter the range, the
    keys and so the tree). *)
Definition grav_fun (N : nat) (grav : (nat -> dbody) -> (nat -> point * R) -> Prop) : Prop :=
  (forall s s' g, (forall i, (i < N)%nat -> p_pos (d_p (s i)) = p_pos (d_p (s' i)) /\ p_m (d_p (s i)) = p_m (d_p (s' i)) /\ p_h (d_p (s i)) = p_h (d_p (s' i))) -> grav s g -> grav s' g) /\
  (forall s g g', grav s g -> grav s g' -> forall i, (i < N)%nat -> g i = g' i).

Lemma grav_fun_False N : grav_fun N (fun _ _ => False).
Proof. split; tauto. Qed.

Section C79.
Context (dp : dparams) (N : nat) (grav : (nat -> dbody) -> (nat -> point * R) -> Prop) (gravity : bool).
Notation n := (dp_dim dp).
Context (Hc : cullen (dp_sph dp) = false) (Hg : gravity = true -> grav_fun N grav).

(** A run on any number of ranks is a run of the passes on the undistributed
    particles, up to the signal speeds. *)
Theorem C79_sequential nranks k0 dt dt' dts st st' :
  dist_ops dp N nranks grav (program dp gravity k0 dt dt' dts) st st' ->
  exists s', do_ops dp N (complete n N) grav (program dp gravity k0 dt dt' dts) (ds_cur st) s' /\
    forall i, (i < N)%nat -> but_vsig (s' i) (ds_cur st' i).
Proof.
  intro H. assert (K : forall gr, grav_fun N gr -> dist_ops dp N nranks gr (program dp gravity k0 dt dt' dts) st st' ->
    exists s', do_ops dp N (complete n N) gr (program dp gravity k0 dt dt' dts) (ds_cur st) s' /\
    forall i, (i < N)%nat -> but_vsig (s' i) (ds_cur st' i)).
  { intros gr Hgr H'. destruct (ok_safe dp N nranks gr (proj1 Hgr) _ _ _ (ok_program dp Hc gravity k0 dt dt' dts) st st' (ds_cur st)) as (s' & D & Rl & _).
    - intros i _. reflexivity.
    - intros r j b _ _ _. exact I.
    - exact H'.
    - exists s'. split; [exact D|]. intros i Hi. apply nov_but. symmetry. apply Rl, Hi. }
  destruct gravity eqn:Eg.
  - apply K; [apply Hg; reflexivity|exact H].
  - destruct (K (fun _ _ => False) (grav_fun_False N)) as (s' & D & B).
    + eapply dist_ops_nograv; [apply no_grav_program|exact H].
    + exists s'. split; [|exact B]. eapply do_ops_nograv; [apply no_grav_program|exact D].
Qed.

(** Conversely every such run can be done on every number of ranks, with every
    assignment of the particles and every order of processing them. *)
Theorem C79_realised nranks own ord k0 dt dt' dts s s' :
  (forall i, (i < N)%nat -> (own i < nranks)%nat) -> Permutation ord (seq 0 N) ->
  do_ops dp N (complete n N) grav (program dp gravity k0 dt dt' dts) s s' ->
  exists st st', ds_cur st = s /\ dist_ops dp N nranks grav (program dp gravity k0 dt dt' dts) st st' /\
    ds_own st' = own /\ forall i, (i < N)%nat -> but_vsig (s' i) (ds_cur st' i).
Proof.
  intros Hown Hord H. assert (K : forall gr, grav_fun N gr -> do_ops dp N (complete n N) gr (program dp gravity k0 dt dt' dts) s s' ->
    exists st st', ds_cur st = s /\ dist_ops dp N nranks gr (program dp gravity k0 dt dt' dts) st st' /\
    ds_own st' = own /\ forall i, (i < N)%nat -> but_vsig (s' i) (ds_cur st' i)).
  { intros gr Hgr H'. exists (copies own s).
    destruct (ok_live dp N nranks gr own Hown ord Hord (proj1 Hgr) _ _ _ (ok_program dp Hc gravity k0 dt dt' dts) (copies own s) s s') as (st' & D & Rl & _ & Y & _).
    - intros i _. reflexivity.
    - intros r j b _ _ _. exact I.
    - apply copies_ready.
    - exact H'.
    - exists st'. split; [reflexivity|]. split; [exact D|]. split; [exact Y|]. intros i Hi. apply nov_but. symmetry. apply Rl, Hi. }
  destruct gravity eqn:Eg.
  - apply K; [apply Hg; reflexivity|exact H].
  - destruct (K (fun _ _ => False) (grav_fun_False N)) as (st & st' & C & D & O & B).
    + eapply do_ops_nograv; [apply no_grav_program|exact H].
    + exists st, st'. split; [exact C|]. split; [|split; [exact O|exact B]]. eapply dist_ops_nograv; [apply no_grav_program|exact D].
Qed.

(** Two runs with the same time steps from the same particles, on any numbers
    of ranks, with any assignments, interleavings, orders of processing and
    complete lists, end with the same particles, up to the signal speeds. *)
Theorem C79_same n1 n2 k0 dt dt' dts st1 st2 st1' st2' :
  (1 <= n <= 3)%nat -> (0 < N)%nat -> 0 < dp_etaw dp -> dp_rrad dp <= 1 ->
  (forall i, (i < N)%nat -> ds_cur st1 i = ds_cur st2 i /\ 0 < p_m (d_p (ds_cur st1 i)) /\ 0 < p_h (d_p (ds_cur st1 i))) ->
  dist_ops dp N n1 grav (program dp gravity k0 dt dt' dts) st1 st1' ->
  dist_ops dp N n2 grav (program dp gravity k0 dt dt' dts) st2 st2' ->
  forall i, (i < N)%nat -> but_vsig (ds_cur st1' i) (ds_cur st2' i).
Proof.
  intros Hd HN Hw Hr H0 H1 H2 i Hi.
  destruct (C79_sequential n1 k0 dt dt' dts st1 st1' H1) as (s1 & D1 & B1).
  destruct (C79_sequential n2 k0 dt dt' dts st2 st2' H2) as (s2 & D2 & B2).
  assert (K : forall gr, grav_fun N gr -> do_ops dp N (complete n N) gr (program dp gravity k0 dt dt' dts) (ds_cur st1) s1 ->
    do_ops dp N (complete n N) gr (program dp gravity k0 dt dt' dts) (ds_cur st2) s2 -> nov (s1 i) = nov (s2 i)).
  { intros gr (G1 & G2) A1 A2.
    destruct (same_program dp N gr Hd HN Hw Hr Hc) with (gravity := gravity) (k0 := k0) (dt := dt) (dt' := dt') (dts := dts)
      (s1 := ds_cur st1) (s2 := ds_cur st2) (s1' := s1) (s2' := s2) as (_ & Q); try assumption.
    - intros s s' g g' E Ga Gb. apply (G2 s'); [|exact Gb]. eapply G1; eassumption.
    - split; intros j Hj; apply H0, Hj.
    - intros j Hj. destruct (H0 j Hj) as (-> & _). reflexivity.
    - apply Q, Hi. }
  assert (Q : nov (s1 i) = nov (s2 i)).
  { destruct gravity eqn:Eg.
    - apply (K grav); [apply Hg; reflexivity|exact D1|exact D2].
    - apply (K (fun _ _ => False)); [apply grav_fun_False|eapply do_ops_nograv; [apply no_grav_program|eassumption]..]. }
  apply nov_but. specialize (B1 i Hi). specialize (B2 i Hi). apply nov_but in B1. apply nov_but in B2. congruence.
Qed.
End C79.

(** ** Conservation on several ranks *)
Lemma loop_sim dp N lists grav gravity k0 s0 t0 : forall dts k s t s', (forall dt, sim dp N lists grav gravity k0 s0 t0 k s t dt) ->
  do_ops dp N lists grav (loop_ops dp gravity k dts) s s' -> exists k', forall dt, sim dp N lists grav gravity k0 s0 t0 k' s' (t + suml (fun x => x) dts) dt.
Proof.
  induction dts as [|d dts IH]; intros k s t s' H1 H2.
  - cbn in H2. subst s'. exists k. intro dt. cbn [suml]. rewrite Rplus_0_r. apply H1.
  - cbn [loop_ops] in H2. apply Driver_proofs.do_ops_app in H2. destruct H2 as (m & A & B).
    destruct (IH (S k) m (t + d) s') as (k' & K).
    + intro dt. eapply sim_next; [apply (H1 d)|exact A].
    + exact B.
    + exists k'. intro dt. cbn [suml]. rewrite <- Rplus_assoc. apply K.
Qed.
Lemma program_sim dp N lists grav gravity k0 s0 t0 dt dt' dts s :
  do_ops dp N lists grav (program dp gravity k0 dt dt' dts) s0 s -> exists k, forall d, sim dp N lists grav gravity k0 s0 t0 k s (t0 + suml (fun x => x) dts) d.
Proof.
  intro H. unfold program in H. apply Driver_proofs.do_ops_app in H. destruct H as (m & A & B).
  eapply loop_sim; [|exact B]. intro d. eapply sim_first, A.
Qed.

(** Momentum, uniform motion of the centre of mass, angular momentum and, with
    the thermokinetic formulation, energy, on any number of ranks. *)
Theorem C79_conserved dp N nranks grav k0 dt dt' dts st st' :
  cullen (dp_sph dp) = false -> (1 <= dp_dim dp <= 3)%nat -> (0 < N)%nat -> 0 < dp_etaw dp -> (dp_relax dp <= k0)%nat ->
  (forall x j, dp_ext dp x j = 0) ->
  (forall i, (i < N)%nat -> 0 < p_m (d_p (ds_cur st i)) /\ 0 < p_h (d_p (ds_cur st i))) ->
  dist_ops dp N nranks grav (program dp false k0 dt dt' dts) st st' ->
  let s := ds_cur st in let s' := ds_cur st' in
  (forall j, sumn N (fun i => p_m (d_p (s' i)) * p_vel (d_p (s' i)) j) = sumn N (fun i => p_m (d_p (s i)) * p_vel (d_p (s i)) j)) /\
  (forall j, sumn N (fun i => p_m (d_p (s' i)) * p_pos (d_p (s' i)) j) =
     sumn N (fun i => p_m (d_p (s i)) * p_pos (d_p (s i)) j) + suml (fun x => x) dts * sumn N (fun i => p_m (d_p (s i)) * p_vel (d_p (s i)) j)) /\
  (forall j l, sumn N (fun i => p_m (d_p (s' i)) * (p_pos (d_p (s' i)) j * p_vel (d_p (s' i)) l - p_pos (d_p (s' i)) l * p_vel (d_p (s' i)) j)) =
     sumn N (fun i => p_m (d_p (s i)) * (p_pos (d_p (s i)) j * p_vel (d_p (s i)) l - p_pos (d_p (s i)) l * p_vel (d_p (s i)) j))) /\
  (dp_thermo dp = true -> (1 <= dp_updates dp)%nat ->
     sumn N (fun i => p_m (d_p (s' i)) * d_e (s' i)) =
     sumn N (fun i => p_m (d_p (s i)) * (1 / 2 * dot (dp_dim dp) (p_vel (d_p (s i))) (p_vel (d_p (s i))) +
       eos_u (dp_eos dp) (p_rho (d_p (s i))) (p_P (d_p (s i))) (d_u (s i)) (d_K (s i)) + dp_pot dp (p_pos (d_p (s i)))))).
Proof.
  intros Hc Hd HN Hw Hr Hext H0 H. cbv zeta.
  destruct (C79_sequential dp N grav false Hc (fun E => match Bool.diff_false_true E with end) nranks k0 dt dt' dts st st' H) as (m & D & B).
  assert (P : forall i, (i < N)%nat -> d_p (ds_cur st' i) = d_p (m i) /\ d_e (ds_cur st' i) = d_e (m i)).
  { intros i Hi. destruct (B i Hi) as (v & ->). split; reflexivity. }
  apply (do_ops_nograv _ _ _ _ (fun _ _ => False)) in D; [|apply no_grav_program].
  apply (program_sim _ _ _ _ _ _ _ 0) in D. destruct D as (k & D). specialize (D 0).
  assert (HL : forall s1 nb, complete (dp_dim dp) N s1 nb -> (forall i, (i < N)%nat -> 0 < p_h (d_p (s1 i))) -> lists_ok (dp_dim dp) N (fun i => d_p (s1 i)) nb).
  { intros s1 nb C _ i Hi. destruct (C i Hi) as (C1 & C2 & C3). split; [exact C1|]. split; [exact C2|]. intros j Hj Hn. apply Rlt_le, C3; assumption. }
  assert (M0 : pos_m N (ds_cur st)) by (intros j Hj; apply H0, Hj). assert (P0 : pos_h N (ds_cur st)) by (intros j Hj; apply H0, Hj).
  assert (F1 : forall (s1 : nat -> dbody) (g : nat -> point * R), False -> forall j, sumn N (fun i => p_m (d_p (s1 i)) * fst (g i) j) = 0) by tauto.
  assert (F2 : forall (s1 : nat -> dbody) (g : nat -> point * R), False -> forall j l,
      sumn N (fun i => p_m (d_p (s1 i)) * (p_pos (d_p (s1 i)) j * fst (g i) l - p_pos (d_p (s1 i)) l * fst (g i) j)) = 0) by tauto.
  destruct (sim_motion dp N _ _ Hd HN Hw HL Hext F1 F2 _ _ _ _ _ _ _ _ Hr M0 P0 D) as (A1 & A2 & A3 & _).
  split; [|split; [|split]].
  - intro j. etransitivity; [|exact (A1 j)]. apply sumn_ext. intros i Hi. destruct (P i Hi) as (-> & _). reflexivity.
  - intro j. specialize (A2 j). rewrite Rplus_0_l, Rminus_0_r in A2. etransitivity; [|exact A2].
    apply sumn_ext. intros i Hi. destruct (P i Hi) as (-> & _). reflexivity.
  - intros j l. etransitivity; [|exact (A3 j l)]. apply sumn_ext. intros i Hi. destruct (P i Hi) as (-> & _). reflexivity.
  - intros T U. destruct (sim_energy dp N _ _ Hd HN Hw HL _ _ _ _ _ _ _ Hr M0 P0 T U D) as (A4 & _).
    etransitivity; [|exact A4]. apply sumn_ext. intros i Hi. destruct (P i Hi) as (-> & ->). reflexivity.
Qed.

(** ** What does depend on the distribution *)
Definition eosK : eos_fun := EosFun (fun _ _ u _ => u) (fun _ _ _ K => K) (fun _ _ _ _ => 1) (fun _ _ _ K => K).
Definition parK (cul : bool) : dparams :=
  DParams (defaults wendland_c4 cul) 1 eosK (fun _ => vzero) (fun _ => 0) 0 0 (1 / 4) 0 0 true false 1 HFixed (13 / 10).
(** two particles at rest with sound speeds 1 and 2 to be computed, 0 so far *)
Definition pairK (i : nat) : dbody :=
  match i with
  | 0%nat => DBody (at1 0 0 1 0 1 0 0) 0 vzero 0 0 0 0 0 1 0
  | _ => DBody (at1 (1 / 2) 0 1 0 1 0 0) 1 vzero 0 0 0 0 0 2 0
  end.
Definition everyone (i : nat) : list nat := [0; 1]%nat.

Definition calm (q : part) (x c : R) : Prop :=
  p_pos q = (fun _ => x) /\ p_vel q = (fun _ => 0) /\ p_m q = 1 /\ p_h q = 1 /\ p_alpha q = 1 /\ p_divv q = 0 /\ p_ddivv q = 0 /\ p_c q = c.

Definition rest (q : part) (x c : R) : Prop := p_pos q = (fun _ => x) /\ p_vel q = (fun _ => 0) /\ p_c q = c.
Lemma calm_rest q x c : calm q x c -> rest q x c.
Proof. intros (H1 & H2 & _ & _ & _ & _ & _ & H3). split; [exact H1|]. split; [exact H2|exact H3]. Qed.

Lemma everyone_complete s : complete 1 2 s everyone.
Proof.
  intros i Hi. split; [repeat constructor; cbn; intuition discriminate|]. split; [cbn; intros j [<-|[<-|[]]]; lia|].
  intros j Hj Hn. exfalso. apply Hn. cbn. destruct j as [|[|j]]; [now left|right; now left|lia].
Qed.

Lemma density_K cul b q0 q1 x0 c0 x1 c1 c : b = q0 \/ b = q1 -> calm (d_p q0) x0 c0 -> calm (d_p q1) x1 c1 -> calm (d_p b) (p_pos (d_p b) 0%nat) c ->
  exists b', density_pass (parK cul) 1 b [q0; q1] = Some b' /\ calm (d_p b') (p_pos (d_p b) 0%nat) (d_K b) /\ d_K b' = d_K b /\
    exists p, p_pos p = p_pos (d_p b) /\ p_vel p = p_vel (d_p b) /\ p_c p = d_K b /\ d_vsig b' = signal_speed 1 p [d_p q0; d_p q1].
Proof.
  intros Hb K0 K1 Kb. unfold density_pass. cbv zeta. cbn [dp_evolve dp_thermo parK andb].
  assert (D : 0 < density (dp_sph (parK cul)) (dp_dim (parK cul)) (d_p b) (map d_p [q0; q1])).
  { apply C67_density_positive.
    - apply C66_case.
    - cbn. lia.
    - cbn. lra.
    - apply in_map. destruct Hb as [->| ->]; cbn; auto.
    - intros p Hp. cbn in Hp. destruct Hp as [<-|[<-|[]]]; [destruct K0 as (_ & _ & -> & -> & _)|destruct K1 as (_ & _ & -> & -> & _)]; lra. }
  rewrite (proj2 (Rltb_true _ _) D). eexists. split; [reflexivity|].
  destruct Kb as (B1 & B2 & B3 & B4 & B5 & B6 & B7 & B8).
  destruct cul; cbn [cullen dp_sph parK defaults].
  - set (p := d_p (compute_soundspeed _ _)).
    assert (Dv : forall q, p_vel q = (fun _ => 0) -> divergence (Params 4 wendland_c4 true 1 2 (1 / 100) 1 1 (5 / 100)) 1 q (map d_p [q0; q1]) = 0).
    { intros q Hq. unfold divergence, Rdiv. cbn [map suml]. unfold dot. cbn [sumn]. rewrite Hq. ring. }
    split; [|split; [reflexivity|exists p; repeat split]].
    unfold calm. cbn. split; [exact B1|]. split; [exact B2|]. split; [exact B3|]. split; [exact B4|]. split; [exact B5|].
    split; [apply (Dv p B2)|]. split; [|reflexivity].
    etransitivity; [apply (f_equal (fun z => (z - p_divv (d_p b)) / 1)); apply (Dv p B2)|]. rewrite B6. field.
  - set (p := d_p (compute_soundspeed _ _)). split; [|split; [reflexivity|exists p; repeat split]].
    unfold calm. cbn. repeat (split; [assumption|]). reflexivity.
Qed.

Lemma signal_K a q0 q1 c0 c1 : p_pos a = (fun _ => 0) \/ p_pos a = (fun _ => 1 / 2) -> p_vel a = (fun _ => 0) ->
  rest q0 0 c0 -> rest q1 (1 / 2) c1 -> 0 < p_c a -> 0 <= c0 -> 0 <= c1 ->
  (p_pos a = (fun _ => 0) -> signal_speed 1 a [q0; q1] = Rmax (p_c a) c1) /\ 0 < signal_speed 1 a [q0; q1].
Proof.
  intros Ha Hv (A1 & A2 & A8) (B1 & B2 & B8) Hc H0 H1.
  assert (Z : forall w q : point, q = (fun _ => 0) -> Rmin (dot 1 (vsub (p_vel a) q) w) 0 = 0).
  { intros w q ->. unfold dot, vsub. cbn [sumn]. rewrite Hv. replace (0 + (0 - 0) * w 0%nat) with 0 by ring. apply Rmin_left. lra. }
  assert (Q : forall c, 0 < Rmax (p_c a) c) by (intro c; pose proof (Rmax_l (p_c a) c); lra).
  unfold signal_speed. cbn [fold_left]. cbv zeta. rewrite A8, B8, !(Z _ _ A2), !(Z _ _ B2), A1, B1.
  destruct Ha as [-> | ->]; unfold same_pos; cbn [same_upto].
  - destruct (Req_EM_T 0 0) as [_|F]; [|congruence]. destruct (Req_EM_T 0 (1 / 2)) as [F|_]; [exfalso; lra|]. cbn [andb].
    rewrite !Rminus_0_r. rewrite (Rmax_right 0) by (pose proof (Q c1); lra). split; [reflexivity|apply Q].
  - destruct (Req_EM_T (1 / 2) 0) as [F|_]; [exfalso; lra|]. destruct (Req_EM_T (1 / 2) (1 / 2)) as [_|F]; [|congruence]. cbn [andb].
    rewrite !Rminus_0_r. rewrite (Rmax_right 0) by (pose proof (Q c0); lra). split; [|apply Q].
    intro F. exfalso. apply (f_equal (fun f => f 0%nat)) in F. lra.
Qed.

Definition start (own : nat -> nat) : dstate := DState pairK own (fun r j => if Nat.eqb (own j) r then None else Some (pairK j)).
Lemma calm0 : calm (d_p (pairK 0)) 0 0.
Proof. repeat split. Qed.
Lemma calm1 : calm (d_p (pairK 1)) (1 / 2) 0.
Proof. repeat split. Qed.

(** On one process the signal speeds depend on the order in which the
    particles are processed: the sound speed of a neighbour is that of this
    or of the last iteration. *)
Theorem C79_vsig_refuted : exists dp dt st st1 st2,
  dist_op dp 2 1 (fun _ _ => False) (OPass (density_pass dp dt)) st st1 /\
  dist_op dp 2 1 (fun _ _ => False) (OPass (density_pass dp dt)) st st2 /\
  d_vsig (ds_cur st1 0) <> d_vsig (ds_cur st2 0).
Proof.
  destruct (density_K false (pairK 0) (pairK 0) (pairK 1) 0 0 (1 / 2) 0 0 (or_introl eq_refl) calm0 calm1 calm0) as (a0 & A1 & A2 & A3 & pa & A4 & A5 & A6 & A7).
  destruct (density_K false (pairK 1) a0 (pairK 1) 0 1 (1 / 2) 0 0 (or_intror eq_refl) A2 calm1 calm1) as (a1 & A8 & _).
  destruct (density_K false (pairK 1) (pairK 0) (pairK 1) 0 0 (1 / 2) 0 0 (or_intror eq_refl) calm0 calm1 calm1) as (b1 & B1 & B2 & B3 & _).
  destruct (density_K false (pairK 0) (pairK 0) b1 0 0 (1 / 2) 2 0 (or_introl eq_refl) calm0 B2 calm0) as (b0 & B4 & B5 & B6 & pb & B7 & B8 & B9 & B10).
  exists (parK false), 1, (start (fun _ => 0%nat)). do 2 eexists. split; [|split].
  - exists everyone, [Apply 0; Apply 1]. split; [apply everyone_complete|]. split; [apply Permutation_refl|].
    eapply steps_cons; [eapply step_apply; [reflexivity|exact A1]|].
    eapply steps_cons; [eapply step_apply; [reflexivity|exact A8]|]. apply steps_nil.
  - exists everyone, [Apply 1; Apply 0]. split; [apply everyone_complete|]. split; [apply perm_swap|].
    eapply steps_cons; [eapply step_apply; [reflexivity|exact B1]|].
    eapply steps_cons; [eapply step_apply; [reflexivity|exact B4]|]. apply steps_nil.
  - cbn. rewrite A7, B10.
    destruct (signal_K pa (d_p (pairK 0)) (d_p (pairK 1)) 0 0) as (Sa & _); [left; exact A4|exact A5|exact (calm_rest _ _ _ calm0)|exact (calm_rest _ _ _ calm1)|rewrite A6; cbn; lra|lra|lra|].
    destruct (signal_K pb (d_p (pairK 0)) (d_p b1) 0 2) as (Sb & _); [left; exact B7|exact B8|exact (calm_rest _ _ _ calm0)|exact (calm_rest _ _ _ B2)|rewrite B9; cbn; lra|lra|lra|].
    rewrite (Sa A4), (Sb B7), A6, B9. cbn. rewrite Rmax_left, Rmax_right by lra. lra.
Qed.

Lemma alpha_K b q0 q1 c c0 c1 x : calm (d_p b) x c -> x = 0 \/ x = 1 / 2 -> rest (d_p q0) 0 c0 -> rest (d_p q1) (1 / 2) c1 -> 0 < c -> 0 <= c0 -> 0 <= c1 ->
  exists b', alpha_pass (parK true) 1 b [q0; q1] = Some b' /\ rest (d_p b') x c /\ (x = 0 -> p_alpha (d_p b') = exp (- (1 / 10) * Rmax c c1)).
Proof.
  intros Kb Hx K0 K1 Hc H0 H1. pose proof Kb as (B1 & B2 & B3 & B4 & B5 & B6 & B7 & B8).
  destruct (signal_K (d_p b) (d_p q0) (d_p q1) c0 c1) as (Sg & Sp); [rewrite B1; destruct Hx as [->| ->]; auto|exact B2|exact K0|exact K1|rewrite B8; exact Hc|exact H0|exact H1|].
  unfold alpha_pass, new_alpha, alpha_loc. cbv zeta. cbn [map dp_dim dp_sph parK]. set (v := signal_speed 1 (d_p b) [d_p q0; d_p q1]) in *.
  unfold trigger. rewrite B4, B5, B7. rewrite (Rmax_right (- 0) 0) by lra. rewrite Rmult_0_r, Rplus_0_r.
  cbn [v_delta v_alpha_max v_l defaults].
  destruct (Req_EM_T _ 0) as [F|_].
  { exfalso. assert (v * v = 0) by (unfold Rdiv in F; rewrite Rinv_1 in F; lra). nra. }
  assert (L0 : 1 * 0 / (1 * (v / 1 * (v / 1))) = 0) by (unfold Rdiv; ring). rewrite L0.
  rewrite (proj2 (Rleb_false 1 0)) by lra. eexists. split; [reflexivity|]. split; [exact (calm_rest _ _ _ Kb)|]. intro Ex. subst x. cbn [set_alpha with_p d_p p_alpha]. rewrite Rmult_1_l. f_equal.
  rewrite (Sg B1), B8. field.
Qed.

(** With the Cullen viscosity the particles depend on the distribution: the
    copies of remote particles used for the viscosity coefficients were made
    before the sound speeds were computed. *)
Theorem C79_cullen_refuted : exists dp dt st1 st2 st1' st2',
  ds_cur st1 = ds_cur st2 /\
  dist_ops dp 2 1 (fun _ _ => False) [OUpdate; OPass (density_pass dp dt); OPass (alpha_pass dp dt)] st1 st1' /\
  dist_ops dp 2 2 (fun _ _ => False) [OUpdate; OPass (density_pass dp dt); OPass (alpha_pass dp dt)] st2 st2' /\
  p_alpha (d_p (ds_cur st1' 0)) <> p_alpha (d_p (ds_cur st2' 0)).
Proof.
  destruct (density_K true (pairK 0) (pairK 0) (pairK 1) 0 0 (1 / 2) 0 0 (or_introl eq_refl) calm0 calm1 calm0) as (a0 & A1 & A2 & A3 & _).
  destruct (density_K true (pairK 1) a0 (pairK 1) 0 1 (1 / 2) 0 0 (or_intror eq_refl) A2 calm1 calm1) as (a1 & A4 & A5 & A6 & _).
  destruct (alpha_K a0 a0 a1 1 1 2 0 A2 (or_introl eq_refl) (calm_rest _ _ _ A2) (calm_rest _ _ _ A5)) as (a0' & A7 & A8 & A9); [lra..|].
  destruct (alpha_K a1 a0' a1 2 1 2 (1 / 2) A5 (or_intror eq_refl) A8 (calm_rest _ _ _ A5)) as (a1' & A10 & _); [lra..|].
  destruct (density_K true (pairK 1) (pairK 0) (pairK 1) 0 0 (1 / 2) 0 0 (or_intror eq_refl) calm0 calm1 calm1) as (b1 & B1 & B2 & B3 & _).
  destruct (alpha_K a0 a0 (pairK 1) 1 1 0 0 A2 (or_introl eq_refl) (calm_rest _ _ _ A2) (calm_rest _ _ _ calm1)) as (b0' & B4 & _ & B5); [lra..|].
  destruct (alpha_K b1 (pairK 0) b1 2 0 2 (1 / 2) B2 (or_intror eq_refl) (calm_rest _ _ _ calm0) (calm_rest _ _ _ B2)) as (b1' & B6 & _); [lra..|].
  exists (parK true), 1, (start (fun _ => 0%nat)), (start (fun i => i)). do 2 eexists. split; [reflexivity|]. split; [|split].
  - exists (start (fun _ => 0%nat)). split; [split; [intros; cbn; lia|split; [reflexivity|]]|].
    { intros r j b Hj. cbn. destruct r; [discriminate|]. intros [= <-]. reflexivity. }
    eexists. split; [exists everyone, [Apply 0; Apply 1]; split; [apply everyone_complete|]; split; [apply Permutation_refl|]|].
    { eapply steps_cons; [eapply step_apply; [reflexivity|exact A1]|].
      eapply steps_cons; [eapply step_apply; [reflexivity|exact A4]|]. apply steps_nil. }
    eexists. split; [exists everyone, [Apply 0; Apply 1]; split; [apply everyone_complete|]; split; [apply Permutation_refl|]|].
    { eapply steps_cons; [eapply step_apply; [reflexivity|exact A7]|].
      eapply steps_cons; [eapply step_apply; [reflexivity|exact A10]|]. apply steps_nil. }
    reflexivity.
  - exists (start (fun i => i)). split; [split; [intros; cbn; lia|split; [reflexivity|]]|].
    { intros r j b Hj. cbn. destruct (Nat.eqb j r); [discriminate|]. intros [= <-]. reflexivity. }
    eexists. split; [exists everyone, [Apply 0; Apply 1]; split; [apply everyone_complete|]; split; [apply Permutation_refl|]|].
    { eapply steps_cons; [eapply step_apply; [reflexivity|exact A1]|].
      eapply steps_cons; [eapply step_apply; [reflexivity|exact B1]|]. apply steps_nil. }
    eexists. split; [exists everyone, [Apply 0; Apply 1]; split; [apply everyone_complete|]; split; [apply Permutation_refl|]|].
    { eapply steps_cons; [eapply step_apply; [reflexivity|exact B4]|].
      eapply steps_cons; [eapply step_apply; [reflexivity|exact B6]|]. apply steps_nil. }
    reflexivity.
  - cbn. rewrite (A9 eq_refl), (B5 eq_refl). rewrite Rmax_right, Rmax_left by lra. intro F. apply exp_inv in F. lra.
Qed.

(** ** Runs exist for the internal-energy formulation *)
Section Exist.
Context (dp : dparams) (N : nat) (grav : (nat -> dbody) -> (nat -> point * R) -> Prop).
Notation n := (dp_dim dp).
Notation sops := (do_ops dp N (complete n N) grav).
Context (Hdim : (1 <= n <= 3)%nat) (HN : (0 < N)%nat) (Hw : 0 < dp_etaw dp) (Hc : cullen (dp_sph dp) = false) (Ht : dp_thermo dp = false).
Context (Hk : decreasing (the_kernel (dp_sph dp))) (Hs : 1 <= sinc_index (dp_sph dp) <= 12).

Definition go (P : (nat -> dbody) -> Prop) (l : list op) (Q : (nat -> dbody) -> Prop) : Prop := forall s, P s -> exists s', sops l s s' /\ Q s'.
Notation PA := (PA N).
Notation PB := (PB N).

Lemma go_nil P : go P [] P.
Proof. intros s H. exists s. cbn. auto. Qed.
Lemma go_app P Q S l1 l2 : go P l1 Q -> go Q l2 S -> go P (l1 ++ l2) S.
Proof.
  intros A B s H. destruct (A s H) as (m & A1 & A2). destruct (B m A2) as (s' & B1 & B2). exists s'. split; [|exact B2].
  apply Driver_proofs.do_ops_app. exists m. auto.
Qed.
Lemma go_cons P Q S o l : go P [o] Q -> go Q l S -> go P (o :: l) S.
Proof. apply (go_app P Q S [o] l). Qed.
Lemma go_opt (P : (nat -> dbody) -> Prop) (c : bool) l : go P l P -> go P (opt c l) P.
Proof. intro H. destruct c; [exact H|apply go_nil]. Qed.
Lemma go_update P : go P [OUpdate] P.
Proof. intros s H. exists s. split; [exists s; split; reflexivity|exact H]. Qed.
Lemma go_reset P : go P [OReset] P.
Proof. intros s H. exists s. split; [exists s; split; reflexivity|exact H]. Qed.
Lemma go_all P f : stable N P -> (forall b, EM b (f b)) -> go P [all f] P.
Proof.
  intros St K s H. exists (fun i => f (s i)). split; [eexists; split; [|reflexivity]; cbn; reflexivity|]. apply (St s); [|exact H]. intros i Hi. apply K.
Qed.
Lemma all_complete s : complete n N s (fun _ => seq 0 N).
Proof.
  intros i Hi. split; [apply seq_NoDup|]. split; [intros j Hj; apply in_seq in Hj; lia|]. intros j Hj Hn. exfalso. apply Hn, in_seq. lia.
Qed.
Lemma go_pass P (F : dbody -> list dbody -> dbody) : stable N P -> (forall b l, EM b (F b l)) -> go P [OPass (fun b l => Some (F b l))] P.
Proof.
  intros St K s H. exists (fun i => F (s i) (map s (seq 0 N))). split.
  - eexists. split; [|reflexivity]. exists (fun _ => seq 0 N). split; [apply all_complete|reflexivity].
  - apply (St s); [|exact H]. intros i Hi. apply K.
Qed.
Lemma go_density dt : go PA [OPass (density_pass dp dt)] PB.
Proof.
  intros s (Hm & Hh).
  assert (D : forall i, (i < N)%nat -> exists b, density_pass dp dt (s i) (map s (seq 0 N)) = Some b).
  { intros i Hi. unfold density_pass. cbv zeta. rewrite (proj2 (Rltb_true _ _)).
    - rewrite Ht, Bool.andb_false_r. eexists. reflexivity.
    - apply C67_density_positive; try assumption.
      + apply in_map, in_map, in_seq. lia.
      + intros b Hb. apply in_map_iff in Hb. destruct Hb as (q & <- & Hq). apply in_map_iff in Hq. destruct Hq as (j & <- & Hj).
        apply in_seq in Hj. split; [apply Hm; lia|apply Hh; lia]. }
  exists (fun i => match density_pass dp dt (s i) (map s (seq 0 N)) with Some b => b | None => s i end). split.
  - eexists. split; [|reflexivity]. exists (fun _ => seq 0 N). split; [apply all_complete|]. intros i Hi. destruct (D i Hi) as (b & ->). reflexivity.
  - assert (K : forall i, (i < N)%nat -> exists b, density_pass dp dt (s i) (map s (seq 0 N)) = Some b /\ 0 < p_m (d_p b) /\ 0 < p_h (d_p b) /\ 0 < p_rho (d_p b)).
    { intros i Hi. destruct (D i Hi) as (b & E). exists b. split; [exact E|]. apply density_keeps in E. destruct E as (F1 & F2 & _ & _ & _ & F6).
      destruct F1 as (_ & -> & _). rewrite F2. split; [apply Hm, Hi|]. split; [apply Hh, Hi|exact F6]. }
    split; [split|]; intros i Hi; destruct (K i Hi) as (b & -> & K1 & K2 & K3); assumption.
Qed.
Lemma go_smooth : go PB [OSmooth] PA.
Proof.
  intros s ((Hm & Hh) & Hr). exists (new_h dp N s). split; [eexists; split; reflexivity|]. split.
  - intros i Hi. destruct (new_h_keeps dp N s) as (K & _). destruct (K i Hi) as (_ & -> & _). apply Hm, Hi.
  - apply new_h_pos; assumption.
Qed.
Ltac all_G := apply go_all; [auto using stable_A, stable_B|intro; repeat split].
Lemma go_round r dt : go PB (energy_round dp r dt) PB.
Proof.
  unfold energy_round. rewrite Ht. eapply go_app; [apply go_pass; [apply stable_B|intros; repeat split]|].
  eapply go_app; [apply go_opt; all_G|all_G].
Qed.
Lemma go_rounds r dt m : go PB (energy_rounds dp r dt m) PB.
Proof.
  induction m as [|m IH]; cbn [energy_rounds]; [apply go_nil|].
  destruct m; [apply go_round|]. eapply go_app; [apply go_round|]. eapply go_app; [apply go_reset|exact IH].
Qed.
Lemma go_forces r : go PB (forces dp false r) PB.
Proof.
  unfold forces. cbn [opt]. eapply go_app; [eapply go_cons; [apply go_reset|]|].
  - apply go_pass; [apply stable_B|intros; repeat split].
  - cbn [app]. apply go_opt. eapply go_cons; [all_G|]. apply go_pass; [apply stable_B|intros; repeat split].
Qed.
Lemma go_initial k dt dt' : go PA (initial_ops dp false k dt dt') PA.
Proof.
  unfold initial_ops. cbv zeta. rewrite Hc, Ht. cbn [opt app andb].
  eapply go_cons; [apply (go_update PA)|]. eapply go_cons; [all_G|].
  eapply go_cons; [apply go_density|]. eapply go_cons; [all_G|].
  eapply go_app; [apply go_forces|]. eapply go_app; [apply go_opt, go_rounds|apply go_smooth].
Qed.
Lemma go_step k dt : go PA (step_ops dp false k dt) PA.
Proof.
  unfold step_ops. cbv zeta. rewrite Hc, Ht. cbn [opt app].
  eapply go_app; [apply (go_opt PA); all_G|].
  do 3 (eapply go_cons; [apply (go_all PA); [apply stable_A|intro; repeat split]|]).
  eapply go_cons; [apply (go_update PA)|]. eapply go_cons; [apply go_density|].
  eapply go_app; [apply go_forces|]. eapply go_cons; [apply (go_all PB); [apply stable_B|intro; repeat split]|].
  eapply go_cons; [apply (go_reset PB)|].
  eapply go_app; [apply (go_opt PB); eapply go_app; [apply go_rounds|all_G]|apply go_smooth].
Qed.
Lemma go_loop k dts : go PA (loop_ops dp false k dts) PA.
Proof.
  revert k. induction dts as [|dt dts IH]; intro k; cbn [loop_ops]; [apply go_nil|]. eapply go_app; [apply go_step|apply IH].
Qed.

(** For every number of ranks, every assignment of the particles, every order
    of processing and all time steps there is a run. *)
Theorem C79_runs nranks own ord k0 dt dt' dts s :
  (forall i, (i < N)%nat -> (own i < nranks)%nat) -> Permutation ord (seq 0 N) ->
  (forall i, (i < N)%nat -> 0 < p_m (d_p (s i)) /\ 0 < p_h (d_p (s i))) ->
  exists st st', ds_cur st = s /\ dist_ops dp N nranks grav (program dp false k0 dt dt' dts) st st' /\ ds_own st' = own.
Proof.
  intros Hown Hord H.
  assert (G : go PA (program dp false k0 dt dt' dts) PA) by (unfold program; eapply go_app; [apply go_initial|apply go_loop]).
  destruct (G s) as (s' & D & _). { split; intros i Hi; apply H, Hi. }
  destruct (C79_realised dp N grav false Hc ltac:(discriminate) nranks own ord k0 dt dt' dts s s' Hown Hord D) as (st & st' & A & B & C & _).
  exists st, st'. auto.
Qed.
End Exist.

(** Two particles of different mass moving towards each other: on one process
    and on two ranks, processed in different orders, any number of steps. *)
Example C79_case : forall dt dt' dts, exists st1 st2 st1' st2',
  ds_cur st1 = two /\ ds_cur st2 = two /\
  dist_ops (par77 false) 2 1 (fun _ _ => False) (program (par77 false) false 0 dt dt' dts) st1 st1' /\
  dist_ops (par77 false) 2 2 (fun _ _ => False) (program (par77 false) false 0 dt dt' dts) st2 st2' /\
  ds_own st1' 1%nat <> ds_own st2' 1%nat /\
  (forall i, (i < 2)%nat -> but_vsig (ds_cur st1' i) (ds_cur st2' i)) /\
  sumn 2 (fun i => p_m (d_p (ds_cur st2' i)) * p_vel (d_p (ds_cur st2' i)) 0%nat) = -5.
Proof.
  intros dt dt' dts.
  assert (P : forall i, (i < 2)%nat -> 0 < p_m (d_p (two i)) /\ 0 < p_h (d_p (two i))) by (intros [|i] _; cbn; lra).
  assert (Q : forall nr own ord, (forall i, (i < 2)%nat -> (own i < nr)%nat) -> Permutation ord (seq 0 2) ->
    exists st st', ds_cur st = two /\ dist_ops (par77 false) 2 nr (fun _ _ => False) (program (par77 false) false 0 dt dt' dts) st st' /\ ds_own st' = own).
  { intros nr own ord Ho Hp. apply (C79_runs (par77 false) 2 (fun _ _ => False)) with (ord := ord); try reflexivity; try assumption; cbn; try lia; try lra.
    apply C66_case. }
  destruct (Q 1%nat (fun _ => 0%nat) [0; 1]%nat) as (st1 & st1' & A1 & A2 & A3); [intros; lia|apply Permutation_refl|].
  destruct (Q 2%nat (fun i => i) [1; 0]%nat) as (st2 & st2' & B1 & B2 & B3); [intros; lia|apply perm_swap|].
  exists st1, st2, st1', st2'. split; [exact A1|]. split; [exact B1|]. split; [exact A2|]. split; [exact B2|].
  split; [rewrite A3, B3; discriminate|]. split.
  - apply (C79_same (par77 false) 2 (fun _ _ => False) false eq_refl ltac:(discriminate) 1 2 0 dt dt' dts st1 st2); try assumption; cbn; try lia; try lra.
    intros i Hi. rewrite A1, B1. split; [reflexivity|]. apply P, Hi.
  - destruct (C79_conserved (par77 false) 2 2 (fun _ _ => False) 0 dt dt' dts st2 st2') as (M & _); try reflexivity; try assumption; cbn; try lia; try lra.
    + rewrite B1. exact P.
    + etransitivity; [exact (M 0%nat)|]. rewrite B1. cbn. lra.
Qed.

Print Assumptions C79_tree_lists.
Print Assumptions C79_sequential.
Print Assumptions C79_realised.
Print Assumptions C79_same.
Print Assumptions C79_conserved.
Print Assumptions C79_runs.
Print Assumptions C79_vsig_refuted.
Print Assumptions C79_cullen_refuted.
