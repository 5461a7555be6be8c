(** Runs of the passes without copies can be distributed over any ranks, and
    two of them with complete lists agree up to the signal speeds. *)
From Verif Require Import Base Vec Geometry_model Geometry_props Kernel_model Kernel_proofs Kernel_props Sph_model Sph_props EForce_model
  Driver_model Driver_proofs Driver_run Pass_model Pass_proofs Pass_run.
From Coq Require Import Permutation FunctionalExtensionality.
Local Open Scope R_scope.

(** ** Every run can be distributed *)
Section Live.
Context (dp : dparams) (N nranks : nat) (grav : (nat -> dbody) -> (nat -> point * R) -> Prop).
Context (own : nat -> nat) (Hown : forall i, (i < N)%nat -> (own i < nranks)%nat).
Context (ord : list nat) (Hord : Permutation ord (seq 0 N)).
Notation n := (dp_dim dp).
Notation dops := (dist_ops dp N nranks grav).
Notation sops := (do_ops dp N (complete n N) grav).
Context (Hgrav : forall s s' g, (forall i, (i < N)%nat -> p_pos (d_p (s i)) = p_pos (d_p (s' i)) /\ p_m (d_p (s i)) = p_m (d_p (s' i)) /\ p_h (d_p (s i)) = p_h (d_p (s' i))) ->
  grav s g -> grav s' g).

(** every rank has copies of all particles *)
Definition ready (st : dstate) : Prop := ds_own st = own /\ forall r j, ds_gh st r j <> None.
Definition copies (cur : nat -> dbody) : dstate := DState cur own (fun _ j => Some (cur j)).

Lemma seen_ready st r l : ready st -> exists bs, seen_all st r l = Some bs.
Proof.
  intros (_ & H). induction l as [|j l (bs & IH)]; cbn [seen_all]; [eexists; reflexivity|].
  rewrite IH. unfold seen. destruct (Nat.eqb _ _); [eexists; reflexivity|]. specialize (H r j).
  destruct (ds_gh st r j); [eexists; reflexivity|congruence].
Qed.

Lemma run_order F nb E st0 : equiv E -> keeps_pass E F -> reads E F ->
  (forall i j, (i < N)%nat -> In j (nb i) -> (j < N)%nat) ->
  (forall i, (i < N)%nat -> F (ds_cur st0 i) (map (ds_cur st0) (nb i)) <> None) ->
  forall l done st, inv F nb E N st0 done st -> ready st -> NoDup (rev l ++ done) -> (forall i, In i l -> (i < N)%nat) ->
  exists st', pass_steps F nb (map Apply l) st st' /\ ready st'.
Proof.
  intros HE HK HR Hnb Hdef. induction l as [|i l IH]; intros done st I Hr Hd Hl.
  - exists st. split; [constructor|exact Hr].
  - assert (Hi : (i < N)%nat) by (apply Hl; now left). cbn [rev] in Hd. rewrite <- app_assoc in Hd. cbn [app] in Hd.
    assert (Hni : ~ In i done). { apply NoDup_remove_2 in Hd. intro. apply Hd, in_or_app. now right. }
    destruct (seen_ready st (ds_own st i) (nb i) Hr) as (bs & Hs).
    assert (Rl : Forall2 E bs (map (ds_cur st0) (nb i))).
    { eapply seen_related; [exact I| |exact Hs]. intros j Hj. eapply Hnb; eassumption. }
    assert (Ec : ds_cur st i = ds_cur st0 i) by (destruct I as (_ & _ & _ & I4 & _); apply I4; assumption).
    pose proof (HR (ds_cur st i) (ds_cur st0 i) _ _ (f_equal nov Ec) Rl) as Q.
    specialize (Hdef i Hi). destruct (F (ds_cur st0 i) _) as [x|]; [|congruence].
    destruct (F (ds_cur st i) bs) as [b|] eqn:Eb; [|discriminate].
    set (st1 := DState (update (ds_cur st) i b) (ds_own st) (ds_gh st)).
    assert (S1 : pass_step F nb (Apply i) st st1) by (eapply step_apply; eassumption).
    assert (I1 : inv F nb E N st0 (i :: done) st1).
    { apply (inv_step F nb E N st0 HE HK Hnb (Apply i) done st st1 I S1). intros i' [= <-]. auto. }
    destruct (IH (i :: done) st1 I1) as (st' & H1 & H2).
    + exact Hr.
    + exact Hd.
    + intros j Hj. apply Hl. now right.
    + exists st'. split; [|exact H2]. econstructor; eassumption.
Qed.

Definition live (E : dbody -> dbody -> Prop) (l : list op) (E' : dbody -> dbody -> Prop) : Prop :=
  forall st s s', rel N st s -> fresh E N st -> ready st -> sops l s s' -> exists st', dops l st st' /\ rel N st' s' /\ fresh E' N st' /\ ready st'.

Lemma applied_map l : applied (map Apply l) = l.
Proof. induction l as [|i l IH]; [reflexivity|]. unfold applied in *. cbn [map flat_map app]. rewrite IH. reflexivity. Qed.

Lemma live_pass E F : equiv E -> reads E F -> keeps_pass E F -> live E [OPass F] E.
Proof.
  intros HE Hrd Hk st s s' Hr Hf Hre (m & (nb & Hc & Hs) & ->).
  assert (Hin : forall i j, (i < N)%nat -> In j (nb i) -> (j < N)%nat).
  { intros i j Hi Hj. destruct (Hc i Hi) as (_ & C & _). apply C, Hj. }
  assert (B : forall i, (i < N)%nat -> Forall2 E (map (ds_cur st) (nb i)) (map s (nb i))).
  { intros i Hi. specialize (Hin i). induction (nb i) as [|j l IH]; cbn [map]; constructor.
    - apply (eq_nov E HE), Hr, Hin; [exact Hi|now left].
    - apply IH. intros j' _ Hj'. apply Hin; [exact Hi|now right]. }
  assert (D : forall i, (i < N)%nat -> F (ds_cur st i) (map (ds_cur st) (nb i)) <> None).
  { intros i Hi. pose proof (Hrd _ _ _ _ (Hr i Hi) (B i Hi)) as Q. rewrite (Hs i Hi) in Q. destruct (F (ds_cur st i) _); discriminate. }
  assert (I0 : inv F nb E N st [] st).
  { split; [reflexivity|]. split; [intros; apply eq_refl', HE|]. split; [exact Hf|]. split; [reflexivity|]. intros i _ []. }
  destruct (run_order F nb E st HE Hk Hrd Hin D ord [] st I0 Hre) as (st' & S1 & R1).
  { rewrite app_nil_r. apply (Permutation_NoDup (l := seq 0 N)); [|apply seq_NoDup]. rewrite <- Permutation_rev. symmetry. exact Hord. }
  { intros i Hi. apply (Permutation_in _ Hord) in Hi. apply in_seq in Hi. lia. }
  assert (Hp : Permutation (applied (map Apply ord)) (seq 0 N)) by (rewrite applied_map; exact Hord).
  destruct (pass_result F nb E N st HE Hk Hin (map Apply ord) st' Hf Hp S1) as (P1 & P2 & P3).
  exists st'. split; [|split; [|split]].
  - exists st'. split; [|reflexivity]. exists nb, (map Apply ord). split; [|split; [exact Hp|exact S1]].
    eapply complete_rel; [|exact Hc]. intros i Hi. symmetry. apply (rel_parts N); assumption.
  - intros i Hi. destruct (P1 i Hi) as (bs & B1 & B2).
    assert (B3 : Forall2 E bs (map s (nb i))).
    { specialize (B i Hi). revert B1 B. generalize (map (ds_cur st) (nb i)) (map s (nb i)). clear - HE. intros l l' H. revert l'.
      induction H; intros l2 H'; inversion H'; subst; constructor; [eapply (eq_trans E HE); eassumption|apply IHForall2; assumption]. }
    pose proof (Hrd _ _ _ _ (Hr i Hi) B3) as Q. rewrite B2, (Hs i Hi) in Q. cbn [option_map] in Q. congruence.
  - exact P3.
  - exact R1.
Qed.

Lemma live_OAll E f : equiv E -> resp f -> keeps_all E f -> live E [OAll f] E.
Proof.
  intros HE Hres Hk st s s' Hr Hf (Ho & Hg) (m & Hc & ->). cbn in Hc.
  set (cur := fun i => match f (ds_cur st i) with Some b => b | None => ds_cur st i end).
  assert (D : forall i, (i < N)%nat -> f (ds_cur st i) = Some (cur i) /\ nov (cur i) = nov (m i)).
  { intros i Hi. unfold cur. pose proof (Hres _ _ (Hr i Hi)) as Q. rewrite (Hc i Hi) in Q. destruct (f (ds_cur st i)) as [x|]; [|discriminate].
    cbn [option_map] in Q. split; [reflexivity|congruence]. }
  exists (DState cur (ds_own st) (ds_gh st)). split; [|split; [|split]].
  - eexists. split; [|reflexivity]. cbn. split; [reflexivity|]. split; [reflexivity|]. intros i Hi. apply D, Hi.
  - intros i Hi. apply D, Hi.
  - intros r j b Hj Hw Hb. cbn in *. eapply (eq_trans E HE); [eapply Hf; eassumption|]. eapply Hk, D, Hj.
  - split; assumption.
Qed.

Lemma copies_ready cur : ready (copies cur).
Proof. split; [reflexivity|]. discriminate. Qed.
Lemma copies_present cur : present N cur (ds_gh (copies cur)).
Proof. intros r j b _ [= <-]. reflexivity. Qed.

Lemma ok_live E l E' : ok E l E' -> live E l E'.
Proof.
  induction 1.
  - intros st s s' Hr Hf Hre H. cbn in H. subst s'. exists st. cbn. auto.
  - intros st s s' Hr Hf Hre HH. apply do_ops_app' in HH. destruct HH as (m & H1 & H2).
    destruct (IHok1 st s m Hr Hf Hre H1) as (st1 & D1 & R1 & F1 & Y1). destruct (IHok2 st1 m s' R1 F1 Y1 H2) as (st2 & D2 & R2 & F2 & Y2).
    exists st2. split; [|auto]. apply dist_ops_app. exists st1. auto.
  - intros st s s' Hr Hf Hre HH. destruct (IHok st s s' Hr (fresh_weak _ _ _ _ H Hf) Hre HH) as (st' & D & Rr & F & Y).
    exists st'. split; [exact D|]. split; [exact Rr|]. split; [eapply fresh_weak; eassumption|exact Y].
  - intros st s s' Hr Hf Hre (m & -> & ->). exists (copies (ds_cur st)).
    split; [eexists; split; [|reflexivity]; split; [exact Hown|split; [reflexivity|apply copies_present]]|].
    split; [exact Hr|]. split; [apply fresh_present; [exact H|apply copies_present]|apply copies_ready].
  - intros st s s' Hr Hf Hre (m & -> & ->). exists (copies (ds_cur st)).
    split; [eexists; split; [|reflexivity]; split; [symmetry; apply Hre|split; [reflexivity|apply copies_present]]|].
    split; [exact Hr|]. split; [apply fresh_present; [exact H|apply copies_present]|apply copies_ready].
  - apply live_OAll; assumption.
  - apply live_pass; assumption.
  - intros st s s' Hr Hf Hre (m & (g & Hg & Hm) & ->).
    set (cur := fun i => set_gpot (d_gpot (ds_cur st i) + snd (g i)) (set_gacc (vadd (p_gacc (d_p (ds_cur st i))) (fst (g i))) (ds_cur st i))).
    exists (DState cur (ds_own st) (ds_gh st)). split; [|split; [|split]].
    + eexists. split; [|reflexivity]. split; [reflexivity|]. split; [|auto].
      exists g. split; [|reflexivity]. eapply Hgrav; [|exact Hg]. intros i Hi. rewrite (rel_parts N st s i Hr Hi). auto.
    + intros i Hi. rewrite (Hm i Hi). cbn. unfold cur. specialize (Hr i Hi). apply nov_but in Hr. destruct Hr as (v & ->). reflexivity.
    + intros r j b Hj Hw Hb. eapply (eq_trans _ equiv_F); [eapply Hf; eassumption|]. repeat split.
    + exact Hre.
  - intros st s s' Hr Hf Hre (m & -> & ->). exists (DState (new_h dp N (ds_cur st)) (ds_own st) (ds_gh st)). split; [|split; [|split]].
    + eexists. split; [|reflexivity]. repeat split.
    + intros i Hi. apply new_h_nov; assumption.
    + intros r j b _ _ _. exact I.
    + exact Hre.
Qed.
End Live.

(** ** Two runs with complete lists *)
Lemma W_out pr n r h : (1 <= n <= 3)%nat -> 0 < h -> h < r -> W pr n r h = 0.
Proof.
  intros Hn Hh Hr. unfold W. destruct (the_kernel pr).
  - apply C32_spline_and_wendland; unfold poly; auto; lra.
  - cbn [kernel]. unfold W_gaussian. rewrite (proj2 (Rleb_false _ _)); [reflexivity|]. apply Coquelicot.Rcomplements.Rlt_div_r; lra.
  - apply C32_spline_and_wendland; unfold poly; auto; lra.
  - apply C32_spline_and_wendland; unfold poly; auto; lra.
  - apply C32_spline_and_wendland; unfold poly; auto; lra.
  - apply C32_spline_and_wendland; unfold poly; auto 8; lra.
  - cbn [kernel]. unfold W_super. cbv zeta. rewrite (proj2 (Rltb_false _ _)); [unfold b2r; ring|].
    assert (3 <= 3 * r / h) by (apply Coquelicot.Rcomplements.Rle_div_r; lra). rewrite Rabs_pos_eq; lra.
  - cbn [kernel]. unfold W_sinc. cbv zeta. rewrite (proj2 (Rltb_false _ _)); [reflexivity|].
    assert (1 <= r / h) by (apply Coquelicot.Rcomplements.Rle_div_r; lra). rewrite Rabs_pos_eq; lra.
Qed.

Section Same.
Context (dp : dparams) (N : nat) (grav : (nat -> dbody) -> (nat -> point * R) -> Prop).
Notation n := (dp_dim dp).
Notation sp := (dp_sph dp).
Notation sops := (do_ops dp N (complete n N) grav).
Context (Hdim : (1 <= n <= 3)%nat) (HN : (0 < N)%nat) (Hw : 0 < dp_etaw dp) (Hrep : dp_rrad dp <= 1) (Hc : cullen sp = false).
Context (Hgrav : forall s s' g g', (forall i, (i < N)%nat -> p_pos (d_p (s i)) = p_pos (d_p (s' i)) /\ p_m (d_p (s i)) = p_m (d_p (s' i)) /\ p_h (d_p (s i)) = p_h (d_p (s' i))) ->
  grav s g -> grav s' g' -> forall i, (i < N)%nat -> g i = g' i).
Implicit Types s : nat -> dbody.

Definition neq s s' := forall i, (i < N)%nat -> nov (s i) = nov (s' i).
Definition PA s := pos_m N s /\ pos_h N s.
Definition PB s := PA s /\ pos_rho N s.

Definition same (P : (nat -> dbody) -> Prop) (l : list op) (Q : (nat -> dbody) -> Prop) : Prop :=
  forall s1 s2 s1' s2', P s1 -> neq s1 s2 -> sops l s1 s1' -> sops l s2 s2' -> Q s1' /\ neq s1' s2'.

Lemma same_nil P : same P [] P.
Proof. intros s1 s2 s1' s2' Hp Hn -> ->. auto. Qed.
Lemma same_app P Q S l1 l2 : same P l1 Q -> same Q l2 S -> same P (l1 ++ l2) S.
Proof.
  intros A B s1 s2 s1' s2' Hp Hn H1 H2. apply do_ops_app' in H1. apply do_ops_app' in H2.
  destruct H1 as (m1 & H1 & K1). destruct H2 as (m2 & H2 & K2). destruct (A s1 s2 m1 m2 Hp Hn H1 H2) as (Hq & Hm).
  exact (B m1 m2 s1' s2' Hq Hm K1 K2).
Qed.
Lemma same_cons P Q S o l : same P [o] Q -> same Q l S -> same P (o :: l) S.
Proof. apply (same_app P Q S [o] l). Qed.
Lemma same_weak (P P' Q Q' : (nat -> dbody) -> Prop) l : (forall s, P' s -> P s) -> (forall s, Q s -> Q' s) -> same P l Q -> same P' l Q'.
Proof. intros A B H s1 s2 s1' s2' Hp Hn H1 H2. destruct (H s1 s2 s1' s2' (A _ Hp) Hn H1 H2). auto. Qed.
Lemma same_opt (P Q : (nat -> dbody) -> Prop) (c : bool) l : (c = true -> same P l Q) -> (forall s, P s -> Q s) -> same P (opt c l) Q.
Proof. intros H W. destruct c; cbn [opt]; [auto|]. eapply same_weak; [|exact W|apply same_nil]. auto. Qed.

Definition stable (P : (nat -> dbody) -> Prop) := forall s s', (forall i, (i < N)%nat -> EM (s i) (s' i)) -> P s -> P s'.
Lemma stable_A : stable PA.
Proof. intros s s' H (Hm & Hh). split; intros i Hi; destruct (H i Hi) as (E1 & E2 & E3); [rewrite <- E1|rewrite <- E2]; auto. Qed.
Lemma stable_B : stable PB.
Proof.
  intros s s' H (Ha & Hr). split; [eapply stable_A; eassumption|]. intros i Hi. destruct (H i Hi) as (E1 & E2 & E3). rewrite <- E3. auto.
Qed.

Lemma same_update P : same P [OUpdate] P.
Proof. intros s1 s2 s1' s2' Hp Hn (m & -> & ->) (m' & -> & ->). auto. Qed.
Lemma same_reset P : same P [OReset] P.
Proof. intros s1 s2 s1' s2' Hp Hn (m & -> & ->) (m' & -> & ->). auto. Qed.
Lemma same_OAll P f : stable P -> resp f -> keeps_all EM f -> same P [OAll f] P.
Proof.
  intros Hs Hr Hk s1 s2 s1' s2' Hp Hn (m & H1 & ->) (m' & H2 & ->). cbn in H1, H2. split.
  - apply (Hs s1); [|exact Hp]. intros i Hi. eapply Hk, H1, Hi.
  - intros i Hi. pose proof (Hr _ _ (Hn i Hi)) as Q. rewrite (H1 i Hi), (H2 i Hi) in Q. cbn [option_map] in Q. congruence.
Qed.
Lemma same_all P f : stable P -> resp (fun b => Some (f b)) -> (forall b, EM b (f b)) -> same P [all f] P.
Proof. intros Hs Hr Hk. apply same_OAll; [exact Hs|exact Hr|]. intros b x [= <-]. apply Hk. Qed.

Definition indep (F : dbody -> list dbody -> option dbody) : Prop := forall s nb nb', PA s -> complete n N s nb -> complete n N s nb' ->
  forall i, (i < N)%nat -> option_map nov (F (s i) (map s (nb i))) = option_map nov (F (s i) (map s (nb' i))).

Lemma neq_parts s s' i : neq s s' -> (i < N)%nat -> d_p (s i) = d_p (s' i).
Proof. intros H Hi. specialize (H i Hi). apply nov_but in H. destruct H as (v & ->). reflexivity. Qed.

Lemma pass_same_result F E s1 s2 s1' s2' : equiv E -> reads E F -> indep F -> PA s1 -> neq s1 s2 ->
  do_op dp N (complete n N) grav (OPass F) s1 s1' -> do_op dp N (complete n N) grav (OPass F) s2 s2' -> neq s1' s2'.
Proof.
  intros HE Hr Hi Hp Hn (nb & Hc1 & H1) (nb' & Hc2 & H2) i Hlt.
  assert (Hc2' : complete n N s1 nb').
  { eapply complete_rel; [|exact Hc2]. intros j Hj. symmetry. apply neq_parts; assumption. }
  pose proof (Hi s1 nb nb' Hp Hc1 Hc2' i Hlt) as Q. rewrite (H1 i Hlt) in Q.
  assert (B : Forall2 E (map s1 (nb' i)) (map s2 (nb' i))).
  { destruct (Hc2 i Hlt) as (_ & Hin & _). revert Hin. generalize (nb' i). intro l0. induction l0 as [|j l IH]; intro Hin; cbn [map]; constructor.
    - apply (eq_nov E HE), Hn, Hin. now left.
    - apply IH. intros j' Hj'. apply Hin. now right. }
  rewrite (Hr _ _ _ _ (Hn i Hlt) B), (H2 i Hlt) in Q. cbn [option_map] in Q. congruence.
Qed.
Lemma same_pass (P : (nat -> dbody) -> Prop) F E : equiv E -> reads E F -> indep F -> (forall s, P s -> PA s) -> stable P -> keeps_pass EM F -> same P [OPass F] P.
Proof.
  intros HE Hr Hi Ha Hs Hk s1 s2 s1' s2' Hp Hn (m & H1 & ->) (m' & H2 & ->). split.
  - destruct H1 as (nb & _ & H1). apply (Hs s1); [|exact Hp]. intros i Hlt. eapply Hk, H1, Hlt.
  - exact (pass_same_result F E s1 s2 m m' HE Hr Hi (Ha _ Hp) Hn H1 H2).
Qed.

(** sums over a complete list *)
Definition beyond (b q : dbody) : Prop := h_mean (d_p b) (d_p q) < norm n (vsub (p_pos (d_p b)) (p_pos (d_p q))) /\ 0 < h_mean (d_p b) (d_p q).
Lemma sum_indep s nb nb' i (g : dbody -> R) : PA s -> complete n N s nb -> complete n N s nb' -> (i < N)%nat ->
  (forall j, (j < N)%nat -> beyond (s i) (s j) -> g (s j) = 0) -> suml g (map s (nb i)) = suml g (map s (nb' i)).
Proof.
  intros (_ & Hh) C C' Hi Hg.
  assert (A : forall l, complete n N s l -> suml g (map s (l i)) = sumn N (fun j => g (s j))).
  { intros l Cl. rewrite suml_map. destruct (Cl i Hi) as (H1 & H2 & H3). apply suml_full; [exact H1|exact H2|].
    intros j Hj Hn. apply Hg; [exact Hj|]. pose proof (Hh i Hi). pose proof (Hh j Hj). specialize (H3 j Hj Hn).
    unfold beyond, h_mean. lra. }
  rewrite (A nb C), (A nb' C'). reflexivity.
Qed.

Lemma beyond_DiW b q k : beyond b q -> DiW sp n (d_p b) (d_p q) k = 0.
Proof. intros (H1 & H2). apply DiW_out; [exact Hdim|exact H2|lra]. Qed.
Lemma beyond_gradW b q k : beyond b q -> gradW sp n (vsub (p_pos (d_p b)) (p_pos (d_p q))) (h_mean (d_p b) (d_p q)) k = 0.
Proof. apply beyond_DiW. Qed.
Lemma beyond_dot b q v : beyond b q -> dot n v (DiW sp n (d_p b) (d_p q)) = 0.
Proof. intro H. unfold dot. rewrite (sumn_ext n _ (fun _ => 0)); [apply sumn_zero|]. intros k _. rewrite (beyond_DiW b q k H). ring. Qed.

Lemma indep_density dt : indep (density_pass dp dt).
Proof.
  intros s nb nb' Hp C C' i Hi. unfold density_pass. cbv zeta.
  assert (D : density sp n (d_p (s i)) (map d_p (map s (nb i))) = density sp n (d_p (s i)) (map d_p (map s (nb' i)))).
  { unfold density. rewrite !suml_parts. apply (sum_indep s nb nb' i); try assumption. intros j Hj (B1 & B2). rewrite W_out by assumption. ring. }
  rewrite D. destruct (Rltb 0 _); [|reflexivity]. rewrite Hc.
  destruct (if dp_evolve dp && dp_thermo dp then _ else _); reflexivity.
Qed.
Lemma indep_acceleration : indep (acceleration_pass dp).
Proof.
  intros s nb nb' Hp C C' i Hi. unfold acceleration_pass.
  assert (A : Sph_model.acceleration sp n (dp_ext dp (p_pos (d_p (s i)))) (d_p (s i)) (map d_p (map s (nb i))) =
    Sph_model.acceleration sp n (dp_ext dp (p_pos (d_p (s i)))) (d_p (s i)) (map d_p (map s (nb' i)))).
  { apply functional_extensionality. intro k. unfold Sph_model.acceleration. f_equal. rewrite !suml_parts.
    apply (sum_indep s nb nb' i); try assumption. intros j Hj B. rewrite (beyond_DiW _ _ k B). ring. }
  rewrite A. reflexivity.
Qed.
Lemma indep_dudt r : indep (dudt_pass dp r).
Proof.
  intros s nb nb' Hp C C' i Hi. unfold dudt_pass.
  assert (A : dudt sp n r (d_p (s i)) (map d_p (map s (nb i))) = dudt sp n r (d_p (s i)) (map d_p (map s (nb' i)))).
  { unfold dudt. destruct r; [reflexivity|]. cbv zeta. rewrite !suml_parts. f_equal; f_equal; apply (sum_indep s nb nb' i); try assumption;
      intros j Hj B; rewrite (beyond_dot _ _ _ B); ring. }
  rewrite A. reflexivity.
Qed.
Lemma indep_dedt : indep (dedt_pass dp).
Proof.
  intros s nb nb' Hp C C' i Hi. unfold dedt_pass.
  assert (A : dedt sp n (d_p (s i)) (map d_p (map s (nb i))) = dedt sp n (d_p (s i)) (map d_p (map s (nb' i)))).
  { unfold dedt. cbv zeta. f_equal. f_equal. rewrite !suml_parts. apply (sum_indep s nb nb' i); try assumption.
    intros j Hj B; rewrite !(beyond_dot _ _ _ B); ring. }
  rewrite A. reflexivity.
Qed.
Lemma indep_repulsion : indep (repulsion_pass dp).
Proof.
  intros s nb nb' Hp C C' i Hi. unfold repulsion_pass.
  assert (A : repulsion dp (s i) (map s (nb i)) = repulsion dp (s i) (map s (nb' i))).
  { apply functional_extensionality. intro k. unfold repulsion. f_equal.
    apply (sum_indep s nb nb' i); try assumption. intros j Hj (B1 & B2). destruct (Nat.eqb _ _); [reflexivity|].
    rewrite (proj2 (Rltb_true _ _)); [reflexivity|]. nra. }
  rewrite A. reflexivity.
Qed.

Ltac resp_tac := intros b b' Hb; apply nov_but in Hb; destruct Hb as (v & ->); reflexivity.
Ltac keep_tac := let b := fresh in let l := fresh in let x := fresh in intros b l x [= <-]; repeat split.
Ltac all_S := apply same_all; [auto using stable_A, stable_B|resp_tac|intro; repeat split].

Lemma B_A s : PB s -> PA s.
Proof. intros (H & _). exact H. Qed.

Lemma same_density dt : same PA [OPass (density_pass dp dt)] PB.
Proof.
  intros s1 s2 s1' s2' Hp Hn (m & H1 & ->) (m' & H2 & ->). split.
  - destruct H1 as (nb & _ & H1). destruct Hp as (Hm & Hh).
    split; [split|]; intros i Hi; specialize (H1 i Hi); apply density_keeps in H1; destruct H1 as (F1 & F2 & _ & _ & _ & F6).
    + destruct F1 as (_ & -> & _). apply Hm, Hi.
    + rewrite F2. apply Hh, Hi.
    + exact F6.
  - exact (pass_same_result _ E1 s1 s2 m m' equiv_1 (reads_density dp dt) (indep_density dt) Hp Hn H1 H2).
Qed.
Lemma same_grav : same PB [OGrav] PB.
Proof.
  intros s1 s2 s1' s2' Hp Hn (m & (g & Hg & H1) & ->) (m' & (g' & Hg' & H2) & ->). split.
  - apply (stable_B s1); [|exact Hp]. intros i Hi. rewrite (H1 i Hi). repeat split.
  - intros i Hi. rewrite (H1 i Hi), (H2 i Hi), (Hgrav s1 s2 g g') with (i := i); try assumption.
    + pose proof (Hn i Hi) as Hni. apply nov_but in Hni. destruct Hni as (v & ->). reflexivity.
    + intros j Hj. rewrite (neq_parts s1 s2 j Hn Hj). auto.
Qed.
Lemma same_smooth : same PB [OSmooth] PA.
Proof.
  intros s1 s2 s1' s2' ((Hm & Hh) & Hr) Hn (m & -> & ->) (m' & -> & ->). split; [split|].
  - intros i Hi. destruct (new_h_keeps dp N s1) as (K & _). destruct (K i Hi) as (_ & -> & _). apply Hm, Hi.
  - apply new_h_pos; assumption.
  - intros i Hi. apply new_h_nov; assumption.
Qed.

Lemma same_round r dt : same PB (energy_round dp r dt) PB.
Proof.
  unfold energy_round. destruct (dp_thermo dp).
  - eapply same_app; [apply (same_pass PB _ EF equiv_F (reads_dedt dp) indep_dedt B_A stable_B); keep_tac|].
    eapply same_app; [apply (same_opt PB PB); [intros _; all_S|auto]|].
    apply same_OAll; [apply stable_B|apply resp_recompute_thermo|].
    intros b x. unfold recompute_thermo, recover_internal_energy. cbv zeta. destruct (Rltb 0 _); [|discriminate]. intros [= <-]. repeat split.
  - eapply same_app; [apply (same_pass PB _ EF equiv_F (reads_dudt dp r) (indep_dudt r) B_A stable_B); keep_tac|].
    eapply same_app; [apply (same_opt PB PB); [intros _; all_S|auto]|]. all_S.
Qed.
Lemma same_rounds r dt m : same PB (energy_rounds dp r dt m) PB.
Proof.
  induction m as [|m IH]; cbn [energy_rounds]; [apply same_nil|].
  destruct m; [apply same_round|]. eapply same_app; [apply same_round|]. eapply same_app; [apply same_reset|exact IH].
Qed.
Lemma same_forces gravity r : same PB (forces dp gravity r) PB.
Proof.
  unfold forces. eapply same_app; [eapply same_cons; [apply same_reset|]|].
  - apply (same_pass PB _ EF equiv_F (reads_acceleration dp) indep_acceleration B_A stable_B). keep_tac.
  - eapply same_app; [apply (same_opt PB PB); [intros _; apply same_grav|auto]|].
    apply (same_opt PB PB); [intros _|auto]. eapply same_cons; [all_S|].
    apply (same_pass PB _ E1 equiv_1 (reads_repulsion dp) indep_repulsion B_A stable_B). keep_tac.
Qed.
Lemma same_initial gravity k dt dt' : same PA (initial_ops dp gravity k dt dt') PA.
Proof.
  unfold initial_ops. cbv zeta. rewrite Hc. cbn [opt app].
  eapply same_cons; [apply (same_update PA)|]. eapply same_cons; [all_S|].
  eapply same_app; [apply (same_opt PA PA); [intros _; all_S|auto]|].
  eapply same_cons; [apply same_density|]. eapply same_cons; [all_S|].
  eapply same_app; [apply same_forces|].
  eapply same_app; [apply (same_opt PB PB); [intros _; all_S|auto]|].
  eapply same_app; [apply (same_opt PB PB); [intros _; apply same_rounds|auto]|].
  apply same_smooth.
Qed.
Lemma same_step gravity k dt : same PA (step_ops dp gravity k dt) PA.
Proof.
  unfold step_ops. cbv zeta. rewrite Hc. cbn [opt app].
  eapply same_app; [apply (same_opt PA PA); [intros _; destruct (dp_thermo dp); all_S|auto]|].
  do 3 (eapply same_cons; [apply (same_all PA); [apply stable_A|resp_tac|intro; repeat split]|]).
  eapply same_cons; [apply (same_update PA)|].
  eapply same_cons; [apply same_density|].
  eapply same_app; [apply same_forces|].
  eapply same_cons; [apply (same_all PB); [apply stable_B|resp_tac|intro; repeat split]|].
  eapply same_cons; [apply (same_reset PB)|].
  eapply same_app; [apply (same_opt PB PB); [intros _|auto]|].
  - eapply same_app; [apply same_rounds|]. destruct (dp_thermo dp); all_S.
  - apply same_smooth.
Qed.
Lemma same_loop gravity k dts : same PA (loop_ops dp gravity k dts) PA.
Proof.
  revert k. induction dts as [|dt dts IH]; intro k; cbn [loop_ops]; [apply same_nil|].
  eapply same_app; [apply same_step|apply IH].
Qed.
Lemma same_program gravity k0 dt dt' dts : same PA (program dp gravity k0 dt dt' dts) PA.
Proof. unfold program. eapply same_app; [apply same_initial|apply same_loop]. Qed.
End Same.
