(** A distributed run of the driver does what the sequence of passes on the
    undistributed particles does, up to the signal speeds, and conversely. *)
From Verif Require Import Base Vec Geometry_model Geometry_props Kernel_model Sph_model Sph_props EForce_model Driver_model Pass_model.
From Coq Require Import Permutation FunctionalExtensionality.
Local Open Scope R_scope.

(** A particle without its signal speed *)
Definition nov (b : dbody) : dbody := set_vsig 0 b.

Lemma nov_but b b' : nov b = nov b' <-> but_vsig b b'.
Proof.
  split.
  - intro H. exists (d_vsig b'). destruct b, b'. unfold nov, set_vsig in *. cbn in *. injection H as -> -> -> -> -> -> -> -> ->. reflexivity.
  - intros (v & ->). reflexivity.
Qed.

(** ** What a pass reads of the neighbours *)
Definition E1 (b b' : dbody) : Prop := p_pos (d_p b) = p_pos (d_p b') /\ p_m (d_p b) = p_m (d_p b') /\ p_h (d_p b) = p_h (d_p b') /\ d_id b = d_id b'.
Definition EF (b b' : dbody) : Prop := E1 b b' /\ p_vel (d_p b) = p_vel (d_p b') /\ p_v12 (d_p b) = p_v12 (d_p b') /\
  p_rho (d_p b) = p_rho (d_p b') /\ p_P (d_p b) = p_P (d_p b') /\ p_c (d_p b) = p_c (d_p b') /\ p_alpha (d_p b) = p_alpha (d_p b').
Definition ET (b b' : dbody) : Prop := True.
Definition EM (b b' : dbody) : Prop := p_m (d_p b) = p_m (d_p b') /\ p_h (d_p b) = p_h (d_p b') /\ p_rho (d_p b) = p_rho (d_p b').

Record equiv (E : dbody -> dbody -> Prop) : Prop := Equiv {
  eq_nov : forall a b, nov a = nov b -> E a b;
  eq_sym : forall a b, E a b -> E b a;
  eq_trans : forall a b c, E a b -> E b c -> E a c
}.
Lemma eq_refl' E a : equiv E -> E a a.
Proof. intro H. apply (eq_nov E H). reflexivity. Qed.

Lemma equiv_1 : equiv E1.
Proof.
  split; unfold E1.
  - intros a b H. apply nov_but in H. destruct H as (v & ->). auto.
  - intros a b (-> & -> & -> & ->). auto.
  - intros a b c (-> & -> & -> & ->) H. exact H.
Qed.
Lemma equiv_F : equiv EF.
Proof.
  split; unfold EF.
  - intros a b H. split; [apply (eq_nov _ equiv_1), H|]. apply nov_but in H. destruct H as (v & ->). repeat split.
  - intros a b (H & -> & -> & -> & -> & -> & ->). split; [apply (eq_sym _ equiv_1), H|]. repeat split.
  - intros a b c (H & -> & -> & -> & -> & -> & ->) (H' & K). split; [eapply (eq_trans _ equiv_1); eassumption|exact K].
Qed.
Lemma equiv_T : equiv ET.
Proof. split; unfold ET; auto. Qed.

Definition reads (E : dbody -> dbody -> Prop) (F : dbody -> list dbody -> option dbody) : Prop :=
  forall b b' l l', nov b = nov b' -> Forall2 E l l' -> option_map nov (F b l) = option_map nov (F b' l').
Definition keeps_pass (E : dbody -> dbody -> Prop) (F : dbody -> list dbody -> option dbody) : Prop :=
  forall b l x, F b l = Some x -> E b x.
Definition resp (f : dbody -> option dbody) : Prop :=
  forall b b', nov b = nov b' -> option_map nov (f b) = option_map nov (f b').
Definition keeps_all (E : dbody -> dbody -> Prop) (f : dbody -> option dbody) : Prop := forall b x, f b = Some x -> E b x.

Lemma forall2_weak (E E' : dbody -> dbody -> Prop) l l' : (forall a b, E a b -> E' a b) -> Forall2 E l l' -> Forall2 E' l l'.
Proof. intro H. induction 1; constructor; auto. Qed.
Lemma reads_weak (E E' : dbody -> dbody -> Prop) F : (forall a b, E a b -> E' a b) -> reads E' F -> reads E F.
Proof. intros H R b b' l l' Hb Hl. apply R; [exact Hb|]. eapply forall2_weak; eassumption. Qed.

Lemma suml_forall2 (E : dbody -> dbody -> Prop) (g g' : dbody -> R) l l' :
  (forall a b, E a b -> g a = g' b) -> Forall2 E l l' -> suml g l = suml g' l'.
Proof. intro H. induction 1; cbn [suml]; [reflexivity|]. rewrite (H _ _ H0), IHForall2. reflexivity. Qed.

Lemma suml_parts (g : part -> R) l : suml g (map d_p l) = suml (fun b => g (d_p b)) l.
Proof. apply suml_map. Qed.

(** ** One pass *)
Section OnePass.
Context (F : dbody -> list dbody -> option dbody) (nb : nat -> list nat) (E : dbody -> dbody -> Prop) (N : nat) (st0 : dstate).
Context (HE : equiv E) (HK : keeps_pass E F) (Hnb : forall i j, (i < N)%nat -> In j (nb i) -> (j < N)%nat).

Definition fresh (st : dstate) : Prop := forall r j b, (j < N)%nat -> ds_own st j <> r -> ds_gh st r j = Some b -> E b (ds_cur st j).

Definition inv (done : list nat) (st : dstate) : Prop :=
  ds_own st = ds_own st0 /\
  (forall i, (i < N)%nat -> E (ds_cur st i) (ds_cur st0 i)) /\
  (forall r j b, (j < N)%nat -> ds_own st0 j <> r -> ds_gh st r j = Some b -> E b (ds_cur st0 j)) /\
  (forall i, (i < N)%nat -> ~ In i done -> ds_cur st i = ds_cur st0 i) /\
  (forall i, (i < N)%nat -> In i done -> exists bs, Forall2 E bs (map (ds_cur st0) (nb i)) /\ F (ds_cur st0 i) bs = Some (ds_cur st i)).

Lemma seen_related done st r l bs : inv done st -> (forall j, In j l -> (j < N)%nat) ->
  seen_all st r l = Some bs -> Forall2 E bs (map (ds_cur st0) l).
Proof.
  intros (I1 & I2 & I3 & _). revert bs. induction l as [|j l IH]; intros bs Hl H; cbn [seen_all] in H.
  - injection H as <-. constructor.
  - destruct (seen st r j) as [b|] eqn:Eb; [|discriminate]. destruct (seen_all st r l) as [bs'|]; [|discriminate].
    injection H as <-. cbn [map]. constructor; [|apply IH; [intros; apply Hl; now right|reflexivity]].
    unfold seen in Eb. rewrite I1 in Eb. assert (Hj : (j < N)%nat) by (apply Hl; now left). destruct (Nat.eqb (ds_own st0 j) r) eqn:Eo.
    + injection Eb as <-. apply I2, Hj.
    + apply Nat.eqb_neq in Eo. eapply I3; eassumption.
Qed.

Lemma inv_step e done st st' : inv done st -> pass_step F nb e st st' ->
  (forall i, e = Apply i -> (i < N)%nat /\ ~ In i done) ->
  inv (match e with Apply i => i :: done | Fetch _ _ => done end) st'.
Proof.
  intros I H Hn. destruct H as [st r j Hg | st i bs b Hs Hb].
  - destruct I as (I1 & I2 & I3 & I4 & I5). unfold inv. cbn [ds_own ds_cur ds_gh]. split; [exact I1|]. split; [exact I2|]. split; [|split; [exact I4|exact I5]].
    intros r' j' b Hj Ho. unfold update2. destruct (Nat.eqb r' r && Nat.eqb j' j) eqn:Eq.
    + apply andb_prop in Eq. destruct Eq as [_ Eq]. apply Nat.eqb_eq in Eq. subst j'. intros [= <-]. apply I2, Hj.
    + apply I3; assumption.
  - destruct (Hn i eq_refl) as [Hi Hd].
    assert (R : Forall2 E bs (map (ds_cur st0) (nb i))).
    { eapply seen_related; [exact I| |exact Hs]. intros j Hj. eapply Hnb; eassumption. }
    destruct I as (I1 & I2 & I3 & I4 & I5). unfold inv. cbn [ds_own ds_cur ds_gh].
    split; [exact I1|]. split; [|split; [exact I3|split]].
    + intros j Hj. unfold update. destruct (Nat.eqb j i) eqn:Ej; [|apply I2, Hj]. apply Nat.eqb_eq in Ej. subst j.
      rewrite <- (I4 i Hi Hd). apply (eq_sym E HE). eapply HK, Hb.
    + intros j Hj Hnd. unfold update. destruct (Nat.eqb j i) eqn:Ej.
      * apply Nat.eqb_eq in Ej. subst j. exfalso. apply Hnd. now left.
      * apply I4; [exact Hj|]. intro. apply Hnd. now right.
    + intros j Hj Hin. unfold update. destruct (Nat.eqb j i) eqn:Ej.
      * apply Nat.eqb_eq in Ej. subst j. exists bs. split; [exact R|]. rewrite <- (I4 i Hi Hd). exact Hb.
      * destruct Hin as [->|Hin]; [rewrite Nat.eqb_refl in Ej; discriminate|]. apply I5; assumption.
Qed.

Lemma inv_steps es done st st' : inv done st -> pass_steps F nb es st st' ->
  NoDup (rev (applied es) ++ done) -> (forall i, In i (applied es) -> (i < N)%nat) -> inv (rev (applied es) ++ done) st'.
Proof.
  intros I H. revert done I. induction H as [st|e es st st1 st2 H1 H2 IH]; intros done I Hd Hl; [exact I|].
  destruct e as [r j|i].
  - apply IH; [|exact Hd|exact Hl]. apply (inv_step (Fetch r j) done st st1 I H1). discriminate.
  - unfold applied in *. cbn [flat_map app rev] in *. rewrite <- app_assoc in *. cbn [app] in *. apply IH; [|exact Hd|].
    + apply (inv_step (Apply i) done st st1 I H1). intros i' [= <-]. split; [apply Hl; now left|].
      apply NoDup_remove_2 in Hd. intro. apply Hd, in_or_app. now right.
    + intros i' Hi'. apply Hl. now right.
Qed.

Lemma pass_result es st' : fresh st0 -> Permutation (applied es) (seq 0 N) -> pass_steps F nb es st0 st' ->
  (forall i, (i < N)%nat -> exists bs, Forall2 E bs (map (ds_cur st0) (nb i)) /\ F (ds_cur st0 i) bs = Some (ds_cur st' i)) /\
  ds_own st' = ds_own st0 /\ (forall r j b, (j < N)%nat -> ds_own st' j <> r -> ds_gh st' r j = Some b -> E b (ds_cur st' j)).
Proof.
  intros Hf Hp Hs. assert (I0 : inv [] st0).
  { split; [reflexivity|]. split; [intros; apply eq_refl', HE|]. split; [exact Hf|]. split; [reflexivity|]. intros i _ []. }
  assert (I : inv (rev (applied es) ++ []) st').
  { eapply inv_steps; [exact I0|exact Hs| |].
    - rewrite app_nil_r. apply (Permutation_NoDup (l := seq 0 N)); [|apply seq_NoDup]. rewrite <- Permutation_rev. symmetry. exact Hp.
    - intros i Hi. apply (Permutation_in _ Hp) in Hi. apply in_seq in Hi. lia. }
  destruct I as (I1 & I2 & I3 & _ & I5). split; [|split].
  - intros i Hi. apply I5; [exact Hi|]. rewrite app_nil_r, <- in_rev. apply (Permutation_in _ (Permutation_sym Hp)), in_seq. lia.
  - exact I1.
  - intros r j b Hj Ho Hg. rewrite I1 in Ho. eapply (eq_trans E HE); [eapply I3; eassumption|]. apply (eq_sym E HE), I2, Hj.
Qed.
End OnePass.

Lemma fresh_weak (E E' : dbody -> dbody -> Prop) N st : (forall a b, E a b -> E' a b) -> fresh E N st -> fresh E' N st.
Proof. intros H Hf r j b Hj Ho Hg. eapply H, Hf; eassumption. Qed.
Lemma fresh_present E N st : equiv E -> present N (ds_cur st) (ds_gh st) -> fresh E N st.
Proof. intros HE H r j b Hj _ Hg. rewrite (H r j b Hj Hg). apply eq_refl', HE. Qed.

(** ** Which sequences of operations can be run with copies *)

(** [ok E l E']: the copies are right for [E] before and for [E'] after, and
    every pass reads what is right *)
Inductive ok : (dbody -> dbody -> Prop) -> list op -> (dbody -> dbody -> Prop) -> Prop :=
  | ok_nil E : ok E [] E
  | ok_app E E' E'' l1 l2 : ok E l1 E' -> ok E' l2 E'' -> ok E (l1 ++ l2) E''
  | ok_weak (E E0 E' E0' : dbody -> dbody -> Prop) l : (forall a b, E0 a b -> E a b) -> (forall a b, E' a b -> E0' a b) -> ok E l E' -> ok E0 l E0'
  | ok_update E E' : equiv E' -> ok E [OUpdate] E'
  | ok_reset E E' : equiv E' -> ok E [OReset] E'
  | ok_OAll E f : equiv E -> resp f -> keeps_all E f -> ok E [OAll f] E
  | ok_pass E F : equiv E -> reads E F -> keeps_pass E F -> ok E [OPass F] E
  | ok_grav : ok EF [OGrav] EF
  | ok_smooth E : ok E [OSmooth] ET.

Lemma ok_cons E E' E'' o l : ok E [o] E' -> ok E' l E'' -> ok E (o :: l) E''.
Proof. apply (ok_app E E' E'' [o] l). Qed.
Lemma ok_all E f : equiv E -> resp (fun b => Some (f b)) -> (forall b, E b (f b)) -> ok E [all f] E.
Proof. intros HE Hr Hk. apply ok_OAll; [exact HE|exact Hr|]. intros b x [= <-]. apply Hk. Qed.
Lemma ok_opt (E E' : dbody -> dbody -> Prop) (c : bool) l : (c = true -> ok E l E') -> (forall a b, E a b -> E' a b) -> ok E (opt c l) E'.
Proof.
  intros H W. destruct c; cbn [opt]; [auto|]. eapply ok_weak; [|exact W|apply ok_nil]. auto.
Qed.

(** ** Sequences of operations *)
Section Sim.
Context (dp : dparams) (N nranks : nat) (grav : (nat -> dbody) -> (nat -> point * R) -> Prop).
Notation n := (dp_dim dp).
Notation dops := (dist_ops dp N nranks grav).
Notation sops := (do_ops dp N (complete n N) grav).
Context (Hgrav : forall s s' g, (forall i, (i < N)%nat -> p_pos (d_p (s i)) = p_pos (d_p (s' i)) /\ p_m (d_p (s i)) = p_m (d_p (s' i)) /\ p_h (d_p (s i)) = p_h (d_p (s' i))) ->
  grav s g -> grav s' g).

Definition rel (st : dstate) (s : nat -> dbody) : Prop := forall i, (i < N)%nat -> nov (ds_cur st i) = nov (s i).

Lemma rel_parts st s i : rel st s -> (i < N)%nat -> d_p (ds_cur st i) = d_p (s i).
Proof. intros H Hi. specialize (H i Hi). apply nov_but in H. destruct H as (v & ->). reflexivity. Qed.

Lemma complete_rel s s' nb : (forall i, (i < N)%nat -> d_p (s i) = d_p (s' i)) -> complete n N s nb -> complete n N s' nb.
Proof.
  intros H C i Hi. destruct (C i Hi) as (C1 & C2 & C3). split; [exact C1|]. split; [exact C2|]. intros j Hj Hn.
  rewrite <- (H i Hi), <- (H j Hj). apply C3; assumption.
Qed.

(** [safe E l E']: run with copies that are right for [E], the operations do
    what they do without copies and leave copies that are right for [E'] *)
Definition safe (E : dbody -> dbody -> Prop) (l : list op) (E' : dbody -> dbody -> Prop) : Prop :=
  forall st st' s, rel st s -> fresh E N st -> dops l st st' -> exists s', sops l s s' /\ rel st' s' /\ fresh E' N st'.

Lemma safe_nil E : safe E [] E.
Proof. intros st st' s Hr Hf H. cbn in H. subst st'. exists s. cbn. auto. Qed.
Lemma dist_ops_app l1 l2 st st' : dops (l1 ++ l2) st st' <-> exists m, dops l1 st m /\ dops l2 m st'.
Proof.
  revert st. induction l1 as [|o l1 IH]; intro st; cbn [app dist_ops].
  - split; [intro H; exists st; auto|intros (m & -> & H); exact H].
  - split.
    + intros (m & Ho & H). apply IH in H. destruct H as (m' & H1 & H2). exists m'. split; [exists m; auto|exact H2].
    + intros (m' & (m & Ho & H1) & H2). exists m. split; [exact Ho|]. apply IH. exists m'. auto.
Qed.
Lemma do_ops_app' l1 l2 s s' : sops (l1 ++ l2) s s' <-> exists m, sops l1 s m /\ sops l2 m s'.
Proof.
  revert s. induction l1 as [|o l1 IH]; intro s; cbn [app do_ops].
  - split; [intro H; exists s; auto|intros (m & -> & H); exact H].
  - split.
    + intros (m & Ho & H). apply IH in H. destruct H as (m' & H1 & H2). exists m'. split; [exists m; auto|exact H2].
    + intros (m' & (m & Ho & H1) & H2). exists m. split; [exact Ho|]. apply IH. exists m'. auto.
Qed.
Lemma safe_app E E' E'' l1 l2 : safe E l1 E' -> safe E' l2 E'' -> safe E (l1 ++ l2) E''.
Proof.
  intros S1 S2 st st' s Hr Hf H. apply dist_ops_app in H. destruct H as (m & H1 & H2).
  destruct (S1 _ _ _ Hr Hf H1) as (s1 & D1 & R1 & F1). destruct (S2 _ _ _ R1 F1 H2) as (s2 & D2 & R2 & F2).
  exists s2. split; [|auto]. apply do_ops_app'. exists s1. auto.
Qed.
Lemma safe_weak (E E0 E' E0' : dbody -> dbody -> Prop) l : (forall a b, E0 a b -> E a b) -> (forall a b, E' a b -> E0' a b) -> safe E l E' -> safe E0 l E0'.
Proof.
  intros H H' S st st' s Hr Hf Hd. destruct (S st st' s Hr (fresh_weak _ _ _ _ H Hf) Hd) as (s' & D & R & F').
  exists s'. split; [exact D|]. split; [exact R|]. eapply fresh_weak; eassumption.
Qed.

Lemma safe_update E E' : equiv E' -> safe E [OUpdate] E'.
Proof.
  intros HE st st' s Hr Hf (m & (_ & Hc & Hp) & ->). exists s. cbn. split; [exists s; auto|]. split.
  - intros i Hi. rewrite Hc. apply Hr, Hi.
  - apply fresh_present; assumption.
Qed.
Lemma safe_reset E E' : equiv E' -> safe E [OReset] E'.
Proof.
  intros HE st st' s Hr Hf (m & (_ & Hc & Hp) & ->). exists s. cbn. split; [exists s; auto|]. split.
  - intros i Hi. rewrite Hc. apply Hr, Hi.
  - apply fresh_present; assumption.
Qed.
Lemma safe_OAll E f : equiv E -> resp f -> keeps_all E f -> safe E [OAll f] E.
Proof.
  intros HE Hres Hk st st' s Hr Hf (m & (Ho & Hg & Hc) & ->).
  exists (fun i => match f (s i) with Some b => b | None => s i end).
  assert (D : forall i, (i < N)%nat -> exists x, f (s i) = Some x /\ nov x = nov (ds_cur m i)).
  { intros i Hi. pose proof (Hres _ _ (Hr i Hi)) as Q. rewrite (Hc i Hi) in Q. destruct (f (s i)) as [x|]; [|discriminate].
    cbn [option_map] in Q. exists x. split; [reflexivity|congruence]. }
  split; [|split].
  - cbn. eexists. split; [|reflexivity]. cbn. intros i Hi. destruct (D i Hi) as (x & -> & _). reflexivity.
  - intros i Hi. destruct (D i Hi) as (x & -> & Hx). congruence.
  - intros r j b Hj Hown Hb. rewrite Ho in Hown. rewrite Hg in Hb. eapply (eq_trans E HE); [eapply Hf; eassumption|]. eapply Hk, Hc, Hj.
Qed.
Lemma safe_pass E F : equiv E -> reads E F -> keeps_pass E F -> safe E [OPass F] E.
Proof.
  intros HE Hrd Hk st st' s Hr Hf (m & (nb & es & Hc & Hp & Hs) & ->).
  assert (Hin : forall i j, (i < N)%nat -> In j (nb i) -> (j < N)%nat).
  { intros i j Hi Hj. destruct (Hc i Hi) as (_ & C & _). apply C, Hj. }
  destruct (pass_result F nb E N st HE Hk Hin es m Hf Hp Hs) as (P1 & P2 & P3).
  assert (D : forall i, (i < N)%nat -> exists x, F (s i) (map s (nb i)) = Some x /\ nov x = nov (ds_cur m i)).
  { intros i Hi. destruct (P1 i Hi) as (bs & B1 & B2).
    assert (B : Forall2 E bs (map s (nb i))).
    { destruct (Hc i Hi) as (_ & C & _). clear B2. revert bs B1. induction (nb i) as [|j l IH]; intros bs B1; inversion B1; subst; constructor.
      - eapply (eq_trans E HE); [eassumption|]. apply (eq_nov E HE), Hr, C. now left.
      - apply IH; [intros; apply C; now right|assumption]. }
    pose proof (Hrd _ _ _ _ (Hr i Hi) B) as Q. rewrite B2 in Q. destruct (F (s i) _) as [x|]; [|discriminate].
    cbn [option_map] in Q. exists x. split; [reflexivity|congruence]. }
  exists (fun i => match F (s i) (map s (nb i)) with Some b => b | None => s i end). split; [|split].
  - cbn. eexists. split; [|reflexivity]. cbn. exists nb. split.
    + eapply complete_rel; [|exact Hc]. intros i Hi. apply rel_parts; assumption.
    + intros i Hi. destruct (D i Hi) as (x & -> & _). reflexivity.
  - intros i Hi. destruct (D i Hi) as (x & -> & Hx). congruence.
  - exact P3.
Qed.

Lemma safe_grav : safe EF [OGrav] EF.
Proof.
  intros st st' s Hr Hf (m & (Ho & (g & Hg & Hc) & Hgh) & ->).
  exists (fun i => set_gpot (d_gpot (s i) + snd (g i)) (set_gacc (vadd (p_gacc (d_p (s i))) (fst (g i))) (s i))).
  split; [|split].
  - cbn. eexists. split; [|reflexivity]. cbn. exists g. split; [|reflexivity]. eapply Hgrav; [|exact Hg].
    intros i Hi. rewrite (rel_parts st s i Hr Hi). auto.
  - intros i Hi. rewrite (Hc i Hi). specialize (Hr i Hi). apply nov_but in Hr. destruct Hr as (v & ->). reflexivity.
  - intros r j b Hj Hown Hb. rewrite Ho in Hown. rewrite (Hc j Hj).
    assert (K : EF (ds_cur st j) (set_gpot (d_gpot (ds_cur st j) + snd (g j)) (set_gacc (vadd (p_gacc (d_p (ds_cur st j))) (fst (g j))) (ds_cur st j)))).
    { repeat split. }
    destruct (Hgh r j b Hb) as [H|[->| ->]].
    + eapply (eq_trans _ equiv_F); [eapply Hf; eassumption|exact K].
    + exact K.
    + rewrite (Hc j Hj). apply eq_refl', equiv_F.
Qed.

Lemma new_h_nov s s' : (forall i, (i < N)%nat -> nov (s i) = nov (s' i)) -> forall i, (i < N)%nat -> nov (new_h dp N s i) = nov (new_h dp N s' i).
Proof.
  intros H i Hi.
  assert (Q : forall j, (j < N)%nat -> smoothing_length dp (s j) = smoothing_length dp (s' j)).
  { intros j Hj. specialize (H j Hj). apply nov_but in H. destruct H as (v & ->). reflexivity. }
  unfold new_h. destruct (dp_hmode dp).
  - rewrite (Q i Hi). specialize (H i Hi). apply nov_but in H. destruct H as (v & ->). reflexivity.
  - cbv zeta. rewrite (sumn_ext N _ (fun j => smoothing_length dp (s' j)) Q). specialize (H i Hi). apply nov_but in H. destruct H as (v & ->). reflexivity.
  - apply H, Hi.
Qed.
Lemma safe_smooth E : safe E [OSmooth] ET.
Proof.
  intros st st' s Hr Hf (m & (Ho & Hg & Hc) & ->). exists (new_h dp N s). split; [|split].
  - cbn. eexists. split; reflexivity.
  - intros i Hi. rewrite Hc. apply new_h_nov; assumption.
  - intros r j b _ _ _. exact I.
Qed.
Lemma ok_safe E l E' : ok E l E' -> safe E l E'.
Proof.
  induction 1; eauto using safe_nil, safe_app, safe_weak, safe_update, safe_reset, safe_OAll, safe_pass, safe_grav, safe_smooth.
Qed.
End Sim.
