(** The time step and the clock: C40, C41. *)
From Coq Require Import QArith Qminmax ZArith List Lqa Lia Bool.
From Verif Require Import Timestep_model.
Import ListNotations.
Local Open Scope Q_scope.

Lemma qlt_true a b : qlt a b = true <-> a < b.
Proof.
  unfold qlt. rewrite negb_true_iff, <- not_true_iff_false, Qle_bool_iff. split; [apply Qnot_le_lt|apply Qlt_not_le].
Qed.
Lemma qlt_false a b : qlt a b = false <-> b <= a.
Proof. unfold qlt. rewrite negb_false_iff. apply Qle_bool_iff. Qed.

Ltac qcase E := match goal with
  | |- context [qlt ?a ?b] => destruct (qlt a b) eqn:E; [apply qlt_true in E|apply qlt_false in E]
  end.

Definition positive (l : list Q) : Prop := forall d, In d l -> 0 < d.

Lemma dt_min_spec l : positive l -> 0 < dt_min l /\ forall d, In d l -> dt_min l <= d.
Proof.
  unfold dt_min. assert (H : 0 < 10 ^ 24) by reflexivity. revert H. generalize (10 ^ 24).
  induction l as [|a l IH]; intros q Hq Hp; [split; [exact Hq|intros d []]|]. cbn [fold_left].
  assert (Hm : 0 < Qmin q a) by (apply Q.min_glb_lt; [exact Hq|apply Hp; now left]).
  destruct (IH (Qmin q a) Hm) as (H1 & H2); [intros d Hd; apply Hp; now right|].
  split; [exact H1|]. intros d [<-|Hd]; [|now apply H2].
  assert (G : forall l q, fold_left Qmin l q <= q).
  { clear. induction l as [|b l IH]; intro q; [apply Qle_refl|]. cbn [fold_left].
    eapply Qle_trans; [apply IH|apply Q.le_min_l]. }
  eapply Qle_trans; [apply G|apply Q.le_min_r].
Qed.

Lemma limited_spec m d : 0 < m -> 0 < d -> 0 < limited m d <= m /\ limited m d <= 2 * d.
Proof.
  intros Hm Hd. unfold limited. cbv zeta.
  assert (D : d / 2 == d * (1 # 2)) by (unfold Qdiv; reflexivity).
  assert (A : exists x, x = (if qlt m d then Qmin m (d / 2) else d) /\ 0 < x <= m /\ x <= d).
  { eexists. split; [reflexivity|]. qcase E1; [|repeat split; lra].
    pose proof (Q.le_min_l m (d / 2)). pose proof (Q.le_min_r m (d / 2)).
    assert (A : 0 < Qmin m (d / 2)) by (apply Q.min_glb_lt; [exact Hm|]; lra). repeat split; lra. }
  destruct A as (x & <- & (A1 & A2) & A3). qcase E2; repeat split; lra.
Qed.

(** ** C40 *)

(** Without output by time, the step is positive, within the limit of every
    particle, at most doubled, and the clock advances by it. *)
Theorem C40_without_outputs p s l :
  out_screen p <= 0 -> out_scalar p <= 0 -> out_h5 p <= 0 -> 0 < dt s -> positive l ->
  let s' := set_adaptive p l s in
  0 < dt s' /\ (forall d, In d l -> dt s' <= d) /\ dt s' <= 2 * dt s /\ time (advance s') == time s + dt s'.
Proof.
  intros H1 H2 H3 Hd Hl. destruct (dt_min_spec l Hl) as (M0 & M1).
  destruct (limited_spec (dt_min l) (dt s) M0 Hd) as ((L1 & L2) & L3).
  unfold set_adaptive, block. cbv zeta.
  assert (O : forall o, o <= 0 -> qlt 0 o = false) by (intros; now apply qlt_false).
  rewrite !O by assumption. cbn [dt time advance time_next].
  split; [lra|]. split; [|split; lra].
  intros d Hin. specialize (M1 d Hin). lra.
Qed.

Example C40_case : let p := TParams 0 0 0 0 1 in
  dt (set_adaptive p [3; 5] (initial p)) == 2 /\ dt (set_adaptive p [1 # 10; 5] (initial p)) == 1 # 10.
Proof. split; reflexivity. Qed.

(** With an output interval the step saved before the last output is put
    back without regard to the limit; the step then exceeds the limit by any
    factor. *)
Theorem C40_stability_refuted K :
  0 < K -> exists p l0 l0' ls l, 0 < initial_dt p /\ positive l0 /\ positive l0' /\ Forall positive ls /\ positive l /\
    exists d, In d l /\ K * d < dt (set_adaptive p l (run p l0 l0' ls)).
Proof.
  intro HK. set (d := Qmin (1 # 8) (/ (2 * K))).
  assert (Hi : 0 < / (2 * K)) by (apply Qinv_lt_0_compat; lra).
  assert (Hd : 0 < d) by (apply Q.min_glb_lt; [reflexivity|exact Hi]).
  assert (Hd8 : d <= 1 # 8) by apply Q.le_min_l.
  assert (HdK : K * d < 1).
  { assert (d <= / (2 * K)) by apply Q.le_min_r.
    assert (K * / (2 * K) == 1 # 2) by (field; lra).
    assert (K * d <= K * / (2 * K)) by (rewrite !(Qmult_comm K); apply Qmult_le_compat_r; lra). lra. }
  exists (TParams 1 0 0 0 (1 # 2)), [1 # 2], [1 # 2], [[2]], [d].
  split; [reflexivity|]. split; [intros x [<-|[]]; reflexivity|]. split; [intros x [<-|[]]; reflexivity|].
  split; [constructor; [intros x [<-|[]]; reflexivity|constructor]|]. split; [intros x [<-|[]]; exact Hd|].
  exists d. split; [now left|].
  set (s := run _ _ _ _). 
  assert (Es : exists a b c e f g h, s = TState a b c e f g h /\ a == 1 # 2 /\ b == 1 /\ c == 1 /\ f == 1).
  { vm_compute. do 7 eexists. split; [reflexivity|]. repeat split; reflexivity. }
  destruct Es as (a & b & c & e & f & g & h & -> & Ea & Eb & Ec & Ef).
  unfold set_adaptive, block. cbn [dt time dt_saved t_screen out_screen out_scalar out_h5].
  change (qlt 0 1) with true. change (qlt 0 0) with false. cbv iota.
  assert (E : Qeq_bool c f = true) by (apply Qeq_bool_iff; lra). rewrite E.
  assert (E2 : qlt 0 b = true) by (apply qlt_true; lra). rewrite E2.
  assert (E3 : qlt (f + 1 - 1 / 10 * 1) (c + b) = true).
  { apply qlt_true. assert (1 / 10 * 1 == 1 # 10) by reflexivity. lra. }
  rewrite E3. cbn [dt]. unfold assign. lra.
Qed.

(** What does hold with outputs: the step exceeds the limit at most by the
    saved step or a tenth of an output interval. *)
Theorem C40_bound_partial p s l w :
  0 < dt s -> positive l ->
  1 / 10 * out_screen p <= w -> 1 / 10 * out_scalar p <= w -> 1 / 10 * out_h5 p <= w -> 0 <= w ->
  let s' := set_adaptive p l s in
  let m := Qmax (dt_min l) (dt_saved s) in
  dt s' <= m + w /\ dt_saved s' <= m.
Proof.
  intros Hd Hl W1 W2 W3 W0. destruct (dt_min_spec l Hl) as (M0 & _).
  destruct (limited_spec (dt_min l) (dt s) M0 Hd) as ((_ & L2) & _).
  cbv zeta. set (m := Qmax (dt_min l) (dt_saved s)).
  assert (Hm1 : dt_min l <= m) by apply Q.le_max_l. assert (Hm2 : dt_saved s <= m) by apply Q.le_max_r. clearbody m.
  assert (B : forall merge out b t, (merge = assign \/ merge = Qmin) -> 1 / 10 * out <= w ->
    fst (fst b) <= m -> snd (fst b) <= m -> snd b <= time s + m + w ->
    let r := block merge out (time s) b t in
    fst (fst (fst r)) <= m /\ snd (fst (fst r)) <= m /\ snd (fst r) <= time s + m + w).
  { intros merge out [[x y] z] t Hg Ho Hx Hy Hz. cbn [fst snd] in *. cbv zeta. unfold block. qcase E0; [|auto].
    assert (G : forall a t1, a <= m -> (qlt (t1 - 1 / 10 * out) (time s + a) = true -> merge z t1 <= time s + m + w)).
    { intros a t1 Ha E. apply qlt_true in E. destruct Hg as [->| ->]; unfold assign; [lra|].
      eapply Qle_trans; [apply Q.le_min_r|]. lra. }
    destruct (Qeq_bool (time s) t).
    - assert (Hx' : (if qlt 0 y then y else x) <= m) by (destruct (qlt 0 y); assumption).
      revert Hx'. generalize (if qlt 0 y then y else x). intros a Ha.
      destruct (qlt _ _) eqn:E; cbn [fst snd]; [|auto]. split; [exact Ha|]. split; [exact Ha|]. now apply (G a).
    - destruct (qlt _ _) eqn:E; cbn [fst snd]; [|auto]. split; [exact Hx|]. split; [exact Hx|]. now apply (G x). }
  unfold set_adaptive. cbv zeta.
  assert (B1 := B assign (out_screen p) (limited (dt_min l) (dt s), dt_saved s, time s + limited (dt_min l) (dt s)) (t_screen s)
     (or_introl eq_refl) W1 ltac:(cbn; lra) ltac:(cbn; lra) ltac:(cbn; lra)).
  cbv zeta in B1. destruct (block assign _ _ _ _) as [[[d1 s1] n1] ts]. cbn [fst snd] in B1. destruct B1 as (A1 & A2 & A3).
  assert (B2 := B Qmin (out_scalar p) (d1, s1, n1) (t_scalar s) (or_intror eq_refl) W2 A1 A2 A3).
  cbv zeta in B2. destruct (block Qmin (out_scalar p) _ _ _) as [[[d2 s2] n2] tc]. cbn [fst snd] in B2. destruct B2 as (A4 & A5 & A6).
  assert (B3 := B Qmin (out_h5 p) (d2, s2, n2) (t_h5 s) (or_intror eq_refl) W3 A4 A5 A6).
  cbv zeta in B3. destruct (block Qmin (out_h5 p) _ _ _) as [[[d3 s3] n3] th]. cbn [fst snd] in B3. destruct B3 as (A7 & A8 & A9).
  cbn [dt dt_saved]. split; lra.
Qed.

(** ** C41 *)

(** Screen output every unit of time, one particle: the output at time 2 is
    stepped over, and the following step goes back in time. *)
(** The first output of a run that starts at a time that is not negative is due at once; a run that starts earlier outputs first at
    the first multiple of the interval; without an interval nothing is scheduled. *)
Theorem C41_first_output out t old : (out <= 0 -> first_output out t old = old) /\
  (0 < out -> (0 <= t -> first_output out t old == t) /\ (t < 0 -> exists z, first_output out t old == out * inject_Z z /\ t <= out * inject_Z z < t + out)).
Proof.
  unfold first_output. split.
  - intros H. rewrite (proj2 (qlt_false _ _)) by exact H. reflexivity.
  - intros H. rewrite (proj2 (qlt_true _ _)) by exact H. set (z := Z.quot (Qnum (t / out)) (Zpos (Qden (t / out)))). cbv zeta.
    assert (Et : t == out * (t / out)) by (field; lra). set (u := t / out) in *.
    assert (Q : (0 <= u -> inject_Z z <= u) /\ (u < 0 -> u <= inject_Z z < u + 1)).
    { unfold z. destruct u as [a b]. cbn [Qnum Qden]. unfold Qle, Qlt, Qplus, inject_Z; cbn [Qnum Qden]. rewrite !Z.mul_1_r, ?Pos.mul_1_r.
      pose proof (Z.quot_rem' a (Zpos b)) as E. assert (HB : (0 < Zpos b)%Z) by reflexivity. split; intros S.
      - pose proof (Z.rem_nonneg a (Zpos b) ltac:(lia) ltac:(lia)). nia.
      - pose proof (Z.rem_nonpos a (Zpos b) ltac:(lia) ltac:(lia)). pose proof (Z.rem_bound_pos_neg a (Zpos b) ltac:(lia) ltac:(lia)). split; nia. }
    destruct Q as [Q1 Q2]. split; intros Ht.
    + assert (Hu : 0 <= u) by (unfold u; apply Qle_shift_div_l; lra). specialize (Q1 Hu). qcase E; [reflexivity|]. assert (out * inject_Z z <= out * u) by nra. lra.
    + assert (Hu : u < 0) by (unfold u; apply Qlt_shift_div_r; lra). destruct (Q2 Hu) as [A B]. assert (out * u <= out * inject_Z z) by nra. assert (out * inject_Z z < out * (u + 1)) by nra. exists z. qcase E; [lra|]. split; [reflexivity|]. split; lra.
Qed.
Example C41_first_output_case : first_output (3 # 10) 1 0 == 1 /\ first_output (3 # 10) (- 1) 0 == - (9 # 10).
Proof. split; reflexivity. Qed.
Theorem C41_clock_refuted :
  exists p l0 l0' ls l l', 0 < initial_dt p /\ out_screen p == 1 /\ initial_time p == 0 /\
    Forall positive (l0 :: l0' :: l :: l' :: ls) /\
    let s := run p l0 l0' ls in
    let s1 := iteration p s l in
    let s2 := iteration p s1 l' in
    time s == 1 /\ 2 < time s1 /\ time s2 < time s1.
Proof.
  exists (TParams 1 0 0 0 (425 # 1000)), [425 # 1000], [425 # 1000], [[1]], [2], [2].
  split; [reflexivity|]. split; [reflexivity|]. split; [reflexivity|]. split.
  - repeat (apply Forall_cons; [intros x [<-|[]]; reflexivity|]). constructor.
  - vm_compute. repeat split.
Qed.

(** With a constant stability limit and two output intervals, 10 and 4.9,
    the scalar output due at 9.8 is stepped over. *)
Theorem C41_constant_limit_refuted :
  exists p d n, 0 < d /\ initial_dt p == d /\ out_screen p == 10 /\ out_scalar p == 49 # 10 /\ initial_time p == 0 /\
    let s := run p [d] [d] (repeat [d] n) in
    let s1 := iteration p s [d] in
    let s2 := iteration p s1 [d] in
    t_scalar s == 98 # 10 /\ time s < 98 # 10 /\ 98 # 10 < time s1 /\ time s2 < time s1.
Proof.
  exists (TParams 10 (49 # 10) 0 0 (42 # 10)), (42 # 10), 2%nat.
  repeat (split; [reflexivity|]). vm_compute. repeat split.
Qed.

(** What holds: with one output interval and no saved step larger than needed
    ([limited ... <= dt_saved] whenever it is put back), the clock advances
    and does not pass the next output time. *)
Theorem C41_single_output_partial p s l :
  0 < out_screen p -> out_scalar p <= 0 -> out_h5 p <= 0 ->
  0 < dt s -> positive l -> time s <= t_screen s ->
  (time s == t_screen s -> dt_saved s <= 0 \/ limited (dt_min l) (dt s) <= dt_saved s) ->
  let s1 := advance (set_adaptive p l s) in
  time s < time s1 /\ time s1 <= t_screen s1 /\ 0 < dt s1 /\
  (t_screen s1 == t_screen s \/ time s == t_screen s /\ t_screen s1 == t_screen s + out_screen p).
Proof.
  intros O1 O2 O3 Hd Hl Ht Hr. destruct (dt_min_spec l Hl) as (M0 & _).
  destruct (limited_spec (dt_min l) (dt s) M0 Hd) as ((L1 & L2) & _).
  unfold set_adaptive. cbv zeta. revert Hr L1 L2. generalize (limited (dt_min l) (dt s)). intros d Hr L1 L2.
  assert (F2 : qlt 0 (out_scalar p) = false) by now apply qlt_false.
  assert (F3 : qlt 0 (out_h5 p) = false) by now apply qlt_false.
  assert (F1 : qlt 0 (out_screen p) = true) by now apply qlt_true.
  unfold block. rewrite F1, F2, F3.
  assert (T10 : 1 / 10 * out_screen p == out_screen p * (1 # 10)) by (field).
  destruct (Qeq_bool (time s) (t_screen s)) eqn:E.
  - apply Qeq_bool_iff in E. specialize (Hr E).
    assert (Hx : exists x, x = (if qlt 0 (dt_saved s) then dt_saved s else d) /\ d <= x).
    { eexists. split; [reflexivity|]. qcase Es; lra. }
    destruct Hx as (x & <- & Hx). qcase Ew; cbn [advance dt time time_next t_screen]; unfold assign.
    + repeat split; try lra.
    + repeat split; try lra.
  - assert (N : time s < t_screen s).
    { apply Qle_lteq in Ht. destruct Ht as [Ht|Ht]; [exact Ht|]. apply Qeq_bool_iff in Ht. congruence. }
    qcase Ew; cbn [advance dt time time_next t_screen]; unfold assign; repeat split; try lra.
Qed.

Example C41_case : let p := TParams 1 0 0 0 (3 # 10) in
  let s := run p [3 # 10] [3 # 10] (repeat [3 # 10] 10) in
  time s <= t_screen s /\ dt_saved s > 0 /\ time (run p [3 # 10] [3 # 10] (repeat [3 # 10] 3)) == 1.
Proof. vm_compute. repeat split; discriminate. Qed.

Print Assumptions C40_without_outputs.
Print Assumptions C40_stability_refuted.
Print Assumptions C40_bound_partial.
Print Assumptions C41_clock_refuted.
Print Assumptions C41_single_output_partial.
