From Coq Require Import Lia.
From Verif Require Import Base Hypercube_model.

(** ** C16: who learns what in the exchange of branches *)
Definition covers {B : Type} (l : list (item B)) (b : B) : Prop := exists it, In it l /\ In b (it_cover it).
(** completing nodes neither loses nor invents branches, and a completed node is owned by
    one of the owners below it *)
Definition merge_ok {B : Type} (merge : nat -> list (item B) -> list (item B)) : Prop :=
  forall r l, (forall b, covers (merge r l) b <-> covers l b) /\ (forall it, In it (merge r l) -> exists it', In it' l /\ it_owner it' = it_owner it).
Lemma lxor_bound : forall a b k, (a < 2 ^ k -> b < 2 ^ k -> Nat.lxor a b < 2 ^ k)%nat.
Proof.
  intros a b k Ha Hb. destruct (Nat.eq_dec (Nat.lxor a b) 0) as [E|E]; [rewrite E; lia|].
  assert (Hk : (0 < k)%nat) by (destruct k; [cbn in *; assert (a = 0 /\ b = 0)%nat as [-> ->] by lia; cbn in E; congruence | lia]).
  assert (L : forall x, (x < 2 ^ k -> Nat.log2 x < k)%nat) by (intros x Hx; destruct x; [cbn; lia | apply Nat.log2_lt_pow2; lia]).
  apply Nat.log2_lt_cancel. rewrite Nat.log2_pow2 by lia. pose proof (Nat.log2_lxor a b). pose proof (L a Ha). pose proof (L b Hb). lia.
Qed.
Lemma pow2_pos : forall i, (0 < 2 ^ i)%nat. Proof. intros. pose proof (Nat.pow_nonzero 2 i ltac:(lia)). lia. Qed.
Lemma lxor_twice : forall a b, Nat.lxor (Nat.lxor a b) b = a.
Proof. intros. rewrite Nat.lxor_assoc, Nat.lxor_nilpotent, Nat.lxor_0_r. reflexivity. Qed.
Lemma div_lxor_low : forall r i, (Nat.lxor r (2 ^ i) / 2 ^ i = Nat.lxor (r / 2 ^ i) 1)%nat.
Proof.
  intros. rewrite <- ! Nat.shiftr_div_pow2, Nat.shiftr_lxor. f_equal. rewrite Nat.shiftr_div_pow2. apply Nat.div_same. pose proof (pow2_pos i). lia.
Qed.
Lemma lxor_1 : forall m, (Nat.lxor m 1 <> m /\ Nat.lxor m 1 / 2 = m / 2 /\ (forall n, n / 2 = m / 2 -> n = m \/ n = Nat.lxor m 1))%nat.
Proof.
  intros m. assert (E : Nat.lxor m 1 = if Nat.even m then (m + 1)%nat else (m - 1)%nat).
  { destruct (Nat.even m) eqn:Em.
    - apply Nat.even_spec in Em. destruct Em as (k & ->). apply Nat.bits_inj. intros n. rewrite Nat.lxor_spec. destruct n as [|n].
      + rewrite Nat.testbit_even_0, Nat.testbit_odd_0. reflexivity.
      + rewrite Nat.testbit_even_succ, Nat.testbit_odd_succ by lia. change 1%nat with (2 * 0 + 1)%nat. rewrite Nat.testbit_odd_succ by lia. rewrite Nat.bits_0, xorb_false_r. reflexivity.
    - assert (Eo : Nat.odd m = true) by (unfold Nat.odd; rewrite Em; reflexivity). apply Nat.odd_spec in Eo. destruct Eo as (k & ->). replace (2 * k + 1 - 1)%nat with (2 * k)%nat by lia.
      apply Nat.bits_inj. intros n. rewrite Nat.lxor_spec. destruct n as [|n].
      + rewrite Nat.testbit_even_0, Nat.testbit_odd_0. reflexivity.
      + rewrite Nat.testbit_even_succ, Nat.testbit_odd_succ by lia. change 1%nat with (2 * 0 + 1)%nat. rewrite Nat.testbit_odd_succ by lia. rewrite Nat.bits_0, xorb_false_r. reflexivity. }
  rewrite E. destruct (Nat.even m) eqn:Em.
  - apply Nat.even_spec in Em. destruct Em as (k & ->). assert ((2 * k) / 2 = k)%nat by (rewrite Nat.mul_comm; apply Nat.div_mul; lia).
    assert ((2 * k + 1) / 2 = k)%nat by (symmetry; apply (Nat.div_unique _ 2 k 1); lia).
    split; [lia|]. split; [lia|]. intros n Hn. pose proof (Nat.div_mod n 2 ltac:(lia)). pose proof (Nat.mod_upper_bound n 2 ltac:(lia)). lia.
  - assert (Eo : Nat.odd m = true) by (unfold Nat.odd; rewrite Em; reflexivity). apply Nat.odd_spec in Eo. destruct Eo as (k & ->).
    replace (2 * k + 1 - 1)%nat with (2 * k)%nat by lia. assert ((2 * k) / 2 = k)%nat by (rewrite Nat.mul_comm; apply Nat.div_mul; lia).
    assert ((2 * k + 1) / 2 = k)%nat by (symmetry; apply (Nat.div_unique _ 2 k 1); lia).
    split; [lia|]. split; [lia|]. intros n Hn. pose proof (Nat.div_mod n 2 ltac:(lia)). pose proof (Nat.mod_upper_bound n 2 ltac:(lia)). lia.
Qed.
Lemma lxor_high : forall r k, (r < 2 ^ k -> Nat.lxor r (2 ^ k) = r + 2 ^ k)%nat.
Proof. intros r k H. symmetry. apply Nat.add_nocarry_lxor. apply Nat.bits_inj. intros n. rewrite Nat.land_spec, Nat.bits_0.
  destruct (Nat.eq_dec n k) as [->|Hn]; [|rewrite Nat.pow2_bits_false by lia; apply andb_false_r].
  rewrite Nat.pow2_bits_true, andb_true_r. destruct r; [apply Nat.bits_0|]. apply Nat.bits_above_log2. apply Nat.log2_lt_pow2; lia.
Qed.
Lemma lxor_neq : forall r i, Nat.lxor r (2 ^ i) <> r.
Proof.
  intros r i E. assert (H : Nat.lxor (Nat.lxor r (2 ^ i)) r = 0%nat) by (rewrite E; apply Nat.lxor_nilpotent).
  rewrite (Nat.lxor_comm r), Nat.lxor_assoc, Nat.lxor_nilpotent, Nat.lxor_0_r in H. pose proof (pow2_pos i). lia.
Qed.
Lemma lxor_lt_high : forall r i k, (i < k -> 2 ^ k <= r < 2 ^ S k -> 2 ^ k <= Nat.lxor r (2 ^ i) < 2 ^ S k /\ Nat.lxor r (2 ^ i) - 2 ^ k = Nat.lxor (r - 2 ^ k) (2 ^ i))%nat.
Proof.
  intros r i k Hi Hr. set (b := (r - 2 ^ k)%nat). assert (Hb : (b < 2 ^ k)%nat) by (unfold b; cbn in Hr; lia).
  assert (Er : r = Nat.lxor b (2 ^ k)) by (rewrite lxor_high by exact Hb; unfold b; lia).
  assert (H2 : (2 ^ i < 2 ^ k)%nat) by (apply Nat.pow_lt_mono_r; lia).
  pose proof (lxor_bound b (2 ^ i) k Hb H2) as Hx.
  assert (E2 : Nat.lxor r (2 ^ i) = (Nat.lxor b (2 ^ i) + 2 ^ k)%nat).
  { rewrite Er, Nat.lxor_assoc, (Nat.lxor_comm (2 ^ k)), <- Nat.lxor_assoc. apply lxor_high, Hx. }
  rewrite E2. cbn [Nat.pow]. lia.
Qed.
(** the number of ranks lies between two powers of two *)
Lemma size_bounds : forall size, (1 <= size)%nat -> (2 ^ dim0 size <= size < 2 ^ S (dim0 size))%nat.
Proof. intros size H. unfold dim0. pose proof (Nat.log2_spec size ltac:(lia)). lia. Qed.
Lemma np2 : forall size, (1 <= size)%nat -> non_power_2 size = true -> (rounds size = S (dim0 size) /\ 2 ^ dim0 size < size < 2 ^ S (dim0 size))%nat.
Proof. intros size H E. unfold rounds. rewrite E. unfold non_power_2 in E. apply Nat.ltb_lt in E. pose proof (size_bounds size H). lia. Qed.
Lemma ghost_low : forall size r, (1 <= size)%nat -> non_power_2 size = true -> (r < size)%nat ->
  ghost_rank size r = if (r <? 2 ^ dim0 size)%nat then (r + 2 ^ dim0 size)%nat else r.
Proof.
  intros size r H E Hr. destruct (np2 size H E) as [ER HB]. unfold ghost_rank. rewrite ER. replace (S (dim0 size) - 1)%nat with (dim0 size) by lia. cbv zeta.
  cbn [Nat.pow] in *. destruct (Nat.ltb_spec r (2 ^ dim0 size)).
  - destruct (Nat.ltb_spec (2 * 2 ^ dim0 size - 1) (r + 2 ^ dim0 size)); [lia | reflexivity].
  - destruct (Nat.ltb_spec (2 * 2 ^ dim0 size - 1) (r + 2 ^ dim0 size)); [reflexivity | lia].
Qed.
(** *** What a rank does in a round *)
Lemma action_spec : forall size i r, (1 <= size)%nat -> non_power_2 size = true -> (r < size)%nat -> (i < rounds size)%nat ->
  let k := dim0 size in let g := (r + 2 ^ k)%nat in let gp := Nat.lxor g (2 ^ i) in
  ghost_action size i r =
    if (r <? 2 ^ k)%nat then
      if (g <? size)%nat then GSkip else if (i =? k)%nat then GSelf else if (gp <? size)%nat then GBuf gp else if ((size <? g) && (size <? gp))%nat then GSkip else GBuf (Nat.lxor r (2 ^ i))
    else if (Nat.lxor r (2 ^ i) <? size)%nat then GSkip else GOwn (Nat.lxor r (2 ^ i) - 2 ^ k)%nat.
Proof.
  intros size i r H E Hr Hi. cbv zeta. destruct (np2 size H E) as [ER HB]. set (k := dim0 size) in *. rewrite ER in Hi.
  unfold ghost_action. rewrite E. cbn [negb]. rewrite (ghost_low size r H E Hr). fold k. rewrite ER. replace (S k - 1)%nat with k by lia. cbv zeta.
  pose proof (pow2_pos k) as Pk. pose proof (pow2_pos i) as Pi.
  destruct (Nat.ltb_spec r (2 ^ k)) as [Lr|Lr].
  - replace (r =? r + 2 ^ k)%nat with false by (symmetry; apply Nat.eqb_neq; lia). replace (r + 2 ^ k =? r)%nat with false by (symmetry; apply Nat.eqb_neq; lia). cbn [negb andb].
    destruct (Nat.ltb_spec (r + 2 ^ k) size) as [Lg|Lg]; [replace (r + 2 ^ k <=? size - 1)%nat with true by (symmetry; apply Nat.leb_le; lia); reflexivity|].
    replace (r + 2 ^ k <=? size - 1)%nat with false by (symmetry; apply Nat.leb_gt; lia).
    destruct (Nat.eqb_spec i k) as [->|Nik].
    + assert (EX : Nat.lxor (r + 2 ^ k) (2 ^ k) = r) by (rewrite <- lxor_high by exact Lr; apply lxor_twice). rewrite EX.
      replace (size <? r)%nat with false by (symmetry; apply Nat.ltb_ge; lia). rewrite andb_false_r. replace (size <=? r)%nat with false by (symmetry; apply Nat.leb_gt; lia). rewrite Nat.eqb_refl. reflexivity.
    + assert (Lik : (i < k)%nat) by lia. destruct (lxor_lt_high (r + 2 ^ k) i k Lik ltac:(cbn [Nat.pow]; lia)) as [B1 B2]. replace (r + 2 ^ k - 2 ^ k)%nat with r in B2 by lia.
      set (gp := Nat.lxor (r + 2 ^ k) (2 ^ i)) in *. destruct (Nat.ltb_spec gp size) as [Lp|Lp].
      * replace (size <? gp)%nat with false by (symmetry; apply Nat.ltb_ge; lia). rewrite andb_false_r. replace (size <=? gp)%nat with false by (symmetry; apply Nat.leb_gt; lia).
        replace (gp =? r)%nat with false by (symmetry; apply Nat.eqb_neq; lia). reflexivity.
      * destruct ((size <? r + 2 ^ k) && (size <? gp))%nat eqn:Es; [reflexivity|]. replace (size <=? gp)%nat with true by (symmetry; apply Nat.leb_le; lia). rewrite B2.
        replace (Nat.lxor r (2 ^ i) =? r)%nat with false by (symmetry; apply Nat.eqb_neq, lxor_neq). reflexivity.
  - rewrite Nat.eqb_refl. cbn [negb andb]. destruct (Nat.ltb_spec (Nat.lxor r (2 ^ i)) size) as [Lp|Lp]; [reflexivity|].
    replace (size <? r)%nat with false by (symmetry; apply Nat.ltb_ge; lia). cbn [andb]. replace (size <=? Nat.lxor r (2 ^ i))%nat with true by (symmetry; apply Nat.leb_le; lia).
    replace (Nat.lxor r (2 ^ i) - 2 ^ k =? r)%nat with false; [reflexivity|]. symmetry. apply Nat.eqb_neq.
    destruct (Nat.eq_dec i k) as [->|Nik].
    + exfalso. assert (Er : r = Nat.lxor (r - 2 ^ k) (2 ^ k)) by (rewrite lxor_high by (cbn [Nat.pow] in HB; lia); lia). rewrite Er, lxor_twice in Lp. lia.
    + destruct (lxor_lt_high r i k ltac:(lia) ltac:(cbn [Nat.pow] in *; lia)) as [B1 B2]. cbn [Nat.pow] in *. lia.
Qed.
Lemma main_partner_spec : forall size i r p, main_partner size i r = Some p <-> p = Nat.lxor r (2 ^ i) /\ (p < size)%nat.
Proof.
  intros. unfold main_partner. cbv zeta. destruct (Nat.ltb_spec (Nat.lxor r (2 ^ i)) size); split; intros H1.
  - injection H1 as <-. split; [reflexivity | assumption].
  - destruct H1 as [-> _]. reflexivity.
  - discriminate.
  - destruct H1 as [-> H1]. lia.
Qed.
(** Every exchange has its counterpart, for any number of ranks. *)
Theorem C16_matched : forall size i r, (1 <= size)%nat -> (r < size)%nat -> (i < rounds size)%nat ->
  (forall p, main_partner size i r = Some p -> (p < size)%nat /\ p <> r /\ main_partner size i p = Some r) /\
  (forall p, ghost_action size i r = GOwn p -> (p < size)%nat /\ p <> r /\ ghost_action size i p = GBuf r) /\
  (forall p, ghost_action size i r = GBuf p -> (p < size)%nat /\ p <> r /\ (ghost_action size i p = GOwn r \/ ghost_action size i p = GBuf r)).
Proof.
  intros size i r H Hr Hi. split.
  - intros p Hp. apply main_partner_spec in Hp. destruct Hp as [-> Hp]. split; [exact Hp|]. split; [apply lxor_neq|]. apply main_partner_spec. split; [symmetry; apply lxor_twice | exact Hr].
  - destruct (non_power_2 size) eqn:E; [|unfold ghost_action; rewrite E; cbn [negb]; split; intros p Hp; discriminate].
    destruct (np2 size H E) as [ER HB]. pose proof (action_spec size i r H E Hr Hi) as HA. cbv zeta in HA. set (k := dim0 size) in *. rewrite HA.
    pose proof (pow2_pos k) as Pk. rewrite ER in Hi. cbn [Nat.pow] in HB.
    destruct (Nat.ltb_spec r (2 ^ k)) as [Lr|Lr].
    + destruct (Nat.ltb_spec (r + 2 ^ k) size) as [Lg|Lg]; [split; intros p Hp; discriminate|]. destruct (Nat.eqb_spec i k) as [Eik|Nik]; [split; intros p Hp; discriminate|].
      destruct (lxor_lt_high (r + 2 ^ k) i k ltac:(lia) ltac:(cbn [Nat.pow]; lia)) as [B1 B2]. replace (r + 2 ^ k - 2 ^ k)%nat with r in B2 by lia. set (gp := Nat.lxor (r + 2 ^ k) (2 ^ i)) in *.
      assert (Egp : Nat.lxor gp (2 ^ i) = (r + 2 ^ k)%nat) by apply lxor_twice.
      assert (H2 : (2 ^ i < 2 ^ k)%nat) by (apply Nat.pow_lt_mono_r; lia). pose proof (lxor_bound r (2 ^ i) k Lr H2) as Hx.
      split; [intros p Hp; destruct (gp <? size)%nat; [discriminate|]; destruct (_ && _)%bool; discriminate|].
      destruct (Nat.ltb_spec gp size) as [Lp|Lp].
      * intros p Hp. injection Hp as <-. split; [exact Lp|]. split; [lia|]. left.
        pose proof (action_spec size i gp H E Lp ltac:(rewrite ER; lia)) as HA2. cbv zeta in HA2. fold k in HA2. rewrite HA2, Egp.
        replace (gp <? 2 ^ k)%nat with false by (symmetry; apply Nat.ltb_ge; lia). replace (r + 2 ^ k <? size)%nat with false by (symmetry; apply Nat.ltb_ge; lia). f_equal. lia.
      * destruct ((size <? r + 2 ^ k) && (size <? gp))%nat eqn:Es; [intros p Hp; discriminate|]. intros p Hp. injection Hp as <-. split; [lia|]. split; [apply lxor_neq|]. right.
        pose proof (action_spec size i (Nat.lxor r (2 ^ i)) H E ltac:(lia) ltac:(rewrite ER; lia)) as HA2. cbv zeta in HA2. fold k in HA2. rewrite HA2. clear HA HA2.
        replace (Nat.lxor r (2 ^ i) <? 2 ^ k)%nat with true by (symmetry; apply Nat.ltb_lt; lia). replace (Nat.lxor r (2 ^ i) + 2 ^ k)%nat with gp by lia.
        replace (gp <? size)%nat with false by (symmetry; apply Nat.ltb_ge; lia). replace (i =? k)%nat with false by (symmetry; apply Nat.eqb_neq; lia). rewrite Egp.
        replace (r + 2 ^ k <? size)%nat with false by (symmetry; apply Nat.ltb_ge; lia). rewrite andb_comm, Es. rewrite lxor_twice. reflexivity.
    + destruct (Nat.ltb_spec (Nat.lxor r (2 ^ i)) size) as [Lp|Lp]; [split; intros p Hp; discriminate|]. split; [|intros p Hp; discriminate]. intros p Hp. injection Hp as <-.
      assert (Nik : i <> k).
      { intros ->. assert (Er : r = Nat.lxor (r - 2 ^ k) (2 ^ k)) by (rewrite lxor_high by lia; lia). rewrite Er, lxor_twice in Lp. lia. }
      destruct (lxor_lt_high r i k ltac:(lia) ltac:(cbn [Nat.pow] in *; lia)) as [B1 B2]. cbn [Nat.pow] in B1. set (x := Nat.lxor r (2 ^ i)) in *.
      split; [lia|]. split; [lia|]. pose proof (action_spec size i (x - 2 ^ k) H E ltac:(lia) ltac:(rewrite ER; lia)) as HA2. cbv zeta in HA2. fold k in HA2. rewrite HA2.
      replace (x - 2 ^ k <? 2 ^ k)%nat with true by (symmetry; apply Nat.ltb_lt; lia). replace (x - 2 ^ k + 2 ^ k)%nat with x by lia. replace (x <? size)%nat with false by (symmetry; apply Nat.ltb_ge; lia).
      replace (i =? k)%nat with false by (symmetry; apply Nat.eqb_neq; lia). assert (EX : Nat.lxor x (2 ^ i) = r) by apply lxor_twice. rewrite EX.
      replace (r <? size)%nat with true by (symmetry; apply Nat.ltb_lt; lia). reflexivity.
Qed.
(** *** Coverage *)
Section Cover.
Context {B : Type} (size : nat) (merge : nat -> list (item B) -> list (item B)) (branches : nat -> list (item B)).
Hypothesis Hsize : (1 <= size)%nat.
Hypothesis Hmerge : merge_ok merge.
Lemma covers_app : forall (l l' : list (item B)) b, covers (l ++ l') b <-> covers l b \/ covers l' b.
Proof.
  intros l l' b. unfold covers. split.
  - intros (it & Hi & Hb). apply in_app_or in Hi. destruct Hi; [left | right]; exists it; tauto.
  - intros [(it & Hi & Hb)|(it & Hi & Hb)]; exists it; (split; [apply in_or_app; tauto | exact Hb]).
Qed.
Lemma covers_load : forall r know recv b, covers (load merge r know recv) b <-> covers know b \/ exists it, In it recv /\ it_owner it <> r /\ In b (it_cover it).
Proof.
  intros r know recv b. unfold load. destruct (Hmerge r (know ++ filter (fun it => negb (it_owner it =? r)%nat) recv)) as [H _]. rewrite H, covers_app.
  assert (E : covers (filter (fun it => negb (it_owner it =? r)%nat) recv) b <-> exists it, In it recv /\ it_owner it <> r /\ In b (it_cover it)); [|tauto].
  unfold covers. split; intros (it & Hi & Hb); exists it.
  - apply filter_In in Hi. destruct Hi as [Hi Ho]. destruct (Nat.eqb_spec (it_owner it) r); [discriminate | tauto].
  - split; [apply filter_In; split; [exact Hi|] | tauto]. destruct (Nat.eqb_spec (it_owner it) r); [tauto | reflexivity].
Qed.
Lemma owners_load : forall r know recv it, In it (load merge r know recv) -> exists it', (In it' know \/ In it' recv) /\ it_owner it' = it_owner it.
Proof.
  intros r know recv it Hi. destruct (Hmerge r (know ++ filter (fun it => negb (it_owner it =? r)%nat) recv)) as [_ H]. destruct (H it Hi) as (it' & Hi' & Ho). exists it'. split; [|exact Ho].
  apply in_app_or in Hi'. destruct Hi' as [?|Hi']; [tauto|]. apply filter_In in Hi'. tauto.
Qed.
(** a power of two: after i rounds a rank covers the branches of its block of 2^i ranks *)
Definition block (i r r' : nat) : Prop := (r / 2 ^ i = r' / 2 ^ i)%nat.
Definition cube_inv (i : nat) (v : view (B := B)) : Prop := forall r, (r < size)%nat ->
  (forall r', (r' < size)%nat -> block i r r' -> forall b, covers (branches r') b -> covers (rs_know (v r)) b) /\
  (forall it, In it (rs_know (v r)) -> block i r (it_owner it) /\ (it_owner it < size)%nat).
Hypothesis Howner : forall r it, (r < size)%nat -> In it (branches r) -> it_owner it = r.
Lemma ghost_none : non_power_2 size = false -> forall i v r, ghost_round size merge i v r = v r.
Proof. intros E i v r. unfold ghost_round, ghost_action. rewrite E. reflexivity. Qed.
Lemma block_split : forall i r p, p = Nat.lxor r (2 ^ i) -> ~ block i r p /\ block (S i) r p /\ forall r', block (S i) r r' <-> block i r r' \/ block i p r'.
Proof.
  intros i r p ->. unfold block. rewrite div_lxor_low. destruct (lxor_1 (r / 2 ^ i)) as (A1 & A2 & A3).
  assert (E : forall x, (x / 2 ^ S i = x / 2 ^ i / 2)%nat) by (intros x; cbn [Nat.pow]; rewrite (Nat.mul_comm 2), Nat.div_div; [reflexivity | pose proof (pow2_pos i); lia | lia]).
  rewrite ! E, div_lxor_low. split; [congruence|]. split; [congruence|]. intros r'. rewrite E. split.
  - intros H. destruct (A3 (r' / 2 ^ i)%nat ltac:(congruence)); [left | right]; congruence.
  - intros [H|H]; congruence.
Qed.
Lemma cube_step : forall i v, (size = 2 ^ dim0 size)%nat -> (i < dim0 size)%nat -> cube_inv i v -> cube_inv (S i) (main_round size merge i v).
Proof.
  intros i v Hp Hi H r Hr. unfold main_round.
  assert (Hpt : (Nat.lxor r (2 ^ i) < size)%nat) by (assert (X : (Nat.lxor r (2 ^ i) < 2 ^ dim0 size)%nat) by (apply lxor_bound; [lia | apply Nat.pow_lt_mono_r; lia]); lia).
  assert (EP : main_partner size i r = Some (Nat.lxor r (2 ^ i))) by (apply main_partner_spec; split; [reflexivity | exact Hpt]). rewrite EP. cbn [rs_know].
  destruct (block_split i r _ eq_refl) as (S1 & S2 & S3). set (p := Nat.lxor r (2 ^ i)) in *. destruct (H r Hr) as [K1 O1]. destruct (H p Hpt) as [K2 O2]. split.
  - intros r' Hr' Hb b Hc. apply covers_load. apply S3 in Hb. destruct Hb as [Hb|Hb]; [left; apply (K1 r' Hr' Hb b Hc)|]. right. destruct (K2 r' Hr' Hb b Hc) as (it & Hit & Hib).
    exists it. split; [exact Hit|]. split; [|exact Hib]. intros Ho. apply S1. destruct (O2 it Hit) as [Hbl _]. rewrite Ho in Hbl. symmetry. exact Hbl.
  - intros it Hit. destruct (owners_load r _ _ it Hit) as (it' & Hi' & Ho). rewrite <- Ho. destruct Hi' as [Hi'|Hi'].
    + destruct (O1 it' Hi') as [X Y]. split; [apply S3; left; exact X | exact Y].
    + destruct (O2 it' Hi') as [X Y]. split; [apply S3; right; exact X | exact Y].
Qed.
Lemma cube_run : forall n i v, (size = 2 ^ dim0 size)%nat -> (i + n <= dim0 size)%nat -> cube_inv i v -> cube_inv (i + n) (run_rounds size merge n i v).
Proof.
  induction n as [|n IH]; intros i v Hp Hn H; cbn [run_rounds]; [rewrite Nat.add_0_r; exact H|]. replace (i + S n)%nat with (S i + n)%nat by lia. apply IH; [exact Hp | lia|].
  assert (E : non_power_2 size = false) by (unfold non_power_2; apply Nat.ltb_ge; lia).
  intros r Hr. destruct (cube_step i v Hp ltac:(lia) H r Hr) as [A C]. split; intros; rewrite ! ghost_none in * by exact E; [eapply A; eassumption | apply C; assumption].
Qed.
Lemma cube_complete : (exists k, size = 2 ^ k)%nat -> forall r r' b, (r < size)%nat -> (r' < size)%nat -> covers (branches r') b -> covers (rs_know (share_nodes size merge branches r)) b.
Proof.
  intros (k & Hk) r r' b Hr Hr' Hb. assert (Ed : dim0 size = k) by (unfold dim0; rewrite Hk; apply Nat.log2_pow2; lia). assert (Hp : (size = 2 ^ dim0 size)%nat) by (rewrite Ed; exact Hk).
  assert (E : non_power_2 size = false) by (unfold non_power_2; apply Nat.ltb_ge; lia).
  unfold share_nodes. unfold rounds. rewrite E. assert (H0 : cube_inv 0 (fun r => RState (branches r) [])).
  { intros q Hq. cbn [rs_know]. unfold block. cbn [Nat.pow]. split.
    - intros q' _ Hqq b' Hb'. rewrite ! Nat.div_1_r in Hqq. subst q'. exact Hb'.
    - intros it Hit. rewrite (Howner q it Hq Hit). split; [reflexivity | exact Hq]. }
  pose proof (cube_run (dim0 size) 0 _ Hp ltac:(lia) H0) as HR. destruct (HR r Hr) as [A _]. apply (A r' Hr'); [|exact Hb]. unfold block.
  cbn [Nat.add]. rewrite <- Hp, ! Nat.div_small by lia. reflexivity.
Qed.
(** not a power of two: the ranks below 2^k learn nothing of the others in the first k
    rounds, and rank 2^k - 1 never does *)
Definition low_inv (k : nat) (v : view (B := B)) : Prop := forall r b, (r < 2 ^ k)%nat -> covers (rs_know (v r)) b \/ covers (rs_buf (v r)) b -> exists r', (r' < 2 ^ k)%nat /\ covers (branches r') b.
Lemma action_low : forall i r, non_power_2 size = true -> (r < 2 ^ dim0 size)%nat -> forall p, (i < rounds size)%nat -> ghost_action size i r <> GOwn p.
Proof.
  intros i r E Hr p Hi Hg. destruct (np2 size Hsize E) as [ER HB]. pose proof (action_spec size i r Hsize E ltac:(lia) Hi) as HA. cbv zeta in HA. rewrite HA in Hg.
  replace (r <? 2 ^ dim0 size)%nat with true in Hg by (symmetry; apply Nat.ltb_lt; exact Hr).
  repeat match type of Hg with context [if ?c then _ else _] => destruct c end; discriminate.
Qed.
Lemma ghost_low_inv : forall i v, non_power_2 size = true -> (i < rounds size)%nat -> forall r b, (r < 2 ^ dim0 size)%nat ->
  covers (rs_know (ghost_round size merge i v r)) b \/ covers (rs_buf (ghost_round size merge i v r)) b -> covers (rs_know (v r)) b \/ covers (rs_buf (v r)) b.
Proof.
  intros i v E Hi r b Hr. unfold ghost_round. pose proof (action_low i r E Hr) as HN. unfold ghost_sent. destruct (ghost_action size i r) as [| |p|p] eqn:Ea; cbn [rs_know rs_buf].
  - tauto.
  - rewrite covers_load, covers_app. intros [[?|(it & Hit & _ & Hb)]|?]; [tauto | | tauto]. assert (covers (rs_buf (v r) ++ rs_know (v r)) b) by (exists it; tauto). apply covers_app in H. tauto.
  - exfalso. apply (HN p Hi). reflexivity.
  - rewrite covers_app. tauto.
Qed.
Lemma low_step : forall i v, non_power_2 size = true -> (i < dim0 size)%nat -> low_inv (dim0 size) v -> low_inv (dim0 size) (ghost_round size merge i (main_round size merge i v)).
Proof.
  intros i v E Hi H r b Hr Hc. apply ghost_low_inv in Hc; [|exact E | destruct (np2 size Hsize E) as [-> _]; lia | exact Hr].
  unfold main_round in Hc. destruct (main_partner size i r) as [p|] eqn:Ep; cbn [rs_know rs_buf] in Hc; [|apply (H r b Hr Hc)].
  apply main_partner_spec in Ep. destruct Ep as [Ep _]. assert (Hp : (p < 2 ^ dim0 size)%nat) by (rewrite Ep; apply lxor_bound; [exact Hr | apply Nat.pow_lt_mono_r; lia]).
  destruct Hc as [Hc|Hc]; [|apply (H r b Hr); tauto]. apply covers_load in Hc. destruct Hc as [Hc|(it & Hit & _ & Hb)]; [apply (H r b Hr); tauto|]. apply (H p b Hp). left. exists it. tauto.
Qed.
Lemma low_run : forall n i v, non_power_2 size = true -> (i + n = dim0 size)%nat -> low_inv (dim0 size) v -> low_inv (dim0 size) (run_rounds size merge n i v).
Proof. induction n as [|n IH]; intros i v E Hn H; cbn [run_rounds]; [exact H|]. apply IH; [exact E | lia|]. apply low_step; [exact E | lia | exact H]. Qed.
Lemma run_rounds_snoc : forall n i v, run_rounds size merge (S n) i v = ghost_round size merge (i + n) (main_round size merge (i + n) (run_rounds size merge n i v)).
Proof. induction n as [|n IH]; intros i v; [cbn [run_rounds]; rewrite Nat.add_0_r; reflexivity|]. cbn [run_rounds] in *. rewrite IH. replace (S i + n)%nat with (i + S n)%nat by lia. reflexivity. Qed.
Lemma cube_incomplete : (~ exists k, size = 2 ^ k)%nat -> exists r, (r < size)%nat /\ forall b, covers (rs_know (share_nodes size merge branches r)) b -> exists r', (r' < 2 ^ dim0 size)%nat /\ covers (branches r') b.
Proof.
  intros Hk. pose proof (size_bounds size Hsize) as HB0. assert (E : non_power_2 size = true).
  { unfold non_power_2. apply Nat.ltb_lt. destruct (Nat.eq_dec size (2 ^ dim0 size)) as [X|X]; [exfalso; apply Hk; exists (dim0 size); exact X | lia]. }
  destruct (np2 size Hsize E) as [ER HB]. pose proof (pow2_pos (dim0 size)) as Pk. exists (2 ^ dim0 size - 1)%nat. split; [lia|]. intros b Hc.
  unfold share_nodes in Hc. rewrite ER, run_rounds_snoc in Hc. cbn [Nat.add] in Hc.
  set (v := run_rounds size merge (dim0 size) 0 _) in Hc.
  assert (HL : low_inv (dim0 size) v).
  { apply low_run; [exact E | lia|]. intros r b' Hr [H|H]; cbn [rs_know rs_buf] in H; [exists r; tauto | destruct H as (it & [] & _)]. }
  destruct (ghost_low_inv (dim0 size) (main_round size merge (dim0 size) v) E ltac:(lia) (2 ^ dim0 size - 1) b ltac:(lia) (or_introl Hc)) as [H|H];
    unfold main_round in H; destruct (main_partner size (dim0 size) (2 ^ dim0 size - 1)) as [p|] eqn:Ep;
    try (apply main_partner_spec in Ep; rewrite lxor_high in Ep by lia; cbn [Nat.pow] in HB; lia).
  - apply (HL (2 ^ dim0 size - 1)%nat b); [lia | left; exact H].
  - apply (HL (2 ^ dim0 size - 1)%nat b); [lia | right; exact H].
Qed.
End Cover.
(** Branches tagged with the rank they come from.  Every rank has some. *)
Definition own_branches {B : Type} (origin : B -> nat) (size : nat) (branches : nat -> list (item B)) : Prop :=
  forall r, (r < size)%nat -> (forall it, In it (branches r) -> it_owner it = r /\ forall b, In b (it_cover it) -> origin b = r) /\ exists b, covers (branches r) b.
Theorem C16_power_of_two : forall (B : Type) (origin : B -> nat) size k merge branches, (size = 2 ^ k)%nat -> merge_ok merge -> own_branches origin size branches ->
  forall r r' b, (r < size)%nat -> (r' < size)%nat -> covers (branches r') b -> covers (rs_know (share_nodes size merge branches r)) b.
Proof.
  intros B origin size k merge branches Hk Hm Ho r r' b Hr Hr' Hb. pose proof (pow2_pos k). refine (cube_complete size merge branches ltac:(lia) Hm _ _ r r' b Hr Hr' Hb); [| exists k; exact Hk].
  intros q it Hq Hit. apply (Ho q Hq). exact Hit.
Qed.
(** For every other number of ranks it fails *)
Theorem C16_exactly : forall (B : Type) (origin : B -> nat) size merge branches, (1 <= size)%nat -> merge_ok merge -> own_branches origin size branches ->
  ((forall r r' b, (r < size)%nat -> (r' < size)%nat -> covers (branches r') b -> covers (rs_know (share_nodes size merge branches r)) b) <-> exists k, (size = 2 ^ k)%nat).
Proof.
  intros B origin size merge branches Hs Hm Ho. split.
  - intros H. destruct (Nat.eq_dec size (2 ^ dim0 size)) as [E|NE]; [exists (dim0 size); exact E|]. exfalso.
    assert (Hn : ~ exists k, (size = 2 ^ k)%nat).
    { intros (k & Hk). apply NE. unfold dim0. rewrite Hk at 2. rewrite Nat.log2_pow2 by lia. exact Hk. }
    destruct (cube_incomplete size merge branches Hs Hm (fun r it Hr Hit => proj1 (proj1 (Ho r Hr) it Hit)) Hn) as (r & Hr & Hc). pose proof (size_bounds size Hs).
    destruct (Ho (size - 1)%nat ltac:(lia)) as [Ho1 (b & Hb)]. destruct (Hc b (H r (size - 1)%nat b Hr ltac:(lia) Hb)) as (r' & Hr' & Hb').
    destruct Hb as (it & Hit & Hib). destruct (Ho1 it Hit) as [_ E1]. destruct Hb' as (it' & Hit' & Hib'). destruct (Ho r' ltac:(lia)) as [Ho2 _]. destruct (Ho2 it' Hit') as [_ E2].
    specialize (E2 b Hib'). specialize (E1 b Hib). lia.
  - intros (k & Hk) r r' b. apply (C16_power_of_two B origin size k merge branches Hk Hm Ho).
Qed.
(** *** Three ranks: rank 1 never hears of rank 2 *)
Definition branch1 (r : nat) : list (item nat) := [Item r [r]].
Definition keep (_ : nat) (l : list (item nat)) : list (item nat) := l.
Definition join (_ : nat) (l : list (item nat)) : list (item nat) := match l with [] => [] | it :: _ => [Item (it_owner it) (flat_map it_cover l)] end.
Lemma keep_ok : merge_ok keep. Proof. intros r l. split; [reflexivity | intros it H; exists it; tauto]. Qed.
Lemma join_ok : merge_ok join.
Proof.
  intros r l. unfold join, covers. destruct l as [|it l]; [split; [reflexivity | intros it []]|]. split.
  - intros b. split.
    + intros (x & [<-|[]] & Hb). cbn [it_cover] in Hb. apply in_flat_map in Hb. exact Hb.
    + intros (x & Hx & Hb). eexists. split; [left; reflexivity|]. cbn [it_cover]. apply in_flat_map. exists x. tauto.
  - intros x [<-|[]]. exists it. split; [left; reflexivity | reflexivity].
Qed.
Lemma branch1_own : forall size, own_branches (fun b => b) size branch1.
Proof. intros size r _. split; [intros it [<-|[]]; split; [reflexivity | intros b [<-|[]]; reflexivity] | exists r, (Item r [r]); split; [left; reflexivity | left; reflexivity]]. Qed.
Theorem C16_refuted : exists size r r' b, (r < size)%nat /\ (r' < size)%nat /\ covers (branch1 r') b /\
  (forall merge, In merge [keep; join] -> ~ covers (rs_know (share_nodes size merge branch1 r)) b).
Proof.
  exists 3%nat, 1%nat, 2%nat, 2%nat. split; [lia|]. split; [lia|]. split; [exists (Item 2 [2%nat]); split; [left; reflexivity | left; reflexivity]|].
  assert (E : map (fun it => it_cover it) (rs_know (share_nodes 3 keep branch1 1)) = [[1]; [0]; [0]]%nat) by (vm_compute; reflexivity).
  assert (E' : map (fun it => it_cover it) (rs_know (share_nodes 3 join branch1 1)) = [[1; 0]]%nat) by (vm_compute; reflexivity).
  assert (G : forall l cs, map (fun it : item nat => it_cover it) l = cs -> (forall c, In c cs -> ~ In 2%nat c) -> ~ covers l 2%nat).
  { intros l cs Hl Hc (it & Hi & Hb). apply (Hc (it_cover it)); [rewrite <- Hl; apply (in_map (fun it => it_cover it)); exact Hi | exact Hb]. }
  intros merge [<-|[<-|[]]]; [apply (G _ _ E) | apply (G _ _ E')]; intros c Hc; cbn in Hc; repeat (destruct Hc as [<-|Hc]; [cbn; lia|]); destruct Hc.
Qed.
Example C16_eight : exists r b, In r (seq 0 8) /\ In b (seq 0 8) /\ covers (rs_know (share_nodes 8 join branch1 r)) b.
Proof.
  exists 5%nat, 2%nat. split; [cbn; lia|]. split; [cbn; lia|]. apply (C16_power_of_two nat (fun b => b) 8 3 join branch1 eq_refl join_ok (branch1_own 8) 5 2 2); try lia.
  exists (Item 2 [2%nat]). split; left; reflexivity.
Qed.
