(** Proofs about Hilbert keys: reduction of the coded loops (with wrap-around
    coordinates) to exact recursions on cells, inverses, adjacency. *)
From Coq Require Import QArith Qround Qfield Lqa.
From Verif Require Import Base Key_model Key_spec Key_proofs Morton_model Morton_proofs Morton_qproofs Hilbert_model.
Local Open Scope N_scope.

(** ** modular facts *)

Lemma pow2_split (l m : N) : m <= l -> 2 ^ l = 2 ^ (l - m) * 2 ^ m.
Proof. intros. rewrite <- N.pow_add_r. f_equal. lia. Qed.

Lemma mod_mod_pow2 x l m : m <= l -> (x mod 2 ^ l) mod 2 ^ m = x mod 2 ^ m.
Proof.
  intros H. rewrite (pow2_split l m H).
  rewrite (N.mul_comm (2 ^ (l - m))).
  rewrite N.mod_mul_r by (apply N.pow_nonzero; lia).
  rewrite N.mul_comm, N.mod_add by (apply N.pow_nonzero; lia).
  apply N.mod_mod, N.pow_nonzero; lia.
Qed.

(** the reduced flip *)
Definition flip (n x : N) : N := n - 1 - x.

Lemma flip64_mod l x : l < 64 ->
  flip64 (2 ^ l) x mod 2 ^ l = flip (2 ^ l) (x mod 2 ^ l).
Proof.
  intros Hl. unfold flip64, flip. unfold w64.
  rewrite mod_mod_pow2 by lia.
  pose proof (pow2_pos l) as P. pose proof (pow2_pos (64 - l)) as P'.
  set (xm := x mod 2 ^ 64).
  assert (Hxm : xm < 2 ^ 64) by (apply N.mod_lt; discriminate).
  assert (E1 : x mod 2 ^ l = xm mod 2 ^ l) by (unfold xm; rewrite mod_mod_pow2 by lia; reflexivity).
  rewrite E1.
  pose proof (N.div_mod xm (2 ^ l) ltac:(lia)) as D.
  pose proof (N.mod_lt xm (2 ^ l) ltac:(lia)) as M.
  set (q := xm / 2 ^ l) in *. set (r := xm mod 2 ^ l) in *.
  pose proof (pow2_split 64 l ltac:(lia)) as E64. rewrite E64 in *.
  set (A := 2 ^ (64 - l)) in *. set (B := 2 ^ l) in *.
  assert (Hq : q < A) by nia.
  symmetry. apply N.mod_unique with (A - q); [lia|]. nia.
Qed.

Lemma sext32_mod l x : l <= 31 -> sext32 x mod 2 ^ l = x mod 2 ^ l.
Proof.
  intros Hl. unfold sext32, w64.
  destruct (x mod 2 ^ 32 <? 2 ^ 31).
  - apply mod_mod_pow2. lia.
  - replace (2 ^ 64 - 2 ^ 32) with ((2 ^ 32 - 1) * 2 ^ (32 - l) * 2 ^ l).
    + rewrite N.add_comm, N.mod_add by (apply N.pow_nonzero; lia). apply mod_mod_pow2. lia.
    + rewrite <- N.mul_assoc, <- N.pow_add_r. replace (32 - l + l) with 32 by lia. reflexivity.
Qed.

Lemma bit_at_div l x : bit_at (2 ^ l) x = N.testbit x l.
Proof.
  unfold bit_at. rewrite <- (N.shiftl_1_l l).
  pose proof (land_pow2_zero x l) as H. rewrite N.land_comm in H.
  destruct (N.testbit x l); cbn in H; lia.
Qed.

(** value of bit l given x < 2^(l+1) *)
Lemma testbit_split x (l : nat) : x < 2 ^ N.of_nat (S l) ->
  x = N.b2n (N.testbit x (N.of_nat l)) * 2 ^ N.of_nat l + x mod 2 ^ N.of_nat l.
Proof.
  intros H. rewrite <- mod_pow2_S. symmetry. apply N.mod_small; assumption.
Qed.

Lemma testbit_mod x l m : m < l -> N.testbit (x mod 2 ^ l) m = N.testbit x m.
Proof. intros H. apply N.mod_pow2_bits_low; assumption. Qed.

(** ** 2D: exact recursion *)

Definition rot2 (n : N) (b0 b1 : bool) (c : N * N) : N * N :=
  let '(x, y) := c in
  if b1 then (x, y) else if b0 then (flip n y, flip n x) else (y, x).

Definition dig2 (b0 b1 : bool) : N := N.lxor (3 * N.b2n b0) (N.b2n b1).

Fixpoint h2 (L : nat) (c : N * N) : N :=
  match L with
  | O => 0
  | S l =>
    let n := 2 ^ N.of_nat l in
    let '(x, y) := c in
    let b0 := N.testbit x (N.of_nat l) in let b1 := N.testbit y (N.of_nat l) in
    4 ^ N.of_nat l * dig2 b0 b1 + h2 l (rot2 n b0 b1 (x mod n, y mod n))
  end.

Definition mod2 (n : N) (c : N * N) : N * N := (fst c mod n, snd c mod n).

Lemma rotation2d_mod l c b0 b1 : l <= 31 ->
  mod2 (2 ^ l) (rotation2d (2 ^ l) c (b0, b1)) = rot2 (2 ^ l) b0 b1 (mod2 (2 ^ l) c).
Proof.
  intros Hl. destruct c as [x y]. unfold rotation2d, rot2, mod2.
  destruct b1; cbn [negb fst snd]; [reflexivity|].
  destruct b0; cbn [fst snd].
  - rewrite sext32_mod, !flip64_mod by lia. reflexivity.
  - rewrite sext32_mod by lia. reflexivity.
Qed.

Lemma pow4 l : 2 ^ l * 2 ^ l = 4 ^ l.
Proof. rewrite <- N.pow_mul_l. reflexivity. Qed.

Lemma loop2_h2 (L : nat) v c : (L <= 31)%nat ->
  hilbert_loop2 L v c = v + h2 L (mod2 (2 ^ N.of_nat L) c).
Proof.
  revert v c. induction L as [|l IH]; intros v c HL; cbn [hilbert_loop2 h2]; [lia|].
  destruct c as [x y]. cbn [fst snd mod2].
  rewrite N.shiftl_1_l, !bit_at_div, IH by lia.
  rewrite !testbit_mod by lia. rewrite !mod_mod_pow2 by lia.
  rewrite rotation2d_mod by lia. rewrite pow4. unfold dig2, mod2. cbn [fst snd].
  lia.
Qed.

Lemma dig2_lt b0 b1 : dig2 b0 b1 < 4.
Proof. destruct b0, b1; vm_compute; reflexivity. Qed.

Lemma rot2_lt l b0 b1 x y : x < 2 ^ l -> y < 2 ^ l ->
  fst (rot2 (2 ^ l) b0 b1 (x, y)) < 2 ^ l /\ snd (rot2 (2 ^ l) b0 b1 (x, y)) < 2 ^ l.
Proof.
  intros. pose proof (pow2_pos l). unfold rot2, flip. destruct b1, b0; cbn [fst snd]; lia.
Qed.

Lemma h2_lt L c : h2 L c < 4 ^ N.of_nat L.
Proof.
  revert c. induction L as [|l IH]; intros [x y]; cbn [h2]; [lia|].
  replace (N.of_nat (S l)) with (N.of_nat l + 1) by lia. rewrite N.pow_add_r. change (4 ^ 1) with 4.
  match goal with |- _ + h2 l ?c < _ => pose proof (IH c) end.
  pose proof (dig2_lt (N.testbit x (N.of_nat l)) (N.testbit y (N.of_nat l))). nia.
Qed.

(** inverse recursion *)
Definition undig2 (d : N) : bool * bool :=
  let b0 := N.testbit d 1 in (b0, xorb (N.testbit d 0) b0).

Lemma undig2_dig2 b0 b1 : undig2 (dig2 b0 b1) = (b0, b1).
Proof. destruct b0, b1; reflexivity. Qed.
Lemma dig2_undig2 d : d < 4 -> dig2 (fst (undig2 d)) (snd (undig2 d)) = d.
Proof. intros. assert (d = 0 \/ d = 1 \/ d = 2 \/ d = 3) as [->|[->|[->| ->]]] by lia; reflexivity. Qed.

Fixpoint d2 (L : nat) (k : N) : N * N :=
  match L with
  | O => (0, 0)
  | S l =>
    let n := 2 ^ N.of_nat l in
    let '(b0, b1) := undig2 (k / 4 ^ N.of_nat l) in
    let '(x, y) := rot2 n b0 b1 (d2 l (k mod 4 ^ N.of_nat l)) in
    (N.b2n b0 * n + x, N.b2n b1 * n + y)
  end.

Lemma rot2_invol l b0 b1 x y : x < 2 ^ l -> y < 2 ^ l ->
  rot2 (2 ^ l) b0 b1 (rot2 (2 ^ l) b0 b1 (x, y)) = (x, y).
Proof.
  intros. unfold rot2, flip. destruct b1; [reflexivity|]. destruct b0; [|reflexivity].
  f_equal; lia.
Qed.

Lemma d2_lt L k : fst (d2 L k) < 2 ^ N.of_nat L /\ snd (d2 L k) < 2 ^ N.of_nat L.
Proof.
  revert k. induction L as [|l IH]; intros k; cbn [d2]; [cbn; lia|].
  destruct (undig2 (k / 4 ^ N.of_nat l)) as [b0 b1].
  destruct (IH (k mod 4 ^ N.of_nat l)) as [A B].
  destruct (d2 l (k mod 4 ^ N.of_nat l)) as [x y] eqn:E. cbn [fst snd] in A, B.
  destruct (rot2_lt (N.of_nat l) b0 b1 x y A B) as [A' B'].
  destruct (rot2 (2 ^ N.of_nat l) b0 b1 (x, y)) as [x' y']. cbn [fst snd] in *.
  replace (N.of_nat (S l)) with (N.of_nat l + 1) by lia. rewrite N.pow_add_r. change (2 ^ 1) with 2.
  destruct b0, b1; cbn [N.b2n]; lia.
Qed.

Lemma d2_h2 L x y : x < 2 ^ N.of_nat L -> y < 2 ^ N.of_nat L -> d2 L (h2 L (x, y)) = (x, y).
Proof.
  revert x y. induction L as [|l IH]; intros x y Hx Hy.
  - cbn in *. f_equal; lia.
  - cbn [d2 h2].
    set (b0 := N.testbit x (N.of_nat l)). set (b1 := N.testbit y (N.of_nat l)).
    set (n := 2 ^ N.of_nat l).
    set (c' := rot2 n b0 b1 (x mod n, y mod n)).
    pose proof (h2_lt l c') as Hh. pose proof (dig2_lt b0 b1) as Hd.
    assert (P4 : 4 ^ N.of_nat l <> 0) by (apply N.pow_nonzero; lia).
    assert (E1 : (4 ^ N.of_nat l * dig2 b0 b1 + h2 l c') / 4 ^ N.of_nat l = dig2 b0 b1).
    { symmetry. apply N.div_unique with (h2 l c'); auto. }
    assert (E2 : (4 ^ N.of_nat l * dig2 b0 b1 + h2 l c') mod 4 ^ N.of_nat l = h2 l c').
    { symmetry. apply N.mod_unique with (dig2 b0 b1); auto. }
    rewrite E1, E2, undig2_dig2.
    assert (Hxm : x mod n < n) by (apply N.mod_lt; unfold n; apply N.pow_nonzero; lia).
    assert (Hym : y mod n < n) by (apply N.mod_lt; unfold n; apply N.pow_nonzero; lia).
    destruct (rot2_lt (N.of_nat l) b0 b1 (x mod n) (y mod n) Hxm Hym) as [A B].
    fold n in A, B. fold c' in A, B.
    destruct c' as [x' y'] eqn:Ec. cbn [fst snd] in A, B. rewrite (IH x' y' A B).
    rewrite <- Ec. unfold c'.
    pose proof (rot2_invol (N.of_nat l) b0 b1 (x mod n) (y mod n) Hxm Hym) as I.
    fold n in I. rewrite I.
    f_equal; symmetry; apply testbit_split; assumption.
Qed.

Lemma h2_d2 L k : k < 4 ^ N.of_nat L -> h2 L (d2 L k) = k.
Proof.
  revert k. induction L as [|l IH]; intros k Hk.
  - cbn in *. lia.
  - cbn [d2 h2].
    set (n := 2 ^ N.of_nat l). set (m := 4 ^ N.of_nat l).
    assert (Hm : m <> 0) by (apply N.pow_nonzero; lia).
    assert (Hn : n <> 0) by (apply N.pow_nonzero; lia).
    assert (Hq : k / m < 4).
    { apply N.div_lt_upper_bound; auto. replace (N.of_nat (S l)) with (N.of_nat l + 1) in Hk by lia.
      rewrite N.pow_add_r in Hk. fold m in Hk. change (4 ^ 1) with 4 in Hk. lia. }
    pose proof (dig2_undig2 (k / m) Hq) as Hdu.
    destruct (undig2 (k / m)) as [b0 b1]. cbn [fst snd] in Hdu.
    pose proof (N.mod_lt k m Hm) as Hkm.
    destruct (d2_lt l (k mod m)) as [A B].
    specialize (IH (k mod m) Hkm).
    destruct (d2 l (k mod m)) as [x y]. cbn [fst snd] in A, B. fold n in A, B.
    destruct (rot2_lt (N.of_nat l) b0 b1 x y A B) as [A' B']. fold n in A', B'.
    pose proof (rot2_invol (N.of_nat l) b0 b1 x y A B) as I. fold n in I.
    destruct (rot2 n b0 b1 (x, y)) as [x' y']. cbn [fst snd] in A', B'.
    assert (T : forall b z, z < n -> N.testbit (N.b2n b * n + z) (N.of_nat l) = b).
    { intros b z Hz. pose proof (N.testbit_spec' (N.b2n b * n + z) (N.of_nat l)) as S.
      fold n in S. replace ((N.b2n b * n + z) / n) with (N.b2n b) in S
        by (apply N.div_unique with z; lia).
      destruct (N.testbit (N.b2n b * n + z) (N.of_nat l)), b; cbn in S; try discriminate; reflexivity. }
    assert (M : forall b z, z < n -> (N.b2n b * n + z) mod n = z).
    { intros b z Hz. symmetry. apply N.mod_unique with (N.b2n b); lia. }
    rewrite !T, !M by assumption. rewrite I, IH, Hdu.
    symmetry. apply N.div_mod. assumption.
Qed.

(** adjacency in 2D *)
Definition dist1 (a b : N) : N := (a - b) + (b - a).
Definition adj2 (p q : N * N) : Prop := dist1 (fst p) (fst q) + dist1 (snd p) (snd q) = 1.

Lemma h2_start L : d2 L 0 = (0, 0).
Proof.
  induction L as [|l IH]; [reflexivity|]. cbn [d2].
  assert (Hm : 4 ^ N.of_nat l <> 0) by (apply N.pow_nonzero; lia).
  rewrite N.div_0_l, N.mod_0_l by assumption. cbn [undig2 N.testbit xorb]. rewrite IH.
  cbn. f_equal; lia.
Qed.

Lemma h2_end L : d2 L (4 ^ N.of_nat L - 1) = (2 ^ N.of_nat L - 1, 0).
Proof.
  induction L as [|l IH]; [reflexivity|]. cbn [d2].
  assert (Hm : 0 < 4 ^ N.of_nat l) by (apply N.neq_0_lt_0, N.pow_nonzero; lia).
  assert (Hn : 0 < 2 ^ N.of_nat l) by (apply N.neq_0_lt_0, N.pow_nonzero; lia).
  replace (N.of_nat (S l)) with (N.of_nat l + 1) by lia. rewrite !N.pow_add_r.
  change (4 ^ 1) with 4. change (2 ^ 1) with 2.
  set (m := 4 ^ N.of_nat l) in *. set (n := 2 ^ N.of_nat l) in *.
  assert (E1 : (m * 4 - 1) / m = 3) by (symmetry; apply N.div_unique with (m - 1); lia).
  assert (E2 : (m * 4 - 1) mod m = m - 1) by (symmetry; apply N.mod_unique with 3; lia).
  rewrite E1, E2, IH. cbn. unfold flip. f_equal; lia.
Qed.

Lemma rot2_adj l b0 b1 p q : fst p < 2 ^ l -> snd p < 2 ^ l -> fst q < 2 ^ l -> snd q < 2 ^ l ->
  adj2 p q -> adj2 (rot2 (2 ^ l) b0 b1 p) (rot2 (2 ^ l) b0 b1 q).
Proof.
  destruct p as [x y], q as [u v]. unfold adj2, rot2, flip, dist1. cbn [fst snd].
  intros. destruct b1, b0; cbn [fst snd]; lia.
Qed.

Lemma d2_adj L k : k + 1 < 4 ^ N.of_nat L -> adj2 (d2 L k) (d2 L (k + 1)).
Proof.
  revert k. induction L as [|l IH]; intros k Hk.
  - cbn in Hk. lia.
  - cbn [d2].
    set (n := 2 ^ N.of_nat l). set (m := 4 ^ N.of_nat l) in *.
    assert (Hm : 0 < m) by (apply N.neq_0_lt_0, N.pow_nonzero; lia).
    assert (Hn : 0 < n) by (apply N.neq_0_lt_0, N.pow_nonzero; lia).
    replace (N.of_nat (S l)) with (N.of_nat l + 1) in Hk by lia.
    rewrite N.pow_add_r in Hk. fold m in Hk. change (4 ^ 1) with 4 in Hk.
    pose proof (N.div_mod k m ltac:(lia)) as D. pose proof (N.mod_lt k m ltac:(lia)) as Hr.
    set (q := k / m) in *. set (r := k mod m) in *.
    destruct (N.eq_dec (r + 1) m) as [Er|Er].
    + (* crossing into the next quadrant *)
      assert (E1 : (k + 1) / m = q + 1) by (symmetry; apply N.div_unique with 0; lia).
      assert (E2 : (k + 1) mod m = 0) by (symmetry; apply N.mod_unique with (q + 1); lia).
      rewrite E1, E2. replace r with (m - 1) by lia.
      pose proof (h2_end l) as HE. fold m in HE. fold n in HE. rewrite HE, h2_start.
      assert (Hq : q = 0 \/ q = 1 \/ q = 2) by nia.
      destruct Hq as [Hq|[Hq|Hq]]; rewrite Hq; [change (0 + 1) with 1|change (1 + 1) with 2|change (2 + 1) with 3];
        cbn; unfold adj2, flip, dist1; cbn [fst snd]; lia.
    + assert (E1 : (k + 1) / m = q) by (symmetry; apply N.div_unique with (r + 1); lia).
      assert (E2 : (k + 1) mod m = r + 1) by (symmetry; apply N.mod_unique with q; lia).
      rewrite E1, E2.
      specialize (IH r ltac:(fold m; lia)).
      destruct (undig2 q) as [b0 b1].
      destruct (d2_lt l r) as [A B]. destruct (d2_lt l (r + 1)) as [A' B'].
      pose proof (rot2_adj (N.of_nat l) b0 b1 _ _ A B A' B' IH) as R. fold n in R.
      destruct (rot2 n b0 b1 (d2 l r)) as [x y], (rot2 n b0 b1 (d2 l (r + 1))) as [u v].
      unfold adj2, dist1 in *. cbn [fst snd] in *. lia.
Qed.

(** ** 2D truncation: the key of a coarser cell *)
Lemma flip_div a b x : 0 < b -> x < a * b -> flip (a * b) x / b = flip a (x / b).
Proof.
  intros Hb Hx. unfold flip.
  pose proof (N.div_mod x b ltac:(lia)) as D. pose proof (N.mod_lt x b ltac:(lia)) as M.
  set (q := x / b) in *. set (r := x mod b) in *.
  assert (q < a) by nia.
  symmetry. apply N.div_unique with (b - 1 - r); nia.
Qed.

Definition div2 (n : N) (c : N * N) : N * N := (fst c / n, snd c / n).

Lemma rot2_div l m b0 b1 x y : x < 2 ^ (l + m) -> y < 2 ^ (l + m) ->
  div2 (2 ^ m) (rot2 (2 ^ (l + m)) b0 b1 (x, y)) = rot2 (2 ^ l) b0 b1 (x / 2 ^ m, y / 2 ^ m).
Proof.
  intros Hx Hy. pose proof (pow2_pos m) as P. rewrite N.pow_add_r in *.
  unfold rot2, div2. destruct b1, b0; cbn [fst snd]; try reflexivity.
  rewrite !flip_div by assumption. reflexivity.
Qed.

Lemma mod_div_pow2 x l m : (x mod 2 ^ (l + m)) / 2 ^ m = (x / 2 ^ m) mod 2 ^ l.
Proof.
  rewrite <- !N.shiftr_div_pow2, <- !N.land_ones.
  rewrite N.shiftr_land. f_equal.
  apply N.bits_inj. intros i. rewrite N.shiftr_spec'.
  destruct (N.lt_ge_cases i l).
  - rewrite !N.ones_spec_low by lia. reflexivity.
  - rewrite !N.ones_spec_high by lia. reflexivity.
Qed.

Lemma testbit_div x l m : N.testbit (x / 2 ^ m) l = N.testbit x (l + m).
Proof. rewrite <- N.shiftr_div_pow2. apply N.shiftr_spec'. Qed.

Lemma h2_prefix (L M : nat) c :
  h2 (L + M) c / 4 ^ N.of_nat M = h2 L (div2 (2 ^ N.of_nat M) c).
Proof.
  assert (Hm : 4 ^ N.of_nat M <> 0) by (apply N.pow_nonzero; lia).
  revert c. induction L as [|l IH]; intros [x y]; cbn [Nat.add h2].
  - apply N.div_small. apply h2_lt.
  - cbn [div2 fst snd]. rewrite !testbit_div.
    replace (N.of_nat (l + M)) with (N.of_nat l + N.of_nat M) by lia.
    set (b0 := N.testbit x _). set (b1 := N.testbit y _).
    rewrite N.pow_add_r.
    rewrite (N.mul_comm (4 ^ N.of_nat l)), <- N.mul_assoc, (N.mul_comm (4 ^ N.of_nat M)).
    rewrite N.div_add_l by assumption. f_equal.
    rewrite IH. f_equal.
    rewrite rot2_div by (apply N.mod_lt, N.pow_nonzero; lia).
    rewrite !mod_div_pow2. reflexivity.
Qed.

(** ** the coded decoder, 2D *)
Lemma undig2_code key :
  (0 <? N.land key 2, 0 <? N.lxor (N.land key 1) (N.b2n (0 <? N.land key 2))) = undig2 (key mod 4).
Proof.
  unfold undig2. change 4 with (2 ^ 2).
  rewrite !testbit_mod by lia.
  assert (E2 : N.land key 2 = 2 * N.b2n (N.testbit key 1)).
  { change 2 with (N.shiftl 1 1) at 1.
    apply N.bits_inj. intros i. rewrite N.land_spec, N.shiftl_1_l, N.pow2_bits_eqb.
    replace (2 * N.b2n (N.testbit key 1)) with (N.shiftl (N.b2n (N.testbit key 1)) 1)
      by (rewrite N.shiftl_mul_pow2; lia).
    rewrite testbit_b2n_shift. rewrite (N.eqb_sym 1 i).
    destruct (i =? 1) eqn:Ei; [apply N.eqb_eq in Ei; subst; rewrite andb_true_r; reflexivity|].
    rewrite andb_false_r. reflexivity. }
  assert (E1 : N.land key 1 = N.b2n (N.testbit key 0)).
  { change 1 with (N.ones 1) at 1. rewrite N.land_ones, N.bit0_mod. reflexivity. }
  rewrite E2, E1. destruct (N.testbit key 1), (N.testbit key 0); reflexivity.
Qed.

(** digits from the low end: d2 of the low l digits extended by one digit *)
Lemma d2_S l k : d2 (S l) k =
    let n := 2 ^ N.of_nat l in
    let '(b0, b1) := undig2 (k / 4 ^ N.of_nat l) in
    let '(x, y) := rot2 n b0 b1 (d2 l (k mod 4 ^ N.of_nat l)) in
    (N.b2n b0 * n + x, N.b2n b1 * n + y).
Proof. reflexivity. Qed.

Lemma undig2_mod4 k : undig2 (k mod 4) = undig2 k.
Proof. unfold undig2. change 4 with (2 ^ 2). rewrite !testbit_mod by lia. reflexivity. Qed.

Lemma d2_mod L k : d2 L (k mod 4 ^ N.of_nat L) = d2 L k.
Proof.
  revert k. induction L as [|l IH]; intros k; [reflexivity|].
  rewrite !d2_S. cbv zeta.
  assert (Hm : 4 ^ N.of_nat l <> 0) by (apply N.pow_nonzero; lia).
  replace (N.of_nat (S l)) with (N.of_nat l + 1) by lia. rewrite N.pow_add_r. change (4 ^ 1) with 4.
  rewrite N.mod_mul_r by lia.
  set (m := 4 ^ N.of_nat l) in *.
  pose proof (N.mod_lt k m Hm) as Hk.
  assert (E1 : (k mod m + m * ((k / m) mod 4)) / m = (k / m) mod 4)
    by (symmetry; apply N.div_unique with (k mod m); lia).
  assert (E2 : (k mod m + m * ((k / m) mod 4)) mod m = k mod m)
    by (symmetry; apply N.mod_unique with ((k / m) mod 4); lia).
  rewrite E1, E2, undig2_mod4. reflexivity.
Qed.

Lemma flip64_small l x : l < 64 -> x < 2 ^ l -> flip64 (2 ^ l) x = flip (2 ^ l) x.
Proof.
  intros Hl Hx. unfold flip64, flip, w64.
  pose proof (pow2_pos l).
  assert (2 ^ l < 2 ^ 64) by (apply N.pow_lt_mono_r; lia).
  rewrite (N.mod_small x) by lia.
  symmetry. apply N.mod_unique with 1; lia.
Qed.

Lemma sext32_small l x : l <= 31 -> x < 2 ^ l -> sext32 x = x.
Proof.
  intros Hl Hx. unfold sext32.
  assert (2 ^ l <= 2 ^ 31) by (apply N.pow_le_mono_r; lia).
  assert (2 ^ 31 < 2 ^ 32) by (apply N.pow_lt_mono_r; lia).
  rewrite N.mod_small by lia. replace (x <? 2 ^ 31) with true by lia. reflexivity.
Qed.

Lemma flip_lt n x : 0 < n -> flip n x < n.
Proof. unfold flip. lia. Qed.

Lemma rotation2d_small l b0 b1 x y : l <= 31 -> x < 2 ^ l -> y < 2 ^ l ->
  rotation2d (2 ^ l) (x, y) (b0, b1) = rot2 (2 ^ l) b0 b1 (x, y).
Proof.
  intros Hl Hx Hy. unfold rotation2d, rot2. pose proof (pow2_pos l) as P.
  destruct b1; [reflexivity|]. destruct b0; cbn [negb].
  - rewrite !flip64_small by lia. rewrite (sext32_small l) by (try apply flip_lt; lia). reflexivity.
  - rewrite (sext32_small l) by lia. reflexivity.
Qed.

(** After processing the digits below level l, the decoder holds d2 l. *)
Lemma decode2_spec (n l : nat) k : (n + l <= 31)%nat ->
  hilbert_decode2 n (2 ^ N.of_nat l) (k / 4 ^ N.of_nat l) (d2 l k)
  = (d2 (l + n) k, k / 4 ^ N.of_nat (l + n)).
Proof.
  revert l. induction n as [|n IH]; intros l Hl.
  - cbn [hilbert_decode2]. rewrite Nat.add_0_r. reflexivity.
  - cbn [hilbert_decode2].
    set (key := k / 4 ^ N.of_nat l).
    pose proof (undig2_code key) as U.
    set (b0 := 0 <? N.land key 2) in *.
    set (b1 := 0 <? N.lxor (N.land key 1) (N.b2n b0)) in *.
    rewrite undig2_mod4 in U.
    destruct (d2_lt l k) as [A B].
    pose proof (d2_S l k) as E. cbv zeta in E. fold key in E. rewrite <- U in E.
    rewrite d2_mod in E.
    destruct (d2 l k) as [x y] eqn:Ed. cbn [fst snd] in A, B.
    rewrite rotation2d_small by (auto; lia).
    destruct (rot2 (2 ^ N.of_nat l) b0 b1 (x, y)) as [x' y'].
    replace (2 * 2 ^ N.of_nat l) with (2 ^ N.of_nat (S l)).
    2:{ replace (N.of_nat (S l)) with (N.succ (N.of_nat l)) by lia. rewrite N.pow_succ_r by lia. reflexivity. }
    replace (N.shiftr key 2) with (k / 4 ^ N.of_nat (S l)).
    2:{ rewrite shiftr_div. unfold key. replace (N.of_nat (S l)) with (N.of_nat l + 1) by lia.
        rewrite N.pow_add_r, <- N.div_div by (try apply N.pow_nonzero; lia). reflexivity. }
    rewrite (N.add_comm x'), (N.add_comm y'). rewrite <- E.
    rewrite IH by lia. replace (S l + n)%nat with (l + S n)%nat by lia. reflexivity.
Qed.

(** The point of a cell is converted back to the cell. *)
Lemma cell_of_hilbert_point dim mn mx c : dim_ok dim -> (mn < mx)%Q -> c < 2 ^ max_depth dim ->
  cell_of dim mn mx (hilbert_point dim mn mx c) = Some c.
Proof.
  intros Hd H Hc.
  set (Mz := (2 ^ Z.of_N (max_depth dim))%Z).
  assert (HMz : (2 <= Mz)%Z) by (unfold Mz; destruct Hd as [->|[->| ->]]; vm_compute; discriminate).
  assert (HcM : (Z.of_N c <= Mz - 1)%Z).
  { unfold Mz. assert (Z.of_N c < Z.of_N (2 ^ max_depth dim))%Z by lia.
    rewrite N2Z.inj_pow in H0. cbn in H0. lia. }
  set (C := inject_Z (Z.of_N c)). set (M := inject_Z Mz).
  assert (HM1 : (0 < M)%Q) by (unfold M; change 0%Q with (inject_Z 0); rewrite <- Zlt_Qlt; lia).
  assert (HC : (0 <= C <= M)%Q).
  { unfold C, M. change 0%Q with (inject_Z 0). rewrite <- !Zle_Qle. lia. }
  assert (Erel : (rel mn mx (hilbert_point dim mn mx c) == C / M)%Q).
  { unfold rel, hilbert_point. fold Mz C M. field. split; lra. }
  assert (Hp : (mn <= hilbert_point dim mn mx c <= mx)%Q).
  { unfold hilbert_point. fold Mz C M.
    assert (Hq : (0 <= C / M <= 1)%Q).
    { split; [apply Qle_shift_div_l|apply Qle_shift_div_r]; lra. }
    assert (Ex : (mn + (mx - mn) * C / M == mn + (mx - mn) * (C / M))%Q) by (field; lra).
    rewrite Ex. split; nra. }
  rewrite cell_of_grid by assumption. f_equal.
  unfold grid_cell. fold Mz.
  assert (Ex : (rel mn mx (hilbert_point dim mn mx c) * inject_Z Mz == C)%Q).
  { rewrite Erel. fold M. field. lra. }
  rewrite (Qfloor_comp _ _ Ex). unfold C. rewrite Qfloor_Z, N2Z.id. lia.
Qed.
