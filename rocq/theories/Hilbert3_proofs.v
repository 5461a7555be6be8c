(** Proofs about three-dimensional Hilbert keys. *)
From Coq Require Import QArith Qround Qfield Lqa.
From Verif Require Import Base Key_model Key_spec Key_proofs Morton_model Morton_proofs Morton_qproofs
  Hilbert_model Hilbert_proofs.
Local Open Scope N_scope.

Definition bits3 : Type := bool * bool * bool.

(** the rotation of the code on exact (non wrapping) coordinates *)
Definition rot3 (n : N) (b : bits3) (c : coord3) : coord3 :=
  let '(x, y, z) := c in
  match b with
  | (false, false, false) => (y, z, x)
  | (false, false, true) | (false, true, true) => (z, x, y)
  | (false, true, false) | (true, true, false) => (x, flip n y, flip n z)
  | (true, false, true) | (true, true, true) => (flip n z, flip n x, y)
  | (true, false, false) => (flip n y, z, flip n x)
  end.

(** its inverse *)
Definition unrot3 (n : N) (b : bits3) (c : coord3) : coord3 :=
  let '(x, y, z) := c in
  match b with
  | (false, false, false) => (z, x, y)
  | (false, false, true) | (false, true, true) => (y, z, x)
  | (false, true, false) | (true, true, false) => (x, flip n y, flip n z)
  | (true, false, true) | (true, true, true) => (flip n y, z, flip n x)
  | (true, false, false) => (flip n z, flip n x, y)
  end.

Definition map3 (f : N -> N) (c : coord3) : coord3 := let '(x, y, z) := c in (f x, f y, f z).
Definition mod3 (n : N) : coord3 -> coord3 := map3 (fun x => x mod n).
Definition all3 (P : N -> Prop) (c : coord3) : Prop := let '(x, y, z) := c in P x /\ P y /\ P z.

Lemma flip_flip n x : x < n -> flip n (flip n x) = x.
Proof. unfold flip. lia. Qed.

Lemma rotation3d_mod l c b : l < 64 ->
  mod3 (2 ^ l) (rotation3d (2 ^ l) c b) = rot3 (2 ^ l) b (mod3 (2 ^ l) c).
Proof.
  intros Hl. destruct c as [[x y] z], b as [[[] []] []];
    cbn [rotation3d rotate_270_x rotate_270_z rotate_90_y rotate_90_z rotate_180_x rotate_270_y
         negb andb mod3 map3 rot3];
    unfold mod3, map3; rewrite ?flip64_mod by lia; try reflexivity.
  all: pose proof (pow2_pos l) as P; rewrite ?flip_flip by (apply N.mod_lt; lia); reflexivity.
Qed.

Definition dig3 (b : bits3) : N :=
  let '(b0, b1, b2) := b in N.lxor (N.lxor (7 * N.b2n b0) (3 * N.b2n b1)) (N.b2n b2).

Definition bits_of3 (l : N) (c : coord3) : bits3 :=
  let '(x, y, z) := c in (N.testbit x l, N.testbit y l, N.testbit z l).

Fixpoint h3 (L : nat) (c : coord3) : N :=
  match L with
  | O => 0
  | S l =>
    let n := 2 ^ N.of_nat l in
    let b := bits_of3 (N.of_nat l) c in
    8 ^ N.of_nat l * dig3 b + h3 l (rot3 n b (mod3 n c))
  end.

Lemma pow8 l : 2 ^ l * 2 ^ l * 2 ^ l = 8 ^ l.
Proof. rewrite <- !N.pow_mul_l. reflexivity. Qed.

Lemma loop3_h3 (L : nat) v c : (L <= 63)%nat ->
  hilbert_loop3 L v c = v + h3 L (mod3 (2 ^ N.of_nat L) c).
Proof.
  revert v c. induction L as [|l IH]; intros v c HL; cbn [hilbert_loop3 h3]; [lia|].
  destruct c as [[x y] z].
  rewrite N.shiftl_1_l, !bit_at_div, IH by lia. rewrite rotation3d_mod by lia.
  replace (bits_of3 (N.of_nat l) (mod3 (2 ^ N.of_nat (S l)) (x, y, z)))
    with (N.testbit x (N.of_nat l), N.testbit y (N.of_nat l), N.testbit z (N.of_nat l)).
  2:{ unfold bits_of3, mod3, map3. rewrite !testbit_mod by lia. reflexivity. }
  replace (mod3 (2 ^ N.of_nat l) (mod3 (2 ^ N.of_nat (S l)) (x, y, z)))
    with (mod3 (2 ^ N.of_nat l) (x, y, z)).
  2:{ unfold mod3, map3. rewrite !mod_mod_pow2 by lia. reflexivity. }
  rewrite pow8. unfold dig3. lia.
Qed.

Lemma dig3_lt b : dig3 b < 8.
Proof. destruct b as [[[] []] []]; vm_compute; reflexivity. Qed.

Lemma rot3_lt n b c : 0 < n -> all3 (fun x => x < n) c -> all3 (fun x => x < n) (rot3 n b c).
Proof.
  destruct c as [[x y] z], b as [[[] []] []]; cbn; unfold flip; intros Hn (H1 & H2 & H3);
    repeat split; lia.
Qed.
Lemma unrot3_lt n b c : 0 < n -> all3 (fun x => x < n) c -> all3 (fun x => x < n) (unrot3 n b c).
Proof.
  destruct c as [[x y] z], b as [[[] []] []]; cbn; unfold flip; intros Hn (H1 & H2 & H3);
    repeat split; lia.
Qed.
Lemma unrot3_rot3 n b c : all3 (fun x => x < n) c -> unrot3 n b (rot3 n b c) = c.
Proof.
  destruct c as [[x y] z], b as [[[] []] []]; cbn; intros (H1 & H2 & H3);
    rewrite ?flip_flip by assumption; reflexivity.
Qed.
Lemma rot3_unrot3 n b c : all3 (fun x => x < n) c -> rot3 n b (unrot3 n b c) = c.
Proof.
  destruct c as [[x y] z], b as [[[] []] []]; cbn; intros (H1 & H2 & H3);
    rewrite ?flip_flip by assumption; reflexivity.
Qed.

Lemma mod3_lt n c : 0 < n -> all3 (fun x => x < n) (mod3 n c).
Proof. destruct c as [[x y] z]; cbn; intros; repeat split; apply N.mod_lt; lia. Qed.

Lemma h3_lt L c : h3 L c < 8 ^ N.of_nat L.
Proof.
  revert c. induction L as [|l IH]; intros c; cbn [h3]; [lia|].
  replace (N.of_nat (S l)) with (N.of_nat l + 1) by lia. rewrite N.pow_add_r. change (8 ^ 1) with 8.
  match goal with |- _ + h3 l ?c < _ => pose proof (IH c) end.
  pose proof (dig3_lt (bits_of3 (N.of_nat l) c)). nia.
Qed.

Definition undig3 (d : N) : bits3 :=
  let b0 := N.testbit d 2 in
  let b1 := xorb (N.testbit d 1) b0 in
  (b0, b1, xorb (N.testbit d 0) (xorb b0 b1)).

Lemma undig3_dig3 b : undig3 (dig3 b) = b.
Proof. destruct b as [[[] []] []]; reflexivity. Qed.
Lemma dig3_undig3 d : d < 8 -> dig3 (undig3 d) = d.
Proof.
  intros. assert (d = 0 \/ d = 1 \/ d = 2 \/ d = 3 \/ d = 4 \/ d = 5 \/ d = 6 \/ d = 7) as D by lia.
  repeat destruct D as [->|D]; [reflexivity..|subst; reflexivity].
Qed.

Definition addbits3 (n : N) (b : bits3) (c : coord3) : coord3 :=
  let '(x, y, z) := c in let '(b0, b1, b2) := b in
  (N.b2n b0 * n + x, N.b2n b1 * n + y, N.b2n b2 * n + z).

Fixpoint d3 (L : nat) (k : N) : coord3 :=
  match L with
  | O => (0, 0, 0)
  | S l =>
    let n := 2 ^ N.of_nat l in
    let b := undig3 (k / 8 ^ N.of_nat l) in
    addbits3 n b (unrot3 n b (d3 l (k mod 8 ^ N.of_nat l)))
  end.

Lemma addbits3_split l c : all3 (fun x => x < 2 ^ N.of_nat (S l)) c ->
  addbits3 (2 ^ N.of_nat l) (bits_of3 (N.of_nat l) c) (mod3 (2 ^ N.of_nat l) c) = c.
Proof.
  destruct c as [[x y] z]. cbn [all3 bits_of3 mod3 map3 addbits3]. intros (H1 & H2 & H3).
  unfold addbits3, mod3, map3.
  rewrite <- !testbit_split by assumption. reflexivity.
Qed.

Lemma bits_of3_addbits l b c : all3 (fun x => x < 2 ^ N.of_nat l) c ->
  bits_of3 (N.of_nat l) (addbits3 (2 ^ N.of_nat l) b c) = b /\
  mod3 (2 ^ N.of_nat l) (addbits3 (2 ^ N.of_nat l) b c) = c.
Proof.
  set (n := 2 ^ N.of_nat l). intros H.
  assert (Hn : n <> 0) by (apply N.pow_nonzero; lia).
  assert (T : forall b z, z < n -> N.testbit (N.b2n b * n + z) (N.of_nat l) = b).
  { intros b' z Hz. pose proof (N.testbit_spec' (N.b2n b' * n + z) (N.of_nat l)) as S.
    fold n in S. replace ((N.b2n b' * n + z) / n) with (N.b2n b') in S
      by (apply N.div_unique with z; lia).
    destruct (N.testbit (N.b2n b' * n + z) (N.of_nat l)), b'; cbn in S; try discriminate; reflexivity. }
  assert (M : forall b z, z < n -> (N.b2n b * n + z) mod n = z).
  { intros b' z Hz. symmetry. apply N.mod_unique with (N.b2n b'); lia. }
  destruct c as [[x y] z], b as [[b0 b1] b2]. cbn [all3] in H. destruct H as (H1 & H2 & H3).
  unfold addbits3, bits_of3, mod3, map3. rewrite !T, !M by assumption. split; reflexivity.
Qed.

Lemma d3_lt L k : all3 (fun x => x < 2 ^ N.of_nat L) (d3 L k).
Proof.
  revert k. induction L as [|l IH]; intros k; cbn [d3]; [cbn; lia|].
  specialize (IH (k mod 8 ^ N.of_nat l)). pose proof (pow2_pos (N.of_nat l)) as P.
  apply (unrot3_lt (2 ^ N.of_nat l) (undig3 (k / 8 ^ N.of_nat l))) in IH; [|lia].
  destruct (unrot3 _ _ _) as [[x y] z]. destruct (undig3 _) as [[b0 b1] b2].
  cbn [addbits3 all3] in *.
  replace (N.of_nat (S l)) with (N.of_nat l + 1) by lia. rewrite N.pow_add_r. change (2 ^ 1) with 2.
  destruct IH as (H1 & H2 & H3).
  repeat split; [destruct b0|destruct b1|destruct b2]; cbn [N.b2n]; lia.
Qed.

Lemma d3_h3 L c : all3 (fun x => x < 2 ^ N.of_nat L) c -> d3 L (h3 L c) = c.
Proof.
  revert c. induction L as [|l IH]; intros c Hc.
  - destruct c as [[x y] z]. cbn in *. repeat f_equal; lia.
  - cbn [d3 h3].
    set (b := bits_of3 (N.of_nat l) c). set (n := 2 ^ N.of_nat l).
    assert (Hn : 0 < n) by (apply pow2_pos).
    set (c' := rot3 n b (mod3 n c)).
    pose proof (h3_lt l c') as Hh. pose proof (dig3_lt b) as Hd.
    assert (P4 : 8 ^ N.of_nat l <> 0) by (apply N.pow_nonzero; lia).
    assert (E1 : (8 ^ N.of_nat l * dig3 b + h3 l c') / 8 ^ N.of_nat l = dig3 b).
    { symmetry. apply N.div_unique with (h3 l c'); auto. }
    assert (E2 : (8 ^ N.of_nat l * dig3 b + h3 l c') mod 8 ^ N.of_nat l = h3 l c').
    { symmetry. apply N.mod_unique with (dig3 b); auto. }
    rewrite E1, E2, undig3_dig3.
    rewrite IH by (apply rot3_lt; [assumption|apply mod3_lt; assumption]).
    unfold c'. rewrite unrot3_rot3 by (apply mod3_lt; assumption).
    apply addbits3_split. assumption.
Qed.

Lemma h3_d3 L k : k < 8 ^ N.of_nat L -> h3 L (d3 L k) = k.
Proof.
  revert k. induction L as [|l IH]; intros k Hk.
  - cbn in *. lia.
  - cbn [d3 h3].
    set (n := 2 ^ N.of_nat l). set (m := 8 ^ N.of_nat l).
    assert (Hm : m <> 0) by (apply N.pow_nonzero; lia).
    assert (Hn : 0 < n) by (apply pow2_pos).
    assert (Hq : k / m < 8).
    { apply N.div_lt_upper_bound; auto. replace (N.of_nat (S l)) with (N.of_nat l + 1) in Hk by lia.
      rewrite N.pow_add_r in Hk. fold m in Hk. change (8 ^ 1) with 8 in Hk. lia. }
    pose proof (N.mod_lt k m Hm) as Hkm.
    pose proof (d3_lt l (k mod m)) as A. fold n in A.
    destruct (bits_of3_addbits l (undig3 (k / m)) (unrot3 n (undig3 (k / m)) (d3 l (k mod m)))) as [B1 B2].
    { apply unrot3_lt; assumption. }
    fold n in B1, B2. rewrite B1, B2, rot3_unrot3, IH, dig3_undig3 by assumption.
    symmetry. apply N.div_mod. assumption.
Qed.

Definition div3 (n : N) : coord3 -> coord3 := map3 (fun x => x / n).

Lemma rot3_div l m b c : all3 (fun x => x < 2 ^ (l + m)) c ->
  div3 (2 ^ m) (rot3 (2 ^ (l + m)) b c) = rot3 (2 ^ l) b (div3 (2 ^ m) c).
Proof.
  intros H. pose proof (pow2_pos m) as P. rewrite N.pow_add_r in *.
  destruct c as [[x y] z], b as [[[] []] []]; cbn [all3] in H; destruct H as (H1 & H2 & H3);
    unfold rot3, div3, map3; rewrite ?flip_div by assumption; reflexivity.
Qed.

Lemma h3_prefix (L M : nat) c :
  h3 (L + M) c / 8 ^ N.of_nat M = h3 L (div3 (2 ^ N.of_nat M) c).
Proof.
  assert (Hm : 8 ^ N.of_nat M <> 0) by (apply N.pow_nonzero; lia).
  revert c. induction L as [|l IH]; intros c; cbn [Nat.add h3].
  - apply N.div_small. apply h3_lt.
  - replace (N.of_nat (l + M)) with (N.of_nat l + N.of_nat M) by lia.
    replace (bits_of3 (N.of_nat l) (div3 (2 ^ N.of_nat M) c))
      with (bits_of3 (N.of_nat l + N.of_nat M) c).
    2:{ destruct c as [[x y] z]. unfold bits_of3, div3, map3. rewrite !testbit_div. reflexivity. }
    set (b := bits_of3 _ c).
    rewrite N.pow_add_r.
    rewrite (N.mul_comm (8 ^ N.of_nat l)), <- N.mul_assoc, (N.mul_comm (8 ^ N.of_nat M)).
    rewrite N.div_add_l by assumption. f_equal.
    rewrite IH. f_equal.
    rewrite rot3_div by (apply mod3_lt, pow2_pos).
    f_equal. destruct c as [[x y] z]. unfold div3, mod3, map3. rewrite !mod_div_pow2. reflexivity.
Qed.

Lemma flip64_flip64 l x : l < 64 -> x < 2 ^ l -> flip64 (2 ^ l) (flip64 (2 ^ l) x) = x.
Proof.
  intros Hl Hx. pose proof (pow2_pos l). rewrite (flip64_small l x) by assumption.
  rewrite flip64_small by (try apply flip_lt; lia). apply flip_flip. assumption.
Qed.

(** the unused inverse rotation of the code is the inverse of the rotation *)
Lemma unrotation3d_inverse l c b : l < 64 -> all3 (fun x => x < 2 ^ l) c ->
  unrotation3d (2 ^ l) (rotation3d (2 ^ l) c b) b = c.
Proof.
  intros Hl H. pose proof (pow2_pos l) as P.
  destruct c as [[x y] z], b as [[[] []] []]; cbn [all3] in H; destruct H as (H1 & H2 & H3);
    cbn [rotation3d unrotation3d rotate_90_x rotate_270_x rotate_270_z rotate_90_y rotate_90_z
         rotate_180_x rotate_270_y negb andb];
    rewrite ?(flip64_flip64 l) by assumption;
    rewrite ?(flip64_flip64 l) by assumption; try reflexivity.
  all: rewrite ?(flip64_flip64 l x), ?(flip64_flip64 l y), ?(flip64_flip64 l z) by assumption;
    rewrite ?(flip64_flip64 l x), ?(flip64_flip64 l y), ?(flip64_flip64 l z) by assumption; reflexivity.
Qed.
