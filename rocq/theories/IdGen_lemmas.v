(** What counting and generating a lattice come to *)
From Coq Require Import Reals Lra Lia.
From Verif Require Import Base BuildTree_model Range_model Range_props Lattice_model Lattice_props LatticeBox_props IdGen_model.
Local Open Scope R_scope.

Lemma lattice_fine : forall dim fuel ty dt bmin bmax sep, fine (lattice dim fuel ty dt bmin bmax sep).
Proof.
  intros. unfold lattice. destruct ((0 <=? ty) && (ty <=? 2))%Z; [|left; reflexivity].
  destruct dim as [|[|[|[|d]]]]; try (left; reflexivity); [apply gen_1d_fine | apply gen_2d_fine | apply gen_3d_fine].
Qed.
Lemma count_inv : forall dim fuel ty dt bmin bmax sep posid n, count dim fuel ty dt bmin bmax sep posid = Some n ->
  exists pts, Emits (lattice dim fuel ty dt bmin bmax sep) pts /\ n = Z.of_nat (length pts).
Proof.
  intros dim fuel ty dt bmin bmax sep posid n H. unfold count in H.
  destruct (lattice_fine dim fuel ty dt bmin bmax sep) as [N|(pts & E)]; [rewrite N in H; discriminate|].
  rewrite E in H. cbn in H. injection H as <-. exists pts. split; [exact E|]. rewrite emit_pid. cbn [l_pid zeros]. lia.
Qed.
Lemma count_emits : forall dim fuel ty dt bmin bmax sep posid pts, Emits (lattice dim fuel ty dt bmin bmax sep) pts ->
  count dim fuel ty dt bmin bmax sep posid = Some (Z.of_nat (length pts)).
Proof. intros dim fuel ty dt bmin bmax sep posid pts E. unfold count. rewrite E. cbn. rewrite emit_pid. cbn [l_pid zeros]. f_equal. lia. Qed.
Lemma generate_emits : forall dim fuel ty dt bmin bmax sep n posid a pts, Emits (lattice dim fuel ty dt bmin bmax sep) pts ->
  (0 <= posid)%Z -> (posid + Z.of_nat (length pts) <= n)%Z -> l_pid a = posid ->
  generate dim fuel ty dt bmin bmax sep n posid a = Some (Z.of_nat (length pts), emit false pts a).
Proof.
  intros dim fuel ty dt bmin bmax sep n posid a pts E H0 Hn Ha. unfold generate. rewrite E. cbv iota beta.
  replace (Lst posid (l_x a) (l_y a) (l_z a)) with a by (destruct a; cbn in *; congruence).
  rewrite ! emit_pid, Ha. destruct (Z.eqb_spec (posid + Z.of_nat (length pts)) posid); cbn [orb].
  - repeat f_equal. lia.
  - replace (0 <=? posid)%Z with true by (symmetry; apply Z.leb_le; lia).
    replace (posid + Z.of_nat (length pts) <=? n)%Z with true by (symmetry; apply Z.leb_le; lia). cbn [andb]. repeat f_equal. lia.
Qed.

(** numbering the elements of a list *)
Fixpoint number {T} (k : Z) (l : list T) : list (Z * T) := match l with [] => [] | a :: r => (k, a) :: number (k + 1) r end.
Lemma number_app T : forall (a b : list T) k, number k (a ++ b) = number k a ++ number (k + Z.of_nat (length a)) b.
Proof. induction a as [|x a IH]; intros b k; cbn [number app length]; [rewrite Z.add_0_r; reflexivity|].
  rewrite IH. replace (k + 1 + Z.of_nat (length a))%Z with (k + Z.of_nat (S (length a)))%Z by lia. reflexivity.
Qed.
Lemma number_snd T : forall (a : list T) k, map snd (number k a) = a.
Proof. induction a as [|x a IH]; intros k; cbn; [reflexivity | rewrite IH; reflexivity]. Qed.
Lemma number_fst T : forall (a : list T) k, map fst (number (Z.of_nat k) a) = map Z.of_nat (seq k (length a)).
Proof.
  induction a as [|x a IH]; intros k; cbn [number map seq length fst]; [reflexivity|].
  replace (Z.of_nat k + 1)%Z with (Z.of_nat (S k)) by lia. rewrite IH. reflexivity.
Qed.
Lemma number_length T : forall (a : list T) k, length (number k a) = length a.
Proof. induction a as [|x a IH]; intros k; cbn; [reflexivity | rewrite IH; reflexivity]. Qed.

Definition at3 (f : Z -> R -> R -> R -> idp) (q : Z * (R * R * R)) : idp := let '(k, (x, y, z)) := q in f k x y z.
Lemma write_emit : forall pts (f : Z -> R -> R -> R -> idp) n, (Z.of_nat (length pts) <= n)%Z ->
  write_file (Z.of_nat (length pts)) n (fun k => f k (l_x (emit false pts (zeros 0)) k) (l_y (emit false pts (zeros 0)) k) (l_z (emit false pts (zeros 0)) k))
  = Some (map (at3 f) (number 0 pts)).
Proof.
  intros pts f n Hn. unfold write_file. replace (Z.of_nat (length pts) <=? n)%Z with true by (symmetry; apply Z.leb_le; lia).
  f_equal. rewrite Nat2Z.id. apply nth_error_ext. intros i.
  destruct (nth_error pts i) as [p|] eqn:Ep.
  - assert (Hi : (i < length pts)%nat) by (apply nth_error_Some; congruence).
    rewrite (map_nth_error _ _ _ (nth_error_nth' (seq 0 (length pts)) 0%nat ltac:(rewrite seq_length; exact Hi))), seq_nth by exact Hi.
    pose proof (emit_nth _ (zeros 0) _ _ Ep) as Hp. cbn [l_pid zeros] in Hp. rewrite Z.add_0_l in Hp. cbn [Nat.add].
    assert (En : forall k, nth_error (number k pts) i = Some (k + Z.of_nat i, p)%Z).
    { clear -Ep. revert i Ep. induction pts as [|q r IH]; intros [|i] Ep k; cbn [nth_error number] in *; try discriminate.
      - injection Ep as ->. rewrite Z.add_0_r. reflexivity.
      - rewrite (IH i Ep). replace (k + 1 + Z.of_nat i)%Z with (k + Z.of_nat (S i))%Z by lia. reflexivity. }
    rewrite (map_nth_error _ _ _ (En 0%Z)). unfold point_at in Hp. destruct p as [[x y] z]. cbn [at3]. rewrite Z.add_0_l.
    injection Hp as Hx Hy Hz. rewrite Hx, Hy, Hz. reflexivity.
  - rewrite (proj2 (nth_error_None _ i)), (proj2 (nth_error_None _ i)); [reflexivity | |]; apply nth_error_None in Ep.
    + rewrite map_length, number_length. exact Ep.
    + rewrite map_length, seq_length. exact Ep.
Qed.

(** ** which points *)
Definition node (dim : nat) (ty : Z) (bmin : nat -> R) (sep : R) (p : R * R * R) : Prop :=
  match dim with 1%nat => node_1d bmin sep p | 2%nat => node_2d ty bmin sep p | _ => node_3d ty bmin sep p end.
Lemma lattice_points : forall dim fuel ty dt bmin bmax sep pts, 0 < sep -> (forall a, bmin a <= bmax a) ->
  (dim = 1%nat -> dt = 0%Z) -> Emits (lattice dim fuel ty dt bmin bmax sep) pts ->
  (1 <= dim <= 3)%nat /\ (0 <= ty <= 2)%Z /\ forall p, In p pts <-> node dim ty bmin sep p /\ within dim dt bmin bmax p.
Proof.
  intros dim fuel ty dt bmin bmax sep pts Hs Hb Hd E. unfold lattice in E.
  destruct ((0 <=? ty) && (ty <=? 2))%Z eqn:Et; [|specialize (E true (zeros 0)); discriminate].
  apply andb_true_iff in Et. rewrite ! Z.leb_le in Et.
  destruct (C78_nodes fuel ty dt bmin bmax sep Hs Hb) as (W1 & W2 & W3).
  assert (K : forall g P, Emits g pts -> writes g P -> forall p, In p pts <-> P p).
  { intros g P Eg W p. rewrite <- (W (zeros 0) _ (Eg false (zeros 0)) p). rewrite emit_pid. cbn [l_pid zeros]. split.
    - intros Hp. apply In_nth_error in Hp. destruct Hp as (n & En). exists (Z.of_nat n). split; [|exact (emit_nth _ (zeros 0) _ _ En)].
      assert (n < length pts)%nat by (apply nth_error_Some; congruence). lia.
    - intros (j & Hj & Hp). destruct (nth_error pts (Z.to_nat j)) as [q|] eqn:En.
      + pose proof (emit_nth _ (zeros 0) _ _ En) as Hq. cbn [l_pid zeros] in Hq. rewrite Z2Nat.id in Hq by lia. rewrite Z.add_0_l in Hq.
        rewrite <- Hp, Hq. eapply nth_error_In; exact En.
      + apply nth_error_None in En. lia. }
  destruct dim as [|[|[|[|d]]]]; [specialize (E true (zeros 0)); discriminate | | | | specialize (E true (zeros 0)); discriminate];
    (split; [lia|]); (split; [lia|]).
  - rewrite (Hd eq_refl). apply (K _ _ E W1).
  - apply (K _ _ E W2).
  - apply (K _ _ E W3).
Qed.
Lemma lattice_ends : forall dim ty dt bmin bmax sep, (1 <= dim <= 3)%nat -> (0 <= ty <= 2)%Z -> 0 < sep ->
  exists fuel pts, Emits (lattice dim fuel ty dt bmin bmax sep) pts.
Proof.
  intros dim ty dt bmin bmax sep Hd Ht Hs. destruct (C48_ends ty dt bmin bmax sep Hs) as (fuel & H). exists fuel.
  destruct (lattice_fine dim fuel ty dt bmin bmax sep) as [N|X]; [|exact X]. exfalso.
  specialize (N true (zeros 0)). destruct (H true (zeros 0)) as (H1 & H2 & H3). unfold lattice in N.
  replace ((0 <=? ty) && (ty <=? 2))%Z with true in N by (symmetry; apply andb_true_iff; rewrite ! Z.leb_le; lia).
  destruct dim as [|[|[|[|d]]]]; try lia; contradiction.
Qed.

(** more fuel does not change the points *)
Definition below {T} (f g : T -> lst R -> option (lst R)) : Prop := forall c s r, f c s = Some r -> g c s = Some r.
Lemma floop_more : forall b d nx body body', (forall x o, below (body x o) (body' x o)) -> forall k k' x o, (k <= k')%nat ->
  below (floop RA k x o b d nx body) (floop RA k' x o b d nx body').
Proof.
  intros b d nx body body' Hb. induction k as [|k IH]; intros [|k'] x o Hk c s r H; cbn [floop] in *; try discriminate; try lia.
  destruct (a_lt RA x b); [|exact H]. destruct (body x o c s) as [s1|] eqn:E1; [|discriminate]. rewrite (Hb _ _ _ _ _ E1).
  eapply IH; [lia | exact H].
Qed.
Lemma below_refl T (f : T -> lst R -> option (lst R)) : below f f.
Proof. intros c s r H; exact H. Qed.
Lemma lattice_more : forall dim fuel fuel' ty dt bmin bmax sep, (fuel <= fuel')%nat -> below (lattice dim fuel ty dt bmin bmax sep) (lattice dim fuel' ty dt bmin bmax sep).
Proof.
  intros dim fuel fuel' ty dt bmin bmax sep Hf. unfold lattice. destruct ((0 <=? ty) && (ty <=? 2))%Z; [|apply below_refl].
  destruct dim as [|[|[|[|d]]]]; try apply below_refl.
  - apply floop_more; [intros; apply below_refl | exact Hf].
  - unfold gen_2d. destruct (ty =? 0)%Z; repeat (apply floop_more; [intros | exact Hf]); apply below_refl.
  - unfold gen_3d. destruct (ty =? 0)%Z; [|destruct (ty =? 1)%Z; [|destruct (ty =? 2)%Z]]; repeat (apply floop_more; [intros | exact Hf]); apply below_refl.
Qed.
Lemma emits_more : forall dim fuel fuel' ty dt bmin bmax sep pts, (fuel <= fuel')%nat -> Emits (lattice dim fuel ty dt bmin bmax sep) pts ->
  Emits (lattice dim fuel' ty dt bmin bmax sep) pts.
Proof. intros dim fuel fuel' ty dt bmin bmax sep pts Hf E c s. eapply lattice_more; [exact Hf | apply E]. Qed.

(** ** the points are pairwise different *)
Lemma lattice_nodup : forall dim fuel ty dt bmin bmax sep pts, 0 < sep -> ((dim < 3)%nat \/ ty <> 2%Z) ->
  Emits (lattice dim fuel ty dt bmin bmax sep) pts -> NoDup pts.
Proof.
  intros dim fuel ty dt bmin bmax sep pts Hs Ht E.
  assert (K : forall g m, 0 < m -> Emits g pts -> spaced m g -> NoDup pts).
  { intros g m Hm Eg Sg. apply NoDup_nth_error. intros i j Hi Hij. destruct (Nat.eq_dec i j) as [->|N]; [reflexivity|]. exfalso.
    destruct (nth_error pts i) as [p|] eqn:Ei; [|apply nth_error_None in Ei; lia]. symmetry in Hij.
    assert (Hj : (j < length pts)%nat) by (apply nth_error_Some; congruence).
    pose proof (Sg (zeros 0) _ (Eg false (zeros 0)) (Z.of_nat i) (Z.of_nat j)) as D. rewrite emit_pid in D. cbn [l_pid zeros] in D.
    specialize (D ltac:(lia) ltac:(lia) ltac:(lia)).
    pose proof (emit_nth _ (zeros 0) _ _ Ei) as Pi. pose proof (emit_nth _ (zeros 0) _ _ Hij) as Pj. cbn [l_pid zeros] in Pi, Pj. rewrite ! Z.add_0_l in Pi, Pj.
    rewrite Pi, Pj in D. unfold dist2 in D. nra. }
  assert (M : 0 < sep ^ 2) by nra.
  unfold lattice in E. destruct ((0 <=? ty) && (ty <=? 2))%Z; [|specialize (E true (zeros 0)); discriminate].
  destruct dim as [|[|[|[|d]]]]; try (specialize (E true (zeros 0)); discriminate).
  - eapply K; [exact M | exact E | apply C49_1d].
  - eapply K; [exact M | exact E | apply C49_2d].
  - eapply K; [exact M | exact E | apply C49_3d; lia].
Qed.
