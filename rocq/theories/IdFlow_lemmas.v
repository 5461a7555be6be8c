(** Rows, corners and adjusted widths of the blocks *)
From Coq Require Import Reals Lra Lia.
From Verif Require Import Base BuildTree_model Range_model Range_props Lattice_model Lattice_props LatticeBox_props IdGen_model IdGen_lemmas IdSod_props IdGas_props IdFlow_model.
Local Open Scope R_scope.

(** ** the first point that is written *)
Definition starts (g : bool -> lst R -> option (lst R)) (p : R * R * R) : Prop := forall pts, Emits g pts -> exists r, pts = p :: r.
Lemma floop_starts : forall fuel x o b d nx body p, (forall x o, fine (body x o)) -> x < b -> starts (body x o) p ->
  starts (floop RA fuel x o b d nx body) p.
Proof.
  intros fuel x o b d nx body p Hf Hx Hb pts E. destruct fuel as [|k]; [specialize (E true (zeros 0)); discriminate|].
  assert (Ex : a_lt RA x b = true) by (apply Rlt_b_true; exact Hx). destruct (Hf x o) as [N|(p1 & E1)].
  - specialize (E true (zeros 0)). cbn [floop] in E. rewrite Ex, N in E. discriminate.
  - destruct (floop_fine RA b d nx body k (a_add RA x d) (nx o) Hf) as [N|(p2 & E2)].
    + specialize (E true (zeros 0)). cbn [floop] in E. rewrite Ex, E1, N in E. discriminate.
    + destruct (Hb p1 E1) as (r & ->). exists (r ++ p2). change (p :: r ++ p2) with ((p :: r) ++ p2). apply (emits_unique _ _ _ E).
      intros c s. cbn [floop]. rewrite Ex, E1, E2, emit_app. reflexivity.
Qed.
Lemma place_starts : forall x y z, starts (place true x y z) (x, y, z).
Proof. intros x y z pts E. exists []. apply (emits_unique _ _ _ E). exact (place_emits true x y z). Qed.
Lemma lattice_starts : forall dim fuel ty bmin bmax sep, (2 <= dim <= 3)%nat -> 0 < sep -> (forall a, bmin a <= bmax a) ->
  within dim 0 bmin bmax (bmin 0%nat, bmin 1%nat, if (dim =? 2)%nat then 0 else bmin 2%nat) ->
  starts (lattice dim fuel ty 0 bmin bmax sep) (bmin 0%nat, bmin 1%nat, if (dim =? 2)%nat then 0 else bmin 2%nat).
Proof.
  intros dim fuel ty bmin bmax sep Hd Hs Hb W. unfold lattice. destruct ((0 <=? ty) && (ty <=? 2))%Z eqn:Et.
  2:{ intros pts E. specialize (E true (zeros 0)). discriminate. }
  apply andb_true_iff in Et. rewrite ! Z.leb_le in Et.
  assert (T : 0 <= (bmax 0%nat - bmin 0%nat) / 1000000) by (pose proof (Hb 0%nat); lra).
  assert (B : forall a, (a < dim)%nat -> coord (bmin 0%nat, bmin 1%nat, if (dim =? 2)%nat then 0 else bmin 2%nat) a < bmax a).
  { destruct W as (W & _). cbn zeta in W. intros a Ha. specialize (W a Ha). lra. }
  pose proof (B 0%nat ltac:(lia)) as B0. pose proof (B 1%nat ltac:(lia)) as B1. cbn [coord fst snd] in B0, B1.
  destruct dim as [|[|[|[|d]]]]; try lia; cbn [Nat.eqb] in *.
  - apply dom_2d in W; [|exact Hb]. unfold gen_2d. destruct (ty =? 0)%Z.
    + apply floop_starts; [intros; apply floop_fine; intros; apply place_fine | exact B1|]. apply floop_starts; [intros; apply place_fine | exact B0|]. rewrite W. apply place_starts.
    + apply floop_starts; [intros; apply floop_fine; intros; apply place_fine | exact B1|].
      replace (a_add RA (bmin 0%nat) (a_div RA (a_mul RA (a_ofz RA 0) sep) (a_ofz RA 2))) with (bmin 0%nat) by (cbn; field).
      apply floop_starts; [intros; apply place_fine | exact B0|]. rewrite W. apply place_starts.
  - pose proof (B 2%nat ltac:(lia)) as B2. cbn [coord fst snd] in B2. apply dom_3d in W; [|exact Hb]. unfold gen_3d. destruct (ty =? 0)%Z eqn:E0.
    + apply floop_starts; [intros; repeat (apply floop_fine; intros); apply place_fine | exact B2|]. apply floop_starts; [intros; apply floop_fine; intros; apply place_fine | exact B1|].
      apply floop_starts; [intros; apply place_fine | exact B0|]. rewrite W. apply place_starts.
    + assert (F : forall nx, starts (floop RA fuel (bmin 2%nat) (a_ofz RA 0) (bmax 2%nat) (a_mul RA sep (a_sqrt RA (a_div RA (a_ofz RA 2) (a_ofz RA 3)))) nx
        (fun z_p zo => floop RA fuel (a_sub RA (bmin 1%nat) (a_div RA (a_mul RA zo (a_div RA (a_mul RA sep (a_sqrt RA (a_ofz RA 3))) (a_ofz RA 2))) (a_ofz RA 3))) (a_ofz RA 0) (bmax 1%nat)
          (a_div RA (a_mul RA sep (a_sqrt RA (a_ofz RA 3))) (a_ofz RA 2)) (flip RA)
          (fun y_p yo => floop RA fuel (a_add RA (bmin 0%nat) (a_div RA (a_mul RA (a_sub RA yo zo) sep) (a_ofz RA 2))) (a_ofz RA 0) (bmax 0%nat) sep same
            (fun x_p _ => place (in_domain_3d RA x_p y_p z_p bmin bmax 0) x_p y_p z_p)))) (bmin 0%nat, bmin 1%nat, bmin 2%nat)).
      { intros nx. apply floop_starts; [intros; repeat (apply floop_fine; intros); apply place_fine | exact B2|].
        replace (a_sub RA (bmin 1%nat) (a_div RA (a_mul RA (a_ofz RA 0) (a_div RA (a_mul RA sep (a_sqrt RA (a_ofz RA 3))) (a_ofz RA 2))) (a_ofz RA 3))) with (bmin 1%nat) by (cbn; field).
        apply floop_starts; [intros; apply floop_fine; intros; apply place_fine | exact B1|].
        replace (a_add RA (bmin 0%nat) (a_div RA (a_mul RA (a_sub RA (a_ofz RA 0) (a_ofz RA 0)) sep) (a_ofz RA 2))) with (bmin 0%nat) by (cbn; field).
        apply floop_starts; [intros; apply place_fine | exact B0|]. rewrite W. apply place_starts. }
      destruct (ty =? 1)%Z eqn:E1; [apply F|]. destruct (ty =? 2)%Z eqn:E2; [apply F|]. apply Z.eqb_neq in E0, E1, E2. lia.
Qed.

(** ** rows and layers *)
Lemma row_y_pos : forall ty, 86 / 100 < row_y ty <= 1.
Proof.
  intros ty. unfold row_y. destruct (close_packed ty); [|lra]. pose proof (sqrt_sqrt 3 ltac:(lra)). pose proof (sqrt_pos 3). split; nra.
Qed.
Lemma row_z_pos : forall ty, 8 / 10 < row_z ty <= 1.
Proof.
  intros ty. unfold row_z. destruct (close_packed ty); [|lra]. pose proof (sqrt_sqrt (2 / 3) ltac:(lra)). pose proof (sqrt_pos (2 / 3)). split; nra.
Qed.
Lemma per_y_bounds : forall ty, 8 / 10 < per_y ty <= 2.
Proof. intros ty. unfold per_y. pose proof (row_y_pos ty). destruct (close_packed ty); lra. Qed.
Lemma per_z_bounds : forall ty, 8 / 10 < per_z ty <= 3.
Proof. intros ty. unfold per_z. pose proof (row_z_pos ty). destruct (ty =? 1)%Z; [lra|]. destruct (ty =? 2)%Z; lra. Qed.
Lemma packed_is : forall ty, (0 <= ty <= 2)%Z -> close_packed ty = negb (ty =? 0)%Z.
Proof. intros ty Ht. unfold close_packed. assert (ty = 0 \/ ty = 1 \/ ty = 2)%Z as [->|[->| ->]] by lia; reflexivity. Qed.
Lemma node_y : forall dim ty bmin sep x y z, (2 <= dim)%nat -> (0 <= ty <= 2)%Z -> node dim ty bmin sep (x, y, z) -> exists a : Z, y = bmin 1%nat + IZR a * (row_y ty * sep / 3).
Proof.
  intros dim ty bmin sep x y z Hd Ht H. unfold row_y. rewrite packed_is by exact Ht. unfold node in H. destruct dim as [|[|[|d]]]; try lia.
  - destruct H as (i & j & H). destruct (ty =? 0)%Z; rewrite ! pair_equal_spec in H; destruct H as ((_ & ->) & _); exists (3 * Z.of_nat j)%Z; rewrite mult_IZR, <- INR_IZR_INZ; cbn [negb]; field.
  - unfold node_3d in H. destruct H as (i & j & k & H). destruct (ty =? 0)%Z.
    + rewrite ! pair_equal_spec in H; destruct H as ((_ & ->) & _). exists (3 * Z.of_nat j)%Z. rewrite mult_IZR, <- INR_IZR_INZ. cbn [negb]. field.
    + destruct H as (layer & _ & H). rewrite ! pair_equal_spec in H; destruct H as ((_ & ->) & _). exists (3 * Z.of_nat j - Z.of_nat layer)%Z. rewrite minus_IZR, mult_IZR, <- ! INR_IZR_INZ. cbn [negb]. field.
Qed.
Lemma node_z : forall ty bmin sep x y z, (0 <= ty <= 2)%Z -> node 3 ty bmin sep (x, y, z) -> exists c : nat, z = bmin 2%nat + INR c * (row_z ty * sep).
Proof.
  intros ty bmin sep x y z Ht H. unfold row_z. rewrite packed_is by exact Ht. cbn [node] in H. unfold node_3d in H. destruct H as (i & j & k & H). exists k. destruct (ty =? 0)%Z.
  - rewrite ! pair_equal_spec in H; destruct H as ((_ & _) & ->). cbn [negb]. ring.
  - destruct H as (layer & _ & H). rewrite ! pair_equal_spec in H; destruct H as ((_ & _) & ->). cbn [negb]. ring.
Qed.
(** a multiple of [d] that is above [- t], for [t] at most [d], is at least 0 *)
Lemma multiple_nonneg : forall (a : Z) d t, 0 < d -> t <= d -> - t < IZR a * d -> (0 <= a)%Z.
Proof. intros a d t Hd Ht H. destruct (Z_lt_le_dec a 0) as [N|N]; [|exact N]. assert (N1 : (a <= -1)%Z) by lia. apply IZR_le in N1. nra. Qed.
(** The nodes in a box whose extent in x is at most 200000 separations *)
Lemma box_nodes : forall dim ty bmin bmax sep x y z, (2 <= dim <= 3)%nat -> (0 <= ty <= 2)%Z -> 0 < sep -> bmin 0%nat <= bmax 0%nat <= bmin 0%nat + 200000 * sep ->
  node dim ty bmin sep (x, y, z) -> within dim 0 bmin bmax (x, y, z) ->
  (bmin 0%nat <= x < bmax 0%nat) /\ (exists a : Z, (0 <= a)%Z /\ y = bmin 1%nat + IZR a * (row_y ty * sep / 3) /\ y < bmax 1%nat) /\ (dim = 3%nat -> bmin 2%nat <= z < bmax 2%nat).
Proof.
  intros dim ty bmin bmax sep x y z Hd Ht Hs Hx N (W & _). cbn zeta in W.
  pose proof (row_y_pos ty) as Ry. pose proof (row_z_pos ty) as Rz.
  pose proof (W 0%nat ltac:(lia)) as W0. pose proof (W 1%nat ltac:(lia)) as W1. cbn [coord fst snd] in W0, W1. set (tol := (bmax 0%nat - bmin 0%nat) / 1000000) in *.
  assert (T : 0 <= tol <= 2 / 10 * sep) by (unfold tol; lra).
  split; [|split].
  - destruct (node_x _ _ _ _ _ _ _ N) as (a & ->). assert (0 <= a)%Z as Ha by (apply (multiple_nonneg a (sep / 2) tol); lra). apply IZR_le in Ha. nra.
  - destruct (node_y _ _ _ _ _ _ _ (proj1 Hd) Ht N) as (a & ->). exists a. split; [apply (multiple_nonneg a (row_y ty * sep / 3) tol); nra|]. split; [reflexivity | lra].
  - intros ->. specialize (W 2%nat ltac:(lia)). cbn [coord fst snd] in W. destruct (node_z _ _ _ _ _ _ Ht N) as (c & ->). pose proof (pos_INR c).
    assert (0 <= INR c * (row_z ty * sep)) by (apply Rmult_le_pos; [assumption | nra]). lra.
Qed.
Lemma floor_nat : forall x, 0 <= x -> exists K : nat, floorR x = INR K /\ INR K <= x < INR K + 1.
Proof.
  intros x Hx. unfold floorR. destruct (base_Int_part x) as (B1 & B2).
  assert (Hp : (-1 < Int_part x)%Z) by (apply lt_IZR; lra).
  exists (Z.to_nat (Int_part x)). rewrite INR_IZR_INZ, Z2Nat.id by lia. split; [reflexivity | lra].
Qed.
