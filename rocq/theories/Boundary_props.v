(** C25, C26, C72: periodic images. *)
From Coq Require Import Reals Lra Permutation.
From Verif Require Import Base BuildTree_model Range_model Boundary_model.
Local Open Scope R_scope.

Lemma Rlt_b_true a b : Rlt_b a b = true <-> a < b.
Proof. unfold Rlt_b. destruct (Rlt_dec a b); split; intros; auto; discriminate || contradiction. Qed.
Lemma Rlt_b_false a b : Rlt_b a b = false <-> b <= a.
Proof. unfold Rlt_b. destruct (Rlt_dec a b); split; intros; auto; try discriminate; lra. Qed.
Lemma Rle_b_true a b : Rle_b a b = true <-> a <= b.
Proof. unfold Rle_b. destruct (Rle_dec a b); split; intros; auto; discriminate || contradiction. Qed.
Lemma Rle_b_false a b : Rle_b a b = false <-> b < a.
Proof. unfold Rle_b. destruct (Rle_dec a b); split; intros; auto; try discriminate; lra. Qed.

Section Boundary.
Context (dim : nat) (len : nat -> R) (periodic : nat -> bool) (halo : R).
Notation teleport1 := (teleport1 len periodic).
Notation teleport := (teleport dim len periodic).
Notation on_edge := (on_edge len periodic halo).
Notation images := (images dim len periodic halo).
Notation lo := (blo len).
Notation hi := (bhi len).

(** ** The originals *)
Lemma teleport1_other b d k : k <> d -> pb_x (teleport1 b d) k = pb_x b k.
Proof.
  intros H. unfold Boundary_model.teleport1, upd, set_x. destruct (periodic d); [|reflexivity].
  destruct (Rlt_b _ _); [|destruct (Rle_b _ _)]; cbn; rewrite ?(proj2 (Nat.eqb_neq _ _) H); reflexivity.
Qed.
Lemma teleport1_same b d : pb_x (teleport1 b d) d =
  if periodic d then if Rlt_b (hi d) (pb_x b d) then pb_x b d - len d else if Rle_b (pb_x b d) (lo d) then pb_x b d + len d else pb_x b d else pb_x b d.
Proof.
  unfold Boundary_model.teleport1, upd, set_x. destruct (periodic d); [|reflexivity].
  destruct (Rlt_b _ _); [|destruct (Rle_b _ _)]; cbn; rewrite ?Nat.eqb_refl; unfold blo, bhi; lra || reflexivity.
Qed.
Lemma teleport1_rest b d : pb_wall (teleport1 b d) = pb_wall b /\ pb_id (teleport1 b d) = pb_id b /\ pb_rest (teleport1 b d) = pb_rest b.
Proof. unfold Boundary_model.teleport1. destruct (periodic d); [|auto]. destruct (Rlt_b _ _); [|destruct (Rle_b _ _)]; cbn; auto. Qed.
Lemma teleport_rest b : pb_wall (teleport b) = pb_wall b /\ pb_id (teleport b) = pb_id b /\ pb_rest (teleport b) = pb_rest b.
Proof.
  unfold Boundary_model.teleport. revert b. induction (seq 0 dim) as [|d l IH]; intros b; [auto|]. cbn [fold_left].
  destruct (IH (teleport1 b d)) as (-> & -> & ->). apply teleport1_rest.
Qed.
Lemma teleport_fold l : NoDup l -> forall b k, pb_x (fold_left teleport1 l b) k = if existsb (Nat.eqb k) l then pb_x (teleport1 b k) k else pb_x b k.
Proof.
  induction 1 as [|d l Hd Hn IH]; intros b k; [reflexivity|]. cbn [fold_left existsb]. rewrite IH. destruct (Nat.eqb_spec k d) as [->|Hk]; cbn [orb].
  - replace (existsb (Nat.eqb d) l) with false; [reflexivity|]. symmetry. apply not_true_is_false. intros Q. apply existsb_exists in Q. destruct Q as (x & Hx & E).
    apply Nat.eqb_eq in E. subst. contradiction.
  - destruct (existsb _ _); [|apply teleport1_other; exact Hk]. rewrite !teleport1_same. rewrite (teleport1_other b d k Hk). reflexivity.
Qed.
Lemma teleport_x b k : pb_x (teleport b) k = if (k <? dim)%nat then pb_x (teleport1 b k) k else pb_x b k.
Proof.
  unfold Boundary_model.teleport. rewrite (teleport_fold _ (seq_NoDup dim 0)). replace (existsb (Nat.eqb k) (seq 0 dim)) with (k <? dim)%nat; [reflexivity|].
  destruct (Nat.ltb_spec k dim) as [H|H]; symmetry.
  - apply existsb_exists. exists k. split; [apply in_seq; lia|apply Nat.eqb_refl].
  - apply not_true_is_false. intros Q. apply existsb_exists in Q. destruct Q as (x & Hx & E). apply Nat.eqb_eq in E. apply in_seq in Hx. lia.
Qed.
(** A particle keeps everything but its position; it moves by whole box lengths on
    periodic axes, not at all inside the box, and lands inside from up to a box
    length outside. *)
Theorem C25_originals b : pb_wall (teleport b) = pb_wall b /\ pb_id (teleport b) = pb_id b /\ pb_rest (teleport b) = pb_rest b /\
  forall d, (d < dim)%nat ->
    (periodic d = false -> pb_x (teleport b) d = pb_x b d) /\
    (lo d < pb_x b d <= hi d -> pb_x (teleport b) d = pb_x b d) /\
    (periodic d = true -> lo d - len d < pb_x b d <= hi d + len d -> lo d < pb_x (teleport b) d <= hi d) /\
    (pb_x (teleport b) d = pb_x b d \/ pb_x (teleport b) d = pb_x b d - len d \/ pb_x (teleport b) d = pb_x b d + len d).
Proof.
  destruct (teleport_rest b) as (-> & -> & ->). do 3 (split; [reflexivity|]). intros d Hd. rewrite teleport_x, teleport1_same. rewrite (proj2 (Nat.ltb_lt _ _) Hd).
  split; [intros ->; reflexivity|]. split; [|split].
  - intros B. destruct (periodic d); [|reflexivity]. destruct (Rlt_b _ _) eqn:E; [apply Rlt_b_true in E; lra|]. destruct (Rle_b _ _) eqn:E'; [apply Rle_b_true in E'; lra|reflexivity].
  - intros -> B. unfold blo, bhi in *. destruct (Rlt_b _ _) eqn:E; [apply Rlt_b_true in E; lra|]. apply Rlt_b_false in E. destruct (Rle_b _ _) eqn:E'; [apply Rle_b_true in E'; lra|apply Rle_b_false in E'; lra].
  - destruct (periodic d); [|auto]. destruct (Rlt_b _ _); [auto|]. destruct (Rle_b _ _); auto.
Qed.

(** ** The images *)
Lemma corner_fold b ds : NoDup ds -> forall x k, fold_left (fun coord d => upd coord d
    (if Rlt_b (hi d) (pb_x b d + halo) then lo d - Rabs (pb_x b d + lo d) else hi d + Rabs (pb_x b d + hi d))) ds x k =
  if existsb (Nat.eqb k) ds then (if Rlt_b (hi k) (pb_x b k + halo) then lo k - Rabs (pb_x b k + lo k) else hi k + Rabs (pb_x b k + hi k)) else x k.
Proof.
  induction 1 as [|d l Hd Hn IH]; intros x k; [reflexivity|]. cbn [fold_left existsb]. rewrite IH. unfold upd. destruct (Nat.eqb_spec k d) as [->|Hk]; cbn [orb]; [|reflexivity].
  destruct (existsb _ _); reflexivity.
Qed.
(** the displacement of the axis images *)
Definition shift (b : pbody) (d : nat) : R := if Rlt_b (hi d) (pb_x b d + halo) then - len d else len d.
Definition inside (b : pbody) : Prop := forall d, (d < dim)%nat -> periodic d = true -> lo d <= pb_x b d <= hi d.
Definition img_at (b i : pbody) (ds : list nat) : Prop :=
  pb_wall i = true /\ pb_id i = pb_id b /\ pb_rest i = pb_rest b /\
  forall k, pb_x i k = pb_x b k + (if existsb (Nat.eqb k) ds then shift b k else 0).
Lemma axis_img b d : img_at b (axis_image len halo b d) [d].
Proof.
  repeat split. intros k. cbn. unfold upd. rewrite orb_false_r. destruct (Nat.eqb_spec k d) as [->|]; [|lra]. unfold shift, blo, bhi. destruct (Rlt_b _ _); lra.
Qed.
Lemma corner_img b ds : inside b -> NoDup ds -> (forall d, In d ds -> (d < dim)%nat /\ periodic d = true) -> img_at b (set_x (set_wall b) (corner_x len halo b ds)) ds.
Proof.
  intros Hin Hn Hd. repeat split. intros k. cbn [pb_x set_x]. unfold corner_x. rewrite (corner_fold b ds Hn). destruct (existsb (Nat.eqb k) ds) eqn:E; [|lra].
  apply existsb_exists in E. destruct E as (x & Hx & E). apply Nat.eqb_eq in E. subst x. destruct (Hd k Hx) as [Hk Hp]. specialize (Hin k Hk Hp). unfold shift. unfold blo, bhi in *.
  destruct (Rlt_b _ _); [rewrite Rabs_left1 by lra|rewrite Rabs_right by lra]; lra.
Qed.
(** the sets of axes for which images are made *)
Definition corner_sets : list (list nat) :=
  (if (dim =? 2)%nat then [[0; 1]]%nat else []) ++ (if (dim =? 3)%nat then [[0; 1]; [0; 2]; [2; 1]; [0; 1; 2]]%nat else []).
Lemma corner_sets_ok ds : In ds corner_sets -> NoDup ds /\ (forall d, In d ds -> (d < dim)%nat) /\ ds <> [].
Proof.
  unfold corner_sets. destruct (Nat.eqb_spec dim 2) as [->|]; [|destruct (Nat.eqb_spec dim 3) as [->|]]; cbn; intros H; repeat destruct H as [<-|H]; try contradiction;
    (split; [repeat constructor; cbn; lia|split; [cbn; lia|discriminate]]).
Qed.
Lemma in_images b i : In i (images b) <-> (exists d, (d < dim)%nat /\ on_edge b d = true /\ i = axis_image len halo b d) \/
  (exists ds, In ds corner_sets /\ (forall d, In d ds -> on_edge b d = true) /\ i = set_x (set_wall b) (corner_x len halo b ds)).
Proof.
  unfold Boundary_model.images. rewrite in_app_iff, in_flat_map.
  assert (C : In i ((if (dim =? 2)%nat then add_corner len periodic halo b [0; 1]%nat else []) ++
    (if (dim =? 3)%nat then add_corner len periodic halo b [0; 1]%nat ++ add_corner len periodic halo b [0; 2]%nat ++ add_corner len periodic halo b [2; 1]%nat ++ add_corner len periodic halo b [0; 1; 2]%nat else [])) <->
    exists ds, In ds corner_sets /\ In i (add_corner len periodic halo b ds)).
  { unfold corner_sets. destruct (dim =? 2)%nat, (dim =? 3)%nat; cbn [app]; rewrite ?app_nil_r, ?in_app_iff; split.
    all: try (intros (ds & H & Hi); cbn [In] in H; repeat destruct H as [<-|H]; try contradiction; auto 8).
    all: intros H; repeat destruct H as [H|H]; try contradiction; eexists; (split; [|exact H]); cbn; auto 8. }
  rewrite C. clear C. split.
  - intros [(d & Hd & Hi)|(ds & Hds & Hi)].
    + left. apply in_seq in Hd. destruct (on_edge b d) eqn:E; [|destruct Hi]. destruct Hi as [<-|[]]. exists d. repeat split; auto; lia.
    + right. unfold add_corner in Hi. destruct (forallb _ _) eqn:E; [|destruct Hi]. destruct Hi as [<-|[]]. exists ds. split; [exact Hds|]. split; [|reflexivity].
      rewrite forallb_forall in E. exact E.
  - intros [(d & Hd & E & ->)|(ds & Hds & E & ->)].
    + left. exists d. split; [apply in_seq; lia|]. rewrite E. left. reflexivity.
    + right. exists ds. split; [exact Hds|]. unfold add_corner. rewrite (proj2 (forallb_forall _ _) E). left. reflexivity.
Qed.
Lemma on_edge_periodic b d : on_edge b d = true -> periodic d = true.
Proof. unfold Boundary_model.on_edge. intros H. apply andb_true_iff in H. tauto. Qed.

(** Every image is a copy displaced by one box length on one or more periodic axes
    on which the particle is within the layer of the face it leaves through. *)
Theorem C25_images_sound b i : inside b -> (forall d, (d < dim)%nat -> periodic d = true -> 0 < len d) -> In i (images b) ->
  pb_wall i = true /\ pb_rest i = pb_rest b /\
  exists s : nat -> R, (forall k, pb_x i k = pb_x b k + s k) /\ (exists d, (d < dim)%nat /\ s d <> 0) /\
    forall d, s d = 0 \/ (d < dim)%nat /\ periodic d = true /\
      (s d = - len d /\ hi d < pb_x b d + halo \/ s d = len d /\ pb_x b d - halo <= lo d).
Proof.
  intros Hin Hlen Hi. apply in_images in Hi.
  assert (G : exists ds, ds <> [] /\ (forall d, In d ds -> (d < dim)%nat /\ on_edge b d = true) /\ img_at b i ds).
  { destruct Hi as [(d & Hd & E & ->)|(ds & Hds & E & ->)].
    - exists [d]. split; [discriminate|]. split; [intros x [<-|[]]; auto|apply axis_img].
    - destruct (corner_sets_ok ds Hds) as (H1 & H2 & H3). exists ds. split; [exact H3|]. split; [auto|]. apply corner_img; auto. intros d Hd. split; [auto|]. eapply on_edge_periodic. apply E. exact Hd. }
  destruct G as (ds & Hne & Hds & (W & _ & R & X)). split; [exact W|]. split; [exact R|].
  exists (fun k => if existsb (Nat.eqb k) ds then shift b k else 0). split; [exact X|]. split.
  - destruct ds as [|d0 l]; [contradiction|]. exists d0. cbn. rewrite Nat.eqb_refl. cbn. destruct (Hds d0 (or_introl eq_refl)) as [Hd Ho].
    split; [exact Hd|]. specialize (Hlen d0 Hd (on_edge_periodic _ _ Ho)). unfold shift. destruct (Rlt_b _ _); lra.
  - intros d. destruct (existsb (Nat.eqb d) ds) eqn:E; [|left; reflexivity]. apply existsb_exists in E. destruct E as (x & Hx & E). apply Nat.eqb_eq in E. subst x.
    destruct (Hds d Hx) as [Hd Ho]. right. split; [exact Hd|]. split; [eapply on_edge_periodic; exact Ho|]. unfold shift. destruct (Rlt_b _ _) eqn:Q; [left; split; [reflexivity|apply Rlt_b_true; exact Q]|].
    right. split; [reflexivity|]. unfold Boundary_model.on_edge in Ho. rewrite Q in Ho. apply andb_true_iff in Ho. apply Rle_b_true. apply Ho.
Qed.
(** A particle away from all periodic faces has no image. *)
Theorem C25_no_image b : (forall d, (d < dim)%nat -> periodic d = true -> lo d + halo < pb_x b d <= hi d - halo) -> images b = [].
Proof.
  intros H. destruct (images b) as [|i l] eqn:E; [reflexivity|]. exfalso. assert (Hi : In i (images b)) by (rewrite E; left; reflexivity). apply in_images in Hi.
  assert (G : exists d, (d < dim)%nat /\ on_edge b d = true).
  { destruct Hi as [(d & Hd & Eo & _)|(ds & Hds & Eo & _)]; [exists d; auto|]. destruct (corner_sets_ok ds Hds) as (_ & H2 & H3). destruct ds as [|d l']; [contradiction|].
    exists d. split; [apply H2; left; reflexivity|apply Eo; left; reflexivity]. }
  destruct G as (d & Hd & Eo). pose proof (on_edge_periodic b d Eo) as Hp. specialize (H d Hd Hp). unfold Boundary_model.on_edge in Eo. rewrite Hp in Eo. cbn [andb] in Eo.
  apply orb_true_iff in Eo. destruct Eo as [Q|Q]; [apply Rlt_b_true in Q|apply Rle_b_true in Q]; lra.
Qed.

(** Neighbours: in up to three dimensions, when the layer is at most half the box,
    every copy of a particle of the box, displaced by box lengths on periodic axes,
    that comes closer than the layer width (on every axis) to a particle of the box
    is among its images. *)
Theorem C25_images_complete b (y s : nat -> R) : (1 <= dim <= 3)%nat -> inside b ->
  (forall d, (d < dim)%nat -> periodic d = true -> 0 < len d /\ 2 * halo <= len d /\ lo d < y d <= hi d) ->
  (forall d, (d < dim)%nat -> s d = 0 \/ periodic d = true /\ (s d = len d \/ s d = - len d)) ->
  (exists d, (d < dim)%nat /\ s d <> 0) ->
  (forall d, (d < dim)%nat -> Rabs (pb_x b d + s d - y d) < halo) ->
  exists i, In i (images b) /\ pb_wall i = true /\ pb_rest i = pb_rest b /\ forall d, (d < dim)%nat -> pb_x i d = pb_x b d + s d.
Proof.
  intros Hdim Hin Hbox Hs (d0 & Hd0 & Hs0) Hnear.
  assert (Edge : forall d, (d < dim)%nat -> s d <> 0 -> on_edge b d = true /\ shift b d = s d).
  { intros d Hd Hne. destruct (Hs d Hd) as [|[Hp Hv]]; [contradiction|]. destruct (Hbox d Hd Hp) as (L1 & L2 & L3). specialize (Hnear d Hd). apply Rabs_def2 in Hnear. specialize (Hin d Hd Hp).
    unfold Boundary_model.on_edge, shift. rewrite Hp. cbn [andb]. unfold blo, bhi in *. destruct (Rlt_b _ _) eqn:Q; [apply Rlt_b_true in Q|apply Rlt_b_false in Q].
    - split; [reflexivity|]. destruct Hv; lra.
    - cbn [orb]. split; [apply Rle_b_true; destruct Hv; lra|]. destruct Hv; lra. }
  (* the axes on which it is displaced *)
  set (nz := fun d => if Req_EM_T (s d) 0 then false else true).
  assert (NZ : forall d, nz d = true <-> s d <> 0) by (intros d; unfold nz; destruct (Req_EM_T (s d) 0); split; intros; auto; discriminate || contradiction).
  assert (K : forall i ds, img_at b i ds -> (forall d, (d < dim)%nat -> existsb (Nat.eqb d) ds = nz d) -> In i (images b) ->
    exists i, In i (images b) /\ pb_wall i = true /\ pb_rest i = pb_rest b /\ forall d, (d < dim)%nat -> pb_x i d = pb_x b d + s d).
  { intros i ds (W & _ & R & X) Eds Hi. exists i. split; [exact Hi|]. split; [exact W|]. split; [exact R|]. intros d Hd. rewrite X, (Eds d Hd).
    destruct (nz d) eqn:Q; [rewrite (proj2 (Edge d Hd (proj1 (NZ d) Q))); reflexivity|]. destruct (Req_dec (s d) 0) as [->|Hne]; [lra|]. apply NZ in Hne. congruence. }
  assert (K1 : forall d, (d < dim)%nat -> nz d = true -> (forall k, (k < dim)%nat -> k <> d -> nz k = false) ->
    exists i, In i (images b) /\ pb_wall i = true /\ pb_rest i = pb_rest b /\ forall d, (d < dim)%nat -> pb_x i d = pb_x b d + s d).
  { intros d Hd Hn Ho. apply (K (axis_image len halo b d) [d]); [apply axis_img| |].
    - intros k Hk. cbn. rewrite orb_false_r. destruct (Nat.eqb_spec k d) as [->|Hkd]; symmetry; auto.
    - apply in_images. left. exists d. split; [exact Hd|]. split; [apply Edge; [exact Hd|apply NZ; exact Hn]|reflexivity]. }
  assert (K2 : forall ds, In ds corner_sets -> (forall d, (d < dim)%nat -> existsb (Nat.eqb d) ds = nz d) ->
    exists i, In i (images b) /\ pb_wall i = true /\ pb_rest i = pb_rest b /\ forall d, (d < dim)%nat -> pb_x i d = pb_x b d + s d).
  { intros ds Hds E. destruct (corner_sets_ok ds Hds) as (H1 & H2 & H3).
    assert (Ho : forall d, In d ds -> on_edge b d = true).
    { intros d Hd. apply Edge; [apply H2; exact Hd|]. apply NZ. rewrite <- E by (apply H2; exact Hd). apply existsb_exists. exists d. split; [exact Hd|apply Nat.eqb_refl]. }
    apply (K (set_x (set_wall b) (corner_x len halo b ds)) ds).
    - apply corner_img; auto. intros d Hd. split; [apply H2; exact Hd|]. eapply on_edge_periodic. apply Ho. exact Hd.
    - exact E.
    - apply in_images. right. exists ds. auto. }
  assert (N0 : nz d0 = true) by (apply NZ; exact Hs0).
  assert (D : dim = 1%nat \/ dim = 2%nat \/ dim = 3%nat) by lia. unfold corner_sets in K2. destruct D as [E|[E|E]]; rewrite E in *; cbn [Nat.eqb app] in K2.
  - apply (K1 d0); auto. intros; lia.
  - destruct (nz 0%nat) eqn:E0; [destruct (nz 1%nat) eqn:E1|].
    + apply (K2 [0; 1]%nat); [cbn; auto|]. intros [|[|d]] Hd; cbn; try (symmetry; assumption); lia.
    + apply (K1 0%nat); [lia|exact E0|]. intros [|[|k]] Hk Hne; auto; lia.
    + apply (K1 1%nat); [lia| |intros [|[|k]] Hk Hne; auto; lia]. destruct d0 as [|[|d0]]; [congruence|exact N0|lia].
  - destruct (nz 0%nat) eqn:E0, (nz 1%nat) eqn:E1, (nz 2%nat) eqn:E2.
    + apply (K2 [0; 1; 2]%nat); [cbn; auto|]. intros [|[|[|d]]] Hd; cbn; try (symmetry; assumption); lia.
    + apply (K2 [0; 1]%nat); [cbn; auto|]. intros [|[|[|d]]] Hd; cbn; try (symmetry; assumption); lia.
    + apply (K2 [0; 2]%nat); [cbn; auto|]. intros [|[|[|d]]] Hd; cbn; try (symmetry; assumption); lia.
    + apply (K1 0%nat); [lia|exact E0|]. intros [|[|[|k]]] Hk Hne; auto; lia.
    + apply (K2 [2; 1]%nat); [cbn; auto|]. intros [|[|[|d]]] Hd; cbn; try (symmetry; assumption); lia.
    + apply (K1 1%nat); [lia|exact E1|]. intros [|[|[|k]]] Hk Hne; auto; lia.
    + apply (K1 2%nat); [lia|exact E2|]. intros [|[|[|k]]] Hk Hne; auto; lia.
    + destruct d0 as [|[|[|d0]]]; try congruence. lia.
Qed.
End Boundary.

(** With a wider layer an image is missing. *)
Theorem C25_wide_layer_refuted : exists b (y s : nat -> R) len halo, inside 1 len (fun _ => true) b /\
  0 < len 0%nat /\ halo < len 0%nat /\ blo len 0 < y 0%nat <= bhi len 0 /\ s 0%nat = len 0%nat /\ Rabs (pb_x b 0%nat + s 0%nat - y 0%nat) < halo /\
  ~ exists i, In i (images 1 len (fun _ => true) halo b) /\ pb_x i 0%nat = pb_x b 0%nat + s 0%nat.
Proof.
  exists (PBody (fun _ => 0) false 0 0), (fun _ => 1), (fun _ => 2), (fun _ => 2), (3/2). unfold blo, bhi. cbn [pb_x].
  split; [intros d _ _; unfold blo, bhi; cbn; lra|]. split; [lra|]. split; [lra|]. split; [lra|]. split; [reflexivity|]. split; [rewrite Rabs_right by lra; lra|].
  intros (i & Hi & Hx). cbn in Hi. unfold on_edge in Hi. cbn in Hi. unfold blo, bhi, Rlt_b in Hi. cbn in Hi.
  destruct (Rlt_dec (1 / 2 * 2) (0 + 3 / 2)) as [_|Q]; [|lra]. cbn in Hi. destruct Hi as [<-|[]]. cbn in Hx. unfold upd in Hx. cbn in Hx. unfold blo, bhi, Rlt_b in Hx. cbn in Hx.
  destruct (Rlt_dec (1 / 2 * 2) (0 + 3 / 2)) as [_|Q]; lra.
Qed.
(** The box corners are written past their end in one and two dimensions. *)
Theorem C25_box_write_refuted : exists dim d, (1 <= dim <= 3)%nat /\ In d (box_writes dim) /\ (dim <= d)%nat.
Proof. exists 2%nat, 2%nat. cbn. repeat split; try lia; auto. Qed.
Theorem C25_box_write_3d d : In d (box_writes 3) -> (d < 3)%nat.
Proof. cbn. lia. Qed.
(** From more than a box length outside a particle stays outside. *)
Theorem C25_far_refuted : exists b len, 0 < len 0%nat /\ bhi len 0 < pb_x (teleport 1 len (fun _ => true) b) 0%nat.
Proof.
  exists (PBody (fun _ => 5) false 0 0), (fun _ => 2). split; [lra|]. rewrite teleport_x. cbn [Nat.ltb Nat.leb]. rewrite teleport1_same. unfold blo, bhi. cbn [pb_x].
  unfold Rlt_b. destruct (Rlt_dec _ _); lra.
Qed.
Example C25_case : exists i, In i (images 2 (fun _ => 2) (fun _ => true) (1/2) (PBody (fun d => if (d =? 0)%nat then 9/10 else -9/10) false 7 42)) /\
  pb_x i 0%nat = 9/10 - 2 /\ pb_x i 1%nat = -9/10 + 2 /\ pb_rest i = 42%N.
Proof.
  destruct (C25_images_complete 2 (fun _ => 2) (fun _ => true) (1/2) (PBody (fun d => if (d =? 0)%nat then 9/10 else -9/10) false 7 42)
    (fun d => if (d =? 0)%nat then -9/10 else 9/10) (fun d => if (d =? 0)%nat then -2 else 2)) as (i & Hi & _ & R & X); [lia|..].
  - intros [|[|d]] Hd _; unfold blo, bhi; cbn; lra || lia.
  - intros [|[|d]] Hd _; unfold blo, bhi; cbn; lra || lia.
  - intros [|[|d]] Hd; cbn; [right; split; [reflexivity|right; lra]|right; split; [reflexivity|left; reflexivity]|lia].
  - exists 0%nat. cbn. split; [lia|lra].
  - intros [|[|d]] Hd; cbn; [apply Rabs_def1; lra|apply Rabs_def1; lra|lia].
  - exists i. split; [exact Hi|]. split; [rewrite (X 0%nat) by lia; cbn; lra|]. split; [rewrite (X 1%nat) by lia; cbn; lra|exact R].
Qed.

(** ** C26: cleaning *)
Section Clean.
Context (dim : nat) (len : nat -> R) (periodic : nat -> bool) (halo : R).
Lemma images_wall b i : In i (images dim len periodic halo b) -> pb_wall i = true.
Proof. intros H. apply in_images in H. destruct H as [(d & _ & _ & ->)|(ds & _ & _ & ->)]; reflexivity. Qed.
Lemma reindex_filter l : forall i, filter (fun b => negb (pb_wall b)) (reindex l i) = filter (fun b => negb (pb_wall b)) l.
Proof.
  induction l as [|b l IH]; intros i; [reflexivity|]. cbn [reindex]. destruct (pb_wall b) eqn:E; cbn; rewrite E; cbn; rewrite IH; reflexivity.
Qed.
Lemma filter_none {A} (p : A -> bool) l : (forall x, In x l -> p x = false) -> filter p l = [].
Proof. induction l as [|x l IH]; intros H; [reflexivity|]. cbn. rewrite H by (left; reflexivity). apply IH. intros; apply H; right; assumption. Qed.
Lemma filter_all {A} (p : A -> bool) l : (forall x, In x l -> p x = true) -> filter p l = l.
Proof. induction l as [|x l IH]; intros H; [reflexivity|]. cbn. rewrite H by (left; reflexivity). f_equal. apply IH. intros; apply H; right; assumption. Qed.
(** On every rank with particles none of which is a wall: the particles come back
    in order, as they were before the images were made. *)
Theorem C26_clean_generate ranks out k l : generate dim len periodic halo ranks = Some out -> nth_error ranks k = Some l ->
  l <> [] -> (forall b, In b l -> pb_wall b = false) ->
  exists o, nth_error out k = Some o /\ clean o = Some (map (teleport dim len periodic) l).
Proof.
  intros E Ek Hne Hw. unfold generate in E. cbv zeta in E. destruct (_ =? _)%Z; [|discriminate]. injection E as <-.
  revert k Ek. generalize (n_original ranks). induction ranks as [|r ranks IH]; intros z k Ek; [destruct k; discriminate|]. cbn [reindex_all]. destruct k as [|k]; cbn [nth_error] in *; [|apply IH; exact Ek].
  injection Ek as ->. eexists. split; [reflexivity|]. unfold clean. rewrite reindex_filter. unfold with_images. cbv zeta. rewrite filter_app.
  rewrite (filter_all _ (map _ l)), (filter_none _ (flat_map _ _)).
  - rewrite app_nil_r. destruct l; [contradiction|reflexivity].
  - intros i Hi. apply in_flat_map in Hi. destruct Hi as (b & _ & Hi). apply images_wall in Hi. rewrite Hi. reflexivity.
  - intros b Hb. apply in_map_iff in Hb. destruct Hb as (c & <- & Hc). destruct (teleport_rest dim len periodic c) as (-> & _). rewrite (Hw c Hc). reflexivity.
Qed.
(** Whatever happened to the array since, cleaning removes the walls and nothing
    else, and keeps the order. *)
Theorem C26_clean_keeps l o : clean l = Some o ->
  (forall b, In b o <-> In b l /\ pb_wall b = false) /\ exists w, Permutation l (o ++ w) /\ (forall b, In b w -> pb_wall b = true).
Proof.
  unfold clean. intros E. assert (o = filter (fun b => negb (pb_wall b)) l) by (destruct (filter _ l); [discriminate|congruence]). subst o. split.
  - intros b. rewrite filter_In. rewrite negb_true_iff. tauto.
  - exists (filter pb_wall l). split; [|intros b Hb; apply filter_In in Hb; tauto]. clear E. induction l as [|b l IH]; [constructor|]. cbn. destruct (pb_wall b); cbn; [|constructor; exact IH].
    apply Permutation_cons_app. exact IH.
Qed.
End Clean.
(** A real wall particle is removed with the images; a rank left with images only
    fails the assertion. *)
Theorem C26_real_wall_refuted : exists l o, clean l = Some o /\ exists b, In b l /\ ~ In b o.
Proof.
  exists [PBody (fun _ => 0) false 0 0; PBody (fun _ => 1) true 1 0], [PBody (fun _ => 0) false 0 0]. split; [reflexivity|].
  exists (PBody (fun _ => 1) true 1 0). split; [right; left; reflexivity|]. intros [E|[]]. discriminate.
Qed.
Theorem C26_only_images_refuted : exists l, l <> [] /\ clean l = None.
Proof. exists [PBody (fun _ => 1) true 1 0]. split; [discriminate|reflexivity]. Qed.

(** ** C72: ids *)
Lemma seq_from n m : seq n m = map (fun k => (n + k)%nat) (seq 0 m).
Proof. revert n. induction m as [|m IH]; intros n; [reflexivity|]. cbn. f_equal; [lia|]. rewrite (IH (S n)), (IH 1%nat), map_map. apply map_ext. intros. lia. Qed.
Section Ids.
Context (dim : nat) (len : nat -> R) (periodic : nat -> bool) (halo : R).
Notation reindex_all := (reindex_all dim len periodic halo).
Notation n_images := (n_images dim len periodic halo).
Definition nwalls (l : list pbody) : Z := Z.of_nat (length (filter pb_wall l)).
(** ids of the walls of a rank after renumbering: consecutive from i *)
Lemma reindex_ids l : forall i, map pb_id (filter pb_wall (reindex l i)) = map (fun k => (i + Z.of_nat k)%Z) (seq 0 (length (filter pb_wall l))).
Proof.
  induction l as [|b l IH]; intros i; [reflexivity|]. cbn [reindex]. destruct (pb_wall b) eqn:E; cbn; rewrite E; [|apply IH]. cbn. rewrite IH. f_equal; [lia|].
  rewrite <- seq_shift, map_map. apply map_ext. intros k. lia.
Qed.
Lemma reindex_keep l i : forall b, In b (reindex l i) -> pb_wall b = false -> In b l.
Proof. revert i. induction l as [|c l IH]; intros i b H Hb; [destruct H|]. cbn [reindex] in H. destruct (pb_wall c) eqn:E; destruct H as [<-|H]; [cbn in Hb; congruence|right; eapply IH; eauto|left; reflexivity|right; eapply IH; eauto]. Qed.
Lemma with_images_walls l : (forall b, In b l -> pb_wall b = false) -> filter pb_wall (with_images dim len periodic halo l) = flat_map (images dim len periodic halo) (map (teleport dim len periodic) l).
Proof.
  intros H. unfold with_images. cbv zeta. rewrite filter_app. rewrite filter_none, filter_all; [reflexivity| |].
  - intros i Hi. apply in_flat_map in Hi. destruct Hi as (b & _ & Hi). apply images_wall in Hi. exact Hi.
  - intros b Hb. apply in_map_iff in Hb. destruct Hb as (c & <- & Hc). destruct (teleport_rest dim len periodic c) as (-> & _). apply H. exact Hc.
Qed.
(** The images of all ranks get the ids from the number of particles upwards, each
    once. *)
Theorem C72_image_ids ranks out : (forall l b, In l ranks -> In b l -> pb_wall b = false) -> generate dim len periodic halo ranks = Some out ->
  map pb_id (filter pb_wall (concat out)) = map (fun k => (n_original ranks + Z.of_nat k)%Z) (seq 0 (Z.to_nat (n_images ranks))).
Proof.
  intros Hw E. unfold generate in E. cbv zeta in E. destruct (_ =? _)%Z; [|discriminate]. injection E as <-. generalize (n_original ranks). revert Hw.
  induction ranks as [|l ranks IH]; intros Hw z; [reflexivity|]. cbn [Boundary_model.reindex_all concat Boundary_model.n_images fold_right]. rewrite filter_app, map_app, reindex_ids, with_images_walls by (intros; eapply Hw; [left; reflexivity|assumption]).
  rewrite IH by (intros; eapply Hw; [right; eassumption|assumption]). set (n := length (flat_map _ _)).
  change (fold_right (fun l s => (Z.of_nat (length (flat_map (images dim len periodic halo) (map (teleport dim len periodic) l))) + s)%Z) 0%Z ranks) with (n_images ranks).
  assert (P : (0 <= n_images ranks)%Z). { clear. induction ranks as [|l r IH]; cbn; [lia|]. unfold Boundary_model.n_images in *. lia. }
  replace (Z.to_nat (Z.of_nat n + n_images ranks)) with (n + Z.to_nat (n_images ranks))%nat by lia. rewrite seq_app, map_app. f_equal. cbn [Nat.add].
  rewrite (seq_from n). rewrite map_map. apply map_ext. intros k. lia.
Qed.
Lemma idsum_app a b : idsum (a ++ b) = (idsum a + idsum b)%Z.
Proof. induction a as [|x a IH]; cbn; [lia|]. rewrite IH. lia. Qed.
Lemma idsum_nowall l i : (forall b, In b l -> pb_wall b = false) -> forall r, reindex (l ++ r) i = l ++ reindex r i.
Proof. induction l as [|b l IH]; intros H r; [reflexivity|]. cbn. rewrite H by (left; reflexivity). f_equal. apply IH. intros; apply H; right; assumption. Qed.
Lemma idsum_walls l : (forall b, In b l -> pb_wall b = true) -> forall i, (2 * idsum (reindex l i) = Z.of_nat (length l) * (2 * i + Z.of_nat (length l) - 1))%Z.
Proof. induction l as [|b l IH]; intros H i; [cbn; lia|]. cbn [reindex]. rewrite H by (left; reflexivity). cbn [idsum length pb_id set_id]. rewrite Z.mul_add_distr_l, IH by (intros; apply H; right; assumption). nia. Qed.
Lemma idsum_teleport l : idsum (map (teleport dim len periodic) l) = idsum l.
Proof. induction l as [|b l IH]; [reflexivity|]. cbn. rewrite IH. destruct (teleport_rest dim len periodic b) as (_ & -> & _). reflexivity. Qed.
Fixpoint idsums (ranks : list (list pbody)) : Z := match ranks with [] => 0%Z | l :: r => (idsum l + idsums r)%Z end.
Lemma idsum_all ranks : (forall l b, In l ranks -> In b l -> pb_wall b = false) -> forall i,
  (2 * fold_right (fun l s => (idsum l + s)%Z) 0%Z (reindex_all ranks i) = 2 * idsums ranks + n_images ranks * (2 * i + n_images ranks - 1))%Z.
Proof.
  induction ranks as [|l ranks IH]; intros Hw i; [reflexivity|]. cbn [Boundary_model.reindex_all fold_right idsums]. rewrite Z.mul_add_distr_l, IH by (intros; eapply Hw; [right; eassumption|assumption]).
  unfold with_images. cbv zeta. rewrite idsum_nowall, idsum_app, Z.mul_add_distr_l, idsum_walls, idsum_teleport.
  - cbn [Boundary_model.n_images fold_right]. fold (n_images ranks). change (fold_right (fun l s => (Z.of_nat (length (flat_map (images dim len periodic halo) (map (teleport dim len periodic) l))) + s)%Z) 0%Z ranks) with (n_images ranks). nia.
  - intros i' Hi. apply in_flat_map in Hi. destruct Hi as (b & _ & Hi). apply images_wall in Hi. exact Hi.
  - intros b Hb. apply in_map_iff in Hb. destruct Hb as (c & <- & Hc). destruct (teleport_rest dim len periodic c) as (-> & _). eapply Hw; [left; reflexivity|exact Hc].
Qed.
Lemma gauss_half a n : (2 * a = n * (n - 1) -> n * (n - 1) / 2 = a)%Z.
Proof. intros <-. rewrite Z.mul_comm. apply Z.div_mul. lia. Qed.
Lemma gauss_even n : exists a, (2 * a = n * (n - 1))%Z.
Proof. destruct (Z.Even_or_Odd n) as [[k ->]|[k ->]]; [exists (k * (2 * k - 1))%Z|exists ((2 * k + 1) * k)%Z]; lia. Qed.
(** Without real walls, the final assertion holds exactly when the ids of the
    particles add up to 0 + 1 + ... + (n-1). *)
Theorem C72_assertion ranks : (forall l b, In l ranks -> In b l -> pb_wall b = false) ->
  ((exists out, generate dim len periodic halo ranks = Some out) <-> (2 * idsums ranks = n_original ranks * (n_original ranks - 1))%Z).
Proof.
  intros Hw. unfold generate. cbv zeta. pose proof (idsum_all ranks Hw (n_original ranks)) as E. set (X := fold_right _ _ (reindex_all _ _)) in *. set (n := n_original ranks) in *. set (m := n_images ranks) in *.
  destruct (gauss_even (n + m)) as [a Ha]. rewrite (Z.mul_comm (n + m - 1)), (gauss_half a (n + m) Ha). destruct (Z.eqb_spec X a) as [->|Hne].
  - split; [intros _; nia|intros _; eexists; reflexivity].
  - split; [intros [o Ho]; discriminate|]. intros H. exfalso. apply Hne. nia.
Qed.
End Ids.
(** Ids that start at 1, as io.h L377-382 hands them out, fail it. *)
Theorem C72_ids_from_one_refuted : exists dim len periodic halo ranks, (exists l, ranks = [l] /\ map pb_id l = [1; 2]%Z) /\
  (forall l b, In l ranks -> In b l -> pb_wall b = false) /\ generate dim len periodic halo ranks = None.
Proof.
  exists 1%nat, (fun _ => 1), (fun _ => true), (1/4), [[PBody (fun _ => 0) false 1 0; PBody (fun _ => 1/8) false 2 0]].
  assert (W : forall l b, In l [[PBody (fun _ => 0) false 1 0; PBody (fun _ => 1/8) false 2 0]] -> In b l -> pb_wall b = false).
  { intros l b [<-|[]] [<-|[<-|[]]]; reflexivity. }
  split; [eexists; split; reflexivity|]. split; [exact W|]. destruct (generate _ _ _ _ _) as [o|] eqn:E; [|reflexivity]. exfalso.
  pose proof (proj1 (C72_assertion 1 (fun _ => 1) (fun _ => true) (1/4) _ W) (ex_intro _ o E)) as Q. cbn in Q. lia.
Qed.
Example C72_case : exists out, generate 1 (fun _ => 1) (fun _ => true) (1/4) [[PBody (fun _ => 0) false 1 0]; [PBody (fun _ => 1/2) false 0 0]] = Some out.
Proof. apply C72_assertion; [|reflexivity]. intros l b [<-|[<-|[]]] [<-|[]]; reflexivity. Qed.
Print Assumptions C25_images_complete.
Print Assumptions C26_clean_generate.
Print Assumptions C72_image_ids.
