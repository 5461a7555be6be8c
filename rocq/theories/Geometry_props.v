(** Property C57: the geometric predicates decide intersection of the sets they
    are named after. *)
From Verif Require Import Base Vec Geometry_model.
Local Open Scope R_scope.

Lemma Rleb_true x y : Rleb x y = true <-> x <= y.
Proof. unfold Rleb. destruct (Rle_dec x y); split; intros; auto; discriminate. Qed.
Lemma Rltb_true x y : Rltb x y = true <-> x < y.
Proof. unfold Rltb. destruct (Rlt_dec x y); split; intros; auto; discriminate. Qed.
Lemma Rleb_false x y : Rleb x y = false <-> y < x.
Proof. unfold Rleb. destruct (Rle_dec x y); split; intros; auto; try discriminate; lra. Qed.
Lemma Rltb_false x y : Rltb x y = false <-> y <= x.
Proof. unfold Rltb. destruct (Rlt_dec x y); split; intros; auto; try discriminate; lra. Qed.
Lemma in_coords n i : In i (coords n) <-> (i < n)%nat.
Proof. unfold coords. rewrite in_seq. lia. Qed.
Lemma tol_pos : 0 < tol.
Proof. unfold tol. apply Rdiv_lt_0_compat; [lra|]. apply pow_lt. lra. Qed.

(** The sets. *)
Definition ball (n : nat) (c : point) (r : R) (x : point) : Prop := dist n x c <= r.
Definition box (n : nat) (mn mx x : point) : Prop := forall i, (i < n)%nat -> mn i <= x i <= mx i.

Lemma existsb_false {A} (f : A -> bool) l : existsb f l = false <-> forall x, In x l -> f x = false.
Proof.
  split.
  - intros H x Hx. destruct (f x) eqn:E; [|reflexivity]. rewrite <- H. symmetry. apply existsb_exists. eauto.
  - intros H. destruct (existsb f l) eqn:E; [|reflexivity]. apply existsb_exists in E. destruct E as (x & Hx & E).
    rewrite H in E by assumption. discriminate.
Qed.

Lemma box_box_true n mn1 mx1 mn2 mx2 : intersects_box_box n mn1 mx1 mn2 mx2 = true <->
  forall i, (i < n)%nat -> mn2 i <= mx1 i /\ mn1 i <= mx2 i.
Proof.
  unfold intersects_box_box. rewrite negb_true_iff, orb_false_iff, !existsb_false. split.
  - intros [H1 H2] i Hi. specialize (H1 i (proj2 (in_coords n i) Hi)). specialize (H2 i (proj2 (in_coords n i) Hi)).
    apply Rltb_false in H1. apply Rltb_false in H2. auto.
  - intros H. split; intros i Hi; apply Rltb_false; apply H, in_coords, Hi.
Qed.

(** Two boxes: exact in every dimension. *)
Theorem C57_box_box n mn1 mx1 mn2 mx2 :
  (forall i, (i < n)%nat -> mn1 i <= mx1 i) -> (forall i, (i < n)%nat -> mn2 i <= mx2 i) ->
  (intersects_box_box n mn1 mx1 mn2 mx2 = true <-> exists x, box n mn1 mx1 x /\ box n mn2 mx2 x).
Proof.
  intros H1 H2. rewrite box_box_true. split.
  - intros H. exists (fun i => Rmax (mn1 i) (mn2 i)). split; intros i Hi; specialize (H i Hi); specialize (H1 i Hi);
      specialize (H2 i Hi); unfold Rmax; destruct (Rle_dec (mn1 i) (mn2 i)); lra.
  - intros (x & Hx1 & Hx2) i Hi. specialize (Hx1 i Hi). specialize (Hx2 i Hi). lra.
Qed.

(** Distance test and search sphere. *)
Theorem C57_within_distance2 n p c r : 0 <= r -> (within_distance2 n p c r = true <-> ball n c r p).
Proof. intros Hr. unfold within_distance2, ball. rewrite Rleb_true. symmetry. apply dist_le_iff. assumption. Qed.

(** within() takes the ball widened by the tolerance. *)
Theorem C57_within n p c r : within n p c r = true <-> ball n c (r + tol) p.
Proof. unfold within, ball. rewrite Rleb_true. lra. Qed.

Theorem C57_within_square n p c r1 r2 :
  within_square n p c r1 r2 = true <-> ball n c r1 p \/ ball n c r2 p.
Proof.
  unfold within_square, ball. rewrite Rleb_true. unfold Rmax. destruct (Rle_dec r1 r2); lra.
Qed.

(** Point in box: closed in one dimension; in two and three dimensions the lower
    faces do not belong to the box. *)
Theorem C57_within_box n mn mx p : n = 1%nat \/ n = 2%nat \/ n = 3%nat ->
  (within_box n mn mx p = true <->
   forall i, (i < n)%nat -> p i <= mx i /\ (mn i < p i \/ (n = 1%nat /\ mn i = p i))).
Proof.
  assert (G : forall m, (1 < m)%nat -> (forallb (fun i => Rleb (p i) (mx i) && Rltb (mn i) (p i)) (coords m) = true <->
    forall i, (i < m)%nat -> p i <= mx i /\ (mn i < p i \/ (m = 1%nat /\ mn i = p i)))).
  { intros m Hm. rewrite forallb_forall. split.
    - intros H i Hi. specialize (H i (proj2 (in_coords m i) Hi)). apply andb_true_iff in H. destruct H as [H1 H2].
      apply Rleb_true in H1. apply Rltb_true in H2. auto.
    - intros H i Hi. apply in_coords in Hi. destruct (H i Hi) as [H1 [H2|[H2 _]]]; [|lia].
      rewrite (proj2 (Rleb_true _ _) H1), (proj2 (Rltb_true _ _) H2). reflexivity. }
  intros [->|[->| ->]].
  - unfold within_box. rewrite andb_true_iff, !Rleb_true. split.
    + intros [H1 H2] i Hi. assert (i = 0%nat) by lia. subst i. split; [assumption|]. destruct H2; auto.
    + intros H. destruct (H 0%nat ltac:(lia)) as [H1 [H2|[_ H2]]]; lra.
  - apply G. lia.
  - apply G. lia.
Qed.

(** Two spheres: exact in three dimensions; in one and two dimensions the test
    accepts a gap up to the tolerance and nothing more. *)
Lemma scale_sqrt t x : 0 <= t -> sqrt (t * t * x) = t * sqrt x.
Proof.
  intros Ht. rewrite sqrt_mult_alt by nra. rewrite sqrt_square by assumption. reflexivity.
Qed.
Lemma balls_meet n c1 r1 c2 r2 : 0 <= r1 -> 0 <= r2 ->
  ((exists x, ball n c1 r1 x /\ ball n c2 r2 x) <-> dist n c1 c2 <= r1 + r2).
Proof.
  intros Hr1 Hr2. unfold ball. split.
  - intros (x & H1 & H2). pose proof (dist_triangle n c1 x c2). rewrite (dist_sym n c1 x) in H. lra.
  - intros H. destruct (Req_dec (r1 + r2) 0) as [E|E].
    + assert (r1 = 0) by lra. assert (r2 = 0) by lra. subst. exists c1. rewrite dist_self. split; [lra|].
      pose proof (dist_nonneg n c1 c2). lra.
    + set (t := r1 / (r1 + r2)). assert (Ht : 0 <= t <= 1).
      { unfold t. split; [apply Rmult_le_pos; [lra|apply Rlt_le, Rinv_0_lt_compat; lra]|].
        apply (Rmult_le_reg_r (r1 + r2)); [lra|]. replace (r1 / (r1 + r2) * (r1 + r2)) with r1 by (field; assumption). lra. }
      assert (E1 : t * (r1 + r2) = r1) by (unfold t; field; assumption).
      exists (fun i => c1 i + t * (c2 i - c1 i)).
      assert (D1 : dist n (fun i => c1 i + t * (c2 i - c1 i)) c1 = t * dist n c1 c2).
      { unfold dist. rewrite <- (scale_sqrt t) by lra. f_equal. unfold dist2.
        rewrite <- sumn_scal. apply sumn_ext. intros. ring. }
      assert (D2 : dist n (fun i => c1 i + t * (c2 i - c1 i)) c2 = (1 - t) * dist n c1 c2).
      { unfold dist. rewrite <- (scale_sqrt (1 - t)) by lra. f_equal. unfold dist2.
        rewrite <- sumn_scal. apply sumn_ext. intros. ring. }
      rewrite D1, D2. pose proof (dist_nonneg n c1 c2). split; nra.
Qed.

Theorem C57_sphere_sphere n c1 r1 c2 r2 : 0 <= r1 -> 0 <= r2 -> n = 1%nat \/ n = 2%nat \/ n = 3%nat ->
  let meet r := exists x, ball n c1 r1 x /\ ball n c2 r x in
  (meet r2 -> intersects_sphere_sphere n c1 r1 c2 r2 = true) /\
  (intersects_sphere_sphere n c1 r1 c2 r2 = true -> meet (r2 + tol)) /\
  (n = 3%nat -> intersects_sphere_sphere n c1 r1 c2 r2 = true -> meet r2).
Proof.
  intros Hr1 Hr2 Hn meet. pose proof tol_pos as Ht.
  assert (G : forall r, 0 <= r -> (meet r <-> dist n c1 c2 <= r1 + r)) by (intros; apply balls_meet; assumption).
  rewrite (G r2 Hr2), (G (r2 + tol)) by lra.
  destruct Hn as [->|[->| ->]]; cbn [intersects_sphere_sphere];
    rewrite Rleb_true; repeat split; intros; try lra; try lia.
  - rewrite dist2_sym. apply dist_le_iff; lra.
  - rewrite dist2_sym in H. apply (dist_le_iff 3 c1 c2 (r1 + r2)) in H; lra.
  - rewrite dist2_sym in H0. apply (dist_le_iff 3 c1 c2 (r1 + r2)) in H0; lra.
Qed.

(** Sphere and box. *)
Lemma closest3_eq mn mx c i : mn i <= mx i -> closest3 mn mx c i = closest mn mx c i.
Proof.
  intros H. unfold closest3, closest, Rltb, Rmax, Rmin.
  destruct (Rlt_dec (c i) (mx i)), (Rle_dec (c i) (mx i)); try lra;
    match goal with |- context [Rlt_dec ?a ?b] => destruct (Rlt_dec a b) end;
    match goal with |- context [Rle_dec ?a ?b] => destruct (Rle_dec a b) end; lra.
Qed.
Lemma closest_in n mn mx c : (forall i, (i < n)%nat -> mn i <= mx i) -> box n mn mx (closest mn mx c).
Proof.
  intros H i Hi. specialize (H i Hi). unfold closest, Rmax, Rmin.
  destruct (Rle_dec (c i) (mx i)); destruct (Rle_dec _ _); lra.
Qed.
Lemma closest_best n mn mx c x : box n mn mx x -> dist n (closest mn mx c) c <= dist n x c.
Proof.
  intros Hx. unfold dist. apply sqrt_le_1_alt. unfold dist2. apply sumn_le. intros i Hi. specialize (Hx i Hi).
  cbv beta. unfold closest, Rmax, Rmin. destruct (Rle_dec (c i) (mx i)); destruct (Rle_dec _ _).
  - replace (c i - c i) with 0 by ring. pose proof (Rle_0_sqr (x i - c i)). unfold Rsqr in *. lra.
  - assert (0 <= mn i - c i <= x i - c i) by lra. nra.
  - assert (0 <= c i - mx i <= c i - x i) by lra. nra.
  - lra.
Qed.

Theorem C57_sphere_box n mn mx c r : 0 <= r -> n = 1%nat \/ n = 2%nat \/ n = 3%nat ->
  (forall i, (i < n)%nat -> mn i <= mx i) ->
  let meet r := exists x, ball n c r x /\ box n mn mx x in
  (meet r -> intersects_sphere_box n mn mx c r = true) /\
  (intersects_sphere_box n mn mx c r = true -> meet (r + tol)) /\
  (n = 3%nat -> intersects_sphere_box n mn mx c r = true -> meet r).
Proof.
  intros Hr Hn Hb meet. pose proof tol_pos as Ht.
  assert (G : forall r, meet r <-> dist n (closest mn mx c) c <= r).
  { intros r'. unfold meet, ball. split.
    - intros (x & H1 & H2). eapply Rle_trans; [apply closest_best|]; eauto.
    - intros H. exists (closest mn mx c). split; [assumption|apply closest_in; assumption]. }
  rewrite (G r), (G (r + tol)).
  destruct Hn as [->|[->| ->]]; cbn [intersects_sphere_box]; rewrite Rleb_true; repeat split; intros; try lra; try lia;
    assert (E : dist2 3 (closest3 mn mx c) c = dist2 3 (closest mn mx c) c)
      by (unfold dist2; apply sumn_ext; intros i Hi; rewrite closest3_eq by auto; reflexivity);
    rewrite E in *.
  - apply dist_le_iff; assumption.
  - apply dist_le_iff in H; lra.
  - apply dist_le_iff in H0; lra.
Qed.

(** The acceptance test of a multipole with positive angle: strictly separated. *)
Theorem C57_mac n s rs t rt a : 0 <= rs -> 0 <= rt -> 0 < a <= 1 ->
  mac n s rs t rt a = true -> ~ exists x, ball n s rs x /\ ball n t rt x.
Proof.
  intros Hs Ht Ha. unfold mac. rewrite Rltb_true, balls_meet by assumption. intros H H'.
  pose proof (dist_nonneg n s t). nra.
Qed.

(** In one and two dimensions the tests are not exact: disjoint sets are
    reported as meeting. *)
Theorem C57_sphere_sphere_refuted : exists n c1 r1 c2 r2, 0 <= r1 /\ 0 <= r2 /\
  intersects_sphere_sphere n c1 r1 c2 r2 = true /\ ~ exists x, ball n c1 r1 x /\ ball n c2 r2 x.
Proof.
  pose proof tol_pos as Ht.
  exists 1%nat, (fun _ => 0), 0, (fun _ => tol), 0. split; [lra|]. split; [lra|].
  assert (E : dist 1 (fun _ => 0) (fun _ => tol) = tol).
  { rewrite dist_1. rewrite Rabs_left by lra. lra. }
  split.
  - cbn [intersects_sphere_sphere]. rewrite Rleb_true, E. lra.
  - rewrite balls_meet by lra. rewrite E. lra.
Qed.

Theorem C57_sphere_box_refuted : exists n mn mx c r, 0 <= r /\ (forall i, (i < n)%nat -> mn i <= mx i) /\
  intersects_sphere_box n mn mx c r = true /\ ~ exists x, ball n c r x /\ box n mn mx x.
Proof.
  pose proof tol_pos as Ht.
  exists 1%nat, (fun _ => -1), (fun _ => 0), (fun _ => tol), 0. split; [lra|]. split; [intros; lra|].
  assert (E : forall x, x <= 0 -> dist 1 (fun _ => x) (fun _ => tol) = tol - x).
  { intros x Hx. rewrite dist_1. rewrite Rabs_left by lra. lra. }
  split.
  - cbn [intersects_sphere_box]. rewrite Rleb_true.
    replace (closest (fun _ => -1) (fun _ => 0) (fun _ => tol)) with (fun _ : nat => 0).
    + rewrite E; lra.
    + unfold closest, Rmax, Rmin. destruct (Rle_dec tol 0); [lra|]. destruct (Rle_dec (-1) 0); [reflexivity|lra].
  - intros (x & H1 & H2). specialize (H2 0%nat ltac:(lia)). unfold ball in H1.
    rewrite dist_1 in H1. rewrite Rabs_left in H1; lra.
Qed.

(** Two and three dimensions: the corner of a box is not in the box. *)
Theorem C57_within_box_refuted : exists n mn mx p, (forall i, (i < n)%nat -> mn i < mx i) /\
  box n mn mx p /\ within_box n mn mx p = false.
Proof.
  exists 2%nat, (fun _ => 0), (fun _ => 1), (fun _ => 0). split; [intros; lra|]. split; [intros i Hi; lra|].
  destruct (within_box 2 _ _ _) eqn:E; [|reflexivity]. exfalso.
  pose proof (proj1 (C57_within_box 2 (fun _ => 0) (fun _ => 1) (fun _ => 0) ltac:(auto)) E) as E'.
  destruct (E' 0%nat ltac:(lia)) as [_ [H|[H _]]]; [lra|discriminate].
Qed.

(** A concrete case: unit sphere at the origin and the box [1,2]^3 shifted to
    touch it. *)
Example C57_case : intersects_sphere_box 3 (fun i => match i with O => 1 | _ => -1 end)
  (fun i => match i with O => 2 | _ => 1 end) (fun _ => 0) 1 = true.
Proof.
  apply C57_sphere_box; [lra|right; right; reflexivity| |].
  - intros [|i] _; lra.
  - exists (fun i => match i with O => 1 | _ => 0 end). split.
    + unfold ball. apply dist_le_iff; [lra|]. unfold dist2. cbn. lra.
    + intros [|[|i]] Hi; lra.
Qed.

Print Assumptions C57_box_box.
Print Assumptions C57_within_distance2.
Print Assumptions C57_within_square.
Print Assumptions C57_within_box.
Print Assumptions C57_sphere_sphere.
Print Assumptions C57_sphere_box.
Print Assumptions C57_mac.
Print Assumptions C57_sphere_sphere_refuted.
Print Assumptions C57_sphere_box_refuted.
Print Assumptions C57_within_box_refuted.
