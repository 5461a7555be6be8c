(** C69: error of the accelerations of the gravity traversal. *)
From Coq Require Import Sorted Permutation.
From Verif Require Import Base Key_model Key_spec HCell_model BuildTree_model BuildTree_spec Vec Geometry_model Cofm_model
  Gravity_model Fmm_model Fmm_proofs Fmm_props FmmMomentum_props.
Local Open Scope R_scope.

Lemma norm_ext n a b : peq n a b -> norm n a = norm n b.
Proof. intros H. unfold norm, dot. f_equal. apply sumn_ext. intros. rewrite H by assumption. reflexivity. Qed.
Lemma norm_nonneg n a : 0 <= norm n a.
Proof. apply sqrt_pos. Qed.
Lemma norm_scal n c a : norm n (fun k => c * a k) = Rabs c * norm n a.
Proof.
  unfold norm, dot. rewrite (sumn_ext n _ (fun i => (c * c) * (a i * a i))) by (intros; ring). rewrite sumn_scal.
  rewrite sqrt_mult_alt by apply Rle_0_sqr. f_equal. apply sqrt_Rsqr_abs.
Qed.
Lemma norm_zero n : norm n (fun _ => 0) = 0.
Proof. unfold norm, dot. rewrite (sumn_ext n _ (fun _ => 0)) by (intros; ring). rewrite sumn_zero. apply sqrt_0. Qed.
Lemma norm_suml {A} n (f : A -> point) l : norm n (fun k => suml (fun x => f x k) l) <= suml (fun x => norm n (f x)) l.
Proof.
  induction l as [|x l IH]; cbn [suml]; [rewrite norm_zero; lra|].
  eapply Rle_trans; [apply (norm_triangle n (f x) (fun k => suml (fun x => f x k) l))|]. lra.
Qed.
Lemma suml_mono {A} (f g : A -> R) l : (forall x, In x l -> f x <= g x) -> suml f l <= suml g l.
Proof.
  induction l as [|x l IH]; intros H; cbn [suml]; [lra|].
  pose proof (H x (or_introl eq_refl)). specialize (IH (fun y Hy => H y (or_intror Hy))). lra.
Qed.

(** The attraction of two displacements that differ by at most theta times one
    of them. *)
Lemma attraction_diff n (v w : point) theta r d : norm n v = r -> norm n w = d -> 0 < r -> 0 < d -> 0 <= theta ->
  norm n (vsub v w) <= theta * d ->
  norm n (fun k => v k / (r * r * r) - w k / (d * d * d)) <= theta * (4 + 5 * theta + 2 * theta * theta) / (r * r).
Proof.
  intros Hr Hd r0 d0 t0 Hvw.
  assert (T1 : r <= (1 + theta) * d).
  { rewrite <- Hr. rewrite (norm_ext n v (vadd (vsub v w) w)) by (intros k _; unfold vadd, vsub; ring).
    eapply Rle_trans; [apply norm_triangle|]. rewrite Hd. lra. }
  assert (T2 : d <= r + theta * d).
  { rewrite <- Hd at 1. rewrite (norm_ext n w (vadd v (fun k => (-1) * vsub v w k))) by (intros k _; unfold vadd, vsub; ring).
    eapply Rle_trans; [apply norm_triangle|]. rewrite (norm_scal n (-1) (vsub v w)), Rabs_left, Hr by lra. lra. }
  rewrite (norm_ext n _ (vadd (fun k => / (d * d * d) * vsub v w k) (fun k => (/ (r * r * r) - / (d * d * d)) * v k)))
    by (intros k _; unfold vadd, vsub, Rdiv; ring).
  eapply Rle_trans; [apply norm_triangle|]. rewrite (norm_scal n _ (vsub v w)), (norm_scal n _ v), Hr.
  assert (D3 : 0 < d * d * d) by (repeat apply Rmult_lt_0_compat; assumption).
  assert (R3 : 0 < r * r * r) by (repeat apply Rmult_lt_0_compat; assumption).
  assert (R2 : 0 < r * r) by (apply Rmult_lt_0_compat; assumption).
  assert (D2 : 0 < d * d) by (apply Rmult_lt_0_compat; assumption).
  rewrite (Rabs_right (/ (d * d * d))) by (apply Rle_ge, Rlt_le, Rinv_0_lt_compat; assumption).
  assert (A1 : / (d * d * d) * norm n (vsub v w) <= theta * ((1 + theta) * (1 + theta)) / (r * r)).
  { apply Rle_trans with (/ (d * d * d) * (theta * d)); [apply Rmult_le_compat_l; [apply Rlt_le, Rinv_0_lt_compat; assumption|assumption]|].
    replace (/ (d * d * d) * (theta * d)) with (theta / (d * d)) by (field; lra).
    apply (Rmult_le_reg_r (d * d)); [assumption|]. apply (Rmult_le_reg_r (r * r)); [assumption|].
    replace (theta / (d * d) * (d * d) * (r * r)) with (theta * (r * r)) by (field; lra).
    replace (theta * ((1 + theta) * (1 + theta)) / (r * r) * (d * d) * (r * r)) with (theta * (((1 + theta) * d) * ((1 + theta) * d))) by (field; lra).
    apply Rmult_le_compat_l; [assumption|]. nra. }
  assert (A2 : Rabs (/ (r * r * r) - / (d * d * d)) * r <= theta * (3 + 3 * theta + theta * theta) / (r * r)).
  { replace (/ (r * r * r) - / (d * d * d)) with ((d - r) * ((d * d + d * r + r * r) / ((r * r * r) * (d * d * d)))) by (field; lra).
    assert (Q : 0 < d * d + d * r + r * r) by nra.
    rewrite Rabs_mult, (Rabs_right (_ / _)) by (apply Rle_ge, Rlt_le, Rdiv_lt_0_compat; [assumption|apply Rmult_lt_0_compat; assumption]).
    assert (Hab : Rabs (d - r) <= theta * d) by (apply Rabs_le; lra).
    apply Rle_trans with (theta * d * ((d * d + d * r + r * r) / (r * r * r * (d * d * d))) * r).
    - apply Rmult_le_compat_r; [lra|]. apply Rmult_le_compat_r; [apply Rlt_le, Rdiv_lt_0_compat; [assumption|apply Rmult_lt_0_compat; assumption]|assumption].
    - replace (theta * d * ((d * d + d * r + r * r) / (r * r * r * (d * d * d))) * r) with (theta * ((d * d + d * r + r * r) / (d * d)) / (r * r)) by (field; lra).
      unfold Rdiv at 1 3. apply Rmult_le_compat_r; [apply Rlt_le, Rinv_0_lt_compat; assumption|]. apply Rmult_le_compat_l; [assumption|].
      apply (Rmult_le_reg_r (d * d)); [assumption|]. unfold Rdiv. rewrite Rmult_assoc, Rinv_l, Rmult_1_r by lra.
      assert (r * r <= ((1 + theta) * d) * ((1 + theta) * d)) by (apply Rmult_le_compat; lra).
      assert (d * r <= d * ((1 + theta) * d)) by (apply Rmult_le_compat_l; lra). nra. }
  apply Rle_trans with (theta * ((1 + theta) * (1 + theta)) / (r * r) + theta * (3 + 3 * theta + theta * theta) / (r * r)); [lra|].
  right. field. lra.
Qed.

(** The acceleration differs from the direct sum over all particles by at most
    theta(4 + 5 theta + 2 theta^2) times the sum of the magnitudes of the
    attractions, theta being the acceptance parameter. *)
Theorem C69_fmm_error dim lob hib ks bodies theta gc : fmm_input dim ks bodies -> 0 <= theta ->
  let n := N.to_nat dim in
  let pos := fun i => b_pos (get_body bodies i) in
  let mass := fun i => b_mass (get_body bodies i) in
  let rest := fun i => filter (fun j => negb (Nat.eqb j i)) (seq 0 (length ks)) in
  exists st mx fuel0, build_tree cofm (fcc_cofm n bodies) dim true true lob hib ks = Some (st, mx) /\
  forall fuel, (fuel0 <= fuel)%nat -> exists calls s,
    traversal_fmm dim (st_tab st) (st_cofm st) bodies theta fuel = Some calls /\
    exec_all n gc (summary_at (st_tab st) (st_cofm st)) bodies gstate0 calls = Some s /\
    forall i, (i < length ks)%nat ->
      norm n (fun k => s_acc s i k - suml (fun j => - gc * mass j / (dist n (pos i) (pos j) * dist n (pos i) (pos j) * dist n (pos i) (pos j)) *
         (pos i k - pos j k)) (rest i)) <=
      theta * (4 + 5 * theta + 2 * theta * theta) * suml (fun j => Rabs gc * mass j / (dist n (pos i) (pos j) * dist n (pos i) (pos j))) (rest i).
Proof.
  intros Hin Ht. cbv zeta. destruct (C15_field dim lob hib ks bodies theta gc Hin) as (st & mx & f0 & E & H).
  destruct Hin as (Hdim & Hne & Hs & Hf & Hlen & Hmass & Hdist).
  exists st, mx, f0. split; [exact E|]. intros fuel Hfuel. destruct (H fuel Hfuel) as (calls & s & E1 & E2 & sx & sy & H1 & H2 & _).
  exists calls, s. split; [exact E1|]. split; [exact E2|]. intros i Hi.
  set (n := N.to_nat dim) in *. set (pos := fun i => b_pos (get_body bodies i)). set (mass := fun i => b_mass (get_body bodies i)).
  set (rest := filter (fun j => negb (Nat.eqb j i)) (seq 0 (length ks))).
  rewrite (norm_ext n _ (fun k => suml (fun j => p2p_acc n gc (sx i j) (sy i j) (mass j) k -
     - gc * mass j / (dist n (pos i) (pos j) * dist n (pos i) (pos j) * dist n (pos i) (pos j)) * (pos i k - pos j k)) rest)).
  2:{ intros k _. rewrite H2 by assumption. rewrite suml_minus. reflexivity. }
  eapply Rle_trans; [apply (norm_suml n (fun j k => p2p_acc n gc (sx i j) (sy i j) (mass j) k -
     - gc * mass j / (dist n (pos i) (pos j) * dist n (pos i) (pos j) * dist n (pos i) (pos j)) * (pos i k - pos j k)))|].
  rewrite <- suml_scal. apply suml_mono. intros j Hj. unfold rest in Hj. apply filter_In in Hj. destruct Hj as [Hj Hji].
  apply in_seq in Hj. apply negb_true_iff, Nat.eqb_neq in Hji.
  assert (Hm : 0 < mass j) by (apply Hmass; unfold get_body; apply nth_In; lia).
  assert (Hr : 0 < dist n (pos i) (pos j)).
  { destruct (Rle_lt_or_eq_dec _ _ (dist_nonneg n (pos i) (pos j))) as [L|L]; [exact L|]. symmetry in L. apply dist_zero in L.
    exfalso. apply (Hdist i j); [lia|lia|lia|exact L]. }
  destruct (H1 i j Hi ltac:(lia) ltac:(lia)) as (rx & ry & Dx & Dy & [[Qx Qy]|Q]); fold (pos i) in *; fold (pos j) in *.
  - rewrite Qx, Qy. fold (pos i) (pos j). rewrite (norm_ext n _ (fun _ => 0)), norm_zero by (intros k _; unfold p2p_acc; ring).
    apply Rmult_le_pos; [nra|]. apply Rmult_le_pos; [apply Rmult_le_pos; [apply Rabs_pos|apply Rlt_le; exact Hm]|]. apply Rlt_le, Rinv_0_lt_compat, Rmult_lt_0_compat; exact Hr.
  - pose proof (dist_nonneg n (pos i) (sx i j)) as N1. pose proof (dist_nonneg n (pos j) (sy i j)) as N2.
    pose proof (dist_nonneg n (sx i j) (sy i j)) as N3.
    assert (Hd : 0 < dist n (sx i j) (sy i j)).
    { destruct (Rle_lt_or_eq_dec _ _ N3) as [L|L]; [exact L|]. rewrite <- L in Q. lra. }
    set (r := dist n (pos i) (pos j)) in *. set (d := dist n (sx i j) (sy i j)) in *.
    rewrite (norm_ext n _ (fun k => (gc * mass j) * (vsub (pos i) (pos j) k / (r * r * r) - vsub (sx i j) (sy i j) k / (d * d * d)))).
    2:{ intros k _. unfold p2p_acc, vsub. fold d. field. lra. }
    rewrite (norm_scal n (gc * mass j)).
    apply Rle_trans with (Rabs gc * mass j * (theta * (4 + 5 * theta + 2 * theta * theta) / (r * r))).
    2:{ right. match goal with |- _ = ?e => change e with (theta * (4 + 5 * theta + 2 * theta * theta) * (Rabs gc * mass j / (r * r))) end. clearbody r. field. apply Rgt_not_eq. exact Hr. }
    rewrite Rabs_mult, (Rabs_right (mass j)) by (apply Rle_ge, Rlt_le; exact Hm).
    apply Rmult_le_compat_l; [apply Rmult_le_pos; [apply Rabs_pos|apply Rlt_le; exact Hm]|].
    apply attraction_diff; try assumption; try reflexivity.
    rewrite (norm_ext n _ (vadd (vsub (pos i) (sx i j)) (vsub (sy i j) (pos j)))) by (intros k _; unfold vadd, vsub; ring).
    eapply Rle_trans; [apply norm_triangle|]. rewrite <- !dist_norm, (dist_sym n (sy i j)). lra.
Qed.

(** A concrete case: four particles, acceptance parameter 1/2. *)
Example C69_case : fmm_input 3 ks68 bodies68 /\ 0 <= 1 / 2.
Proof. split; [exact C15_C68_case|lra]. Qed.

Print Assumptions C69_fmm_error.
