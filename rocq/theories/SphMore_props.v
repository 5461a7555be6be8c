(** More about the particle sums: the neighbour lists of the tree satisfy the
    hypothesis of C35 and C36; angular momentum (C65), sign of the forces and
    viscous heating (C66), positive density (C67). *)
From Coquelicot Require Import Coquelicot.
From Verif Require Import Base Vec Geometry_model Geometry_props Kernel_model Kernel_proofs Kernel_props Sph_model Sph_props.
Local Open Scope R_scope.

(** ** C65 *)

Lemma DiW_central pr n a b k :
  DiW pr n a b k = (p_pos a k - p_pos b k) * gfactor (sinc_index pr) (the_kernel pr) n
    (norm n (vsub (p_pos a) (p_pos b))) (h_mean a b).
Proof. reflexivity. Qed.

(** Component (k, l) of the total torque is that of the external forces. *)
Theorem C65_angular_momentum pr n N p nb (ext : nat -> point) k l :
  (1 <= n <= 3)%nat -> (forall i, (i < N)%nat -> 0 < p_h (p i)) -> lists_ok n N p nb ->
  let torque f := sumn N (fun i => p_m (p i) * (p_pos (p i) k * f i l - p_pos (p i) l * f i k)) in
  torque (fun i => acceleration pr n (ext i) (p i) (nbs p nb i)) = torque ext.
Proof.
  intros Hn Hh Hl. cbv zeta.
  set (C := fun i j => - nb_mass n (p i) (p j) * (Prho2 (p i) + Prho2 (p j) + Pi pr n (p i) (p j))).
  set (F := fun i j => p_m (p i) * (C i j * (p_pos (p i) k * DiW pr n (p i) (p j) l - p_pos (p i) l * DiW pr n (p i) (p j) k))).
  transitivity (sumn N (fun i => sumn N (F i)) +
    sumn N (fun i => p_m (p i) * (p_pos (p i) k * ext i l - p_pos (p i) l * ext i k))).
  - rewrite <- sumn_plus. apply sumn_ext. intros i Hi. unfold acceleration.
    assert (E : forall c, suml (fun b => - nb_mass n (p i) b * (Prho2 (p i) + Prho2 b + Pi pr n (p i) b) * DiW pr n (p i) b c)
        (nbs p nb i) = sumn N (fun j => C i j * DiW pr n (p i) (p j) c)).
    { intro c. apply (full pr n N p nb Hn Hh Hl (fun i b => - nb_mass n (p i) b *
        (Prho2 (p i) + Prho2 b + Pi pr n (p i) b) * DiW pr n (p i) b c) i Hi).
      intros j Hj D. rewrite D. ring. }
    rewrite !E.
    transitivity (p_m (p i) * (p_pos (p i) k * sumn N (fun j => C i j * DiW pr n (p i) (p j) l) -
      p_pos (p i) l * sumn N (fun j => C i j * DiW pr n (p i) (p j) k)) +
      p_m (p i) * (p_pos (p i) k * ext i l - p_pos (p i) l * ext i k)); [ring|].
    f_equal. rewrite <- !sumn_scal, <- sumn_minus, <- sumn_scal. apply sumn_ext. intros j _. unfold F. ring.
  - rewrite (antisym_sum N F); [ring|]. intros i j Hi Hj. unfold F, C.
    rewrite (DiW_anti pr n (p i) (p j)), (DiW_anti pr n (p i) (p j)), (Pi_sym pr n (p j) (p i)).
    set (G := gfactor (sinc_index pr) (the_kernel pr) n (norm n (vsub (p_pos (p i)) (p_pos (p j)))) (h_mean (p i) (p j))).
    rewrite !(DiW_central pr n (p i) (p j)). fold G.
    set (T := Prho2 (p i) + Prho2 (p j) + Pi pr n (p i) (p j)).
    replace (Prho2 (p j) + Prho2 (p i) + Pi pr n (p i) (p j)) with T by (unfold T; ring).
    pose proof (pair_mass n p i j) as M.
    transitivity (- (p_m (p i) * nb_mass n (p i) (p j)) * T * G *
      (p_pos (p i) l * p_pos (p j) k - p_pos (p i) k * p_pos (p j) l)); [ring|].
    rewrite M. ring.
Qed.

(** ** C66 *)

(** Kernels that decrease with distance. *)
Definition decreasing (k : kind) : Prop := poly k \/ k = gaussian \/ k = sinc_ker.

Lemma x_cos_sin x : 0 < x < PI -> x * cos x <= sin x.
Proof.
  intro Hx. destruct (Rle_lt_dec (cos x) 0) as [H|H].
  - pose proof (sin_gt_0 x ltac:(lra) ltac:(lra)). nra.
  - destruct (MVT_gen (fun y => sin y - y * cos y) 0 x (fun y => y * sin y)) as (c & Hc & E).
    + intros y Hy. auto_derive; [auto|ring].
    + intros y Hy. apply continuity_pt_filterlim.
      apply (ex_derive_continuous (V := R_NormedModule) (fun y => sin y - y * cos y)). auto_derive. auto.
    + rewrite Rmin_left, Rmax_right in Hc by lra. rewrite sin_0, Rmult_0_l in E.
      assert (0 <= sin c) by (apply sin_ge_0; lra).
      assert (0 <= c * sin c * (x - 0)) by (apply Rmult_le_pos; [apply Rmult_le_pos|]; lra). lra.
Qed.

Lemma le_div0 a b : a <= 0 -> 0 < b -> a / b <= 0.
Proof.
  intros Ha Hb. unfold Rdiv. pose proof (Rinv_0_lt_compat b Hb). nra.
Qed.

Lemma le_scal0 a b : 0 <= a -> b <= 0 -> a * b <= 0.
Proof. intros. nra. Qed.

Lemma gfactor_nonpos si k n r h :
  decreasing k -> (1 <= n <= 3)%nat -> 0 < h -> 0 <= r -> 1 <= si <= 12 -> gfactor si k n r h <= 0.
Proof.
  intros Hk Hn Hh Hr Hsi. pose proof TINY_pos as Ht.
  assert (Hp1 : 0 < h ^ (n + 1)) by (apply pow_lt, Hh).
  assert (Hrt : 0 < r + TINY) by lra.
  assert (Hq : 0 <= r / h) by (apply Rmult_le_pos; [lra|]; apply Rlt_le, Rinv_0_lt_compat, Hh).
  assert (SP : forall k, poly k -> 0 < sigma k n) by (intros; now apply sigma_pos).
  destruct Hk as [Hk|[->| ->]].
  - destruct Hk as [->|[->|[->|[->| ->]]]]; cbn [gfactor].
    + unfold G_cubic. cbv zeta. destruct (Rltb (2 * r / h) 2) eqn:E; [|lra]. apply Rltb_true in E.
      assert (0 < cubic_sigma n) by (apply (SP cubic_spline); unfold poly; auto).
      replace (2 * r / h) with (2 * (r / h)) in * by (field; lra). revert E Hq. generalize (r / h). intros x E Hq.
      apply le_div0; [|lra]. apply le_scal0; [apply Rlt_le, Rdiv_lt_0_compat; lra|].
      destruct (Rltb (2 * x) 1) eqn:E1; [apply Rltb_true in E1|]; nra.
    + unfold G_quintic. cbv zeta. destruct (Rltb (3 * r / h) 3) eqn:E; [|lra]. apply Rltb_true in E.
      assert (0 < quintic_sigma n) by (apply (SP quintic_spline); unfold poly; auto).
      replace (3 * r / h) with (3 * (r / h)) in * by (field; lra).
      assert (Hx : 0 <= 3 * (r / h)) by lra. revert E Hx. generalize (3 * (r / h)). intros x E Hx.
      apply le_div0; [|lra]. apply le_scal0; [apply Rlt_le, Rdiv_lt_0_compat; lra|].
      destruct (Rltb x 1) eqn:E1; [apply Rltb_true in E1|apply Rltb_false in E1].
      * rewrite (proj2 (Rltb_true x 2)) by lra.
        replace (-5 * (3 - x) ^ 4 + 30 * (2 - x) ^ 4 + -75 * (1 - x) ^ 4)
          with (- (120 * (x * (1 - x * x)) + 50 * (x ^ 2 * x ^ 2))) by ring.
        assert (0 <= x * (1 - x * x)) by (apply Rmult_le_pos; nra).
        assert (0 <= x ^ 2) by (cbn [pow]; nra). nra.
      * destruct (Rltb x 2) eqn:E2; [apply Rltb_true in E2|].
        -- assert (Hy : 0 < 2 - x <= 1) by lra. replace (3 - x) with (1 + (2 - x)) by ring.
           revert Hy. generalize (2 - x). intros y Hy.
           replace (-5 * (1 + y) ^ 4 + 30 * y ^ 4)
             with (- (5 + 20 * y + 30 * y ^ 2 + 20 * y ^ 3 - 25 * y ^ 4)) by ring.
           assert (0 <= y ^ 3) by (apply pow_le; lra). assert (0 <= y ^ 2) by (apply pow_le; lra).
           assert (y ^ 4 <= y ^ 3) by (change (y * y ^ 3 <= y ^ 3); nra).
           assert (y ^ 3 <= y ^ 2) by (change (y * y ^ 2 <= y ^ 2); nra). lra.
        -- assert (0 <= (3 - x) ^ 4) by (apply pow_le; lra). lra.
    + unfold G_wc2. cbv zeta. assert (0 < wc2_sigma n) by (apply (SP wendland_c2); unfold poly; auto).
      revert Hq. generalize (r / h). intros x Hq.
      destruct (Rltb x 1) eqn:E; [apply Rltb_true in E|destruct n as [|[|n']]; cbn [b2r]; lra].
      assert (0 <= (1 - x) * (1 - x)) by nra.
      destruct n as [|[|n']]; cbn [b2r]; rewrite Rmult_1_l.
      * lia.
      * apply le_div0; [|lra]. apply le_scal0; [|nra]. apply Rlt_le, Rdiv_lt_0_compat; [lra|nra].
      * apply le_div0; [|lra]. apply le_scal0; [|].
        -- apply Rlt_le, Rdiv_lt_0_compat; lra.
        -- assert (0 <= x * ((1 - x) * (1 - x)) * (1 - x)) by (apply Rmult_le_pos; [apply Rmult_le_pos|]; lra). lra.
    + unfold G_wc4. cbv zeta. assert (0 < wc4_sigma n) by (apply (SP wendland_c4); unfold poly; auto).
      revert Hq. generalize (r / h). intros x Hq.
      destruct (Rltb x 1) eqn:E; [apply Rltb_true in E|destruct n as [|[|n']]; cbn [b2r]; lra].
      assert (A : 0 <= (1 - x) * (1 - x)) by nra. revert A. generalize ((1 - x) * (1 - x)). intros q A.
      destruct n as [|[|n']]; cbn [b2r]; rewrite Rmult_1_l.
      * lia.
      * apply le_div0; [|lra]. apply le_scal0; [apply Rlt_le, Rdiv_lt_0_compat; [lra|nra]|].
        assert (0 <= x * q * q * (1 + 4 * x)) by (apply Rmult_le_pos; [apply Rmult_le_pos; [apply Rmult_le_pos|]|]; lra). lra.
      * apply le_div0; [|lra]. apply le_scal0; [apply Rlt_le, Rdiv_lt_0_compat; lra|].
        assert (0 <= x * (q * (1 - x)) * q * (1 + 5 * x)).
        { apply Rmult_le_pos; [|lra]. apply Rmult_le_pos; [|lra]. apply Rmult_le_pos; [lra|]. apply Rmult_le_pos; lra. }
        lra.
    + unfold G_wc6. cbv zeta. assert (0 < wc6_sigma n) by (apply (SP wendland_c6); unfold poly; auto 6).
      revert Hq. generalize (r / h). intros x Hq.
      destruct (Rltb x 1) eqn:E; [apply Rltb_true in E|destruct n as [|[|n']]; cbn [b2r]; lra].
      assert (A : 0 <= (1 - x) * (1 - x)) by nra. revert A. generalize ((1 - x) * (1 - x)). intros q A.
      assert (B : 0 <= q * (1 - x)) by (apply Rmult_le_pos; lra). revert B. generalize (q * (1 - x)). intros t B.
      assert (B' : 0 <= q * q) by (apply Rmult_le_pos; lra). revert B'. generalize (q * q). intros u B'.
      assert (X1 : 0 <= x * (18 + x * 35)) by (apply Rmult_le_pos; nra).
      assert (X2 : 0 <= x * (7 + x * 16)) by (apply Rmult_le_pos; nra).
      destruct n as [|[|n']]; cbn [b2r]; rewrite ?Rmult_1_l, ?Rmult_1_r.
      * lia.
      * apply le_div0; [|lra]. apply le_scal0; [apply Rlt_le, Rdiv_lt_0_compat; [lra|nra]|].
        assert (0 <= x * t * t * (3 + x * (18 + x * 35))).
        { apply Rmult_le_pos; [|lra]. apply Rmult_le_pos; [|lra]. apply Rmult_le_pos; lra. }
        lra.
      * apply le_div0; [|lra]. apply le_scal0; [apply Rlt_le, Rdiv_lt_0_compat; lra|].
        assert (0 <= x * u * t * (1 + x * (7 + x * 16))).
        { apply Rmult_le_pos; [|lra]. apply Rmult_le_pos; [|lra]. apply Rmult_le_pos; lra. }
        lra.
  - cbn [gfactor]. unfold G_gaussian. cbv zeta. destruct (Rltb (3 * r / h) 3) eqn:E; [|lra].
    assert (0 < gaussian_sigma n) by (apply pick_pos; lra).
    replace (3 * r / h) with (3 * (r / h)) by (field; lra). revert Hq. generalize (r / h). intros x Hq.
    apply le_div0; [|lra]. apply le_scal0; [apply Rlt_le, Rdiv_lt_0_compat; lra|].
    pose proof (exp_pos (- (3 * x) * (3 * x))). nra.
  - cbn [gfactor]. unfold G_sinc. cbv zeta. rewrite (Rabs_right (r / h)) by lra.
    revert Hq. generalize (r / h). intros x Hq. destruct (Rltb x 1) eqn:E; [|lra]. apply Rltb_true in E.
    assert (HS : 0 < sinc_sigma si n) by now apply sinc_sigma_pos.
    apply le_div0; [|lra]. apply le_scal0; [apply Rlt_le, Rdiv_lt_0_compat; lra|].
    pose proof PI_RGT_0 as Hpi. assert (Hy : 0 <= x * PI < PI) by (split; nra).
    revert Hy. generalize (x * PI). intros y Hy. pose proof eps_root4_val.
    destruct (Rltb eps_root4 y) eqn:E1; [apply Rltb_true in E1|apply Rltb_false in E1].
    + assert (Hy0 : 0 < y) by lra.
      assert (0 < Rpower (sin y / y) (si - 1)) by (unfold Rpower; apply exp_pos).
      pose proof (x_cos_sin y ltac:(lra)) as HC.
      assert (0 <= sin y / y / y - cos y / y).
      { replace (sin y / y / y - cos y / y) with ((sin y - y * cos y) * / (y * y)) by (field; lra).
        apply Rmult_le_pos; [lra|]. apply Rlt_le, Rinv_0_lt_compat. nra. }
      assert (0 <= si * Rpower (sin y / y) (si - 1) * PI * (sin y / y / y - cos y / y)).
      { apply Rmult_le_pos; [|lra]. apply Rmult_le_pos; [|lra]. apply Rmult_le_pos; lra. }
      lra.
    + destruct (Rltb eps y) eqn:E2; [|lra].
      assert (0 <= y * y <= 1) by (assert (y <= 1) by lra; nra).
      assert (0 <= si * y / 3 * PI) by (apply Rmult_le_pos; nra).
      assert (0 <= 1 - 5 / 10 * (y * y) * (2 / 10 - (si - 1) / 18)) by nra. 
      nra.
Qed.

(** The kernel gradient points towards the neighbour, so that positive
    pressures push particles apart. *)
Theorem C66_repulsive pr n a b :
  decreasing (the_kernel pr) -> (1 <= n <= 3)%nat -> 0 < h_mean a b -> 1 <= sinc_index pr <= 12 ->
  dot n (vsub (p_pos a) (p_pos b)) (DiW pr n a b) <= 0 /\
  (0 <= p_P a -> 0 <= p_P b -> 0 < p_rho a -> 0 < p_rho b -> 0 <= p_m b -> 0 <= Pi pr n a b ->
   0 <= dot n (vsub (p_pos a) (p_pos b)) (acceleration pr n vzero a [b])).
Proof.
  intros Hk Hn Hh Hs.
  pose proof (gfactor_nonpos _ _ n _ _ Hk Hn Hh (norm_nonneg n (vsub (p_pos a) (p_pos b))) Hs) as G.
  assert (E : dot n (vsub (p_pos a) (p_pos b)) (DiW pr n a b) =
    gfactor (sinc_index pr) (the_kernel pr) n (norm n (vsub (p_pos a) (p_pos b))) (h_mean a b) *
    dot n (vsub (p_pos a) (p_pos b)) (vsub (p_pos a) (p_pos b))).
  { unfold dot. rewrite <- sumn_scal. apply sumn_ext. intros i _. rewrite DiW_central.
    generalize (gfactor (sinc_index pr) (the_kernel pr) n (norm n (vsub (p_pos a) (p_pos b))) (h_mean a b)). intro g. unfold vsub. ring. }
  assert (D : dot n (vsub (p_pos a) (p_pos b)) (DiW pr n a b) <= 0).
  { rewrite E. pose proof (dot_self_nonneg n (vsub (p_pos a) (p_pos b))). nra. }
  split; [exact D|]. intros HPa HPb Hra Hrb Hm Hp.
  replace (dot n (vsub (p_pos a) (p_pos b)) (acceleration pr n vzero a [b]))
    with (nb_mass n a b * (Prho2 a + Prho2 b + Pi pr n a b) * - dot n (vsub (p_pos a) (p_pos b)) (DiW pr n a b)).
  - assert (0 <= Prho2 a) by (apply Rmult_le_pos; [lra|apply Rlt_le, Rinv_0_lt_compat; nra]).
    assert (0 <= Prho2 b) by (apply Rmult_le_pos; [lra|apply Rlt_le, Rinv_0_lt_compat; nra]).
    apply Rmult_le_pos; [|lra]. apply Rmult_le_pos; [|lra].
    unfold nb_mass. apply Rmult_le_pos; [lra|]. destruct (same_pos n _ _); cbn; lra.
  - set (c := nb_mass n a b * (Prho2 a + Prho2 b + Pi pr n a b)).
    replace (c * - dot n (vsub (p_pos a) (p_pos b)) (DiW pr n a b))
      with (- c * dot n (vsub (p_pos a) (p_pos b)) (DiW pr n a b)) by ring.
    unfold dot. rewrite <- sumn_scal. apply sumn_ext. intros i _. unfold acceleration, vzero. cbn [suml]. unfold c. ring.
Qed.


(** When the velocity is the one used in the viscosity, the viscous part of
    the internal-energy rate is non-negative: viscosity only heats. *)
Theorem C66_viscous_heating pr n a l :
  decreasing (the_kernel pr) -> (1 <= n <= 3)%nat -> 1 <= sinc_index pr <= 12 ->
  0 <= v_alpha pr -> 0 <= v_beta pr -> 0 <= v_eps pr ->
  (forall b, In b (a :: l) -> 0 < p_h b /\ 0 < p_rho b /\ 0 <= p_c b /\ 0 <= p_alpha b /\ 0 <= p_m b /\
     (forall i, p_v12 b i = p_vel b i)) ->
  dudt pr n false a l - Prho2 a * suml (fun b => nb_mass n a b * dot n (vsub (p_vel a) (p_vel b)) (DiW pr n a b)) l >= 0.
Proof.
  intros Hk Hn Hs Ha Hb He H. unfold dudt. cbv zeta.
  match goal with |- ?x + 1 / 2 * ?y - ?x >= 0 => assert (Y : 0 <= y); [|lra] end.
  apply suml_nonneg. intros b Hin.
  destruct (H a (or_introl eq_refl)) as (A1 & A2 & A3 & A4 & A5 & A6).
  destruct (H b (or_intror Hin)) as (B1 & B2 & B3 & B4 & B5 & B6).
  assert (Hh : 0 < h_mean a b) by (unfold h_mean; lra).
  destruct (C44_viscosity pr n a b Hh A2 B2 A3 B3 A4 B4 Ha Hb He) as (_ & V0 & V1 & _).
  destruct (Rlt_le_dec (dot n (vsub (p_v12 a) (p_v12 b)) (vsub (p_pos a) (p_pos b))) 0) as [L|L].
  - specialize (V1 L). apply Rmult_le_pos; [|lra]. apply Rmult_le_pos.
    + unfold nb_mass. apply Rmult_le_pos; [lra|]. destruct (same_pos n _ _); cbn; lra.
    + replace (dot n (vsub (p_vel a) (p_vel b)) (DiW pr n a b)) with
        (gfactor (sinc_index pr) (the_kernel pr) n (norm n (vsub (p_pos a) (p_pos b))) (h_mean a b) *
         dot n (vsub (p_v12 a) (p_v12 b)) (vsub (p_pos a) (p_pos b))).
      * pose proof (gfactor_nonpos _ _ n _ _ Hk Hn Hh (norm_nonneg n (vsub (p_pos a) (p_pos b))) Hs) as G. nra.
      * unfold dot. rewrite <- sumn_scal. apply sumn_ext. intros i _. rewrite DiW_central.
        generalize (gfactor (sinc_index pr) (the_kernel pr) n (norm n (vsub (p_pos a) (p_pos b))) (h_mean a b)). intro g. unfold vsub. rewrite A6, B6. ring.
  - rewrite V0 by (unfold approaching; lra). lra.
Qed.

(** ** C67 *)

(** The density of a particle that lists itself is positive, so the
    assertion at the end of compute_density holds. *)
Lemma kernel_centre si k n h :
  decreasing k -> (1 <= n <= 3)%nat -> 0 < h -> 1 <= si <= 12 -> 0 < kernel si k n 0 h.
Proof.
  intros Hk Hn Hh Hs. assert (Hp : 0 < h ^ n) by (apply pow_lt, Hh).
  destruct Hk as [Hk|[->| ->]].
  - rewrite kernel_spl by auto. apply Rmult_lt_0_compat.
    + apply Rdiv_lt_0_compat; [now apply sigma_pos|exact Hp].
    + unfold spl.
      destruct Hk as [->|[->|[->|[->| ->]]]]; destruct n as [|[|n']]; try lia; cbn [pieces suml fst snd];
        rewrite !edge_start by lra; cbn [pow]; lra.
  - cbn [kernel]. unfold W_gaussian. replace (3 * 0 / h) with 0 by (field; lra).
    rewrite (proj2 (Rleb_true _ _)) by lra.
    apply Rmult_lt_0_compat; [|apply exp_pos]. apply Rdiv_lt_0_compat; [|exact Hp]. apply pick_pos; lra.
  - cbn [kernel]. unfold W_sinc. cbv zeta. 
    replace (0 / h) with 0 by (field; lra). rewrite Rabs_R0. rewrite (proj2 (Rltb_true _ _)) by lra.
    apply Rmult_lt_0_compat; [|unfold Rpower; apply exp_pos].
    apply Rdiv_lt_0_compat; [|exact Hp]. now apply sinc_sigma_pos.
Qed.

Theorem C67_density_positive pr n a l :
  decreasing (the_kernel pr) -> (1 <= n <= 3)%nat -> 1 <= sinc_index pr <= 12 ->
  In a l -> (forall b, In b l -> 0 < p_m b /\ 0 < p_h b) -> 0 < density pr n a l.
Proof.
  intros Hk Hn Hs Hin H. unfold density.
  assert (NN : forall b, In b l -> 0 <= p_m b * W pr n (norm n (vsub (p_pos a) (p_pos b))) (h_mean a b)).
  { intros b Hb. destruct (H b Hb) as (M & Hh). destruct (H a Hin) as (_ & Ha). apply Rmult_le_pos; [lra|].
    assert (Hm : 0 < h_mean a b) by (unfold h_mean; lra). unfold W. destruct Hk as [Hk|[-> | ->]].
    - apply C32_spline_and_wendland; auto using norm_nonneg.
    - apply (C32_gaussian_and_sinc _ n _ Hn Hm Hs), norm_nonneg.
    - apply (C32_gaussian_and_sinc _ n _ Hn Hm Hs), norm_nonneg. }
  assert (Z : 0 < p_m a * W pr n (norm n (vsub (p_pos a) (p_pos a))) (h_mean a a)).
  { destruct (H a Hin) as (M & Hh). apply Rmult_lt_0_compat; [exact M|].
    replace (norm n (vsub (p_pos a) (p_pos a))) with 0.
    - unfold W. apply kernel_centre; auto. unfold h_mean. lra.
    - unfold norm. replace (dot n _ _) with 0; [symmetry; apply sqrt_0|].
      symmetry. apply sumn_0. intros i _. unfold vsub. ring. }
  revert NN Hin. induction l as [|b l IH]; intros NN Hin; [destruct Hin|]. cbn [suml].
  assert (R : 0 <= suml (fun b => p_m b * W pr n (norm n (vsub (p_pos a) (p_pos b))) (h_mean a b)) l).
  { apply suml_nonneg. intros x Hx. apply NN. now right. }
  destruct Hin as [->|Hin]; [lra|].
  pose proof (NN b (or_introl eq_refl)).
  assert (0 < suml (fun b => p_m b * W pr n (norm n (vsub (p_pos a) (p_pos b))) (h_mean a b)) l); [|lra].
  apply IH; [intros; apply H; now right|intros; apply NN; now right|exact Hin].
Qed.

(** The super-Gaussian is negative far from the centre; a light particle
    beside a heavy one gets a negative density. *)
Theorem C67_super_gaussian_refuted :
  exists pr n a l, the_kernel pr = super_gaussian /\ (1 <= n <= 3)%nat /\
    In a l /\ (forall b, In b l -> 0 < p_m b /\ 0 < p_h b) /\ density pr n a l < 0.
Proof.
  set (a := at1 0 0 1 1 1 0 0). set (b := at1 (1 / 2) 0 1000 1 1 0 0).
  exists (defaults super_gaussian false), 1%nat, a, [a; b].
  split; [reflexivity|]. split; [lia|]. split; [now left|]. split.
  { intros x [<-|[<-|[]]]; cbn; lra. }
  unfold density. cbn [suml]. rewrite (norm_1d a a 0 0), (norm_1d a b 0 (1 / 2)) by reflexivity.
  rewrite Rminus_0_r, Rabs_R0. rewrite (Rabs_left (0 - 1 / 2)) by lra.
  unfold h_mean, a, b. cbn [p_m p_h at1]. unfold W. cbn [defaults the_kernel sinc_index kernel]. unfold W_super. cbv zeta.
  replace (3 * 0 / (1 / 2 * (1 + 1))) with 0 by field.
  replace (3 * - (0 - 1 / 2) / (1 / 2 * (1 + 1))) with (3 / 2) by field.
  rewrite Rabs_R0, (Rabs_right (3 / 2)) by lra.
  rewrite !(proj2 (Rltb_true _ _)) by lra. cbn [b2r INR pow].
  replace (- (0 * 0)) with 0 by ring. rewrite exp_0, exp_Ropp.
  assert (He : exp (3 / 2 * (3 / 2)) <= 27).
  { replace 27 with (3 * 3 * 3) by ring. replace (3 / 2 * (3 / 2)) with (9 / 4) by field.
    apply Rle_trans with (exp (1 + 1 + 1)).
    - apply Rlt_le, exp_increasing. lra.
    - rewrite !exp_plus. pose proof exp_le_3. pose proof (exp_pos 1).
      apply Rmult_le_compat; [nra|lra|nra|lra]. }
  assert (Hi : / 27 <= / exp (3 / 2 * (3 / 2))) by (apply Rinv_le_contravar; [apply exp_pos|exact He]).
  assert (Hs : 0 < super_gaussian_sigma 1).
  { unfold super_gaussian_sigma, pick. pose proof PI_RGT_0. try lra. }
  revert Hi. generalize (/ exp (3 / 2 * (3 / 2))). intros q Hq.
  replace (super_gaussian_sigma 1 / (1 / 2 * (1 + 1) * 1)) with (super_gaussian_sigma 1) by field.
  replace (super_gaussian_sigma 1 / (1 / 2 * (1 + 1) * 1)) with (super_gaussian_sigma 1) by field.
  nra.
Qed.

Example C66_case : decreasing wendland_c4 /\ decreasing sinc_ker /\ ~ decreasing super_gaussian.
Proof.
  unfold decreasing, poly. split; [auto 10|]. split; [auto|].
  intros [[H|[H|[H|[H|H]]]]|[H|H]]; discriminate.
Qed.

Example C67_case : 0 < density (defaults cubic_spline false) 1 (line3 0) [line3 0; line3 1].
Proof.
  apply C67_density_positive; [left; left; reflexivity|lia|cbn; lra|now left|].
  intros b [<-|[<-|[]]]; cbn; lra.
Qed.

Print Assumptions C65_angular_momentum.
Print Assumptions C66_viscous_heating.
Print Assumptions C67_density_positive.
Print Assumptions C67_super_gaussian_refuted.
