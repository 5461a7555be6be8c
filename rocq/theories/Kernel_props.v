(** Properties C32, C33 and C34: support and sign, gradients and
    normalisation of the smoothing kernels. *)
From Coquelicot Require Import Coquelicot.
From Verif Require Import Base Vec Geometry_model Geometry_props Kernel_model Kernel_proofs.
Local Open Scope R_scope.

(** ** C32 *)

Lemma pick_pos a b c n : 0 < a -> 0 < b -> 0 < c -> 0 < pick a b c n.
Proof. intros. unfold pick. destruct n as [|[|[|n]]]; assumption. Qed.

Lemma sigma_pos k n : poly k -> 0 < sigma k n.
Proof.
  pose proof PI_RGT_0.
  intros [->|[->|[->|[->| ->]]]]; apply pick_pos; try lra; apply Rdiv_lt_0_compat; lra.
Qed.

Lemma edge_in m a h r : r < a -> edge m a h r = ((a - r) / h) ^ m.
Proof. intros. unfold edge. now rewrite (proj2 (Rltb_true r a)). Qed.

Lemma edge_out m a h r : a <= r -> edge m a h r = 0.
Proof. intros. unfold edge. now rewrite (proj2 (Rltb_false r a)). Qed.

Lemma pow_nonneg x m : 0 <= x -> 0 <= x ^ m.
Proof. apply pow_le. Qed.

Lemma spl_nonneg k n h r : poly k -> (1 <= n <= 3)%nat -> 0 < h -> 0 <= r -> 0 <= spl (pieces k n) h r.
Proof.
  intros Hk Hn Hh Hr.
  destruct (Rle_lt_dec h r) as [Ho|Hi].
  { (* outside *)
    destruct Hk as [->|[->|[->|[->| ->]]]]; destruct n as [|[|[|[|n]]]]; try lia;
      unfold pieces, spl; cbn [suml fst snd]; rewrite !edge_out by lra; lra. }
  set (x := r / h).
  assert (Hx : 0 <= x < 1).
  { unfold x. split; [apply Rle_div_r; lra|apply Rlt_div_l; lra]. }
  assert (Ex : forall a, (a * h - r) / h = a - x) by (intro; unfold x; field; lra).
  assert (Ein : forall m a, x < a -> edge m (a * h) h r = (a - x) ^ m).
  { intros m a Ha. rewrite edge_in, Ex; [reflexivity|].
    apply (Rmult_lt_compat_r h) in Ha; [|lra]. unfold x, Rdiv in Ha. rewrite Rmult_assoc, Rinv_l in Ha; lra. }
  assert (Eout : forall m a, a <= x -> edge m (a * h) h r = 0).
  { intros m a Ha. apply edge_out.
    apply (Rmult_le_compat_r h) in Ha; [|lra]. unfold x, Rdiv in Ha. rewrite Rmult_assoc, Rinv_l in Ha; lra. }
  clearbody x. clear Ex.
  destruct Hk as [->|[->|[->|[->| ->]]]].
  - unfold pieces, spl; cbn [suml fst snd]. rewrite (Ein _ 1) by lra.
    destruct (Rlt_le_dec x (1 / 2)) as [L|L].
    + rewrite (Ein _ (1 / 2)) by lra. cbn [pow]. nra.
    + rewrite (Eout _ (1 / 2)) by lra. pose proof (pow_nonneg (1 - x) 3). lra.
  - unfold pieces, spl; cbn [suml fst snd]. rewrite (Ein _ 1) by lra.
    destruct (Rlt_le_dec x (1 / 3)) as [L|L]; [|destruct (Rlt_le_dec x (2 / 3)) as [L'|L']].
    + rewrite (Ein _ (2 / 3)), (Ein _ (1 / 3)) by lra. set (s := 1 - 3 * x).
      assert (Hs : 0 < s <= 1) by (unfold s; lra).
      replace (1 - x) with ((s + 2) / 3) by (unfold s; field).
      replace (2 / 3 - x) with ((s + 1) / 3) by (unfold s; field).
      replace (1 / 3 - x) with (s / 3) by (unfold s; field). clearbody s.
      match goal with |- 0 <= ?g => replace g with (10 * s ^ 5 - 20 * s ^ 4 - 20 * s ^ 3 + 20 * s ^ 2 + 50 * s + 26) by field end.
      assert (0 <= s ^ 5) by (apply pow_nonneg; lra). cbn [pow] in *.
      assert (0 <= s * s <= 1) by nra. assert (0 <= s * (s * s) <= s) by nra.
      assert (0 <= (s * s) * (s * s) <= s * s) by nra. lra.
    + rewrite (Ein _ (2 / 3)), (Eout _ (1 / 3)) by lra. set (u := 2 - 3 * x).
      assert (Hs : 0 < u <= 1) by (unfold u; lra).
      replace (1 - x) with ((u + 1) / 3) by (unfold u; field).
      replace (2 / 3 - x) with (u / 3) by (unfold u; field). clearbody u.
      match goal with |- 0 <= ?g => replace g with (1 + 5 * u + 10 * u ^ 2 + 10 * u ^ 3 + 5 * u ^ 4 * (1 - u)) by field end.
      pose proof (pow_nonneg u 2). pose proof (pow_nonneg u 3). pose proof (pow_nonneg u 4).
      assert (0 <= u ^ 4 * (1 - u)) by (apply Rmult_le_pos; [apply pow_nonneg|]; lra). lra.
    + rewrite (Eout _ (2 / 3)), (Eout _ (1 / 3)) by lra. pose proof (pow_nonneg (1 - x) 5). lra.
  - destruct n as [|[|[|[|n]]]]; try lia; unfold pieces, spl; cbn [suml fst snd]; rewrite !(Ein _ 1) by lra.
    + replace (4 * (1 - x) ^ 3 + (-3 * (1 - x) ^ 4 + 0)) with ((1 - x) ^ 3 * (3 * x + 1)) by ring.
      apply Rmult_le_pos; [apply pow_nonneg; lra|lra].
    + replace (5 * (1 - x) ^ 4 + (-4 * (1 - x) ^ 5 + 0)) with ((1 - x) ^ 4 * (4 * x + 1)) by ring.
      apply Rmult_le_pos; [apply pow_nonneg; lra|lra].
    + replace (5 * (1 - x) ^ 4 + (-4 * (1 - x) ^ 5 + 0)) with ((1 - x) ^ 4 * (4 * x + 1)) by ring.
      apply Rmult_le_pos; [apply pow_nonneg; lra|lra].
  - pose proof (pow_nonneg x 2) as X2.
    destruct n as [|[|[|[|n]]]]; try lia; unfold pieces, spl; cbn [suml fst snd]; rewrite !(Ein _ 1) by lra.
    + match goal with |- 0 <= ?g => replace g with ((1 - x) ^ 5 * (1 + 5 * x + 8 * x ^ 2)) by ring end.
      apply Rmult_le_pos; [apply pow_nonneg; lra|lra].
    + match goal with |- 0 <= ?g => replace g with ((1 - x) ^ 6 * (1 + 6 * x + 35 / 3 * x ^ 2)) by field end.
      apply Rmult_le_pos; [apply pow_nonneg; lra|lra].
    + match goal with |- 0 <= ?g => replace g with ((1 - x) ^ 6 * (1 + 6 * x + 35 / 3 * x ^ 2)) by field end.
      apply Rmult_le_pos; [apply pow_nonneg; lra|lra].
  - pose proof (pow_nonneg x 2) as X2. pose proof (pow_nonneg x 3) as X3.
    destruct n as [|[|[|[|n]]]]; try lia; unfold pieces, spl; cbn [suml fst snd]; rewrite !(Ein _ 1) by lra.
    + match goal with |- 0 <= ?g => replace g with ((1 - x) ^ 7 * (1 + 7 * x + 19 * x ^ 2 + 21 * x ^ 3)) by ring end.
      apply Rmult_le_pos; [apply pow_nonneg; lra|lra].
    + match goal with |- 0 <= ?g => replace g with ((1 - x) ^ 8 * (1 + 8 * x + 25 * x ^ 2 + 32 * x ^ 3)) by ring end.
      apply Rmult_le_pos; [apply pow_nonneg; lra|lra].
    + match goal with |- 0 <= ?g => replace g with ((1 - x) ^ 8 * (1 + 8 * x + 25 * x ^ 2 + 32 * x ^ 3)) by ring end.
      apply Rmult_le_pos; [apply pow_nonneg; lra|lra].
Qed.

Lemma pieces_end si k n h r : poly k -> (1 <= n <= 3)%nat -> 0 < h -> h <= r ->
  kernel si k n r h = 0 /\ gfactor si k n r h = 0.
Proof.
  intros Hk Hn Hh Hr. rewrite kernel_spl, gradient_spl by (auto; lra).
  assert (spl (pieces k n) h r = 0 /\ dspl (pieces k n) h r = 0) as (-> & ->).
  { destruct Hk as [->|[->|[->|[->| ->]]]]; destruct n as [|[|[|[|n]]]]; try lia;
      unfold pieces, spl, dspl; cbn [suml fst snd]; rewrite !edge_out by lra; split; ring. }
  split; [ring|]. unfold Rdiv. ring.
Qed.

Theorem C32_spline_and_wendland si k n h :
  poly k -> (1 <= n <= 3)%nat -> 0 < h ->
  (forall r, 0 <= r -> 0 <= kernel si k n r h) /\
  (forall r, h <= r -> kernel si k n r h = 0) /\
  (forall vecP i, h <= norm n vecP -> kernel_gradient si k n vecP h i = 0).
Proof.
  intros Hk Hn Hh. split; [|split].
  - intros r Hr. rewrite kernel_spl by auto. apply Rmult_le_pos.
    + apply Rlt_le, Rdiv_lt_0_compat; [now apply sigma_pos|apply pow_lt, Hh].
    + now apply spl_nonneg.
  - intros r Hr. now apply (pieces_end si).
  - intros v i Hv. unfold kernel_gradient.
    rewrite (proj2 (pieces_end si k n h _ Hk Hn Hh Hv)). ring.
Qed.

(** The truncated Gaussian and the sinc kernel: not negative and zero beyond
    h.  (The super-Gaussian takes negative values, as its comment says; the
    Gaussian is cut where its value is not zero.) *)
Lemma sinc_sigma_pos si n : 1 <= si <= 12 -> 0 < sinc_sigma si n.
Proof.
  intros Hs. unfold sinc_sigma. pose proof (sqrt_sqrt si ltac:(lra)) as Hq.
  assert (H1 : 1 <= sqrt si) by (rewrite <- sqrt_1; apply sqrt_le_1; lra).
  assert (Hi : 0 < / sqrt si) by (apply Rinv_0_lt_compat; lra).
  assert (Hi2 : 0 < / si) by (apply Rinv_0_lt_compat; lra).
  assert (Hi3 : 0 < / (si * si) <= 1).
  { split; [apply Rinv_0_lt_compat; nra|]. rewrite <- Rinv_1. apply Rinv_le_contravar; nra. }
  apply pick_pos; unfold si_b0, si_b1, si_b2, si_b3, pick.
  - assert (0 < 73658324 / 1000000000 * / sqrt si) by (apply Rmult_lt_0_compat; lra). lra.
  - assert (0 < 19358485 / 1000000000 * / si) by (apply Rmult_lt_0_compat; lra). lra.
  - assert (0 < sqrt si * si) by nra. nra.
Qed.

Theorem C32_gaussian_and_sinc si n h :
  (1 <= n <= 3)%nat -> 0 < h -> 1 <= si <= 12 ->
  (forall r, 0 <= r -> 0 <= kernel si gaussian n r h /\ 0 <= kernel si sinc_ker n r h) /\
  (forall r, h < r -> kernel si gaussian n r h = 0) /\
  (forall r, h <= r -> kernel si sinc_ker n r h = 0) /\
  (forall vecP i k, k = gaussian \/ k = super_gaussian \/ k = sinc_ker ->
     h <= norm n vecP -> kernel_gradient si k n vecP h i = 0).
Proof.
  intros Hn Hh Hsi. assert (Hp : 0 < h ^ n) by (apply pow_lt, Hh).
  split; [|split; [|split]].
  - intros r Hr. split; cbn [kernel].
    + unfold W_gaussian. destruct (Rleb _ _); [|lra].
      apply Rmult_le_pos; [|apply Rlt_le, exp_pos].
      apply Rlt_le, Rdiv_lt_0_compat; [|exact Hp]. apply pick_pos; lra.
    + unfold W_sinc. destruct (Rltb _ _); [|lra].
      apply Rmult_le_pos; [|apply Rlt_le, exp_pos].
      apply Rlt_le, Rdiv_lt_0_compat; [|exact Hp]. now apply sinc_sigma_pos.
  - intros r Hr. cbn [kernel]. unfold W_gaussian.
    rewrite (proj2 (Rleb_false _ _)); [reflexivity|]. apply Rlt_div_r; lra.
  - intros r Hr. cbn [kernel]. unfold W_sinc.
    rewrite (proj2 (Rltb_false _ _)); [reflexivity|].
    rewrite Rabs_pos_eq; [apply Rle_div_r; lra|apply Rle_div_r; lra].
  - intros v i k Hk Hv. unfold kernel_gradient.
    replace (gfactor si k n (norm n v) h) with 0; [ring|]. symmetry.
    assert (F3 : Rltb (3 * norm n v / h) 3 = false) by (apply Rltb_false, Rle_div_r; lra).
    destruct Hk as [->|[->| ->]]; cbn [gfactor].
    + unfold G_gaussian. now rewrite F3.
    + unfold G_super. rewrite F3. unfold b2r. ring.
    + unfold G_sinc. rewrite (proj2 (Rltb_false _ _)); [reflexivity|].
      rewrite Rabs_pos_eq; apply Rle_div_r; lra.
Qed.

Example C32_case : kernel 4 wendland_c2 3 0 1 = 21 / (2 * PI) /\ kernel 4 cubic_spline 1 (1 / 2) 1 = 1 / 3.
Proof.
  pose proof PI_RGT_0.
  split; cbn [kernel].
  - unfold W_wc2, wc2_sigma, pick. rewrite (proj2 (Rltb_true _ _)) by lra. cbn [b2r]. field. lra.
  - unfold W_cubic, cubic_sigma, pick. rewrite (proj2 (Rltb_true _ _)) by lra.
    rewrite (proj2 (Rltb_false _ _)) by lra. field.
Qed.

(** ** C33 *)

(** The gradient of a radial function W(|x|) at x is W'(|x|) x / |x|.  The
    code divides by |x| + TINY to avoid a division by zero. *)
Definition is_gradient (W : R -> R) (n : nat) (x : point) (g : point) : Prop :=
  exists d, is_derive W (norm n x) d /\ forall i, g i = d * x i / (norm n x + TINY).

Lemma norm_nonneg n x : 0 <= norm n x.
Proof. apply sqrt_pos. Qed.

(** Exactly for the spline and Wendland kernels at every position. *)
Theorem C33_spline_and_wendland si k n x h :
  poly k -> (1 <= n <= 3)%nat -> 0 < h ->
  is_gradient (fun r => kernel si k n r h) n x (kernel_gradient si k n x h).
Proof.
  intros Hk Hn Hh. exists (sigma k n / h ^ n * dspl (pieces k n) h (norm n x)). split.
  - apply (is_derive_ext (fun r => sigma k n / h ^ n * spl (pieces k n) h r)).
    + intro r. symmetry. now apply kernel_spl.
    + apply is_derive_scal, spl_derive, Hh.
  - intro i. unfold kernel_gradient. rewrite gradient_spl by (auto; apply norm_nonneg).
    unfold Rdiv. ring.
Qed.

Lemma near_lt (f g : R -> R) c x d :
  (forall y, y < c -> f y = g y) -> x < c -> is_derive g x d -> is_derive f x d.
Proof.
  intros E Hx Hd. apply (is_derive_ext_loc g); [|exact Hd].
  exists (mkposreal (c - x) ltac:(lra)). intros y Hy.
  apply Rabs_def2 in Hy. cbn in Hy. unfold minus, plus, opp in Hy; cbn in Hy.
  symmetry. apply E. lra.
Qed.

Lemma near_gt (f g : R -> R) c x d :
  (forall y, c < y -> f y = g y) -> c < x -> is_derive g x d -> is_derive f x d.
Proof.
  intros E Hx Hd. apply (is_derive_ext_loc g); [|exact Hd].
  exists (mkposreal (x - c) ltac:(lra)). intros y Hy.
  apply Rabs_def2 in Hy. cbn in Hy. unfold minus, plus, opp in Hy; cbn in Hy.
  symmetry. apply E. lra.
Qed.

Lemma near_in (f g : R -> R) a b x d :
  (forall y, a < y < b -> f y = g y) -> a < x < b -> is_derive g x d -> is_derive f x d.
Proof.
  intros E Hx Hd. apply (is_derive_ext_loc g); [|exact Hd].
  assert (Hm : 0 < Rmin (x - a) (b - x)) by (apply Rmin_pos; lra).
  pose proof (Rmin_l (x - a) (b - x)). pose proof (Rmin_r (x - a) (b - x)).
  exists (mkposreal _ Hm). intros y Hy.
  apply Rabs_def2 in Hy. cbn in Hy. unfold minus, plus, opp in Hy; cbn in Hy.
  symmetry. apply E. lra.
Qed.

Lemma div3 r h : 0 < h -> (3 * r / h < 3 <-> r < h) /\ (3 * r / h <= 3 <-> r <= h).
Proof.
  intros Hh. split; split; intro H.
  - apply Rlt_div_l in H; lra.
  - apply Rlt_div_l; lra.
  - apply Rle_div_l in H; lra.
  - apply Rle_div_l; lra.
Qed.

(** The Gaussians are cut off at |x| = h, where they jump: at every other
    position the gradient is right. *)
Theorem C33_gaussians si k n x h :
  k = gaussian \/ k = super_gaussian -> (1 <= n <= 3)%nat -> 0 < h -> norm n x <> h ->
  is_gradient (fun r => kernel si k n r h) n x (kernel_gradient si k n x h).
Proof.
  intros Hk Hn Hh Hne. pose proof (norm_nonneg n x) as Hr. pose proof TINY_pos as Ht.
  unfold is_gradient, kernel_gradient. generalize dependent (norm n x). intros r Hne Hr.
  assert (Hp : h ^ n <> 0) by (apply pow_nonzero; lra).
  assert (Hp1 : h ^ (n + 1) = h ^ n * h) by (rewrite pow_add; ring).
  destruct (Rlt_le_dec r h) as [L|L].
  - assert (F : Rltb (3 * r / h) 3 = true) by (apply Rltb_true, div3; lra).
    destruct Hk as [-> | ->]; cbn [kernel gfactor].
    + exists (3 * gaussian_sigma n / h ^ (n + 1) * (-2 * (3 * r / h) * exp (- (3 * r / h) * (3 * r / h)))).
      split.
      * apply (near_lt _ (fun r => gaussian_sigma n / h ^ n * exp (- (3 * r / h) * (3 * r / h))) h); [|lra|].
        -- intros y Hy. unfold W_gaussian. rewrite (proj2 (Rleb_true _ _)); [reflexivity|]. apply div3; lra.
        -- auto_derive; [exact I|]. rewrite Hp1. unfold Rdiv. field. lra.
      * intro i. unfold G_gaussian. rewrite F. field. split; [lra|]. rewrite Hp1. nra.
    + exists (3 * super_gaussian_sigma n / h ^ (n + 1) *
        (exp (- (3 * r / h) * (3 * r / h)) * (2 * (3 * r / h) ^ 3 - (INR n + 4) * (3 * r / h)))).
      split.
      * apply (near_in _ (fun r => super_gaussian_sigma n / h ^ n * exp (- ((3 * r / h) * (3 * r / h))) *
          (INR n / 2 + 1 - (3 * r / h) * (3 * r / h))) (- h) h); [|lra|].
        -- intros y Hy. unfold W_super. rewrite (proj2 (Rltb_true _ _)); [unfold b2r; ring|].
           apply Rabs_def1; [apply div3; lra|].
           apply Rlt_div_r; lra.
        -- auto_derive; [exact I|]. rewrite Hp1.
           replace (- (3 * r / h) * (3 * r / h)) with (- (3 * r / h * (3 * r / h))) by ring.
           unfold Rdiv. field. lra.
      * intro i. unfold G_super. rewrite F. unfold b2r. field. split; [lra|]. rewrite Hp1. nra.
  - assert (F : Rltb (3 * r / h) 3 = false) by (apply Rltb_false, Rle_div_r; lra).
    exists 0. split.
    + apply (near_gt _ (fun _ => 0) h); [|lra|apply is_derive_Reals, derivable_pt_lim_const].
      intros y Hy. destruct Hk as [-> | ->]; cbn [kernel].
      * unfold W_gaussian. rewrite (proj2 (Rleb_false _ _)); [reflexivity|]. apply Rlt_div_r; lra.
      * unfold W_super. rewrite (proj2 (Rltb_false _ _)); [unfold b2r; ring|].
        rewrite Rabs_pos_eq; apply Rle_div_r; lra.
    + intro i. destruct Hk as [-> | ->]; cbn [gfactor].
      * unfold G_gaussian. rewrite F. unfold Rdiv. ring.
      * unfold G_super. rewrite F. unfold b2r, Rdiv. ring.
Qed.

Lemma eps_root4_val : eps_root4 = 1 / 10 ^ 6.
Proof.
  unfold eps_root4, eps.
  replace (1 / 10 ^ 24) with ((1 / 10 ^ 12) * (1 / 10 ^ 12)) by field.
  rewrite sqrt_square by lra.
  replace (1 / 10 ^ 12) with ((1 / 10 ^ 6) * (1 / 10 ^ 6)) by field.
  apply sqrt_square. lra.
Qed.

(** The sinc kernel, outside the branch for tiny arguments (and off the edge). *)
Theorem C33_sinc si n x h :
  (1 <= n <= 3)%nat -> 0 < h -> norm n x <> h -> 1 / 10 ^ 6 < norm n x / h * PI ->
  is_gradient (fun r => kernel si sinc_ker n r h) n x (kernel_gradient si sinc_ker n x h).
Proof.
  intros Hn Hh Hne Hb. pose proof (norm_nonneg n x) as Hr. pose proof TINY_pos as Ht.
  pose proof PI_RGT_0 as Hpi. pose proof eps_root4_val as He.
  unfold is_gradient, kernel_gradient. generalize dependent (norm n x). intros r Hne Hb Hr.
  assert (Hp : h ^ n <> 0) by (apply pow_nonzero; lra).
  assert (Hp1 : h ^ (n + 1) = h ^ n * h) by (rewrite pow_add; ring).
  assert (Hr0 : 0 < r).
  { destruct (Req_dec r 0) as [->|]; [|lra]. unfold Rdiv in Hb. rewrite !Rmult_0_l in Hb. lra. }
  cbn [kernel gfactor].
  destruct (Rlt_le_dec r h) as [L|L].
  - assert (Hx1 : 0 < r / h < 1) by (split; [apply Rdiv_lt_0_compat; lra|apply Rlt_div_l; lra]).
    set (f := fun r => sinc_sigma si n / h ^ n * Rpower (sin (r / h * PI) / (r / h * PI)) si).
    exists (sinc_sigma si n / h ^ (n + 1) *
      (- si * Rpower (sin (r / h * PI) / (r / h * PI)) (si - 1) * PI *
       (sin (r / h * PI) / (r / h * PI) / (r / h * PI) - cos (r / h * PI) / (r / h * PI)))).
    split.
    + assert (Hlo : 1 / 10 ^ 6 / PI * h < r).
      { apply (Rmult_lt_reg_r (PI / h)); [apply Rdiv_lt_0_compat; lra|].
        replace (1 / 10 ^ 6 / PI * h * (PI / h)) with (1 / 10 ^ 6) by (field; lra).
        replace (r * (PI / h)) with (r / h * PI) by (field; lra). exact Hb. }
      apply (near_in _ f (1 / 10 ^ 6 / PI * h) h); [|lra|].
      * intros y Hy. unfold W_sinc, f.
        assert (Hc : 0 < 1 / 10 ^ 6 / PI * h) by (apply Rmult_lt_0_compat; [apply Rdiv_lt_0_compat|]; lra).
        assert (Hy1 : 0 < y / h < 1) by (split; [apply Rdiv_lt_0_compat; lra|apply Rlt_div_l; lra]).
        rewrite Rabs_pos_eq by lra. rewrite (proj2 (Rltb_true _ _)) by lra.
        rewrite (proj2 (Rltb_true _ _)); [reflexivity|]. rewrite He.
        apply (Rmult_lt_reg_r (h / PI)); [apply Rdiv_lt_0_compat; lra|].
        replace (1 / 10 ^ 6 * (h / PI)) with (1 / 10 ^ 6 / PI * h) by (field; lra).
        replace (y / h * PI * (h / PI)) with y by (field; lra). lra.
      * assert (Hs : 0 < sin (r / h * PI)) by (apply sin_gt_0; nra).
        assert (Hx0 : 0 < r / h * PI) by nra.
        assert (Hq : 0 < sin (r / h * PI) / (r / h * PI)) by (apply Rdiv_lt_0_compat; assumption).
        unfold f, Rpower. auto_derive.
        -- split; [lra|]. split; [|exact I]. exact Hq.
        -- assert (Eq : exp ((si - 1) * ln (sin (r / h * PI) / (r / h * PI))) =
             exp (si * ln (sin (r / h * PI) / (r / h * PI))) / (sin (r / h * PI) / (r / h * PI))).
           { replace ((si - 1) * ln (sin (r / h * PI) / (r / h * PI)))
               with (si * ln (sin (r / h * PI) / (r / h * PI)) + - ln (sin (r / h * PI) / (r / h * PI))) by ring.
             rewrite exp_plus, exp_Ropp, exp_ln by exact Hq. reflexivity. }
           rewrite Eq, Hp1. clear Eq. unfold Rdiv in *.
           generalize dependent (sin (r * / h * PI)). intros sn Hs Hq.
           generalize (exp (si * ln (sn * / (r * / h * PI)))). intro ex.
           field. repeat split; try lra; try assumption.
    + intro i. unfold G_sinc. rewrite Rabs_pos_eq by lra. rewrite (proj2 (Rltb_true _ _)) by lra.
      rewrite (proj2 (Rltb_true eps_root4 _)) by (rewrite He; exact Hb).
      unfold Rdiv. ring.
  - assert (1 <= Rabs (r / h)) by (rewrite Rabs_pos_eq; apply Rle_div_r; lra).
    exists 0. split.
    + apply (near_gt _ (fun _ => 0) h); [|lra|apply is_derive_Reals, derivable_pt_lim_const].
      intros y Hy. unfold W_sinc. rewrite (proj2 (Rltb_false _ _)); [reflexivity|].
      rewrite Rabs_pos_eq; apply Rle_div_r; lra.
    + intro i. unfold G_sinc. rewrite (proj2 (Rltb_false _ _)) by assumption. unfold Rdiv. ring.
Qed.

(** Inside that branch (0 < r pi/h <= 10^-6) the coded gradient is not the
    derivative of the coded kernel. *)
Lemma norm1 (a : R) : 0 <= a -> norm 1 (fun _ => a) = a.
Proof.
  intros. unfold norm, dot. cbn [sumn]. rewrite Rplus_0_l || rewrite Rplus_0_r. apply sqrt_square. assumption.
Qed.

Theorem C33_sinc_small_refuted :
  exists si n x h, (1 <= n <= 3)%nat /\ 0 < h /\ 0 < norm n x /\ 3 <= si <= 12 /\
    ~ is_gradient (fun r => kernel si sinc_ker n r h) n x (kernel_gradient si sinc_ker n x h).
Proof.
  pose proof PI_RGT_0 as Hpi. pose proof TINY_pos as Ht. pose proof eps_root4_val as He.
  assert (Hpi4 : PI <= 4) by apply PI_4.
  pose (x0 := 1 / 10 ^ 7 / PI).
  assert (Hx0 : 0 < x0) by (apply Rdiv_lt_0_compat; lra).
  assert (Hxp : x0 * PI = 1 / 10 ^ 7) by (unfold x0; field; lra).
  assert (Hx1 : x0 < 1 / 10 ^ 6).
  { unfold x0. apply Rlt_div_l; [lra|]. pose proof PI2_3_2. lra. }
  exists 3, 1%nat, (fun _ => x0), 1. rewrite norm1 by lra.
  split; [lia|]. split; [lra|]. split; [exact Hx0|]. split; [lra|].
  intros (d & Hd & Hg). specialize (Hg 0%nat). rewrite norm1 in Hd, Hg by lra.
  cbn [kernel] in Hd.
  set (q := fun r => 1 + (r * PI) * (r * PI) * (5 / 100 * ((r * PI) * (r * PI)) - 1) / 6).
  assert (Hd' : is_derive (fun r => W_sinc 3 1 r 1) x0
     (sinc_sigma 3 1 * (3 * (q x0) ^ 2 * (PI * (4 * (5 / 100) * (x0 * PI) ^ 3 - 2 * (x0 * PI)) / 6)))).
  { apply (near_in _ (fun r => sinc_sigma 3 1 * (q r) ^ 3) (1 / 10 ^ 24 / PI) (1 / 10 ^ 6 / PI)).
    - intros y Hy.
      assert (Hlo : 1 / 10 ^ 24 < y * PI).
      { destruct Hy as (Hy & _). apply (Rmult_lt_compat_r PI) in Hy; [|lra].
        replace (1 / 10 ^ 24 / PI * PI) with (1 / 10 ^ 24) in Hy by (field; lra). exact Hy. }
      assert (Hhi : y * PI < 1 / 10 ^ 6).
      { destruct Hy as (_ & Hy). apply (Rmult_lt_compat_r PI) in Hy; [|lra].
        replace (1 / 10 ^ 6 / PI * PI) with (1 / 10 ^ 6) in Hy by (field; lra). exact Hy. }
      assert (Hy0 : 0 < y) by nra. assert (Hy1 : y < 1) by (pose proof PI2_3_2; nra).
      unfold W_sinc. replace (y / 1) with y by field. rewrite Rabs_pos_eq by lra.
      rewrite (proj2 (Rltb_true _ _)) by lra.
      rewrite (proj2 (Rltb_false _ _)) by (rewrite He; lra).
      rewrite (proj2 (Rltb_true eps _)) by (unfold eps; lra).
      fold (q y). replace (Rpower (q y) 3) with ((q y) ^ 3).
      + field.
      + replace 3 with (INR 3) by (cbn; ring). symmetry. apply Rpower_pow.
        unfold q. generalize dependent (y * PI). intros z Hz1 Hz2.
        assert (0 <= z * z <= 1) by nra. nra.
    - split; unfold x0; apply Rmult_lt_compat_r; try lra; apply Rinv_0_lt_compat; lra.
    - unfold q. generalize (sinc_sigma 3 1). intro s. auto_derive; [exact I|]. field. }
  pose proof (is_derive_unique _ _ _ Hd) as U1. pose proof (is_derive_unique _ _ _ Hd') as U2.
  assert (Ed : d = sinc_sigma 3 1 * (3 * (q x0) ^ 2 * (PI * (4 * (5 / 100) * (x0 * PI) ^ 3 - 2 * (x0 * PI)) / 6)))
    by (etransitivity; [symmetry; exact U1|exact U2]).
  rewrite Ed in Hg. clear U1 U2 Ed Hd Hd' d.
  unfold kernel_gradient in Hg. rewrite norm1 in Hg by lra. cbn [gfactor] in Hg.
  unfold G_sinc in Hg. replace (x0 / 1) with x0 in Hg by field.
  rewrite Rabs_pos_eq in Hg by lra.
  rewrite (proj2 (Rltb_true x0 1)) in Hg by lra.
  unfold q in Hg. rewrite Hxp in Hg.
  rewrite (proj2 (Rltb_false _ _)) in Hg by (rewrite He; lra).
  rewrite (proj2 (Rltb_true eps _)) in Hg by (unfold eps; lra).
  assert (Hs : 0 < sinc_sigma 3 1) by (apply sinc_sigma_pos; lra).
  set (s := sinc_sigma 3 1) in *. clearbody s. clearbody x0. clear q.
  set (A := - (3) * (1 / 10 ^ 7) / 3 * (1 - 5 / 10 * (1 / 10 ^ 7 * (1 / 10 ^ 7)) * (2 / 10 - (3 - 1) / 18))).
  set (B := 3 * (1 + 1 / 10 ^ 7 * (1 / 10 ^ 7) * (5 / 100 * (1 / 10 ^ 7 * (1 / 10 ^ 7)) - 1) / 6) ^ 2 *
    ((4 * (5 / 100) * (1 / 10 ^ 7) ^ 3 - 2 * (1 / 10 ^ 7)) / 6)).
  assert (Hab : A <> B) by (unfold A, B; lra).
  assert (Hz : s * PI * x0 / (x0 + TINY) * (A - B) = 0).
  { match type of Hg with ?u = ?v => transitivity (u - v); [|rewrite Hg; ring] end.
    unfold A, B. rewrite pow1. field. lra. }
  apply Rmult_integral in Hz. destruct Hz as [Hz|Hz]; [|lra].
  assert (0 < s * PI * x0 / (x0 + TINY)); [|lra].
  apply Rdiv_lt_0_compat; [|lra]. apply Rmult_lt_0_compat; [|lra]. apply Rmult_lt_0_compat; lra.
Qed.

(** Reversing the vector reverses the gradient. *)
Theorem C33_antisymmetric si k n x h i :
  kernel_gradient si k n (fun j => - x j) h i = - kernel_gradient si k n x h i.
Proof.
  unfold kernel_gradient. replace (norm n (fun j => - x j)) with (norm n x); [ring|].
  unfold norm. f_equal. unfold dot. apply sumn_ext. intros. ring.
Qed.

Example C33_case : norm 3 (fun i => match i with 0%nat => 3 | 1%nat => 4 | _ => 0 end) = 5.
Proof. unfold norm, dot. cbn [sumn]. replace (_ + _) with (5 * 5) by ring. apply sqrt_square. lra. Qed.

(** ** C34 *)

(** Length, circumference and area of the sphere of radius r. *)
Definition shell (n : nat) (r : R) : R :=
  match n with 1%nat => 2 | 2%nat => 2 * PI * r | _ => 4 * PI * r ^ 2 end.

Definition unit_integral (W : R -> R) (n : nat) (h : R) : Prop :=
  is_RInt (fun r => shell n r * W r) 0 h 1.

Definition shell_c (n : nat) : R := match n with 1%nat => 2 | 2%nat => 2 * PI | _ => 4 * PI end.

Lemma kernel_int si k n h : poly k -> (1 <= n <= 3)%nat -> 0 < h ->
  is_RInt (fun r => shell n r * kernel si k n r h) 0 h
    (shell_c n * (sigma k n / h ^ n) * smom (n - 1) (pieces k n) h).
Proof.
  intros Hk Hn Hh.
  eapply is_RInt_ext; [|apply (is_RInt_scal (V := R_NormedModule) (fun r => r ^ (n - 1) * spl (pieces k n) h r))].
  - intros x _. cbn beta. rewrite kernel_spl by auto. unfold scal; cbn. unfold mult; cbn.
    unfold shell, shell_c. destruct n as [|[|[|[|n]]]]; try lia; cbn [Nat.sub pow]; ring.
  - apply spl_int; [exact Hh|lia|].
    destruct Hk as [->|[->|[->|[->| ->]]]]; destruct n as [|[|[|[|n]]]]; try lia;
      unfold pieces; repeat (apply Forall_cons; [cbn [snd]; lra|]); apply Forall_nil.
Qed.

Lemma smom_sigma k n h : poly k -> (1 <= n <= 3)%nat -> 0 < h ->
  shell_c n * (sigma k n / h ^ n) * smom (n - 1) (pieces k n) h =
  match k, n with quintic_spline, 3%nat => 360 / 359 | _, _ => 1 end.
Proof.
  intros Hk Hn Hh. pose proof PI_RGT_0.
  destruct Hk as [->|[->|[->|[->| ->]]]]; destruct n as [|[|[|[|n]]]]; try lia;
    unfold sigma, cubic_sigma, quintic_sigma, wc2_sigma, wc4_sigma, wc6_sigma, pick, shell_c, smom, mom, pieces;
    cbn [suml fst snd Nat.sub Nat.add]; rewrite ?S_INR; change (INR 0) with 0; field; lra.
Qed.

Theorem C34_normalised si k n h :
  poly k -> (1 <= n <= 3)%nat -> 0 < h -> ~ (k = quintic_spline /\ n = 3%nat) ->
  unit_integral (fun r => kernel si k n r h) n h.
Proof.
  intros Hk Hn Hh Hq. unfold unit_integral.
  pose proof (kernel_int si k n h Hk Hn Hh) as I. rewrite smom_sigma in I by auto.
  destruct Hk as [->|[->|[->|[->| ->]]]]; destruct n as [|[|[|[|n]]]]; try lia; try exact I.
  exfalso. apply Hq. auto.
Qed.

(** In 3D the quintic spline's constant is 81/(359 pi) instead of
    81/(360 pi): its integral is 360/359. *)
Theorem C34_quintic_3d_refuted si :
  (forall h, 0 < h -> is_RInt (fun r => shell 3 r * kernel si quintic_spline 3 r h) 0 h (360 / 359)) /\
  exists h, 0 < h /\ ~ unit_integral (fun r => kernel si quintic_spline 3 r h) 3 h.
Proof.
  assert (A : forall h, 0 < h -> is_RInt (fun r => shell 3 r * kernel si quintic_spline 3 r h) 0 h (360 / 359)).
  { intros h Hh. assert (Hk : poly quintic_spline) by (right; now left).
    pose proof (kernel_int si quintic_spline 3 h Hk ltac:(lia) Hh) as I.
    rewrite smom_sigma in I by (auto; lia). exact I. }
  split; [exact A|]. exists 1. split; [lra|]. intro I.
  assert (360 / 359 = 1).
  { pose proof (is_RInt_unique _ _ _ _ (A 1 Rlt_0_1)) as U1.
    pose proof (is_RInt_unique _ _ _ _ I) as U2.
    etransitivity; [symmetry; exact U1|exact U2]. }
  lra.
Qed.

Print Assumptions C32_spline_and_wendland.
Print Assumptions C32_gaussian_and_sinc.
Print Assumptions C33_spline_and_wendland.
Print Assumptions C33_gaussians.
Print Assumptions C33_sinc.
Print Assumptions C33_sinc_small_refuted.
Print Assumptions C34_normalised.
Print Assumptions C34_quintic_3d_refuted.
