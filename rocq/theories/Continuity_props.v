(** C105: the continuity equation.  The density sum of moving particles changes at the rate given by the trace of the velocity
    gradient of the viscosity switch; the stored velocity divergence is that of a particle moving through frozen neighbours,
    with the other sign. *)
From Coquelicot Require Import Coquelicot.
From Verif Require Import Base Vec Geometry_model Geometry_props Kernel_model Kernel_proofs Kernel_props Sph_model Sph_props SphMore_props.
Local Open Scope R_scope.

(** the particle after the time [t], when velocities do not change *)
Definition moved (t : R) (b : part) : part :=
  Part (vadd (p_pos b) (vscale t (p_vel b))) (p_vel b) (p_v12 b) (p_gacc b) (p_m b) (p_h b) (p_rho b) (p_P b) (p_c b) (p_alpha b) (p_divv b) (p_ddivv b).

Lemma norm_ext n x y : (forall i, (i < n)%nat -> x i = y i) -> norm n x = norm n y.
Proof. intros H. unfold norm, dot. f_equal. apply sumn_ext. intros i Hi. rewrite (H i Hi). reflexivity. Qed.
Lemma norm_line n x u : 0 < norm n x -> is_derive (fun t => norm n (vadd x (vscale t u))) 0 (dot n x u / norm n x).
Proof.
  intros Hx. assert (D : 0 < dot n x x) by (destruct (Rle_lt_dec (dot n x x) 0) as [Q|Q]; [|exact Q]; unfold norm in Hx; rewrite sqrt_neg_0 in Hx by exact Q; lra).
  apply (is_derive_ext (fun t => sqrt (dot n x x + 2 * t * dot n x u + t * t * dot n u u))).
  - intros t. unfold norm. f_equal. unfold dot, vadd, vscale. rewrite <- !sumn_scal, <- !sumn_plus. apply sumn_ext. intros; ring.
  - auto_derive; [rewrite ?Rmult_0_r, ?Rmult_0_l, ?Rplus_0_r; exact D|]. unfold norm. replace (dot n x x + 2 * 0 * dot n x u + 0 * 0 * dot n u u) with (dot n x x) by ring. field. apply Rgt_not_eq. apply sqrt_lt_R0, D.
Qed.
(** the kernel of a pair that moves apart with velocity [u] *)
Lemma pair_rate (V : R -> R) n x u g : 0 < norm n x -> is_gradient V n x g ->
  is_derive (fun t => V (norm n (vadd x (vscale t u)))) 0 ((1 + TINY / norm n x) * dot n u g).
Proof.
  intros Hx (d & Hd & Hg). pose proof TINY_pos as Ht.
  assert (E : (1 + TINY / norm n x) * dot n u g = dot n x u / norm n x * d).
  { unfold dot. rewrite (sumn_ext n _ (fun i => d / (norm n x + TINY) * (x i * u i))) by (intros i _; rewrite Hg; field; lra). rewrite sumn_scal. field. lra. }
  rewrite E. apply (is_derive_comp V (fun t => norm n (vadd x (vscale t u)))); [|apply norm_line, Hx].
  rewrite (norm_ext n (vadd x (vscale 0 u)) x) by (intros; unfold vadd, vscale; ring). exact Hd.
Qed.
Lemma derive_suml {A} (F : A -> R -> R) (D : A -> R) l x : (forall b, In b l -> is_derive (F b) x (D b)) -> is_derive (fun t => suml (fun b => F b t) l) x (suml D l).
Proof.
  induction l as [|b l IH]; intros H; cbn [suml]; [apply @is_derive_const|]. apply (is_derive_plus (F b) (fun t => suml (fun b => F b t) l)); [apply H; left; reflexivity | apply IH; intros c Hc; apply H; right; exact Hc].
Qed.

Section Rates.
Context (pr : params) (n : nat) (a : part) (Hk : poly (the_kernel pr)) (Hn : (1 <= n <= 3)%nat) (Ha : 0 < p_h a) (Hrho : p_rho a <> 0).
Notation r b := (norm n (vsub (p_pos a) (p_pos b))).
Notation vab b := (vsub (p_vel a) (p_vel b)).
Lemma grad_ok b : 0 < p_h b -> is_gradient (fun q => W pr n q (h_mean a b)) n (vsub (p_pos a) (p_pos b)) (DiW pr n a b).
Proof. intros Hb. apply C33_spline_and_wendland; [exact Hk | exact Hn | unfold h_mean; lra]. Qed.
Lemma tiny_sum (c : part -> R) l : (forall b, In b l -> 0 <= p_m b) ->
  Rabs (suml (fun b => p_m b * ((1 + TINY / r b) * c b)) l - suml (fun b => p_m b * c b) l) <= TINY * suml (fun b => p_m b * Rabs (c b) * / r b) l.
Proof.
  intros Hm. rewrite <- suml_minus, <- suml_scal. induction l as [|b l IH]; cbn [suml]; [rewrite Rabs_R0; lra|]. eapply Rle_trans; [apply Rabs_triang|]. apply Rplus_le_compat; [|apply IH; intros q Hq; apply Hm; right; exact Hq].
  replace (p_m b * ((1 + TINY / r b) * c b) - p_m b * c b) with (TINY * (p_m b * c b * / r b)) by (unfold Rdiv; ring). pose proof TINY_pos. rewrite Rabs_mult, (Rabs_pos_eq TINY) by lra. apply Rmult_le_compat_l; [lra|].
  rewrite !Rabs_mult, (Rabs_pos_eq (p_m b)) by (apply Hm; left; reflexivity). apply Rmult_le_compat_l; [apply Rmult_le_pos; [apply Hm; left; reflexivity | apply Rabs_pos]|].
  destruct (Req_dec (r b) 0) as [->|Hr]; [rewrite Rinv_0, Rabs_R0; lra|]. rewrite Rabs_pos_eq; [lra|]. apply Rlt_le, Rinv_0_lt_compat. pose proof (norm_nonneg n (vsub (p_pos a) (p_pos b))). lra.
Qed.
(** All particles move: the density of the particle changes at the rate - rho tr(grad v).  The error is that of the number
    added to the distance in the kernel gradient. *)
Theorem C105_continuity l : (forall b, In b l -> 0 <= p_m b /\ 0 < p_h b /\ (0 < r b \/ forall i, (i < n)%nat -> p_vel b i = p_vel a i)) ->
  exists d, is_derive (fun t => density pr n (moved t a) (map (moved t) l)) 0 d /\
  Rabs (d + p_rho a * sumn n (fun i => gradV pr n a l i i)) <= TINY * suml (fun b => p_m b * Rabs (dot n (vab b) (DiW pr n a b)) * / r b) l.
Proof.
  intros Hl. exists (suml (fun b => p_m b * ((1 + TINY / r b) * dot n (vab b) (DiW pr n a b))) l). split.
  - apply (is_derive_ext (fun t => suml (fun b => p_m b * W pr n (norm n (vadd (vsub (p_pos a) (p_pos b)) (vscale t (vab b)))) (h_mean a b)) l)).
    + intros t. unfold density. rewrite suml_map. apply suml_ext. intros b Hb. f_equal. unfold h_mean, moved. cbn [p_pos p_h]. f_equal. apply norm_ext. intros i Hi. unfold vadd, vsub, vscale. ring.
    + apply derive_suml. intros b Hb. destruct (Hl b Hb) as (_ & H2 & [H3|H3]); apply is_derive_scal.
      * apply (pair_rate (fun q => W pr n q (h_mean a b))); [exact H3 | apply grad_ok, H2].
      * replace (dot n (vab b) (DiW pr n a b)) with 0.
        2: { unfold dot. rewrite (sumn_ext n _ (fun _ => 0)); [symmetry; apply sumn_zero|]. intros i Hi. unfold vsub. rewrite (H3 i Hi). ring. }
        rewrite Rmult_0_r. apply (is_derive_ext (fun _ => W pr n (r b) (h_mean a b))); [|apply @is_derive_const]. intros t. f_equal. apply norm_ext. intros i Hi. unfold vadd, vsub, vscale. rewrite (H3 i Hi). ring.
  - replace (p_rho a * sumn n (fun i => gradV pr n a l i i)) with (- suml (fun b => p_m b * dot n (vab b) (DiW pr n a b)) l); [apply (tiny_sum (fun b => dot n (vab b) (DiW pr n a b))); intros b Hb; apply Hl, Hb|].
    unfold gradV. rewrite (sumn_ext n _ (fun i => / p_rho a * suml (fun b => p_m b * - vab b i * DiW pr n a b i) l)) by (intros; unfold Rdiv; ring). rewrite sumn_scal, <- Rmult_assoc, Rinv_r, Rmult_1_l by exact Hrho.
    rewrite <- suml_sumn. transitivity (suml (fun b => (-1) * (p_m b * dot n (vab b) (DiW pr n a b))) l); [rewrite suml_scal; ring|]. apply suml_ext. intros b Hb. unfold dot. rewrite <- !sumn_scal. apply sumn_ext. intros; ring.
Qed.
(** The neighbours stand still: the stored divergence is the rate of the density of the particle that moves through them,
    divided by the density. *)
Theorem C105_divergence l : (forall b, In b l -> 0 <= p_m b /\ 0 < p_h b /\ 0 < r b) ->
  exists d, is_derive (fun t => density pr n (moved t a) (moved t a :: l)) 0 d /\
  Rabs (d - p_rho a * divergence pr n a (a :: l)) <= TINY * suml (fun b => p_m b * Rabs (dot n (p_vel a) (DiW pr n a b)) * / r b) l.
Proof.
  intros Hl. exists (0 + suml (fun b => p_m b * ((1 + TINY / r b) * dot n (p_vel a) (DiW pr n a b))) l). split.
  - apply (is_derive_ext (fun t => p_m a * W pr n (norm n vzero) (h_mean a a) + suml (fun b => p_m b * W pr n (norm n (vadd (vsub (p_pos a) (p_pos b)) (vscale t (p_vel a)))) (h_mean a b)) l)).
    + intros t. unfold density. cbn [suml]. f_equal.
      * unfold h_mean, moved. cbn [p_pos p_h p_m]. f_equal. f_equal. apply norm_ext. intros i Hi. unfold vadd, vsub, vscale, vzero. ring.
      * apply suml_ext. intros b Hb. f_equal. unfold h_mean, moved. cbn [p_pos p_h]. f_equal. apply norm_ext. intros i Hi. unfold vadd, vsub, vscale. ring.
    + apply (is_derive_plus (fun _ => p_m a * W pr n (norm n vzero) (h_mean a a))); [apply @is_derive_const|]. apply derive_suml. intros b Hb. destruct (Hl b Hb) as (_ & H2 & H3). apply is_derive_scal. apply (pair_rate (fun q => W pr n q (h_mean a b))); [exact H3 | apply grad_ok, H2].
  - replace (p_rho a * divergence pr n a (a :: l)) with (suml (fun b => p_m b * dot n (p_vel a) (DiW pr n a b)) l).
    + rewrite Rplus_0_l. apply (tiny_sum (fun b => dot n (p_vel a) (DiW pr n a b))). intros b Hb. apply Hl, Hb.
    + unfold divergence. cbn [suml]. replace (dot n (p_vel a) (gradW pr n (vsub (p_pos a) (p_pos a)) (h_mean a a))) with 0.
      * unfold DiW. field. exact Hrho.
      * symmetry. unfold dot. rewrite (sumn_ext n _ (fun _ => 0)); [apply sumn_zero|]. intros i Hi. destruct (grad_ok a Ha) as (d & _ & G). unfold DiW in G. rewrite G. unfold vsub. unfold Rdiv. ring.
Qed.
(** The matrix of the viscosity switch is the symmetric part of the velocity gradient less the stored divergence: it is symmetric,
    what is left of the gradient is antisymmetric, and its trace is that of the gradient less the stored divergence. *)
Theorem C105_shear l : let rest := fun i j => gradV pr n a l i j - SymT pr n a l i j - (if Nat.eqb i j then p_divv a / INR n else 0) in
  (forall i j, SymT pr n a l i j = SymT pr n a l j i /\ rest i j = - rest j i) /\ sumn n (fun i => SymT pr n a l i i) = sumn n (fun i => gradV pr n a l i i) - p_divv a.
Proof using Hn.
  clear - Hn. intros rest. split.
  - intros i j. unfold rest, SymT. rewrite (Nat.eqb_sym j i). split; [lra|]. lra.
  - unfold SymT. rewrite (sumn_ext n _ (fun i => gradV pr n a l i i - p_divv a / INR n)) by (intros i Hi; rewrite Nat.eqb_refl; lra). rewrite <- (sumn_ext n (fun i => gradV pr n a l i i + - (p_divv a / INR n))) by (intros; lra). rewrite sumn_plus. destruct Hn as [H1 H2]. destruct n as [|[|[|[|m]]]]; try lia; cbn [sumn INR]; field.
Qed.
End Rates.

(** The stored divergence is not the trace of the velocity gradient, which it is subtracted from to leave the shear: a particle
    approaches one at rest; its density rises, the trace is negative and the divergence positive, and the matrix is not traceless. *)
Theorem C105_traceless_refuted : exists pr n a l, poly (the_kernel pr) /\ (1 <= n <= 3)%nat /\ 0 < p_h a /\ p_rho a = density pr n a l /\ 0 < p_rho a /\
  p_divv a = divergence pr n a l /\ sumn n (fun i => gradV pr n a l i i) < 0 < p_divv a /\ sumn n (fun i => SymT pr n a l i i) <> 0.
Proof.
  pose (pr := defaults wendland_c2 true). pose (b := at1 (1 / 2) 0 1 1 1 0 0). pose (a0 := at1 0 1 1 1 1 0 0).
  pose (at0 := fun rho dv => Part (fun _ => 0) (fun _ => 1) (fun _ => 1) vzero 1 1 rho 1 1 1 dv 0).
  pose (rho := density pr 1 a0 [a0; b]). pose (a1 := at0 rho 0). pose (dv := divergence pr 1 a1 [a1; b]). pose (a := at0 rho dv).
  assert (R0 : 0 < rho) by (apply C67_density_positive; [left; unfold poly; cbn; auto | lia | cbn; lra | left; reflexivity | intros c [<-|[<-|[]]]; cbn; lra]).
  pose (g := gradW pr 1 (vsub (p_pos a) (p_pos b)) (h_mean a b) 0%nat).
  assert (G : 0 < g).
  { unfold g, gradW, kernel_gradient. cbn [pr defaults the_kernel gfactor]. assert (N : norm 1 (vsub (p_pos a) (p_pos b)) = 1 / 2).
    { unfold norm, dot. cbn [sumn]. unfold vsub, a, at0, b. cbn [p_pos at1]. replace (0 + (0 - 1 / 2) * (0 - 1 / 2)) with (1 / 2 * (1 / 2)) by field. apply sqrt_square. lra. }
    rewrite N. assert (M : h_mean a b = 1) by (unfold h_mean, a, at0, b; cbn; lra). rewrite M. unfold G_wc2. cbv zeta. rewrite (proj2 (Rltb_true _ _)) by lra. cbn [b2r]. unfold wc2_sigma, pick, vsub, a, at0, b. cbn [p_pos at1]. pose proof TINY_pos.
    replace ((0 - 1 / 2) * (1 * (125 / 100 / (1 * 1) * (-12 * (1 / 2 / 1) * ((1 - 1 / 2 / 1) * (1 - 1 / 2 / 1))) / (1 / 2 + TINY)))) with (15 / 16 / (1 / 2 + TINY)) by (field; lra). apply Rdiv_lt_0_compat; lra. }
  assert (Z : gradW pr 1 (vsub (p_pos a) (p_pos a)) (h_mean a a) 0%nat = 0) by (unfold gradW, kernel_gradient, vsub; cbn [p_pos a at0]; ring).
  assert (D : dv = g / rho).
  { change dv with (divergence pr 1 a [a; b]). unfold divergence. cbn [suml]. unfold dot. cbn [sumn]. rewrite Z. fold g. change (p_rho a) with rho. unfold a, at0, b. cbn [p_m p_vel at1]. field. lra. }
  assert (T : gradV pr 1 a [a; b] 0 0 = - (g / rho)).
  { unfold gradV. cbn [suml]. unfold DiW. rewrite Z. fold g. change (p_rho a) with rho. unfold vsub, a, at0, b. cbn [p_m p_vel at1]. field. lra. }
  assert (P : 0 < g / rho) by (apply Rdiv_lt_0_compat; lra).
  exists pr, 1%nat, a, [a; b]. split; [unfold poly; cbn; auto|]. split; [lia|]. split; [cbn; lra|]. split; [reflexivity|]. split; [exact R0|]. split; [reflexivity|]. cbn [sumn]. rewrite T. change (p_divv a) with dv. split; [rewrite D; lra|].
  unfold SymT. cbn [Nat.eqb INR]. rewrite T. change (p_divv a) with dv. rewrite D. lra.
Qed.

(** C105_continuity: two particles in one dimension that approach each other; C105_divergence: the second at rest *)
Example C105_case : let pr := defaults wendland_c2 true in let a := at1 0 1 1 1 1 0 0 in let b := at1 (1 / 2) (-1) 2 1 1 0 0 in
  poly (the_kernel pr) /\ (1 <= 1 <= 3)%nat /\ 0 < p_h a /\ p_rho a <> 0 /\
  (forall c, In c [a; b] -> 0 <= p_m c /\ 0 < p_h c /\ (0 < norm 1 (vsub (p_pos a) (p_pos c)) \/ forall i, (i < 1)%nat -> p_vel c i = p_vel a i)) /\
  (forall c, In c [b] -> 0 <= p_m c /\ 0 < p_h c /\ 0 < norm 1 (vsub (p_pos a) (p_pos c))).
Proof.
  intros pr a b. assert (N : 0 < norm 1 (vsub (p_pos a) (p_pos b))).
  { unfold norm, dot. cbn [sumn]. unfold vsub, a, b. cbn [p_pos at1]. apply sqrt_lt_R0. lra. }
  split; [unfold poly; cbn; auto|]. split; [lia|]. split; [cbn; lra|]. split; [cbn; lra|]. split.
  - intros c [<-|[<-|[]]]; (split; [cbn; lra|]); (split; [cbn; lra|]); [right; reflexivity | left; exact N].
  - intros c [<-|[]]. split; [cbn; lra|]. split; [cbn; lra | exact N].
Qed.
Print Assumptions C105_continuity.
Print Assumptions C105_divergence.
Print Assumptions C105_traceless_refuted.

(** The mean of the signs of the divergences that the viscosity switch uses is a mean: with the density sum in the
    denominator it is between -1 and 1, and 1 where all neighbours expand, -1 where all contract. *)
Theorem C45_sign_mean pr n a l : poly (the_kernel pr) -> (1 <= n <= 3)%nat -> 0 < p_h a ->
  (forall b, In b l -> 0 <= p_m b /\ 0 < p_h b) -> p_rho a = density pr n a l -> 0 < p_rho a ->
  -1 <= R_a pr n a l <= 1 /\
  ((forall b, In b l -> 0 < p_divv b) -> R_a pr n a l = 1) /\ ((forall b, In b l -> p_divv b < 0) -> R_a pr n a l = -1).
Proof.
  intros Hk Hn Hh Hl Hr Hp.
  assert (W0 : forall b, In b l -> 0 <= p_m b * W pr n (norm n (vsub (p_pos a) (p_pos b))) (h_mean a b)).
  { intros b Hb. destruct (Hl b Hb). apply Rmult_le_pos; [lra|]. unfold W. apply C32_spline_and_wendland; auto; [unfold h_mean; lra|]. apply sqrt_pos. }
  assert (D : forall b, dist n (p_pos a) (p_pos b) = norm n (vsub (p_pos a) (p_pos b))).
  { intros b. first [reflexivity | apply dist_norm | unfold dist, norm; f_equal; unfold dot; apply sumn_ext; intros; unfold vsub; ring]. }
  assert (S : forall x, 0 < x -> signnum x = 1) by (intros x Hx; unfold signnum; rewrite (proj2 (Rltb_true _ _)) by exact Hx; reflexivity).
  assert (S' : forall x, x < 0 -> signnum x = -1) by (intros x Hx; unfold signnum; rewrite (proj2 (Rltb_false _ _)) by lra; rewrite (proj2 (Rltb_true _ _)) by exact Hx; reflexivity).
  assert (S1 : forall x, -1 <= signnum x <= 1).
  { intros x. unfold signnum. destruct (Rltb 0 x) eqn:E; [lra|]. destruct (Rltb x 0) eqn:E'; [lra|]. apply Rltb_false in E, E'. lra. }
  assert (B : forall m, (forall b, In b m -> In b l) -> - density pr n a m <= suml (fun b => signnum (p_divv b) * p_m b * W pr n (dist n (p_pos a) (p_pos b)) (h_mean a b)) m <= density pr n a m).
  { unfold density. induction m as [|b m IH]; intros Hm; cbn [suml]; [lra|]. specialize (IH ltac:(intros; apply Hm; right; assumption)).
    specialize (W0 b (Hm b (or_introl eq_refl))). rewrite D, Rmult_assoc. set (q := p_m b * _) in *. pose proof (S1 (p_divv b)). nra. }
  specialize (B l ltac:(auto)). rewrite <- Hr in B. unfold R_a. split; [|split].
  - split; [apply Rle_div_r; lra | apply Rle_div_l; lra].
  - intros Ha. assert (E : suml (fun b => signnum (p_divv b) * p_m b * W pr n (dist n (p_pos a) (p_pos b)) (h_mean a b)) l = p_rho a).
    { rewrite Hr. unfold density. clear - Ha D S. induction l as [|b m IH]; cbn [suml]; [reflexivity|]. rewrite IH by (intros; apply Ha; right; assumption). rewrite D, S by (apply Ha; left; reflexivity). ring. }
    rewrite E. field. lra.
  - intros Ha. assert (E : suml (fun b => signnum (p_divv b) * p_m b * W pr n (dist n (p_pos a) (p_pos b)) (h_mean a b)) l = - p_rho a).
    { rewrite Hr. unfold density. clear - Ha D S'. induction l as [|b m IH]; cbn [suml]; [lra|]. rewrite IH by (intros; apply Ha; right; assumption). rewrite D, S' by (apply Ha; left; reflexivity). ring. }
    rewrite E. field. lra.
Qed.
Print Assumptions C45_sign_mean.
