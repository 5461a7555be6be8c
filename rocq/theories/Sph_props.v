(** Conservation laws of the particle sums and properties of the artificial
    viscosity: C35, C36, C44, C45, C53. *)
From Coq Require Import Permutation.
From Coquelicot Require Import Coquelicot.
From Verif Require Import Base Vec Geometry_model Geometry_props Kernel_model Kernel_proofs Kernel_props Sph_model.
Local Open Scope R_scope.

(** ** Sums over pairs *)

Lemma sumn_swap n m (f : nat -> nat -> R) :
  sumn n (fun i => sumn m (fun j => f i j)) = sumn m (fun j => sumn n (fun i => f i j)).
Proof.
  induction n as [|n IH]; cbn [sumn].
  - symmetry. apply sumn_zero.
  - rewrite IH, <- sumn_plus. apply sumn_ext. reflexivity.
Qed.

Lemma sumn_0 n f : (forall i, (i < n)%nat -> f i = 0) -> sumn n f = 0.
Proof. intro H. rewrite <- (sumn_zero n). now apply sumn_ext. Qed.

Lemma antisym_sum N (f : nat -> nat -> R) :
  (forall i j, (i < N)%nat -> (j < N)%nat -> f i j = - f j i) -> sumn N (fun i => sumn N (f i)) = 0.
Proof.
  intro H. assert (E : sumn N (fun i => sumn N (f i)) = -1 * sumn N (fun i => sumn N (f i))).
  { rewrite sumn_swap at 1. rewrite <- sumn_scal. apply sumn_ext. intros j Hj.
    rewrite <- sumn_scal. apply sumn_ext. intros i Hi. rewrite H by auto. ring. }
  lra.
Qed.

Lemma suml_seq N (f : nat -> R) : suml f (seq 0 N) = sumn N f.
Proof.
  induction N as [|N IH]; [reflexivity|].
  rewrite seq_S, suml_app, IH. cbn [suml sumn]. change (0 + N)%nat with N. ring.
Qed.

Lemma NoDup_join {A} (l l' : list A) : NoDup l -> NoDup l' -> (forall x, In x l -> ~ In x l') -> NoDup (l ++ l').
Proof.
  intros H H' D. induction H as [|x l Hx Hl IH]; [exact H'|]. cbn. constructor.
  - rewrite in_app_iff. intros [F|F]; [auto|]. apply (D x); [now left|exact F].
  - apply IH. intros y Hy. apply D. now right.
Qed.

(** A sum over a duplicate-free list of indices is the sum over all indices
    when the terms outside the list vanish. *)
Lemma suml_full N (f : nat -> R) l :
  NoDup l -> (forall i, In i l -> (i < N)%nat) -> (forall i, (i < N)%nat -> ~ In i l -> f i = 0) ->
  suml f l = sumn N f.
Proof.
  intros Hd Hl H0. rewrite <- suml_seq.
  set (rest := filter (fun i => negb (existsb (Nat.eqb i) l)) (seq 0 N)).
  assert (HP : Permutation (l ++ rest) (seq 0 N)).
  { apply NoDup_Permutation.
    - apply NoDup_join; [exact Hd|apply NoDup_filter, seq_NoDup|].
      intros x Hx Hr. apply filter_In in Hr. destruct Hr as [_ Hr].
      apply negb_true_iff in Hr. rewrite <- not_true_iff_false in Hr. apply Hr.
      apply existsb_exists. exists x. split; [exact Hx|apply Nat.eqb_refl].
    - apply seq_NoDup.
    - intro x. rewrite in_app_iff, in_seq. split.
      + intros [Hx|Hx]; [specialize (Hl x Hx); lia|]. apply filter_In in Hx. destruct Hx as [Hx _].
        apply in_seq in Hx. lia.
      + intro Hx. destruct (existsb (Nat.eqb x) l) eqn:E.
        * left. apply existsb_exists in E. destruct E as (y & Hy & Ey). apply Nat.eqb_eq in Ey. now subst.
        * right. apply filter_In. split; [apply in_seq; lia|]. now rewrite E. }
  rewrite <- (suml_perm f _ _ HP), suml_app, (suml_ext f (fun _ => 0) rest).
  - rewrite suml_zero. lra.
  - intros x Hx. apply filter_In in Hx. destruct Hx as [Hx E]. apply in_seq in Hx.
    apply H0; [lia|]. intro Hi. apply negb_true_iff in E. rewrite <- not_true_iff_false in E. apply E.
    apply existsb_exists. exists x. split; [exact Hi|apply Nat.eqb_refl].
Qed.

(** ** Pair symmetry *)

Section Pairs.
Context (pr : params) (n : nat).

Lemma same_upto_sym k a b : same_upto k a b = same_upto k b a.
Proof.
  induction k as [|k IH]; [reflexivity|]. cbn [same_upto]. rewrite IH. f_equal.
  destruct (Req_EM_T (a k) (b k)), (Req_EM_T (b k) (a k)); congruence.
Qed.

Lemma same_upto_true k a b : same_upto k a b = true <-> forall i, (i < k)%nat -> a i = b i.
Proof.
  induction k as [|k IH]; cbn [same_upto]; [split; [intros; lia|reflexivity]|].
  rewrite andb_true_iff, IH. split.
  - intros [H1 H2] i Hi. destruct (Nat.eq_dec i k) as [->|]; [|apply H2; lia].
    destruct (Req_EM_T (a k) (b k)); congruence.
  - intro H. split; [|intros; apply H; lia].
    destruct (Req_EM_T (a k) (b k)) as [|F]; [reflexivity|]. exfalso. apply F, H. lia.
Qed.

Lemma h_mean_sym a b : h_mean a b = h_mean b a.
Proof. unfold h_mean. lra. Qed.

Lemma gradW_ext v w h i : (forall j, v j = w j) -> gradW pr n v h i = gradW pr n w h i.
Proof.
  intro H. unfold gradW, kernel_gradient. rewrite H. f_equal.
  unfold norm, dot. f_equal. f_equal. apply sumn_ext. intros. now rewrite H.
Qed.

Lemma DiW_anti a b i : DiW pr n b a i = - DiW pr n a b i.
Proof.
  unfold DiW. rewrite (h_mean_sym b a). rewrite (gradW_ext _ (fun j => - vsub (p_pos a) (p_pos b) j)).
  - apply C33_antisymmetric.
  - intro j. unfold vsub. ring.
Qed.

Lemma mu_sym h v x : mu pr n h (fun i => - v i) (fun i => - x i) = mu pr n h v x.
Proof.
  unfold mu. cbv zeta.
  replace (dot n (fun i => - v i) (fun i => - x i)) with (dot n v x)
    by (apply sumn_ext; intros; ring).
  replace (dot n (fun i => - x i) (fun i => - x i)) with (dot n x x)
    by (apply sumn_ext; intros; ring).
  reflexivity.
Qed.

Lemma mu_ext h v v' x x' : (forall i, v i = v' i) -> (forall i, x i = x' i) -> mu pr n h v x = mu pr n h v' x'.
Proof.
  intros Hv Hx. unfold mu. cbv zeta.
  replace (dot n v x) with (dot n v' x') by (apply sumn_ext; intros; now rewrite Hv, Hx).
  replace (dot n x x) with (dot n x' x') by (apply sumn_ext; intros; now rewrite Hx).
  reflexivity.
Qed.

Lemma Pi_sym a b : Pi pr n a b = Pi pr n b a.
Proof.
  unfold Pi. rewrite (h_mean_sym b a).
  rewrite (mu_ext _ (vsub (p_v12 b) (p_v12 a)) (fun i => - vsub (p_v12 a) (p_v12 b) i)
             (vsub (p_pos b) (p_pos a)) (fun i => - vsub (p_pos a) (p_pos b) i))
    by (intro; unfold vsub; ring).
  rewrite mu_sym. unfold viscosity.
  now rewrite (Rplus_comm (p_alpha b)), (Rplus_comm (p_rho b)), (Rplus_comm (p_c b)).
Qed.

Lemma DiW_out a b i : (1 <= n <= 3)%nat -> 0 < h_mean a b ->
  h_mean a b <= norm n (vsub (p_pos a) (p_pos b)) -> DiW pr n a b i = 0.
Proof.
  intros Hn Hh Hr. unfold DiW, gradW.
  assert (G : forall k, k = gaussian \/ k = super_gaussian \/ k = sinc_ker ->
    kernel_gradient (sinc_index pr) k n (vsub (p_pos a) (p_pos b)) (h_mean a b) i = 0).
  { intros k Hk.
    assert (E : kernel_gradient (sinc_index pr) k n (vsub (p_pos a) (p_pos b)) (h_mean a b) i =
      kernel_gradient 3 k n (vsub (p_pos a) (p_pos b)) (h_mean a b) i \/ k = sinc_ker)
      by (destruct Hk as [->|[->| ->]]; [left; reflexivity|left; reflexivity|now right]).
    destruct E as [E|E].
    - rewrite E. now apply (C32_gaussian_and_sinc 3 n (h_mean a b) Hn Hh ltac:(lra)).
    - subst k. unfold kernel_gradient. cbn [gfactor]. unfold G_sinc, kernel_gradient.
      rewrite (proj2 (Rltb_false _ _)); [ring|].
      rewrite Rabs_right.
      + apply Rmult_le_reg_r with (h_mean a b); [exact Hh|]. unfold Rdiv.
        rewrite Rmult_assoc, Rinv_l by lra. lra.
      + apply Rle_ge. apply Rmult_le_pos; [lra|]. apply Rlt_le, Rinv_0_lt_compat, Hh. }
  destruct (the_kernel pr) eqn:K; auto.
  all: apply C32_spline_and_wendland; auto; unfold poly; auto.
  all: rewrite K || idtac; auto 8.
Qed.

End Pairs.

(** ** The particle set *)

(** The neighbour lists produced by the tree (see C13): no duplicates, and
    every particle not listed is at least the mean smoothing length away. *)
Definition lists_ok (n N : nat) (p : nat -> part) (nb : nat -> list nat) : Prop :=
  forall i, (i < N)%nat ->
    NoDup (nb i) /\ (forall j, In j (nb i) -> (j < N)%nat) /\
    (forall j, (j < N)%nat -> ~ In j (nb i) -> (p_h (p i) + p_h (p j)) / 2 <= norm n (vsub (p_pos (p i)) (p_pos (p j)))).

Definition nbs (p : nat -> part) (nb : nat -> list nat) (i : nat) : list part := map p (nb i).

Section Conserve.
Context (pr : params) (n N : nat) (p : nat -> part) (nb : nat -> list nat).
Context (Hn : (1 <= n <= 3)%nat) (Hh : forall i, (i < N)%nat -> 0 < p_h (p i)) (Hl : lists_ok n N p nb).

Lemma full (f : nat -> part -> R) i : (i < N)%nat ->
  (forall j, (j < N)%nat -> (forall k, DiW pr n (p i) (p j) k = 0) -> f i (p j) = 0) ->
  suml (f i) (nbs p nb i) = sumn N (fun j => f i (p j)).
Proof.
  intros Hi Hf. unfold nbs. rewrite suml_map. destruct (Hl i Hi) as (Hd & Hb & Ho).
  apply suml_full; [exact Hd|exact Hb|]. intros j Hj Hnot. apply Hf; [exact Hj|]. intro k.
  pose proof (Hh i Hi). pose proof (Hh j Hj). specialize (Ho j Hj Hnot).
  apply DiW_out; [exact Hn| |]; unfold h_mean; lra.
Qed.

Lemma pair_mass i j : p_m (p i) * nb_mass n (p i) (p j) = p_m (p j) * nb_mass n (p j) (p i).
Proof. unfold nb_mass, same_pos. rewrite same_upto_sym. ring. Qed.

End Conserve.

(** ** C35 *)

(** The total momentum changes only by the external forces. *)
Theorem C35_momentum pr n N p nb (ext : nat -> point) k :
  (1 <= n <= 3)%nat -> (forall i, (i < N)%nat -> 0 < p_h (p i)) -> lists_ok n N p nb ->
  sumn N (fun i => p_m (p i) * acceleration pr n (ext i) (p i) (nbs p nb i) k) =
  sumn N (fun i => p_m (p i) * ext i k).
Proof.
  intros Hn Hh Hl.
  set (F := fun i j => p_m (p i) * (- nb_mass n (p i) (p j) * (Prho2 (p i) + Prho2 (p j) + Pi pr n (p i) (p j))
      * DiW pr n (p i) (p j) k)).
  transitivity (sumn N (fun i => sumn N (F i)) + sumn N (fun i => p_m (p i) * ext i k)).
  - rewrite <- sumn_plus. apply sumn_ext. intros i Hi. unfold acceleration.
    rewrite (full pr n N p nb Hn Hh Hl (fun i b => - nb_mass n (p i) b *
      (Prho2 (p i) + Prho2 b + Pi pr n (p i) b) * DiW pr n (p i) b k) i Hi).
    + unfold F. rewrite (sumn_scal N (p_m (p i))). ring.
    + intros j Hj E. rewrite E. ring.
  - rewrite (antisym_sum N F); [ring|]. intros i j Hi Hj. unfold F.
    rewrite (DiW_anti pr n (p i) (p j)), (Pi_sym pr n (p j) (p i)).
    transitivity (- (p_m (p i) * nb_mass n (p i) (p j)) *
      ((Prho2 (p i) + Prho2 (p j) + Pi pr n (p i) (p j)) * DiW pr n (p i) (p j) k)); [ring|].
    rewrite (pair_mass n p i j). ring.
Qed.

(** Each pair exerts equal and opposite forces on its members. *)
Theorem C35_pairwise pr n a b k :
  p_m a * acceleration pr n vzero a [b] k = - (p_m b * acceleration pr n vzero b [a] k).
Proof.
  unfold acceleration, vzero, nb_mass, same_pos. cbn [suml].
  rewrite (DiW_anti pr n a b), (Pi_sym pr n b a), (same_upto_sym n (p_pos b)). ring.
Qed.

(** ** C36 *)

Lemma dot_suml n v (f : part -> point) l :
  dot n v (fun i => suml (fun b => f b i) l) = suml (fun b => dot n v (f b)) l.
Proof.
  unfold dot. induction l as [|b l IH]; cbn [suml].
  - apply sumn_0. intros. ring.
  - rewrite <- IH, <- sumn_plus. apply sumn_ext. intros. ring.
Qed.

Lemma dot_scal n v c w : dot n v (fun i => c * w i) = c * dot n v w.
Proof. unfold dot. rewrite <- sumn_scal. apply sumn_ext. intros. ring. Qed.

Lemma dot_vsub n u v w : dot n (vsub u v) w = dot n u w - dot n v w.
Proof. unfold dot. rewrite <- sumn_minus. apply sumn_ext. intros. unfold vsub. ring. Qed.

(** Work done by the pressure and viscous forces, per neighbour. *)
Lemma work pr n a l :
  dot n (p_vel a) (acceleration pr n vzero a l) =
  suml (fun b => - nb_mass n a b * (Prho2 a + Prho2 b + Pi pr n a b) * dot n (p_vel a) (DiW pr n a b)) l.
Proof.
  transitivity (dot n (p_vel a) (fun i => suml (fun b =>
    - nb_mass n a b * (Prho2 a + Prho2 b + Pi pr n a b) * DiW pr n a b i) l)).
  - unfold dot. apply sumn_ext. intros i _. unfold acceleration, vzero. ring.
  - rewrite (dot_suml n (p_vel a) (fun b i => - nb_mass n a b * (Prho2 a + Prho2 b + Pi pr n a b) * DiW pr n a b i)).
    apply suml_ext. intros b _. apply dot_scal.
Qed.

(** For each particle the coded rate of the thermokinetic energy is the rate
    of the internal energy plus the work of the hydrodynamic and
    gravitational forces.  This needs no hypothesis on the neighbours. *)
Theorem C36_total_energy_rate pr n a l :
  dedt pr n a l =
  dudt pr n false a l + dot n (p_vel a) (acceleration pr n vzero a l) + dot n (p_gacc a) (p_vel a).
Proof.
  rewrite work. unfold dedt, dudt. cbv zeta.
  set (F := fun b => nb_mass n a b * (Prho2 a * dot n (p_vel b) (DiW pr n a b) +
    dot n (p_vel a) (DiW pr n a b) * Prho2 b + 1 / 2 * Pi pr n a b *
    (dot n (p_vel b) (DiW pr n a b) + dot n (p_vel a) (DiW pr n a b)))).
  set (G := fun b => nb_mass n a b * dot n (vsub (p_vel a) (p_vel b)) (DiW pr n a b)).
  set (K := fun b => nb_mass n a b * dot n (vsub (p_vel a) (p_vel b)) (DiW pr n a b) * Pi pr n a b).
  set (M := fun b => - nb_mass n a b * (Prho2 a + Prho2 b + Pi pr n a b) * dot n (p_vel a) (DiW pr n a b)).
  assert (E : - suml F l = Prho2 a * suml G l + 1 / 2 * suml K l + suml M l); [|rewrite E; ring].
  rewrite <- !suml_scal, <- !suml_plus.
  replace (- suml F l) with (-1 * suml F l) by ring. rewrite <- suml_scal. apply suml_ext. intros b _.
  unfold F, G, K, M. rewrite dot_vsub. lra.
Qed.

(** The internal energy gained by all particles is the work their mutual
    forces take out of the kinetic energy. *)
Theorem C36_energy_balance pr n N p nb :
  (1 <= n <= 3)%nat -> (forall i, (i < N)%nat -> 0 < p_h (p i)) -> lists_ok n N p nb ->
  sumn N (fun i => p_m (p i) * (dudt pr n false (p i) (nbs p nb i) +
    dot n (p_vel (p i)) (acceleration pr n vzero (p i) (nbs p nb i)))) = 0 /\
  sumn N (fun i => p_m (p i) * dedt pr n (p i) (nbs p nb i)) =
    sumn N (fun i => p_m (p i) * dot n (p_gacc (p i)) (p_vel (p i))).
Proof.
  intros Hn Hh Hl.
  set (T := fun i b => nb_mass n (p i) b * (Prho2 (p i) * dot n (p_vel b) (DiW pr n (p i) b) +
      dot n (p_vel (p i)) (DiW pr n (p i) b) * Prho2 b + 1 / 2 * Pi pr n (p i) b *
      (dot n (p_vel b) (DiW pr n (p i) b) + dot n (p_vel (p i)) (DiW pr n (p i) b)))).
  assert (Z : sumn N (fun i => p_m (p i) * suml (T i) (nbs p nb i)) = 0).
  { rewrite <- (antisym_sum N (fun i j => p_m (p i) * T i (p j))).
    - apply sumn_ext. intros i Hi. rewrite (full pr n N p nb Hn Hh Hl T i Hi).
      + now rewrite sumn_scal.
      + intros j Hj E. unfold T.
        assert (D : forall v, dot n v (DiW pr n (p i) (p j)) = 0).
        { intro v. apply sumn_0. intros k _. rewrite E. ring. }
        rewrite !D. ring.
    - intros i j Hi Hj. unfold T.
      assert (D : forall v, dot n v (DiW pr n (p j) (p i)) = - dot n v (DiW pr n (p i) (p j))).
      { intro v. replace (- dot n v (DiW pr n (p i) (p j))) with (-1 * dot n v (DiW pr n (p i) (p j))) by ring.
        rewrite <- dot_scal. apply sumn_ext. intros k _. rewrite (DiW_anti pr n (p i) (p j)). ring. }
      rewrite !D, (Pi_sym pr n (p j) (p i)). rewrite <- (Rmult_assoc (p_m (p i))), (pair_mass n p i j). ring. }
  assert (S : forall i, dedt pr n (p i) (nbs p nb i) =
    - suml (T i) (nbs p nb i) + dot n (p_gacc (p i)) (p_vel (p i))) by reflexivity.
  assert (Q : sumn N (fun i => p_m (p i) * - suml (T i) (nbs p nb i)) = 0).
  { transitivity (-1 * sumn N (fun i => p_m (p i) * suml (T i) (nbs p nb i))); [|rewrite Z; ring].
    rewrite <- sumn_scal. apply sumn_ext. intros. ring. }
  split.
  - rewrite <- Q. apply sumn_ext. intros i Hi. f_equal.
    pose proof (C36_total_energy_rate pr n (p i) (nbs p nb i)) as E. rewrite S in E. lra.
  - rewrite <- (Rplus_0_l (sumn N (fun i => p_m (p i) * dot n _ _))), <- Q, <- sumn_plus.
    apply sumn_ext. intros i Hi. rewrite S. ring.
Qed.

(** During relaxation the internal energy is frozen. *)
Theorem C36_relaxation pr n a l : dudt pr n true a l = 0.
Proof. reflexivity. Qed.

(** ** C44 *)

Definition approaching n (a b : part) : Prop :=
  dot n (vsub (p_v12 a) (p_v12 b)) (vsub (p_pos a) (p_pos b)) < 0.

Lemma mu_receding pr n h v x : 0 <= dot n v x -> mu pr n h v x = 0.
Proof.
  intro H. unfold mu. cbv zeta. rewrite (proj2 (Rltb_false _ _)) by lra. unfold b2r. ring.
Qed.

Lemma mu_approaching pr n h v x : dot n v x < 0 -> 0 < h -> 0 <= v_eps pr -> mu pr n h v x < 0.
Proof.
  intros H Hh He. unfold mu. cbv zeta. rewrite (proj2 (Rltb_true _ _)) by lra. unfold b2r.
  assert (0 <= dot n x x) by (apply sumn_nonneg; intros; nra).
  pose proof TINY_pos.
  assert (0 <= v_eps pr * h * h) by (apply Rmult_le_pos; [apply Rmult_le_pos|]; lra).
  rewrite Rmult_1_r. apply Ropp_lt_cancel. rewrite Ropp_0.
  replace (- (h * dot n v x / (dot n x x + v_eps pr * h * h + TINY)))
    with (h * - dot n v x / (dot n x x + v_eps pr * h * h + TINY)) by (field; lra).
  apply Rdiv_lt_0_compat; nra.
Qed.

(** Symmetric; zero for receding and non-negative for approaching particles;
    strictly positive when the sound speed and the coefficient are. *)
Theorem C44_viscosity pr n a b :
  0 < h_mean a b -> 0 < p_rho a -> 0 < p_rho b -> 0 <= p_c a -> 0 <= p_c b ->
  0 <= p_alpha a -> 0 <= p_alpha b -> 0 <= v_alpha pr -> 0 <= v_beta pr -> 0 <= v_eps pr ->
  Pi pr n a b = Pi pr n b a /\
  (~ approaching n a b -> Pi pr n a b = 0) /\
  (approaching n a b -> 0 <= Pi pr n a b) /\
  (approaching n a b -> 0 < p_c a -> 0 < v_alpha pr -> 0 < p_alpha a -> 0 < Pi pr n a b).
Proof.
  intros Hh Hra Hrb Hca Hcb Haa Hab Ha Hbt He. split; [apply Pi_sym|].
  unfold approaching, Pi, viscosity.
  pose proof (mu_receding pr n (h_mean a b) (vsub (p_v12 a) (p_v12 b)) (vsub (p_pos a) (p_pos b))) as M0.
  pose proof (fun H => mu_approaching pr n (h_mean a b) (vsub (p_v12 a) (p_v12 b)) (vsub (p_pos a) (p_pos b)) H Hh He) as M1.
  revert M0 M1. generalize (mu pr n (h_mean a b) (vsub (p_v12 a) (p_v12 b)) (vsub (p_pos a) (p_pos b))).
  generalize (dot n (vsub (p_v12 a) (p_v12 b)) (vsub (p_pos a) (p_pos b))). intros d m M0 M1.
  assert (Hr : 0 < 1 / 2 * (p_rho a + p_rho b)) by lra.
  assert (Hc : 0 <= 1 / 2 * (p_c a + p_c b)) by lra.
  assert (Hal : 0 <= 1 / 2 * (p_alpha a + p_alpha b)) by lra.
  assert (Hc' : 0 < p_c a -> 0 < 1 / 2 * (p_c a + p_c b)) by lra.
  assert (Hal' : 0 < p_alpha a -> 0 < 1 / 2 * (p_alpha a + p_alpha b)) by lra.
  revert Hr Hc Hal Hc' Hal'. generalize (1 / 2 * (p_rho a + p_rho b)) (1 / 2 * (p_c a + p_c b)) (1 / 2 * (p_alpha a + p_alpha b)).
  intros r c al Hr Hc Hal Hc' Hal'. apply Rinv_0_lt_compat in Hr.
  split; [|split].
  - intro H. rewrite M0 by lra. unfold visc_cullen, visc_constant, Rdiv. destruct (cullen pr); ring.
  - intro H. specialize (M1 H). destruct (cullen pr); unfold visc_cullen, visc_constant, Rdiv.
    + apply Rmult_le_pos; [|lra]. replace (- al * (c - 2 * m) * m) with (al * (c - 2 * m) * - m) by ring.
      apply Rmult_le_pos; [apply Rmult_le_pos; lra|lra].
    + apply Rmult_le_pos; [|lra].
      assert (0 <= v_alpha pr * c) by (apply Rmult_le_pos; lra).
      assert (0 <= v_beta pr * - m) by (apply Rmult_le_pos; lra). nra.
  - intros H Hc0 Ha0 Haa0. specialize (M1 H). specialize (Hc' Hc0). specialize (Hal' Haa0).
    destruct (cullen pr); unfold visc_cullen, visc_constant, Rdiv.
    + apply Rmult_lt_0_compat; [|lra]. replace (- al * (c - 2 * m) * m) with (al * (c - 2 * m) * - m) by ring.
      apply Rmult_lt_0_compat; [apply Rmult_lt_0_compat; lra|lra].
    + apply Rmult_lt_0_compat; [|lra].
      assert (0 < v_alpha pr * c) by (apply Rmult_lt_0_compat; lra).
      assert (0 <= v_beta pr * - m) by (apply Rmult_le_pos; lra). nra.
Qed.

(** ** C45 *)

Lemma traceSS_nonneg pr n a l : 0 <= traceSS pr n a l.
Proof. unfold traceSS. apply sumn_nonneg. intros. apply sumn_nonneg. intros. nra. Qed.

Lemma xi_range pr n a l : 0 <= xi pr n a l <= 1.
Proof.
  unfold xi. cbv zeta. pose proof (traceSS_nonneg pr n a l) as T. revert T. generalize (traceSS pr n a l). intros t T.
  set (s := 2 * _ * _). destruct (Rltb (s * s) (1 / 10 ^ 16)) eqn:E; [lra|].
  apply Rltb_false in E. assert (0 < s * s) by lra. clearbody s. revert H. generalize (s * s). intros q Hq.
  split.
  - apply Rlt_le, Rdiv_lt_0_compat; lra.
  - apply Rmult_le_reg_r with (q + t); [lra|]. unfold Rdiv. rewrite Rmult_assoc, Rinv_l by lra. lra.
Qed.

Lemma trigger_nonneg pr n a l : 0 <= trigger pr n a l.
Proof.
  unfold trigger. apply Rmult_le_pos; [apply xi_range|apply Rmax_r].
Qed.

Lemma signal_nonneg n a l : 0 <= signal_speed n a l.
Proof.
  unfold signal_speed. match goal with |- 0 <= fold_left ?f l 0 => set (g := f) end.
  assert (H : forall v, 0 <= v -> 0 <= fold_left g l v); [|apply H; lra].
  induction l as [|b l IH]; intros v Hv; [exact Hv|]. cbn [fold_left]. apply IH.
  unfold g. destruct (same_pos n _ _); [exact Hv|]. eapply Rle_trans; [exact Hv|apply Rmax_l].
Qed.

(** The limiter is in [0,1], the local target in [0, alpha_max], and the new
    coefficient in [0, alpha_max] when the old one was. *)
Theorem C45_bounds pr n dt a l :
  0 <= dt -> 0 < p_h a -> 0 <= v_alpha_max pr -> 0 <= v_delta pr -> 0 <= v_l pr ->
  0 <= p_alpha a <= v_alpha_max pr ->
  0 <= xi pr n a l <= 1 /\
  (forall loc, alpha_loc pr n a l = Some loc -> 0 <= loc <= v_alpha_max pr) /\
  (forall al, new_alpha pr n dt a l = Some al -> 0 <= al <= v_alpha_max pr).
Proof.
  intros Hdt Hh Ham Hd Hl Ha. split; [apply xi_range|].
  assert (HL : forall loc, alpha_loc pr n a l = Some loc -> 0 <= loc <= v_alpha_max pr).
  { intros loc E. unfold alpha_loc in E. cbv zeta in E.
    pose proof (trigger_nonneg pr n a l) as T. revert E T. generalize (trigger pr n a l). intros A E T.
    assert (Hv : 0 <= v_delta pr * (signal_speed n a l / p_h a * (signal_speed n a l / p_h a))).
    { apply Rmult_le_pos; [exact Hd|]. apply Rle_0_sqr. }
    revert E Hv. generalize (v_delta pr * (signal_speed n a l / p_h a * (signal_speed n a l / p_h a))). intros q E Hq.
    destruct (Req_EM_T (q + A) 0) as [|F]; [discriminate|]. injection E as <-.
    assert (0 < q + A) by lra. split.
    - apply Rmult_le_pos; [apply Rmult_le_pos; lra|]. apply Rlt_le, Rinv_0_lt_compat; lra.
    - apply Rmult_le_reg_r with (q + A); [lra|]. unfold Rdiv. rewrite Rmult_assoc, Rinv_l by lra. nra. }
  split; [exact HL|].
  intros al E. unfold new_alpha in E. destruct (alpha_loc pr n a l) as [loc|] eqn:EL; [|discriminate].
  specialize (HL loc eq_refl). destruct (Rleb (p_alpha a) loc) eqn:Ec.
  - injection E as <-. exact HL.
  - injection E as <-. apply Rleb_false in Ec.
    assert (Hx : exp (- ((p_alpha a - loc) * (2 * v_l pr * signal_speed n a l) / p_h a) * dt) <= 1).
    { rewrite <- exp_0. destruct (Req_dec (- ((p_alpha a - loc) * (2 * v_l pr * signal_speed n a l) / p_h a) * dt) 0) as [->|Hne]; [lra|].
      apply Rlt_le, exp_increasing.
      pose proof (signal_nonneg n a l).
      assert (0 <= (p_alpha a - loc) * (2 * v_l pr * signal_speed n a l) / p_h a).
      { apply Rmult_le_pos; [|apply Rlt_le, Rinv_0_lt_compat; lra].
        apply Rmult_le_pos; [lra|]. apply Rmult_le_pos; lra. }
      nra. }
    pose proof (exp_pos (- ((p_alpha a - loc) * (2 * v_l pr * signal_speed n a l) / p_h a) * dt)) as Hp.
    revert Hx Hp. generalize (exp (- ((p_alpha a - loc) * (2 * v_l pr * signal_speed n a l) / p_h a) * dt)).
    intros e Hx Hp. nra.
Qed.

(** The coefficient is defined whenever some neighbour at another place has a
    positive sound speed. *)
Theorem C45_defined pr n dt a l b :
  In b l -> same_pos n (p_pos a) (p_pos b) = false -> 0 < p_c b -> 0 < p_h a -> 0 < v_delta pr ->
  exists al, new_alpha pr n dt a l = Some al.
Proof.
  intros Hb Hs Hc Hh Hd.
  assert (Hv : 0 < signal_speed n a l).
  { unfold signal_speed. set (f := fun vsig b => _).
    assert (M : forall l v, v <= fold_left f l v).
    { clear. induction l as [|b l IH]; intro v; [cbn; lra|]. cbn [fold_left]. eapply Rle_trans; [|apply IH].
      unfold f. destruct (same_pos n _ _); [lra|apply Rmax_l]. }
    assert (G : forall v, 0 < fold_left f l v); [|apply G].
    revert Hb. clear - Hs Hc M. induction l as [|x l IH]; [intros []|]. intros [->|Hb] v.
    - cbn [fold_left]. eapply Rlt_le_trans; [|apply M]. unfold f. rewrite Hs. cbv zeta.
      eapply Rlt_le_trans; [|apply Rmax_r].
      pose proof (Rmax_r (p_c a) (p_c b)).
      match goal with |- _ < _ - Rmin ?x 0 => pose proof (Rmin_r x 0) end. lra.
    - cbn [fold_left]. apply IH, Hb. }
  unfold new_alpha, alpha_loc. cbv zeta.
  destruct (Req_EM_T _ 0) as [E|E].
  - exfalso. pose proof (trigger_nonneg pr n a l).
    assert (0 < signal_speed n a l / p_h a) by (apply Rdiv_lt_0_compat; lra).
    assert (0 < v_delta pr * (signal_speed n a l / p_h a * (signal_speed n a l / p_h a)))
      by (apply Rmult_lt_0_compat; [|apply Rmult_lt_0_compat]; lra). lra.
  - destruct (Rleb _ _); eauto.
Qed.

(** ** Concrete particles *)

Definition at1 (x v m c alpha dv ddv : R) : part :=
  Part (fun _ => x) (fun _ => v) (fun _ => v) vzero m 1 1 1 c alpha dv ddv.
Definition defaults k cul : params := Params 4 k cul 1 2 (1 / 100) 1 1 (5 / 100).

(** A particle alone in its neighbour list gets no viscosity coefficient:
    both terms of the quotient are zero. *)
Theorem C45_isolated_refuted :
  exists pr n dt a, 0 < dt /\ 0 < p_h a /\ 0 < p_c a /\ 0 < p_rho a /\ 0 < v_delta pr /\ 0 < v_l pr /\
    0 <= p_alpha a <= v_alpha_max pr /\ new_alpha pr n dt a [a] = None.
Proof.
  exists (defaults wendland_c2 true), 1%nat, 1, (at1 0 0 1 1 1 0 0). unfold at1, defaults.
  cbn [p_h p_c p_rho p_alpha v_delta v_l v_alpha_max]. repeat (split; [lra|]).
  unfold new_alpha, alpha_loc. cbv zeta.
  assert (V : signal_speed 1 (at1 0 0 1 1 1 0 0) [at1 0 0 1 1 1 0 0] = 0).
  { unfold signal_speed. cbn [fold_left]. unfold same_pos. rewrite (proj2 (same_upto_true _ _ _)); [reflexivity|]. reflexivity. }
  assert (T : trigger (defaults wendland_c2 true) 1 (at1 0 0 1 1 1 0 0) [at1 0 0 1 1 1 0 0] = 0).
  { unfold trigger. cbn [p_ddivv at1]. rewrite Ropp_0, Rmax_left by lra. ring. }
  unfold at1, defaults in *. rewrite V, T. destruct (Req_EM_T _ 0) as [|F]; [reflexivity|].
  exfalso. apply F. cbn [v_delta p_h]. field.
Qed.

(** The decay is proportional to the coefficient rather than to its distance
    from the target, so a long step takes it below the target. *)
Theorem C45_below_target_refuted :
  exists pr n dt a l loc al, 0 < dt /\ 0 < p_h a /\ 0 < v_delta pr /\ 0 < v_l pr /\
    0 <= p_alpha a <= v_alpha_max pr /\
    alpha_loc pr n a l = Some loc /\ new_alpha pr n dt a l = Some al /\ loc < p_alpha a /\ al < loc.
Proof.
  set (a := at1 0 0 1 1 1 (-1) (-1)). set (b := at1 2 0 1 1 1 0 0). set (pr := defaults wendland_c2 true).
  (* two particles outside each other's kernel; the limiter is positive *)
  assert (V : signal_speed 1 a [b] = 1).
  { unfold signal_speed. cbn [fold_left].
    assert (S : same_pos 1 (p_pos a) (p_pos b) = false).
    { apply not_true_iff_false. unfold same_pos. rewrite same_upto_true. intro H. specialize (H 0%nat ltac:(lia)).
      cbn in H. lra. }
    rewrite S. cbv zeta. 
    assert (D : dot 1 (vsub (p_vel a) (p_vel b)) (vscale (/ dist 1 (p_pos a) (p_pos b)) (vsub (p_pos a) (p_pos b))) = 0).
    { unfold dot. cbn [sumn]. unfold vsub at 1. cbn [p_vel a b at1]. unfold a, b. cbn. ring. }
    rewrite D. unfold a, b. cbn [p_c at1]. rewrite (Rmax_left 1 1), (Rmin_left 0 0) by lra. rewrite Rmax_right; lra. }
  assert (DW : DiW pr 1 a b 0%nat = 0).
  { assert (N : norm 1 (vsub (p_pos a) (p_pos b)) = 2).
    { unfold norm, dot. cbn [sumn]. unfold vsub, a, b. cbn [p_pos at1].
      replace (0 + (0 - 2) * (0 - 2)) with (2 * 2) by ring. apply sqrt_square. lra. }
    apply DiW_out; [lia| |]; unfold h_mean; [|rewrite N]; unfold a, b; cbn [p_h at1]; lra. }
  assert (RA : R_a pr 1 a [b] = 0).
  { unfold R_a. cbn [suml]. unfold signnum, b. cbn [p_divv at1]. rewrite (proj2 (Rltb_false _ _)) by lra.
    unfold Rdiv. ring. }
  assert (TS : traceSS pr 1 a [b] = 1).
  { unfold traceSS. cbn [sumn]. unfold SymT. cbn [Nat.eqb]. unfold gradV. cbn [suml]. rewrite DW.
    generalize (p_m b * - vsub (p_vel a) (p_vel b) 0%nat). intro q.
    replace (p_divv a) with (-1) by reflexivity. replace (p_rho a) with 1 by reflexivity.
    cbn [INR]. field. }
  assert (X : xi pr 1 a [b] = 4 / 5).
  { unfold xi. cbv zeta. rewrite RA, TS. unfold a. cbn [p_divv at1].
    rewrite (proj2 (Rltb_false _ _)); [field|].
    replace (2 * ((1 - 0) * (1 - 0) * (1 - 0) * (1 - 0)) * -1 * (2 * ((1 - 0) * (1 - 0) * (1 - 0) * (1 - 0)) * -1)) with 4 by ring.
    lra. }
  assert (T : trigger pr 1 a [b] = 4 / 5).
  { unfold trigger. rewrite X. unfold a. cbn [p_ddivv at1]. rewrite Rmax_left; lra. }
  assert (L : alpha_loc pr 1 a [b] = Some (4 / 9)).
  { unfold alpha_loc. cbv zeta. rewrite T, V. unfold a, pr, defaults. cbn [p_h at1 v_delta v_alpha_max].
    destruct (Req_EM_T _ 0) as [E|E]; [exfalso; lra|]. f_equal. field. }
  exists pr, 1%nat, 100, a, [b], (4 / 9), (1 * exp (- ((1 - 4 / 9) * (2 * (5 / 100) * 1) / 1) * 100)).
  unfold new_alpha. rewrite L, V. unfold a, pr, defaults. cbn [p_h at1 v_delta v_l v_alpha_max p_alpha].
  rewrite (proj2 (Rleb_false _ _)) by lra. repeat (split; [lra|]). split; [reflexivity|]. split; [reflexivity|].
  split; [lra|].
  rewrite Rmult_1_l. replace (- ((1 - 4 / 9) * (2 * (5 / 100) * 1) / 1) * 100) with (- (50 / 9)) by field.
  rewrite exp_Ropp. pose proof (exp_ineq1 (50 / 9) ltac:(lra)).
  replace (4 / 9) with (/ (9 / 4)) by field. apply Rinv_lt_contravar; [apply Rmult_lt_0_compat; lra|]. lra.
Qed.

(** ** C53 *)

Definition boost (u : point) (a : part) : part :=
  Part (p_pos a) (vadd (p_vel a) u) (vadd (p_v12 a) u) (p_gacc a) (p_m a) (p_h a) (p_rho a) (p_P a)
       (p_c a) (p_alpha a) (p_divv a) (p_ddivv a).

(** The divergence changes by the velocity offset times the gradient of the
    density estimate. *)
Theorem C53_change_partial pr n a l u :
  divergence pr n (boost u a) (map (boost u) l) =
  divergence pr n a l + suml (fun b => p_m b * dot n u (DiW pr n a b)) l / p_rho a.
Proof.
  unfold divergence. rewrite suml_map. unfold Rdiv. rewrite <- Rmult_plus_distr_r. f_equal.
  rewrite <- suml_plus. apply suml_ext. intros b _. cbn [boost p_m p_vel p_pos].
  change (h_mean (boost u a) (boost u b)) with (h_mean a b).
  rewrite <- Rmult_plus_distr_l. f_equal. unfold dot. rewrite <- sumn_plus. apply sumn_ext.
  intros i _. unfold vadd, DiW. ring.
Qed.

Theorem C53_galilean_refuted :
  exists pr n a l u, 0 < p_rho a /\ In a l /\ (forall b, In b l -> p_vel b = p_vel a) /\
    divergence pr n (boost u a) (map (boost u) l) <> divergence pr n a l.
Proof.
  set (a := at1 0 0 1 1 1 0 0). set (b := at1 (1 / 2) 0 1 1 1 0 0). set (pr := defaults wendland_c2 true).
  exists pr, 1%nat, a, [a; b], (fun _ => 1). split; [unfold a; cbn; lra|]. split; [now left|]. split.
  { intros x [<-|[<-|[]]]; reflexivity. }
  rewrite C53_change_partial. cbn [suml].
  assert (A : DiW pr 1 a a 0%nat = 0).
  { unfold DiW, gradW, kernel_gradient, vsub. ring. }
  assert (B : DiW pr 1 a b 0%nat <> 0).
  { unfold DiW, gradW, kernel_gradient. apply Rmult_integral_contrapositive_currified.
    - unfold vsub, a, b. cbn [p_pos at1]. lra.
    - assert (Nm : norm 1 (vsub (p_pos a) (p_pos b)) = 1 / 2).
      { unfold norm, dot. cbn [sumn]. unfold vsub, a, b. cbn [p_pos at1].
        replace (0 + (0 - 1 / 2) * (0 - 1 / 2)) with (1 / 2 * (1 / 2)) by ring. apply sqrt_square. lra. }
      rewrite Nm. unfold h_mean, a, b. cbn [p_h at1]. cbn [pr defaults the_kernel sinc_index gfactor].
      unfold G_wc2. cbv zeta. replace (1 / 2 / (1 / 2 * (1 + 1))) with (1 / 2) by field.
      rewrite (proj2 (Rltb_true _ _)) by lra. unfold b2r, wc2_sigma, pick. pose proof TINY_pos.
      assert (0 < / (1 / 2 + TINY)) by (apply Rinv_0_lt_compat; lra).
      unfold Rdiv at 1. intro E. 
      match type of E with 1 * (?u * / _) = 0 => assert (u <> 0) by lra end. nra. }
  unfold dot. cbn [sumn]. rewrite A. cbn [p_rho p_m a b at1].
  set (d := DiW pr 1 a b 0%nat) in *. clearbody d. unfold a, b. cbn [p_rho p_m at1]. intro E. apply B. 
  match type of E with ?x + ?y = ?x => assert (y = 0) by lra end. lra.
Qed.

(** ** Cases *)

(** Three particles on a line; the third sees only itself. *)
Definition line3 (i : nat) : part :=
  match i with
  | 0%nat => at1 0 1 1 1 1 0 0
  | 1%nat => at1 (1 / 2) (-1) 2 1 1 0 0
  | _ => at1 5 0 1 1 1 0 0
  end.
Definition near3 (i : nat) : list nat :=
  match i with 0%nat => [1%nat; 0%nat] | 1%nat => [0%nat; 1%nat] | _ => [2%nat] end.

Lemma norm_1d a b x y : p_pos a = (fun _ => x) -> p_pos b = (fun _ => y) ->
  norm 1 (vsub (p_pos a) (p_pos b)) = Rabs (x - y).
Proof.
  intros -> ->. unfold norm, dot. cbn [sumn]. unfold vsub. rewrite Rplus_0_l. apply sqrt_Rsqr_abs.
Qed.

Example C35_case : lists_ok 1 3 line3 near3 /\ (forall i, 0 < p_h (line3 i)).
Proof.
  split.
  - intros [|[|[|i]]] Hi; [| | |lia]; cbn [near3].
    + split; [repeat constructor; cbn; intuition lia|]. split; [intros j [<-|[<-|[]]]; lia|].
      intros [|[|[|j]]] Hj Hn; [exfalso; apply Hn; cbn; auto|exfalso; apply Hn; cbn; auto| |lia].
      rewrite (norm_1d _ _ 0 5) by reflexivity. cbn [line3 p_h at1]. rewrite Rabs_left; lra.
    + split; [repeat constructor; cbn; intuition lia|]. split; [intros j [<-|[<-|[]]]; lia|].
      intros [|[|[|j]]] Hj Hn; [exfalso; apply Hn; cbn; auto|exfalso; apply Hn; cbn; auto| |lia].
      rewrite (norm_1d _ _ (1 / 2) 5) by reflexivity. cbn [line3 p_h at1]. rewrite Rabs_left; lra.
    + split; [repeat constructor; cbn; intuition lia|]. split; [intros j [<-|[]]; lia|].
      intros [|[|[|j]]] Hj Hn; [| |exfalso; apply Hn; cbn; auto|lia].
      * rewrite (norm_1d _ _ 5 0) by reflexivity. cbn [line3 p_h at1]. rewrite Rabs_right; lra.
      * rewrite (norm_1d _ _ 5 (1 / 2)) by reflexivity. cbn [line3 p_h at1]. rewrite Rabs_right; lra.
  - intros [|[|i]]; cbn; lra.
Qed.

(** The first two approach each other, with all coefficients positive. *)
Example C44_case : approaching 1 (line3 0) (line3 1) /\ 0 < h_mean (line3 0) (line3 1) /\
  0 < Pi (defaults wendland_c2 false) 1 (line3 0) (line3 1) /\
  0 < Pi (defaults wendland_c2 true) 1 (line3 0) (line3 1).
Proof.
  assert (A : approaching 1 (line3 0) (line3 1)).
  { unfold approaching, dot, vsub. cbn [sumn line3 at1 p_v12 p_pos]. lra. }
  assert (H : 0 < h_mean (line3 0) (line3 1)) by (unfold h_mean; cbn [line3 at1 p_h]; lra).
  split; [exact A|]. split; [exact H|].
  split; apply C44_viscosity; auto; cbn; lra.
Qed.

Print Assumptions C35_momentum.
Print Assumptions C36_energy_balance.
Print Assumptions C44_viscosity.
Print Assumptions C45_bounds.
Print Assumptions C45_below_target_refuted.
Print Assumptions C53_galilean_refuted.
