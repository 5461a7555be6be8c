(** Property C96: points and vectors. *)
From Coq Require Import Reals Lra Permutation.
From Verif Require Import Base Vec BuildTree_model SVec_model.
Local Open Scope R_scope.

Lemma sqrt_abs x : sqrt (x * x) = Rabs x.
Proof. apply sqrt_Rsqr_abs. Qed.
Lemma distance_dist D a b : (1 <= D)%nat -> sv_distance D a b = dist D a b.
Proof.
  intros H. unfold sv_distance, dist, dist2. destruct (Nat.eqb_spec D 1) as [->|_]; [|reflexivity]. cbn [sumn]. rewrite Rplus_0_l, sqrt_abs. reflexivity.
Qed.
Lemma magnitude_norm D a : (1 <= D)%nat -> sv_magnitude D a = norm D a.
Proof.
  intros H. unfold sv_magnitude, norm, dot. destruct (Nat.eqb_spec D 1) as [->|_]; [|reflexivity]. cbn [sumn]. rewrite Rplus_0_l, sqrt_abs. reflexivity.
Qed.

(** distance is a metric that does not change under translation. *)
Theorem C96_distance D a b c : (1 <= D)%nat -> (sv_distance D a b = 0 <-> peq D a b) /\ 0 <= sv_distance D a b /\ sv_distance D a b = sv_distance D b a /\
  sv_distance D a c <= sv_distance D a b + sv_distance D b c /\ sv_distance D (vadd a c) (vadd b c) = sv_distance D a b.
Proof.
  intros H. rewrite !distance_dist by exact H. split; [|split; [apply dist_nonneg|split; [apply dist_sym|split; [apply dist_triangle|]]]].
  - unfold dist. split.
    + intros E i Hi. apply sqrt_eq_0 in E; [|apply sumn_nonneg; intros; apply Rle_0_sqr].
      pose proof (sumn_ge1 D (fun i => (a i - b i) * (a i - b i)) i Hi (fun j _ => Rle_0_sqr (a j - b j))) as G. unfold dist2 in E. rewrite E in G.
      pose proof (Rle_0_sqr (a i - b i)) as S. unfold Rsqr in S. assert (Z : (a i - b i) * (a i - b i) = 0) by lra. apply Rmult_integral in Z. lra.
    + intros E. unfold dist2. rewrite (sumn_ext D _ (fun _ => 0)) by (intros i Hi; rewrite (E i Hi); lra). rewrite sumn_zero. apply sqrt_0.
  - unfold dist, dist2. f_equal. apply sumn_ext. intros i _. unfold vadd. lra.
Qed.
(** dot and magnitude: the square of the magnitude, Cauchy-Schwarz, the triangle
    inequality; the distance is the magnitude of the difference. *)
Theorem C96_magnitude D a b : (1 <= D)%nat -> sv_magnitude D a * sv_magnitude D a = sv_dot D a a /\ Rabs (sv_dot D a b) <= sv_magnitude D a * sv_magnitude D b /\
  sv_magnitude D (vadd a b) <= sv_magnitude D a + sv_magnitude D b /\ sv_distance D a b = sv_magnitude D (vsub a b).
Proof.
  intros H. rewrite distance_dist, !magnitude_norm by exact H. split; [|split; [apply cauchy_schwarz|split; [apply norm_triangle|reflexivity]]].
  unfold norm. rewrite sqrt_sqrt; [reflexivity|]. apply sumn_nonneg. intros. apply Rle_0_sqr.
Qed.
(** The midpoint is at half the distance from both points. *)
Theorem C96_midpoint D a b : (1 <= D)%nat -> sv_distance D a (sv_midpoint a b) = 1 / 2 * sv_distance D a b /\ sv_distance D (sv_midpoint a b) b = 1 / 2 * sv_distance D a b.
Proof.
  intros H. rewrite !distance_dist by exact H. assert (Hh : sqrt (1 / 2 * (1 / 2)) = 1 / 2) by (rewrite sqrt_abs, Rabs_pos_eq; lra).
  unfold dist, dist2, sv_midpoint, vscale, vadd. split.
  - match goal with |- _ = _ * sqrt ?y => replace (1 / 2 * sqrt y) with (sqrt (1 / 2 * (1 / 2)) * sqrt y) by (rewrite Hh; reflexivity) end. rewrite <- sqrt_mult_alt by lra. f_equal. rewrite <- sumn_scal. apply sumn_ext. intros i _. lra.
  - match goal with |- _ = _ * sqrt ?y => replace (1 / 2 * sqrt y) with (sqrt (1 / 2 * (1 / 2)) * sqrt y) by (rewrite Hh; reflexivity) end. rewrite <- sqrt_mult_alt by lra. f_equal. rewrite <- sumn_scal. apply sumn_ext. intros i _. lra.
Qed.
Lemma fold_vadd ps : forall a i, fold_left vadd ps a i = a i + suml (fun p => p i) ps.
Proof. induction ps as [|p ps IH]; intros a i; cbn [fold_left suml]; [lra|]. rewrite IH. unfold vadd. lra. Qed.
Lemma suml_bounds (i : nat) lo hi (ps : list point) : (forall p, In p ps -> lo <= p i <= hi) -> INR (length ps) * lo <= suml (fun p => p i) ps <= INR (length ps) * hi.
Proof.
  induction ps as [|p ps IH]; intros H; [cbn; lra|]. cbn [suml length]. rewrite S_INR. specialize (IH (fun q Hq => H q (or_intror Hq))). specialize (H p (or_introl eq_refl)). lra.
Qed.
Lemma suml_perm (f : point -> R) ps qs : Permutation ps qs -> suml f ps = suml f qs.
Proof. induction 1; cbn; lra. Qed.
(** The centroid of a non-empty set: the offsets from it add up to zero, it is in every
    box that holds the points, and the order of the points does not matter. *)
Theorem C96_centroid ps : ps <> [] -> exists c, sv_centroid ps = Some c /\ (forall i, suml (fun p => p i - c i) ps = 0) /\
  (forall i lo hi, (forall p, In p ps -> lo <= p i <= hi) -> lo <= c i <= hi) /\
  (forall qs, Permutation ps qs -> exists c', sv_centroid qs = Some c' /\ forall i, c' i = c i).
Proof.
  intros Hp. assert (E : forall qs, qs <> [] -> exists c, sv_centroid qs = Some c /\ forall i, c i = suml (fun p => p i) qs / INR (length qs)).
  { intros qs Hq. destruct qs as [|q qs]; [contradiction|]. eexists. split; [reflexivity|]. intros i. cbv beta. rewrite fold_vadd. unfold fill. rewrite Rplus_0_l. reflexivity. }
  destruct (E ps Hp) as (c & Ec & Hc). assert (N : 0 < INR (length ps)) by (apply lt_0_INR; destruct ps; [contradiction|cbn; lia]).
  exists c. split; [exact Ec|]. split; [|split].
  - intros i. assert (G : forall qs, suml (fun p : point => p i - c i) qs = suml (fun p => p i) qs - INR (length qs) * c i).
    { induction qs as [|q qs IH]; [cbn; lra|]. cbn [suml length]. rewrite IH, S_INR. lra. }
    rewrite G, Hc. field. lra.
  - intros i lo hi H. rewrite Hc. pose proof (suml_bounds i lo hi ps H) as B. split.
    + apply Rmult_le_reg_l with (INR (length ps)); [exact N|]. replace (INR (length ps) * (suml (fun p => p i) ps / INR (length ps))) with (suml (fun p => p i) ps) by (field; lra). lra.
    + apply Rmult_le_reg_l with (INR (length ps)); [exact N|]. replace (INR (length ps) * (suml (fun p => p i) ps / INR (length ps))) with (suml (fun p => p i) ps) by (field; lra). lra.
  - intros qs P. assert (Hq : qs <> []) by (intros ->; apply Permutation_sym, Permutation_nil in P; contradiction).
    destruct (E qs Hq) as (c' & Ec' & Hc'). exists c'. split; [exact Ec'|]. intros i. rewrite Hc, Hc', (suml_perm _ _ _ P), (Permutation_length P). reflexivity.
Qed.
Theorem C96_centroid_refuted : exists ps, sv_centroid ps = None.
Proof. exists []. reflexivity. Qed.

(** In three dimensions the cross product is orthogonal to both, changes sign with the
    order and is normal() of the two. *)
Theorem C96_cross3 a b : exists c, sv_cross 3 a b = Some c /\ sv_dot 3 a c = 0 /\ sv_dot 3 b c = 0 /\
  (exists c', sv_cross 3 b a = Some c' /\ forall i, (i < 3)%nat -> c' i = - c i) /\ exists n, sv_normal 3 a b = Some n /\ peq 3 n c.
Proof.
  eexists. split; [reflexivity|]. unfold sv_dot, dot. cbn [sumn nth]. split; [ring|]. split; [ring|]. split.
  - eexists. split; [reflexivity|]. intros [|[|[|i]]] Hi; try lia; cbn [nth]; ring.
  - eexists. split; [reflexivity|]. intros [|[|[|i]]] Hi; try lia; reflexivity.
Qed.
(** The magnitude of the cross product is that of the parallelogram in every dimension. *)
Theorem C96_parallelogram D a b : (1 <= D <= 3)%nat -> exists x, sv_cross_magnitude D a b = Some x /\ 0 <= x /\
  x * x + sv_dot D a b * sv_dot D a b = sv_dot D a a * sv_dot D b b.
Proof.
  intros H. destruct D as [|[|[|[|?]]]]; try lia.
  - exists 0. split; [reflexivity|]. split; [lra|]. unfold sv_dot. cbn [sumn]. ring.
  - eexists. split; [reflexivity|]. split; [apply Rabs_pos|]. rewrite <- Rabs_mult, Rabs_pos_eq by apply Rle_0_sqr. unfold sv_dot. cbn [sumn]. ring.
  - eexists. split; [reflexivity|]. split; [rewrite magnitude_norm by lia; apply sqrt_pos|].
    destruct (C96_magnitude 3 (fun i => nth i [a 1%nat * b 2%nat - a 2%nat * b 1%nat; a 2%nat * b 0%nat - a 0%nat * b 2%nat; a 0%nat * b 1%nat - a 1%nat * b 0%nat] 0) (fill 0) ltac:(lia)) as [-> _].
    unfold sv_dot. cbn [sumn nth]. ring.
Qed.
(** In two dimensions cross() is zero although cross_magnitude() is not. *)
Theorem C96_cross2_refuted : exists a b c x, sv_cross 2 a b = Some c /\ sv_cross_magnitude 2 a b = Some x /\ sv_magnitude 2 c <> x.
Proof.
  exists (vec3 1 0 0), (vec3 0 1 0), (fill 0), 1. split; [reflexivity|]. split.
  - cbn. f_equal. rewrite Rabs_pos_eq; lra.
  - unfold sv_magnitude, fill. cbn [Nat.eqb sumn]. replace (0 + 0 * 0 + 0 * 0) with 0 by ring. rewrite sqrt_0. lra.
Qed.
(** In two dimensions normal() of two points is their difference turned by a right
    angle to the left; it depends on the difference only. *)
Theorem C96_normal2 a b : exists n, sv_normal 2 a b = Some n /\ sv_dot 2 n (vsub b a) = 0 /\ sv_magnitude 2 n = sv_distance 2 a b /\
  (b 0%nat - a 0%nat) * n 1%nat - (b 1%nat - a 1%nat) * n 0%nat = sv_dot 2 (vsub b a) (vsub b a) /\
  forall t, exists n', sv_normal 2 (vadd a t) (vadd b t) = Some n' /\ peq 2 n' n.
Proof.
  eexists. split; [reflexivity|]. unfold sv_dot, vsub, vadd. cbn [sumn]. split; [ring|]. split; [|split; [ring|]].
  - unfold sv_magnitude, sv_distance. cbn [Nat.eqb sumn]. f_equal. ring.
  - intros t. eexists. split; [reflexivity|]. intros [|[|i]] Hi; try lia; cbn; ring.
Qed.
(** In three it is not a function of the difference: as a normal of two points it changes
    with the origin. *)
Theorem C96_normal3_refuted : exists a b t n n', sv_normal 3 a b = Some n /\ sv_normal 3 (vadd a t) (vadd b t) = Some n' /\ n' 2%nat <> n 2%nat.
Proof.
  exists (vec3 0 0 0), (vec3 1 0 0), (vec3 0 1 0). do 2 eexists. split; [reflexivity|]. split; [reflexivity|]. unfold vec3, vadd. cbn [nth]. intros H. lra.
Qed.
(** Construction from a list of D values gives those, from one value gives D copies. *)
Theorem C96_list D l v : from_list D l = Some v <-> (exists x, l = [x] /\ v = fill x) \/ (1 < length l)%nat /\ length l = D /\ v = (fun i => nth i l 0).
Proof.
  unfold from_list. destruct (Nat.ltb_spec 1 (length l)) as [H|H].
  - destruct (Nat.eqb_spec (length l) D) as [E|E].
    + split; [intros [= <-]; right; auto|]. intros [(x & -> & _)|(_ & _ & ->)]; [cbn in H; lia|reflexivity].
    + split; [discriminate|]. intros [(x & -> & _)|(_ & C & _)]; [cbn in H; lia|contradiction].
  - destruct l as [|x [|y l]]; [| |cbn in H; lia].
    + split; [discriminate|]. intros [(x & C & _)|(C & _)]; [discriminate|cbn in C; lia].
    + split; [intros [= <-]; left; exists x; auto|]. intros [(y & [= ->] & ->)|(C & _)]; [reflexivity|cbn in C; lia].
Qed.

Example C96_case : sv_distance 2 (vec3 0 0 0) (vec3 3 4 0) = 5 /\ [vec3 0 0 0; vec3 3 4 0] <> [] /\ exists c, sv_centroid [vec3 0 0 0; vec3 3 4 0] = Some c /\ c 0%nat = 3 / 2 /\ c 1%nat = 2.
Proof.
  split; [|split; [discriminate|]].
  - unfold sv_distance, vec3. cbn [Nat.eqb sumn nth]. replace (0 + (0 - 3) * (0 - 3) + (0 - 4) * (0 - 4)) with (5 * 5) by ring. rewrite sqrt_square; lra.
  - eexists. split; [reflexivity|]. cbn. unfold vadd, vec3, fill. cbn. lra.
Qed.

Print Assumptions C96_distance.
Print Assumptions C96_magnitude.
Print Assumptions C96_midpoint.
Print Assumptions C96_centroid.
Print Assumptions C96_centroid_refuted.
Print Assumptions C96_cross3.
Print Assumptions C96_parallelogram.
Print Assumptions C96_cross2_refuted.
Print Assumptions C96_normal2.
Print Assumptions C96_normal3_refuted.
Print Assumptions C96_list.
