(** Points and vectors of the physics code: /repo/include/space_vector.h
    (space_vector_u<double, D>, L37-120).  A point is its coordinate function;
    only the coordinates below the dimension are used.  double is modelled by
    the real numbers. *)
From Coq Require Export Reals Lra Psatz.
From Verif Require Import Base.
Local Open Scope R_scope.

Definition point : Type := nat -> R.

(** for (d = 0; d < D; ++d) sum += f(d) *)
Fixpoint sumn (n : nat) (f : nat -> R) : R :=
  match n with O => 0 | S k => sumn k f + f k end.

(** sum over a list, accumulated from the left in the code *)
Fixpoint suml {A} (f : A -> R) (l : list A) : R :=
  match l with [] => 0 | x :: r => f x + suml f r end.

Definition vzero : point := fun _ => 0.
Definition vadd (a b : point) : point := fun i => a i + b i.
Definition vsub (a b : point) : point := fun i => a i - b i.
Definition vscale (s : R) (a : point) : point := fun i => s * a i.
Definition vsum {A} (f : A -> point) (l : list A) : point := fun i => suml (fun x => f x i) l.

(** space_vector.h: dot, distance (L48-58; for D = 1 the code returns
    |a[0] - b[0]|, the same number, see [dist_1]), magnitude *)
Definition dot (n : nat) (a b : point) : R := sumn n (fun i => a i * b i).
Definition dist2 (n : nat) (a b : point) : R := sumn n (fun i => (a i - b i) * (a i - b i)).
Definition dist (n : nat) (a b : point) : R := sqrt (dist2 n a b).
Definition norm (n : nat) (a : point) : R := sqrt (dot n a a).

(** same point in dimension n *)
Definition peq (n : nat) (a b : point) : Prop := forall i, (i < n)%nat -> a i = b i.

(** ** sums *)
Lemma sumn_ext n f g : (forall i, (i < n)%nat -> f i = g i) -> sumn n f = sumn n g.
Proof. induction n; intros H; cbn; [reflexivity|]. rewrite IHn by (intros; apply H; lia). rewrite H by lia. reflexivity. Qed.
Lemma sumn_plus n f g : sumn n (fun i => f i + g i) = sumn n f + sumn n g.
Proof. induction n; cbn; [ring|]. rewrite IHn. ring. Qed.
Lemma sumn_minus n f g : sumn n (fun i => f i - g i) = sumn n f - sumn n g.
Proof. induction n; cbn; [ring|]. rewrite IHn. ring. Qed.
Lemma sumn_scal n c f : sumn n (fun i => c * f i) = c * sumn n f.
Proof. induction n; cbn; [ring|]. rewrite IHn. ring. Qed.
Lemma sumn_nonneg n f : (forall i, (i < n)%nat -> 0 <= f i) -> 0 <= sumn n f.
Proof.
  induction n; intros H; cbn; [lra|]. specialize (IHn ltac:(intros; apply H; lia)). specialize (H n ltac:(lia)). lra.
Qed.
Lemma sumn_le n f g : (forall i, (i < n)%nat -> f i <= g i) -> sumn n f <= sumn n g.
Proof.
  intros H. assert (0 <= sumn n (fun i => g i - f i)) by (apply sumn_nonneg; intros; specialize (H i H0); lra).
  rewrite sumn_minus in H0. lra.
Qed.
Lemma sumn_ge1 n f i : (i < n)%nat -> (forall j, (j < n)%nat -> 0 <= f j) -> f i <= sumn n f.
Proof.
  induction n; intros Hi H; [lia|]. cbn. destruct (Nat.eq_dec i n) as [->|Hn].
  - assert (0 <= sumn n f) by (apply sumn_nonneg; intros; apply H; lia). lra.
  - specialize (IHn ltac:(lia) ltac:(intros; apply H; lia)). specialize (H n ltac:(lia)). lra.
Qed.
Lemma sumn_zero n : sumn n (fun _ => 0) = 0.
Proof. induction n; cbn; lra. Qed.

Lemma suml_app {A} (f : A -> R) l1 l2 : suml f (l1 ++ l2) = suml f l1 + suml f l2.
Proof. induction l1; cbn; [ring|]. rewrite IHl1. ring. Qed.
Lemma suml_ext {A} (f g : A -> R) l : (forall x, In x l -> f x = g x) -> suml f l = suml g l.
Proof.
  induction l; intros H; cbn; [reflexivity|]. rewrite H by (left; reflexivity). rewrite IHl; [reflexivity|].
  intros. apply H. right. assumption.
Qed.
Lemma suml_plus {A} (f g : A -> R) l : suml (fun x => f x + g x) l = suml f l + suml g l.
Proof. induction l; cbn; [ring|]. rewrite IHl. ring. Qed.
Lemma suml_minus {A} (f g : A -> R) l : suml (fun x => f x - g x) l = suml f l - suml g l.
Proof. induction l; cbn; [ring|]. rewrite IHl. ring. Qed.
Lemma suml_scal {A} c (f : A -> R) l : suml (fun x => c * f x) l = c * suml f l.
Proof. induction l; cbn; [ring|]. rewrite IHl. ring. Qed.
Lemma suml_zero {A} (l : list A) : suml (fun _ => 0) l = 0.
Proof. induction l; cbn; [reflexivity|]. rewrite IHl. ring. Qed.
Lemma suml_map {A B} (f : B -> R) (g : A -> B) l : suml f (map g l) = suml (fun x => f (g x)) l.
Proof. induction l; cbn; [reflexivity|]. rewrite IHl. reflexivity. Qed.
Lemma suml_flat_map {A B} (f : B -> R) (g : A -> list B) l :
  suml f (flat_map g l) = suml (fun x => suml f (g x)) l.
Proof. induction l; cbn; [reflexivity|]. rewrite suml_app, IHl. reflexivity. Qed.
Lemma suml_nonneg {A} (f : A -> R) l : (forall x, In x l -> 0 <= f x) -> 0 <= suml f l.
Proof.
  induction l; intros H; cbn; [lra|]. specialize (IHl ltac:(intros; apply H; right; assumption)).
  specialize (H a (or_introl eq_refl)). lra.
Qed.
Lemma suml_pos {A} (f : A -> R) l : l <> [] -> (forall x, In x l -> 0 < f x) -> 0 < suml f l.
Proof.
  destruct l as [|a l]; intros Hn H; [congruence|]. cbn.
  assert (0 <= suml f l) by (apply suml_nonneg; intros x Hx; apply Rlt_le, H; right; assumption).
  specialize (H a (or_introl eq_refl)). lra.
Qed.
Lemma suml_swap {A B} (f : A -> B -> R) l m :
  suml (fun x => suml (f x) m) l = suml (fun y => suml (fun x => f x y) l) m.
Proof.
  induction l; cbn.
  - rewrite suml_zero. reflexivity.
  - rewrite IHl, <- suml_plus. reflexivity.
Qed.
Lemma suml_sumn {A} n (f : A -> nat -> R) l :
  suml (fun x => sumn n (f x)) l = sumn n (fun i => suml (fun x => f x i) l).
Proof.
  induction l; cbn.
  - symmetry. apply sumn_zero.
  - rewrite IHl, <- sumn_plus. reflexivity.
Qed.
From Coq Require Import Permutation.
Lemma suml_perm {A} (f : A -> R) l l' : Permutation l l' -> suml f l = suml f l'.
Proof. induction 1; cbn; [reflexivity|rewrite IHPermutation; reflexivity|ring|congruence]. Qed.

(** ** dot products, Cauchy-Schwarz, triangle inequality *)
Lemma dot_comm n a b : dot n a b = dot n b a.
Proof. apply sumn_ext. intros. ring. Qed.
Lemma dot_self_nonneg n a : 0 <= dot n a a.
Proof. apply sumn_nonneg. intros. cbv beta. apply Rle_0_sqr || nra. Qed.
Lemma dist2_nonneg n a b : 0 <= dist2 n a b.
Proof. apply sumn_nonneg. intros. cbv beta. apply Rle_0_sqr || nra. Qed.
Lemma dist2_sym n a b : dist2 n a b = dist2 n b a.
Proof. apply sumn_ext. intros. ring. Qed.
Lemma dist_sym n a b : dist n a b = dist n b a.
Proof. unfold dist. rewrite dist2_sym. reflexivity. Qed.
Lemma dist_nonneg n a b : 0 <= dist n a b.
Proof. apply sqrt_pos. Qed.
Lemma dist_sqr n a b : dist n a b * dist n a b = dist2 n a b.
Proof. apply sqrt_sqrt, dist2_nonneg. Qed.
Lemma dist2_dot n a b : dist2 n a b = dot n (vsub a b) (vsub a b).
Proof. reflexivity. Qed.
Lemma dist_norm n a b : dist n a b = norm n (vsub a b).
Proof. reflexivity. Qed.
Lemma dist_self n a : dist n a a = 0.
Proof.
  unfold dist, dist2. rewrite (sumn_ext n _ (fun _ => 0)) by (intros; ring). rewrite sumn_zero. apply sqrt_0.
Qed.
Lemma dist_ext n a a' b b' : peq n a a' -> peq n b b' -> dist n a b = dist n a' b'.
Proof. intros H1 H2. unfold dist, dist2. f_equal. apply sumn_ext. intros. rewrite H1, H2 by assumption. reflexivity. Qed.

Lemma dot_expand n a b t : dot n (fun i => a i + t * b i) (fun i => a i + t * b i) =
  dot n a a + 2 * t * dot n a b + t * t * dot n b b.
Proof.
  unfold dot. rewrite <- (sumn_scal n (2 * t)), <- (sumn_scal n (t * t)), <- !sumn_plus.
  apply sumn_ext. intros. ring.
Qed.

Lemma cauchy_schwarz2 n a b : dot n a b * dot n a b <= dot n a a * dot n b b.
Proof.
  set (A := dot n a a). set (B := dot n b b). set (C := dot n a b).
  pose proof (dot_self_nonneg n a) as HA. pose proof (dot_self_nonneg n b) as HB. fold A in HA. fold B in HB.
  assert (H : forall t, 0 <= A + 2 * t * C + t * t * B).
  { intros t. unfold A, B, C. rewrite <- dot_expand. apply dot_self_nonneg. }
  destruct (Req_dec B 0) as [E|E].
  - destruct (Req_dec C 0) as [->|Ec]; [nra|]. exfalso.
    specialize (H (- (A + 1) / (2 * C))). rewrite E in H.
    replace (A + 2 * (- (A + 1) / (2 * C)) * C + - (A + 1) / (2 * C) * (- (A + 1) / (2 * C)) * 0) with (-1) in H
      by (field; assumption). lra.
  - assert (HB' : 0 < B) by lra. specialize (H (- C / B)).
    replace (A + 2 * (- C / B) * C + - C / B * (- C / B) * B) with ((A * B - C * C) / B) in H by (field; lra).
    assert (0 <= A * B - C * C).
    { replace (A * B - C * C) with ((A * B - C * C) / B * B) by (field; lra). apply Rmult_le_pos; lra. }
    lra.
Qed.

Lemma cauchy_schwarz n a b : Rabs (dot n a b) <= norm n a * norm n b.
Proof.
  unfold norm. rewrite <- sqrt_mult by apply dot_self_nonneg. rewrite <- sqrt_Rsqr_abs.
  apply sqrt_le_1_alt. apply cauchy_schwarz2.
Qed.

Lemma norm_triangle n a b : norm n (vadd a b) <= norm n a + norm n b.
Proof.
  assert (Hn : 0 <= norm n a /\ 0 <= norm n b) by (split; apply sqrt_pos).
  unfold norm at 1. apply Rsqr_incr_0_var; [|lra]. rewrite Rsqr_sqrt by apply dot_self_nonneg.
  unfold Rsqr. pose proof (dot_expand n a b 1) as E.
  assert (E' : dot n (vadd a b) (vadd a b) = dot n a a + 2 * dot n a b + dot n b b).
  { transitivity (dot n (fun i => a i + 1 * b i) (fun i => a i + 1 * b i)).
    - apply sumn_ext. intros. unfold vadd. ring.
    - rewrite E. ring. }
  rewrite E'.
  assert (norm n a * norm n a = dot n a a) by (apply sqrt_sqrt, dot_self_nonneg).
  assert (norm n b * norm n b = dot n b b) by (apply sqrt_sqrt, dot_self_nonneg).
  pose proof (cauchy_schwarz n a b) as C. pose proof (Rle_abs (dot n a b)). nra.
Qed.

Lemma dist_triangle n a b c : dist n a c <= dist n a b + dist n b c.
Proof.
  rewrite !dist_norm. eapply Rle_trans; [|apply norm_triangle]. right. unfold norm. f_equal.
  apply sumn_ext. intros. unfold vsub, vadd. ring.
Qed.

Lemma coord_le_dist n a b i : (i < n)%nat -> Rabs (a i - b i) <= dist n a b.
Proof.
  intros Hi. unfold dist. rewrite <- sqrt_Rsqr_abs. apply sqrt_le_1_alt. unfold Rsqr.
  apply (sumn_ge1 n (fun i => (a i - b i) * (a i - b i)) i Hi). intros. cbv beta. apply Rle_0_sqr.
Qed.
Lemma dist_le_iff n a b r : 0 <= r -> (dist n a b <= r <-> dist2 n a b <= r * r).
Proof.
  intros Hr. pose proof (dist_nonneg n a b). rewrite <- dist_sqr. split; intros; nra.
Qed.
Lemma dist_1 a b : dist 1 a b = Rabs (a 0%nat - b 0%nat).
Proof.
  unfold dist, dist2. cbn [sumn]. rewrite Rplus_0_l. apply sqrt_Rsqr_abs.
Qed.
Lemma dist_zero n a b : dist n a b = 0 -> peq n a b.
Proof. intros H i Hi. pose proof (coord_le_dist n a b i Hi). rewrite H in H0. pose proof (Rabs_pos (a i - b i)). 
  assert (E : Rabs (a i - b i) = 0) by lra. destruct (Req_dec (a i - b i) 0) as [E'|E']; [lra|]. apply Rabs_no_R0 in E'. contradiction. Qed.
