(** The leapfrog step: C39. *)
From Coq Require Import FunctionalExtensionality.
From Verif Require Import Base Vec Leapfrog_model Sph_props.
Local Open Scope R_scope.

(** The stored accelerations are those of the current positions, as after
    any step or after the first iteration. *)
Definition current (A G : field) (s : nat -> lbody) : Prop :=
  forall i, l_acc (s i) = A (fun j => l_x (s j)) i /\ l_gacc (s i) = G (fun j => l_x (s j)) i.

Lemma step_current A G dt s : current A G (step A G dt s).
Proof. intro i. split; reflexivity. Qed.

(** A step followed by the step with the opposite sign restores positions,
    velocities and accelerations. *)
Theorem C39_reversible A G dt s :
  current A G s ->
  forall i, let s' := step A G (- dt) (step A G dt s) in
    l_x (s' i) = l_x (s i) /\ l_v (s' i) = l_v (s i) /\ l_acc (s' i) = l_acc (s i) /\ l_gacc (s' i) = l_gacc (s i) /\
    l_v12 (s' i) = l_v12 (step A G dt s i).
Proof.
  intros Hc. cbv zeta.
  assert (X : forall i, l_x (step A G (- dt) (step A G dt s) i) = l_x (s i)).
  { intro i. apply functional_extensionality. intro k. cbn. ring. }
  assert (XX : (fun j => l_x (step A G (- dt) (step A G dt s) j)) = (fun j => l_x (s j))).
  { apply functional_extensionality. exact X. }
  assert (E1 : forall i, l_acc (step A G (- dt) (step A G dt s) i) = l_acc (s i)).
  { intro i. destruct (step_current A G (- dt) (step A G dt s) i) as (-> & _). rewrite XX. symmetry. apply Hc. }
  assert (E2 : forall i, l_gacc (step A G (- dt) (step A G dt s) i) = l_gacc (s i)).
  { intro i. destruct (step_current A G (- dt) (step A G dt s) i) as (_ & ->). rewrite XX. symmetry. apply Hc. }
  assert (V : forall b k, l_v (kick_v (- dt) b) k = l_v b k - 1 / 2 * dt * (l_acc b k + l_gacc b k))
    by (intros; cbn; ring).
  intro i. split; [apply X|]. split; [|split; [apply E1|split; [apply E2|]]].
  - apply functional_extensionality. intro k.
    specialize (E1 i). specialize (E2 i). 
    change (l_v (step A G (- dt) (step A G dt s) i) k) with
      (l_v (step A G dt s i) k + 1 / 2 * - dt * (l_acc (step A G dt s i) k + l_gacc (step A G dt s i) k) +
       1 / 2 * - dt * (l_acc (step A G (- dt) (step A G dt s) i) k + l_gacc (step A G (- dt) (step A G dt s) i) k)).
    rewrite E1, E2.
    change (l_v (step A G dt s i) k) with (l_v (s i) k + 1 / 2 * dt * (l_acc (s i) k + l_gacc (s i) k) +
       1 / 2 * dt * (l_acc (step A G dt s i) k + l_gacc (step A G dt s i) k)). ring.
  - apply functional_extensionality. intro k. cbn. ring.
Qed.

(** The step is exact for uniformly accelerated motion. *)
Theorem C39_uniform a dt s i k :
  current (fun _ => a) (fun _ _ => vzero) s ->
  let s' := step (fun _ => a) (fun _ _ => vzero) dt s in
  l_v (s' i) k = l_v (s i) k + dt * a i k /\ l_x (s' i) k = l_x (s i) k + dt * l_v (s i) k + dt * dt / 2 * a i k.
Proof.
  intro Hc. destruct (Hc i) as (Ha & Hg). cbv zeta. cbn. rewrite Ha, Hg. unfold vzero. split; field.
Qed.

(** If the forces add up to zero, a step keeps the total momentum and moves
    the centre of mass uniformly. *)
Theorem C39_momentum A G dt s n m k :
  current A G s ->
  (forall x, sumn n (fun i => m i * (A x i k + G x i k)) = 0) ->
  let s' := step A G dt s in
  sumn n (fun i => m i * l_v (s' i) k) = sumn n (fun i => m i * l_v (s i) k) /\
  sumn n (fun i => m i * l_x (s' i) k) = sumn n (fun i => m i * l_x (s i) k) + dt * sumn n (fun i => m i * l_v (s i) k).
Proof.
  intros Hc H0. cbv zeta.
  assert (H1 := H0 (fun j => l_x (s j))). assert (H2 := H0 (fun j => l_x (step A G dt s j))).
  assert (Ea : forall i, l_acc (s i) = A (fun j => l_x (s j)) i) by apply Hc.
  assert (Eg : forall i, l_gacc (s i) = G (fun j => l_x (s j)) i) by apply Hc.
  split.
  - transitivity (sumn n (fun i => m i * l_v (s i) k) +
      1 / 2 * dt * sumn n (fun i => m i * (A (fun j => l_x (s j)) i k + G (fun j => l_x (s j)) i k)) +
      1 / 2 * dt * sumn n (fun i => m i * (A (fun j => l_x (step A G dt s j)) i k + G (fun j => l_x (step A G dt s j)) i k))).
    + rewrite <- !sumn_scal, <- !sumn_plus. apply sumn_ext. intros i _. rewrite <- Ea, <- Eg. cbn. ring.
    + rewrite H1, H2. ring.
  - transitivity (sumn n (fun i => m i * l_x (s i) k) + dt * sumn n (fun i => m i * l_v (s i) k) +
      1 / 2 * dt * dt * sumn n (fun i => m i * (A (fun j => l_x (s j)) i k + G (fun j => l_x (s j)) i k))).
    + rewrite <- !sumn_scal, <- !sumn_plus. apply sumn_ext. intros i _. rewrite <- Ea, <- Eg. cbn. ring.
    + rewrite H1. ring.
Qed.

(** The energies: a half kick with the rate at the start of the step and one with the
    rate at its end are exact as long as the rate changes linearly in time; position and
    velocity are not touched, and a drift touches neither energy. *)
Theorem C39_energies p q r t dt a b : let E := fun x => p + q * x + r * x * x in let rate := fun x => q + 2 * r * x in
  (l_u a = E t -> l_dudt a = rate t -> l_u b = l_u (drift dt (kick_u dt a)) -> l_dudt b = rate (t + dt) -> l_u (kick_u dt b) = E (t + dt)) /\
  (l_e a = E t -> l_dedt a = rate t -> l_e b = l_e (drift dt (kick_e dt a)) -> l_dedt b = rate (t + dt) -> l_e (kick_e dt b) = E (t + dt)) /\
  l_x (kick_u dt a) = l_x a /\ l_v (kick_u dt a) = l_v a /\ l_v12 (kick_u dt a) = l_v12 a /\ l_acc (kick_u dt a) = l_acc a /\ l_gacc (kick_u dt a) = l_gacc a /\
  l_x (kick_e dt a) = l_x a /\ l_v (kick_e dt a) = l_v a /\ l_v12 (kick_e dt a) = l_v12 a /\ l_acc (kick_e dt a) = l_acc a /\ l_gacc (kick_e dt a) = l_gacc a /\
  l_e (kick_u dt a) = l_e a /\ l_u (kick_e dt a) = l_u a.
Proof. cbv zeta. split; [|split; [|repeat split]]; intros H1 H2 H3 H4; cbn in *; rewrite H3, H4, H1, H2; field. Qed.
(** A spring: one particle, acceleration minus its position. *)
Example C39_case :
  let A : field := fun x i k => - x i k in
  let s := compute_acc A (fun _ _ => vzero) (fun _ => LBody (fun _ => 1) vzero vzero vzero vzero 0 0 0 0) in
  current A (fun _ _ => vzero) s /\ l_x (step A (fun _ _ => vzero) 1 s 0%nat) 0%nat = 1 / 2.
Proof. split; [intro i; split; reflexivity|]. cbn. unfold vzero. field. Qed.

(** Energy 1 + t + t^2 from t = 0 to 2: 1 and rate 1, then 7 and rate 5. *)
Example C39_energies_case : let a := LBody vzero vzero vzero vzero vzero 1 1 1 1 in let b := LBody vzero vzero vzero vzero vzero 2 5 2 5 in
  l_u b = l_u (drift 2 (kick_u 2 a)) /\ l_u (kick_u 2 b) = 7 /\ l_e (kick_e 2 b) = 7.
Proof. cbn. repeat split; field. Qed.

Print Assumptions C39_energies.
Print Assumptions C39_reversible.
Print Assumptions C39_momentum.
