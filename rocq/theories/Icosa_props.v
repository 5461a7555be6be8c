From Coq Require Import Reals Lra Lia Permutation.
From Verif Require Import Base BuildTree_model Range_model Lattice_model Lattice_props.

(** ** C50: the particle numbers of icosahedral shells and spheres *)
Lemma length_flat_map (T U : Type) (g : T -> list U) (l : list T) : length (flat_map g l) = fold_right (fun x n => (length (g x) + n)%nat) O l.
Proof. induction l as [|a l IH]; cbn; [reflexivity|]. rewrite app_length, IH. reflexivity. Qed.
Lemma edge_count : forall n m, length (flat_map (fun i => map (EdgePt i) (seq 0 m)) (seq n 30)) = (30 * m)%nat.
Proof.
  assert (H : forall k n m, length (flat_map (fun i => map (EdgePt i) (seq 0 m)) (seq n k)) = (k * m)%nat).
  { induction k as [|k IH]; intros n m; cbn [seq flat_map]; [reflexivity|]. rewrite app_length, IH, map_length, seq_length. lia. }
  intros. apply H.
Qed.
Lemma face_rows : forall i N k m, (k + m = N + 1)%nat -> (1 <= m)%nat ->
  (2 * length (flat_map (fun m => map (FacePt i m) (seq 1 (N - m))) (seq m k)) = (N - m) * (N - m + 1))%nat.
Proof.
  intros i N. induction k as [|k IH]; intros m E Hm; cbn [seq flat_map].
  - replace (N - m)%nat with O by lia. reflexivity.
  - rewrite app_length, map_length, seq_length, Nat.mul_add_distr_l, IH by lia.
    destruct (Nat.eq_dec m N) as [->|Hn]; [replace (N - N)%nat with O by lia; replace (N - S N)%nat with O by lia; reflexivity|].
    replace (N - m)%nat with (S (N - S m)) by lia. set (t := (N - S m)%nat). lia.
Qed.
Lemma face_count : forall nn, (2 * length (flat_map (fun i => flat_map (fun m => map (FacePt i m) (seq 1 (nn - 1 - m))) (seq 1 (nn - 1))) (seq 0 20)) = 20 * ((nn - 1 - 1) * (nn - 1)))%nat.
Proof.
  intros nn. assert (H : forall k n, (2 * length (flat_map (fun i => flat_map (fun m => map (FacePt i m) (seq 1 (nn - 1 - m))) (seq 1 (nn - 1))) (seq n k)) = k * ((nn - 1 - 1) * (nn - 1)))%nat).
  { induction k as [|k IH]; intros n; cbn [seq flat_map]; [reflexivity|]. rewrite app_length, Nat.mul_add_distr_l, IH, face_rows by lia.
    destruct (Nat.eq_dec (nn - 1) 0) as [E|E]; [rewrite E; cbn; lia|]. replace (nn - 1 - 1 + 1)%nat with (nn - 1)%nat by lia. lia. }
  apply H.
Qed.
Lemma shell_count : forall nn, (1 <= nn)%nat -> length (ico_shell nn) = (12 + 30 * (nn - 1) + 10 * ((nn - 1 - 1) * (nn - 1)))%nat.
Proof.
  intros nn Hn. unfold ico_shell. rewrite ! app_length, edge_count. pose proof (face_count nn).
  destruct (Nat.ltb_spec 0 nn); [|lia]. rewrite map_length, seq_length. lia.
Qed.
Lemma i32_some : forall z v, i32 z = Some v -> v = z.
Proof. intros z v H. unfold i32 in H. destruct (_ && _)%bool; [congruence | discriminate]. Qed.
Ltac i32s H := repeat match type of H with context [match i32 ?z with _ => _ end] => let E := fresh "E" in destruct (i32 z) eqn:E in H; [apply i32_some in E; subst | discriminate] end.
(** Whenever the int arithmetic of npart_icosahedral_shell does not overflow, it returns
    the number of points the construction makes, *)
Theorem C50_shell : forall nn N, npart_shell (Z.of_nat nn) = Some N -> N = Z.of_nat (length (ico_shell nn)).
Proof.
  intros nn N H. unfold npart_shell in H. destruct nn as [|n].
  - cbn in H. injection H as <-. reflexivity.
  - destruct (Z.ltb_spec 0 (Z.of_nat (S n))); [|lia]. i32s H. apply i32_some in H. subst N.
    rewrite shell_count by lia. destruct n as [|n]; [reflexivity|].
    replace (S (S n) - 1)%nat with (S n) by lia. replace (S n - 1)%nat with n by lia. lia.
Qed.
(** these are distinct (vertex, position on an edge or in a face), *)
Lemma NoDup_app2 (T : Type) : forall l l' : list T, NoDup l -> NoDup l' -> (forall x, In x l -> ~ In x l') -> NoDup (l ++ l').
Proof.
  induction l as [|a l IH]; intros l' H H' D; [exact H'|]. inversion H; subst. cbn. constructor.
  - rewrite in_app_iff. intros [Hl|Hl]; [contradiction | apply (D a); [left; reflexivity | exact Hl]].
  - apply IH; [assumption | assumption | intros x Hx; apply D; right; exact Hx].
Qed.
Lemma NoDup_flat (T U : Type) (g : T -> list U) : forall l, NoDup l -> (forall x, In x l -> NoDup (g x)) -> (forall x y u, In u (g x) -> In u (g y) -> x = y) -> NoDup (flat_map g l).
Proof.
  induction l as [|a l IH]; intros H1 H2 H3; cbn; [constructor|]. inversion H1; subst. apply NoDup_app2.
  - apply H2; left; reflexivity.
  - apply IH; [assumption | intros x Hx; apply H2; right; exact Hx | exact H3].
  - intros x Hx Hx'. apply in_flat_map in Hx'. destruct Hx' as (b & Hb & Hxb). rewrite (H3 a b x Hx Hxb) in *. contradiction.
Qed.
Lemma NoDup_map_inj (T U : Type) (g : T -> U) : (forall x y, g x = g y -> x = y) -> forall l, NoDup l -> NoDup (map g l).
Proof.
  intros Hg. induction l as [|a l IH]; intros H; cbn; [constructor|]. inversion H; subst. constructor; [|apply IH; assumption].
  rewrite in_map_iff. intros (b & E & Hb). apply Hg in E. congruence.
Qed.
Theorem C50_distinct : forall nn, NoDup (ico_shell nn).
Proof.
  intros nn. unfold ico_shell. apply NoDup_app2; [| apply NoDup_app2 |].
  - destruct (0 <? nn)%nat; [apply NoDup_map_inj; [intros x y E; congruence | apply seq_NoDup] | repeat constructor; intros []].
  - apply NoDup_flat; [apply seq_NoDup | intros x _; apply NoDup_map_inj; [intros a b E; congruence | apply seq_NoDup] |].
    intros x y u Hx Hy. apply in_map_iff in Hx, Hy. destruct Hx as (a & <- & _), Hy as (b & E & _). congruence.
  - apply NoDup_flat; [apply seq_NoDup | |].
    + intros x _. apply NoDup_flat; [apply seq_NoDup | intros y _; apply NoDup_map_inj; [intros a b E; congruence | apply seq_NoDup] |].
      intros a b u Ha Hb. apply in_map_iff in Ha, Hb. destruct Ha as (c & <- & _), Hb as (d & E & _). congruence.
    + intros x y u Hx Hy. apply in_flat_map in Hx, Hy. destruct Hx as (a & _ & Ha), Hy as (b & _ & Hb).
      apply in_map_iff in Ha, Hb. destruct Ha as (c & <- & _), Hb as (d & E & _). congruence.
  - intros x Hx Hy. apply in_flat_map in Hx, Hy. destruct Hx as (a & _ & Ha), Hy as (b & _ & Hb). apply in_flat_map in Hb. destruct Hb as (b' & _ & Hb).
    apply in_map_iff in Ha, Hb. destruct Ha as (c & <- & _), Hb as (d & E & _). discriminate.
  - intros x Hx Hy. rewrite in_app_iff in Hy.
    assert (Hx' : x = Centre \/ exists i, x = Vertex i).
    { destruct (0 <? nn)%nat; [right; apply in_map_iff in Hx; destruct Hx as (i & <- & _); eauto | left; destruct Hx as [<-|[]]; reflexivity]. }
    destruct Hy as [Hy|Hy]; apply in_flat_map in Hy; destruct Hy as (b & _ & Hb).
    + apply in_map_iff in Hb. destruct Hb as (d & <- & _). destruct Hx' as [E|(i & E)]; discriminate.
    + apply in_flat_map in Hb. destruct Hb as (b' & _ & Hb). apply in_map_iff in Hb. destruct Hb as (d & <- & _). destruct Hx' as [E|(i & E)]; discriminate.
Qed.
(** and the number for the sphere is the sum over its shells. *)
Fixpoint shells_sum (k : nat) : Z := match k with O => Z.of_nat (length (ico_shell 0)) | S j => (shells_sum j + Z.of_nat (length (ico_shell (S j))))%Z end.
Lemma shells_closed : forall k, (3 * shells_sum k = 3 + 9 * Z.of_nat k * (5 * Z.of_nat k - 1) + 10 * Z.of_nat k * (Z.of_nat k - 1) * (Z.of_nat k - 2))%Z.
Proof.
  induction k as [|k IH]; [reflexivity|]. cbn [shells_sum]. rewrite Z.mul_add_distr_l, IH, shell_count by lia.
  replace (S k - 1)%nat with k by lia. destruct k as [|k]; [reflexivity|]. replace (S k - 1)%nat with k by lia. lia.
Qed.
Theorem C50_sphere : forall k N, npart_sphere (Z.of_nat k) = Some N -> N = shells_sum k.
Proof.
  intros k N H. unfold npart_sphere in H. pose proof (shells_closed k) as HC. destruct k as [|k].
  - cbn in H. injection H as <-. reflexivity.
  - set (K := Z.of_nat (S k)) in *. destruct (Z.ltb_spec 0 K); [|lia]. i32s H. apply i32_some in H. subst N.
    set (g := (10 * K * (K - 1) * (K - 2))%Z) in *.
    assert (Hg : (g = 3 * (shells_sum (S k) - 1 - 3 * K * (5 * K - 1)))%Z) by lia.
    rewrite Hg, (Z.mul_comm 3 (_ - _)%Z), Z.div_mul by lia. lia.
Qed.
(** When nothing is cut off by the domain the generator makes exactly that many, *)
Lemma place_all_count (F : Type) (A : arith F) : forall pos bmin bmax dt nn, (forall x y z, in_domain_3d A x y z bmin bmax dt = true) ->
  forall l s, exists s', place_all A pos bmin bmax dt nn l true s = Some s' /\ l_pid s' = (l_pid s + Z.of_nat (length l))%Z.
Proof.
  intros pos bmin bmax dt nn HD. induction l as [|i r IH]; intros s; cbn [place_all length]; [exists s; split; [reflexivity | lia]|].
  destruct (pos nn i) as [[x y] z]. unfold place. replace (match i with Centre => true | _ => in_domain_3d A x y z bmin bmax dt end) with true by (destruct i; rewrite ? HD; reflexivity).
  cbv iota beta. edestruct IH as (s' & -> & E). exists s'. split; [reflexivity|]. rewrite E. cbn. lia.
Qed.
Theorem C50_generated : forall (F : Type) (A : arith F) pos bmin bmax dt k N s, (forall x y z, in_domain_3d A x y z bmin bmax dt = true) ->
  npart_sphere (Z.of_nat k) = Some N ->
  exists s', gen_ico A pos bmin bmax dt (seq 0 (S k)) true s = Some s' /\ l_pid s' = (l_pid s + N)%Z.
Proof.
  intros F A pos bmin bmax dt k N s HD HN. apply C50_sphere in HN. subst N.
  assert (HG : forall j n s, exists s', gen_ico A pos bmin bmax dt (seq n j) true s = Some s' /\ l_pid s' = (l_pid s + fold_right (fun i a => Z.of_nat (length (ico_shell i)) + a) 0 (seq n j))%Z).
  { clear s k. induction j as [|j IH]; intros n s; cbn [seq gen_ico fold_right]; [exists s; split; [reflexivity | lia]|].
    destruct (place_all_count F A pos bmin bmax dt n HD (ico_shell n) s) as (s1 & -> & E1). cbv iota beta.
    destruct (IH (S n) s1) as (s2 & -> & E2). exists s2. split; [reflexivity|]. lia. }
  destruct (HG (S k) O s) as (s' & Es & Ep). exists s'. split; [exact Es|]. rewrite Ep. f_equal. clear.
  induction k as [|k IH]; [cbn; reflexivity|]. rewrite seq_S, fold_right_app. cbn [fold_right]. cbn [shells_sum]. rewrite <- IH.
  assert (Hf : forall l a, fold_right (fun i b => (Z.of_nat (length (ico_shell i)) + b)%Z) a l = (fold_right (fun i b => (Z.of_nat (length (ico_shell i)) + b)%Z) 0%Z l + a)%Z) by (clear; induction l as [|i l IH]; intros a; cbn [fold_right]; [lia | rewrite IH; lia]).
  rewrite Hf, Z.add_0_r. reflexivity.
Qed.
(** and never more: each point at most once. *)
Theorem C50_at_most : forall (F : Type) (A : arith F) pos bmin bmax dt nn l (s s' : lst F),
  place_all A pos bmin bmax dt nn l true s = Some s' -> (l_pid s <= l_pid s' <= l_pid s + Z.of_nat (length l))%Z.
Proof.
  intros F A pos bmin bmax dt nn. induction l as [|i r IH]; intros s s' H; cbn [place_all length] in *; [injection H as <-; lia|].
  destruct (pos nn i) as [[x y] z]. unfold place in H. cbv iota beta in H. apply IH in H.
  match type of H with context [if ?b then _ else _] => destruct b end; cbn [l_pid] in H; lia.
Qed.
(** The product in npart_icosahedral_sphere overflows int from 600 shells on (K_rad = 600
    makes 721 802 201 particles, an int64_t being there to hold it). *)
Theorem C50_overflow_refuted : exists k : nat, npart_sphere (Z.of_nat k) = None /\ shells_sum k = 721802201%Z.
Proof.
  exists 600%nat. split; [vm_compute; reflexivity|]. pose proof (shells_closed 600). change (Z.of_nat 600) with 600%Z in *. lia.
Qed.
Theorem C50_defined : forall k : nat, (k <= 599)%nat -> npart_sphere (Z.of_nat k) <> None.
Proof.
  intros k Hk. unfold npart_sphere. destruct (Z.ltb_spec 0 (Z.of_nat k)); [|discriminate]. set (K := Z.of_nat k) in *.
  assert (HI : forall z, (-2147483648 <= z <= 2147483647)%Z -> i32 z = Some z).
  { intros z Hz. unfold i32. destruct (Z.leb_spec (-2147483648) z), (Z.leb_spec z 2147483647); cbn; [reflexivity | lia | lia | lia]. }
  assert (HK : (1 <= K <= 599)%Z) by lia. clearbody K.
  assert (H1 : (0 <= K * K <= 599 * 599)%Z) by nia.
  assert (H2 : (0 <= 10 * K * (K - 1) <= 10 * (599 * 598))%Z) by nia.
  assert (H3 : (-2147483648 <= 10 * K * (K - 1) * (K - 2) <= 10 * (599 * 598) * 597)%Z) by (set (u := (10 * K * (K - 1))%Z) in *; clearbody u; split; nia).
  rewrite (HI (3 * K)%Z), (HI (5 * K)%Z) by lia. rewrite (HI (3 * K * (5 * K - 1))%Z) by nia. rewrite (HI (1 + 3 * K * (5 * K - 1))%Z) by nia.
  rewrite (HI (10 * K)%Z) by lia. rewrite (HI (10 * K * (K - 1))%Z) by lia. rewrite (HI (10 * K * (K - 1) * (K - 2))%Z) by lia.
  assert (H4 : (-2147483648 / 3 <= 10 * K * (K - 1) * (K - 2) / 3 <= 2138465940 / 3)%Z) by (split; apply Z.div_le_mono; lia).
  change (-2147483648 / 3)%Z with (-715827883)%Z in H4. change (2138465940 / 3)%Z with 712821980%Z in H4.
  rewrite HI; [discriminate|]. nia.
Qed.
Example C50_five : npart_shell 5 = Some 252%Z /\ length (ico_shell 5) = 252%nat /\ npart_sphere 5 = Some 561%Z /\ shells_sum 5 = 561%Z.
Proof. repeat split; vm_compute; reflexivity. Qed.

(** The tables: every edge joins two of the twelve vertices, occurs once, and bounds
    exactly two faces; every side of a face is an edge; five edges meet in each vertex *)
Definition same_edge (e f : nat * nat) : bool := ((fst e =? fst f) && (snd e =? snd f) || (fst e =? snd f) && (snd e =? fst f))%nat%bool.
Definition sides (t : nat * nat * nat) : list (nat * nat) := let '(a, b, c) := t in [(a, b); (b, c); (c, a)].
Theorem C50_tables :
  (forall e, In e ico_edg -> (1 <= fst e <= 12 /\ 1 <= snd e <= 12 /\ fst e <> snd e)%nat) /\
  (forall e, In e ico_edg -> length (filter (same_edge e) ico_edg) = 1%nat) /\
  (forall e, In e ico_edg -> length (filter (fun t => existsb (same_edge e) (sides t)) ico_fac) = 2%nat) /\
  (forall t e, In t ico_fac -> In e (sides t) -> existsb (same_edge e) ico_edg = true) /\
  (forall v, (1 <= v <= 12)%nat -> length (filter (fun e => (fst e =? v) || (snd e =? v))%nat%bool ico_edg) = 5%nat) /\
  length ico_edg = 30%nat /\ length ico_fac = 20%nat.
Proof.
  assert (B : forall (T : Type) (f : T -> bool) l, forallb f l = true -> forall x, In x l -> f x = true) by (intros T f l H; apply forallb_forall; exact H).
  split; [|split; [|split; [|split; [|split; [|split; reflexivity]]]]].
  - intros e He. assert (H := B _ (fun e => (1 <=? fst e) && (fst e <=? 12) && (1 <=? snd e) && (snd e <=? 12) && negb (fst e =? snd e))%nat%bool ico_edg eq_refl e He).
    cbv beta in H. repeat (apply andb_prop in H; destruct H as [H ?]). apply Nat.leb_le in H, H1, H2, H3. apply negb_true_iff, Nat.eqb_neq in H0. lia.
  - intros e He. apply Nat.eqb_eq. exact (B _ (fun e => (length (filter (same_edge e) ico_edg) =? 1)%nat) ico_edg eq_refl e He).
  - intros e He. apply Nat.eqb_eq. exact (B _ (fun e => (length (filter (fun t => existsb (same_edge e) (sides t)) ico_fac) =? 2)%nat) ico_edg eq_refl e He).
  - intros t e Ht He. pose proof (B _ (fun t => forallb (fun e => existsb (same_edge e) ico_edg) (sides t)) ico_fac eq_refl t Ht) as H. cbv beta in H.
    exact (B _ _ _ H e He).
  - intros v Hv. apply Nat.eqb_eq. apply (B _ (fun v => (length (filter (fun e => (fst e =? v) || (snd e =? v))%nat%bool ico_edg) =? 5)%nat) (seq 1 12) eq_refl v). apply in_seq. lia.
Qed.

(** The twelve vertices lie on the sphere of the shell and all thirty edges are equally long *)
Local Open Scope R_scope.
Lemma sin36 : let s := (sin (PI / 5)) ^ 2 in 16 * s ^ 2 - 20 * s + 5 = 0 /\ 1 / 4 < s < 1 / 2.
Proof.
  intros s. pose proof PI_RGT_0 as HPI. assert (S0 : 0 < sin (PI / 5)) by (apply sin_gt_0; lra). assert (C0 : 0 < cos (PI / 5)) by (apply cos_gt_0; lra).
  set (x := PI / 5) in *. pose proof (sin2_cos2 x) as E. unfold Rsqr in E.
  assert (S2 : sin (2 * x) = 2 * sin x * cos x) by apply sin_2a. assert (C2 : cos (2 * x) = 1 - 2 * sin x * sin x) by apply cos_2a_sin.
  assert (S3 : sin (3 * x) = sin (2 * x)) by (replace (3 * x) with (PI - 2 * x) by (unfold x; field); apply sin_PI_x).
  assert (S3' : sin (3 * x) = sin (2 * x) * cos x + cos (2 * x) * sin x) by (replace (3 * x) with (2 * x + x) by ring; apply sin_plus).
  (* 2 sc = 2 s c^2 + (1 - 2 s^2) s, so 2 c = 3 - 4 s^2 *)
  assert (K : 2 * cos x = 3 - 4 * sin x ^ 2).
  { apply (Rmult_eq_reg_l (sin x)); [|lra]. assert (HC : cos x * cos x = 1 - sin x * sin x) by lra.
    transitivity (2 * sin x * (cos x * cos x) + (1 - 2 * sin x * sin x) * sin x); [|rewrite HC; ring].
    transitivity (sin (2 * x)); [rewrite S2; ring|]. rewrite <- S3, S3', S2, C2. ring. }
  assert (P : 16 * s ^ 2 - 20 * s + 5 = 0) .
  { unfold s. assert (HC : (2 * cos x) ^ 2 = 4 * (1 - sin x ^ 2)) by nra. rewrite K in HC. nra. }
  split; [exact P|].
  assert (s < 3 / 4) by (unfold s; fold x; lra). assert (0 < s) by (unfold s; fold x; nra). split; nra.
Qed.

(** Distances of vertices: the poles, and ring points a multiple of 36 degrees apart *)
Lemma ico_angles : let s := (sin (PI / 5)) ^ 2 in ico_sinb ^ 2 = (4 * s - 1) / (4 * s ^ 2) /\ ico_cosb = (1 - 2 * s) / (2 * s).
Proof.
  intros s. destruct sin36 as [P B]. fold s in P, B.
  assert (E : ico_sinb ^ 2 = (4 * s - 1) / (4 * s ^ 2)).
  { unfold ico_sinb. fold s. unfold Rdiv at 1. rewrite Rpow_mult_distr, pow2_sqrt by lra. field. lra. }
  split; [exact E|]. unfold ico_cosb. rewrite E.
  replace (1 - (4 * s - 1) / (4 * s ^ 2)) with (((1 - 2 * s) / (2 * s)) ^ 2) by (field; lra).
  apply sqrt_pow2. apply Rlt_le, Rdiv_lt_0_compat; lra.
Qed.
Lemma cos36 : 2 * cos (PI / 5) = 3 - 4 * (sin (PI / 5)) ^ 2.
Proof.
  pose proof PI_RGT_0 as HPI. assert (S0 : 0 < sin (PI / 5)) by (apply sin_gt_0; lra). assert (C0 : 0 < cos (PI / 5)) by (apply cos_gt_0; lra).
  destruct sin36 as [P B]. set (x := PI / 5) in *. pose proof (sin2_cos2 x) as E. unfold Rsqr in E.
  set (s := sin x ^ 2) in *. assert (HC : cos x ^ 2 = 1 - s) by (unfold s; nra).
  assert ((2 * cos x) ^ 2 = (3 - 4 * s) ^ 2) as HQ by nra.
  assert ((2 * cos x - (3 - 4 * s)) * (2 * cos x + (3 - 4 * s)) = 0) as HZ by nra.
  apply Rmult_integral in HZ. destruct HZ as [HZ|HZ]; [lra|]. exfalso. nra.
Qed.
Definition ring_pt (r h a : R) : R * R * R := (r * cos a, r * sin a, h).
Lemma ring_dist : forall r h h' a b, dist2 (ring_pt r h a) (ring_pt r h' b) = 2 * r ^ 2 * (1 - cos (a - b)) + (h - h') ^ 2.
Proof.
  intros. unfold dist2, ring_pt; cbn [fst snd]. rewrite cos_minus. pose proof (sin2_cos2 a) as A. pose proof (sin2_cos2 b) as B. unfold Rsqr in A, B.
  replace ((r * cos a - r * cos b) ^ 2 + (r * sin a - r * sin b) ^ 2) with (r ^ 2 * ((sin a * sin a + cos a * cos a) + (sin b * sin b + cos b * cos b) - 2 * (cos a * cos b + sin a * sin b))) by ring.
  rewrite A, B. ring.
Qed.
Lemma cos_turn : forall x, cos (- x + 2 * PI) = cos x.
Proof. intros. rewrite cos_plus, cos_2PI, sin_2PI, cos_neg. ring. Qed.
Lemma cos_steps : cos (2 * (PI / 5)) = 1 - 2 * (sin (PI / 5)) ^ 2 /\ cos (8 * (PI / 5)) = 1 - 2 * (sin (PI / 5)) ^ 2 /\ cos (9 * (PI / 5)) = cos (PI / 5).
Proof.
  assert (C2 : cos (2 * (PI / 5)) = 1 - 2 * (sin (PI / 5)) ^ 2) by (rewrite cos_2a_sin; ring).
  split; [exact C2|]. split.
  - replace (8 * (PI / 5)) with (- (2 * (PI / 5)) + 2 * PI) by field. rewrite cos_turn. exact C2.
  - replace (9 * (PI / 5)) with (- (PI / 5) + 2 * PI) by field. apply cos_turn.
Qed.
Theorem C50_regular : forall rk, (forall i, (i < 12)%nat -> dist2 (ico_vtx rk i) (0, 0, 0) = rk ^ 2) /\
  forall e, In e ico_edg -> dist2 (ico_vtx rk (fst e - 1)) (ico_vtx rk (snd e - 1)) = (4 - 1 / (sin (PI / 5)) ^ 2) * rk ^ 2.
Proof.
  intros rk. destruct sin36 as [P B]. destruct ico_angles as [SB CB]. pose proof cos36 as C36. destruct cos_steps as (C2 & C8 & C9).
  set (s := sin (PI / 5) ^ 2) in *.
  assert (HS : ico_sinb ^ 2 + ico_cosb ^ 2 = 1) by (rewrite SB, CB; field; lra).
  assert (V : forall i, (1 <= i <= 5)%nat -> ico_vtx rk i = ring_pt (rk * ico_sinb) (rk * ico_cosb) (2 * INR (i - 1) * (PI / 5))).
  { intros i Hi. unfold ico_vtx. destruct (Nat.eqb_spec i 0); [lia|]. destruct (Nat.eqb_spec i 11); [lia|]. destruct (Nat.ltb_spec i 6); [reflexivity | lia]. }
  assert (W : forall i, (6 <= i <= 10)%nat -> ico_vtx rk i = ring_pt (rk * ico_sinb) (- rk * ico_cosb) ((2 * INR (i - 6) + 1) * (PI / 5))).
  { intros i Hi. unfold ico_vtx. destruct (Nat.eqb_spec i 0); [lia|]. destruct (Nat.eqb_spec i 11); [lia|]. destruct (Nat.ltb_spec i 6); [lia | reflexivity]. }
  split.
  - assert (HR : forall r h a, dist2 (ring_pt r h a) (0, 0, 0) = r ^ 2 + h ^ 2).
    { intros. unfold dist2, ring_pt; cbn [fst snd]. pose proof (sin2_cos2 a) as A. unfold Rsqr in A.
      replace ((r * cos a - 0) ^ 2 + (r * sin a - 0) ^ 2 + (h - 0) ^ 2) with (r ^ 2 * (sin a * sin a + cos a * cos a) + h ^ 2) by ring. rewrite A. ring. }
    intros i Hi. destruct (Nat.eq_dec i 0) as [->|]; [unfold dist2; cbn; ring|]. destruct (Nat.eq_dec i 11) as [->|]; [unfold dist2; cbn; ring|].
    destruct (Nat.lt_ge_cases i 6).
    + rewrite V by lia. rewrite HR. transitivity (rk ^ 2 * (ico_sinb ^ 2 + ico_cosb ^ 2)); [ring | rewrite HS; ring].
    + rewrite W by lia. rewrite HR. transitivity (rk ^ 2 * (ico_sinb ^ 2 + ico_cosb ^ 2)); [ring | rewrite HS; ring].
  - (* pole to ring, within a ring, between the rings *)
    assert (D0 : forall r h a, r = rk * ico_sinb -> h = rk * ico_cosb -> dist2 (0, 0, rk) (ring_pt r h a) = (4 - 1 / s) * rk ^ 2 /\ dist2 (ring_pt r (- h) a) (0, 0, - rk) = (4 - 1 / s) * rk ^ 2).
    { intros r h a Er Eh. unfold dist2, ring_pt; cbn [fst snd]. pose proof (sin2_cos2 a) as A. unfold Rsqr in A.
      replace ((0 - r * cos a) ^ 2 + (0 - r * sin a) ^ 2 + (rk - h) ^ 2) with (r ^ 2 * (sin a * sin a + cos a * cos a) + (rk - h) ^ 2) by ring.
      replace ((r * cos a - 0) ^ 2 + (r * sin a - 0) ^ 2 + (- h - - rk) ^ 2) with (r ^ 2 * (sin a * sin a + cos a * cos a) + (rk - h) ^ 2) by ring.
      rewrite A. subst r h. assert ((rk * ico_sinb) ^ 2 * 1 + (rk - rk * ico_cosb) ^ 2 = (4 - 1 / s) * rk ^ 2); [|split; assumption].
      transitivity (rk ^ 2 * (ico_sinb ^ 2 + ico_cosb ^ 2 + 1 - 2 * ico_cosb)); [ring|]. rewrite HS, CB. field. lra. }
    assert (D1 : forall h a b, cos (a - b) = 1 - 2 * s -> dist2 (ring_pt (rk * ico_sinb) h a) (ring_pt (rk * ico_sinb) h b) = (4 - 1 / s) * rk ^ 2).
    { intros h a b E. rewrite ring_dist, E. transitivity (rk ^ 2 * (4 * ico_sinb ^ 2 * s)); [ring|]. rewrite SB. field. lra. }
    assert (D2 : forall a b, cos (a - b) = cos (PI / 5) -> dist2 (ring_pt (rk * ico_sinb) (rk * ico_cosb) a) (ring_pt (rk * ico_sinb) (- rk * ico_cosb) b) = (4 - 1 / s) * rk ^ 2).
    { intros a b E. rewrite ring_dist, E. transitivity (rk ^ 2 * (ico_sinb ^ 2 * (2 - 2 * cos (PI / 5)) + 4 * ico_cosb ^ 2)); [ring|].
      rewrite C36, SB, CB. transitivity (rk ^ 2 * ((4 - 1 / s) - (2 * (16 * s ^ 2 - 20 * s + 5) * (1 / 2 - s)) / (4 * s ^ 2) * 0 + ((4 * s - 1) / (4 * s ^ 2) * (2 - (3 - 4 * s)) + 4 * ((1 - 2 * s) / (2 * s)) ^ 2 - (4 - 1 / s)))); [field; lra|].
      assert (Z : (4 * s - 1) / (4 * s ^ 2) * (2 - (3 - 4 * s)) + 4 * ((1 - 2 * s) / (2 * s)) ^ 2 - (4 - 1 / s) = (16 * s ^ 2 - 20 * s + 5) / (4 * s ^ 2)) by (field; lra).
      rewrite Z, P. field. lra. }
    pose proof (V 1%nat ltac:(lia)) as V1. pose proof (W 6%nat ltac:(lia)) as W6.
    pose proof (V 2%nat ltac:(lia)) as V2. pose proof (W 7%nat ltac:(lia)) as W7.
    pose proof (V 3%nat ltac:(lia)) as V3. pose proof (W 8%nat ltac:(lia)) as W8.
    pose proof (V 4%nat ltac:(lia)) as V4. pose proof (W 9%nat ltac:(lia)) as W9.
    pose proof (V 5%nat ltac:(lia)) as V5. pose proof (W 10%nat ltac:(lia)) as W10.
    intros e He. unfold ico_edg in He. cbn [In] in He.
    repeat (destruct He as [<-|He]; [cbn [fst snd Nat.sub] |]); [.. | destruct He].
    all: try (change (ico_vtx rk 0) with (0, 0, rk)); try (change (ico_vtx rk 11) with (0, 0, - rk)).
    all: rewrite ? V1, ? V2, ? V3, ? V4, ? V5, ? W6, ? W7, ? W8, ? W9, ? W10.
    all: cbn [Nat.sub INR].
    all: try (apply (D0 (rk * ico_sinb) (rk * ico_cosb)); reflexivity).
    all: try (replace (- rk * ico_cosb) with (- (rk * ico_cosb)) by ring; apply (D0 (rk * ico_sinb) (rk * ico_cosb)); reflexivity).
    all: try rewrite (dist2_sym (ring_pt (rk * ico_sinb) (- rk * ico_cosb) _) (ring_pt (rk * ico_sinb) (rk * ico_cosb) _)).
    all: try (apply D1; match goal with |- cos ?X = _ => first [replace X with (2 * (PI / 5)) by field; exact C2 | replace X with (- (2 * (PI / 5))) by field; rewrite cos_neg; exact C2 | replace X with (8 * (PI / 5)) by field; exact C8 | replace X with (- (8 * (PI / 5))) by field; rewrite cos_neg; exact C8] end).
    all: apply D2; match goal with |- cos ?X = _ => first [replace X with (PI / 5) by field; reflexivity | replace X with (- (PI / 5)) by field; apply cos_neg | replace X with (9 * (PI / 5)) by field; exact C9 | replace X with (- (9 * (PI / 5))) by field; rewrite cos_neg; exact C9] end.
Qed.
Print Assumptions C50_regular.
