(** C78: which points the lattice generators of /repo/include/lattice.h write *)
From Coq Require Import Reals Lra Lia.
From Verif Require Import Base BuildTree_model Range_model Range_props Lattice_model Lattice_props.
Local Open Scope R_scope.

(** The nodes of the lattices, counted from the lower corner of the box *)
Definition node_1d (bmin : nat -> R) (sep : R) (p : R * R * R) : Prop := exists i : nat, p = (bmin 0%nat + INR i * sep, 0, 0).
Definition node_2d (ty : Z) (bmin : nat -> R) (sep : R) (p : R * R * R) : Prop := exists i j : nat,
  p = (if (ty =? 0)%Z then (bmin 0%nat + INR i * sep, bmin 1%nat + INR j * sep, 0)
       else (bmin 0%nat + INR (j mod 2) * (sep / 2) + INR i * sep, bmin 1%nat + INR j * (sep * sqrt 3 / 2), 0)).
Definition node_3d (ty : Z) (bmin : nat -> R) (sep : R) (p : R * R * R) : Prop := exists i j k : nat,
  if (ty =? 0)%Z then p = (bmin 0%nat + INR i * sep, bmin 1%nat + INR j * sep, bmin 2%nat + INR k * sep)
  else exists layer : nat, (ty = 1%Z /\ layer = (k mod 2)%nat \/ ty = 2%Z /\ layer = (k mod 4)%nat) /\
    p = (bmin 0%nat + (INR (j mod 2) - INR layer) * (sep / 2) + INR i * sep,
         bmin 1%nat - INR layer * (sep * sqrt 3 / 6) + INR j * (sep * sqrt 3 / 2),
         bmin 2%nat + INR k * (sep * sqrt (2 / 3))).
Definition coord (p : R * R * R) (a : nat) : R := match a with 0%nat => fst (fst p) | 1%nat => snd (fst p) | _ => snd p end.
Fixpoint sumR (n : nat) (f : nat -> R) : R := match n with O => 0 | S k => sumR k f + f k end.
(** The box, moved down along every axis by a millionth of its extent in x; for a
    spherical domain also the largest ball around its centre *)
Definition within (dim : nat) (ty : Z) (bmin bmax : nat -> R) (p : R * R * R) : Prop :=
  let tol := (bmax 0%nat - bmin 0%nat) / 1000000 in
  (forall a, (a < dim)%nat -> bmin a - tol < coord p a < bmax a - tol) /\
  (ty = 1%Z -> forall a, (a < dim)%nat ->
     sumR dim (fun b => (coord p b - ((bmin b + bmax b) / 2 - tol)) ^ 2) < ((bmax a - bmin a) / 2) ^ 2).
Definition writes (g : bool -> lst R -> option (lst R)) (P : R * R * R -> Prop) : Prop :=
  forall s s', g false s = Some s' ->
  forall p, (exists j, (l_pid s <= j < l_pid s')%Z /\ point_at s' j = p) <-> P p.

(** *** proofs *)
Lemma writes_emits : forall g pts P, Emits g pts -> (forall p, In p pts <-> P p) -> writes g P.
Proof.
  intros g pts P E H s s' Hs p. rewrite E in Hs. injection Hs as <-. rewrite <- H, emit_pid. split.
  - intros (j & Hj & <-). destruct (nth_error pts (Z.to_nat (j - l_pid s))) as [q|] eqn:En.
    + pose proof (emit_nth pts s _ _ En) as Hp. rewrite Z2Nat.id in Hp by lia. replace (l_pid s + (j - l_pid s))%Z with j in Hp by lia.
      rewrite Hp. eapply nth_error_In; exact En.
    + apply nth_error_None in En. lia.
  - intros Hp. apply In_nth_error in Hp. destruct Hp as (n & En). exists (l_pid s + Z.of_nat n)%Z. split.
    + assert (n < length pts)%nat by (apply nth_error_Some; congruence). lia.
    + apply emit_nth; exact En.
Qed.
Lemma writes_fine : forall g P, fine g -> (forall pts, Emits g pts -> forall p, In p pts <-> P p) -> writes g P.
Proof.
  intros g P [N|(pts & E)] H; [intros s s' Hs; rewrite N in Hs; discriminate|].
  eapply writes_emits; [exact E | apply H; exact E].
Qed.
Lemma xs_at_INR : forall n x d, xs_at RA n x d = x + INR n * d.
Proof. intros. rewrite xs_at_R, INR_IZR_INZ. reflexivity. Qed.
Lemma floop_in : forall fuel x o b d nx body pts, (forall x o, fine (body x o)) -> 0 < d -> Emits (floop RA fuel x o b d nx body) pts ->
  forall p, In p pts <-> exists n l, x + INR n * d < b /\ Emits (body (x + INR n * d) (os_at n o nx)) l /\ In p l.
Proof.
  intros fuel x o b d nx body pts Hf Hd E p.
  destruct (floop_trace RA b d nx body Hf fuel x o) as [N|(L & EL & HL & HE)].
  { pose proof (E true (Lst 0 (fun _ => 0) (fun _ => 0) (fun _ => 0))) as H. rewrite N in H. discriminate. }
  rewrite (emits_unique _ _ _ E EL). rewrite in_concat. split.
  - intros (l & Hl & Hp). apply In_nth_error in Hl. destruct Hl as (n & En). destruct (HL _ _ En) as (A1 & A2).
    rewrite xs_at_INR in A1, A2. apply Rlt_b_true in A2. exists n, l. repeat split; assumption.
  - intros (n & l & Hn & El & Hp). destruct (nth_error L n) as [l'|] eqn:En.
    + destruct (HL _ _ En) as (A1 & _). rewrite xs_at_INR in A1. exists l'. split; [eapply nth_error_In; exact En|].
      rewrite <- (emits_unique _ _ _ El A1). exact Hp.
    + exfalso. apply nth_error_None in En. rewrite xs_at_INR in HE.
      assert (Hc : x + INR (length L) * d < b).
      { apply le_INR in En. apply Rmult_le_compat_r with (r := d) in En; lra. }
      apply Rlt_b_true in Hc. cbn [a_lt RA] in HE. congruence.
Qed.
Lemma place_in : forall i x y z l, Emits (@place R i x y z) l -> forall p, In p l <-> i = true /\ p = (x, y, z).
Proof.
  intros i x y z l E p. rewrite (emits_unique _ _ _ E (place_emits i x y z)). destruct i; cbn [In]; intuition congruence.
Qed.
Lemma fine_emits_in : forall g (p : R * R * R) (P : Prop), fine g -> (forall l, Emits g l -> (In p l <-> P)) ->
  ((exists l, Emits g l /\ In p l) -> P) /\ ((exists l, Emits g l) -> P -> exists l, Emits g l /\ In p l).
Proof. intros g p P _ H. split; [intros (l & E & I); apply (H l E), I | intros (l & E) HP; exists l; split; [exact E | apply (H l E), HP]]. Qed.
Lemma emits_floop_body : forall fuel x o b d nx body pts n, (forall x o, fine (body x o)) -> 0 < d -> Emits (floop RA fuel x o b d nx body) pts ->
  x + INR n * d < b -> exists l, Emits (body (x + INR n * d) (os_at n o nx)) l.
Proof.
  intros fuel x o b d nx body pts n Hf Hd E Hn.
  destruct (floop_trace RA b d nx body Hf fuel x o) as [N|(L & EL & HL & HE)].
  { pose proof (E true (Lst 0 (fun _ => 0) (fun _ => 0) (fun _ => 0))) as H. rewrite N in H. discriminate. }
  destruct (nth_error L n) as [l'|] eqn:En.
  - destruct (HL _ _ En) as (A1 & _). rewrite xs_at_INR in A1. exists l'; exact A1.
  - exfalso. apply nth_error_None in En. rewrite xs_at_INR in HE.
    assert (Hc : x + INR (length L) * d < b) by (apply le_INR in En; apply Rmult_le_compat_r with (r := d) in En; lra).
    apply Rlt_b_true in Hc. cbn [a_lt RA] in HE. congruence.
Qed.
(** one loop: what the bodies write, for the points below the bound *)
Lemma floop_points : forall fuel x o b d nx body (Q : R -> R -> R * R * R -> Prop) pts, (forall x o, fine (body x o)) -> 0 < d ->
  (forall x o l, Emits (body x o) l -> forall p, In p l <-> Q x o p) ->
  Emits (floop RA fuel x o b d nx body) pts ->
  forall p, In p pts <-> exists n, x + INR n * d < b /\ Q (x + INR n * d) (os_at n o nx) p.
Proof.
  intros fuel x o b d nx body Q pts Hf Hd HQ E p. rewrite (floop_in _ _ _ _ _ _ _ _ Hf Hd E). split.
  - intros (n & l & Hn & El & Hp). exists n. split; [exact Hn|]. apply (HQ _ _ _ El), Hp.
  - intros (n & Hn & Hq). destruct (emits_floop_body _ _ _ _ _ _ _ _ n Hf Hd E Hn) as (l & El). exists n, l.
    split; [exact Hn|]. split; [exact El|]. apply (HQ _ _ _ El), Hq.
Qed.
Lemma os_flip : forall n, os_at n 0 (flip RA) = INR (n mod 2).
Proof. intros n. rewrite flip_at, INR_IZR_INZ, Nat2Z.inj_mod. reflexivity. Qed.
Lemma os_fcc : forall n, os_at n 0 (next_fcc RA) = INR (n mod 4).
Proof. intros n. rewrite fcc_at, INR_IZR_INZ, Nat2Z.inj_mod. reflexivity. Qed.

Lemma dom_1d : forall x bmin bmax, bmin 0%nat <= bmax 0%nat -> in_domain_1d RA x (bmin 0%nat) (bmax 0%nat) = true <-> within 1 0 bmin bmax (x, 0, 0).
Proof.
  intros x bmin bmax Hb. unfold in_domain_1d, b_tol, within. cbn [a_add a_sub a_mul a_div a_lt a_ofz a_sqrt RA].
  rewrite andb_true_iff, ! Rlt_b_true.
  replace (1 / 1000000 * (bmax 0%nat - bmin 0%nat)) with ((bmax 0%nat - bmin 0%nat) / 1000000) by field. split.
  - intros (A1 & A2). split; [|discriminate]. intros a Ha. replace a with 0%nat by lia. cbn [coord fst snd]. lra.
  - intros (A1 & _). specialize (A1 0%nat ltac:(lia)). cbn [coord fst snd] in A1. lra.
Qed.
Lemma a_min_R : forall a b, a_min RA a b = Rmin b a.
Proof.
  intros a b. unfold a_min. cbn [a_lt RA]. destruct (Rlt_b b a) eqn:E.
  - apply Rlt_b_true in E. rewrite Rmin_left; lra.
  - rewrite Rmin_right; [reflexivity|]. apply Rnot_lt_le. intros H. apply Rlt_b_true in H. congruence.
Qed.
Lemma half_sq : forall D a b, 0 <= a -> 0 <= b -> D < 1 / 2 * Rmin b a * (1 / 2 * Rmin b a) <-> D < (a / 2) ^ 2 /\ D < (b / 2) ^ 2.
Proof. intros D a b Ha Hb. unfold Rmin. destruct (Rle_dec b a); split; intros H; [split; nra | nra | split; nra | nra]. Qed.
Lemma half_sq3 : forall D a b c, 0 <= a -> 0 <= b -> 0 <= c ->
  D < 1 / 2 * Rmin c (Rmin b a) * (1 / 2 * Rmin c (Rmin b a)) <-> D < (a / 2) ^ 2 /\ D < (b / 2) ^ 2 /\ D < (c / 2) ^ 2.
Proof.
  intros D a b c Ha Hb Hc. unfold Rmin. destruct (Rle_dec b a); [destruct (Rle_dec c b) | destruct (Rle_dec c a)]; split; intros H; repeat split; nra.
Qed.
Lemma all_below2 : forall P : nat -> Prop, (forall a, (a < 2)%nat -> P a) <-> P 0%nat /\ P 1%nat.
Proof. intros P. split; [intros H; split; apply H; lia | intros (A1 & A2) [|[|a]] Ha; [assumption.. | lia]]. Qed.
Lemma all_below3 : forall P : nat -> Prop, (forall a, (a < 3)%nat -> P a) <-> P 0%nat /\ P 1%nat /\ P 2%nat.
Proof. intros P. split; [intros H; repeat split; apply H; lia | intros (A1 & A2 & A3) [|[|[|a]]] Ha; [assumption.. | lia]]. Qed.

Lemma dom_2d : forall x y bmin bmax ty, (forall a, bmin a <= bmax a) -> in_domain_2d RA x y bmin bmax ty = true <-> within 2 ty bmin bmax (x, y, 0).
Proof.
  intros x y bmin bmax ty Hb. pose proof (Hb 0%nat) as H0. pose proof (Hb 1%nat) as H1. unfold in_domain_2d, b_tol, within. cbn [a_add a_sub a_mul a_div a_lt a_ofz a_sqrt RA].
  rewrite ! a_min_R. cbn zeta.
  replace (1 / 1000000 * (bmax 0%nat - bmin 0%nat)) with ((bmax 0%nat - bmin 0%nat) / 1000000) by field.
  set (t := (bmax 0%nat - bmin 0%nat) / 1000000). rewrite all_below2. cbn [coord fst snd sumR].
  rewrite ! andb_true_iff, ! Rlt_b_true.
  assert (E : (if (ty =? 1)%Z then Rlt_b ((x - 1 / 2 * (bmin 0%nat - t + (bmax 0%nat - t))) * (x - 1 / 2 * (bmin 0%nat - t + (bmax 0%nat - t))) +
      (y - 1 / 2 * (bmin 1%nat - t + (bmax 1%nat - t))) * (y - 1 / 2 * (bmin 1%nat - t + (bmax 1%nat - t))))
      (1 / 2 * Rmin (bmax 1%nat - t - (bmin 1%nat - t)) (bmax 0%nat - t - (bmin 0%nat - t)) * (1 / 2 * Rmin (bmax 1%nat - t - (bmin 1%nat - t)) (bmax 0%nat - t - (bmin 0%nat - t)))) else true) = true <->
      (ty = 1%Z -> forall a, (a < 2)%nat -> 0 + (x - ((bmin 0%nat + bmax 0%nat) / 2 - t)) ^ 2 + (y - ((bmin 1%nat + bmax 1%nat) / 2 - t)) ^ 2 < ((bmax a - bmin a) / 2) ^ 2)).
  { destruct (Z.eqb_spec ty 1) as [->|N]; [|split; [intros _ Hc; contradiction | reflexivity]].
    rewrite Rlt_b_true.
    replace (bmax 0%nat - t - (bmin 0%nat - t)) with (bmax 0%nat - bmin 0%nat) by ring.
    replace (bmax 1%nat - t - (bmin 1%nat - t)) with (bmax 1%nat - bmin 1%nat) by ring.
    rewrite half_sq by lra.
    match goal with |- (?D < _ /\ _) <-> _ => replace D with (0 + (x - ((bmin 0%nat + bmax 0%nat) / 2 - t)) ^ 2 + (y - ((bmin 1%nat + bmax 1%nat) / 2 - t)) ^ 2) by field end.
    split; [intros (A1 & A2) _ [|[|a]] Ha; [exact A1 | exact A2 | lia] | intros H; split; apply H; (reflexivity || lia)]. }
  rewrite E. tauto.
Qed.
Lemma dom_3d : forall x y z bmin bmax ty, (forall a, bmin a <= bmax a) -> in_domain_3d RA x y z bmin bmax ty = true <-> within 3 ty bmin bmax (x, y, z).
Proof.
  intros x y z bmin bmax ty Hb. pose proof (Hb 0%nat) as H0. pose proof (Hb 1%nat) as H1. pose proof (Hb 2%nat) as H2.
  unfold in_domain_3d, b_tol, within. cbn [a_add a_sub a_mul a_div a_lt a_ofz a_sqrt RA].
  rewrite ! a_min_R. cbn zeta.
  replace (1 / 1000000 * (bmax 0%nat - bmin 0%nat)) with ((bmax 0%nat - bmin 0%nat) / 1000000) by field.
  set (t := (bmax 0%nat - bmin 0%nat) / 1000000). rewrite all_below3. cbn [coord fst snd sumR].
  rewrite ! andb_true_iff, ! Rlt_b_true.
  match goal with |- _ /\ ?b = true <-> _ /\ ?Q => assert (E : b = true <-> Q) end.
  { destruct (Z.eqb_spec ty 1) as [->|N]; [|split; [intros _ Hc; contradiction | reflexivity]].
    rewrite Rlt_b_true.
    replace (bmax 0%nat - t - (bmin 0%nat - t)) with (bmax 0%nat - bmin 0%nat) by ring.
    replace (bmax 1%nat - t - (bmin 1%nat - t)) with (bmax 1%nat - bmin 1%nat) by ring.
    replace (bmax 2%nat - t - (bmin 2%nat - t)) with (bmax 2%nat - bmin 2%nat) by ring.
    rewrite half_sq3 by lra.
    match goal with |- (?D < _ /\ _) <-> _ => replace D with (0 + (x - ((bmin 0%nat + bmax 0%nat) / 2 - t)) ^ 2 + (y - ((bmin 1%nat + bmax 1%nat) / 2 - t)) ^ 2 + (z - ((bmin 2%nat + bmax 2%nat) / 2 - t)) ^ 2) by field end.
    split; [intros (A1 & A2 & A3) _ [|[|[|a]]] Ha; [exact A1 | exact A2 | exact A3 | lia] | intros H; repeat split; apply H; (reflexivity || lia)]. }
  rewrite E. tauto.
Qed.

Lemma tri_eq : forall a b a' b' : R, a = a' -> b = b' -> (a, b, 0) = (a', b', 0).
Proof. intros; subst; reflexivity. Qed.

(** C78: for every box and spacing the lattices consist of exactly their nodes within the domain *)
Theorem C78_nodes : forall fuel lattice_type domain_type bmin bmax sep, 0 < sep -> (forall a, bmin a <= bmax a) ->
  writes (gen_1d RA fuel bmin bmax sep) (fun p => node_1d bmin sep p /\ within 1 0 bmin bmax p) /\
  writes (gen_2d RA fuel lattice_type domain_type bmin bmax sep) (fun p => node_2d lattice_type bmin sep p /\ within 2 domain_type bmin bmax p) /\
  writes (gen_3d RA fuel lattice_type domain_type bmin bmax sep) (fun p => node_3d lattice_type bmin sep p /\ within 3 domain_type bmin bmax p).
Proof.
  intros fuel ty dt bmin bmax sep Hs Hb. pose proof sqrt3_bounds as B3. pose proof sqrt23_bounds as B23.
  assert (D3 : 0 < sep * sqrt 3 / 2) by nra. assert (D23 : 0 < sep * sqrt (2 / 3)) by nra.
  assert (T : 0 <= (bmax 0%nat - bmin 0%nat) / 1000000) by (specialize (Hb 0%nat); lra).
  assert (UP : forall dim a p, (a < dim)%nat -> within dim dt bmin bmax p -> coord p a < bmax a) by (intros dim a p Ha (W & _); specialize (W a Ha); lra).
  split; [|split].
  - apply writes_fine; [apply gen_1d_fine|]. intros pts E p. unfold gen_1d in E.
    rewrite (floop_points _ _ _ _ _ _ _ (fun x _ p => in_domain_1d RA x (bmin 0%nat) (bmax 0%nat) = true /\ p = (x, 0, 0)) _
      ltac:(intros; apply place_fine) Hs ltac:(intros x o l El q; apply (place_in _ _ _ _ _ El)) E).
    split.
    + intros (n & _ & Hd & ->). split; [exists n; reflexivity | apply dom_1d; auto].
    + intros ((n & ->) & W). exists n. split; [destruct W as (W & _); specialize (W 0%nat ltac:(lia)); cbn [coord fst snd] in W; lra|].
      split; [apply dom_1d; auto | reflexivity].
  - apply writes_fine; [apply gen_2d_fine|]. intros pts E p. unfold gen_2d in E. unfold node_2d. destruct (ty =? 0)%Z; cbn [a_mul a_div a_sqrt a_ofz a_add RA] in E.
    + rewrite (floop_points _ _ _ _ _ _ _ (fun y _ p => exists n, bmin 0%nat + INR n * sep < bmax 0%nat /\ in_domain_2d RA (bmin 0%nat + INR n * sep) y bmin bmax dt = true /\ p = (bmin 0%nat + INR n * sep, y, 0)) _
        ltac:(intros; apply floop_fine; intros; apply place_fine) Hs
        ltac:(intros y o l El; apply (floop_points _ _ _ _ _ _ _ (fun x _ p => in_domain_2d RA x y bmin bmax dt = true /\ p = (x, y, 0)) _
          ltac:(intros; apply place_fine) Hs ltac:(intros x o' l' El' q; apply (place_in _ _ _ _ _ El')) El)) E).
      split.
      * intros (j & _ & i & _ & Hd & ->). split; [exists i, j; reflexivity | apply dom_2d; auto].
      * intros ((i & j & ->) & W). exists j. split; [apply (UP 2%nat 1%nat _ ltac:(lia) W)|]. exists i. split; [apply (UP 2%nat 0%nat _ ltac:(lia) W)|].
        split; [apply dom_2d; auto | reflexivity].
    + rewrite (floop_points _ _ _ _ _ _ _ (fun y yo p => exists n, bmin 0%nat + yo * sep / 2 + INR n * sep < bmax 0%nat /\ in_domain_2d RA (bmin 0%nat + yo * sep / 2 + INR n * sep) y bmin bmax dt = true /\ p = (bmin 0%nat + yo * sep / 2 + INR n * sep, y, 0)) _
        ltac:(intros; apply floop_fine; intros; apply place_fine) D3
        ltac:(intros y o l El; apply (floop_points _ _ _ _ _ _ _ (fun x _ p => in_domain_2d RA x y bmin bmax dt = true /\ p = (x, y, 0)) _
          ltac:(intros; apply place_fine) Hs ltac:(intros x o' l' El' q; apply (place_in _ _ _ _ _ El')) El)) E).
      assert (EQ : forall i j : nat, bmin 0%nat + os_at j 0 (flip RA) * sep / 2 + INR i * sep = bmin 0%nat + INR (j mod 2) * (sep / 2) + INR i * sep) by (intros; rewrite os_flip; field).
      split.
      * intros (j & _ & i & _ & Hd & ->). rewrite EQ in Hd. split; [exists i, j; rewrite EQ; reflexivity | rewrite EQ; apply dom_2d; auto].
      * intros ((i & j & ->) & W). exists j. split; [apply (UP 2%nat 1%nat _ ltac:(lia) W)|]. exists i. rewrite EQ. split; [apply (UP 2%nat 0%nat _ ltac:(lia) W)|].
        split; [apply dom_2d; auto | reflexivity].
  - apply writes_fine; [apply gen_3d_fine|]. intros pts E p. unfold gen_3d in E. unfold node_3d. destruct (Z.eqb_spec ty 0) as [->|N0]; cbn [a_mul a_div a_sqrt a_ofz a_add a_sub RA] in E.
    + rewrite (floop_points _ _ _ _ _ _ _ (fun z _ p => exists j, bmin 1%nat + INR j * sep < bmax 1%nat /\ exists n, bmin 0%nat + INR n * sep < bmax 0%nat /\
          in_domain_3d RA (bmin 0%nat + INR n * sep) (bmin 1%nat + INR j * sep) z bmin bmax dt = true /\ p = (bmin 0%nat + INR n * sep, bmin 1%nat + INR j * sep, z)) _
        ltac:(intros; apply floop_fine; intros; apply floop_fine; intros; apply place_fine) Hs
        ltac:(intros z oz lz Elz; apply (floop_points _ _ _ _ _ _ _ (fun y _ p => exists n, bmin 0%nat + INR n * sep < bmax 0%nat /\ in_domain_3d RA (bmin 0%nat + INR n * sep) y z bmin bmax dt = true /\ p = (bmin 0%nat + INR n * sep, y, z)) _
          ltac:(intros; apply floop_fine; intros; apply place_fine) Hs
          ltac:(intros y o l El; apply (floop_points _ _ _ _ _ _ _ (fun x _ p => in_domain_3d RA x y z bmin bmax dt = true /\ p = (x, y, z)) _
            ltac:(intros; apply place_fine) Hs ltac:(intros x o' l' El' q; apply (place_in _ _ _ _ _ El')) El)) Elz)) E).
      split.
      * intros (k & _ & j & _ & i & _ & Hd & ->). split; [exists i, j, k; reflexivity | apply dom_3d; auto].
      * intros ((i & j & k & ->) & W). exists k. split; [apply (UP 3%nat 2%nat _ ltac:(lia) W)|]. exists j. split; [apply (UP 3%nat 1%nat _ ltac:(lia) W)|].
        exists i. split; [apply (UP 3%nat 0%nat _ ltac:(lia) W)|]. split; [apply dom_3d; auto | reflexivity].
    + assert (G : forall nx, Emits (floop RA fuel (bmin 2%nat) 0 (bmax 2%nat) (sep * sqrt (2 / 3)) nx (fun z_p zo => floop RA fuel (bmin 1%nat - zo * (sep * sqrt 3 / 2) / 3) 0 (bmax 1%nat) (sep * sqrt 3 / 2) (flip RA) (fun y_p yo =>
          floop RA fuel (bmin 0%nat + (yo - zo) * sep / 2) 0 (bmax 0%nat) sep same (fun x_p _ => place (in_domain_3d RA x_p y_p z_p bmin bmax dt) x_p y_p z_p)))) pts ->
        (In p pts <-> (exists i j k : nat, p = (bmin 0%nat + (INR (j mod 2) - os_at k 0 nx) * (sep / 2) + INR i * sep,
           bmin 1%nat - os_at k 0 nx * (sep * sqrt 3 / 6) + INR j * (sep * sqrt 3 / 2), bmin 2%nat + INR k * (sep * sqrt (2 / 3)))) /\ within 3 dt bmin bmax p)).
      { intros nx E'.
        rewrite (floop_points _ _ _ _ _ _ _ (fun z zo p => exists j, bmin 1%nat - zo * (sep * sqrt 3 / 2) / 3 + INR j * (sep * sqrt 3 / 2) < bmax 1%nat /\
            exists n, bmin 0%nat + (os_at j 0 (flip RA) - zo) * sep / 2 + INR n * sep < bmax 0%nat /\
            in_domain_3d RA (bmin 0%nat + (os_at j 0 (flip RA) - zo) * sep / 2 + INR n * sep) (bmin 1%nat - zo * (sep * sqrt 3 / 2) / 3 + INR j * (sep * sqrt 3 / 2)) z bmin bmax dt = true /\
            p = (bmin 0%nat + (os_at j 0 (flip RA) - zo) * sep / 2 + INR n * sep, bmin 1%nat - zo * (sep * sqrt 3 / 2) / 3 + INR j * (sep * sqrt 3 / 2), z)) _
          ltac:(intros; apply floop_fine; intros; apply floop_fine; intros; apply place_fine) D23
          ltac:(intros z zo lz Elz; apply (floop_points _ _ _ _ _ _ _ (fun y yo p => exists n, bmin 0%nat + (yo - zo) * sep / 2 + INR n * sep < bmax 0%nat /\
              in_domain_3d RA (bmin 0%nat + (yo - zo) * sep / 2 + INR n * sep) y z bmin bmax dt = true /\ p = (bmin 0%nat + (yo - zo) * sep / 2 + INR n * sep, y, z)) _
            ltac:(intros; apply floop_fine; intros; apply place_fine) D3
            ltac:(intros y yo l El; apply (floop_points _ _ _ _ _ _ _ (fun x _ p => in_domain_3d RA x y z bmin bmax dt = true /\ p = (x, y, z)) _
              ltac:(intros; apply place_fine) Hs ltac:(intros x o' l' El' q; apply (place_in _ _ _ _ _ El')) El)) Elz)) E').
        assert (EX : forall i j k : nat, bmin 0%nat + (os_at j 0 (flip RA) - os_at k 0 nx) * sep / 2 + INR i * sep = bmin 0%nat + (INR (j mod 2) - os_at k 0 nx) * (sep / 2) + INR i * sep) by (intros; rewrite os_flip; field).
        assert (EY : forall j k : nat, bmin 1%nat - os_at k 0 nx * (sep * sqrt 3 / 2) / 3 + INR j * (sep * sqrt 3 / 2) = bmin 1%nat - os_at k 0 nx * (sep * sqrt 3 / 6) + INR j * (sep * sqrt 3 / 2)) by (intros; field).
        split.
        * intros (k & _ & j & _ & i & _ & Hd & ->). rewrite EX, EY in *. split; [exists i, j, k; reflexivity | apply dom_3d; auto].
        * intros ((i & j & k & ->) & W). exists k. split; [apply (UP 3%nat 2%nat _ ltac:(lia) W)|]. exists j. rewrite EY. split; [apply (UP 3%nat 1%nat _ ltac:(lia) W)|].
          exists i. rewrite EX. split; [apply (UP 3%nat 0%nat _ ltac:(lia) W)|]. split; [apply dom_3d; auto | reflexivity]. }
      destruct (Z.eqb_spec ty 1) as [->|N1]; [|destruct (Z.eqb_spec ty 2) as [->|N2]].
      * rewrite (G _ E). split; intros (A1 & A2); (split; [|exact A2]).
        -- destruct A1 as (i & j & k & A1). exists i, j, k, (k mod 2)%nat. split; [left; split; reflexivity|]. rewrite os_flip in A1. exact A1.
        -- destruct A1 as (i & j & k & layer & [(_ & ->)|(Hc & _)] & A1); [|discriminate]. exists i, j, k. rewrite os_flip. exact A1.
      * rewrite (G _ E). split; intros (A1 & A2); (split; [|exact A2]).
        -- destruct A1 as (i & j & k & A1). exists i, j, k, (k mod 4)%nat. split; [right; split; reflexivity|]. rewrite os_fcc in A1. exact A1.
        -- destruct A1 as (i & j & k & layer & [(Hc & _)|(_ & ->)] & A1); [discriminate|]. exists i, j, k. rewrite os_fcc. exact A1.
      * pose proof (E true (Lst 0 (fun _ => 0) (fun _ => 0) (fun _ => 0))) as E1. cbn in E1. injection E1 as E1. rewrite emit_true in E1.
        injection E1 as E1. assert (pts = []) as -> by (destruct pts; [reflexivity | cbn [l_pid length] in E1; lia]).
        split; [intros [] | intros ((i & j & k & layer & [(Hc & _)|(Hc & _)] & _) & _); contradiction].
Qed.

(** So no point lies outside the box by more than a millionth of its extent in x, the
    lower corner is a point of every box domain that is not too thin ... *)
Theorem C78_corner : forall fuel lattice_type bmin bmax sep s s', 0 < sep -> (forall a, bmin a < bmax a) ->
  (bmax 0%nat - bmin 0%nat) / 1000000 < bmax 1%nat - bmin 1%nat ->
  gen_2d RA fuel lattice_type 0 bmin bmax sep false s = Some s' ->
  exists j, (l_pid s <= j < l_pid s')%Z /\ point_at s' j = (bmin 0%nat, bmin 1%nat, 0).
Proof.
  intros fuel ty bmin bmax sep s s' Hs Hb Ht E.
  destruct (C78_nodes fuel ty 0 bmin bmax sep Hs ltac:(intros a; specialize (Hb a); lra)) as (_ & W & _). apply (W s s' E).
  split.
  - exists 0%nat, 0%nat. change (0 mod 2)%nat with 0%nat. cbn [INR]. destruct (ty =? 0)%Z; apply tri_eq; ring.
  - split; [|discriminate]. intros a Ha. pose proof (Hb 0%nat). pose proof (Hb 1%nat). destruct a as [|[|a]]; [| |lia]; cbn [coord fst snd]; lra.
Qed.
(** ... but the tolerance of a thin box is taken from the wrong axis, and such a box stays
    empty whatever the spacing. *)
Theorem C78_thin_refuted : exists bmin bmax sep, 0 < sep /\ (forall a, bmin a + sep <= bmax a) /\
  exists fuel s s', gen_2d RA fuel 0 0 bmin bmax sep false s = Some s' /\ l_pid s' = l_pid s.
Proof.
  exists (fun _ => 0), (fun a => match a with 0%nat => 2000000 | _ => 1 end), 1. split; [lra|]. split; [intros [|a]; lra|].
  set (bmin := fun _ : nat => 0). set (bmax := fun a : nat => match a with 0%nat => 2000000 | _ => 1 end).
  destruct (C48_ends 0 0 bmin bmax 1 ltac:(lra)) as (fuel & H). set (s := Lst 0 (fun _ : Z => 0) (fun _ => 0) (fun _ => 0)).
  destruct (H false s) as (_ & H2 & _). exists fuel, s. destruct (gen_2d_fine RA fuel 0 0 bmin bmax 1) as [N|(pts & E)]; [rewrite N in H2; congruence|].
  exists (emit false pts s). split; [apply E|].
  destruct (C78_nodes fuel 0 0 bmin bmax 1 ltac:(lra) ltac:(intros [|a]; unfold bmin, bmax; lra)) as (_ & W & _).
  destruct pts as [|p r]; [reflexivity|]. exfalso.
  destruct (proj1 (W s _ (E false s) p)) as ((i & j & Hp) & (Wi & _)).
  - exists 0%Z. split; [rewrite emit_pid; cbn [length s l_pid]; lia|]. apply (emit_nth (p :: r) s 0%nat p). reflexivity.
  - specialize (Wi 1%nat ltac:(lia)). rewrite Hp in Wi. unfold bmin, bmax in Wi. cbn [Z.eqb coord fst snd] in Wi. pose proof (pos_INR j). lra.
Qed.

(** A triangular lattice in a disc of diameter 4: the node in the middle is written, the corner is not. *)
Example C78_disc : exists fuel s s', gen_2d RA fuel 1 1 (fun _ => 0) (fun _ => 4) 1 false s = Some s' /\
  (exists j, (l_pid s <= j < l_pid s')%Z /\ point_at s' j = (2, sqrt 3, 0)) /\
  ~ (exists j, (l_pid s <= j < l_pid s')%Z /\ point_at s' j = (0, 0, 0)).
Proof.
  destruct (C48_ends 1 1 (fun _ => 0) (fun _ => 4) 1 ltac:(lra)) as (fuel & H). set (s := Lst 0 (fun _ : Z => 0) (fun _ => 0) (fun _ => 0)).
  destruct (H false s) as (_ & H2 & _). destruct (gen_2d RA fuel 1 1 (fun _ => 0) (fun _ => 4) 1 false s) as [s'|] eqn:E; [|congruence].
  exists fuel, s, s'. split; [exact E|]. destruct (C78_nodes fuel 1 1 (fun _ => 0) (fun _ => 4) 1 ltac:(lra) ltac:(intros; lra)) as (_ & W & _).
  pose proof sqrt3_bounds. assert (Hq : sqrt 3 * sqrt 3 = 3) by (apply sqrt_sqrt; lra). split.
  - apply (W s s' E). split.
    + exists 2%nat, 2%nat. change (2 mod 2)%nat with 0%nat. cbn [Z.eqb INR]. apply tri_eq; field.
    + split; [intros [|[|a]] Ha; cbn [coord fst snd]; [lra | lra | lia]|]. intros _ a _. cbn [sumR coord fst snd]. nra.
  - intros Hc. apply (W s s' E) in Hc. destruct Hc as (_ & _ & Hc). specialize (Hc eq_refl 0%nat ltac:(lia)). cbn [sumR coord fst snd] in Hc. nra.
Qed.
