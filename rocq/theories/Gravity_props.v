(** Direct gravity and the cell expansion: C37, C38. *)
From Coquelicot Require Import Coquelicot.
From Verif Require Import Base Vec Gravity_model Kernel_proofs.
Local Open Scope R_scope.

Lemma dist_sym n x y : dist n x y = dist n y x.
Proof. unfold dist, dist2. f_equal. apply sumn_ext. intros. ring. Qed.

Lemma suml_opp {A} (f : A -> R) l : suml (fun x => - f x) l = - suml f l.
Proof. induction l as [|a l IH]; cbn [suml]; [ring|]. rewrite IH. ring. Qed.

(** ** C37 *)

(** What a particle receives: the sum over the other particles. *)
Lemma p2p_fold n gc p l s k :
  let r := fold_left (fun a q => if Nat.eqb (g_id q) (g_id p) then a
    else (fst a + p2p_pot n gc (g_pos p) (g_pos q) (g_mass q), vadd (snd a) (p2p_acc n gc (g_pos p) (g_pos q) (g_mass q)))) l s in
  let others := filter (fun q => negb (Nat.eqb (g_id q) (g_id p))) l in
  fst r = fst s + suml (fun q => p2p_pot n gc (g_pos p) (g_pos q) (g_mass q)) others /\
  snd r k = snd s k + suml (fun q => p2p_acc n gc (g_pos p) (g_pos q) (g_mass q) k) others.
Proof.
  cbv zeta. revert s. induction l as [|q l IH]; intro s; cbn [fold_left filter suml].
  - split; lra.
  - destruct (Nat.eqb (g_id q) (g_id p)); cbn [negb suml].
    + apply IH.
    + destruct (IH (fst s + p2p_pot n gc (g_pos p) (g_pos q) (g_mass q),
        vadd (snd s) (p2p_acc n gc (g_pos p) (g_pos q) (g_mass q)))) as (H1 & H2).
      rewrite H1, H2. cbn [fst snd]. unfold vadd. split; ring.
Qed.

(** Newton's law: every sink receives the attraction of exactly the sources
    with another id, and nothing from itself. *)
Theorem C37_newton n gc p l k :
  (forall q, In q l -> g_id q <> g_id p -> 0 < dist n (g_pos p) (g_pos q)) ->
  let r := p2p_one n gc None l p in
  let others := filter (fun q => negb (Nat.eqb (g_id q) (g_id p))) l in
  g_pot r = g_pot p - suml (fun q => gc * g_mass q / dist n (g_pos p) (g_pos q)) others /\
  g_acc r k = g_acc p k - suml (fun q => gc * g_mass q * (g_pos p k - g_pos q k) / dist n (g_pos p) (g_pos q) ^ 3) others.
Proof.
  intros Hd. cbv zeta. unfold p2p_one. cbn [g_pot g_acc].
  destruct (p2p_fold n gc p l (g_pot p, g_acc p) k) as (H1 & H2). cbv zeta in H1, H2. rewrite H1, H2. cbn [fst snd].
  assert (P : forall q, In q (filter (fun q => negb (Nat.eqb (g_id q) (g_id p))) l) -> dist n (g_pos p) (g_pos q) <> 0).
  { intros q Hq. apply filter_In in Hq. destruct Hq as (Hq & E). apply negb_true_iff, Nat.eqb_neq in E.
    specialize (Hd q Hq E). lra. }
  revert P. generalize (filter (fun q => negb (Nat.eqb (g_id q) (g_id p))) l). intros o P.
  unfold Rminus. rewrite <- !suml_opp.
  split; f_equal; apply suml_ext; intros q Hq; specialize (P q Hq); unfold p2p_pot, p2p_acc; field; assumption.
Qed.

(** Forces of a pair are equal and opposite, and their potential energies
    agree, wherever the particles are. *)
Theorem C37_pairwise n gc x y mx my k :
  mx * p2p_acc n gc x y my k = - (my * p2p_acc n gc y x mx k) /\ mx * p2p_pot n gc x y my = my * p2p_pot n gc y x mx.
Proof. unfold p2p_acc, p2p_pot. rewrite (dist_sym n y x). unfold Rdiv. split; ring. Qed.

Lemma suml_antisym {A} (f : A -> A -> R) l :
  (forall a b, f a b = - f b a) -> suml (fun a => suml (f a) l) l = 0.
Proof.
  intro H. assert (E : suml (fun a => suml (f a) l) l = -1 * suml (fun a => suml (f a) l) l).
  { rewrite suml_swap at 1. rewrite <- suml_scal. apply suml_ext. intros a _.
    rewrite <- suml_scal. apply suml_ext. intros b _. rewrite H. ring. }
  lra.
Qed.

Lemma suml_filter {A} (f : A -> R) g l : suml f (filter g l) = suml (fun a => if g a then f a else 0) l.
Proof. induction l as [|a l IH]; [reflexivity|]. cbn. destruct (g a); cbn; rewrite IH; ring. Qed.

(** The direct sum over all particles keeps the total momentum and gives
    every particle's torque a zero total. *)
Theorem C37_momentum n gc l k j :
  suml (fun p => g_mass p * (g_acc (p2p_one n gc None l p) k - g_acc p k)) l = 0 /\
  suml (fun p => g_mass p * (g_pos p j * (g_acc (p2p_one n gc None l p) k - g_acc p k) -
                             g_pos p k * (g_acc (p2p_one n gc None l p) j - g_acc p j))) l = 0.
Proof.
  assert (E : forall p c, g_acc (p2p_one n gc None l p) c - g_acc p c =
    suml (fun q => if negb (Nat.eqb (g_id q) (g_id p)) then p2p_acc n gc (g_pos p) (g_pos q) (g_mass q) c else 0) l).
  { intros p c. unfold p2p_one. cbn [g_acc]. destruct (p2p_fold n gc p l (g_pot p, g_acc p) c) as (_ & H2).
    cbv zeta in H2. rewrite H2. cbn [snd]. rewrite suml_filter. ring. }
  split.
  - etransitivity; [|apply (suml_antisym (fun p q => g_mass p * (if negb (Nat.eqb (g_id q) (g_id p))
      then p2p_acc n gc (g_pos p) (g_pos q) (g_mass q) k else 0)) l)].
    + apply suml_ext. intros p _. rewrite E, <- suml_scal. reflexivity.
    + intros p q. rewrite (Nat.eqb_sym (g_id p)). destruct (Nat.eqb (g_id q) (g_id p)); cbn [negb]; [ring|].
      apply C37_pairwise.
  - etransitivity; [|apply (suml_antisym (fun p q => if negb (Nat.eqb (g_id q) (g_id p))
      then g_mass p * (g_pos p j * p2p_acc n gc (g_pos p) (g_pos q) (g_mass q) k - g_pos p k * p2p_acc n gc (g_pos p) (g_pos q) (g_mass q) j)
      else 0) l)].
    + apply suml_ext. intros p _. rewrite !E, <- !suml_scal, <- suml_minus, <- suml_scal. apply suml_ext. intros q _.
      destruct (negb _); ring.
    + intros p q. rewrite (Nat.eqb_sym (g_id p)). destruct (Nat.eqb (g_id q) (g_id p)); cbn [negb]; [ring|].
      unfold p2p_acc. rewrite (dist_sym n (g_pos q)). unfold Rdiv. ring.
Qed.

(** Two groups acting on each other keep their total momentum. *)
Theorem C37_two_groups n gc A B k :
  (forall a b, In a A -> In b B -> g_id a <> g_id b) ->
  suml (fun p => g_mass p * (g_acc (p2p_one n gc None B p) k - g_acc p k)) A +
  suml (fun p => g_mass p * (g_acc (p2p_one n gc None A p) k - g_acc p k)) B = 0.
Proof.
  intro Hd.
  assert (E : forall p l, (forall q, In q l -> g_id q <> g_id p) -> g_acc (p2p_one n gc None l p) k - g_acc p k =
    suml (fun q => p2p_acc n gc (g_pos p) (g_pos q) (g_mass q) k) l).
  { intros p l H. unfold p2p_one. cbn [g_acc]. destruct (p2p_fold n gc p l (g_pot p, g_acc p) k) as (_ & H2).
    cbv zeta in H2. rewrite H2. cbn [snd]. rewrite suml_filter.
    transitivity (suml (fun a => if negb (Nat.eqb (g_id a) (g_id p)) then p2p_acc n gc (g_pos p) (g_pos a) (g_mass a) k else 0) l); [ring|].
    apply suml_ext. intros q Hq. specialize (H q Hq). apply Nat.eqb_neq in H. now rewrite H. }
  rewrite (suml_ext _ (fun p => suml (fun q => g_mass p * p2p_acc n gc (g_pos p) (g_pos q) (g_mass q) k) B) A).
  - rewrite (suml_ext _ (fun p => suml (fun q => g_mass p * p2p_acc n gc (g_pos p) (g_pos q) (g_mass q) k) A) B).
    + rewrite (suml_swap _ A B), <- suml_plus, <- (suml_zero B). apply suml_ext. intros q Hq.
      rewrite <- suml_plus, <- (suml_zero A). apply suml_ext. intros p Hp.
      pose proof (proj1 (C37_pairwise n gc (g_pos p) (g_pos q) (g_mass p) (g_mass q) k)). lra.
    + intros p Hp. rewrite E, <- suml_scal; [reflexivity|]. intros q Hq. now apply Hd.
  - intros p Hp. rewrite E, <- suml_scal; [reflexivity|]. intros q Hq. apply not_eq_sym. now apply Hd.
Qed.

(** ** C38 *)

Definition upd (x : point) (k : nat) (t : R) : point := fun i => if Nat.eqb i k then t else x i.

Lemma dist2_upd n x y k t : (k < n)%nat ->
  dist2 n (upd x k t) y = dist2 n x y - (x k - y k) * (x k - y k) + (t - y k) * (t - y k).
Proof.
  unfold dist2. induction n as [|n IH]; intro Hk; [lia|]. cbn [sumn].
  destruct (Nat.eq_dec k n) as [->|Hne].
  - assert (E : sumn n (fun i => (upd x n t i - y i) * (upd x n t i - y i)) = sumn n (fun i => (x i - y i) * (x i - y i))).
    { apply sumn_ext. intros i Hi. unfold upd. destruct (Nat.eqb_spec i n); [lia|reflexivity]. }
    rewrite E. unfold upd. rewrite Nat.eqb_refl. ring.
  - rewrite IH by lia. unfold upd. destruct (Nat.eqb_spec n k); [lia|]. ring.
Qed.

(** The coded acceleration is minus the gradient of the coded potential. *)
Theorem C38_gradient n gc x y M k :
  (k < n)%nat -> 0 < dist n x y ->
  is_derive (fun t => fc_pot n gc 0 (upd x k t) y M) (x k) (- fc_acc n gc vzero x y M k).
Proof.
  intros Hk Hd.
  assert (Hd2 : 0 < dist2 n x y).
  { destruct (Rlt_le_dec 0 (dist2 n x y)) as [H|H]; [exact H|]. unfold dist in Hd. rewrite sqrt_neg_0 in Hd by exact H. lra. }
  apply (is_derive_ext (fun t => - gc * M / sqrt (dist2 n x y - (x k - y k) * (x k - y k) + (t - y k) * (t - y k)))).
  { intro t. unfold fc_pot, dist. rewrite dist2_upd by exact Hk. symmetry. apply Rplus_0_l. }
  unfold fc_acc, vzero, dist in *. revert Hd Hd2. generalize (dist2 n x y). intros D Hd Hd2.
  assert (E : D - (x k - y k) * (x k - y k) + (x k - y k) * (x k - y k) = D) by ring.
  auto_derive.
  - replace (D - (x k - y k) * (x k - y k) + (x k + - y k) * (x k + - y k)) with D by ring.
    split; [exact Hd2|]. split; [|exact I]. lra.
  - replace (D - (x k - y k) * (x k - y k) + (x k + - y k) * (x k + - y k)) with D by ring.
    pose proof (sqrt_sqrt D (Rlt_le _ _ Hd2)) as Q. field. lra.
Qed.

(** A cell receives the potential and acceleration of the source at its
    centre; each of its particles then receives the first-order Taylor
    polynomial of the potential, and minus the gradient of that polynomial as
    acceleration. *)
Theorem C38_taylor n gc sink source b :
  let c := taylor_c2c n gc (GNode (gn_pos sink) (gn_mass sink) 0 vzero) source in
  let phi x := fc_pot n gc 0 x (gn_pos source) (gn_mass source) in
  let poly x := phi (gn_pos sink) + sumn n (fun i => Derive (fun t => phi (upd (gn_pos sink) i t)) (gn_pos sink i) * (x i - gn_pos sink i)) in
  0 < dist n (gn_pos sink) (gn_pos source) ->
  g_pot (interaction_c2p n b c) = g_pot b + poly (g_pos b) /\
  forall k, (k < n)%nat ->
    is_derive (fun t => poly (upd (g_pos b) k t)) (g_pos b k) (- (g_acc (interaction_c2p n b c) k - g_acc b k)).
Proof.
  intros c phi poly Hd.
  assert (P : forall x, poly x = phi (gn_pos sink) + sumn n (fun i => - (x i - gn_pos sink i) * gn_fc c i)).
  { intro x. unfold poly. f_equal. apply sumn_ext. intros i Hi.
    erewrite is_derive_unique by (apply C38_gradient; [exact Hi|exact Hd]). cbn. ring. }
  split.
  - rewrite P. reflexivity.
  - intros k Hk. unfold interaction_c2p. cbn [g_acc].
    apply (is_derive_ext (fun t => (poly (g_pos b) - - (g_pos b k - gn_pos sink k) * gn_fc c k) + - (t - gn_pos sink k) * gn_fc c k)).
    + intro t. rewrite !P.
      assert (U : forall m, (k < m)%nat -> sumn m (fun i => - (upd (g_pos b) k t i - gn_pos sink i) * gn_fc c i) =
        sumn m (fun i => - (g_pos b i - gn_pos sink i) * gn_fc c i) + (g_pos b k - gn_pos sink k) * gn_fc c k - (t - gn_pos sink k) * gn_fc c k).
      { induction m as [|m IH]; intro Hm; [lia|]. cbn [sumn]. destruct (Nat.eq_dec k m) as [->|Hne].
        - rewrite (sumn_ext m _ (fun i => - (g_pos b i - gn_pos sink i) * gn_fc c i)).
          + unfold upd. rewrite Nat.eqb_refl. ring.
          + intros i Hi. unfold upd. destruct (Nat.eqb_spec i m); [lia|reflexivity].
        - rewrite IH by lia. unfold upd. destruct (Nat.eqb_spec m k); [lia|]. ring. }
      rewrite (U n Hk). match goal with |- ?a = ?b => change (@eq R a b) end. ring.
    + generalize (gn_fc c k) (poly (g_pos b)). intros f q. auto_derive; [exact I|]. ring.
Qed.

(** Summed over the particles of a cell whose position is their centre of
    mass, the first-order term vanishes and the force is the mass times the
    force at the centre. *)
Theorem C38_cell_total n c bs k :
  suml g_mass bs = gn_mass c ->
  (forall i, (i < n)%nat -> suml (fun b => g_mass b * g_pos b i) bs = gn_mass c * gn_pos c i) ->
  suml (fun b => g_mass b * (g_pot (interaction_c2p n b c) - g_pot b)) bs = gn_mass c * gn_pc c /\
  suml (fun b => g_mass b * (g_acc (interaction_c2p n b c) k - g_acc b k)) bs = gn_mass c * gn_fc c k.
Proof.
  intros Hm Hx. unfold interaction_c2p. cbn [g_pot g_acc]. split.
  - transitivity (suml (fun b => g_mass b * gn_pc c + sumn n (fun i => g_mass b * (- (g_pos b i - gn_pos c i) * gn_fc c i))) bs).
    + apply suml_ext. intros b _. rewrite sumn_scal. ring.
    + rewrite suml_plus, suml_sumn.
      rewrite (suml_ext _ (fun b => gn_pc c * g_mass b) bs) by (intros; ring).
      rewrite suml_scal, Hm.
      rewrite (sumn_ext n _ (fun _ => 0)); [rewrite sumn_zero; ring|]. intros i Hi.
      transitivity (- gn_fc c i * (suml (fun b => g_mass b * g_pos b i) bs - gn_pos c i * suml g_mass bs)).
      * rewrite <- suml_scal, <- suml_minus, <- suml_scal. apply suml_ext. intros. ring.
      * rewrite Hx, Hm by exact Hi. ring.
  - rewrite (suml_ext _ (fun b => gn_fc c k * g_mass b) bs) by (intros; ring). rewrite suml_scal, Hm. ring.
Qed.

(** Two cells acting on each other exchange equal and opposite forces. *)
Theorem C38_cells_momentum n gc a b k :
  gn_mass a * (gn_fc (taylor_c2c n gc a b) k - gn_fc a k) + gn_mass b * (gn_fc (taylor_c2c n gc b a) k - gn_fc b k) = 0.
Proof.
  unfold taylor_c2c, fc_acc. cbn [gn_fc gn_pos gn_mass]. rewrite (dist_sym n (gn_pos b)). unfold Rdiv. ring.
Qed.

(** ** Cases *)

Example C37_case :
  let p := GBody 1 (fun i => match i with 0%nat => 3 | _ => 0 end) 2 0 vzero in
  let q := GBody 2 (fun i => match i with 0%nat => 0 | 1%nat => 4 | _ => 0 end) 7 0 vzero in
  dist 3 (g_pos p) (g_pos q) = 5 /\ g_pot (p2p_one 3 1 None [p; q] p) = - 7 / 5.
Proof.
  cbv zeta. assert (D : dist 3 (fun i => match i with 0%nat => 3 | _ => 0 end)
    (fun i => match i with 0%nat => 0 | 1%nat => 4 | _ => 0 end) = 5).
  { unfold dist, dist2. cbn [sumn]. replace (_ + _) with (5 * 5) by ring. apply sqrt_square. lra. }
  split; [exact D|]. unfold p2p_one. cbn. unfold p2p_pot. rewrite D. field.
Qed.

Example C38_case :
  let a := GBody 1 (fun _ => 1) 1 0 vzero in let b := GBody 2 (fun _ => 4) 2 0 vzero in
  suml g_mass [a; b] = 3 /\ forall i : nat, suml (fun x => g_mass x * g_pos x i) [a; b] = 3 * 3.
Proof. cbn. split; [ring|]. intro i. ring. Qed.

Print Assumptions C37_newton.
Print Assumptions C37_momentum.
Print Assumptions C38_gradient.
Print Assumptions C38_taylor.
Print Assumptions C38_cell_total.
