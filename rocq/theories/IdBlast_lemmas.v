(** Lemmas on the generators of /repo/app/id_generators/{sedov,noh}/main.cc *)
From Coq Require Import Reals Lra Lia.
From Verif Require Import Base BuildTree_model Range_model Range_props Lattice_model Lattice_props LatticeBox_props Profile_model IdGen_model IdGen_lemmas IdSod_props IdGas_props IdBlast_model.
Local Open Scope R_scope.

(** ** sums *)
Definition sum_of {T} (f : T -> R) (l : list T) : R := fold_right (fun q a => f q + a) 0 l.
Lemma sum_ext T (f g : T -> R) : forall l, (forall q, In q l -> f q = g q) -> sum_of f l = sum_of g l.
Proof. induction l as [|q l IH]; intros H; [reflexivity|]. cbn [sum_of fold_right]. fold (sum_of f l) (sum_of g l). rewrite (H q), IH; [reflexivity | | left; reflexivity]. intros q' Hq'. apply H. right. exact Hq'. Qed.
Lemma sum_plus T (f g : T -> R) : forall l, sum_of (fun q => f q + g q) l = sum_of f l + sum_of g l.
Proof. induction l as [|q l IH]; [cbn; ring|]. cbn [sum_of fold_right]. fold (sum_of f l) (sum_of g l) (sum_of (fun q => f q + g q) l). rewrite IH. ring. Qed.
Lemma sum_mult T (f : T -> R) c : forall l, sum_of (fun q => f q * c) l = sum_of f l * c.
Proof. induction l as [|q l IH]; [cbn; ring|]. cbn [sum_of fold_right]. fold (sum_of f l) (sum_of (fun q => f q * c) l). rewrite IH. ring. Qed.
Lemma sum_const T (c : R) : forall l : list T, sum_of (fun _ => c) l = INR (length l) * c.
Proof. induction l as [|q l IH]; [cbn; ring|]. cbn [sum_of fold_right]. fold (sum_of (fun _ : T => c) l). rewrite IH. cbn [length]. rewrite S_INR. ring. Qed.
Lemma sum_map T U (f : U -> R) (g : T -> U) : forall l, sum_of f (map g l) = sum_of (fun q => f (g q)) l.
Proof. induction l as [|q l IH]; [reflexivity|]. cbn [sum_of fold_right map]. fold (sum_of f (map g l)) (sum_of (fun q => f (g q)) l). rewrite IH. reflexivity. Qed.
Lemma sum_nonneg T (f : T -> R) : forall l, (forall q, In q l -> 0 <= f q) -> 0 <= sum_of f l.
Proof. induction l as [|q l IH]; intros H; cbn [sum_of fold_right]; [lra|]. fold (sum_of f l). specialize (IH (fun q' Hq => H q' (or_intror Hq))). specialize (H q (or_introl eq_refl)). lra. Qed.
Lemma sum_pos T (f : T -> R) : forall l q, (forall q, In q l -> 0 <= f q) -> In q l -> 0 < f q -> 0 < sum_of f l.
Proof.
  induction l as [|q0 l IH]; intros q H Hq Hp; [destruct Hq|]. cbn [sum_of fold_right]. fold (sum_of f l).
  assert (0 <= f q0) by (apply H; left; reflexivity). assert (0 <= sum_of f l) by (apply sum_nonneg; intros q' Hq'; apply H; right; exact Hq').
  destruct Hq as [->|Hq]; [lra|]. specialize (IH q (fun q' Hq' => H q' (or_intror Hq')) Hq Hp). lra.
Qed.
Lemma sum_zero T (f : T -> R) : forall l, (forall q, In q l -> f q = 0) -> sum_of f l = 0.
Proof. intros l H. rewrite (sum_ext _ f (fun _ => 0) l H), sum_const. ring. Qed.

(** ** the loops *)
Fixpoint mapi {T U} (g : nat -> T -> U) (a : nat) (l : list T) : list U := match l with [] => [] | q :: r => g a q :: mapi g (S a) r end.
Lemma each_inv : forall f (c : bod -> bool) (g : nat -> bod -> bod), (forall a q, f a q = if c q then None else Some (g a q)) -> forall l a l', each f a l = Some l' ->
  l' = mapi g a l /\ forall q, In q l -> c q = false.
Proof.
  intros f c g Hf. induction l as [|q l IH]; intros a l' H; cbn [each mapi] in *.
  - injection H as <-. split; [reflexivity | intros q []].
  - rewrite Hf in H. destruct (c q) eqn:Ec; [discriminate|]. destruct (each f (S a) l) as [r|] eqn:E; [|discriminate]. injection H as <-.
    destruct (IH _ _ E) as (-> & Hc). split; [reflexivity|]. intros q' [<-|Hq]; [exact Ec | exact (Hc q' Hq)].
Qed.
Lemma each_some : forall f (c : bod -> bool) (g : nat -> bod -> bod), (forall a q, f a q = if c q then None else Some (g a q)) -> forall l a, (forall q, In q l -> c q = false) -> each f a l = Some (mapi g a l).
Proof.
  intros f c g Hf. induction l as [|q l IH]; intros a H; cbn [each mapi]; [reflexivity|]. rewrite Hf, (H q (or_introl eq_refl)), (IH (S a)); [reflexivity|].
  intros q' Hq. apply H. right. exact Hq.
Qed.
Lemma each_none : forall f (c : bod -> bool) (g : nat -> bod -> bod), (forall a q, f a q = if c q then None else Some (g a q)) -> forall l a q, In q l -> c q = true -> each f a l = None.
Proof.
  intros f c g Hf. induction l as [|q0 l IH]; intros a q Hq Hc; [destruct Hq|]. cbn [each]. rewrite Hf. destruct (c q0) eqn:E; [reflexivity|].
  destruct Hq as [->|Hq]; [congruence|]. rewrite (IH (S a) q Hq Hc). reflexivity.
Qed.
Lemma mapi_map T U V (h : U -> V) (g : nat -> T -> U) : forall l a, map h (mapi g a l) = mapi (fun a q => h (g a q)) a l.
Proof. induction l as [|q l IH]; intros a; cbn; [reflexivity | rewrite IH; reflexivity]. Qed.
Lemma mapi_plain T U (g : nat -> T -> U) (k : T -> U) : forall l a, (forall a q, In q l -> g a q = k q) -> mapi g a l = map k l.
Proof. induction l as [|q l IH]; intros a H; cbn; [reflexivity|]. rewrite H, IH; [reflexivity | | left; reflexivity]. intros a' q' Hq. apply H. right. exact Hq. Qed.
Lemma mapi_length T U (g : nat -> T -> U) : forall l a, length (mapi g a l) = length l.
Proof. induction l as [|q l IH]; intros a; cbn; [reflexivity | rewrite IH; reflexivity]. Qed.
Lemma mapi_index T : forall (l : list T) a, mapi (fun a _ => Z.of_nat a) a l = map Z.of_nat (seq a (length l)).
Proof. induction l as [|q l IH]; intros a; cbn; [reflexivity | rewrite IH; reflexivity]. Qed.
Lemma mapi_in T U (g : nat -> T -> U) : forall l a q', In q' (mapi g a l) -> exists k q, In q l /\ q' = g k q.
Proof. induction l as [|q l IH]; intros a q' H; [destruct H|]. destruct H as [<-|H]; [exists a, q; split; [left|]; reflexivity|]. destruct (IH _ _ H) as (k & q0 & Hq & ->). exists k, q0. split; [right; exact Hq | reflexivity]. Qed.
Lemma mapi_forall T U (g : nat -> T -> U) (P : U -> Prop) : forall l a, (forall k q, In q l -> P (g k q)) -> Forall P (mapi g a l).
Proof. intros l a H. apply Forall_forall. intros q' Hq. destruct (mapi_in _ _ _ _ _ _ Hq) as (k & q & Hin & ->). apply H. exact Hin. Qed.
Lemma sum_mapi T U (f : U -> R) (g : nat -> T -> U) (k : T -> R) : forall l a, (forall a q, In q l -> f (g a q) = k q) -> sum_of f (mapi g a l) = sum_of k l.
Proof.
  induction l as [|q l IH]; intros a H; [reflexivity|]. cbn [mapi sum_of fold_right]. fold (sum_of f (mapi g (S a) l)) (sum_of k l).
  rewrite H, IH; [reflexivity | | left; reflexivity]. intros a' q' Hq. apply H. right. exact Hq.
Qed.
Lemma Rlt_b_false : forall a b, Rlt_b a b = false <-> b <= a.
Proof. intros a b. pose proof (Rlt_b_true a b). destruct (Rlt_b a b); split; intros H'; try discriminate; try reflexivity; [destruct H as [H _]; specialize (H eq_refl); lra | destruct (Rle_dec b a) as [L|L]; [exact L|]; exfalso; assert (false = true) by (apply H; lra); discriminate]. Qed.
Lemma sedov_mass_sum : forall dim rb m l, sedov_mass dim rb m l = sum_of (fun q => if Rlt_b (mag dim (b_r q)) rb then m else 0) l.
Proof.
  intros dim rb m l. unfold sedov_mass.
  assert (H : forall l1 acc, fold_left (fun acc q => if Rlt_b (mag dim (b_r q)) rb then acc + m else acc) l1 acc = acc + sum_of (fun q => if Rlt_b (mag dim (b_r q)) rb then m else 0) l1).
  { induction l1 as [|q l0 IH]; intros acc; [cbn; ring|]. cbn [fold_left sum_of fold_right]. fold (sum_of (fun q => if Rlt_b (mag dim (b_r q)) rb then m else 0) l0). rewrite IH. destruct (Rlt_b _ _); ring. }
  rewrite H. ring.
Qed.

(** ** the bodies *)
Lemma fresh_points : forall pts, map (fun k => fresh (l_x (emit false pts (zeros 0)) (Z.of_nat k), l_y (emit false pts (zeros 0)) (Z.of_nat k), l_z (emit false pts (zeros 0)) (Z.of_nat k))) (seq 0 (length pts)) = map fresh pts.
Proof.
  intros pts. apply nth_error_ext. intros i. destruct (Nat.lt_ge_cases i (length pts)) as [L|L].
  - destruct (emits_rest pts i L) as (q & Eq & Ep). rewrite (map_nth_error _ _ _ Eq).
    assert (S : nth_error (seq 0 (length pts)) i = Some i) by (rewrite (nth_error_nth' _ 0%nat) by (rewrite seq_length; exact L); rewrite seq_nth by exact L; reflexivity).
    rewrite (map_nth_error _ _ _ S). unfold point_at in Ep. rewrite Ep. reflexivity.
  - rewrite (proj2 (nth_error_None _ i)), (proj2 (nth_error_None _ i)); [reflexivity | |]; rewrite map_length; [exact L | rewrite seq_length; exact L].
Qed.
Definition bl_lattice (p : gpar) := lattice (g_dim p) (g_fuel p) (lattice_type p) (domain_type p) (bl_min p) (bl_max p) (bl_sep p).
Lemma bl_inv : forall p b m l, bl_bodies p b = Some (m, l) -> (domain_type p = 0 \/ domain_type p = 1)%Z /\ profile b 0 <> 0 /\
  exists pts, Emits (bl_lattice p) pts /\ pts <> [] /\ m = bl_total p (profile b) / INR (length pts) /\ l = match modify b with Some l => l | None => map fresh pts end.
Proof.
  intros p b m l H. unfold bl_bodies in H. destruct ((domain_type p =? 0)%Z || (domain_type p =? 1)%Z) eqn:E2; [|discriminate]. cbn [negb orb] in H.
  destruct ((lattice_nx p - 1 =? 0)%Z || negb (equal_mass p) || (3 <=? g_dim p)%nat && (domain_type p =? 0)%Z && negb (constant_profile b)); [discriminate|].
  apply orb_true_iff in E2. rewrite ! Z.eqb_eq in E2. split; [exact E2|]. destruct (Req_EM_T (profile b 0) 0) as [|N]; [discriminate|]. split; [exact N|].
  destruct (count _ _ _ _ _ _ _ _) as [n|] eqn:Ec; [|discriminate].
  destruct (fresh_emits _ _ _ _ _ _ _ _ _ Ec eq_refl) as (pts & E & -> & Eg). exists pts. split; [exact E|].
  destruct (Z.eqb_spec (Z.of_nat (length pts)) 0) as [N'|N']; [discriminate|]. split; [intros ->; apply N'; reflexivity|]. rewrite <- INR_IZR_INZ in H.
  destruct (modify b) as [l0|]; [injection H as <- <-; split; reflexivity|]. rewrite Eg, Z.eqb_refl in H. cbn [negb] in H. rewrite Nat2Z.id, fresh_points in H.
  injection H as <- <-. split; reflexivity.
Qed.
Lemma bl_eq : forall p b pts, (domain_type p = 0 \/ domain_type p = 1)%Z -> profile b 0 <> 0 -> (2 <= lattice_nx p)%Z -> equal_mass p = true -> ((g_dim p < 3)%nat \/ domain_type p = 1%Z \/ constant_profile b = true) ->
  Emits (bl_lattice p) pts -> pts <> [] -> bl_bodies p b = Some (bl_total p (profile b) / INR (length pts), match modify b with Some l => l | None => map fresh pts end).
Proof.
  intros p b pts H2 Hf Hn He Hc E Hne. unfold bl_bodies. replace ((domain_type p =? 0)%Z || (domain_type p =? 1)%Z) with true by (symmetry; apply orb_true_iff; rewrite ! Z.eqb_eq; exact H2).
  replace (lattice_nx p - 1 =? 0)%Z with false by (symmetry; apply Z.eqb_neq; lia). rewrite He. cbn [negb orb].
  replace ((3 <=? g_dim p)%nat && (domain_type p =? 0)%Z && negb (constant_profile b)) with false
    by (symmetry; destruct Hc as [Hc|[Hc|Hc]]; [replace (3 <=? g_dim p)%nat with false by (symmetry; apply Nat.leb_gt; exact Hc) | rewrite Hc, andb_false_r | rewrite Hc, andb_false_r]; reflexivity).
  destruct (Req_EM_T (profile b 0) 0) as [|_]; [contradiction|]. rewrite (count_emits _ _ _ _ _ _ _ _ _ E).
  destruct (Z.eqb_spec (Z.of_nat (length pts)) 0) as [N|N]; [destruct pts; [contradiction | discriminate]|]. rewrite <- INR_IZR_INZ.
  destruct (modify b) as [l0|]; [reflexivity|]. rewrite (generate_emits _ _ _ _ _ _ _ _ _ _ _ E) by (cbn [l_pid zeros]; lia). rewrite Z.eqb_refl. cbn [negb]. rewrite Nat2Z.id, fresh_points. reflexivity.
Qed.
Lemma bl_defined_true : forall p b, bl_defined p b = true <-> 0 < rho_initial p /\ (modify b = None -> sphere_radius p <> 0) /\ poly_gamma p <> 1.
Proof.
  intros p b. unfold bl_defined, is_fresh. rewrite ! andb_true_iff, Rlt_b_true.
  destruct (Req_EM_T (poly_gamma p) 1), (Req_EM_T (sphere_radius p) 0), (modify b); cbn; intuition (try discriminate; try congruence).
Qed.

(** ** the domain *)
(** dimension 1 knows no ball *)
Definition dom (p : gpar) : Z := if (g_dim p =? 1)%nat then 0%Z else domain_type p.
Lemma bl_points : forall p pts, 0 < bl_sep p -> (forall a, bl_min p a <= bl_max p a) -> Emits (bl_lattice p) pts ->
  (1 <= g_dim p <= 3)%nat /\ (0 <= lattice_type p <= 2)%Z /\ forall x, In x pts <-> node (g_dim p) (lattice_type p) (bl_min p) (bl_sep p) x /\ within (g_dim p) (dom p) (bl_min p) (bl_max p) x.
Proof.
  intros p pts Hs Hb E. apply (lattice_points (g_dim p) (g_fuel p) (lattice_type p) (dom p) (bl_min p) (bl_max p) (bl_sep p) pts Hs Hb).
  - intros D. unfold dom. rewrite D. reflexivity.
  - unfold bl_lattice in E. unfold dom. destruct (Nat.eqb_spec (g_dim p) 1) as [D|D]; [|exact E]. rewrite D in E |- *. exact E.
Qed.
Definition norm3 (r : R * R * R) : R := let '(x, y, z) := r in sqrt (x ^ 2 + y ^ 2 + z ^ 2).
Lemma mag_norm : forall dim ty bmin sep x, (1 <= dim <= 3)%nat -> node dim ty bmin sep x -> mag dim x = norm3 x.
Proof.
  intros dim ty bmin sep [[x y] z] Hd N. unfold mag, norm3, node in *. destruct dim as [|[|[|[|d]]]]; try lia.
  - destruct N as (i & N). injection N as _ -> ->. rewrite <- sqrt_Rsqr_abs. unfold Rsqr. f_equal. ring.
  - destruct N as (i & j & N). assert (z = 0) as -> by (destruct (ty =? 0)%Z; congruence). f_equal. ring.
  - f_equal. ring.
Qed.
(** a node near the origin *)
Lemma first_above : forall s0 d, s0 <= 0 -> 0 < d -> exists n : nat, 0 <= s0 + INR n * d < d.
Proof.
  intros s0 d H0 Hd. assert (0 <= - s0 / d) by (apply Rmult_le_pos; [lra | left; apply Rinv_0_lt_compat; exact Hd]).
  assert (B : exists z : Z, (0 <= z)%Z /\ IZR z - 1 < - s0 / d <= IZR z).
  { destruct (archimed (- s0 / d)) as (A1 & A2). destruct (Req_dec (IZR (up (- s0 / d)) - - s0 / d) 1) as [E|E].
    - exists (up (- s0 / d) - 1)%Z. rewrite minus_IZR. split; [|lra]. apply le_IZR. rewrite minus_IZR. lra.
    - exists (up (- s0 / d)). split; [|lra]. apply le_IZR. lra. }
  destruct B as (z & Hz & B1 & B2). exists (Z.to_nat z). rewrite INR_IZR_INZ, Z2Nat.id by exact Hz.
  assert (E : - s0 = - s0 / d * d) by (field; lra). split; nra.
Qed.
Lemma node_centre : forall dim ty bmin sep, (1 <= dim <= 3)%nat -> (0 <= ty <= 2)%Z -> 0 < sep -> (forall a, (a < dim)%nat -> bmin a <= - (2 * sep)) ->
  exists x, node dim ty bmin sep x /\ (forall a, (a < dim)%nat -> 0 <= coord x a < sep) /\ norm3 x < 2 * sep.
Proof.
  intros dim ty bmin sep Hd Ht Hs Hb. pose proof sqrt3_bounds as B3. pose proof sqrt23_bounds as B23.
  assert (D3 : 0 < sep * sqrt 3 / 2 <= sep) by nra. assert (D23 : 0 < sep * sqrt (2 / 3) <= sep) by nra.
  assert (Nr : forall x y z, 0 <= x < sep -> 0 <= y < sep -> 0 <= z < sep -> norm3 (x, y, z) < 2 * sep).
  { intros x y z Hx Hy Hz. unfold norm3. rewrite <- (sqrt_Rsqr (2 * sep)) by lra. apply sqrt_lt_1_alt. unfold Rsqr.
    assert (x ^ 2 <= sep * sep) by nra. assert (y ^ 2 <= sep * sep) by nra. assert (z ^ 2 <= sep * sep) by nra. nra. }
  unfold node. destruct dim as [|[|[|[|d]]]]; try lia.
  - destruct (first_above (bmin 0%nat) sep) as (i & Hi); [specialize (Hb 0%nat ltac:(lia)); lra | exact Hs|].
    exists (bmin 0%nat + INR i * sep, 0, 0). split; [exists i; reflexivity|]. split; [intros [|a] Ha; [exact Hi | lia]|]. apply Nr; lra.
  - pose proof (Hb 0%nat ltac:(lia)). pose proof (Hb 1%nat ltac:(lia)). unfold node_2d. destruct (ty =? 0)%Z.
    + destruct (first_above (bmin 0%nat) sep) as (i & Hi); [lra | exact Hs|]. destruct (first_above (bmin 1%nat) sep) as (j & Hj); [lra | exact Hs|].
      exists (bmin 0%nat + INR i * sep, bmin 1%nat + INR j * sep, 0). split; [exists i, j; reflexivity|]. split; [intros [|[|a]] Ha; [exact Hi | exact Hj | lia]|]. apply Nr; lra.
    + destruct (first_above (bmin 1%nat) (sep * sqrt 3 / 2)) as (j & Hj); [lra | lra|].
      assert (M' : 0 <= INR (j mod 2) <= 1) by (pose proof (Nat.mod_upper_bound j 2 ltac:(lia)); split; [apply pos_INR | apply (le_INR _ 1); lia]).
      destruct (first_above (bmin 0%nat + INR (j mod 2) * (sep / 2)) sep) as (i & Hi); [nra | exact Hs|].
      eexists (bmin 0%nat + INR (j mod 2) * (sep / 2) + INR i * sep, bmin 1%nat + INR j * (sep * sqrt 3 / 2), 0). split; [exists i, j; reflexivity|].
      split; [intros [|[|a]] Ha; [exact Hi | cbn [coord fst snd]; lra | lia]|]. apply Nr; lra.
  - pose proof (Hb 0%nat ltac:(lia)). pose proof (Hb 1%nat ltac:(lia)). pose proof (Hb 2%nat ltac:(lia)). unfold node_3d. destruct (Z.eqb_spec ty 0) as [T|T].
    + destruct (first_above (bmin 0%nat) sep) as (i & Hi); [lra | exact Hs|]. destruct (first_above (bmin 1%nat) sep) as (j & Hj); [lra | exact Hs|]. destruct (first_above (bmin 2%nat) sep) as (k & Hk); [lra | exact Hs|].
      exists (bmin 0%nat + INR i * sep, bmin 1%nat + INR j * sep, bmin 2%nat + INR k * sep). split; [exists i, j, k; reflexivity|].
      split; [intros [|[|[|a]]] Ha; [exact Hi | exact Hj | exact Hk | lia]|]. apply Nr; lra.
    + destruct (first_above (bmin 2%nat) (sep * sqrt (2 / 3))) as (k & Hk); [lra | lra|].
      assert (exists layer, (ty = 1%Z /\ layer = (k mod 2)%nat \/ ty = 2%Z /\ layer = (k mod 4)%nat)) as (layer & HL) by (assert (ty = 1 \/ ty = 2)%Z as [->| ->] by lia; eexists; [left | right]; split; reflexivity).
      assert (0 <= INR layer) by apply pos_INR.
      destruct (first_above (bmin 1%nat - INR layer * (sep * sqrt 3 / 6)) (sep * sqrt 3 / 2)) as (j & Hj); [nra | lra|].
      assert (M' : 0 <= INR (j mod 2) <= 1) by (pose proof (Nat.mod_upper_bound j 2 ltac:(lia)); split; [apply pos_INR | apply (le_INR _ 1); lia]).
      destruct (first_above (bmin 0%nat + (INR (j mod 2) - INR layer) * (sep / 2)) sep) as (i & Hi); [nra | exact Hs|].
      eexists (_, _, _). split; [exists i, j, k, layer; split; [exact HL | reflexivity]|].
      split; [intros [|[|[|a]]] Ha; cbn [coord fst snd]; [exact Hi | lra | lra | lia]|]. apply Nr; lra.
Qed.
(** the domain is wide enough to have a node near the origin *)
Definition wide (p : gpar) : Prop :=
  (5 <= lattice_nx p)%Z /\
  if (domain_type p =? 0)%Z then 0 < box_length p /\ forall w, (2 <= g_dim p)%nat /\ w = box_width p \/ (3 <= g_dim p)%nat /\ w = box_height p -> 4 * bl_sep p <= w /\ box_length p <= 100000 * w
  else 0 < sphere_radius p.
Lemma bl_sep_n : forall p, (2 <= lattice_nx p)%Z -> bl_sep p * IZR (lattice_nx p - 1) = if (domain_type p =? 0)%Z then box_length p else 2 * sphere_radius p.
Proof. intros p Hn. unfold bl_sep. assert (1 <= IZR (lattice_nx p - 1)) by (apply IZR_le; lia). destruct (domain_type p =? 0)%Z; field; lra. Qed.
Lemma bl_centre : forall p, (1 <= g_dim p <= 3)%nat -> (0 <= lattice_type p <= 2)%Z -> (domain_type p = 0 \/ domain_type p = 1)%Z -> wide p ->
  exists x, node (g_dim p) (lattice_type p) (bl_min p) (bl_sep p) x /\ within (g_dim p) (dom p) (bl_min p) (bl_max p) x /\ norm3 x < 2 * bl_sep p.
Proof.
  intros p Hd Ht Hdt (Hn & Hr). pose proof (bl_sep_n p ltac:(lia)) as Es. assert (H4 : 4 <= IZR (lattice_nx p - 1)) by (apply IZR_le; lia).
  destruct Hdt as [Hdt|Hdt]; rewrite Hdt in Hr, Es; cbn [Z.eqb Pos.eqb] in Hr, Es; unfold dom, bl_min, bl_max; rewrite Hdt; cbn [Z.eqb Pos.eqb].
  - destruct Hr as (HL & Hr). assert (Hs : 0 < bl_sep p) by nra. assert (S4 : 4 * bl_sep p <= box_length p) by nra.
    assert (K : forall a, (a < g_dim p)%nat -> 4 * bl_sep p <= 2 * pt (box_length p / 2) (box_width p / 2) (box_height p / 2) a /\ box_length p <= 100000 * (2 * pt (box_length p / 2) (box_width p / 2) (box_height p / 2) a)).
    { intros [|[|[|a]]] Ha; cbn [pt]; [lra| | |lia]; [destruct (Hr (box_width p)); [left; split; [lia | reflexivity]|]; lra | destruct (Hr (box_height p)); [right; split; [lia | reflexivity]|]; lra]. }
    assert (Op : forall a, pt (- box_length p / 2) (- box_width p / 2) (- box_height p / 2) a = - pt (box_length p / 2) (box_width p / 2) (box_height p / 2) a) by (intros [|[|a]]; cbn [pt]; field).
    destruct (node_centre (g_dim p) (lattice_type p) (pt (- box_length p / 2) (- box_width p / 2) (- box_height p / 2)) (bl_sep p) Hd Ht Hs) as (x & N & C & Nr).
    { intros a Ha. rewrite Op. destruct (K a Ha). lra. }
    exists x. split; [exact N|]. split; [|exact Nr]. split; [|destruct (g_dim p =? 1)%nat; discriminate].
    intros a Ha. specialize (C a Ha). destruct (K a Ha) as (K1 & K2). rewrite Op. rewrite (Op 0%nat). replace (pt (box_length p / 2) (box_width p / 2) (box_height p / 2) 0%nat) with (box_length p / 2) by reflexivity. lra.
  - assert (Hs : 0 < bl_sep p) by nra. assert (S4 : 2 * bl_sep p <= sphere_radius p) by nra.
    destruct (node_centre (g_dim p) (lattice_type p) (fun _ => - sphere_radius p) (bl_sep p) Hd Ht Hs) as (x & N & C & Nr); [intros; lra|].
    exists x. split; [exact N|]. split; [|exact Nr]. split; [intros a Ha; specialize (C a Ha); lra|].
    intros Hb a _. assert (Sq : forall a, (a < g_dim p)%nat -> (coord x a - ((- sphere_radius p + sphere_radius p) / 2 - (sphere_radius p - - sphere_radius p) / 1000000)) ^ 2 <= (sphere_radius p) ^ 2 * (26 / 100)).
    { intros a' Ha. specialize (C a' Ha). assert (0 <= coord x a' - ((- sphere_radius p + sphere_radius p) / 2 - (sphere_radius p - - sphere_radius p) / 1000000) <= sphere_radius p * (501 / 1000)) by lra. nra. }
    assert (0 < sphere_radius p ^ 2) by nra. replace ((sphere_radius p - - sphere_radius p) / 2) with (sphere_radius p) by field.
    destruct (g_dim p) as [|[|[|[|d]]]] eqn:E; try lia; cbn [sumR]; repeat match goal with |- context [(coord x ?k - _) ^ 2] => let S := fresh "S" in pose proof (Sq k ltac:(lia)) as S; revert S; generalize ((coord x k - ((- sphere_radius p + sphere_radius p) / 2 - (sphere_radius p - - sphere_radius p) / 1000000)) ^ 2); intros ? S end; lra.
Qed.
Lemma bl_ordered : forall p, (domain_type p = 0 \/ domain_type p = 1)%Z -> (if (domain_type p =? 0)%Z then 0 <= box_length p /\ 0 <= box_width p /\ 0 <= box_height p else 0 <= sphere_radius p) -> forall a, bl_min p a <= bl_max p a.
Proof.
  intros p [Hdt|Hdt]; rewrite Hdt; cbn [Z.eqb Pos.eqb]; intros H a; unfold bl_min, bl_max; rewrite Hdt; cbn [Z.eqb Pos.eqb].
  - destruct a as [|[|a]]; cbn [pt]; lra.
  - lra.
Qed.
