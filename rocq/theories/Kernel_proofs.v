(** Lemmas about the kernels: pieces, derivatives and integrals. *)
From Coquelicot Require Import Coquelicot.
From Verif Require Import Base Vec Geometry_model Geometry_props Kernel_model.
Local Open Scope R_scope.

Lemma TINY_pos : 0 < TINY.
Proof.
  unfold TINY. apply Rdiv_lt_0_compat; apply pow_lt; lra.
Qed.

Lemma is_derive_eq (f : R -> R) (x a b : R) : a = b -> is_derive f x a -> is_derive f x b.
Proof. intros ->. auto. Qed.

(** ** Gluing two functions *)

Lemma is_derive_glue (f g : R -> R) (c x df dg : R) :
  (x <= c -> is_derive f x df) -> (c <= x -> is_derive g x dg) ->
  (x = c -> f c = g c /\ df = dg) ->
  is_derive (fun y => if Rltb y c then f y else g y) x (if Rltb x c then df else dg).
Proof.
  intros Hf Hg Hc.
  destruct (Rltb x c) eqn:E; [apply Rltb_true in E|apply Rltb_false in E].
  - apply (is_derive_ext_loc f); [|apply Hf; lra].
    exists (mkposreal (c - x) ltac:(lra)). intros y Hy.
    apply Rabs_def2 in Hy. cbn in Hy. unfold minus, plus, opp in Hy; cbn in Hy.
    replace (Rltb y c) with true; [reflexivity|]. symmetry. apply Rltb_true. lra.
  - destruct (Req_dec x c) as [->|Hne].
    + destruct (Hc eq_refl) as (Hv & Hd). specialize (Hf (Rle_refl _)). specialize (Hg (Rle_refl _)).
      subst df. apply is_derive_Reals. apply is_derive_Reals in Hf. apply is_derive_Reals in Hg.
      intros e He. destruct (Hf e He) as (d1 & H1). destruct (Hg e He) as (d2 & H2).
      exists (mkposreal (Rmin d1 d2) ltac:(apply Rmin_pos; [apply d1|apply d2])).
      intros t Ht Hd. cbn in Hd.
      pose proof (Rmin_l d1 d2). pose proof (Rmin_r d1 d2).
      replace (Rltb c c) with false by (symmetry; apply Rltb_false; lra).
      destruct (Rltb (c + t) c) eqn:E2.
      * rewrite <- Hv. apply H1; lra.
      * apply H2; lra.
    + apply (is_derive_ext_loc g); [|apply Hg; lra].
      exists (mkposreal (x - c) ltac:(lra)). intros y Hy.
      apply Rabs_def2 in Hy. cbn in Hy. unfold minus, plus, opp in Hy; cbn in Hy.
      replace (Rltb y c) with false; [reflexivity|]. symmetry. apply Rltb_false. lra.
Qed.

(** Comparisons of the scaled distance *)
Lemma scale_lt a b r h : 0 < h -> 0 < a -> Rltb (a * r / h) b = Rltb r (b * h / a).
Proof.
  intros Hh Ha.
  destruct (Rltb r (b * h / a)) eqn:E; [apply Rltb_true in E; apply Rltb_true|apply Rltb_false in E; apply Rltb_false].
  - apply Rlt_div_l; [lra|]. apply (Rmult_lt_compat_l a) in E; [|lra].
    replace (a * (b * h / a)) with (b * h) in E by (field; lra). lra.
  - apply Rle_div_r; [lra|]. apply (Rmult_le_compat_l a) in E; [|lra].
    replace (a * (b * h / a)) with (b * h) in E by (field; lra). lra.
Qed.

Lemma scale_lt1 r h b : 0 < h -> Rltb (r / h) b = Rltb r (b * h).
Proof.
  intros Hh. replace (r / h) with (1 * r / h) by (field; lra).
  rewrite scale_lt; [|lra|lra]. f_equal. field.
Qed.

(** A power of the distance to the edge, cut at the edge. *)
Definition edge (m : nat) (a h r : R) : R := if Rltb r a then ((a - r) / h) ^ m else 0.

Lemma edge_derive m a h r : 0 < h ->
  is_derive (edge (S (S m)) a h) r (- INR (S (S m)) / h * edge (S m) a h r).
Proof.
  intros Hh. unfold edge.
  replace (- INR (S (S m)) / h * (if Rltb r a then ((a - r) / h) ^ S m else 0))
    with (if Rltb r a then - INR (S (S m)) / h * ((a - r) / h) ^ S m else 0)
    by (destruct (Rltb r a); ring).
  apply is_derive_glue.
  - intros _. auto_derive; [lra|].
    change (match m with 0%nat => 1 | S _ => INR m + 1 end) with (INR (S m)).
    rewrite (S_INR (S m)). unfold Rminus, Rdiv. cbn [pow]. ring.
  - intros _. apply is_derive_Reals, derivable_pt_lim_const.
  - intros ->. rewrite Rminus_eq_0. unfold Rdiv. rewrite Rmult_0_l. cbn [pow]. split; ring.
Qed.

Lemma edge_nonneg m a h r : 0 < h -> 0 <= edge m a h r.
Proof.
  intros Hh. unfold edge. destruct (Rltb r a) eqn:E; [|lra]. apply Rltb_true in E.
  apply pow_le. apply Rlt_le, Rdiv_lt_0_compat; lra.
Qed.

Lemma Rltb_mono a b r : a <= b -> Rltb r a = true -> Rltb r b = true.
Proof. intros. apply Rltb_true. apply Rltb_true in H0. lra. Qed.

Lemma Rltb_mono' a b r : a <= b -> Rltb r b = false -> Rltb r a = false.
Proof. intros. apply Rltb_false. apply Rltb_false in H0. lra. Qed.


(** Sums of edges: a list of (coefficient, exponent - 2, position of the edge
    in units of h). *)
Definition spl (l : list (R * nat * R)) (h r : R) : R :=
  suml (fun t => fst (fst t) * edge (S (S (snd (fst t)))) (snd t * h) h r) l.
Definition dspl (l : list (R * nat * R)) (h r : R) : R :=
  suml (fun t => fst (fst t) * (- INR (S (S (snd (fst t)))) / h * edge (S (snd (fst t))) (snd t * h) h r)) l.

Lemma spl_derive l h r : 0 < h -> is_derive (spl l h) r (dspl l h r).
Proof.
  intros Hh. unfold spl, dspl. induction l as [|[[c m] a] l IH]; cbn [suml fst snd].
  - apply is_derive_Reals, derivable_pt_lim_const.
  - apply (is_derive_plus (K := R_AbsRing) (V := R_NormedModule)
      (fun r => c * edge (S (S m)) (a * h) h r)); [|exact IH].
    apply (is_derive_scal (fun r => edge (S (S m)) (a * h) h r)). apply edge_derive, Hh.
Qed.

(** Moments of one edge. *)
Definition mom (j : nat) (m : nat) (a h : R) : R :=
  let p := INR m + 2 in
  match j with
  | 0%nat => h * a ^ (m + 3) / (p + 1)
  | 1%nat => h ^ 2 * a ^ (m + 4) / ((p + 1) * (p + 2))
  | _ => 2 * h ^ 3 * a ^ (m + 5) / ((p + 1) * (p + 2) * (p + 3))
  end.

Lemma edge_end m a h : a <= 1 -> 0 < h -> edge (S m) (a * h) h h = 0.
Proof.
  intros. unfold edge. destruct (Rltb h (a * h)) eqn:E; [|reflexivity].
  apply Rltb_true in E. nra.
Qed.

Lemma edge_start m a h : 0 < a -> 0 < h -> edge m (a * h) h 0 = a ^ m.
Proof.
  intros. unfold edge. rewrite (proj2 (Rltb_true 0 (a * h))) by nra.
  f_equal. field. lra.
Qed.

Lemma edge_continuous m a h r : 0 < h -> continuous (edge (S (S m)) a h) r.
Proof. intros. apply (ex_derive_continuous (V := R_NormedModule)). eexists. apply edge_derive; auto. Qed.

Lemma parts (e2 e3 e4 e5 : R -> R) (p h x : R) : 0 < h -> 2 <= p ->
  is_derive e3 x (- (p + 1) / h * e2 x) -> is_derive e4 x (- (p + 2) / h * e3 x) ->
  is_derive e5 x (- (p + 3) / h * e4 x) ->
  is_derive (fun r => - h / (p + 1) * e3 r) x (x ^ 0 * e2 x) /\
  is_derive (fun r => - h / (p + 1) * (r * e3 r) - h ^ 2 / ((p + 1) * (p + 2)) * e4 r) x (x ^ 1 * e2 x) /\
  is_derive (fun r => - h / (p + 1) * (r ^ 2 * e3 r) - 2 * h ^ 2 / ((p + 1) * (p + 2)) * (r * e4 r)
           - 2 * h ^ 3 / ((p + 1) * (p + 2) * (p + 3)) * e5 r) x (x ^ 2 * e2 x).
Proof.
  intros Hh Hp E3 E4 E5.
  assert (X3 : ex_derive e3 x) by (eexists; exact E3).
  assert (X4 : ex_derive e4 x) by (eexists; exact E4).
  assert (X5 : ex_derive e5 x) by (eexists; exact E5).
  apply is_derive_unique in E3. apply is_derive_unique in E4. apply is_derive_unique in E5.
  split; [|split].
  - auto_derive; [assumption|]. change (Derive (fun x => e3 x) x) with (Derive e3 x).
    rewrite E3. field. lra.
  - auto_derive; [repeat split; assumption|].
    change (Derive (fun x => e3 x) x) with (Derive e3 x).
    change (Derive (fun x => e4 x) x) with (Derive e4 x).
    rewrite E3, E4. field. lra.
  - auto_derive; [repeat split; assumption|].
    change (Derive (fun x => e3 x) x) with (Derive e3 x).
    change (Derive (fun x => e4 x) x) with (Derive e4 x).
    change (Derive (fun x => e5 x) x) with (Derive e5 x).
    rewrite E3, E4, E5. field. lra.
Qed.

Lemma mom_int j m a h : 0 < h -> 0 < a <= 1 -> (j <= 2)%nat ->
  is_RInt (fun r => r ^ j * edge (S (S m)) (a * h) h r) 0 h (mom j m a h).
Proof.
  intros Hh Ha Hj.
  set (p := INR m + 2).
  assert (Hm : 0 <= INR m) by apply pos_INR.
  assert (Hp : 2 <= p) by (unfold p; lra).
  set (F := fun r => match j with
    | 0%nat => - h / (p + 1) * edge (S (S (S m))) (a * h) h r
    | 1%nat => - h / (p + 1) * (r * edge (S (S (S m))) (a * h) h r)
               - h ^ 2 / ((p + 1) * (p + 2)) * edge (S (S (S (S m)))) (a * h) h r
    | _ => - h / (p + 1) * (r ^ 2 * edge (S (S (S m))) (a * h) h r)
           - 2 * h ^ 2 / ((p + 1) * (p + 2)) * (r * edge (S (S (S (S m)))) (a * h) h r)
           - 2 * h ^ 3 / ((p + 1) * (p + 2) * (p + 3)) * edge (S (S (S (S (S m))))) (a * h) h r
    end).
  replace (mom j m a h) with (minus (F h) (F 0)).
  - apply (is_RInt_derive (V := R_CompleteNormedModule) F).
    + intros x _. unfold F.
      assert (E3 := edge_derive (S m) (a * h) h x Hh).
      assert (E4 := edge_derive (S (S m)) (a * h) h x Hh).
      assert (E5 := edge_derive (S (S (S m))) (a * h) h x Hh).
      replace (INR (S (S (S m)))) with (p + 1) in E3 by (unfold p; rewrite !S_INR; ring).
      replace (INR (S (S (S (S m))))) with (p + 2) in E4 by (unfold p; rewrite !S_INR; ring).
      replace (INR (S (S (S (S (S m)))))) with (p + 3) in E5 by (unfold p; rewrite !S_INR; ring).
      destruct (parts (edge (S (S m)) (a * h) h) (edge (S (S (S m))) (a * h) h)
        (edge (S (S (S (S m)))) (a * h) h) (edge (S (S (S (S (S m))))) (a * h) h) p h x)
        as (P0 & P1 & P2); [lra|lra|exact E3|exact E4|exact E5|].
      destruct j as [|[|[|j]]]; [exact P0|exact P1|exact P2|exfalso; lia].
    + intros x _. apply (continuous_mult (K := R_AbsRing)).
      * apply (ex_derive_continuous (V := R_NormedModule)). eexists.
        apply is_derive_Reals, (derivable_pt_lim_pow x j).
      * apply edge_continuous, Hh.
  - unfold F, mom, minus, plus, opp; cbn [AbelianGroup.plus]. fold p.
    rewrite !edge_end, !edge_start by lra.
    replace (a ^ (m + 3)) with (a ^ S (S (S m))) by (f_equal; lia).
    replace (a ^ (m + 4)) with (a ^ S (S (S (S m)))) by (f_equal; lia).
    replace (a ^ (m + 5)) with (a ^ S (S (S (S (S m))))) by (f_equal; lia).
    destruct j as [|[|[|j]]]; [| | |lia]; cbn; field; repeat split; lra.
Qed.

Definition smom (j : nat) (l : list (R * nat * R)) (h : R) : R :=
  suml (fun t => fst (fst t) * mom j (snd (fst t)) (snd t) h) l.

Lemma spl_int j l h : 0 < h -> (j <= 2)%nat -> Forall (fun t => 0 < snd t <= 1) l ->
  is_RInt (fun r => r ^ j * spl l h r) 0 h (smom j l h).
Proof.
  intros Hh Hj. unfold spl, smom. induction l as [|[[c m] a] l IH]; intros Hl; cbn [suml fst snd].
  - assert (E : is_RInt (fun _ => 0) 0 h (scal (h - 0) 0))
      by apply (is_RInt_const (V := R_NormedModule) 0 h 0).
    replace (scal (h - 0) 0) with 0 in E by (cbn; unfold mult; cbn; ring).
    eapply is_RInt_ext; [|exact E].
    intros x _. cbn. ring.
  - inversion Hl; subst. cbn in *.
    eapply is_RInt_ext; [|apply (is_RInt_plus (V := R_NormedModule)
      (fun r => c * (r ^ j * edge (S (S m)) (a * h) h r)) (fun r => r ^ j * spl l h r))].
    + intros x _. unfold spl. cbn. unfold plus; cbn. ring.
    + apply (is_RInt_scal (V := R_NormedModule)). apply mom_int; auto.
    + apply IH; auto.
Qed.

(** ** The polynomial kernels as sums of edges *)

Definition pieces (k : kind) (n : nat) : list (R * nat * R) :=
  match k, n with
  | cubic_spline, _ => [(2, 1%nat, 1); (-8, 1%nat, 1 / 2)]
  | quintic_spline, _ => [(243, 3%nat, 1); (-1458, 3%nat, 2 / 3); (3645, 3%nat, 1 / 3)]
  | wendland_c2, 1%nat => [(4, 1%nat, 1); (-3, 2%nat, 1)]
  | wendland_c2, _ => [(5, 2%nat, 1); (-4, 3%nat, 1)]
  | wendland_c4, 1%nat => [(14, 3%nat, 1); (-21, 4%nat, 1); (8, 5%nat, 1)]
  | wendland_c4, _ => [(56 / 3, 4%nat, 1); (- 88 / 3, 5%nat, 1); (35 / 3, 6%nat, 1)]
  | wendland_c6, 1%nat => [(48, 5%nat, 1); (-108, 6%nat, 1); (82, 7%nat, 1); (-21, 8%nat, 1)]
  | wendland_c6, _ => [(66, 6%nat, 1); (-154, 7%nat, 1); (121, 8%nat, 1); (-32, 9%nat, 1)]
  | _, _ => []
  end.

Definition sigma (k : kind) (n : nat) : R :=
  match k with
  | cubic_spline => cubic_sigma n
  | quintic_spline => quintic_sigma n
  | wendland_c2 => wc2_sigma n
  | wendland_c4 => wc4_sigma n
  | wendland_c6 => wc6_sigma n
  | _ => 0
  end.

Definition poly (k : kind) : Prop :=
  k = cubic_spline \/ k = quintic_spline \/ k = wendland_c2 \/ k = wendland_c4 \/ k = wendland_c6.

Ltac edges :=
  unfold spl, dspl, edge; cbn [suml fst snd]; rewrite ?Rmult_1_l.

Lemma kernel_spl si k n r h : poly k -> (1 <= n <= 3)%nat -> 0 < h ->
  kernel si k n r h = sigma k n / h ^ n * spl (pieces k n) h r.
Proof.
  intros Hk Hn Hh.
  assert (Hp : h ^ n <> 0) by (apply pow_nonzero; lra).
  destruct Hk as [->|[->|[->|[->| ->]]]]; unfold kernel, sigma.
  - unfold W_cubic. generalize (cubic_sigma n). intro sg. rewrite !scale_lt by lra.
    unfold pieces. edges.
    replace (2 * h / 2) with h by field. replace (h / 2) with (1 / 2 * h) by field.
    destruct (Rltb r (1 / 2 * h)) eqn:E1.
    + rewrite (Rltb_mono (1 / 2 * h) h) by (lra || assumption). field. split; lra.
    + destruct (Rltb r h); [|ring]. field. split; lra.
  - unfold W_quintic. generalize (quintic_sigma n). intro sg. rewrite !scale_lt by lra.
    unfold pieces. edges.
    replace (3 * h / 3) with h by field. replace (h / 3) with (1 / 3 * h) by field.
    replace (2 * h / 3) with (2 / 3 * h) by field.
    destruct (Rltb r (1 / 3 * h)) eqn:E1.
    + rewrite (Rltb_mono (1 / 3 * h) (2 / 3 * h)), (Rltb_mono (1 / 3 * h) h) by (lra || assumption).
      field. split; lra.
    + destruct (Rltb r (2 / 3 * h)) eqn:E2.
      * rewrite (Rltb_mono (2 / 3 * h) h) by (lra || assumption). field. split; lra.
      * destruct (Rltb r h); [|ring]. field. split; lra.
  - unfold W_wc2. generalize (wc2_sigma n). intro sg. rewrite !scale_lt1 by lra. rewrite Rmult_1_l.
    destruct n as [|[|[|[|n]]]]; try lia; unfold pieces; edges;
      destruct (Rltb r h); unfold b2r; cbn [pow]; try ring; field; repeat split; lra.
  - unfold W_wc4. generalize (wc4_sigma n). intro sg. rewrite !scale_lt1 by lra. rewrite Rmult_1_l.
    destruct n as [|[|[|[|n]]]]; try lia; unfold pieces; edges;
      destruct (Rltb r h); unfold b2r; cbn [pow]; try ring; field; repeat split; lra.
  - unfold W_wc6. generalize (wc6_sigma n). intro sg. rewrite !scale_lt1 by lra. rewrite Rmult_1_l.
    destruct n as [|[|[|[|n]]]]; try lia; unfold pieces; edges;
      destruct (Rltb r h); unfold b2r; cbn [pow]; try ring; field; repeat split; lra.
Qed.

Lemma gradient_spl si k n r h : poly k -> (1 <= n <= 3)%nat -> 0 < h -> 0 <= r ->
  gfactor si k n r h = sigma k n / h ^ n * dspl (pieces k n) h r / (r + TINY).
Proof.
  intros Hk Hn Hh Hr. assert (Ht : r + TINY <> 0) by (pose proof TINY_pos; lra).
  assert (Hp : h ^ n <> 0) by (apply pow_nonzero; lra).
  assert (Hp1 : h ^ (n + 1) = h ^ n * h) by (rewrite pow_add; ring).
  destruct Hk as [->|[->|[->|[->| ->]]]]; unfold gfactor, sigma.
  - unfold G_cubic. generalize (cubic_sigma n). intro sg. rewrite !scale_lt by lra. rewrite Hp1.
    unfold pieces. edges.
    replace (2 * h / 2) with h by field. replace (h / 2) with (1 / 2 * h) by field.
    rewrite !S_INR. change (INR 0) with 0.
    destruct (Rltb r (1 / 2 * h)) eqn:E1.
    + rewrite (Rltb_mono (1 / 2 * h) h) by (lra || assumption). field. repeat split; assumption || lra.
    + destruct (Rltb r h); field; repeat split; assumption || lra.
  - unfold G_quintic. generalize (quintic_sigma n). intro sg. rewrite !scale_lt by lra. rewrite Hp1.
    unfold pieces. edges.
    replace (3 * h / 3) with h by field. replace (h / 3) with (1 / 3 * h) by field.
    replace (2 * h / 3) with (2 / 3 * h) by field.
    rewrite !S_INR. change (INR 0) with 0.
    destruct (Rltb r (1 / 3 * h)) eqn:E1.
    + rewrite (Rltb_mono (1 / 3 * h) (2 / 3 * h)), (Rltb_mono (1 / 3 * h) h) by (lra || assumption).
      field. repeat split; assumption || lra.
    + destruct (Rltb r (2 / 3 * h)) eqn:E2.
      * rewrite (Rltb_mono (2 / 3 * h) h) by (lra || assumption). field. repeat split; assumption || lra.
      * destruct (Rltb r h); field; repeat split; assumption || lra.
  - unfold G_wc2. generalize (wc2_sigma n). intro sg. rewrite !scale_lt1 by lra. rewrite Rmult_1_l.
    rewrite Hp1.
    destruct n as [|[|[|[|n]]]]; try lia; unfold pieces; edges; rewrite !S_INR; change (INR 0) with 0;
      destruct (Rltb r h); unfold b2r; cbn [pow]; field; repeat split; lra.
  - unfold G_wc4. generalize (wc4_sigma n). intro sg. rewrite !scale_lt1 by lra. rewrite Rmult_1_l.
    rewrite Hp1.
    destruct n as [|[|[|[|n]]]]; try lia; unfold pieces; edges; rewrite !S_INR; change (INR 0) with 0;
      destruct (Rltb r h); unfold b2r; cbn [pow]; field; repeat split; lra.
  - unfold G_wc6. generalize (wc6_sigma n). intro sg. rewrite !scale_lt1 by lra. rewrite Rmult_1_l.
    rewrite Hp1.
    destruct n as [|[|[|[|n]]]]; try lia; unfold pieces; edges; rewrite !S_INR; change (INR 0) with 0;
      destruct (Rltb r h); unfold b2r; cbn [pow]; field; repeat split; lra.
Qed.
