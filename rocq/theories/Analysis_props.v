From Coq Require Import Reals Lra Lia Permutation.
From Verif Require Import Base BuildTree_model Range_model Lattice_props Vec Wvt_model Wvt_props Analysis_model.
Local Open Scope R_scope.

(** ** C59: the totals are sums over the real particles, wherever these are *)
Definition real_sum (f : abody -> R) (all : list abody) : R := suml f (filter ab_normal all).
Lemma acc_sum : forall f bodies t, acc f t bodies = t + real_sum f bodies.
Proof.
  unfold acc, real_sum. induction bodies as [|b r IH]; intros t; cbn [fold_left filter suml]; [cbn; ring|].
  destruct (ab_normal b); rewrite IH; cbn [suml]; ring.
Qed.
Lemma reduce_sum : forall (g : list abody -> R) f, (forall l, g l = real_sum f l) -> forall ranks, reduce g ranks = real_sum f (concat ranks).
Proof.
  intros g f H ranks. unfold reduce. rewrite allsum_suml, suml_map. unfold real_sum. induction ranks as [|l r IH]; cbn [suml concat filter]; [reflexivity|].
  rewrite IH, H, filter_app, suml_app. reflexivity.
Qed.
Lemma filter_perm (T : Type) (f : T -> bool) : forall l l', Permutation l l' -> Permutation (filter f l) (filter f l').
Proof.
  induction 1 as [|x l l' H IH|x y l|l l1 l2 H1 IH1 H2 IH2]; cbn [filter].
  - constructor.
  - destruct (f x); [constructor; exact IH | exact IH].
  - destruct (f x), (f y); try apply Permutation_refl. apply perm_swap.
  - eapply Permutation_trans; eassumption.
Qed.
Lemma real_sum_perm : forall f l l', Permutation l l' -> real_sum f l = real_sum f l'.
Proof. intros f l l' H. apply suml_perm, filter_perm, H. Qed.
Theorem C59_totals : forall n all ranks potential, Permutation (concat ranks) all ->
  total_mass ranks = real_sum ab_mass all /\
  (forall d, total_momentum ranks d = real_sum (fun b => ab_mass b * ab_vel b d) all) /\
  total_kinetic_energy n ranks = real_sum (fun b => ab_mass b * (norm n (ab_vel b)) ^ 2 / 2) all /\
  total_internal_energy ranks = real_sum (fun b => ab_mass b * ab_eint b) all /\
  total_gravitational_energy ranks = real_sum (fun b => ab_mass b * ab_gpot b) all / 2 /\
  total_energy n true false potential ranks = real_sum (fun b => ab_mass b * ab_etot b) all /\
  total_energy n true true potential ranks = real_sum (fun b => ab_mass b * ab_etot b) all + total_gravitational_energy ranks /\
  total_energy n false false potential ranks = total_kinetic_energy n ranks + total_internal_energy ranks + real_sum (fun b => ab_mass b * potential (ab_pos b)) all /\
  total_energy n false true potential ranks = total_energy n false false potential ranks + total_gravitational_energy ranks.
Proof.
  intros n all ranks potential HP.
  assert (R1 : forall g f, (forall l, g l = real_sum f l) -> reduce g ranks = real_sum f all).
  { intros g f H. rewrite (reduce_sum g f H). apply real_sum_perm, HP. }
  assert (A0 : forall f l, acc f 0 l = real_sum f l) by (intros; rewrite acc_sum; ring).
  assert (SE : forall f g l, (forall b, f b = g b) -> real_sum f l = real_sum g l) by (intros; apply suml_ext; auto).
  assert (SS : forall c f l, real_sum (fun b => c * f b) l = c * real_sum f l) by (intros; apply suml_scal).
  assert (SP : forall f g l, real_sum (fun b => f b + g b) l = real_sum f l + real_sum g l) by (intros; apply suml_plus).
  assert (N2 : forall v, dot n v v = norm n v ^ 2) by (intros; rewrite <- norm_sq; ring).
  assert (G : total_gravitational_energy ranks = real_sum (fun b => 1 / 2 * (ab_mass b * ab_gpot b)) all).
  { apply R1. intros l. cbv beta. rewrite A0, SS. rewrite (SE _ (fun b => ab_mass b * ab_gpot b)) by (intros; ring). field. }
  assert (K : total_kinetic_energy n ranks = real_sum (fun b => ab_mass b * (norm n (ab_vel b)) ^ 2 / 2) all).
  { apply R1. intros l. rewrite A0. apply SE. intros b. rewrite N2. field. }
  assert (I : total_internal_energy ranks = real_sum (fun b => ab_mass b * ab_eint b) all) by (apply R1; apply A0).
  split; [apply R1; apply A0|]. split; [intros d; apply (R1 _ (fun b => ab_mass b * ab_vel b d)); apply A0|]. split; [exact K|]. split; [exact I|].
  split; [rewrite G, SS; field|]. split; [apply R1; intros l; apply A0|]. split.
  { rewrite G, <- SP. apply R1. intros l. cbv zeta iota. rewrite acc_sum, A0, <- SP. apply SE. intros b. field. }
  assert (E0 : total_energy n false false potential ranks = total_kinetic_energy n ranks + total_internal_energy ranks + real_sum (fun b => ab_mass b * potential (ab_pos b)) all).
  { rewrite K, I, <- ! SP. apply R1. intros l. cbv zeta iota. rewrite A0. apply SE. intros b. rewrite N2. field. }
  split; [exact E0|]. rewrite E0, K, I, G, <- ! SP. apply R1. intros l. cbv zeta iota. rewrite acc_sum, A0, <- SP. apply SE. intros b. rewrite N2. field.
Qed.
(** The angular momentum is the sum of the cross products m (r x v). *)
Definition cross (i j : nat) (b : abody) : R := ab_mass b * (ab_pos b i * ab_vel b j - ab_pos b j * ab_vel b i).
Theorem C59_angular : forall all ranks, Permutation (concat ranks) all ->
  total_ang_mom 2 ranks 0%nat = real_sum (cross 0 1) all /\
  total_ang_mom 3 ranks 0%nat = real_sum (cross 1 2) all /\ total_ang_mom 3 ranks 1%nat = real_sum (cross 2 0) all /\ total_ang_mom 3 ranks 2%nat = real_sum (cross 0 1) all.
Proof.
  intros all ranks HP.
  assert (R1 : forall g f, (forall l, g l = real_sum f l) -> reduce g ranks = real_sum f all) by (intros g f H; rewrite (reduce_sum g f H); apply real_sum_perm, HP).
  unfold total_ang_mom. cbn [Nat.eqb]. repeat split; apply R1; intros l; rewrite acc_sum; unfold cross; ring.
Qed.
(** Two distributions of the same particles report the same. *)
Theorem C59_distribution : forall n tk fmm potential ranks ranks', Permutation (concat ranks) (concat ranks') ->
  total_mass ranks = total_mass ranks' /\ (forall d, total_momentum ranks d = total_momentum ranks' d) /\
  total_energy n tk fmm potential ranks = total_energy n tk fmm potential ranks' /\ (forall d, total_ang_mom n ranks d = total_ang_mom n ranks' d).
Proof.
  intros n tk fmm potential ranks ranks' HP.
  assert (R1 : forall g f, (forall l, g l = real_sum f l) -> reduce g ranks = reduce g ranks').
  { intros g f H. rewrite ! (reduce_sum g f H). apply real_sum_perm, HP. }
  assert (A0 : forall f l, acc f 0 l = real_sum f l) by (intros; rewrite acc_sum; ring).
  split; [apply (R1 _ ab_mass), A0|]. split; [intros d; apply (R1 _ (fun b => ab_mass b * ab_vel b d)), A0|]. split.
  - unfold total_energy. set (f0 := fun b => if tk then ab_mass b * ab_etot b else ab_mass b * (1 / 2 * dot n (ab_vel b) (ab_vel b) + ab_eint b + potential (ab_pos b))).
    set (g0 := fun b => if fmm then 1 / 2 * ab_gpot b * ab_mass b else 0).
    apply (R1 _ (fun b => f0 b + g0 b)). intros l. unfold real_sum. rewrite suml_plus. unfold f0, g0. destruct tk, fmm; rewrite ? acc_sum; unfold real_sum; rewrite ? suml_zero; ring.
  - intros d. unfold total_ang_mom. assert (C : forall i j, reduce (acc (fun b => ab_mass b * (ab_pos b i * ab_vel b j - ab_pos b j * ab_vel b i)) 0) ranks = reduce (acc (fun b => ab_mass b * (ab_pos b i * ab_vel b j - ab_pos b j * ab_vel b i)) 0) ranks').
    { intros i j. eapply R1. intros l. apply A0. }
    destruct (n =? 2)%nat; [destruct (d =? 0)%nat; [apply C | reflexivity]|]. destruct (n =? 3)%nat; [|reflexivity]. destruct (d =? 0)%nat; [apply C|]. destruct (d =? 1)%nat; apply C.
Qed.
(** With the potential -G m / r of every other real particle, the gravitational energy
    counts every pair once. *)
Fixpoint pair_sum (w : abody -> abody -> R) (l : list abody) : R := match l with [] => 0 | b :: r => suml (w b) r + pair_sum w r end.
Theorem C59_pairs : forall (w : abody -> abody -> R) all ranks, Permutation (concat ranks) all ->
  (forall a b, w a b = w b a) ->
  (forall l1 b l2, filter ab_normal all = l1 ++ b :: l2 -> ab_mass b * ab_gpot b = suml (w b) (l1 ++ l2)) ->
  total_gravitational_energy ranks = pair_sum w (filter ab_normal all).
Proof.
  intros w all ranks HP Hs Hg.
  destruct (C59_totals 0 all ranks (fun _ => 0) HP) as (_ & _ & _ & _ & -> & _). unfold real_sum.
  assert (H : forall l2 l1, filter ab_normal all = l1 ++ l2 -> suml (fun b => ab_mass b * ab_gpot b) l2 = suml (fun b => suml (w b) l1) l2 + 2 * pair_sum w l2).
  { induction l2 as [|b l2 IH]; intros l1 E; cbn [suml pair_sum]; [ring|]. rewrite (Hg l1 b l2 E), suml_app.
    rewrite (IH (l1 ++ [b])) by (rewrite <- app_assoc; exact E).
    rewrite (suml_ext (fun b0 => suml (w b0) (l1 ++ [b])) (fun b0 => suml (w b0) l1 + w b b0)) by (intros x _; rewrite suml_app; cbn [suml]; rewrite (Hs x b); ring).
    rewrite suml_plus. ring. }
  rewrite (H (filter ab_normal all) [] eq_refl). cbn [suml]. rewrite suml_zero. field.
Qed.
Definition ab0 (nm : bool) (m v e : R) : abody := ABody nm m (fun _ => 1) (fun _ => v) e 0 0.
Example C59_run : total_mass [[ab0 true 2 1 0; ab0 false 9 9 9]; []; [ab0 true 3 2 0]] = 5 /\ total_momentum [[ab0 true 2 1 0; ab0 false 9 9 9]; []; [ab0 true 3 2 0]] 0%nat = 8.
Proof. unfold total_mass, total_momentum, reduce, allsum, acc; cbn. split; ring. Qed.
Example C59_pairs_met : let a := ABody true 2 (fun _ => 0) (fun _ => 0) 0 0 (-3) in let b := ABody true 3 (fun _ => 1) (fun _ => 0) 0 0 (-2) in
  forall l1 x l2, filter ab_normal [a; b] = l1 ++ x :: l2 -> ab_mass x * ab_gpot x = suml (fun y => - ab_mass x * ab_mass y) (l1 ++ l2).
Proof.
  intros a b l1 x l2 E. cbn [filter ab_normal a b] in E. destruct l1 as [|y [|z l1]]; cbn in E.
  - injection E as <- <-. cbn. ring.
  - injection E as <- <- <-. cbn. ring.
  - destruct l1; discriminate.
Qed.

(** ** C54: the conservation check *)
Lemma rd_bad : forall s v, st_good s = false -> rd s v = (s, v).
Proof. intros s v H. unfold rd. rewrite H. reflexivity. Qed.
Lemma rd_pt_bad : forall is s p, st_good s = false -> exists p', rd_pt s p is = (s, p').
Proof. induction is as [|i r IH]; intros s p H; cbn [rd_pt]; [eauto|]. rewrite rd_bad by exact H. apply IH, H. Qed.
(** Whatever the rest of the file holds: if it starts with a text the check succeeds. *)
Theorem C54_header : forall fuel n dp da check base0 v0 rest,
  check_conservation (S fuel) n dp da check base0 v0 (WText :: rest) = Some true.
Proof.
  intros. unfold check_conservation, rd_row. unfold rd_int; cbn [st_good st_words]. set (s := Stream (WText :: rest) false).
  rewrite ! rd_bad by reflexivity. destruct (rd_pt_bad (seq 0 n) s (r_mom base0) eq_refl) as (p & ->).
  destruct (rd_pt_bad [2%nat] s (r_ang base0) eq_refl) as (a & ->). destruct (rd_pt_bad [0; 1; 2]%nat s (r_ang base0) eq_refl) as (a3 & ->).
  destruct (n =? 2)%nat; [|destruct (n =? 3)%nat]; reflexivity.
Qed.
(** scalar_output starts the file with a header, so it never fails: *)
Theorem C54_never_fails : forall fuel num n dp da check base0 v0 qs,
  check_conservation (S fuel) n dp da check base0 v0 (scalar_file num n qs) = Some true.
Proof. intros. unfold scalar_file, scalar_header. cbn [repeat app]. apply C54_header. Qed.
Definition q0 (it : Z) (m : R) : scalars := Scalars it 0 0 m 0 0 0 (fun _ => 0) (fun _ => 0) (fun _ => 0).
Theorem C54_refuted : exists num n qs q1 q2, In q1 qs /\ In q2 qs /\ tol < Rabs (sc_mass q1 - sc_mass q2) /\
  forall fuel dp da base0 v0, check_conservation (S fuel) n dp da [MASS; ENERGY; MOMENTUM; ANG_MOMENTUM] base0 v0 (scalar_file num n qs) = Some true.
Proof.
  exists (fun r => WReal r 0 0), 3%nat, [q0 0 1; q0 1 2], (q0 0 1), (q0 1 2). split; [left; reflexivity|]. split; [right; left; reflexivity|].
  split; [cbn [q0 sc_mass]; rewrite Rabs_left by lra; unfold tol; cbn; lra|]. intros. apply C54_never_fails.
Qed.
(** The momentum tests compare addresses of arrays and fail for every file without a
    header, were it the one line of a run at rest. *)
Theorem C54_momentum : forall fuel n dp da check base0 v0 file, (dp <> 0 /\ In MOMENTUM check \/ da <> 0 /\ In ANG_MOMENTUM check)%Z ->
  (let '(s, _) := rd_row n (Stream file true) base0 in st_good s = true) ->
  check_conservation (S fuel) n dp da check base0 v0 file = Some false.
Proof.
  intros fuel n dp da check base0 v0 file H G. unfold check_conservation. destruct (rd_row n (Stream file true) base0) as [s base]. cbn [check_rows]. rewrite G.
  destruct (rd_row n s v0) as [s' v'].
  assert (HF : forallb (check_one dp da base v') check = false).
  { assert (HT : forall z, (z <> 0)%Z -> Rlt_b (IZR (Z.abs z)) tol = false).
    { intros z Hz. apply Rlt_b_false. assert (1 <= IZR (Z.abs z)) by (apply (IZR_le 1); lia). unfold tol. cbn. lra. }
    destruct (forallb (check_one dp da base v') check) eqn:E; [|reflexivity]. rewrite forallb_forall in E.
    destruct H as [[Hz Hi]|[Hz Hi]]; specialize (E _ Hi); cbn [check_one] in E; rewrite HT in E by exact Hz; discriminate. }
  rewrite HF. reflexivity.
Qed.
(** *** What it would find in a file of the layout it reads: no header, and lines of
    iteration, time, timestep, mass, energy, momentum and angular momentum *)
Record line := Line { n_iter : Z; n_time : R; n_dt : R; n_row : row }.
Definition line_words (num : R -> word) (n : nat) (l : line) : list word :=
  [WInt (n_iter l); num (n_time l); num (n_dt l); num (r_mass (n_row l)); num (r_energy (n_row l))] ++ map (fun k => num (r_mom (n_row l) k)) (seq 0 n) ++
  (if (n =? 2)%nat then [num (r_ang (n_row l) 2%nat)] else if (n =? 3)%nat then map (fun k => num (r_ang (n_row l) k)) [0; 1; 2]%nat else []).
Definition prints (num : R -> word) : Prop := forall r, exists i x, num r = WReal r i x.
Lemma rd_num : forall num r v ws, prints num -> rd (Stream (num r :: ws) true) v = (Stream ws true, r).
Proof. intros num r v ws H. destruct (H r) as (i & x & E). rewrite E. reflexivity. Qed.
Lemma rd_pt_nums : forall num is f p ws, prints num -> exists p', rd_pt (Stream (map (fun k => num (f k)) is ++ ws) true) p is = (Stream ws true, p').
Proof.
  intros num is f p ws H. revert p. induction is as [|i r IH]; intros p; cbn [map app rd_pt]; [eauto|]. rewrite rd_num by exact H. apply IH.
Qed.
Lemma rd_row_line : forall num n l v ws, prints num -> exists p a, rd_row n (Stream (line_words num n l ++ ws) true) v = (Stream ws true, Row (r_mass (n_row l)) (r_energy (n_row l)) p a).
Proof.
  intros num n l v ws H. unfold rd_row, line_words. cbn [app]. unfold rd_int; cbn [st_good st_words]. rewrite ! rd_num by exact H.
  rewrite <- app_assoc. set (tail := (if (n =? 2)%nat then _ else _) ++ ws). destruct (rd_pt_nums num (seq 0 n) (r_mom (n_row l)) (r_mom v) tail H) as (p & ->).
  unfold tail. clear tail. destruct (n =? 2)%nat; [|destruct (n =? 3)%nat].
  - destruct (rd_pt_nums num [2%nat] (r_ang (n_row l)) (r_ang v) ws H) as (a & E). cbn [map] in E. rewrite E. eauto.
  - destruct (rd_pt_nums num [0; 1; 2]%nat (r_ang (n_row l)) (r_ang v) ws H) as (a & E). rewrite E. eauto.
  - cbn [app]. eauto.
Qed.
Definition mass_energy_ok (check : list conserved) (b r : row) : Prop :=
  (In MASS check -> Rabs (r_mass b - r_mass r) < tol) /\ (In ENERGY check -> Rabs (r_energy b - r_energy r) < tol).
Lemma check_me : forall dp da check b b' r r', (forall c, In c check -> c = MASS \/ c = ENERGY) ->
  r_mass b' = r_mass b -> r_energy b' = r_energy b -> r_mass r' = r_mass r -> r_energy r' = r_energy r ->
  (forallb (check_one dp da b' r') check = true <-> mass_energy_ok check b r).
Proof.
  intros dp da check b b' r r' Hc E1 E2 E3 E4. rewrite forallb_forall. split.
  - intros H. split; intros Hi; specialize (H _ Hi); cbn in H; apply Rlt_b_true in H; congruence.
  - intros [H1 H2] c Hi. destruct (Hc c Hi) as [->| ->]; cbn; apply Rlt_b_true; rewrite ? E1, ? E2, ? E3, ? E4; auto.
Qed.
(** there, checking mass and energy, it fails exactly when some line deviates *)
Theorem C54_intended_partial : forall num n dp da check base0 v0 l0 l1 ls, prints num ->
  (forall c, In c check -> c = MASS \/ c = ENERGY) ->
  exists fuel0, forall fuel, (fuel0 <= fuel)%nat -> exists res,
    check_conservation fuel n dp da check base0 v0 (flat_map (line_words num n) (l0 :: l1 :: ls)) = Some res /\
    (res = false <-> exists l, In l (l1 :: ls) /\ ~ mass_energy_ok check (n_row l0) (n_row l)).
Proof.
  intros num n dp da check base0 v0 l0 l1 ls HN Hc. exists (length ls + 3)%nat. intros fuel Hf.
  unfold check_conservation. cbn [flat_map]. destruct (rd_row_line num n l0 base0 (line_words num n l1 ++ flat_map (line_words num n) ls) HN) as (p & a & ->).
  set (base := Row _ _ p a).
  assert (HL : forall rs v fuel, (length rs + 2 <= fuel)%nat -> mass_energy_ok check (n_row l0) v -> exists res,
     check_rows fuel n dp da check base v (Stream (flat_map (line_words num n) rs) true) = Some res /\ (res = false <-> exists l, In l rs /\ ~ mass_energy_ok check (n_row l0) (n_row l))).
  { induction rs as [|l rs IH]; intros v fu Hfu Hv; (destruct fu as [|fu]; [cbn in Hfu; lia|]); cbn [check_rows st_good flat_map].
    - (* at the end of the file the variables keep their values *)
      assert (E : rd_row n (Stream [] true) v = (Stream [] false, Row (r_mass v) (r_energy v) (snd (rd_pt (Stream [] false) (r_mom v) (seq 0 n))) (snd (if (n =? 2)%nat then rd_pt (Stream [] false) (r_ang v) [2%nat] else if (n =? 3)%nat then rd_pt (Stream [] false) (r_ang v) [0; 1; 2]%nat else (Stream [] false, r_ang v))))).
      { unfold rd_row. unfold rd_int; cbn [st_good st_words]. rewrite ! rd_bad by reflexivity.
        destruct (rd_pt_bad (seq 0 n) (Stream [] false) (r_mom v) eq_refl) as (p' & ->). destruct (n =? 2)%nat; [|destruct (n =? 3)%nat]; reflexivity. }
      rewrite E. set (v' := Row _ _ _ _).
      assert (HC : forallb (check_one dp da base v') check = true) by (apply (check_me dp da check (n_row l0) base v v' Hc eq_refl eq_refl eq_refl eq_refl), Hv).
      rewrite HC. destruct fu as [|fu]; [cbn in Hfu; lia|]. cbn [check_rows st_good]. exists true. split; [reflexivity|]. split; [discriminate | intros (l & [] & _)].
    - destruct (rd_row_line num n l v (flat_map (line_words num n) rs) HN) as (p' & a' & ->). set (v' := Row _ _ p' a').
      pose proof (check_me dp da check (n_row l0) base (n_row l) v' Hc eq_refl eq_refl eq_refl eq_refl) as HC.
      destruct (forallb (check_one dp da base v') check) eqn:EC.
      + apply proj1 in HC. specialize (HC eq_refl). destruct (IH v' fu ltac:(cbn in Hfu; lia)) as (res & Er & Hr).
        { exact HC. }
        exists res. split; [exact Er|]. rewrite Hr. split; intros (x & Hx & Hb); [exists x; split; [right; exact Hx | exact Hb]|].
        destruct Hx as [<-|Hx]; [contradiction | exists x; split; assumption].
      + exists false. split; [reflexivity|]. split; [intros _; exists l; split; [left; reflexivity|] | reflexivity].
        intros Hb. apply HC in Hb. discriminate. }
  destruct fuel as [|fuel]; [lia|]. cbn [check_rows st_good].
  destruct (rd_row_line num n l1 v0 (flat_map (line_words num n) ls) HN) as (p' & a' & ->). set (v' := Row _ _ p' a').
  pose proof (check_me dp da check (n_row l0) base (n_row l1) v' Hc eq_refl eq_refl eq_refl eq_refl) as HC.
  destruct (forallb (check_one dp da base v') check) eqn:EC.
  - apply proj1 in HC. specialize (HC eq_refl). destruct (HL ls v' fuel ltac:(lia) HC) as (res & Er & Hr). exists res. split; [exact Er|].
    rewrite Hr. split; intros (x & Hx & Hb); [exists x; split; [right; exact Hx | exact Hb]|].
    destruct Hx as [<-|Hx]; [contradiction | exists x; split; assumption].
  - exists false. split; [reflexivity|]. split; [intros _; exists l1; split; [left; reflexivity|] | reflexivity]. intros Hb. apply HC in Hb. discriminate.
Qed.
(** The lines scalar_output writes have two more columns before the momentum: without the
    header the check fails for a run that conserves everything. *)
Theorem C54_columns_refuted : exists qs base0 v0, (forall q q', In q qs -> In q' qs -> sc_mass q = sc_mass q' /\ sc_energy q = sc_energy q') /\
  forall fuel dp da, check_conservation (S fuel) 1 dp da [MASS] base0 v0 (flat_map (scalar_line (fun r => WReal r 0 0) 1) qs) = Some false.
Proof.
  set (v := Row 0 0 (fun _ => 0) (fun _ => 0)).
  exists [q0 0 1; q0 5 1], v, v. split.
  - intros q q' [<-|[<-|[]]] [<-|[<-|[]]]; split; reflexivity.
  - intros. unfold check_conservation. cbn. rewrite ? andb_true_r. unfold Rlt_b. destruct (Rlt_dec _ _) as [H|H]; [exfalso | reflexivity].
    rewrite Rabs_left in H by lra. unfold tol in H. cbn in H. lra.
Qed.
Example C54_run : exists num l0 l1, prints num /\ ~ mass_energy_ok [MASS] (n_row l0) (n_row l1).
Proof.
  exists (fun r => WReal r 0 0), (Line 0 0 0 (Row 1 0 (fun _ => 0) (fun _ => 0))), (Line 1 0 0 (Row 2 0 (fun _ => 0) (fun _ => 0))).
  split; [intros r; eauto|]. intros [H _]. specialize (H (or_introl eq_refl)). cbn in H. rewrite Rabs_left in H by lra. unfold tol in H. cbn in H. lra.
Qed.

(** What is read from a line of that layout, in full *)
Lemma rd_pt_at : forall num is f p ws, prints num -> NoDup is -> exists p', rd_pt (Stream (map (fun k => num (f k)) is ++ ws) true) p is = (Stream ws true, p') /\
  (forall k, In k is -> p' k = f k) /\ (forall k, ~ In k is -> p' k = p k).
Proof.
  intros num is f p ws H. revert p. induction is as [|i r IH]; intros p Hn; cbn [map app rd_pt]; [exists p; repeat split; auto; intros k []|]. rewrite rd_num by exact H.
  inversion Hn as [|x y Hi Hr]; subst. destruct (IH (set_pt p i (f i)) Hr) as (p' & E & A & B). exists p'. split; [exact E|]. split.
  - intros k [<-|Hk]; [|apply A; exact Hk]. rewrite B by exact Hi. unfold set_pt. rewrite Nat.eqb_refl. reflexivity.
  - intros k Hk. cbn in Hk. rewrite B by tauto. unfold set_pt. rewrite (proj2 (Nat.eqb_neq _ _)); [reflexivity|]. intros ->. tauto.
Qed.
Theorem C54_row : forall num n l v ws, prints num -> exists p a, rd_row n (Stream (line_words num n l ++ ws) true) v = (Stream ws true, Row (r_mass (n_row l)) (r_energy (n_row l)) p a) /\
  (forall k, (k < n)%nat -> p k = r_mom (n_row l) k) /\ (forall k, (n <= k)%nat -> p k = r_mom v k) /\
  (n = 2%nat -> a 2%nat = r_ang (n_row l) 2%nat /\ forall k, k <> 2%nat -> a k = r_ang v k) /\
  (n = 3%nat -> forall k, (k < 3)%nat -> a k = r_ang (n_row l) k) /\ (n <> 2%nat -> n <> 3%nat -> a = r_ang v).
Proof.
  intros num n l v ws H. unfold rd_row, line_words. cbn [app]. unfold rd_int; cbn [st_good st_words]. rewrite ! rd_num by exact H.
  rewrite <- app_assoc. set (tail := (if (n =? 2)%nat then _ else _) ++ ws). destruct (rd_pt_at num (seq 0 n) (r_mom (n_row l)) (r_mom v) tail H (seq_NoDup n 0)) as (p & -> & P1 & P2).
  assert (Q : (forall k, (k < n)%nat -> p k = r_mom (n_row l) k) /\ (forall k, (n <= k)%nat -> p k = r_mom v k)) by (split; intros k Hk; [apply P1 | apply P2]; rewrite in_seq; lia).
  destruct Q as [Q1 Q2]. unfold tail. clear tail. destruct (Nat.eqb_spec n 2) as [E2|E2]; [|destruct (Nat.eqb_spec n 3) as [E3|E3]].
  - destruct (rd_pt_at num [2%nat] (r_ang (n_row l)) (r_ang v) ws H) as (a & E & A1 & A2); [repeat constructor; cbn; tauto|]. cbn [map] in E. rewrite E. exists p, a. split; [reflexivity|].
    split; [exact Q1|]. split; [exact Q2|]. split; [|split; [lia|intros; lia]]. intros _. split; [apply A1; left; reflexivity|]. intros k Hk. apply A2. cbn. lia.
  - destruct (rd_pt_at num [0; 1; 2]%nat (r_ang (n_row l)) (r_ang v) ws H) as (a & E & A1 & A2); [repeat constructor; cbn; lia|]. rewrite E. exists p, a. split; [reflexivity|].
    split; [exact Q1|]. split; [exact Q2|]. split; [lia|]. split; [|intros; lia]. intros _ k Hk. apply A1. cbn. lia.
  - cbn [app]. exists p, (r_ang v). split; [reflexivity|]. split; [exact Q1|]. split; [exact Q2|]. split; [lia|]. split; [lia|]. reflexivity.
Qed.
(** The columns of a line of scalar_output: after iteration, time, timestep, mass and three energies the
    momentum; in two dimensions the angular momentum, in three its components and those of the centre of mass. *)
Theorem C54_written : forall num q d, let col n i := nth i (scalar_line num n q) d in
  (forall n, col n 3%nat = num (sc_mass q) /\ col n 4%nat = num (sc_energy q) /\ forall k, (k < n)%nat -> col n (7 + k)%nat = num (sc_mom q k)) /\
  length (scalar_line num 1 q) = 8%nat /\
  length (scalar_line num 2 q) = 10%nat /\ col 2%nat 9%nat = num (sc_ang q 0%nat) /\
  length (scalar_line num 3 q) = 16%nat /\ forall k, (k < 3)%nat -> col 3%nat (10 + k)%nat = num (sc_ang q k) /\ col 3%nat (13 + k)%nat = num (sc_com q k).
Proof.
  intros num q d col. unfold col. split; [|repeat split].
  - intros n. split; [reflexivity|]. split; [reflexivity|]. intros k Hk. unfold scalar_line. rewrite app_nth2 by (cbn; lia). cbn [length].
    replace (7 + k - 7)%nat with k by lia. rewrite app_nth1 by (rewrite map_length, seq_length; exact Hk).
    rewrite (nth_indep _ d (num (sc_mom q 0%nat))) by (rewrite map_length, seq_length; exact Hk). rewrite (map_nth (fun k => num (sc_mom q k)) (seq 0 n) 0%nat k). rewrite seq_nth by exact Hk. reflexivity.
  - destruct k as [|[|[|k]]]; try lia; reflexivity.
  - destruct k as [|[|[|k]]]; try lia; reflexivity.
Qed.
Print Assumptions C54_row.
Print Assumptions C54_written.
