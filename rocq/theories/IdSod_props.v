(** C82: the initial data of the Sod shock tube *)
From Coq Require Import Reals Lra Lia Permutation.
From Verif Require Import Base BuildTree_model Range_model Range_props Lattice_model Lattice_props LatticeBox_props IdGen_model IdGen_lemmas.
Local Open Scope R_scope.

(** ** Statement *)
Definition ipos (q : idp) : R * R * R := (i_x q, i_y q, i_z q).
(** The particles [l] are the nodes of a lattice in a box, each once (for the lattice called
    FCC in three dimensions, see C49, they may coincide) *)
Definition fills (dim : nat) (ty : Z) (sep : R) (bmin bmax : nat -> R) (l : list idp) : Prop :=
  (forall x, In x (map ipos l) <-> node dim ty bmin sep x /\ within dim 0 bmin bmax x) /\ ((dim < 3)%nat \/ ty <> 2%Z -> NoDup (map ipos l)).
(** The volume that belongs to a node: the distance of the nodes in a row, times that of the rows, times that of the layers *)
Definition cell (dim : nat) (ty : Z) (s : R) : R :=
  match dim with
  | 1%nat => s
  | 2%nat => if (ty =? 0)%Z then s * s else s * (s * sqrt 3 / 2)
  | _ => if (ty =? 0)%Z then s * s * s else s * (s * sqrt 3 / 2) * (s * sqrt (2 / 3))
  end.
(** [w] is a multiple of [d1] or of [d2], and next to a multiple of the other *)
Definition fits (tol w d1 d2 : R) : Prop := exists i j : Z, (w = IZR i * d1 \/ w = IZR j * d2) /\ w <= IZR i * d1 /\ w <= IZR j * d2 /\ Rabs (IZR j * d2 - IZR i * d1) < tol * d2.
Definition y_period (ty : Z) (s : R) : R := if (ty =? 0)%Z then s else 2 * (s * sqrt 3 / 2).
Definition z_period (ty : Z) (s : R) : R := if (ty =? 0)%Z then s else if (ty =? 1)%Z then 2 * (s * sqrt (2 / 3)) else 3 * (s * sqrt (2 / 3)).
(** Length, width and height of the tube: as given, or adjusted for periodic boundaries *)
Definition sizes (p : gpar) (s s2 len w h : R) : Prop :=
  (if equal_mass p && periodic_x p then exists K : nat, len / 2 = box_length p / 6 + INR K * s2 /\ INR K * s2 <= box_length p / 3 < (INR K + 1) * s2
   else len = box_length p) /\
  (w = box_width p \/ equal_mass p = true /\ periodic_y p = true /\ (2 <= g_dim p)%nat /\ fits (mismatch p) w (y_period (lattice_type p) s) (y_period (lattice_type p) s2)) /\
  (h = box_height p \/ equal_mass p = true /\ periodic_z p = true /\ (3 <= g_dim p)%nat /\ fits (mismatch p) h (z_period (lattice_type p) s) (z_period (lattice_type p) s2)).
Definition total (f : idp -> R) (l : list idp) : R := fold_right (fun q a => f q + a) 0 l.

(** ** Proofs *)
Lemma sqrt23_3 : sqrt 3 / 2 * sqrt (2 / 3) = 1 / sqrt 2.
Proof.
  assert (H2 : 0 < sqrt 2) by (apply sqrt_lt_R0; lra). pose proof (sqrt_sqrt 2 ltac:(lra)) as S2.
  replace (sqrt 3 / 2 * sqrt (2 / 3)) with (sqrt 3 * sqrt (2 / 3) / 2) by field.
  rewrite <- sqrt_mult by lra. replace (3 * (2 / 3)) with 2 by field. apply Rmult_eq_reg_r with (sqrt 2); [|lra].
  replace (1 / sqrt 2 * sqrt 2) with 1 by (field; lra). lra.
Qed.
Lemma sqrt6 : sqrt 6 = 3 * sqrt (2 / 3).
Proof.
  replace 6 with (9 * (2 / 3)) by field. rewrite sqrt_mult by lra. f_equal. replace 9 with (3 * 3) by ring. apply sqrt_square. lra.
Qed.
Lemma states_ok : forall test r1 p1 v1 r2 p2 v2, sod_states test = Some ((r1, p1, v1), (r2, p2, v2)) -> 0 < r2 <= r1 /\ 0 < p1 /\ 0 < p2.
Proof.
  intros test r1 p1 v1 r2 p2 v2 H. unfold sod_states in H.
  repeat match type of H with (if ?b then _ else _) = _ => destruct b end; try discriminate; injection H as <- <- <- <- <- <-; repeat split; lra.
Qed.
Lemma cbrt_cube : forall x, 0 < x -> cbrt x * cbrt x * cbrt x = x.
Proof.
  intros x Hx. unfold cbrt. rewrite <- ! Rpower_plus. replace (1 / 3 + 1 / 3 + 1 / 3) with 1 by field. apply Rpower_1; exact Hx.
Qed.
Lemma Rpower_pos : forall x y, 0 < Rpower x y.
Proof. intros. apply exp_pos. Qed.
Lemma cbrt_ge1 : forall x, 1 <= x -> 1 <= cbrt x.
Proof.
  intros x Hx. unfold cbrt. destruct (Req_dec x 1) as [->|N].
  - unfold Rpower. rewrite ln_1, Rmult_0_r, exp_0. lra.
  - left. replace 1 with (Rpower 1 (1 / 3)) at 1 by (unfold Rpower; rewrite ln_1, Rmult_0_r, exp_0; reflexivity).
    apply Rlt_Rpower_l; lra.
Qed.
Lemma smoothing_ok : forall p m rho, (1 <= g_dim p)%nat -> 0 < g_etaw p -> 0 < m -> 0 < rho -> rho * (smoothing p m rho / g_etaw p) ^ g_dim p = m.
Proof.
  intros p m rho Hd He Hm Hr. unfold smoothing. replace (g_etaw p * Rpower (m / rho) (1 / INR (g_dim p)) / g_etaw p) with (Rpower (m / rho) (1 / INR (g_dim p))) by (field; lra).
  rewrite <- Rpower_pow by apply Rpower_pos. rewrite Rpower_mult.
  assert (0 < INR (g_dim p)) by (apply lt_0_INR; lia). replace (1 / INR (g_dim p) * INR (g_dim p)) with 1 by (field; lra).
  rewrite Rpower_1 by (apply Rdiv_lt_0_compat; assumption). field. lra.
Qed.
Lemma smoothing_h_pos : forall p m rho, 0 < g_etaw p -> 0 < smoothing p m rho.
Proof. intros p m rho He. unfold smoothing. apply Rmult_lt_0_compat; [exact He | apply Rpower_pos]. Qed.
Lemma cell_pos : forall dim ty s, 0 < s -> 0 < cell dim ty s.
Proof.
  intros dim ty s Hs. pose proof sqrt3_bounds. pose proof sqrt23_bounds. unfold cell.
  assert (0 < s * s) by nra. assert (0 < s * sqrt 3 / 2) by nra. assert (0 < s * sqrt (2 / 3)) by nra.
  destruct dim as [|[|[|d]]]; try destruct (ty =? 0)%Z; repeat (first [assumption | apply Rmult_lt_0_compat]).
Qed.

Section Sod.
Context (p : gpar) (r1 r2 : R) (Hr : 0 < r2 <= r1) (HL : 0 < box_length p) (Hn : (4 <= lattice_nx p)%Z).
Notation L := (box_length p).
Notation n := (Z.quot (lattice_nx p - 1) 3).
Lemma n_pos : (1 <= n)%Z.
Proof. apply Z.quot_le_lower_bound; lia. Qed.
Lemma n_bounds : (3 * n + 1 <= lattice_nx p < 3 * n + 4)%Z.
Proof. pose proof (Z.quot_rem (lattice_nx p - 1) 3 ltac:(lia)). pose proof (Z.rem_bound_pos (lattice_nx p - 1) 3 ltac:(lia) ltac:(lia)). lia. Qed.
Lemma nx_n : (sod_nx p - 1 = 3 * n)%Z.
Proof. unfold sod_nx. lia. Qed.
Lemma sep_n : sod_sep p = L / IZR (3 * n).
Proof. unfold sod_sep. rewrite nx_n. reflexivity. Qed.
Lemma n3_pos : 0 < IZR (3 * n).
Proof. apply IZR_lt. pose proof n_pos. lia. Qed.
Lemma sep_pos : 0 < sod_sep p.
Proof. rewrite sep_n. apply Rdiv_lt_0_compat; [exact HL | exact n3_pos]. Qed.
Lemma ratio_ge : 1 <= r1 / r2.
Proof. apply Rmult_le_reg_r with r2; [lra|]. replace (r1 / r2 * r2) with r1 by (field; lra). lra. Qed.
Hypothesis Hd : (1 <= g_dim p <= 3)%nat.
Hypothesis Ht : (0 <= lattice_type p <= 2)%Z.
Notation s := (sod_sep p).
Notation s2 := (sod_lr_sep p r1 r2).
Lemma lr_ge : s <= s2.
Proof.
  pose proof sep_pos as Hs. pose proof ratio_ge as Hq. unfold sod_lr_sep, sod_mass.
  destruct (g_dim p) as [|[|[|d]]].
  - pose proof (cbrt_ge1 _ Hq). nra.
  - apply Rmult_le_reg_r with r2; [lra|]. replace (r1 * s / r2 * r2) with (r1 * s) by (field; lra). nra.
  - assert (1 <= sqrt (r1 / r2)) by (rewrite <- sqrt_1; apply sqrt_le_1; lra). nra.
  - pose proof (cbrt_ge1 _ Hq). nra.
Qed.
Lemma packed_ty : close_packed (lattice_type p) = negb (lattice_type p =? 0)%Z.
Proof. unfold close_packed. assert (lattice_type p = 0 \/ lattice_type p = 1 \/ lattice_type p = 2)%Z as [->|[->| ->]] by lia; reflexivity. Qed.
Lemma mass_cell1 : sod_mass p r1 = r1 * cell (g_dim p) (lattice_type p) s.
Proof.
  unfold sod_mass, cell. rewrite packed_ty. destruct (g_dim p) as [|[|[|d]]]; [lia | reflexivity | |]; destruct (lattice_type p =? 0)%Z; cbn [negb]; try ring; try field.
  rewrite <- sqrt23_3. field.
Qed.
Lemma mass_cell2 : sod_mass p r1 = r2 * cell (g_dim p) (lattice_type p) s2.
Proof.
  pose proof sep_pos as Hs. pose proof ratio_ge as Hq. rewrite mass_cell1. unfold sod_lr_sep. assert (E : r1 = r2 * (r1 / r2)) by (field; lra).
  destruct (g_dim p) as [|[|[|d]]] eqn:Ed; [lia | | |].
  - cbn [cell]. unfold sod_mass. rewrite Ed. field. lra.
  - pose proof (sqrt_sqrt (r1 / r2) ltac:(lra)) as Q. unfold cell. rewrite E at 1. rewrite <- Q at 1. destruct (lattice_type p =? 0)%Z; field.
  - pose proof (cbrt_cube (r1 / r2) ltac:(lra)) as Q. unfold cell. rewrite E at 1. rewrite <- Q at 1. destruct (lattice_type p =? 0)%Z; field.
Qed.
Lemma y_period_ok : forall x, (2 <= g_dim p)%nat -> period_y (g_dim p) (lattice_type p) x = y_period (lattice_type p) x.
Proof.
  intros x H2. unfold period_y, y_period. rewrite packed_ty. destruct (g_dim p) as [|[|d]]; [lia | lia|]. destruct (lattice_type p =? 0)%Z; cbn [negb]; [reflexivity | field].
Qed.
Lemma z_period_ok : forall x, g_dim p = 3%nat -> period_z (g_dim p) (lattice_type p) x = z_period (lattice_type p) x.
Proof.
  intros x ->. unfold period_z, z_period. assert (lattice_type p = 0 \/ lattice_type p = 1 \/ lattice_type p = 2)%Z as [->|[->| ->]] by lia; cbn [Z.eqb Pos.eqb]; [reflexivity | ring | rewrite sqrt6; ring].
Qed.
Lemma fit_fits : forall tries j d1 d2 tol w, sod_fit tries j d1 d2 tol = Some w -> fits tol w d1 d2.
Proof.
  induction tries as [|k IH]; intros j d1 d2 tol w H; cbn [sod_fit] in H; [discriminate|].
  destruct (Rlt_b _ _) eqn:E in H; [|eapply IH; exact H]. apply Rlt_b_true in E. injection H as <-. unfold floorR in *.
  exists j, (Int_part (IZR j * d1 / d2 - b_tol RA) + 1)%Z. rewrite plus_IZR. split; [|split; [apply Rmin_r | split; [apply Rmin_l | exact E]]].
  unfold Rmin. destruct (Rle_dec _ _); [right | left]; reflexivity.
Qed.
Lemma width_fits : forall w d1 d2 tol, sod_width w d1 d2 tol = w \/ fits tol (sod_width w d1 d2 tol) d1 d2.
Proof.
  intros w d1 d2 tol. unfold sod_width. destruct (sod_fit _ _ _ _ _) as [w'|] eqn:E; [right; eapply fit_fits; exact E | left; reflexivity].
Qed.
Lemma fit_nonneg : forall tries j d1 d2 tol w, (0 <= j)%Z -> 0 < d1 -> 0 < d2 -> sod_fit tries j d1 d2 tol = Some w -> 0 <= w.
Proof.
  induction tries as [|k IH]; intros j d1 d2 tol w Hj H1 H2 H; cbn [sod_fit] in H; [discriminate|].
  destruct (Rlt_b _ _) in H; [|eapply (IH (j + 1)%Z); [lia | exact H1 | exact H2 | exact H]]. injection H as <-.
  assert (0 <= IZR j) by (apply IZR_le; lia). assert (J : 0 <= IZR j * d1) by (apply Rmult_le_pos; lra).
  apply Rmin_glb; [|exact J]. unfold floorR. match goal with |- 0 <= (IZR (Int_part ?y) + 1) * _ => set (x := y) end. destruct (base_Int_part x) as (_ & B).
  assert (-1 < x) by (unfold x, b_tol; cbn [a_div a_ofz RA]; assert (0 <= IZR j * d1 / d2) by (apply Rmult_le_pos; [exact J | left; apply Rinv_0_lt_compat; exact H2]); lra).
  assert (-2 < Int_part x)%Z by (apply lt_IZR; lra). apply Rmult_le_pos; [|lra]. replace 1 with (IZR 1) by reflexivity. rewrite <- plus_IZR. apply IZR_le. lia.
Qed.
Lemma width_nonneg : forall w d1 d2 tol, 0 < d1 -> 0 < d2 -> 0 <= w -> 0 <= sod_width w d1 d2 tol.
Proof.
  intros w d1 d2 tol H1 H2 Hw. unfold sod_width. destruct (sod_fit _ _ _ _ _) as [w'|] eqn:E; [|exact Hw].
  destruct (Z.le_gt_cases 0 (Int_part (w / d1) - 1)) as [Hp|Hp]; [eapply fit_nonneg; [exact Hp | exact H1 | exact H2 | exact E]|].
  replace (Z.to_nat _) with 0%nat in E by lia. discriminate.
Qed.
Lemma floor_bounds : forall x, 0 <= x -> exists K : nat, floorR x = INR K /\ INR K <= x < INR K + 1.
Proof.
  intros x Hx. unfold floorR. destruct (base_Int_part x) as (B1 & B2).
  assert (Hp : (-1 < Int_part x)%Z) by (apply lt_IZR; lra).
  exists (Z.to_nat (Int_part x)). rewrite INR_IZR_INZ, Z2Nat.id by lia. split; [reflexivity | lra].
Qed.
Definition side : R := if equal_mass p then s2 else s.
Lemma side_pos : 0 < side.
Proof. unfold side. pose proof sep_pos. pose proof lr_ge. destruct (equal_mass p); lra. Qed.
Lemma geometry : let b := sod_geometry p r1 r2 in sb_c b = L / 6 /\ sizes p s side (2 * sb_end b) (sb_w b) (sb_h b) /\
  L / 6 <= sb_end b /\ sb_end b - L / 6 <= L / 3 /\ (equal_mass p && periodic_x p = false -> sb_end b = L / 2).
Proof.
  pose proof sep_pos as Hs. pose proof lr_ge as Hg. unfold sod_geometry, sizes, side. destruct (equal_mass p) eqn:Em; cbn zeta; cbn [sb_c sb_end sb_w sb_h andb].
  2:{ repeat split; try lra; left; reflexivity. }
  split; [reflexivity|].
  destruct (floor_bounds (L / (3 * s2)) ltac:(apply Rlt_le, Rdiv_lt_0_compat; lra)) as (K & EK & BK).
  assert (B1 : INR K * s2 <= L / 3).
  { apply Rmult_le_reg_r with (3 / s2); [apply Rdiv_lt_0_compat; lra|]. replace (INR K * s2 * (3 / s2)) with (3 * INR K) by (field; lra).
    replace (L / 3 * (3 / s2)) with (3 * (L / (3 * s2))) by (field; lra). lra. }
  assert (B2 : L / 3 < (INR K + 1) * s2).
  { apply Rmult_lt_reg_r with (3 / s2); [apply Rdiv_lt_0_compat; lra|]. replace ((INR K + 1) * s2 * (3 / s2)) with (3 * (INR K + 1)) by (field; lra).
    replace (L / 3 * (3 / s2)) with (3 * (L / (3 * s2))) by (field; lra). lra. }
  assert (B0 : 0 <= INR K * s2) by (apply Rmult_le_pos; [apply pos_INR | lra]).
  rewrite EK. split; [split; [|split]|].
  - destruct (periodic_x p); [exists K; split; [field | split; assumption] | field].
  - destruct (2 <=? g_dim p)%nat eqn:E2; cbn [andb]; [|left; reflexivity]. apply Nat.leb_le in E2. destruct (periodic_y p); [|left; reflexivity].
    rewrite ! y_period_ok by exact E2. destruct (width_fits (box_width p) (y_period (lattice_type p) s) (y_period (lattice_type p) s2) (mismatch p)) as [E|E]; [left; exact E | right; auto].
  - destruct (3 <=? g_dim p)%nat eqn:E3; cbn [andb]; [|left; reflexivity]. apply Nat.leb_le in E3. destruct (periodic_z p); [|left; reflexivity].
    rewrite ! z_period_ok by lia. destruct (width_fits (box_height p) (z_period (lattice_type p) s) (z_period (lattice_type p) s2) (mismatch p)) as [E|E]; [left; exact E | right; auto].
  - destruct (periodic_x p); repeat split; try lra; discriminate.
Qed.
Lemma geometry_nonneg : 0 <= box_width p -> 0 <= box_height p -> let b := sod_geometry p r1 r2 in 0 <= sb_w b /\ 0 <= sb_h b.
Proof.
  intros Hw Hh. pose proof sep_pos as Hs. pose proof lr_ge as Hg. pose proof sqrt3_bounds. pose proof sqrt23_bounds.
  assert (P : forall x, 0 < x -> 0 < y_period (lattice_type p) x /\ 0 < z_period (lattice_type p) x).
  { intros x Hx. unfold y_period, z_period. destruct (lattice_type p =? 0)%Z; [auto|]. destruct (lattice_type p =? 1)%Z; split; nra. }
  unfold sod_geometry. destruct (equal_mass p); cbn zeta; cbn [sb_w sb_h]; [|auto]. split.
  - destruct (2 <=? g_dim p)%nat eqn:E; cbn [andb]; [|exact Hw]. apply Nat.leb_le in E. destruct (periodic_y p); [|exact Hw].
    rewrite ! y_period_ok by exact E. apply width_nonneg; [apply P; lra | apply P; lra | exact Hw].
  - destruct (3 <=? g_dim p)%nat eqn:E; cbn [andb]; [|exact Hh]. apply Nat.leb_le in E. destruct (periodic_z p); [|exact Hh].
    rewrite ! z_period_ok by lia. apply width_nonneg; [apply P; lra | apply P; lra | exact Hh].
Qed.
End Sod.

Section SodRun.
Context (p : gpar) (test : Z) (r1 P1 v1 r2 P2 v2 : R) (Es : sod_states test = Some ((r1, P1, v1), (r2, P2, v2))).
Context (HL : 0 < box_length p) (Hw : 0 <= box_width p) (Hh : 0 <= box_height p) (Hn : (4 <= lattice_nx p)%Z) (Hdt : domain_type p = 0%Z).
Notation L := (box_length p).
Notation s := (sod_sep p).
Notation b := (sod_geometry p r1 r2).
Notation dim := (g_dim p).
Notation ty := (lattice_type p).
Notation latt := (lattice dim (g_fuel p) ty 0).
Notation s2 := (side p r1 r2).
Definition sod_of (nc nr : Z) (k : Z) (x y z : R) : idp :=
  let mid := in_domain_1d RA x (sod_cmin b 0%nat) (sod_cmax b 0%nat) in
  let P := if mid then P1 else P2 in let rho := if mid then r1 else r2 in let vx := if mid then v1 else v2 in
  let m := if equal_mass p then sod_mass p r1 else rho / IZR (if mid then nc else nr) in
  IdP k x y z vx 0 (smoothing p m rho) rho (P / (poly_gamma p - 1) / rho) P m.
Lemma nx_ok : (sod_nx p - 1 =? 0)%Z = false.
Proof. apply Z.eqb_neq. rewrite nx_n. pose proof (n_pos p Hn). lia. Qed.
Lemma sodtube_eq : forall pc pr pl, Emits (latt (sod_cmin b) (sod_cmax b) s) pc -> Emits (latt (sod_rmin b) (sod_rmax b) s2) pr -> Emits (latt (sod_lmin b) (sod_lmax b) s2) pl ->
  sodtube p test = Some (map (at3 (sod_of (Z.of_nat (length pc)) (Z.of_nat (length pr)))) (number 0 (pc ++ pr ++ pl))).
Proof.
  intros pc pr pl Ec Er El. unfold sodtube. rewrite Es, Hdt, nx_ok. cbn [Z.eqb negb orb]. cbn zeta. unfold side in *.
  rewrite (count_emits _ _ _ _ _ _ _ _ _ Ec), (count_emits _ _ _ _ _ _ _ _ _ Er), (count_emits _ _ _ _ _ _ _ _ _ El).
  assert (En : (Z.of_nat (length pc) + Z.of_nat (length pr) + Z.of_nat (length pl) = Z.of_nat (length (pc ++ pr ++ pl)))%Z) by (rewrite ! app_length; lia).
  rewrite (generate_emits _ _ _ _ _ _ _ _ _ _ _ Ec) by (cbn [l_pid zeros]; lia).
  rewrite (generate_emits _ _ _ _ _ _ _ _ _ _ _ Er) by (rewrite ? emit_pid; cbn [l_pid zeros]; lia).
  rewrite (generate_emits _ _ _ _ _ _ _ _ _ _ _ El) by (rewrite ? emit_pid; cbn [l_pid zeros]; lia).
  rewrite En, <- ! emit_app. replace ((pc ++ pr) ++ pl) with (pc ++ pr ++ pl) by (rewrite app_assoc; reflexivity).
  apply (write_emit (pc ++ pr ++ pl) (sod_of (Z.of_nat (length pc)) (Z.of_nat (length pr)))). lia.
Qed.
Lemma sodtube_inv : forall l, sodtube p test = Some l -> exists pc pr pl, Emits (latt (sod_cmin b) (sod_cmax b) s) pc /\ Emits (latt (sod_rmin b) (sod_rmax b) s2) pr /\ Emits (latt (sod_lmin b) (sod_lmax b) s2) pl /\
  l = map (at3 (sod_of (Z.of_nat (length pc)) (Z.of_nat (length pr)))) (number 0 (pc ++ pr ++ pl)).
Proof.
  intros l H. pose proof H as H'. unfold sodtube in H. rewrite Es, Hdt, nx_ok in H. cbn [Z.eqb negb orb] in H. cbn zeta in H.
  destruct (count _ _ _ _ (sod_cmin b) _ _ _) as [nc|] eqn:Ec in H; [|discriminate].
  destruct (count _ _ _ _ (sod_rmin b) _ _ _) as [nr|] eqn:Er in H; [|discriminate].
  destruct (count _ _ _ _ (sod_lmin b) _ _ _) as [nl|] eqn:El in H; [|discriminate].
  destruct (count_inv _ _ _ _ _ _ _ _ _ Ec) as (pc & Epc & _). destruct (count_inv _ _ _ _ _ _ _ _ _ Er) as (pr & Epr & _). destruct (count_inv _ _ _ _ _ _ _ _ _ El) as (pl & Epl & _).
  exists pc, pr, pl. split; [exact Epc|]. split; [exact Epr|]. split; [exact Epl|]. rewrite (sodtube_eq pc pr pl Epc Epr Epl) in H'. congruence.
Qed.
End SodRun.

Lemma node_x : forall dim ty bmin sep x y z, node dim ty bmin sep (x, y, z) -> exists a : Z, x = bmin 0%nat + IZR a * (sep / 2).
Proof.
  intros dim ty bmin sep x y z H. unfold node in H. destruct dim as [|[|[|d]]].
  - unfold node_3d in H. destruct H as (i & j & k & H). destruct (ty =? 0)%Z.
    + rewrite ! pair_equal_spec in H; destruct H as ((-> & _) & _). exists (2 * Z.of_nat i)%Z. rewrite mult_IZR, <- INR_IZR_INZ. field.
    + destruct H as (layer & _ & H). rewrite ! pair_equal_spec in H; destruct H as ((-> & _) & _). exists (Z.of_nat (j mod 2) - Z.of_nat layer + 2 * Z.of_nat i)%Z. rewrite plus_IZR, minus_IZR, mult_IZR, <- ! INR_IZR_INZ. field.
  - destruct H as (i & H). rewrite ! pair_equal_spec in H; destruct H as ((-> & _) & _). exists (2 * Z.of_nat i)%Z. rewrite mult_IZR, <- INR_IZR_INZ. field.
  - destruct H as (i & j & H). destruct (ty =? 0)%Z; rewrite ! pair_equal_spec in H; destruct H as ((-> & _) & _).
    + exists (2 * Z.of_nat i)%Z. rewrite mult_IZR, <- INR_IZR_INZ. field.
    + exists (Z.of_nat (j mod 2) + 2 * Z.of_nat i)%Z. rewrite plus_IZR, mult_IZR, <- ! INR_IZR_INZ. field.
  - unfold node_3d in H. destruct H as (i & j & k & H). destruct (ty =? 0)%Z.
    + rewrite ! pair_equal_spec in H; destruct H as ((-> & _) & _). exists (2 * Z.of_nat i)%Z. rewrite mult_IZR, <- INR_IZR_INZ. field.
    + destruct H as (layer & _ & H). rewrite ! pair_equal_spec in H; destruct H as ((-> & _) & _). exists (Z.of_nat (j mod 2) - Z.of_nat layer + 2 * Z.of_nat i)%Z. rewrite plus_IZR, minus_IZR, mult_IZR, <- ! INR_IZR_INZ. field.
Qed.
(** moving the box along x moves the nodes *)
Lemma node_shift : forall dim ty a y0 z0 sep x y z t, node dim ty (pt a y0 z0) sep (x, y, z) -> node dim ty (pt (a + t) y0 z0) sep (x + t, y, z).
Proof.
  intros dim ty a y0 z0 sep x y z t H. unfold node in *. destruct dim as [|[|[|d]]].
  1,4: unfold node_3d in *; destruct H as (i & j & k & H); exists i, j, k; destruct (ty =? 0)%Z;
    [rewrite ! pair_equal_spec in H; destruct H as ((-> & ->) & ->); cbn [pt]; f_equal; f_equal; ring
    | destruct H as (layer & Hl & H); exists layer; split; [exact Hl|]; rewrite ! pair_equal_spec in H; destruct H as ((-> & ->) & ->); cbn [pt]; f_equal; f_equal; ring].
  - destruct H as (i & H). exists i. rewrite ! pair_equal_spec in H; destruct H as ((-> & ->) & ->). cbn [pt]. f_equal. f_equal. ring.
  - destruct H as (i & j & H). exists i, j. destruct (ty =? 0)%Z; rewrite ! pair_equal_spec in H; destruct H as ((-> & ->) & ->); cbn [pt]; f_equal; f_equal; ring.
Qed.
Lemma within_box : forall dim x0 x1 y0 y1 z0 z1 x y z, within dim 0 (pt x0 y0 z0) (pt x1 y1 z1) (x, y, z) ->
  (1 <= dim)%nat -> x0 - (x1 - x0) / 1000000 < x < x1 - (x1 - x0) / 1000000.
Proof. intros dim x0 x1 y0 y1 z0 z1 x y z (W & _) Hd. specialize (W 0%nat ltac:(lia)). cbn [coord fst snd pt] in W. exact W. Qed.
Lemma within_shift : forall dim x0 x1 y0 y1 z0 z1 x y z t, within dim 0 (pt x0 y0 z0) (pt x1 y1 z1) (x, y, z) ->
  within dim 0 (pt (x0 + t) y0 z0) (pt (x1 + t) y1 z1) (x + t, y, z).
Proof.
  intros dim x0 x1 y0 y1 z0 z1 x y z t (W & _). split; [|discriminate]. intros a Ha. specialize (W a Ha). cbn zeta in *.
  destruct a as [|[|a]]; cbn [coord fst snd pt] in *; replace (x1 + t - (x0 + t)) with (x1 - x0) by ring; lra.
Qed.
Lemma mid_iff : forall x c, in_domain_1d RA x (- c) c = true <-> - c - (c - - c) / 1000000 < x < c - (c - - c) / 1000000.
Proof.
  intros x c. unfold in_domain_1d, b_tol. cbn [a_add a_sub a_mul a_div a_lt a_ofz RA]. rewrite andb_true_iff, ! Rlt_b_true.
  replace (1 / 1000000 * (c - - c)) with ((c - - c) / 1000000) by field. reflexivity.
Qed.
Lemma in_number : forall T (l : list T) k q, In q (number k l) -> In (snd q) l.
Proof. intros T l k q H. rewrite <- (number_snd T l k). apply in_map; exact H. Qed.
Lemma forall_at3 : forall (f : Z -> R -> R -> R -> idp) (P : idp -> Prop) pts k, (forall j x y z, In (x, y, z) pts -> P (f j x y z)) -> Forall P (map (at3 f) (number k pts)).
Proof.
  intros f P pts k H. apply Forall_forall. intros q Hq. apply in_map_iff in Hq. destruct Hq as ((j & [[x y] z]) & <- & Hq). cbn [at3]. apply H. exact (in_number _ _ _ _ Hq).
Qed.
Lemma map_at3 : forall T (g : idp -> T) (f : Z -> R -> R -> R -> idp) (g' : R * R * R -> T) pts k, (forall j x y z, g (f j x y z) = g' (x, y, z)) -> map g (map (at3 f) (number k pts)) = map g' pts.
Proof.
  intros T g f g' pts k H. rewrite map_map. rewrite <- (number_snd _ pts k) at 2. rewrite map_map. apply map_ext. intros (j & [[x y] z]). apply H.
Qed.
Lemma total_const : forall f (c : R) l, Forall (fun q => f q = c) l -> total f l = INR (length l) * c.
Proof.
  intros f c l H. induction H as [|q l Hq Hl IH]; [cbn; ring|]. cbn [total fold_right]. fold (total f l). rewrite IH, Hq. cbn [length]. rewrite S_INR. ring.
Qed.
Lemma fills_at3 : forall dim fuel ty bmin bmax sep pts f k, 0 < sep -> (forall a, bmin a <= bmax a) -> (forall j x y z, ipos (f j x y z) = (x, y, z)) ->
  Emits (lattice dim fuel ty 0 bmin bmax sep) pts -> fills dim ty sep bmin bmax (map (at3 f) (number k pts)).
Proof.
  intros dim fuel ty bmin bmax sep pts f k Hs Hb Hf E. unfold fills. rewrite (map_at3 _ ipos f (fun q => q)) by (intros; apply Hf). rewrite map_id.
  destruct (lattice_points dim fuel ty 0 bmin bmax sep pts Hs Hb ltac:(reflexivity) E) as (_ & _ & H). split; [exact H|].
  intros Ht. eapply lattice_nodup; [exact Hs | exact Ht | exact E].
Qed.
Lemma pt_le : forall x y z x' y' z', x <= x' -> y <= y' -> z <= z' -> forall a, pt x y z a <= pt x' y' z' a.
Proof. intros x y z x' y' z' Hx Hy Hz [|[|a]]; assumption. Qed.

(** ** Theorems *)
(** The tube consists of three lattices: the middle third in the first state, the left and right
    thirds in the second.  Density, pressure and energy obey the equation of state, mass and
    smoothing length the density.  With equal masses they are the density times the volume of
    a cell, on both sides of the interface. *)
Theorem C82_tube : forall p test l r1 P1 v1 r2 P2 v2, sod_states test = Some ((r1, P1, v1), (r2, P2, v2)) ->
  0 < box_length p -> 0 <= box_width p -> 0 <= box_height p -> (4 <= lattice_nx p)%Z ->
  (equal_mass p && periodic_x p = true -> (lattice_nx p <= 1000000)%Z) -> 0 < g_etaw p -> poly_gamma p <> 1 ->
  sodtube p test = Some l ->
  exists (n : Z) len w h s s2 lc lr ll,
    (3 * n + 1 <= lattice_nx p < 3 * n + 4)%Z /\ s = box_length p / IZR (3 * n) /\ (equal_mass p = false -> s2 = s) /\ sizes p s s2 len w h /\
    l = lc ++ lr ++ ll /\ map i_id l = map Z.of_nat (seq 0 (length l)) /\
    fills (g_dim p) (lattice_type p) s (pt (- (box_length p / 6)) (- w / 2) (- h / 2)) (pt (box_length p / 6) (w / 2) (h / 2)) lc /\
    fills (g_dim p) (lattice_type p) s2 (pt (box_length p / 6) (- w / 2) (- h / 2)) (pt (len / 2) (w / 2) (h / 2)) lr /\
    fills (g_dim p) (lattice_type p) s2 (pt (- (len / 2)) (- w / 2) (- h / 2)) (pt (- (box_length p / 6)) (w / 2) (h / 2)) ll /\
    Forall (fun q => i_rho q = r1 /\ i_P q = P1 /\ i_vx q = v1) lc /\
    Forall (fun q => i_rho q = r2 /\ i_P q = P2 /\ i_vx q = v2) (lr ++ ll) /\
    Forall (fun q => i_vy q = 0 /\ i_P q = (poly_gamma p - 1) * i_rho q * i_u q /\ 0 < i_m q /\ 0 < i_h q /\ i_rho q * (i_h q / g_etaw p) ^ g_dim p = i_m q) l /\
    (equal_mass p = true -> Forall (fun q => i_m q = i_rho q * cell (g_dim p) (lattice_type p) s) lc /\
      Forall (fun q => i_m q = i_rho q * cell (g_dim p) (lattice_type p) s2) (lr ++ ll) /\ forall q q', In q l -> In q' l -> i_m q = i_m q') /\
    (equal_mass p = false -> (lc <> [] -> total i_m lc = r1) /\ (lr <> [] -> total i_m lr = r2) /\
      Forall (fun q => i_m q = i_rho q / INR (length lc)) lc /\ Forall (fun q => i_m q = i_rho q / INR (length lr)) (lr ++ ll)).
Proof.
  intros p test l r1 P1 v1 r2 P2 v2 Es HL Hw Hh Hn Hper He Hg H.
  destruct (states_ok _ _ _ _ _ _ _ Es) as (Hr & _ & _).
  assert (Hdt : domain_type p = 0%Z).
  { destruct (Z.eqb_spec (domain_type p) 0) as [E|N]; [exact E|]. exfalso. unfold sodtube in H. rewrite Es in H. apply Z.eqb_neq in N. rewrite N in H. discriminate. }
  destruct (sodtube_inv p test r1 P1 v1 r2 P2 v2 Es Hn Hdt l H) as (pc & pr & pl & Ec & Er & El & ->).
  pose proof (sep_pos p HL Hn) as Hs.
  assert (Hdty : (1 <= g_dim p <= 3)%nat /\ (0 <= lattice_type p <= 2)%Z).
  { pose proof (Ec true (zeros 0)) as E1. unfold lattice in E1. destruct ((0 <=? lattice_type p) && (lattice_type p <=? 2))%Z eqn:Et; [|discriminate].
    apply andb_true_iff in Et. rewrite ! Z.leb_le in Et. destruct (g_dim p) as [|[|[|[|d]]]]; try discriminate; split; lia. }
  destruct Hdty as (Hd & Ht).
  pose proof (side_pos p r1 r2 Hr HL Hn Hd) as Hs2. destruct (geometry p r1 r2 Hr HL Hn Hd Ht) as (Gc & Gs & Ge & Gl & Gp).
  destruct (geometry_nonneg p r1 r2 Hr HL Hn Hd Ht Hw Hh) as (Gw & Gh).
  set (b := sod_geometry p r1 r2) in *. set (s := sod_sep p) in *. set (s2 := side p r1 r2) in *.
  set (nc := Z.of_nat (length pc)). set (nr := Z.of_nat (length pr)).
  set (f := sod_of p r1 P1 v1 r2 P2 v2 nc nr).
  exists (Z.quot (lattice_nx p - 1) 3), (2 * sb_end b), (sb_w b), (sb_h b), s, s2,
    (map (at3 f) (number 0 pc)), (map (at3 f) (number (0 + Z.of_nat (length pc)) pr)), (map (at3 f) (number (0 + Z.of_nat (length pc) + Z.of_nat (length pr)) pl)).
  assert (FL : (- (box_length p / 6)) <= box_length p / 6) by lra.
  assert (Bc : forall a, sod_cmin b a <= sod_cmax b a) by (apply pt_le; lra).
  assert (Br : forall a, sod_rmin b a <= sod_rmax b a) by (apply pt_le; lra).
  assert (Bl : forall a, sod_lmin b a <= sod_lmax b a) by (apply pt_le; lra).
  assert (Fp : forall j x y z, ipos (f j x y z) = (x, y, z)) by reflexivity.
  destruct (lattice_points _ _ _ _ _ _ _ _ Hs Bc ltac:(reflexivity) Ec) as (_ & _ & Pc).
  destruct (lattice_points _ _ _ _ _ _ _ _ Hs2 Br ltac:(reflexivity) Er) as (_ & _ & Pr).
  destruct (lattice_points _ _ _ _ _ _ _ _ Hs2 Bl ltac:(reflexivity) El) as (_ & _ & Pl).
  unfold sod_cmin, sod_cmax, sod_rmin, sod_rmax, sod_lmin, sod_lmax in Pc, Pr, Pl. rewrite Gc in Pc, Pr, Pl.
  (* the region test agrees with the boxes *)
  assert (Mc : forall x y z, In (x, y, z) pc -> in_domain_1d RA x (sod_cmin b 0%nat) (sod_cmax b 0%nat) = true).
  { intros x y z Hx. unfold sod_cmin, sod_cmax. cbn [pt]. rewrite Gc. apply mid_iff. apply Pc in Hx. destruct Hx as (_ & W). exact (within_box _ _ _ _ _ _ _ _ _ _ W ltac:(lia)). }
  assert (Mr : forall x y z, In (x, y, z) pr -> in_domain_1d RA x (sod_cmin b 0%nat) (sod_cmax b 0%nat) = false).
  { intros x y z Hx. unfold sod_cmin, sod_cmax. cbn [pt]. rewrite Gc. apply not_true_iff_false. rewrite mid_iff. apply Pr in Hx. destruct Hx as (_ & W).
    pose proof (within_box _ _ _ _ _ _ _ _ _ _ W ltac:(lia)). lra. }
  assert (Ml : forall x y z, In (x, y, z) pl -> in_domain_1d RA x (sod_cmin b 0%nat) (sod_cmax b 0%nat) = false).
  { intros x y z Hx. unfold sod_cmin, sod_cmax. cbn [pt]. rewrite Gc. apply not_true_iff_false. rewrite mid_iff. apply Pl in Hx. destruct Hx as (N & W).
    pose proof (within_box _ _ _ _ _ _ _ _ _ _ W ltac:(lia)) as B. destruct (equal_mass p && periodic_x p) eqn:Eper.
    2:{ specialize (Gp eq_refl). rewrite Gp in *. lra. }
    destruct Gs as (Gs & _). rewrite Eper in Gs. destruct Gs as (K & EK & BK). replace (2 * sb_end b / 2) with (sb_end b) in EK by field.
    destruct (node_x _ _ _ _ _ _ _ N) as (a & Ea). cbn [pt] in Ea.
    assert (HK : 0 <= INR K * s2) by (apply Rmult_le_pos; [apply pos_INR | lra]).
    assert (Ha : IZR a < 2 * INR K).
    { apply Rmult_lt_reg_r with (s2 / 2); [lra|]. rewrite EK in Ea, B. rewrite Ea in B. replace (2 * INR K * (s2 / 2)) with (INR K * s2) by field. lra. }
    assert (Ha' : IZR a <= 2 * INR K - 1).
    { rewrite INR_IZR_INZ in *. rewrite <- mult_IZR in *. apply lt_IZR in Ha. rewrite <- minus_IZR. apply IZR_le. lia. }
    assert (x <= - (box_length p / 6) - s2 / 2).
    { rewrite Ea, EK. apply Rmult_le_compat_r with (r := s2 / 2) in Ha'; [|lra]. replace ((2 * INR K - 1) * (s2 / 2)) with (INR K * s2 - s2 / 2) in Ha' by field. lra. }
    assert (box_length p / 1000000 <= s2).
    { apply andb_true_iff in Eper. destruct Eper as (Em & _). pose proof (lr_ge p r1 r2 Hr HL Hn Hd). unfold s2, side. rewrite Em.
      apply Rle_trans with (sod_sep p); [|assumption]. rewrite (sep_n p). pose proof (n3_pos p Hn). pose proof (n_bounds p Hn). specialize (Hper eq_refl).
      assert (IZR (3 * Z.quot (lattice_nx p - 1) 3) <= 1000000) by (apply IZR_le; lia).
      apply Rmult_le_compat_l; [lra|]. apply Rinv_le_contravar; [assumption | lra]. }
    lra. }
  (* masses *)
  assert (Epr : forall x y z, equal_mass p = false -> In (x, y, z) pl -> pr <> []).
  { intros x y z Em Hx Hpr. apply Pl in Hx. destruct Hx as (N & W). assert (Eend : sb_end b = box_length p / 2) by (apply Gp; rewrite Em; reflexivity).
    assert (In (x + 2 * box_length p / 3, y, z) pr); [|rewrite Hpr in *; contradiction]. apply Pr. rewrite Eend in *. split.
    - replace (box_length p / 6) with (- (box_length p / 2) + 2 * box_length p / 3) by field. apply node_shift. exact N.
    - replace (pt (box_length p / 6) (- sb_w b / 2) (- sb_h b / 2)) with (pt (- (box_length p / 2) + 2 * box_length p / 3) (- sb_w b / 2) (- sb_h b / 2)) by (f_equal; field).
      replace (pt (box_length p / 2) (sb_w b / 2) (sb_h b / 2)) with (pt (- (box_length p / 6) + 2 * box_length p / 3) (sb_w b / 2) (sb_h b / 2)) by (f_equal; field).
      apply within_shift. exact W. }
  assert (Hlen : forall T (l : list T), l <> [] -> 0 < IZR (Z.of_nat (length l))) by (intros T [|a l] Hl; [contradiction|]; apply IZR_lt; cbn [length]; lia).
  assert (Hm1 : 0 < sod_mass p r1) by (rewrite (mass_cell1 p r1 Hd Ht); apply Rmult_lt_0_compat; [lra | apply cell_pos; exact Hs]).
  assert (Fm : forall (j : Z) x y z mid (c : Z), in_domain_1d RA x (sod_cmin b 0%nat) (sod_cmax b 0%nat) = mid -> c = (if mid then nc else nr) -> (equal_mass p = false -> 0 < IZR c) ->
    i_vy (f j x y z) = 0 /\ i_P (f j x y z) = (poly_gamma p - 1) * i_rho (f j x y z) * i_u (f j x y z) /\ 0 < i_m (f j x y z) /\ 0 < i_h (f j x y z) /\
    i_rho (f j x y z) * (i_h (f j x y z) / g_etaw p) ^ g_dim p = i_m (f j x y z)).
  { intros j x y z mid c Em Ec' Hc. unfold f, sod_of. fold b. rewrite Em. cbn zeta. cbn [i_vy i_P i_rho i_u i_m i_h].
    set (rho := if mid then r1 else r2). assert (0 < rho) by (unfold rho; destruct mid; lra).
    set (m := if equal_mass p then sod_mass p r1 else rho / IZR (if mid then nc else nr)).
    assert (0 < m) by (unfold m; destruct (equal_mass p); [exact Hm1|]; rewrite <- Ec'; apply Rdiv_lt_0_compat; auto).
    split; [reflexivity|]. split; [field; split; lra|]. split; [assumption|]. split; [apply smoothing_h_pos; exact He|]. apply smoothing_ok; try assumption; lia. }
  split; [exact (n_bounds p Hn)|]. split; [exact (sep_n p)|]. split; [intros Em; unfold s2, side; rewrite Em; reflexivity|]. split; [exact Gs|].
  split; [rewrite ! number_app, ! map_app; reflexivity|].
  split; [rewrite map_map, map_length, number_length, (map_ext _ fst) by (intros (j & [[x y] z]); reflexivity); apply (number_fst _ _ 0)|].
  rewrite <- Gc. replace (2 * sb_end b / 2) with (sb_end b) by field.
  split; [exact (fills_at3 _ _ _ _ _ _ _ f 0 Hs Bc Fp Ec)|]. split; [exact (fills_at3 _ _ _ _ _ _ _ f _ Hs2 Br Fp Er)|]. split; [exact (fills_at3 _ _ _ _ _ _ _ f _ Hs2 Bl Fp El)|].
  split; [apply forall_at3; intros j x y z Hx; unfold f, sod_of; fold b; rewrite (Mc _ _ _ Hx); repeat split|].
  split; [apply Forall_app; split; apply forall_at3; intros j x y z Hx; unfold f, sod_of; fold b; rewrite ?(Mr _ _ _ Hx), ?(Ml _ _ _ Hx); repeat split|].
  split.
  { rewrite ! number_app, ! map_app, ! Forall_app. split; [|split]; apply forall_at3; intros j x y z Hx.
    - apply (Fm j x y z true nc); [apply (Mc _ _ _ Hx) | reflexivity|]. intros _. apply Hlen. intros E0. rewrite E0 in Hx. destruct Hx.
    - apply (Fm j x y z false nr); [apply (Mr _ _ _ Hx) | reflexivity|]. intros _. apply Hlen. intros E0. rewrite E0 in Hx. destruct Hx.
    - apply (Fm j x y z false nr); [apply (Ml _ _ _ Hx) | reflexivity|]. intros Em. apply Hlen. apply (Epr _ _ _ Em Hx). }
  split; intros Em.
  - split; [|split].
    + apply forall_at3. intros j x y z Hx. unfold f, sod_of. fold b. rewrite (Mc _ _ _ Hx), Em. cbn zeta. cbn [i_m i_rho]. apply mass_cell1; assumption.
    + unfold s2, side. rewrite Em. apply Forall_app; split; apply forall_at3; intros j x y z Hx; unfold f, sod_of; fold b; rewrite ?(Mr _ _ _ Hx), ?(Ml _ _ _ Hx), Em; cbn zeta; cbn [i_m i_rho]; apply mass_cell2; assumption.
    + assert (A : Forall (fun q => i_m q = sod_mass p r1) (map (at3 f) (number 0 (pc ++ pr ++ pl)))).
      { apply forall_at3. intros j x y z _. unfold f, sod_of. rewrite Em. reflexivity. }
      rewrite Forall_forall in A. intros q q' Hq Hq'. rewrite (A q Hq), (A q' Hq'). reflexivity.
  - assert (TC : forall pts k c rho, pts <> [] -> c = Z.of_nat (length pts) -> (forall x y z, In (x, y, z) pts -> forall j, i_m (f j x y z) = rho / IZR c) ->
      total i_m (map (at3 f) (number k pts)) = rho).
    { intros pts k c rho Hne -> HF. rewrite (total_const i_m (rho / IZR (Z.of_nat (length pts)))) by (apply forall_at3; intros; apply HF; assumption).
      rewrite map_length, number_length, INR_IZR_INZ. field. pose proof (Hlen _ pts Hne). lra. }
    split; [|split; [|split]]; try intros Hne.
    + apply (TC pc 0%Z nc r1); [intros ->; apply Hne; reflexivity | reflexivity|]. intros x y z Hx j. unfold f, sod_of. fold b. rewrite (Mc _ _ _ Hx), Em. reflexivity.
    + apply (TC pr _ nr r2); [intros ->; apply Hne; reflexivity | reflexivity|]. intros x y z Hx j. unfold f, sod_of. fold b. rewrite (Mr _ _ _ Hx), Em. reflexivity.
    + rewrite map_length, number_length, INR_IZR_INZ. apply forall_at3. intros j x y z Hx. unfold f, sod_of. fold b. rewrite (Mc _ _ _ Hx), Em. reflexivity.
    + rewrite map_length, number_length, INR_IZR_INZ. apply Forall_app; split; apply forall_at3; intros j x y z Hx; unfold f, sod_of; fold b; rewrite ?(Mr _ _ _ Hx), ?(Ml _ _ _ Hx), Em; reflexivity.
Qed.

Definition with_fuel (p : gpar) (f : nat) : gpar :=
  GPar (g_dim p) f (lattice_type p) (domain_type p) (lattice_nx p) (equal_mass p) (box_length p) (box_width p) (box_height p) (sphere_radius p)
    (periodic_x p) (periodic_y p) (periodic_z p) (mismatch p) (g_etaw p) (poly_gamma p) (rho_initial p) (pressure_initial p) (density_ratio p) (flow_velocity p)
    (g_grav p) (rt_amplitude p) (rt_stripe p) (rt_mode p) (KH_A p) (KH_lambda p).
(** The program comes to its end and stays within its arrays *)
Theorem C82_ends : forall p test, (1 <= test <= 6)%Z -> domain_type p = 0%Z -> (1 <= g_dim p <= 3)%nat -> (0 <= lattice_type p <= 2)%Z ->
  0 < box_length p -> (4 <= lattice_nx p)%Z ->
  exists fuel, forall fuel', (fuel <= fuel')%nat -> sodtube (with_fuel p fuel') test <> None.
Proof.
  intros p test Htest Hdt Hd Ht HL Hn.
  assert (exists r1 P1 v1 r2 P2 v2, sod_states test = Some ((r1, P1, v1), (r2, P2, v2))) as (r1 & P1 & v1 & r2 & P2 & v2 & Es).
  { assert (test = 1 \/ test = 2 \/ test = 3 \/ test = 4 \/ test = 5 \/ test = 6)%Z as [->|[->|[->|[->|[->| ->]]]]] by lia; do 6 eexists; reflexivity. }
  destruct (states_ok _ _ _ _ _ _ _ Es) as (Hr & _ & _).
  pose proof (sep_pos p HL Hn) as Hs. pose proof (side_pos p r1 r2 Hr HL Hn Hd) as Hs2.
  set (b := sod_geometry p r1 r2).
  destruct (lattice_ends (g_dim p) (lattice_type p) 0 (sod_cmin b) (sod_cmax b) (sod_sep p) Hd Ht Hs) as (f1 & pc & Ec).
  destruct (lattice_ends (g_dim p) (lattice_type p) 0 (sod_rmin b) (sod_rmax b) (side p r1 r2) Hd Ht Hs2) as (f2 & pr & Er).
  destruct (lattice_ends (g_dim p) (lattice_type p) 0 (sod_lmin b) (sod_lmax b) (side p r1 r2) Hd Ht Hs2) as (f3 & pl & El).
  exists (f1 + f2 + f3)%nat. intros f Hf.
  rewrite (sodtube_eq (with_fuel p f) test r1 P1 v1 r2 P2 v2 Es Hn Hdt pc pr pl); [discriminate| | |].
  - eapply emits_more; [|exact Ec]. cbn [with_fuel g_fuel]. lia.
  - eapply emits_more; [|exact Er]. cbn [with_fuel g_fuel]. lia.
  - eapply emits_more; [|exact El]. cbn [with_fuel g_fuel]. lia.
Qed.

(** ** equal separation in one dimension *)
Lemma row_points : forall ty bmin bmax sep (k : nat) pts, 0 < sep -> INR k < 1000000 -> bmax 0%nat = bmin 0%nat + INR k * sep ->
  NoDup pts -> (forall q, In q pts <-> node 1 ty bmin sep q /\ within 1 0 bmin bmax q) -> length pts = k.
Proof.
  intros ty bmin bmax sep k pts Hs Hk Eb Nd H.
  assert (L : length (map (fun i => (bmin 0%nat + INR i * sep, 0, 0)) (seq 0 k)) = k) by (rewrite map_length, seq_length; reflexivity).
  rewrite <- L at 1. apply Permutation_length, NoDup_Permutation; [exact Nd| |].
  - apply FinFun.Injective_map_NoDup; [|apply seq_NoDup]. intros i j E. rewrite ! pair_equal_spec in E. destruct E as ((E & _) & _).
    apply INR_eq. nra.
  - intros q. rewrite H. rewrite in_map_iff. split.
    + intros ((i & ->) & W & _). exists i. split; [reflexivity|]. apply in_seq. split; [lia|]. cbn [Nat.add].
      specialize (W 0%nat ltac:(lia)). cbn [coord fst snd] in W. rewrite Eb in W. apply INR_lt. apply Rmult_lt_reg_r with sep; [exact Hs|].
      pose proof (pos_INR k). assert (0 <= INR k * sep) by (apply Rmult_le_pos; lra). lra.
    + intros (i & <- & Hi). apply in_seq in Hi. cbn [Nat.add] in Hi. split; [exists i; reflexivity|]. split; [|discriminate].
      intros a Ha. replace a with 0%nat by lia. cbn [coord fst snd]. rewrite Eb.
      replace (bmin 0%nat + INR k * sep - bmin 0%nat) with (INR k * sep) by ring.
      assert (Hi' : (S i <= k)%nat) by lia. apply le_INR in Hi'. rewrite S_INR in Hi'. pose proof (pos_INR i). assert (0 <= INR i * sep) by (apply Rmult_le_pos; lra).
      apply Rmult_le_compat_r with (r := sep) in Hi'; [|lra]. assert (INR k * sep < 1000000 * sep) by (apply Rmult_lt_compat_r; lra).
      split; [|lra]. pose proof (Rmult_lt_0_compat (INR k) sep). lra.
Qed.
(** With equal separation every box has its density as mass.  In one dimension that is the mass of its
    volume if the tube has length 3, the default. *)
Theorem C82_separation_partial : forall p test l r1 P1 v1 r2 P2 v2, sod_states test = Some ((r1, P1, v1), (r2, P2, v2)) ->
  g_dim p = 1%nat -> box_length p = 3 -> 0 <= box_width p -> 0 <= box_height p -> (4 <= lattice_nx p <= 1000000)%Z -> equal_mass p = false -> 0 < g_etaw p -> poly_gamma p <> 1 ->
  sodtube p test = Some l ->
  Forall (fun q => i_m q = i_rho q * (box_length p / IZR (3 * Z.quot (lattice_nx p - 1) 3))) l.
Proof.
  intros p test l r1 P1 v1 r2 P2 v2 Es Hd HL3 Hw Hh Hn Em He Hg H.
  destruct (C82_tube p test l r1 P1 v1 r2 P2 v2 Es ltac:(lra) Hw Hh ltac:(lia) ltac:(intros; lia) He Hg H)
    as (n & len & w & h & s & s2 & lc & lr & ll & Bn & Es1 & Es2 & (Sl & _) & -> & _ & Fc & Fr & Fl & _ & _ & _ & _ & Mm).
  specialize (Es2 Em). subst s2. destruct (Mm Em) as (_ & _ & Mc & Mr). rewrite Em in Sl. cbn [andb] in Sl. subst len.
  assert (En : n = Z.quot (lattice_nx p - 1) 3) by (pose proof (n_bounds p ltac:(lia)); lia). rewrite <- En. rewrite <- Es1.
  rewrite Hd, HL3 in *. assert (Hn0 : (1 <= n)%Z) by lia.
  assert (Hk : INR (Z.to_nat n) = IZR n) by (rewrite INR_IZR_INZ, Z2Nat.id by lia; reflexivity).
  assert (P : 0 < IZR n) by (apply IZR_lt; lia). assert (IZR n < 1000000) by (apply IZR_lt; lia).
  assert (Es1' : IZR n * s = 1) by (rewrite Es1, mult_IZR; field; lra). assert (Hs : 0 < s) by nra.
  assert (Lc : length lc = Z.to_nat n).
  { destruct Fc as (Fc & Nc). rewrite <- (map_length ipos). apply (row_points (lattice_type p) _ _ s) with (5 := Fc); [exact Hs | lra | | apply Nc; left; lia].
    cbn [pt]. rewrite Hk. lra. }
  assert (Lr : length lr = Z.to_nat n).
  { destruct Fr as (Fr & Nr). rewrite <- (map_length ipos). apply (row_points (lattice_type p) _ _ s) with (5 := Fr); [exact Hs | lra | | apply Nr; left; lia].
    cbn [pt]. rewrite Hk. lra. }
  rewrite Lc, Lr, Hk in *. replace (lc ++ lr ++ ll) with (lc ++ (lr ++ ll)) by reflexivity. assert (E : s = / IZR n) by (apply Rmult_eq_reg_l with (IZR n); [rewrite Es1'; field; lra | lra]).
  rewrite E. apply Forall_app; split; assumption.
Qed.
(** Otherwise it is not: a tube of length 6 with three cells of length 2 *)
Definition long_tube : gpar := GPar 1 9 0 0 4 false 6 1 1 1 false false false (5 / 100) 1 (5 / 3) 1 1 1 0 0 0 1 1 0 1.
Theorem C82_separation_refuted : exists p test l, sodtube p test = Some l /\ l <> [] /\
  Forall (fun q => i_m q <> i_rho q * cell (g_dim p) (lattice_type p) (box_length p / IZR (3 * Z.quot (lattice_nx p - 1) 3))) l.
Proof.
  destruct (C82_ends long_tube 1 ltac:(lia) eq_refl ltac:(cbn; lia) ltac:(cbn; lia) ltac:(cbn; lra) ltac:(cbn; lia)) as (f & Hf).
  specialize (Hf f ltac:(lia)). destruct (sodtube (with_fuel long_tube f) 1) as [l|] eqn:E; [|congruence]. exists (with_fuel long_tube f), 1%Z, l. split; [exact E|].
  destruct (C82_tube (with_fuel long_tube f) 1 l 1 1 0 (125 / 1000) (1 / 10) 0 eq_refl ltac:(cbn; lra) ltac:(cbn; lra) ltac:(cbn; lra) ltac:(cbn; lia) ltac:(cbn; lia) ltac:(cbn; lra) ltac:(cbn; lra) E)
    as (n & len & w & h & s & s2 & lc & lr & ll & Bn & Es1 & Es2 & (Sl & _) & -> & _ & Fc & Fr & Fl & Rc & Rs & _ & _ & Mm).
  specialize (Es2 eq_refl). subst s2. destruct (Mm eq_refl) as (_ & _ & Mc & Mr). cbn in Sl. subst len. cbn in Bn. assert (n = 1)%Z by lia. subst n.
  cbn [with_fuel long_tube g_dim lattice_type box_length lattice_nx] in *. cbn [cell]. change (3 * Z.quot (4 - 1) 3)%Z with 3%Z. change (3 * 1)%Z with 3%Z in Es1.
  assert (s = 2) by (rewrite Es1; field). clear Es1. subst s.
  assert (Lc : length lc = 1%nat).
  { destruct Fc as (Fc & Nc). rewrite <- (map_length ipos). apply (row_points 0 _ _ 2) with (5 := Fc); [lra | cbn; lra | cbn; lra | apply Nc; left; lia]. }
  assert (Lr : length lr = 1%nat).
  { destruct Fr as (Fr & Nr). rewrite <- (map_length ipos). apply (row_points 0 _ _ 2) with (5 := Fr); [lra | cbn; lra | cbn; lra | apply Nr; left; lia]. }
  rewrite Lc in Mc. rewrite Lr in Mr. cbn [INR] in Mc, Mr. split; [destruct lc; [discriminate|]; discriminate|].
  apply Forall_app; split; rewrite Forall_forall in *.
  - intros q Hq. rewrite (Mc q Hq). destruct (Rc q Hq) as (-> & _). lra.
  - intros q Hq. rewrite (Mr q Hq). destruct (Rs q Hq) as (-> & _). lra.
Qed.

(** A tube with equal masses, periodic along x, in three dimensions, that the theorems speak about *)
Definition tube3 (ty : Z) (f : nat) : gpar := GPar 3 f ty 0 10 true 3 1 1 1 true false false (5 / 100) 1 (5 / 3) 1 1 1 0 0 0 1 1 0 1.
Example tube3_runs : forall ty, (0 <= ty <= 2)%Z -> exists f l, sodtube (tube3 ty f) 1 = Some l /\
  exists q, In q l /\ ipos q = (- (1 / 2), - (1 / 2), - (1 / 2)) /\ i_rho q = 1 /\ i_m q = cell 3 ty (1 / 3).
Proof.
  intros ty Hty. destruct (C82_ends (tube3 ty 0) 1 ltac:(lia) eq_refl ltac:(cbn; lia) Hty ltac:(cbn; lra) ltac:(cbn; lia)) as (f & Hf).
  specialize (Hf f ltac:(lia)). change (with_fuel (tube3 ty 0) f) with (tube3 ty f) in Hf. exists f.
  destruct (sodtube (tube3 ty f) 1) as [l|] eqn:E; [|congruence]. exists l. split; [reflexivity|].
  destruct (C82_tube (tube3 ty f) 1 l 1 1 0 (125 / 1000) (1 / 10) 0 eq_refl ltac:(cbn; lra) ltac:(cbn; lra) ltac:(cbn; lra) ltac:(cbn; lia) ltac:(cbn; lia) ltac:(cbn; lra) ltac:(cbn; lra) E)
    as (n & len & w & h & s & s2 & lc & lr & ll & Bn & Es1 & _ & (_ & Sw & Sh) & -> & _ & Fc & _ & _ & Rc & _ & _ & Mm & _).
  cbn in Bn. assert (n = 3)%Z by lia. subst n. cbn [tube3 box_length g_dim lattice_type] in *. assert (s = 1 / 3) by (rewrite Es1; change (3 * 3)%Z with 9%Z; field). clear Es1. subst s.
  assert (w = 1) by (destruct Sw as [Sw|(_ & Sw & _)]; [exact Sw | discriminate]). assert (h = 1) by (destruct Sh as [Sh|(_ & Sh & _)]; [exact Sh | discriminate]). subst w h.
  destruct Fc as (Fc & _). destruct (Fc (- (1 / 2), - (1 / 2), - (1 / 2))) as (_ & Fi).
  assert (I : In (- (1 / 2), - (1 / 2), - (1 / 2)) (map ipos lc)).
  { apply Fi. split.
    - exists 0%nat, 0%nat, 0%nat. destruct (Z.eqb_spec ty 0); [|exists 0%nat; split; [assert (ty = 1 \/ ty = 2)%Z as [T|T] by lia; [left|right]; (split; [exact T | reflexivity])|]]; cbn [pt INR Nat.modulo]; rewrite ! pair_equal_spec; repeat split; cbn; field.
    - split; [|discriminate]. intros a Ha. destruct a as [|[|[|a]]]; [| | |lia]; cbn [coord fst snd pt]; lra. }
  apply in_map_iff in I. destruct I as (q & Eq & Iq). exists q. destruct (Mm eq_refl) as (Mc & _). rewrite Forall_forall in Rc, Mc.
  split; [apply in_or_app; left; exact Iq|]. split; [exact Eq|]. destruct (Rc q Iq) as (Er & _). split; [exact Er|]. rewrite (Mc q Iq), Er. ring.
Qed.

Print Assumptions C82_tube.
Print Assumptions C82_ends.
Print Assumptions C82_separation_partial.
Print Assumptions C82_separation_refuted.
