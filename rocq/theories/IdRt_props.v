(** C86: the initial data of the Rayleigh-Taylor instability *)
From Coq Require Import Reals Lra Lia.
From Verif Require Import Base BuildTree_model Range_model Range_props Lattice_model Lattice_props LatticeBox_props IdGen_model IdGen_lemmas IdSod_props IdGas_props IdFlow_model IdFlow_lemmas IdKh_props.
Local Open Scope R_scope.

(** ** Statement *)
(** In hydrostatic equilibrium: the pressure is a continuous function of the height with the value [P0] at [top], and decreases with the weight of the fluid *)
Definition hydrostatic (g P0 top : R) (rho : R -> R) (l : list idp) : Prop :=
  exists f : R -> R, Forall (fun q => i_P q = f (i_y q)) l /\ f top = P0 /\ continuity f /\ forall y, y <> 0 -> derivable_pt_lim f y (- (g * rho y)).
(** The velocity of the perturbation, downwards and only in a stripe around the boundary *)
Definition pushed (p : gpar) (len : R) (q : idp) : Prop :=
  i_vx q = 0 /\
  (Rabs (i_y q) < rt_stripe p / 2 -> i_vy q = - (rt_amplitude p * (1 + cos (2 * PI * i_x q / len * rt_mode p)) *
     (if (g_dim p =? 2)%nat then 1 else 1 + cos (2 * PI * i_z q / len * rt_mode p)) * cos (PI * i_y q / rt_stripe p))) /\
  (rt_stripe p / 2 <= Rabs (i_y q) -> i_vy q = 0) /\
  (0 <= rt_amplitude p -> - ((if (g_dim p =? 2)%nat then 2 else 4) * rt_amplitude p) <= i_vy q <= 0).
(** State of the gas: density, energy, mass of the cell of the lattice, and smoothing length *)
Definition fluid_at (p : gpar) (rho sep : R) (q : idp) : Prop :=
  i_rho q = rho /\ i_P q = (poly_gamma p - 1) * i_rho q * i_u q /\ i_m q = rho * cell (g_dim p) (lattice_type p) sep /\
  i_rho q * (i_h q / g_etaw p) ^ g_dim p = i_m q /\ 0 < i_h q.

(** ** Proofs *)
Lemma rt_fit_some : forall tries i d1 d2 tol w, 0 < d1 -> (0 <= i)%Z -> rt_fit tries i d1 d2 tol = Some w ->
  fits tol w d1 d2 /\ exists j : Z, (i <= j < i + Z.of_nat tries)%Z /\ w <= IZR j * d1.
Proof.
  induction tries as [|k IH]; intros i d1 d2 tol w Hd Hi H; [discriminate|]. cbn [rt_fit] in H. destruct (Rlt_b _ _) eqn:E.
  - apply Rlt_b_true in E. set (w2 := floorR (IZR i * d1 / d2 + b_tol RA) * d2) in *. assert (Ew : w = Rmin w2 (IZR i * d1)) by congruence. split.
    + exists i, (Int_part (IZR i * d1 / d2 + b_tol RA)). fold (floorR (IZR i * d1 / d2 + b_tol RA)). fold w2. rewrite Ew.
      split; [unfold Rmin; destruct (Rle_dec _ _); [right | left]; reflexivity|]. split; [apply Rmin_r|]. split; [apply Rmin_l | exact E].
    + exists i. split; [lia|]. rewrite Ew. apply Rmin_r.
  - destruct (IH (i + 1)%Z d1 d2 tol w Hd ltac:(lia) H) as (F & j & Hj & B). split; [exact F|]. exists j. split; [lia | exact B].
Qed.
Lemma rt_fit_nonneg : forall tries i d1 d2 tol w, 0 < d1 -> 0 < d2 -> (0 <= i)%Z -> rt_fit tries i d1 d2 tol = Some w -> 0 <= w.
Proof.
  induction tries as [|k IH]; intros i d1 d2 tol w H1 H2 Hi H; [discriminate|]. cbn [rt_fit] in H. destruct (Rlt_b _ _).
  - assert (Ew : w = Rmin (floorR (IZR i * d1 / d2 + b_tol RA) * d2) (IZR i * d1)) by congruence. apply IZR_le in Hi. rewrite Ew.
    assert (B : 0 <= IZR i * d1 / d2) by (apply div_nonneg; [apply Rmult_le_pos; lra | exact H2]).
    assert (T : 0 <= b_tol RA) by (cbn; lra). destruct (floor_nat (IZR i * d1 / d2 + b_tol RA) ltac:(lra)) as (K & -> & _). pose proof (pos_INR K).
    apply Rmin_glb; apply Rmult_le_pos; lra.
  - apply (IH (i + 1)%Z d1 d2 tol w); try assumption. lia.
Qed.
Lemma rt_adjust_ok : forall w ext d1 d2 tol, 0 < d1 -> 0 < d2 -> 0 <= w -> let w' := rt_adjust w ext d1 d2 tol in
  0 <= w' /\ (w' = w \/ fits tol w' d1 d2 /\ w' <= 100 * ext).
Proof.
  intros w ext d1 d2 tol H1 H2 Hw w'. unfold w', rt_adjust. clear w'. destruct (rt_fit _ _ _ _ _) as [w'|] eqn:E; [|split; [exact Hw | left; reflexivity]].
  set (N := (Int_part (ext / d1) - 1)%Z) in *. destruct (base_Int_part (ext / d1)) as (B1 & B2).
  assert (HN : (0 <= N)%Z) by (destruct (Z_lt_le_dec N 0) as [X|X]; [replace (Z.to_nat (99 * N)) with 0%nat in E by lia; discriminate | exact X]).
  split; [apply (rt_fit_nonneg _ _ _ _ _ _ H1 H2 HN E)|]. right. destruct (rt_fit_some _ _ _ _ _ _ H1 HN E) as (F & j & Hj & B). split; [exact F|].
  assert (A : (j <= 100 * N)%Z) by (rewrite Z2Nat.id in Hj; lia). apply IZR_le in A. rewrite mult_IZR in A. unfold N in A. rewrite minus_IZR in A.
  assert (IZR (Int_part (ext / d1)) * d1 <= ext) by (apply Rle_trans with (ext / d1 * d1); [apply Rmult_le_compat_r; lra | right; field; lra]). nra.
Qed.

Lemma other_sep_low : forall dim s r, (2 <= dim <= 3)%nat -> 0 < s -> 0 < r <= 1 -> s * r <= other_sep dim s r <= s.
Proof.
  intros dim s r Hd Hs Hr. unfold other_sep. destruct dim as [|[|[|[|d]]]]; try lia.
  - pose proof (sqrt_sqrt r ltac:(lra)). pose proof (sqrt_lt_R0 r ltac:(lra)). assert (sqrt r <= 1) by nra. assert (r <= sqrt r) by nra. nra.
  - pose proof (cbrt_cube r ltac:(lra)). pose proof (Rpower_pos r (1 / 3)) as P. fold (cbrt r) in P.
    assert (cbrt r <= 1) by (destruct (Rle_lt_dec (cbrt r) 1) as [X|X]; [exact X|]; assert (1 < cbrt r * cbrt r) by nra; nra).
    assert (cbrt r * cbrt r <= 1) by nra. assert (r <= cbrt r) by nra. nra.
Qed.
Section Rt.
Context (p : gpar).
Notation dim := (g_dim p).
Notation ty := (lattice_type p).
Notation s := (rt_sep p).
Notation st := (rt_sep_t p).
Notation len := (rt_length p).
Notation hgt := (rt_height p).
Notation latt := (lattice dim (g_fuel p) ty (domain_type p)).
Definition rt_as (k : Z) (x y z : R) : idp :=
  let m := block_mass dim ty (rho_initial p) s in
  let bottom := in_domain_1d RA y (rt_bmin p 1%nat) (rt_bmax p 1%nat) in
  let rho := if bottom then rho_initial p else rt_rho2 p in
  let P := if bottom then 25 / 10 + g_grav p * (rt_rho2 p * (rt_tmax p 1%nat - rt_tmin p 1%nat) - rho_initial p * y)
           else 25 / 10 + g_grav p * rt_rho2 p * (rt_tmax p 1%nat - y) in
  IdP k x y z 0 (rt_vy p x y z) (smoothing p m rho) rho (P / ((poly_gamma p - 1) * rho)) P m.
Lemma rt_eq : forall pb ptt, Emits (latt (rt_bmin p) (rt_bmax p) s) pb -> Emits (latt (rt_tmin p) (rt_tmax p) st) ptt -> (lattice_nx p - 1 =? 0)%Z = false ->
  rt p = Some (map (at3 rt_as) (number 0 (pb ++ ptt))).
Proof.
  intros pb ptt Eb Et H0. unfold rt. rewrite H0. cbn zeta. rewrite (count_emits _ _ _ _ _ _ _ _ _ Eb), (count_emits _ _ _ _ _ _ _ _ _ Et).
  assert (En : (Z.of_nat (length pb) + Z.of_nat (length ptt) = Z.of_nat (length (pb ++ ptt)))%Z) by (rewrite ! app_length; lia).
  rewrite (generate_emits _ _ _ _ _ _ _ _ _ _ _ Eb) by (cbn [l_pid zeros]; lia).
  rewrite (generate_emits _ _ _ _ _ _ _ _ _ _ _ Et) by (rewrite ? emit_pid; cbn [l_pid zeros]; lia).
  rewrite En, <- ! emit_app, ! Z.eqb_refl. cbn [negb andb]. apply (write_emit (pb ++ ptt) rt_as). lia.
Qed.
Lemma rt_inv : forall l, rt p = Some l -> (lattice_nx p - 1 =? 0)%Z = false /\ exists pb ptt, Emits (latt (rt_bmin p) (rt_bmax p) s) pb /\ Emits (latt (rt_tmin p) (rt_tmax p) st) ptt /\
  l = map (at3 rt_as) (number 0 (pb ++ ptt)).
Proof.
  intros l H. pose proof H as H'. unfold rt in H. destruct (lattice_nx p - 1 =? 0)%Z eqn:H0; [discriminate|]. split; [reflexivity|]. cbn zeta in H.
  destruct (count _ _ _ _ (rt_bmin p) _ _ _) as [nb|] eqn:Eb in H; [|discriminate]. destruct (count _ _ _ _ (rt_tmin p) _ _ _) as [nt|] eqn:Et in H; [|discriminate]. clear H.
  destruct (count_inv _ _ _ _ _ _ _ _ _ Eb) as (pb & Epb & _). destruct (count_inv _ _ _ _ _ _ _ _ _ Et) as (ptt & Ept & _).
  exists pb, ptt. split; [exact Epb|]. split; [exact Ept|]. rewrite (rt_eq pb ptt Epb Ept H0) in H'. congruence.
Qed.
Context (Hd : (2 <= dim <= 3)%nat) (Hdt : domain_type p = 0%Z).
Context (HL : 0 < box_length p) (HW : 0 < box_width p) (HH : 0 < box_height p) (Hn : (2 <= lattice_nx p)%Z) (Hr : 1 <= density_ratio p) (Hnr : IZR (lattice_nx p) * density_ratio p <= 2000).
Context (Hw : box_width p * IZR (lattice_nx p - 1) <= 200000 * box_length p) (Hrho : 0 < rho_initial p).
Lemma rt_s : s * IZR (lattice_nx p - 1) = box_length p.
Proof. assert (1 <= IZR (lattice_nx p - 1)) by (apply IZR_le; lia). unfold rt_sep. field. lra. Qed.
Lemma rt_s_pos : 0 < s.
Proof. assert (1 <= IZR (lattice_nx p - 1)) by (apply IZR_le; lia). unfold rt_sep. apply Rdiv_lt_0_compat; lra. Qed.
Lemma rt_inverse : rho_initial p / rt_rho2 p = / density_ratio p.
Proof. unfold rt_rho2. field. split; lra. Qed.
Lemma rt_st : 0 < st <= s /\ s <= st * density_ratio p.
Proof.
  pose proof rt_s_pos as Hs. unfold rt_sep_t. rewrite rt_inverse. assert (0 < / density_ratio p) by (apply Rinv_0_lt_compat; lra).
  assert (/ density_ratio p <= 1) by (rewrite <- Rinv_1; apply Rinv_le_contravar; lra).
  destruct (other_sep_low dim s (/ density_ratio p) Hd Hs ltac:(lra)) as (A & B). split; [split; [nra | exact B]|].
  assert (E : s = s * / density_ratio p * density_ratio p) by (field; lra). rewrite E at 1. apply Rmult_le_compat_r; lra.
Qed.
Lemma rt_len_ok : 0 <= len <= 200000 * st /\ (len = box_length p \/ periodic_x p = true /\ fits (mismatch p) len s st).
Proof.
  pose proof rt_s_pos as Hs. destruct rt_st as (Hst & Hst'). pose proof rt_s as Es. rewrite minus_IZR in Es.
  assert (2 <= IZR (lattice_nx p)) by (apply IZR_le; lia).
  assert (B : 100 * box_length p <= 200000 * st).
  { assert (box_length p <= st * (density_ratio p * IZR (lattice_nx p))) by nra. nra. }
  unfold rt_length. destruct (periodic_x p); [|split; [lra | left; reflexivity]].
  destruct (rt_adjust_ok (box_length p) (box_length p) s st (mismatch p) Hs (proj1 Hst) ltac:(lra)) as (A1 & [-> |(A2 & A3)]); [split; [lra | left; reflexivity]|].
  split; [lra|]. right. split; [reflexivity | exact A2].
Qed.
Lemma rt_hgt_ok : 0 <= hgt /\ (hgt = box_height p \/ dim = 3%nat /\ periodic_z p = true /\ fits (mismatch p) hgt (per_z ty * s) (per_z ty * st)).
Proof.
  pose proof rt_s_pos as Hs. destruct rt_st as (Hst & Hst'). unfold rt_height. destruct ((3 <=? dim)%nat && periodic_z p) eqn:E; [|split; [lra | left; reflexivity]].
  apply andb_true_iff in E. destruct E as (E3 & Ez). apply Nat.leb_le in E3. pose proof (per_z_bounds ty).
  destruct (rt_adjust_ok (box_height p) len (per_z ty * s) (per_z ty * st) (mismatch p) ltac:(nra) ltac:(nra) ltac:(lra)) as (A1 & [-> |(A2 & A3)]); [split; [lra | left; reflexivity]|].
  split; [lra|]. right. split; [lia|]. split; [exact Ez | exact A2].
Qed.
Lemma rt_ymin_ok : exists K : nat, rt_ymin p = - (INR K * (per_y ty * s)) /\ INR K * (per_y ty * s) <= box_width p / 2 < INR K * (per_y ty * s) + per_y ty * s.
Proof.
  pose proof rt_s_pos as Hs. pose proof (per_y_bounds ty). assert (D : 0 < per_y ty * s) by nra.
  destruct (multiple (box_width p / 2) (per_y ty * s) ltac:(lra) D) as (K & E & B). exists K. split; [|exact B]. unfold rt_ymin. unfold floorR in E. rewrite E. field.
Qed.
Context (Ht : (0 <= ty <= 2)%Z) (He : 0 < g_etaw p) (Hg : poly_gamma p <> 1).
Context (pb ptt : list (R * R * R)).
Context (Eb : Emits (lattice dim (g_fuel p) ty 0 (rt_bmin p) (rt_bmax p) s) pb) (Et : Emits (lattice dim (g_fuel p) ty 0 (rt_tmin p) (rt_tmax p) st) ptt).
Lemma rt_boxes : (forall a, rt_bmin p a <= rt_bmax p a) /\ (forall a, rt_tmin p a <= rt_tmax p a).
Proof.
  destruct rt_len_ok as (A & _). destruct rt_hgt_ok as (B & _). destruct rt_ymin_ok as (K & C1 & C2). pose proof rt_s_pos. pose proof (per_y_bounds ty). pose proof (pos_INR K).
  assert (0 <= INR K * (per_y ty * s)) by (apply Rmult_le_pos; nra). unfold rt_bmin, rt_bmax, rt_tmin, rt_tmax. split; apply pt_le; lra.
Qed.
Lemma rt_bottom : forall x y z, In (x, y, z) pb -> rt_ymin p <= y < 0 /\ in_domain_1d RA y (rt_bmin p 1%nat) (rt_bmax p 1%nat) = true.
Proof.
  intros x y z Hq. pose proof rt_s_pos as Hs. destruct rt_st as (Hst & _). destruct rt_boxes as (B & _). destruct (lattice_points _ _ _ _ _ _ _ _ Hs B ltac:(reflexivity) Eb) as (_ & _ & P).
  apply P in Hq. destruct Hq as (Nq & Wq). destruct rt_len_ok as (A & _).
  destruct (box_nodes _ _ _ _ _ _ _ _ Hd Ht Hs ltac:(split; [apply B | unfold rt_bmax, rt_bmin; cbn [pt]; lra]) Nq Wq) as (_ & (a & Ha & Y & Y') & _).
  unfold rt_bmin, rt_bmax in Y, Y' |- *. cbn [pt] in Y, Y' |- *. pose proof (row_y_pos ty) as Ry. set (d := row_y ty * s / 3) in *. assert (Hdd : 0 < d) by (unfold d; nra).
  assert (0 <= IZR a * d) by (apply Rmult_le_pos; [apply IZR_le; exact Ha | lra]). split; [lra|].
  destruct rt_ymin_ok as (K & EK & BK). assert (exists c : Z, forall x, per_y ty * x = IZR c * (row_y ty * x / 3)) as (c & Ec) by (unfold per_y; destruct (close_packed ty); [exists 6%Z | exists 3%Z]; intros; field). rewrite Ec in EK. fold d in EK.
  assert (C : (a - Z.of_nat K * c <= -1)%Z).
  { enough (a - Z.of_nat K * c < 0)%Z by lia. apply lt_IZR. rewrite minus_IZR, mult_IZR, <- INR_IZR_INZ. apply Rmult_lt_reg_r with d; [exact Hdd|]. rewrite Rmult_0_l. nra. }
  apply IZR_le in C. rewrite minus_IZR, mult_IZR, <- INR_IZR_INZ in C. assert (y <= - d) by nra.
  assert (T : 0 <= - rt_ymin p <= 100000 * s).
  { pose proof rt_s as Es. assert (1 <= IZR (lattice_nx p - 1)) by (apply IZR_le; lia). rewrite Ec in BK. fold d in BK. split; [lra|]. rewrite EK.
    assert (box_width p / 2 <= 100000 * s) by (apply Rmult_le_reg_r with (IZR (lattice_nx p - 1)); lra). lra. }
  unfold in_domain_1d, b_tol. cbn [a_add a_sub a_mul a_div a_lt a_ofz RA]. rewrite andb_true_iff, ! Rlt_b_true. assert (86 / 300 * s <= d) by (unfold d; nra).
  assert (0 < - rt_ymin p) by lra. split; lra.
Qed.
Lemma rt_top : forall x y z, In (x, y, z) ptt -> 0 <= y < box_width p / 2 /\ in_domain_1d RA y (rt_bmin p 1%nat) (rt_bmax p 1%nat) = false.
Proof.
  intros x y z Hq. pose proof rt_s_pos as Hs. destruct rt_st as (Hst & _). destruct rt_boxes as (B' & B). destruct (lattice_points _ _ _ _ _ _ _ _ (proj1 Hst) B ltac:(reflexivity) Et) as (_ & _ & P).
  apply P in Hq. destruct Hq as (Nq & Wq). destruct rt_len_ok as (A & _).
  destruct (box_nodes _ _ _ _ _ _ _ _ Hd Ht (proj1 Hst) ltac:(split; [apply B | unfold rt_tmax, rt_tmin; cbn [pt]; lra]) Nq Wq) as (_ & (a & Ha & Y & Y') & _).
  unfold rt_tmin, rt_tmax in Y, Y'. cbn [pt] in Y, Y'. pose proof (row_y_pos ty) as Ry.
  assert (0 <= IZR a * (row_y ty * st / 3)) by (apply Rmult_le_pos; [apply IZR_le; exact Ha | nra]). split; [lra|]. pose proof (B' 1%nat) as B1.
  unfold in_domain_1d, b_tol. cbn [a_add a_sub a_mul a_div a_lt a_ofz RA]. apply andb_false_iff. right. destruct (Rlt_b y _) eqn:X; [|reflexivity]. apply Rlt_b_true in X. exfalso.
  unfold rt_bmax in *. cbn [pt] in *. lra.
Qed.
Lemma rt_mass : block_mass dim ty (rho_initial p) s = rho_initial p * cell dim ty s /\ rho_initial p * cell dim ty s = rt_rho2 p * cell dim ty st.
Proof.
  split; [apply block_mass_cell; assumption|]. unfold rt_sep_t. rewrite other_sep_cell; [|exact Hd|]. 
  - unfold rt_rho2. field. lra.
  - rewrite rt_inverse. apply Rinv_0_lt_compat. lra.
Qed.
Lemma rt_vy_ok : forall k x y z, pushed p len (rt_as k x y z).
Proof.
  intros k x y z. unfold pushed, rt_as. cbn [i_vx i_vy i_x i_y i_z]. split; [reflexivity|].
  assert (C : forall t, 0 <= 1 + cos t <= 2) by (intros t; pose proof (COS_bound t); lra).
  unfold rt_vy. destruct (Rlt_b (Rabs y) (5 / 10 * rt_stripe p)) eqn:X.
  - apply Rlt_b_true in X. assert (Hst : 0 < rt_stripe p) by (pose proof (Rabs_pos y); lra).
    set (c1 := cos (2 * PI * x / len * rt_mode p)). set (c2 := cos (2 * PI * z / len * rt_mode p)). set (c3 := cos (PI * y / rt_stripe p)).
    assert (H3 : 0 <= c3 <= 1).
    { split; [|apply COS_bound]. apply cos_ge_0.
      - pose proof PI_RGT_0. apply Rle_trans with (PI * (- (1 / 2))); [lra|]. replace (PI * y / rt_stripe p) with (PI * (y / rt_stripe p)) by (unfold Rdiv; ring). apply Rmult_le_compat_l; [lra|].
        apply Rmult_le_reg_r with (rt_stripe p); [exact Hst|]. replace (y / rt_stripe p * rt_stripe p) with y by (field; lra). unfold Rabs in X. destruct (Rcase_abs y); lra.
      - pose proof PI_RGT_0. apply Rle_trans with (PI * (1 / 2)); [|lra]. replace (PI * y / rt_stripe p) with (PI * (y / rt_stripe p)) by (unfold Rdiv; ring). apply Rmult_le_compat_l; [lra|].
        apply Rmult_le_reg_r with (rt_stripe p); [exact Hst|]. replace (y / rt_stripe p * rt_stripe p) with y by (field; lra). unfold Rabs in X. destruct (Rcase_abs y); lra. }
    pose proof (C (2 * PI * x / len * rt_mode p)) as H1. fold c1 in H1. pose proof (C (2 * PI * z / len * rt_mode p)) as H2. fold c2 in H2.
    assert (M2 : 0 <= (1 + c1) * c3 <= 2) by (split; [apply Rmult_le_pos; lra | nra]).
    assert (M3 : 0 <= (1 + c1) * (1 + c2) * c3 <= 4). { assert (0 <= (1 + c1) * (1 + c2) <= 4) by (split; [apply Rmult_le_pos; lra | nra]). split; [apply Rmult_le_pos; lra | nra]. }
    assert (dim = 2 \/ dim = 3)%nat as [D|D] by lia; rewrite D; cbn [Nat.eqb]; (split; [intros _; ring|]); (split; [lra|]); intros Ha.
    + replace (- rt_amplitude p * (1 + c1) * c3) with (- (rt_amplitude p * ((1 + c1) * c3))) by ring. nra.
    + replace (- rt_amplitude p * (1 + c1) * (1 + c2) * c3) with (- (rt_amplitude p * ((1 + c1) * (1 + c2) * c3))) by ring. nra.
  - assert (X' : 5 / 10 * rt_stripe p <= Rabs y) by (destruct (Rle_lt_dec (5 / 10 * rt_stripe p) (Rabs y)) as [Y|Y]; [exact Y|]; apply Rlt_b_true in Y; congruence).
    split; [lra|]. split; [reflexivity|]. intros Ha. destruct (dim =? 2)%nat; lra.
Qed.
End Rt.
Lemma two_fluids : forall g P0 top r1 r2 l, 0 <= top -> Forall (fun q => i_P q = if Rlt_dec (i_y q) 0 then P0 + g * (r2 * top - r1 * i_y q) else P0 + g * r2 * (top - i_y q)) l ->
  hydrostatic g P0 top (fun y => if Rlt_dec y 0 then r1 else r2) l.
Proof.
  intros g P0 top r1 r2 l Ht H. exists (fun y => P0 + g * r2 * top - g * (r1 * ((y - Rabs y) / 2) + r2 * ((y + Rabs y) / 2))). split; [|split; [|split]].
  - eapply Forall_impl; [|exact H]. intros q ->. cbv beta. destruct (Rlt_dec (i_y q) 0); [rewrite Rabs_left by lra | rewrite Rabs_right by lra]; field.
  - rewrite Rabs_right by lra. field.
  - reg.
  - intros y Hy eps Heps. exists (mkposreal (Rabs y) (Rabs_pos_lt y Hy)). intros h Hh Hb. cbn [pos] in Hb.
    match goal with |- Rabs (?a - ?b) < _ => assert (E : a = b) end.
    { destruct (Rlt_dec y 0) as [N|N].
      - rewrite (Rabs_left y) in Hb by exact N. assert (y + h < 0) by (unfold Rabs in Hb; destruct (Rcase_abs h); lra). rewrite ! Rabs_left by lra. field. exact Hh.
      - rewrite (Rabs_right y) in Hb by lra. assert (0 < y + h) by (unfold Rabs in Hb; destruct (Rcase_abs h); lra). rewrite ! Rabs_right by lra. field. exact Hh. }
    rewrite E, Rminus_diag_eq, Rabs_R0 by reflexivity. exact Heps.
Qed.

(** ** C86 *)
Theorem C86_columns : forall p l, (2 <= g_dim p <= 3)%nat -> domain_type p = 0%Z -> 0 < box_length p -> 0 < box_width p -> 0 < box_height p -> (2 <= lattice_nx p)%Z ->
  1 <= density_ratio p -> IZR (lattice_nx p) * density_ratio p <= 2000 -> box_width p * IZR (lattice_nx p - 1) <= 200000 * box_length p ->
  0 < rho_initial p -> 0 < g_etaw p -> poly_gamma p <> 1 -> rt p = Some l ->
  let dim := g_dim p in let ty := lattice_type p in let W := box_width p in let r1 := rho_initial p in let r2 := rho_initial p * density_ratio p in
  map i_id l = map Z.of_nat (seq 0 (length l)) /\
  exists s t len hgt (K : nat) lb lt, l = lb ++ lt /\
    s * IZR (lattice_nx p - 1) = box_length p /\ 0 < t /\ density_ratio p * cell dim ty t = cell dim ty s /\
    (len = box_length p \/ periodic_x p = true /\ fits (mismatch p) len s t) /\
    (hgt = box_height p \/ dim = 3%nat /\ periodic_z p = true /\ fits (mismatch p) hgt (z_period ty s) (z_period ty t)) /\
    INR K * y_period ty s <= W / 2 < (INR K + 1) * y_period ty s /\
    fills dim ty s (pt (- len / 2) (- (INR K * y_period ty s)) (- hgt / 2)) (pt (len / 2) 0 (hgt / 2)) lb /\
    fills dim ty t (pt (- len / 2) 0 (- hgt / 2)) (pt (len / 2) (W / 2) (hgt / 2)) lt /\
    Forall (fun q => i_y q < 0 /\ fluid_at p r1 s q) lb /\ Forall (fun q => 0 <= i_y q < W / 2 /\ fluid_at p r2 t q) lt /\
    Forall (pushed p len) l /\ (forall q q', In q l -> In q' l -> i_m q = i_m q') /\
    hydrostatic (g_grav p) (5 / 2) (W / 2) (fun y => if Rlt_dec y 0 then r1 else r2) l.
Proof.
  intros p l Hd Hdt HL HW HH Hn Hr Hnr Hw Hrho He Hg E. cbn zeta. destruct (rt_inv p l E) as (_ & pb & ptt & Eb & Et & El). rewrite Hdt in Eb, Et.
  assert (Ht : (0 <= lattice_type p <= 2)%Z).
  { specialize (Eb true (zeros 0)). unfold lattice in Eb. destruct ((0 <=? lattice_type p) && (lattice_type p <=? 2))%Z eqn:X; [|discriminate]. apply andb_true_iff in X. rewrite ! Z.leb_le in X. exact X. }
  split; [rewrite El, map_map, map_length, number_length, (map_ext _ fst) by (intros (j & [[x y] z]); reflexivity); apply (number_fst _ _ 0)|].
  assert (Hs : 0 < rt_sep p) by (eapply rt_s_pos; eassumption). assert (Hst : 0 < rt_sep_t p <= rt_sep p /\ rt_sep p <= rt_sep_t p * density_ratio p) by (eapply rt_st; eassumption).
  assert (A1 : 0 <= rt_length p <= 200000 * rt_sep_t p /\ (rt_length p = box_length p \/ periodic_x p = true /\ fits (mismatch p) (rt_length p) (rt_sep p) (rt_sep_t p))) by (eapply rt_len_ok; eassumption).
  assert (A2 : 0 <= rt_height p /\ (rt_height p = box_height p \/ g_dim p = 3%nat /\ periodic_z p = true /\ fits (mismatch p) (rt_height p) (per_z (lattice_type p) * rt_sep p) (per_z (lattice_type p) * rt_sep_t p))) by (eapply rt_hgt_ok; eassumption).
  assert (exists K : nat, rt_ymin p = - (INR K * (per_y (lattice_type p) * rt_sep p)) /\ INR K * (per_y (lattice_type p) * rt_sep p) <= box_width p / 2 < INR K * (per_y (lattice_type p) * rt_sep p) + per_y (lattice_type p) * rt_sep p) as (K & K1 & K2) by (eapply rt_ymin_ok; eassumption).
  assert (B : (forall a, rt_bmin p a <= rt_bmax p a) /\ (forall a, rt_tmin p a <= rt_tmax p a)) by (eapply rt_boxes; eassumption).
  assert (Qb : forall x y z, In (x, y, z) pb -> rt_ymin p <= y < 0 /\ in_domain_1d RA y (rt_bmin p 1%nat) (rt_bmax p 1%nat) = true) by (eapply rt_bottom; eassumption).
  assert (Qt : forall x y z, In (x, y, z) ptt -> 0 <= y < box_width p / 2 /\ in_domain_1d RA y (rt_bmin p 1%nat) (rt_bmax p 1%nat) = false) by (eapply rt_top; eassumption).
  assert (M : block_mass (g_dim p) (lattice_type p) (rho_initial p) (rt_sep p) = rho_initial p * cell (g_dim p) (lattice_type p) (rt_sep p) /\
     rho_initial p * cell (g_dim p) (lattice_type p) (rt_sep p) = rt_rho2 p * cell (g_dim p) (lattice_type p) (rt_sep_t p)) by (eapply rt_mass; eassumption).
  rewrite number_app, map_app in El. set (lb := map (at3 (rt_as p)) (number 0 pb)) in *. set (lt := map _ (number _ ptt)) in El.
  assert (Hr2 : 0 < rt_rho2 p) by (unfold rt_rho2; nra).
  assert (Hm : 0 < block_mass (g_dim p) (lattice_type p) (rho_initial p) (rt_sep p)) by (rewrite (proj1 M); apply Rmult_lt_0_compat; [exact Hrho | apply cell_pos; exact Hs]).
  exists (rt_sep p), (rt_sep_t p), (rt_length p), (rt_height p), K, lb, lt. 
  assert (Yp : forall x, per_y (lattice_type p) * x = y_period (lattice_type p) x) by (eapply y_per; eassumption). assert (Zp : forall x, per_z (lattice_type p) * x = z_period (lattice_type p) x) by (eapply z_per; eassumption). rewrite <- ! Yp, <- ! Zp.
  split; [exact El|]. split; [eapply rt_s; eassumption|]. split; [lra|].
  split; [apply Rmult_eq_reg_l with (rho_initial p); [|lra]; rewrite (proj2 M); unfold rt_rho2; ring|].
  split; [exact (proj2 A1)|]. split; [exact (proj2 A2)|]. split; [lra|]. rewrite <- K1.
  change (pt (- rt_length p / 2) (rt_ymin p) (- rt_height p / 2)) with (rt_bmin p). change (pt (rt_length p / 2) 0 (rt_height p / 2)) with (rt_bmax p).
  change (pt (- rt_length p / 2) 0 (- rt_height p / 2)) with (rt_tmin p). change (pt (rt_length p / 2) (box_width p / 2) (rt_height p / 2)) with (rt_tmax p).
  split; [eapply fills_at3; [exact Hs | apply B | reflexivity | exact Eb]|]. split; [eapply fills_at3; [lra | apply B | reflexivity | exact Et]|].
  assert (Fb : Forall (fun q => i_y q < 0 /\ fluid_at p (rho_initial p) (rt_sep p) q) lb).
  { apply forall_at3. intros j x y z Hq. destruct (Qb x y z Hq) as (Y & D). unfold fluid_at, rt_as. cbn [i_y i_rho i_P i_u i_m i_h]. rewrite D. split; [lra|]. split; [reflexivity|].
    split; [field; split; lra|]. split; [exact (proj1 M)|]. split; [apply smoothing_ok; try assumption; lia | apply smoothing_h_pos; exact He]. }
  assert (Ft : Forall (fun q => 0 <= i_y q < box_width p / 2 /\ fluid_at p (rho_initial p * density_ratio p) (rt_sep_t p) q) lt).
  { apply forall_at3. intros j x y z Hq. destruct (Qt x y z Hq) as (Y & D). unfold fluid_at, rt_as. cbn [i_y i_rho i_P i_u i_m i_h]. rewrite D. split; [lra|]. fold (rt_rho2 p). split; [reflexivity|].
    split; [field; split; lra|]. split; [rewrite (proj1 M); exact (proj2 M)|]. split; [apply smoothing_ok; try assumption; lia | apply smoothing_h_pos; exact He]. }
  split; [exact Fb|]. split; [exact Ft|].
  split; [rewrite El; apply Forall_app; split; apply forall_at3; intros j x y z _; eapply rt_vy_ok; eassumption|].
  split.
  { assert (C : Forall (fun q => i_m q = block_mass (g_dim p) (lattice_type p) (rho_initial p) (rt_sep p)) l) by (rewrite El; apply Forall_app; split; apply forall_at3; reflexivity).
    rewrite Forall_forall in C. intros q q' Hq Hq'. rewrite (C q Hq), (C q' Hq'). reflexivity. }
  apply two_fluids; [lra|]. rewrite El. apply Forall_app. split; apply forall_at3; intros j x y z Hq; [destruct (Qb x y z Hq) as (Y & D) | destruct (Qt x y z Hq) as (Y & D)];
    unfold rt_as; cbn [i_P i_y]; rewrite D; unfold rt_tmax, rt_tmin; cbn [pt]; fold (rt_rho2 p); destruct (Rlt_dec y 0); try lra; field.
Qed.

(** The program comes to its end and stays within its arrays *)
Theorem C86_ends : forall p, (2 <= g_dim p <= 3)%nat -> (0 <= lattice_type p <= 2)%Z -> 0 < box_length p -> (2 <= lattice_nx p)%Z -> 0 < density_ratio p -> 0 < rho_initial p ->
  exists fuel, forall fuel', (fuel <= fuel')%nat -> rt (with_fuel p fuel') <> None.
Proof.
  intros p Hd Ht HL Hn Hr Hrho. assert (1 <= IZR (lattice_nx p - 1)) by (apply IZR_le; lia).
  assert (Hs : 0 < rt_sep p) by (unfold rt_sep; apply Rdiv_lt_0_compat; lra).
  assert (Hst : 0 < rt_sep_t p) by (apply other_sep_pos; [exact Hd | exact Hs | apply Rdiv_lt_0_compat; [exact Hrho | unfold rt_rho2; nra]]).
  destruct (lattice_ends (g_dim p) (lattice_type p) (domain_type p) (rt_bmin p) (rt_bmax p) (rt_sep p) ltac:(lia) Ht Hs) as (f1 & pb & Eb).
  destruct (lattice_ends (g_dim p) (lattice_type p) (domain_type p) (rt_tmin p) (rt_tmax p) (rt_sep_t p) ltac:(lia) Ht Hst) as (f2 & ptt & Et).
  exists (f1 + f2)%nat. intros f Hf. apply (emits_more _ f1 f) in Eb; [|lia]. apply (emits_more _ f2 f) in Et; [|lia].
  rewrite (rt_eq (with_fuel p f) pb ptt Eb Et); [discriminate|]. apply Z.eqb_neq. cbn [with_fuel lattice_nx]. lia.
Qed.

(** With periodic boundaries in z the height of the box is taken from its length: a column of height 1 becomes one of height 3 *)
Definition column (f : nat) : gpar := GPar 3 f 0 0 5 true 4 4 1 1 false false true (5 / 100) 1 (5 / 3) 1 1 1 0 (1 / 2) (1 / 40) (1 / 2) 1 0 1.
Lemma column_runs : exists f l, rt (column f) = Some l.
Proof.
  destruct (C86_ends (column 0)) as (f & H); try (cbn [column g_dim lattice_type box_length lattice_nx density_ratio rho_initial]; first [lia | lra]).
  exists f. specialize (H f (le_n f)). change (with_fuel (column 0) f) with (column f) in H. destruct (rt (column f)) as [l|]; [exists l; reflexivity | contradiction].
Qed.
Theorem C86_height_refuted : exists p l, rt p = Some l /\ box_height p = 1 /\ box_length p = 4 /\ periodic_z p = true /\ exists q, In q l /\ i_z q = - (3 / 2).
Proof.
  destruct column_runs as (f & l & E). exists (column f), l. split; [exact E|]. split; [reflexivity|]. split; [reflexivity|]. split; [reflexivity|].
  destruct (rt_inv _ _ E) as (_ & pb & ptt & Eb & _ & ->).
  assert (Es : rt_sep (column f) = 1) by (unfold rt_sep; cbn [column box_length lattice_nx]; replace (IZR (5 - 1)) with 4 by reflexivity; field).
  assert (Et : rt_sep_t (column f) = 1).
  { unfold rt_sep_t. rewrite Es. unfold rt_rho2. cbn [column g_dim rho_initial density_ratio other_sep]. unfold cbrt. replace (1 / (1 * 1)) with 1 by field. rewrite Rmult_1_l. unfold Rpower. rewrite ln_1, Rmult_0_r. apply exp_0. }
  assert (Eh : rt_height (column f) = 3).
  { unfold rt_height, rt_length. cbn [column g_dim periodic_z periodic_x Nat.leb andb lattice_type mismatch box_length box_height]. fold (column f). rewrite Es, Et. unfold per_z, row_z. cbn [Z.eqb close_packed orb]. rewrite ! Rmult_1_r.
    unfold rt_adjust. replace (Int_part (4 / 1)) with 4%Z by (symmetry; apply int_part_eq; lra). change (4 - 1)%Z with 3%Z. change (Z.to_nat (99 * 3)) with (S 296). cbn [rt_fit].
    assert (F : floorR (3 * 1 / 1 + b_tol RA) = 3) by (unfold floorR; rewrite (int_part_eq _ 3); [reflexivity|]; cbn; lra). rewrite F.
    replace (Rlt_b (Rabs (3 * 1 - 3 * 1)) (5 / 100 * 1)) with true by (symmetry; apply Rlt_b_true; rewrite Rminus_diag_eq, Rabs_R0 by reflexivity; lra). unfold Rmin. destruct (Rle_dec _ _); ring. }
  assert (Ey : rt_ymin (column f) = -2).
  { unfold rt_ymin. rewrite Es. unfold per_y, row_y. cbn [column lattice_type box_width close_packed Z.eqb orb]. replace (Int_part (4 / 2 / (1 * 1))) with 2%Z by (symmetry; apply int_part_eq; lra). lra. }
  assert (El : rt_length (column f) = 4) by reflexivity.
  assert (Bm : rt_bmin (column f) = pt (-2) (-2) (- (3 / 2))) by (unfold rt_bmin; rewrite El, Ey, Eh; f_equal; field).
  assert (BM : rt_bmax (column f) = pt 2 0 (3 / 2)) by (unfold rt_bmax; rewrite El, Eh; f_equal; field).
  rewrite Es, Bm, BM in Eb. cbn [column g_dim g_fuel lattice_type domain_type] in Eb.
  destruct (lattice_starts 3 f 0 (pt (-2) (-2) (- (3 / 2))) (pt 2 0 (3 / 2)) 1 ltac:(lia) ltac:(lra) ltac:(apply pt_le; lra)) with pb as (r & ->); [|exact Eb|].
  - split; [|discriminate]. cbn zeta. intros [|[|[|a]]] Ha; try lia; cbn [Nat.eqb coord fst snd pt]; lra.
  - cbn [Nat.eqb pt app number map at3]. eexists. split; [left; reflexivity|]. reflexivity.
Qed.

(** A case with different densities in two dimensions *)
Definition rt_default (f : nat) : gpar := GPar 2 f 1 0 40 true (1 / 2) (3 / 2) 1 1 true false false (5 / 100) 1 (14 / 10) 1 1 2 0 (1 / 2) (1 / 40) (1 / 2) 1 0 1.
Example C86_default : exists f l, rt (rt_default f) = Some l /\ hydrostatic (1 / 2) (5 / 2) (3 / 4) (fun y => if Rlt_dec y 0 then 1 else 2) l /\ Forall (fun q => - (5 / 100) <= i_vy q <= 0) l.
Proof.
  destruct (C86_ends (rt_default 0)) as (f & H); try (cbn [rt_default g_dim lattice_type box_length lattice_nx density_ratio rho_initial]; first [lia | lra]).
  exists f. specialize (H f (le_n f)). change (with_fuel (rt_default 0) f) with (rt_default f) in H. destruct (rt (rt_default f)) as [l|] eqn:E; [|contradiction]. exists l. split; [reflexivity|].
  destruct (C86_columns (rt_default f) l) as (_ & s & t & len & hgt & K & lb & lt & El & _ & _ & _ & _ & _ & _ & _ & _ & _ & _ & Pu & _ & Hy);
    try (cbn [rt_default g_dim domain_type box_length box_width box_height lattice_nx density_ratio rho_initial g_etaw poly_gamma]; first [reflexivity | lia | lra]).
  - cbn [rt_default box_width box_length lattice_nx]. replace (IZR (40 - 1)) with 39 by reflexivity. lra.
  - exact E.
  - cbn [rt_default rho_initial density_ratio g_grav box_width] in Hy. replace (3 / 2 / 2) with (3 / 4) in Hy by lra. rewrite Rmult_1_l in Hy. split; [exact Hy|].
    eapply Forall_impl; [|exact Pu]. intros q (_ & _ & _ & B). cbn [rt_default rt_amplitude g_dim Nat.eqb] in B. specialize (B ltac:(lra)). cbv beta. lra.
Qed.

Print Assumptions C86_columns.
Print Assumptions C86_ends.
Print Assumptions C86_height_refuted.
