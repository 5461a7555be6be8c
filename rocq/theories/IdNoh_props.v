(** C89: the initial data of the Noh problem *)
From Coq Require Import Reals Lra Lia.
From Coquelicot Require Import Coquelicot.
From Verif Require Import Base BuildTree_model Range_model Range_props Lattice_model Lattice_props LatticeBox_props Profile_model Profile_props IdGen_model IdGen_lemmas IdSod_props IdGas_props IdBlast_model IdBlast_lemmas IdSedov_props.
Local Open Scope R_scope.

(** ** Statement *)
(** Velocity [v] at [x]: towards the origin with speed [c], at rest in the origin *)
Definition inward (c : R) (x v : R * R * R) : Prop :=
  let '(x1, x2, x3) := x in let '(v1, v2, v3) := v in
  (x <> (0, 0, 0) -> norm3 v = c /\ exists k, 0 <= k /\ v1 = - k * x1 /\ v2 = - k * x2 /\ v3 = - k * x3) /\ (x = (0, 0, 0) -> v = (0, 0, 0)).
Definition kinetic (l : list bod) : R := sum_of (fun q => b_m q * norm3 (b_v q) ^ 2 / 2) l.
Definition momentum_x (l : list bod) : R := sum_of (fun q => b_m q * fst (fst (b_v q))) l.
Definition off_centre (l : list bod) : list bod := filter (fun q => Rlt_b 0 (norm3 (b_r q))) l.

(** ** Proofs *)
Definition noh_bad (p : gpar) (b : bpar) (m : R) (q : bod) : bool :=
  let rho := if is_fresh b then bl_rho p b (mag (g_dim p) (b_r q)) else b_rho q in
  negb (Rlt_b 0 rho) || is_fresh b && negb (Rlt_b 0 ((if is_fresh b then m else b_m q) / rho)).
Definition noh_as (p : gpar) (b : bpar) (v m : R) (a : nat) (q : bod) : bod :=
  let r := mag (g_dim p) (b_r q) in
  let rho := if is_fresh b then bl_rho p b r else b_rho q in
  let ma := if is_fresh b then m else b_m q in
  let h := if is_fresh b then smoothing p ma rho else b_h q in
  let rp := shake (g_dim p) h b a (b_r q) in
  Bod (if is_fresh b then Z.of_nat a else b_id q) rp (if Rlt_b 0 r then scale (/ r) (scale (-1 * v) rp) else (0, 0, 0)) h
    (if is_fresh b then rho_initial p else rho) (bl_u p rho) (rho * bl_u p rho * (poly_gamma p - 1)) ma.
Lemma noh_step : forall p b v m a q, noh_particle p b v m a q = if noh_bad p b m q then None else Some (noh_as p b v m a q).
Proof. reflexivity. Qed.
Lemma noh_inv : forall p b v l, noh p b v = Some l ->
  0 < rho_initial p /\ poly_gamma p <> 1 /\ (domain_type p = 0 \/ domain_type p = 1)%Z /\ profile b 0 <> 0 /\
  exists pts m l0, Emits (bl_lattice p) pts /\ pts <> [] /\ m = bl_total p (profile b) / INR (length pts) /\ l0 = match modify b with Some l => l | None => map fresh pts end /\
    l = mapi (noh_as p b v m) 0 l0 /\ forall q, In q l0 -> noh_bad p b m q = false.
Proof.
  intros p b v l H. unfold noh in H. destruct (bl_defined p b) eqn:Ed; [|discriminate]. apply bl_defined_true in Ed. cbn [negb] in H.
  destruct (bl_bodies p b) as [(m & l0)|] eqn:Eb; [|discriminate]. destruct (bl_inv p b m l0 Eb) as (Hdt & Hf & pts & Ep & Hne & Em & El).
  destruct (each_inv _ _ _ (noh_step p b v m) _ _ _ H) as (-> & Hc).
  split; [apply Ed|]. split; [apply Ed|]. split; [exact Hdt|]. split; [exact Hf|]. exists pts, m, l0. repeat (split; [assumption|]). split; [reflexivity | exact Hc].
Qed.
Lemma noh_same_bad : forall p b m q, modify b = None -> noh_bad p b m q = sedov_bad p b m q.
Proof. intros p b m q Hm. unfold noh_bad, sedov_bad, is_fresh. rewrite Hm. reflexivity. Qed.
Lemma rpower_one : forall e, Rpower 1 e = 1.
Proof. intros e. unfold Rpower. rewrite ln_1, Rmult_0_r. apply exp_0. Qed.
Lemma norm3_pos : forall x, x <> (0, 0, 0) -> 0 < norm3 x.
Proof.
  intros [[x y] z] N. unfold norm3. apply sqrt_lt_R0. destruct (Req_dec x 0) as [->|Hx]; [|pose proof (Rsqr_pos_lt x Hx); unfold Rsqr in *; nra].
  destruct (Req_dec y 0) as [->|Hy]; [|pose proof (Rsqr_pos_lt y Hy); unfold Rsqr in *; nra]. destruct (Req_dec z 0) as [->|Hz]; [contradiction N; reflexivity|].
  pose proof (Rsqr_pos_lt z Hz). unfold Rsqr in *. nra.
Qed.
Lemma norm3_zero : norm3 (0, 0, 0) = 0.
Proof. unfold norm3. replace (0 ^ 2 + 0 ^ 2 + 0 ^ 2) with 0 by ring. apply sqrt_0. Qed.
Lemma norm3_scale : forall c x, norm3 (scale c x) = Rabs c * norm3 x.
Proof.
  intros c [[x y] z]. unfold norm3, scale. replace ((x * c) ^ 2 + (y * c) ^ 2 + (z * c) ^ 2) with (c ^ 2 * (x ^ 2 + y ^ 2 + z ^ 2)) by ring.
  rewrite sqrt_mult_alt by nra. f_equal. replace (c ^ 2) with (Rsqr c) by (unfold Rsqr; ring). apply sqrt_Rsqr_abs.
Qed.
Lemma inward_ok : forall c x, 0 <= c -> inward c x (if Rlt_b 0 (norm3 x) then scale (/ norm3 x) (scale (-1 * c) x) else (0, 0, 0)).
Proof.
  intros c [[x1 x2] x3] Hc. destruct (Rlt_b 0 (norm3 (x1, x2, x3))) eqn:E.
  - apply Rlt_b_true in E. unfold inward. cbn [scale]. assert (0 < / norm3 (x1, x2, x3)) by (apply Rinv_0_lt_compat; exact E). split; [|intros X; rewrite X, norm3_zero in E; lra]. intros _. split.
    + change (x1 * (-1 * c) * / norm3 (x1, x2, x3), x2 * (-1 * c) * / norm3 (x1, x2, x3), x3 * (-1 * c) * / norm3 (x1, x2, x3)) with (scale (/ norm3 (x1, x2, x3)) (scale (-1 * c) (x1, x2, x3))).
      rewrite ! norm3_scale. rewrite (Rabs_right (/ _)) by lra. rewrite Rabs_left1 by lra. field. lra.
    + exists (c * / norm3 (x1, x2, x3)). split; [nra|]. repeat split; ring.
  - apply Rlt_b_false in E. unfold inward. split; [|reflexivity]. intros N. apply norm3_pos in N. lra.
Qed.

(** ** C89 *)
(** Without perturbation: the particles are the points of the lattice, with equal masses, the density rho_initial,
    velocities of the given size towards the origin; energy and pressure are polytropic, and for the constant profile the equation of state
    and the smoothing length belong to the density *)
Theorem C89_particles : forall p b v l, sane p -> modify b = None -> amplitude b <= 0 -> 0 <= v -> noh p b v = Some l ->
  l <> [] /\ map b_id l = map Z.of_nat (seq 0 (length l)) /\
  (exists s, spacing p s /\ (forall x, In x (map b_r l) <-> lattice_point p s x) /\ ((g_dim p < 3)%nat \/ lattice_type p <> 2%Z -> NoDup (map b_r l))) /\
  (forall q q', In q l -> In q' l -> b_m q = b_m q') /\
  Forall (fun q => inward v (b_r q) (b_v q) /\ 0 < b_m q /\ 0 < b_h q /\ b_rho q = rho_initial p /\
    exists rho, rho * profile b 0 = rho_initial p * profile b (norm3 (b_r q) / sphere_radius p) /\ 0 < rho /\ rho * (b_h q / g_etaw p) ^ g_dim p = b_m q /\ b_u q = ambient_u p rho /\ b_P q = ambient_P p rho) l /\
  ((forall r, profile b r = profile b 0) -> Forall (fun q => b_P q = pressure_initial p /\ b_P q = (poly_gamma p - 1) * b_rho q * b_u q /\ b_rho q * (b_h q / g_etaw p) ^ g_dim p = b_m q) l).
Proof.
  intros p b v l Hs Hm Ha Hv H. destruct (noh_inv p b v l H) as (Hi & Hg & Hdt & Hf & pts & m & l0 & Ep & Hne & Em & El & -> & Hb). rewrite Hm in El.
  destruct (sane_sep p Hdt Hs) as (Hsep & Hord). destruct (bl_points p pts Hsep Hord Ep) as (Hd & Ht & Hp). destruct Hs as (Hn & He & _).
  assert (Pos : map b_r (mapi (noh_as p b v m) 0 l0) = pts).
  { rewrite mapi_map, (mapi_plain _ _ _ b_r) by (intros a q _; unfold noh_as; cbn [b_r]; apply shake_none; exact Ha). rewrite El, map_map, map_id. reflexivity. }
  assert (Mg : forall q, In q l0 -> mag (g_dim p) (b_r q) = norm3 (b_r q)).
  { intros q Hq. rewrite El in Hq. apply in_map_iff in Hq. destruct Hq as (x & <- & Hx). apply Hp in Hx. apply (mag_norm _ _ _ _ _ Hd (proj1 Hx)). }
  split; [rewrite El; destruct pts; [contradiction | discriminate]|].
  split; [rewrite mapi_map, mapi_length; rewrite <- mapi_index; unfold noh_as, is_fresh; rewrite Hm; reflexivity|].
  split; [exists (bl_sep p); split; [apply sep_spacing; exact Hn|]; rewrite Pos; split; [intros x; rewrite Hp; apply point_iff | intros Hty; eapply lattice_nodup; [exact Hsep | exact Hty | exact Ep]]|].
  assert (Mc : Forall (fun q => b_m q = m) (mapi (noh_as p b v m) 0 l0)) by (apply mapi_forall; intros k q _; unfold noh_as, is_fresh; rewrite Hm; reflexivity).
  split; [rewrite Forall_forall in Mc; intros q q' Hq Hq'; rewrite (Mc q Hq), (Mc q' Hq'); reflexivity|].
  split; [|intros Hc].
  - apply mapi_forall. intros a q Hq. pose proof (Hb q Hq) as Hb'. rewrite (noh_same_bad p b m q Hm) in Hb'. destruct (not_bad_fresh p b m q Hm Hb') as (Hr & Hmp).
    unfold noh_as, is_fresh. rewrite Hm. rewrite shake_none by exact Ha. cbn [b_v b_m b_rho b_h b_r b_P b_u]. rewrite (Mg q Hq) in Hr |- *.
    split; [apply inward_ok; exact Hv|]. split; [exact Hmp|]. split; [apply smoothing_h_pos; exact He|]. split; [reflexivity|].
    exists (bl_rho p b (norm3 (b_r q))). split; [unfold bl_rho; field; exact Hf|]. split; [exact Hr|]. split; [apply smoothing_ok; try assumption; lia|].
    rewrite bl_u_ambient by assumption. split; [reflexivity | apply ambient_gas; assumption].
  - apply mapi_forall. intros a q Hq. pose proof (Hb q Hq) as Hb'. rewrite (noh_same_bad p b m q Hm) in Hb'. destruct (not_bad_fresh p b m q Hm Hb') as (Hr & Hmp).
    unfold noh_as, is_fresh. rewrite Hm. cbn [b_m b_rho b_h b_P b_u]. assert (E : bl_rho p b (mag (g_dim p) (b_r q)) = rho_initial p) by (unfold bl_rho; rewrite (Hc (mag (g_dim p) (b_r q) / sphere_radius p)); field; exact Hf). rewrite E in Hr |- *.
    split; [rewrite bl_u_ambient by assumption; rewrite ambient_gas by assumption; unfold ambient_P; replace (rho_initial p / rho_initial p) with 1 by (field; lra); rewrite rpower_one; ring|].
    split; [ring | apply smoothing_ok; try assumption; lia].
Qed.
(** The masses add up to that of the domain, as for the Sedov blast wave *)
Lemma noh_mass_total : forall p b v l, modify b = None -> noh p b v = Some l -> mass l = bl_total p (profile b).
Proof.
  intros p b v l Hm H. destruct (noh_inv p b v l H) as (_ & _ & _ & _ & pts & m & l0 & _ & Hne & Em & El & -> & _). rewrite Hm in El.
  unfold mass. rewrite (sum_mapi _ _ _ _ (fun _ => m)) by (intros a q _; unfold noh_as, is_fresh; rewrite Hm; reflexivity). rewrite sum_const, El, map_length, Em. field.
  apply Rgt_not_eq. apply lt_0_INR. destruct pts; [contradiction | cbn; lia].
Qed.
Theorem C89_mass : forall p b v l, sane p -> (1 <= g_dim p <= 3)%nat -> modify b = None -> noh p b v = Some l ->
  (domain_type p = 0%Z -> mass l = rho_initial p * match g_dim p with 1%nat => box_length p | 2%nat => box_length p * box_width p | _ => box_length p * box_width p * box_height p end) /\
  (domain_type p = 1%Z -> (2 <= g_dim p)%nat -> profile b 0 = rho_constant_density (g_dim p) 0 -> mass l = rho_initial p * if (g_dim p =? 2)%nat then PI * sphere_radius p ^ 2 else 4 / 3 * PI * sphere_radius p ^ 3).
Proof.
  intros p b v l Hs Hd Hm H. rewrite (noh_mass_total p b v l Hm H). pose proof PI_RGT_0. unfold bl_total. split.
  - intros ->. cbn [Z.eqb]. assert (g_dim p = 1 \/ g_dim p = 2 \/ g_dim p = 3)%nat as [-> | [-> | ->]] by lia; ring.
  - intros -> H2 Hc. cbn [Z.eqb]. assert (g_dim p = 2 \/ g_dim p = 3)%nat as [D | D] by lia; rewrite D in *; cbn [Nat.eqb]; unfold SQ, CU; [ring|]. rewrite Hc. unfold rho_constant_density. field. lra.
Qed.
(** Every particle but one in the origin has the same kinetic energy per mass *)
Theorem C89_kinetic : forall p b v l, sane p -> modify b = None -> amplitude b <= 0 -> 0 <= v -> noh p b v = Some l -> kinetic l = mass (off_centre l) * v ^ 2 / 2.
Proof.
  intros p b v l Hs Hm Ha Hv H. destruct (C89_particles p b v l Hs Hm Ha Hv H) as (_ & _ & _ & _ & HF & _). clear H. unfold kinetic, mass, off_centre. induction HF as [|q l (Hq & _) _ IH]; [cbn; field|].
  cbn [sum_of fold_right filter]. fold (sum_of (fun q => b_m q * norm3 (b_v q) ^ 2 / 2) l). rewrite IH. unfold inward in Hq. destruct (b_r q) as [[x y] z]. destruct (b_v q) as [[v1 v2] v3]. destruct Hq as (Hq1 & Hq2).
  destruct (Rlt_b 0 (norm3 (x, y, z))) eqn:E.
  - apply Rlt_b_true in E. destruct Hq1 as (-> & _); [intros X; rewrite X, norm3_zero in E; lra|]. cbn [sum_of fold_right]. fold (sum_of b_m (filter (fun q => Rlt_b 0 (norm3 (b_r q))) l)). field.
  - apply Rlt_b_false in E. fold (sum_of b_m (filter (fun q => Rlt_b 0 (norm3 (b_r q))) l)). rewrite Hq2; [rewrite norm3_zero; field|]. destruct (Req_dec x 0) as [->|Hx]; [destruct (Req_dec y 0) as [->|Hy]; [destruct (Req_dec z 0) as [->|Hz]; [reflexivity|]|]|].
    all: exfalso; match type of E with norm3 ?x <= 0 => assert (0 < norm3 x) by (apply norm3_pos; congruence) end; lra.
Qed.
(** The program comes to its end under the conditions of the Sedov generator *)
Theorem C89_ends : forall p b s, sane p -> (1 <= g_dim p <= 3)%nat -> (0 <= lattice_type p <= 2)%Z -> (domain_type p = 0 \/ domain_type p = 1)%Z -> equal_mass p = true -> spacing p s ->
  (domain_type p = 0%Z -> (2 <= g_dim p)%nat -> 0 < box_width p) -> (domain_type p = 0%Z -> (3 <= g_dim p)%nat -> 0 < box_height p /\ constant_profile b = true) -> (g_dim p = 1%nat -> 0 < box_length p) ->
  0 < rho_initial p -> poly_gamma p <> 1 -> 0 < sphere_radius p -> modify b = None -> 0 < profile b 0 ->
  (exists x, lattice_point p s x) -> (forall x, lattice_point p s x -> 0 < profile b (norm3 x / sphere_radius p)) ->
  exists fuel, forall fuel' v, (fuel <= fuel')%nat -> noh (with_fuel p fuel') b v <> None.
Proof.
  intros p b s Hs Hd Ht Hdt He Hsp Hw Hh HL Hi Hg HR Hm Hf Hx Hpos. destruct (C88_ends p b s Hs Hd Ht Hdt He Hsp Hw Hh HL Hi Hg HR Hm Hf Hx Hpos) as (fuel & H).
  exists fuel. intros fuel' v Hfu N. apply (H fuel' 0 0 Hfu). unfold noh in N. unfold sedov. destruct (bl_defined _ b); [cbn [negb] in *|reflexivity].
  destruct (bl_bodies _ b) as [(m & l0)|]; [|reflexivity]. revert N. generalize (sedov_mass (g_dim (with_fuel p fuel')) 0 m l0). generalize 0%nat. induction l0 as [|q l0 IH]; intros a M N; cbn [each] in *; [discriminate|].
  rewrite noh_step, (noh_same_bad _ b m q Hm) in N. rewrite sedov_step. destruct (sedov_bad _ b m q); [reflexivity|]. destruct (each (noh_particle _ b v m) (S a) l0) eqn:E; [discriminate|]. rewrite (IH _ M E). reflexivity.
Qed.
(** With a perturbation of the positions: the velocity is along the new position, and its size is the given one
    times the ratio of the new distance and that of the lattice point *)
Theorem C89_perturbed : forall p b v l, sane p -> modify b = None -> 0 <= v -> noh p b v = Some l ->
  exists s, spacing p s /\ Forall (fun q => exists x, lattice_point p s x /\ (norm3 x <> 0 -> b_v q = scale (- (v / norm3 x)) (b_r q) /\ norm3 (b_v q) = v * (norm3 (b_r q) / norm3 x)) /\ (norm3 x = 0 -> b_v q = (0, 0, 0))) l.
Proof.
  intros p b v l Hs Hm Hv H. destruct (noh_inv p b v l H) as (Hi & Hg & Hdt & Hf & pts & m & l0 & Ep & Hne & Em & El & -> & Hb). rewrite Hm in El.
  destruct (sane_sep p Hdt Hs) as (Hsep & Hord). destruct (bl_points p pts Hsep Hord Ep) as (Hd & Ht & Hp). exists (bl_sep p). split; [apply sep_spacing; apply Hs|].
  apply mapi_forall. intros a q Hq. rewrite El in Hq. apply in_map_iff in Hq. destruct Hq as (x & <- & Hx). apply Hp in Hx. exists x. split; [apply point_iff; exact Hx|].
  unfold noh_as. cbn [b_r fresh b_v]. rewrite (mag_norm _ _ _ _ _ Hd (proj1 Hx)). set (rp := shake _ _ _ _ _). assert (N0 : 0 <= norm3 x) by (destruct x as [[x y] z]; apply sqrt_pos). split.
  - intros N. rewrite (proj2 (Rlt_b_true _ _)) by lra. split; [destruct rp as [[r1 r2] r3]; cbn [scale]; f_equal; [f_equal|]; field; exact N|].
    rewrite ! norm3_scale, Rabs_right by (apply Rle_ge, Rlt_le, Rinv_0_lt_compat; lra). rewrite Rabs_left1 by lra. field. exact N.
  - intros ->. rewrite (proj2 (Rlt_b_false _ _)) by lra. reflexivity.
Qed.
(** Bodies that are read keep their numbers, masses, densities and smoothing lengths, and move inward *)
Theorem C89_modify : forall p b l0 v l, g_dim p = 3%nat -> modify b = Some l0 -> amplitude b <= 0 -> 0 <= v -> noh p b v = Some l ->
  map (fun q => (b_id q, b_r q, b_m q, b_rho q, b_h q)) l = map (fun q => (b_id q, b_r q, b_m q, b_rho q, b_h q)) l0 /\
  Forall (fun q => inward v (b_r q) (b_v q) /\ b_u q = ambient_u p (b_rho q) /\ b_P q = ambient_P p (b_rho q) /\ b_P q = (poly_gamma p - 1) * b_rho q * b_u q) l.
Proof.
  intros p b l0 v l D Hm Ha Hv H. destruct (noh_inv p b v l H) as (Hi & Hg & _ & _ & pts & m & l0' & Ep & Hne & Em & El & -> & Hb). rewrite Hm in El. subst l0'.
  split; [rewrite mapi_map; apply mapi_plain; intros a q _; unfold noh_as, is_fresh; rewrite Hm, shake_none by exact Ha; reflexivity|].
  apply mapi_forall. intros a q Hq. specialize (Hb q Hq). unfold noh_bad, is_fresh in Hb. rewrite Hm in Hb. apply orb_false_iff in Hb. destruct Hb as (Hr & _). apply negb_false_iff, Rlt_b_true in Hr.
  unfold noh_as, is_fresh. rewrite Hm, shake_none by exact Ha. cbn [b_r b_v b_u b_rho b_P]. rewrite D.
  replace (mag 3 (b_r q)) with (norm3 (b_r q)) by (destruct (b_r q) as [[x y] z]; unfold mag, norm3; f_equal; ring).
  split; [apply inward_ok; exact Hv|]. rewrite bl_u_ambient by assumption. split; [reflexivity|]. split; [apply ambient_gas; assumption | ring].
Qed.

(** *** Cases *)
Lemma tube_noh : forall dt nx L R0 rho P f c amp nz, (dt = 0 \/ dt = 1)%Z -> (2 <= nx)%Z -> 0 < L -> 0 < R0 -> 0 < rho -> 0 < f 0 ->
  (forall x, lattice_point (tube dt nx L R0 rho P) (bl_sep (tube dt nx L R0 rho P)) x -> 0 < f (norm3 x / R0)) ->
  exists fuel, forall v, exists l, noh (with_fuel (tube dt nx L R0 rho P) fuel) (BPar f c None amp nz) v = Some l.
Proof.
  intros dt nx L R0 rho P f c amp nz Hdt Hn HL HR Hr Hf0 Hf. assert (Hw : 0 < half_extent (tube dt nx L R0 rho P) 0) by (unfold half_extent; cbn [tube domain_type box_length sphere_radius]; destruct (dt =? 0)%Z; lra).
  destruct (C89_ends (tube dt nx L R0 rho P) (BPar f c None amp nz) (bl_sep (tube dt nx L R0 rho P))) as (fuel & H);
    try (cbn [tube g_dim lattice_type domain_type equal_mass box_length box_width box_height sphere_radius rho_initial poly_gamma modify profile constant_profile]; first [assumption | reflexivity | lia | lra | intros; lia | intros; lra]).
  - split; [exact Hn|]. split; [cbn [tube g_etaw]; lra|]. cbn [tube domain_type box_length box_width box_height sphere_radius]. destruct (dt =? 0)%Z; lra.
  - apply sep_spacing. exact Hn.
  - exists (- half_extent (tube dt nx L R0 rho P) 0 + INR 0 * bl_sep (tube dt nx L R0 rho P), 0, 0). apply tube_point. split; [exists 0%nat; reflexivity|]. cbn zeta. cbn [coord fst INR]. lra.
  - exists fuel. intros v. specialize (H fuel v (le_n fuel)). destruct (noh _ _ _) as [l|]; [exists l; reflexivity | contradiction].
Qed.
Lemma tube_noh_sane : forall dt nx L R0 rho P f, (dt = 0 \/ dt = 1)%Z -> (2 <= nx)%Z -> 0 < L -> 0 < R0 -> sane (with_fuel (tube dt nx L R0 rho P) f).
Proof. intros dt nx L R0 rho P f Hdt Hn HL HR. split; [exact Hn|]. split; [cbn [tube with_fuel g_etaw]; lra|]. cbn [tube with_fuel domain_type box_length box_width box_height sphere_radius]. destruct (dt =? 0)%Z; lra. Qed.
Lemma norm_line : forall x, norm3 (x, 0, 0) = Rabs x.
Proof. intros x. unfold norm3. replace (x ^ 2 + 0 ^ 2 + 0 ^ 2) with (Rsqr x) by (unfold Rsqr; ring). apply sqrt_Rsqr_abs. Qed.
Lemma line_velocity : forall c x v, inward c (x, 0, 0) v -> fst (fst v) = if Req_EM_T x 0 then 0 else if Rlt_b x 0 then c else - c.
Proof.
  intros c x [[v1 v2] v3] (H1 & H2). cbn [fst]. destruct (Req_EM_T x 0) as [->|Hx]; [injection (H2 eq_refl); auto|].
  destruct H1 as (N & k & Hk & -> & E2 & E3); [congruence|]. rewrite Rmult_0_r in E2, E3. subst v2 v3. rewrite norm_line in N. destruct (Rlt_b x 0) eqn:E.
  - apply Rlt_b_true in E. rewrite Rabs_right in N by nra. exact N.
  - apply Rlt_b_false in E. rewrite Rabs_left1 in N by nra. lra.
Qed.
(** The particles of a line in a box of length 1, with four lattice points: there are two on the left, one in the middle, one on the right *)
Example C89_line : exists f l, noh (with_fuel (tube 0 5 1 1 1 1) f) (plain (fun _ => 1)) 2 = Some l /\ mass l = 1 /\ kinetic l = 2 * mass (off_centre l) /\
  (forall v, In v [(-1 / 2, 2); (-1 / 4, 2); (0, 0); (1 / 4, -2)] -> exists q, In q l /\ b_r q = (fst v, 0, 0) /\ fst (fst (b_v q)) = snd v).
Proof.
  destruct (tube_noh 0 5 1 1 1 1 (fun _ => 1) true 0 (fun _ _ => 0)) as (f & H); try lia; try lra; [intros; lra|]. destruct (H 2) as (l & El). exists f, l. split; [exact El|].
  pose proof (tube_noh_sane 0 5 1 1 1 1 f ltac:(lia) ltac:(lia) ltac:(lra) ltac:(lra)) as Hs.
  split; [destruct (C89_mass _ (plain (fun _ => 1)) 2 l Hs ltac:(cbn; lia) eq_refl El) as (M & _); rewrite (M eq_refl); cbn [tube with_fuel g_dim rho_initial box_length]; ring|].
  split; [rewrite (C89_kinetic _ (plain (fun _ => 1)) 2 l Hs eq_refl ltac:(cbn; lra) ltac:(lra) El); field|].
  destruct (C89_particles _ (plain (fun _ => 1)) 2 l Hs eq_refl ltac:(cbn; lra) ltac:(lra) El) as (_ & _ & (s & Hsp & Hin & _) & _ & HF & _).
  assert (Hs4 : s = 1 / 4) by (unfold spacing, half_extent in Hsp; cbn [tube with_fuel lattice_nx domain_type Z.eqb box_length] in Hsp; change (5 - 1)%Z with 4%Z in Hsp; lra). subst s.
  intros v Hx. assert (Hx' : In (fst v, 0, 0) (map b_r l)).
  { apply Hin, lattice_point_fuel, tube_point. unfold half_extent. cbn [tube domain_type Z.eqb box_length coord fst]. cbn [In] in Hx.
    destruct Hx as [<-|[<-|[<-|[<-|[]]]]]; cbn [fst]; (split; [|lra]); [exists 0%nat | exists 1%nat | exists 2%nat | exists 3%nat]; f_equal; f_equal; cbn [INR]; field. }
  apply in_map_iff in Hx'. destruct Hx' as (q & Er & Hq). exists q. split; [exact Hq|]. split; [exact Er|]. rewrite Forall_forall in HF. destruct (HF q Hq) as (Hv & _). rewrite Er in Hv. rewrite (line_velocity _ _ _ Hv).
  cbn [In] in Hx. destruct Hx as [<-|[<-|[<-|[<-|[]]]]]; cbn [fst snd]; destruct Req_EM_T; try lra.
  1, 2: rewrite (proj2 (Rlt_b_true _ _)) by lra; reflexivity. rewrite (proj2 (Rlt_b_false _ _)) by lra. lra.
Qed.
(** The lattice begins at one end of the box and leaves out the other: the momentum is not zero *)
Theorem C89_momentum_refuted : exists p b v l, sane p /\ modify b = None /\ amplitude b = 0 /\ (forall r, profile b r = 1) /\ 0 < v /\ noh p b v = Some l /\ momentum_x l <> 0.
Proof.
  destruct (tube_noh 0 3 1 1 1 1 (fun _ => 1) true 0 (fun _ _ => 0)) as (f & H); try lia; try lra; [intros; lra|]. destruct (H 1) as (l & El).
  pose proof (tube_noh_sane 0 3 1 1 1 1 f ltac:(lia) ltac:(lia) ltac:(lra) ltac:(lra)) as Hs.
  exists (with_fuel (tube 0 3 1 1 1 1) f), (plain (fun _ => 1)), 1, l. repeat (split; [first [exact Hs | reflexivity | lra | exact El]|]).
  destruct (C89_particles _ (plain (fun _ => 1)) 1 l Hs eq_refl ltac:(cbn; lra) ltac:(lra) El) as (_ & _ & (s & Hsp & Hin & _) & _ & HF & _).
  assert (Hs4 : s = 1 / 2) by (unfold spacing, half_extent in Hsp; cbn [tube with_fuel lattice_nx domain_type Z.eqb box_length] in Hsp; change (3 - 1)%Z with 2%Z in Hsp; lra). subst s.
  rewrite Forall_forall in HF. apply Rgt_not_eq. unfold momentum_x.
  assert (V : forall q, In q l -> exists x, b_r q = (x, 0, 0) /\ (x = - 1 / 2 \/ x = 0)).
  { intros q Hq. assert (Hx : In (b_r q) (map b_r l)) by (apply in_map; exact Hq). apply Hin, lattice_point_fuel, tube_point in Hx. destruct Hx as ((i & Er) & W). rewrite Er in W. unfold half_extent in *. cbn [tube domain_type Z.eqb box_length coord fst] in *.
    assert (Hi : (i < 2)%nat) by (apply INR_lt; cbn; lra). eexists. split; [exact Er|]. destruct i as [|[|i]]; [left | right | lia]; cbn [INR]; lra. }
  assert (Hx : In (- 1 / 2, 0, 0) (map b_r l)).
  { apply Hin, lattice_point_fuel, tube_point. unfold half_extent. cbn [tube domain_type Z.eqb box_length coord fst]. split; [exists 0%nat; f_equal; f_equal; cbn [INR]; field | lra]. }
  apply in_map_iff in Hx. destruct Hx as (q & Er & Hq). apply (sum_pos _ _ l q); [|exact Hq|].
  - intros q' Hq'. destruct (HF q' Hq') as (Hv & Hm & _). destruct (V q' Hq') as (x & Er' & Hx). rewrite Er' in Hv. rewrite (line_velocity _ _ _ Hv). destruct Req_EM_T; [lra|]. destruct Hx as [->| ->]; [|lra]. rewrite (proj2 (Rlt_b_true _ _)) by lra. lra.
  - destruct (HF q Hq) as (Hv & Hm & _). rewrite Er in Hv. rewrite (line_velocity _ _ _ Hv). destruct Req_EM_T; [lra|]. rewrite (proj2 (Rlt_b_true _ _)) by lra. lra.
Qed.
(** A profile that is not constant: the density is stored without the profile, pressure and energy belong to the density of the profile *)
Theorem C89_density_refuted : exists p b v l q, sane p /\ modify b = None /\ amplitude b = 0 /\ (forall r, profile b r = rho_parabolic_density 1 r) /\ 0 < v /\ noh p b v = Some l /\ In q l /\
  b_P q <> (poly_gamma p - 1) * b_rho q * b_u q.
Proof.
  destruct (tube_noh 0 4 1 1 1 1 (rho_parabolic_density 1) false 0 (fun _ _ => 0)) as (f & H); try lia; try lra; [cbn [rho_parabolic_density]; unfold SQ; lra| |].
  { intros x Hx. apply tube_point in Hx. destruct Hx as ((i & ->) & W). unfold half_extent in *. cbn [tube domain_type Z.eqb box_length coord fst] in *. cbn [rho_parabolic_density]. unfold SQ. set (y := norm3 _ / 1).
    assert (0 <= y < 1). { unfold y. rewrite norm_line. unfold Rabs. destruct Rcase_abs; lra. } nra. }
  destruct (H 1) as (l & El). set (b := BPar _ _ _ _ _) in El.
  pose proof (tube_noh_sane 0 4 1 1 1 1 f ltac:(lia) ltac:(lia) ltac:(lra) ltac:(lra)) as Hs.
  destruct (C89_particles _ b 1 l Hs eq_refl ltac:(cbn; lra) ltac:(lra) El) as (_ & _ & (s & Hsp & Hin & _) & _ & HF & _).
  assert (Hs4 : s = 1 / 3) by (unfold spacing, half_extent in Hsp; cbn [tube with_fuel lattice_nx domain_type Z.eqb box_length] in Hsp; change (4 - 1)%Z with 3%Z in Hsp; lra). subst s.
  assert (Hx : In (- 1 / 2, 0, 0) (map b_r l)).
  { apply Hin, lattice_point_fuel, tube_point. unfold half_extent. cbn [tube domain_type Z.eqb box_length coord fst]. split; [exists 0%nat; f_equal; f_equal; cbn [INR]; field | lra]. }
  apply in_map_iff in Hx. destruct Hx as (q & Er & Hq). exists (with_fuel (tube 0 4 1 1 1 1) f), b, 1, l, q. repeat (split; [first [exact Hs | reflexivity | lra | exact El | exact Hq]|]).
  rewrite Forall_forall in HF. destruct (HF q Hq) as (_ & _ & _ & Erho & rho & Hrho & Hpos & _ & Eu & EP). rewrite Erho, Eu, EP, Er in *. rewrite norm_line in Hrho.
  rewrite <- ambient_gas by (try exact Hpos; cbn [tube with_fuel rho_initial poly_gamma]; lra).
  assert (Hr : rho = 3 / 4). { cbn [tube with_fuel rho_initial sphere_radius b profile rho_parabolic_density] in Hrho. unfold SQ in Hrho. rewrite Rabs_left in Hrho by lra. lra. } subst rho.
  assert (Hu : 0 < ambient_u (with_fuel (tube 0 4 1 1 1 1) f) (3 / 4)) by (unfold ambient_u; apply Rmult_lt_0_compat; [cbn [tube with_fuel rho_initial poly_gamma pressure_initial]; apply Rdiv_lt_0_compat; lra | unfold Rpower; apply exp_pos]).
  clear Eu EP. revert Hu. generalize (ambient_u (with_fuel (tube 0 4 1 1 1 1) f) (3 / 4)). intros u Hu. cbn [tube with_fuel rho_initial poly_gamma]. lra.
Qed.
(** With a perturbation the speed is not the given one *)
Theorem C89_perturbed_refuted : exists p b v l q, sane p /\ modify b = None /\ 0 < amplitude b /\ 0 < v /\ noh p b v = Some l /\ In q l /\ b_r q <> (0, 0, 0) /\ norm3 (b_v q) <> v.
Proof.
  destruct (tube_noh 0 2 1 1 1 1 (fun _ => 1) true 1 (fun _ _ => -1)) as (f & H); try lia; try lra; [intros; lra|]. destruct (H 1) as (l & El). set (b := BPar _ _ _ _ _) in El. set (p := with_fuel _ f) in El.
  pose proof (tube_noh_sane 0 2 1 1 1 1 f ltac:(lia) ltac:(lia) ltac:(lra) ltac:(lra)) as Hs. fold p in Hs.
  destruct (noh_inv p b 1 l El) as (_ & _ & Hdt & _ & pts & m & l0 & Ep & Hne & _ & El0 & Ell & Hb). destruct (sane_sep p Hdt Hs) as (Hsep & Hord). destruct (bl_points p pts Hsep Hord Ep) as (_ & _ & Hp).
  destruct pts as [|x pts]; [contradiction Hne; reflexivity|]. assert (Hx : lattice_point p (bl_sep p) x) by (apply point_iff, Hp; left; reflexivity).
  assert (Es : bl_sep p = 1) by (symmetry; apply spacing_unique; [cbn; lia|]; unfold spacing, half_extent; cbn [p tube with_fuel lattice_nx domain_type Z.eqb box_length]; change (2 - 1)%Z with 1%Z; lra).
  rewrite Es in Hx. apply lattice_point_fuel, tube_point in Hx. destruct Hx as ((i & ->) & W). unfold half_extent in *. cbn [tube domain_type Z.eqb box_length coord fst] in *.
  assert (Hi : (i < 1)%nat) by (apply INR_lt; cbn; lra). destruct i as [|i]; [|lia]. clear W Hi. cbn [INR] in *. replace (- (1 / 2) + 0 * 1) with (- / 2) in * by field.
  assert (M : mag 1 (- / 2, 0, 0) = / 2) by (unfold mag; rewrite Rabs_left by lra; lra).
  cbn [modify b map] in El0. subst l0. cbn [mapi map] in Ell. set (q := noh_as p b 1 m 0 (fresh (- / 2, 0, 0))) in Ell.
  exists p, b, 1, l, q. split; [exact Hs|]. split; [reflexivity|]. split; [cbn; lra|]. split; [lra|]. split; [exact El|]. split; [rewrite Ell; left; reflexivity|].
  pose proof (smoothing_h_pos p m (bl_rho p b (/ 2)) ltac:(apply Hs)) as Hh. set (h := smoothing p m (bl_rho p b (/ 2))) in Hh.
  assert (Er : b_r q = (- / 2 - h, 0, 0)).
  { unfold q, noh_as, is_fresh. cbn [b modify b_r fresh]. replace (g_dim p) with 1%nat by reflexivity. rewrite M. fold h. unfold shake. cbn [b amplitude noise]. rewrite (proj2 (Rlt_b_true 0 1)) by lra. f_equal. f_equal. ring. }
  assert (Ev : b_v q = scale (/ / 2) (scale (-1 * 1) (b_r q))).
  { unfold q, noh_as. cbn [b_v b_r fresh]. replace (g_dim p) with 1%nat by reflexivity. rewrite M. rewrite (proj2 (Rlt_b_true 0 (/ 2))) by lra. reflexivity. }
  rewrite Ev, ! norm3_scale, Er, norm_line. split; [intros E; injection E; lra|].
  rewrite (Rabs_right (/ / 2)) by lra. rewrite (Rabs_left (-1 * 1)) by lra. rewrite Rabs_left by lra. lra.
Qed.

Print Assumptions C89_particles.
Print Assumptions C89_mass.
Print Assumptions C89_kinetic.
Print Assumptions C89_ends.
Print Assumptions C89_perturbed.
Print Assumptions C89_modify.
Print Assumptions C89_momentum_refuted.
Print Assumptions C89_density_refuted.
Print Assumptions C89_perturbed_refuted.
