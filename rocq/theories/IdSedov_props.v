(** C88: the initial data of the Sedov blast wave *)
From Coq Require Import Reals Lra Lia.
From Coquelicot Require Import Coquelicot.
From Verif Require Import Base BuildTree_model Range_model Range_props Lattice_model Lattice_props LatticeBox_props Profile_model Profile_props IdGen_model IdGen_lemmas IdSod_props IdGas_props IdBlast_model IdBlast_lemmas.
Local Open Scope R_scope.

(** ** Statement *)
(** The domain: a box or a ball around the origin, of the extents given by the parameters *)
Definition half_extent (p : gpar) (a : nat) : R :=
  if (domain_type p =? 0)%Z then match a with 0%nat => box_length p / 2 | 1%nat => box_width p / 2 | _ => box_height p / 2 end else sphere_radius p.
(** The points: the nodes of the lattice in the domain *)
Definition lattice_point (p : gpar) (s : R) (x : R * R * R) : Prop :=
  node (g_dim p) (lattice_type p) (fun a => - half_extent p a) s x /\ within (g_dim p) (if (g_dim p =? 1)%nat then 0%Z else domain_type p) (fun a => - half_extent p a) (half_extent p) x.
(** nx points along the extent in x *)
Definition spacing (p : gpar) (s : R) : Prop := s * IZR (lattice_nx p - 1) = 2 * half_extent p 0.
Definition sane (p : gpar) : Prop :=
  (2 <= lattice_nx p)%Z /\ 0 < g_etaw p /\ if (domain_type p =? 0)%Z then 0 < box_length p /\ 0 <= box_width p /\ 0 <= box_height p else 0 < sphere_radius p.
(** Energy per mass and pressure of the gas the blast goes off in: polytropic *)
Definition ambient_u (p : gpar) (rho : R) : R := pressure_initial p / ((poly_gamma p - 1) * rho_initial p) * Rpower (rho / rho_initial p) (poly_gamma p - 1).
Definition ambient_P (p : gpar) (rho : R) : R := pressure_initial p * Rpower (rho / rho_initial p) (poly_gamma p).
(** Mass and energy of particles *)
Definition mass (l : list bod) : R := sum_of b_m l.
Definition energy (l : list bod) : R := sum_of (fun q => b_m q * b_u q) l.
Definition ambient_energy (p : gpar) (l : list bod) : R := sum_of (fun q => b_m q * ambient_u p (b_rho q)) l.
Definition zone (rb : R) (l : list bod) : list bod := filter (fun q => Rlt_b (norm3 (b_r q)) rb) l.

(** A domain that is four spacings wide *)
Definition roomy (p : gpar) (s : R) : Prop := forall a, (a < g_dim p)%nat -> 2 * s <= half_extent p a /\ half_extent p 0 <= 100000 * half_extent p a.

(** ** Proofs *)
Lemma minus_half : forall p a, bl_min p a = - half_extent p a.
Proof. intros p a. unfold bl_min, half_extent. destruct (domain_type p =? 0)%Z; [|reflexivity]. destruct a as [|[|a]]; cbn [pt]; field. Qed.
Lemma plus_half : forall p a, bl_max p a = half_extent p a.
Proof. intros p a. unfold bl_max, half_extent. destruct (domain_type p =? 0)%Z; [|reflexivity]. destruct a as [|[|a]]; reflexivity. Qed.
Lemma node_ext : forall dim ty b1 b2 s x, (forall a, b1 a = b2 a) -> node dim ty b1 s x -> node dim ty b2 s x.
Proof. intros dim ty b1 b2 s x H N. unfold node, node_1d, node_2d, node_3d in *. rewrite <- ! H. exact N. Qed.
Lemma within_ext : forall dim ty b1 b2 c1 c2 x, (forall a, b1 a = b2 a) -> (forall a, c1 a = c2 a) -> within dim ty b1 c1 x -> within dim ty b2 c2 x.
Proof.
  intros dim ty b1 b2 c1 c2 x Hb Hc (W1 & W2). split.
  - intros a Ha. rewrite <- ! Hb, <- ! Hc. exact (W1 a Ha).
  - intros T a Ha. rewrite <- ! Hb, <- ! Hc. replace (sumR dim (fun b => (coord x b - ((b2 b + c2 b) / 2 - (c1 0%nat - b1 0%nat) / 1000000)) ^ 2)) with (sumR dim (fun b => (coord x b - ((b1 b + c1 b) / 2 - (c1 0%nat - b1 0%nat) / 1000000)) ^ 2)); [exact (W2 T a Ha)|].
    assert (G : forall t n, sumR n (fun b => (coord x b - ((b1 b + c1 b) / 2 - t)) ^ 2) = sumR n (fun b => (coord x b - ((b2 b + c2 b) / 2 - t)) ^ 2)) by (intros t; induction n as [|n IH]; cbn [sumR]; [reflexivity | rewrite IH, Hb, Hc; reflexivity]).
    apply G.
Qed.
Lemma point_iff : forall p x, node (g_dim p) (lattice_type p) (bl_min p) (bl_sep p) x /\ within (g_dim p) (dom p) (bl_min p) (bl_max p) x <-> lattice_point p (bl_sep p) x.
Proof.
  intros p x. unfold lattice_point, dom. split; intros (N & W); split; try (eapply node_ext; [|exact N]); try (eapply within_ext; [| |exact W]); intros a; rewrite ?minus_half, ?plus_half; reflexivity.
Qed.
Lemma sep_spacing : forall p, (2 <= lattice_nx p)%Z -> spacing p (bl_sep p).
Proof. intros p Hn. unfold spacing. rewrite (bl_sep_n p Hn). unfold half_extent. destruct (domain_type p =? 0)%Z; field. Qed.
Lemma spacing_unique : forall p s, (2 <= lattice_nx p)%Z -> spacing p s -> s = bl_sep p.
Proof. intros p s Hn H. pose proof (sep_spacing p Hn) as H'. unfold spacing in *. assert (1 <= IZR (lattice_nx p - 1)) by (apply IZR_le; lia). nra. Qed.
Lemma sane_sep : forall p, (domain_type p = 0 \/ domain_type p = 1)%Z -> sane p -> 0 < bl_sep p /\ forall a, bl_min p a <= bl_max p a.
Proof.
  intros p Hdt (Hn & _ & H). assert (1 <= IZR (lattice_nx p - 1)) by (apply IZR_le; lia). split.
  - unfold bl_sep. destruct Hdt as [Hdt|Hdt]; rewrite Hdt in *; cbn [Z.eqb Pos.eqb] in *; apply Rdiv_lt_0_compat; lra.
  - apply bl_ordered; [exact Hdt|]. destruct Hdt as [Hdt|Hdt]; rewrite Hdt in *; cbn [Z.eqb Pos.eqb] in *; lra.
Qed.
Lemma power_quot : forall a b e, 0 < a -> 0 < b -> Rpower (a / b) e = Rpower a e / Rpower b e.
Proof.
  intros a b e Ha Hb. unfold Rpower, Rdiv. rewrite ln_mult, ln_Rinv by (try apply Rinv_0_lt_compat; assumption).
  rewrite <- exp_Ropp, <- exp_plus. f_equal. ring.
Qed.
Lemma power_step : forall a e, 0 < a -> Rpower a e = Rpower a (e - 1) * a.
Proof. intros a e Ha. rewrite <- (Rpower_1 a) at 3 by exact Ha. rewrite <- Rpower_plus. f_equal. ring. Qed.
Lemma bl_u_ambient : forall p rho, 0 < rho_initial p -> 0 < rho -> poly_gamma p <> 1 -> bl_u p rho = ambient_u p rho.
Proof.
  intros p rho Hi Hr Hg. unfold bl_u, ambient_u. rewrite power_quot, (power_step (rho_initial p)) by assumption.
  pose proof (Rpower_pos (rho_initial p) (poly_gamma p - 1)). field. repeat split; lra.
Qed.
Lemma ambient_gas : forall p rho, 0 < rho_initial p -> 0 < rho -> poly_gamma p <> 1 -> rho * ambient_u p rho * (poly_gamma p - 1) = ambient_P p rho.
Proof.
  intros p rho Hi Hr Hg. unfold ambient_u, ambient_P. rewrite (power_step (rho / rho_initial p) (poly_gamma p)) by (apply Rdiv_lt_0_compat; assumption). field. split; lra.
Qed.
Lemma roomy_wide : forall p, (1 <= g_dim p <= 3)%nat -> (domain_type p = 0 \/ domain_type p = 1)%Z -> sane p -> roomy p (bl_sep p) -> wide p.
Proof.
  intros p Hd Hdt Hsane Hr. destruct (sane_sep p Hdt Hsane) as (Hs0 & _). destruct Hsane as (Hn & _ & H). assert (Hn1 : 1 <= IZR (lattice_nx p - 1)) by (apply IZR_le; lia). pose proof (bl_sep_n p Hn) as Es. unfold roomy, half_extent in Hr. unfold wide.
  assert (H5 : 0 < bl_sep p -> 4 * bl_sep p <= bl_sep p * IZR (lattice_nx p - 1) -> (5 <= lattice_nx p)%Z).
  { intros H0 H4. assert (4 <= IZR (lattice_nx p - 1)) by nra. apply le_IZR in H1. lia. }
  destruct Hdt as [Hdt|Hdt]; rewrite Hdt in *; cbn [Z.eqb Pos.eqb] in *.
  - pose proof (Hr 0%nat ltac:(lia)) as (H0 & _). cbn iota in H0. split; [apply H5; lra|]. split; [lra|].
    intros w [(D & ->)|(D & ->)]; [destruct (Hr 1%nat ltac:(lia)) | destruct (Hr 2%nat ltac:(lia))]; cbn iota in *; lra.
  - pose proof (Hr 0%nat ltac:(lia)) as (H0 & _). split; [apply H5; lra | lra].
Qed.
(** what the particle loop does *)
Definition sedov_bad (p : gpar) (b : bpar) (m : R) (q : bod) : bool :=
  let rho := if is_fresh b then bl_rho p b (mag (g_dim p) (b_r q)) else b_rho q in
  negb (Rlt_b 0 rho) || negb (Rlt_b 0 ((if is_fresh b then m else b_m q) / rho)).
Definition sedov_as (p : gpar) (b : bpar) (E rb m M : R) (a : nat) (q : bod) : bod :=
  let r := mag (g_dim p) (b_r q) in
  let rho := if is_fresh b then bl_rho p b r else b_rho q in
  let ma := if is_fresh b then m else b_m q in
  let u := bl_u p rho + (if Rlt_b r rb then E / M else 0) in
  Bod (if is_fresh b then Z.of_nat a else b_id q) (shake (g_dim p) (smoothing p ma rho) b a (b_r q)) (0, 0, 0) (if is_fresh b then smoothing p ma rho else b_h q)
    rho u (rho * u * (poly_gamma p - 1)) ma.
Lemma sedov_step : forall p b E rb m M a q, sedov_particle p b E rb m M a q = if sedov_bad p b m q then None else Some (sedov_as p b E rb m M a q).
Proof. reflexivity. Qed.
Lemma sedov_inv : forall p b E rb l, sedov p b E rb = Some l ->
  0 < rho_initial p /\ poly_gamma p <> 1 /\ (domain_type p = 0 \/ domain_type p = 1)%Z /\ profile b 0 <> 0 /\
  exists pts m l0, Emits (bl_lattice p) pts /\ pts <> [] /\ m = bl_total p (profile b) / INR (length pts) /\ l0 = match modify b with Some l => l | None => map fresh pts end /\
    l = mapi (sedov_as p b E rb m (sedov_mass (g_dim p) rb m l0)) 0 l0 /\ forall q, In q l0 -> sedov_bad p b m q = false.
Proof.
  intros p b E rb l H. unfold sedov in H. destruct (bl_defined p b) eqn:Ed; [|discriminate]. apply bl_defined_true in Ed. cbn [negb] in H.
  destruct (bl_bodies p b) as [(m & l0)|] eqn:Eb; [|discriminate]. destruct (bl_inv p b m l0 Eb) as (Hdt & Hf & pts & Ep & Hne & Em & El).
  destruct (each_inv _ _ _ (sedov_step p b E rb m _) _ _ _ H) as (-> & Hc).
  split; [apply Ed|]. split; [apply Ed|]. split; [exact Hdt|]. split; [exact Hf|]. exists pts, m, l0. repeat (split; [assumption|]). split; [reflexivity | exact Hc].
Qed.
Lemma shake_none : forall dim h b a r, amplitude b <= 0 -> shake dim h b a r = r.
Proof. intros dim h b a [[x y] z] H. unfold shake. replace (Rlt_b 0 (amplitude b)) with false by (symmetry; apply Rlt_b_false; exact H). reflexivity. Qed.
Lemma not_bad_fresh : forall p b m q, modify b = None -> sedov_bad p b m q = false -> 0 < bl_rho p b (mag (g_dim p) (b_r q)) /\ 0 < m.
Proof.
  intros p b m q Hm H. unfold sedov_bad, is_fresh in H. rewrite Hm in H. apply orb_false_iff in H. destruct H as (H1 & H2). apply negb_false_iff in H1. apply negb_false_iff in H2.
  apply Rlt_b_true in H1. apply Rlt_b_true in H2. split; [exact H1|]. replace m with (m / bl_rho p b (mag (g_dim p) (b_r q)) * bl_rho p b (mag (g_dim p) (b_r q))) by (field; lra). apply Rmult_lt_0_compat; assumption.
Qed.
(** the energy of a fresh run *)
Lemma sedov_energy : forall p b E rb m M l0, modify b = None -> 0 < rho_initial p -> poly_gamma p <> 1 -> (forall q, In q l0 -> sedov_bad p b m q = false) ->
  energy (mapi (sedov_as p b E rb m M) 0 l0) = ambient_energy p (mapi (sedov_as p b E rb m M) 0 l0) + sedov_mass (g_dim p) rb m l0 * (E / M).
Proof.
  intros p b E rb m M l0 Hm Hi Hg Hb. unfold energy, ambient_energy. rewrite sedov_mass_sum, <- sum_mult.
  rewrite (sum_mapi _ _ _ _ (fun q => m * ambient_u p (bl_rho p b (mag (g_dim p) (b_r q))) + (if Rlt_b (mag (g_dim p) (b_r q)) rb then m else 0) * (E / M))).
  - rewrite sum_plus. f_equal. symmetry. apply sum_mapi. intros a q _. unfold sedov_as, is_fresh. rewrite Hm. cbn [b_m b_rho]. reflexivity.
  - intros a q Hq. destruct (not_bad_fresh p b m q Hm (Hb q Hq)) as (Hr & _). unfold sedov_as, is_fresh. rewrite Hm. cbn [b_m b_u]. rewrite bl_u_ambient by assumption. destruct (Rlt_b _ _); ring.
Qed.

(** ** C88 *)
(** Without perturbation: the particles are the points of the lattice, at rest, with equal masses, with densities of the chosen profile and rho_initial at the
    centre, smoothing lengths of mass and density, the equation of state, the pressure of the surroundings outside of the blast zone, and in it an energy per
    mass that is higher by the blast energy over the mass of the zone *)
Theorem C88_particles : forall p b E rb l, sane p -> modify b = None -> amplitude b <= 0 -> sedov p b E rb = Some l ->
  l <> [] /\ map b_id l = map Z.of_nat (seq 0 (length l)) /\
  (exists s, spacing p s /\ (forall x, In x (map b_r l) <-> lattice_point p s x) /\ ((g_dim p < 3)%nat \/ lattice_type p <> 2%Z -> NoDup (map b_r l))) /\
  (forall q q', In q l -> In q' l -> b_m q = b_m q') /\
  Forall (fun q => b_v q = (0, 0, 0) /\ 0 < b_m q /\ 0 < b_rho q /\ 0 < b_h q /\ b_rho q * (b_h q / g_etaw p) ^ g_dim p = b_m q /\
    b_rho q * profile b 0 = rho_initial p * profile b (norm3 (b_r q) / sphere_radius p) /\
    b_P q = (poly_gamma p - 1) * b_rho q * b_u q /\
    (rb <= norm3 (b_r q) -> b_P q = ambient_P p (b_rho q)) /\
    (norm3 (b_r q) < rb -> (b_u q - ambient_u p (b_rho q)) * mass (zone rb l) = E)) l.
Proof.
  intros p b E rb l Hs Hm Ha H. destruct (sedov_inv p b E rb l H) as (Hi & Hg & Hdt & Hf & pts & m & l0 & Ep & Hne & Em & El & -> & Hb). rewrite Hm in El.
  destruct (sane_sep p Hdt Hs) as (Hsep & Hord). destruct (bl_points p pts Hsep Hord Ep) as (Hd & Ht & Hp). destruct Hs as (Hn & He & _).
  assert (Pos : map b_r (mapi (sedov_as p b E rb m (sedov_mass (g_dim p) rb m l0)) 0 l0) = pts).
  { rewrite mapi_map, (mapi_plain _ _ _ b_r) by (intros a q _; unfold sedov_as; cbn [b_r]; apply shake_none; exact Ha). rewrite El, map_map, map_id. reflexivity. }
  assert (Mg : forall q, In q l0 -> mag (g_dim p) (b_r q) = norm3 (b_r q)).
  { intros q Hq. rewrite El in Hq. apply in_map_iff in Hq. destruct Hq as (x & <- & Hx). apply Hp in Hx. apply (mag_norm _ _ _ _ _ Hd (proj1 Hx)). }
  split; [rewrite El; destruct pts; [contradiction | discriminate]|].
  split; [rewrite mapi_map, mapi_length; rewrite <- mapi_index; unfold sedov_as, is_fresh; rewrite Hm; reflexivity|].
  split; [exists (bl_sep p); split; [apply sep_spacing; exact Hn|]; rewrite Pos; split; [intros x; rewrite Hp; apply point_iff | intros Hty; eapply lattice_nodup; [exact Hsep | exact Hty | exact Ep]]|].
  assert (Mc : Forall (fun q => b_m q = m) (mapi (sedov_as p b E rb m (sedov_mass (g_dim p) rb m l0)) 0 l0)) by (apply mapi_forall; intros k q _; unfold sedov_as, is_fresh; rewrite Hm; reflexivity).
  split; [rewrite Forall_forall in Mc; intros q q' Hq Hq'; rewrite (Mc q Hq), (Mc q' Hq'); reflexivity|].
  assert (Mz : mass (zone rb (mapi (sedov_as p b E rb m (sedov_mass (g_dim p) rb m l0)) 0 l0)) = sedov_mass (g_dim p) rb m l0).
  { transitivity (sum_of (fun q => if Rlt_b (mag (g_dim p) (b_r q)) rb then m else 0) l0); [|symmetry; apply sedov_mass_sum]. generalize (sedov_mass (g_dim p) rb m l0). intros M. clear - Mg Hm Ha. generalize 0%nat. induction l0 as [|q l0 IH]; intros a; [reflexivity|]. cbn [mapi zone filter sum_of fold_right].
    fold (sum_of (fun q => if Rlt_b (mag (g_dim p) (b_r q)) rb then m else 0) l0). rewrite <- (IH (fun q' Hq => Mg q' (or_intror Hq)) (S a)).
    replace (b_r (sedov_as p b E rb m M a q)) with (b_r q) by (unfold sedov_as; cbn [b_r]; rewrite shake_none by exact Ha; reflexivity). rewrite (Mg q (or_introl eq_refl)).
    destruct (Rlt_b (norm3 (b_r q)) rb); [|unfold zone; ring]. unfold mass. cbn [sum_of fold_right]. unfold zone. f_equal. unfold sedov_as, is_fresh. rewrite Hm. reflexivity. }
  apply mapi_forall. intros a q Hq. destruct (not_bad_fresh p b m q Hm (Hb q Hq)) as (Hr & Hmp). rewrite Mz.
  unfold sedov_as, is_fresh. rewrite Hm. rewrite shake_none by exact Ha. cbn [b_v b_m b_rho b_h b_r b_P b_u]. rewrite <- (Mg q Hq).
  split; [reflexivity|]. split; [exact Hmp|]. split; [exact Hr|]. split; [apply smoothing_h_pos; exact He|]. split; [apply smoothing_ok; try assumption; lia|].
  split; [unfold bl_rho; field; exact Hf|]. split; [ring|]. rewrite bl_u_ambient by assumption. split; intros L.
  - replace (Rlt_b _ _) with false by (symmetry; apply Rlt_b_false; exact L). rewrite Rplus_0_r. apply ambient_gas; assumption.
  - replace (Rlt_b _ _) with true by (symmetry; apply Rlt_b_true; exact L).
    assert (0 < sedov_mass (g_dim p) rb m l0).
    { rewrite sedov_mass_sum. apply (sum_pos _ _ l0 q); [intros q' _; destruct (Rlt_b _ _); lra | exact Hq|]. replace (Rlt_b _ _) with true by (symmetry; apply Rlt_b_true; exact L). exact Hmp. }
    field. lra.
Qed.
(** Also with perturbed positions: if the lattice has a point in the blast zone then the particles together have the energy of the surroundings and the blast energy,
    otherwise the former alone *)
Theorem C88_energy : forall p b E rb l s, sane p -> modify b = None -> spacing p s -> sedov p b E rb = Some l ->
  ((exists x, lattice_point p s x /\ norm3 x < rb) -> energy l = ambient_energy p l + E) /\
  ((forall x, lattice_point p s x -> rb <= norm3 x) -> energy l = ambient_energy p l).
Proof.
  intros p b E rb l s Hs Hm Hsp H. destruct (sedov_inv p b E rb l H) as (Hi & Hg & Hdt & Hf & pts & m & l0 & Ep & Hne & Em & El & -> & Hb). rewrite Hm in El.
  destruct (sane_sep p Hdt Hs) as (Hsep & Hord). destruct (bl_points p pts Hsep Hord Ep) as (Hd & Ht & Hp). destruct Hs as (Hn & He & _). rewrite (spacing_unique p s Hn Hsp).
  assert (Mg : forall x, In x pts -> mag (g_dim p) x = norm3 x) by (intros x Hx; apply Hp in Hx; apply (mag_norm _ _ _ _ _ Hd (proj1 Hx))).
  rewrite (sedov_energy p b E rb m _ l0 Hm Hi Hg Hb). split.
  - intros (x & Hx & Hr). apply point_iff, Hp in Hx. f_equal.
    assert (Hq : In (fresh x) l0) by (rewrite El; apply in_map; exact Hx). destruct (not_bad_fresh p b m _ Hm (Hb _ Hq)) as (_ & Hmp).
    assert (0 < sedov_mass (g_dim p) rb m l0).
    { rewrite sedov_mass_sum. apply (sum_pos _ _ l0 (fresh x)); [intros q' _; destruct (Rlt_b _ _); lra | exact Hq|]. cbn [b_r fresh]. rewrite (Mg x Hx). replace (Rlt_b _ _) with true by (symmetry; apply Rlt_b_true; exact Hr). exact Hmp. }
    field. lra.
  - intros Hall. replace (sedov_mass (g_dim p) rb m l0) with 0 at 2; [ring|]. symmetry. rewrite sedov_mass_sum. apply sum_zero. intros q Hq. rewrite El in Hq. apply in_map_iff in Hq. destruct Hq as (x & <- & Hx).
    cbn [b_r fresh]. rewrite (Mg x Hx). replace (Rlt_b _ _) with false; [reflexivity|]. symmetry. apply Rlt_b_false. apply Hall. apply point_iff, Hp. exact Hx.
Qed.
(** A domain that is four spacings wide and a blast zone of two spacings always have such a point *)
Theorem C88_zone : forall p b E rb l s, sane p -> modify b = None -> spacing p s -> roomy p s -> 2 * s <= rb -> sedov p b E rb = Some l -> energy l = ambient_energy p l + E.
Proof.
  intros p b E rb l s Hs Hm Hsp Hr Hrb H. apply (C88_energy p b E rb l s Hs Hm Hsp H).
  destruct (sedov_inv p b E rb l H) as (_ & _ & Hdt & _ & pts & _ & _ & Ep & _). destruct (sane_sep p Hdt Hs) as (Hsep & Hord). destruct (bl_points p pts Hsep Hord Ep) as (Hd & Ht & _).
  assert (Es : s = bl_sep p) by (apply spacing_unique; [apply Hs | exact Hsp]). rewrite Es in *.
  destruct (bl_centre p Hd Ht Hdt (roomy_wide p Hd Hdt Hs Hr)) as (x & N & W & L). exists x. split; [apply point_iff; split; assumption | lra].
Qed.
(** The masses add up to the mass of the domain: in a box that of the density rho_initial; in a disc or a ball filled with constant density likewise; and in a ball with
    any profile that is normalised to mass 1 that of the density which the particles are given *)
Definition enclosed (p : gpar) (b : bpar) (M : R -> R) : Prop :=
  M 0 = 0 /\ forall r, 0 <= r -> is_derive M r (surface (g_dim p) r * (rho_initial p * profile b (r / sphere_radius p) / profile b 0)).
Lemma sedov_mass_total : forall p b E rb l, modify b = None -> sedov p b E rb = Some l -> mass l = bl_total p (profile b).
Proof.
  intros p b E rb l Hm H. destruct (sedov_inv p b E rb l H) as (_ & _ & _ & _ & pts & m & l0 & _ & Hne & Em & El & -> & _). rewrite Hm in El.
  unfold mass. rewrite (sum_mapi _ _ _ _ (fun _ => m)) by (intros a q _; unfold sedov_as, is_fresh; rewrite Hm; reflexivity). rewrite sum_const, El, map_length, Em. field.
  apply Rgt_not_eq. apply lt_0_INR. destruct pts; [contradiction | cbn; lia].
Qed.
Lemma ball_enclosed : forall p b mu, profile b 0 <> 0 -> 0 < sphere_radius p -> (1 <= g_dim p <= 3)%nat -> mu 0 = 0 -> (forall r, 0 <= r -> is_derive mu r (surface (g_dim p) r * profile b r)) ->
  enclosed p b (fun r => rho_initial p / profile b 0 * sphere_radius p ^ g_dim p * mu (r / sphere_radius p)).
Proof.
  intros p b mu Hf HR Hd H0 Hmu. split; [replace (0 / sphere_radius p) with 0 by (field; lra); rewrite H0; ring|]. intros r Hr.
  assert (Hq : 0 <= r / sphere_radius p) by (apply Rmult_le_pos; [exact Hr | left; apply Rinv_0_lt_compat; exact HR]).
  evar_last.
  - apply is_derive_scal. apply (is_derive_comp mu (fun r => r / sphere_radius p)); [apply Hmu; exact Hq|]. auto_derive; [trivial | reflexivity].
  - unfold scal, surface; cbn; unfold mult; cbn. destruct (g_dim p) as [|[|[|[|d]]]] eqn:E; try lia; cbn [pow]; field; split; lra.
Qed.
Theorem C88_mass : forall p b E rb l, sane p -> (1 <= g_dim p <= 3)%nat -> modify b = None -> sedov p b E rb = Some l ->
  (domain_type p = 0%Z -> mass l = rho_initial p * match g_dim p with 1%nat => box_length p | 2%nat => box_length p * box_width p | _ => box_length p * box_width p * box_height p end) /\
  (domain_type p = 1%Z -> (2 <= g_dim p)%nat -> profile b 0 = rho_constant_density (g_dim p) 0 -> mass l = rho_initial p * if (g_dim p =? 2)%nat then PI * sphere_radius p ^ 2 else 4 / 3 * PI * sphere_radius p ^ 3) /\
  (domain_type p = 1%Z -> g_dim p = 3%nat -> forall mu, (forall r, 0 <= r -> is_derive mu r (surface 3 r * profile b r)) -> mu 0 = 0 -> mu 1 = 1 ->
     exists M, enclosed p b M /\ mass l = M (sphere_radius p)).
Proof.
  intros p b E rb l Hs Hd Hm H. rewrite (sedov_mass_total p b E rb l Hm H). destruct (sedov_inv p b E rb l H) as (_ & _ & _ & Hf & _). pose proof PI_RGT_0. destruct Hs as (_ & _ & Hs). unfold bl_total. split; [|split].
  - intros ->. cbn [Z.eqb]. assert (g_dim p = 1 \/ g_dim p = 2 \/ g_dim p = 3)%nat as [-> | [-> | ->]] by lia; ring.
  - intros -> H2 Hc. cbn [Z.eqb]. assert (g_dim p = 2 \/ g_dim p = 3)%nat as [D | D] by lia; rewrite D in *; cbn [Nat.eqb]; unfold SQ, CU; [ring|]. rewrite Hc. unfold rho_constant_density. field. lra.
  - intros Dt D mu Hmu Hm0 Hm1. rewrite Dt in Hs. cbn [Z.eqb] in Hs. eexists. split; [apply (ball_enclosed p b mu Hf Hs Hd Hm0); rewrite D; exact Hmu|]. rewrite D, Dt. cbn [Z.eqb]. unfold CU.
    replace (sphere_radius p / sphere_radius p) with 1 by (field; lra). rewrite Hm1. field. exact Hf.
Qed.
(** The program comes to its end if there is a point in the domain and the profile is positive at all points *)
Lemma lattice_point_fuel : forall p f s x, lattice_point (with_fuel p f) s x <-> lattice_point p s x.
Proof. intros p f s x. split; intros H; exact H. Qed.
Lemma bl_total_pos : forall p f, sane p -> (1 <= g_dim p <= 3)%nat -> (domain_type p = 0 \/ domain_type p = 1)%Z -> 0 < rho_initial p -> 0 < f 0 ->
  (domain_type p = 0%Z -> (2 <= g_dim p)%nat -> 0 < box_width p) -> (domain_type p = 0%Z -> (3 <= g_dim p)%nat -> 0 < box_height p) -> (g_dim p = 1%nat -> 0 < box_length p) -> 0 < bl_total p f.
Proof.
  intros p f (_ & _ & Hs) Hd Hdt Hi Hf Hw Hh HL. pose proof PI_RGT_0. unfold bl_total. destruct Hdt as [Dt|Dt]; rewrite Dt in *; cbn [Z.eqb Pos.eqb] in *;
    assert (g_dim p = 1 \/ g_dim p = 2 \/ g_dim p = 3)%nat as [D | [D | D]] by lia; rewrite D in *.
  - apply Rmult_lt_0_compat; lra.
  - specialize (Hw eq_refl ltac:(lia)). repeat apply Rmult_lt_0_compat; lra.
  - specialize (Hw eq_refl ltac:(lia)). specialize (Hh eq_refl ltac:(lia)). repeat apply Rmult_lt_0_compat; lra.
  - specialize (HL eq_refl). apply Rmult_lt_0_compat; lra.
  - unfold SQ. apply Rmult_lt_0_compat; [apply Rmult_lt_0_compat; assumption | apply Rmult_lt_0_compat; assumption].
  - unfold CU. apply Rdiv_lt_0_compat; [|exact Hf]. apply Rmult_lt_0_compat; [exact Hi|]. apply Rmult_lt_0_compat; [apply Rmult_lt_0_compat|]; assumption.
Qed.
Theorem C88_ends : forall p b s, sane p -> (1 <= g_dim p <= 3)%nat -> (0 <= lattice_type p <= 2)%Z -> (domain_type p = 0 \/ domain_type p = 1)%Z -> equal_mass p = true -> spacing p s ->
  (domain_type p = 0%Z -> (2 <= g_dim p)%nat -> 0 < box_width p) -> (domain_type p = 0%Z -> (3 <= g_dim p)%nat -> 0 < box_height p /\ constant_profile b = true) -> (g_dim p = 1%nat -> 0 < box_length p) ->
  0 < rho_initial p -> poly_gamma p <> 1 -> 0 < sphere_radius p -> modify b = None -> 0 < profile b 0 ->
  (exists x, lattice_point p s x) -> (forall x, lattice_point p s x -> 0 < profile b (norm3 x / sphere_radius p)) ->
  exists fuel, forall fuel' E rb, (fuel <= fuel')%nat -> sedov (with_fuel p fuel') b E rb <> None.
Proof.
  intros p b s Hs Hd Ht Hdt He Hsp Hw Hh HL Hi Hg HR Hm Hf (x0 & Hx0) Hpos. destruct (sane_sep p Hdt Hs) as (Hsep & Hord). rewrite (spacing_unique p s (proj1 Hs) Hsp) in *.
  destruct (lattice_ends (g_dim p) (lattice_type p) (domain_type p) (bl_min p) (bl_max p) (bl_sep p) Hd Ht Hsep) as (f1 & pts & E1). exists f1. intros f E rb Hf1. apply (emits_more _ f1 f) in E1; [|exact Hf1].
  change (Emits (bl_lattice (with_fuel p f)) pts) in E1. destruct (bl_points (with_fuel p f) pts Hsep Hord E1) as (_ & _ & Hp).
  assert (Hp' : forall x, In x pts <-> lattice_point p (bl_sep p) x) by (intros x; rewrite Hp; exact (point_iff p x)). clear Hp.
  assert (Hne : pts <> []) by (intros ->; apply Hp' in Hx0; destruct Hx0).
  assert (Hlen : 0 < INR (length pts)) by (apply lt_0_INR; destruct pts; [contradiction | cbn; lia]).
  assert (Hmp : 0 < bl_total p (profile b) / INR (length pts)).
  { apply Rdiv_lt_0_compat; [|exact Hlen]. apply bl_total_pos; try assumption. intros D1 D2. apply (Hh D1 D2). }
  unfold sedov. replace (bl_defined (with_fuel p f) b) with true by (symmetry; apply bl_defined_true; split; [exact Hi|]; split; [intros _; cbn [with_fuel sphere_radius]; lra | exact Hg]). cbn [negb].
  assert (Hc : (g_dim p < 3)%nat \/ domain_type p = 1%Z \/ constant_profile b = true).
  { destruct (Nat.lt_ge_cases (g_dim p) 3) as [L|L]; [left; exact L | right; destruct Hdt as [D|D]; [right; apply (Hh D L) | left; exact D]]. }
  rewrite (bl_eq (with_fuel p f) b pts Hdt (Rgt_not_eq _ _ Hf) (proj1 Hs) He Hc E1 Hne).
  rewrite Hm. rewrite (each_some _ _ _ (sedov_step (with_fuel p f) b E rb _ _)); [discriminate|].
  intros q Hq. apply in_map_iff in Hq. destruct Hq as (x & <- & Hx). apply Hp' in Hx. unfold sedov_bad, is_fresh. rewrite Hm. cbn [b_r fresh].
  replace (mag (g_dim (with_fuel p f)) x) with (norm3 x) by (symmetry; eapply mag_norm; [exact Hd | exact (proj1 Hx)]).
  assert (Hr : 0 < bl_rho (with_fuel p f) b (norm3 x)).
  { unfold bl_rho. cbn [with_fuel rho_initial sphere_radius]. apply Rmult_lt_0_compat; [apply Rdiv_lt_0_compat; assumption | exact (Hpos x Hx)]. }
  rewrite (proj2 (Rlt_b_true _ _) Hr). rewrite (proj2 (Rlt_b_true _ _)); [reflexivity|]. apply Rdiv_lt_0_compat; assumption.
Qed.
(** Bodies that are read keep their numbers, masses, densities and smoothing lengths, and without perturbation their places, and are stopped.  If those in the blast zone
    have the mass that a run without reading gives to each particle then they share the blast energy *)
Theorem C88_modify : forall p b l0 E rb l, modify b = Some l0 -> sedov p b E rb = Some l ->
  map (fun q => (b_id q, b_m q, b_rho q, b_h q)) l = map (fun q => (b_id q, b_m q, b_rho q, b_h q)) l0 /\
  (amplitude b <= 0 -> map b_r l = map b_r l0) /\ Forall (fun q => b_v q = (0, 0, 0) /\ b_P q = (poly_gamma p - 1) * b_rho q * b_u q) l /\
  forall b1 E1 rb1 l1, modify b1 = None -> profile b1 = profile b -> sedov p b1 E1 rb1 = Some l1 ->
    (forall q, In q l0 -> mag (g_dim p) (b_r q) < rb -> exists q1, In q1 l1 /\ b_m q = b_m q1) ->
    energy l = ambient_energy p l + (if existsb (fun q => Rlt_b (mag (g_dim p) (b_r q)) rb) l0 then E else 0).
Proof.
  intros p b l0 E rb l Hm H. destruct (sedov_inv p b E rb l H) as (Hi & Hg & _ & _ & pts & m & l0' & Ep & Hne & Em & El & -> & Hb). rewrite Hm in El. subst l0'.
  split; [rewrite mapi_map; apply mapi_plain; intros a q _; unfold sedov_as, is_fresh; rewrite Hm; reflexivity|].
  split; [intros Ha; rewrite mapi_map; apply mapi_plain; intros a q _; unfold sedov_as; cbn [b_r]; apply shake_none; exact Ha|].
  split; [apply mapi_forall; intros a q _; unfold sedov_as; cbn [b_v b_P b_rho b_u]; split; [reflexivity | ring]|].
  intros b1 E1 rb1 l1 Hm1 Hpr H1 Hmass. destruct (sedov_inv p b1 E1 rb1 l1 H1) as (_ & _ & _ & _ & pts1 & m1 & l01 & Ep1 & Hne1 & Em1 & El1 & -> & Hb1). rewrite Hm1 in El1.
  assert (pts1 = pts) as -> by (eapply emits_unique; eassumption). rewrite Hpr, <- Em in Em1. subst m1.
  assert (Hmp : 0 < m).
  { destruct pts as [|x pts]; [contradiction|]. apply (not_bad_fresh p b1 m (fresh x) Hm1). apply Hb1. rewrite El1. left. reflexivity. }
  assert (Hmq : forall q, In q l0 -> mag (g_dim p) (b_r q) < rb -> b_m q = m).
  { intros q Hq Hr. destruct (Hmass q Hq Hr) as (q1 & Hq1 & ->). destruct (mapi_in _ _ _ _ _ _ Hq1) as (k & q0 & _ & ->). unfold sedov_as, is_fresh. rewrite Hm1. reflexivity. }
  set (M := sedov_mass (g_dim p) rb m l0). unfold energy, ambient_energy.
  rewrite (sum_mapi _ _ (fun q => b_m q * b_u q) _ (fun q => b_m q * ambient_u p (b_rho q) + (if Rlt_b (mag (g_dim p) (b_r q)) rb then m else 0) * (E / M))).
  2:{ intros a q Hq. specialize (Hb q Hq). unfold sedov_bad, is_fresh in Hb. rewrite Hm in Hb. apply orb_false_iff in Hb. destruct Hb as (Hr & _). apply negb_false_iff, Rlt_b_true in Hr.
      unfold sedov_as, is_fresh. rewrite Hm. cbn [b_m b_u]. rewrite bl_u_ambient by assumption. destruct (Rlt_b (mag (g_dim p) (b_r q)) rb) eqn:Er; [|ring]. apply Rlt_b_true in Er. rewrite (Hmq q Hq Er). ring. }
  rewrite sum_plus, sum_mult, <- sedov_mass_sum. fold M. f_equal; [symmetry; apply sum_mapi; intros a q _; unfold sedov_as, is_fresh; rewrite Hm; reflexivity|].
  destruct (existsb _ l0) eqn:Ex.
  - apply existsb_exists in Ex. destruct Ex as (q & Hq & Er).
    assert (0 < M) by (unfold M; rewrite sedov_mass_sum; apply (sum_pos _ _ l0 q); [intros q' _; destruct (Rlt_b (mag (g_dim p) (b_r q')) rb); lra | exact Hq | rewrite Er; exact Hmp]). field. lra.
  - replace M with 0; [ring|]. symmetry. unfold M. rewrite sedov_mass_sum. apply sum_zero. intros q Hq. destruct (Rlt_b (mag (g_dim p) (b_r q)) rb) eqn:Er; [|reflexivity].
    assert (existsb (fun q => Rlt_b (mag (g_dim p) (b_r q)) rb) l0 = true) by (apply existsb_exists; exists q; split; assumption). congruence.
Qed.

(** *** Cases *)
Definition tube (dt nx : Z) (L R0 rho P : R) : gpar := GPar 1 0 0 dt nx true L 1 1 R0 false false false (5 / 100) 1 (14 / 10) rho P 1 0 0 0 0 0 0 1.
Definition plain (f : R -> R) : bpar := BPar f true None 0 (fun _ _ => 0).
Lemma tube_point : forall dt nx L R0 rho P s x, lattice_point (tube dt nx L R0 rho P) s x <->
  (exists i : nat, x = (- half_extent (tube dt nx L R0 rho P) 0 + INR i * s, 0, 0)) /\
  let w := half_extent (tube dt nx L R0 rho P) 0 in - w - 2 * w / 1000000 < coord x 0 < w - 2 * w / 1000000.
Proof.
  intros. unfold lattice_point. cbn [tube g_dim node Nat.eqb]. unfold node_1d, within. cbn zeta. split.
  - intros (N & W & _). split; [exact N|]. specialize (W 0%nat ltac:(lia)). lra.
  - intros (N & W). split; [exact N|]. split; [intros a Ha; replace a with 0%nat by lia; lra | discriminate].
Qed.
Lemma tube_ends : forall dt nx L R0 rho P f, (dt = 0 \/ dt = 1)%Z -> (2 <= nx)%Z -> 0 < L -> 0 < R0 -> 0 < rho -> 0 < f 0 -> (forall r, 0 < f r) ->
  exists fuel, forall E rb, exists l, sedov (with_fuel (tube dt nx L R0 rho P) fuel) (plain f) E rb = Some l.
Proof.
  intros dt nx L R0 rho P f Hdt Hn HL HR Hr Hf0 Hf. assert (Hw : 0 < half_extent (tube dt nx L R0 rho P) 0) by (unfold half_extent; cbn [tube domain_type box_length sphere_radius]; destruct (dt =? 0)%Z; lra).
  destruct (C88_ends (tube dt nx L R0 rho P) (plain f) (bl_sep (tube dt nx L R0 rho P))) as (fuel & H);
    try (cbn [tube plain g_dim lattice_type domain_type equal_mass box_length box_width box_height sphere_radius rho_initial poly_gamma modify profile constant_profile]; first [assumption | reflexivity | lia | lra | intros; lia | intros; lra]).
  - split; [exact Hn|]. split; [cbn [tube g_etaw]; lra|]. cbn [tube domain_type box_length box_width box_height sphere_radius]. destruct (dt =? 0)%Z; lra.
  - apply sep_spacing. exact Hn.
  - exists (- half_extent (tube dt nx L R0 rho P) 0 + INR 0 * bl_sep (tube dt nx L R0 rho P), 0, 0). apply tube_point. split; [exists 0%nat; reflexivity|]. cbn zeta. cbn [coord fst INR]. lra.
  - intros x _. apply Hf.
  - exists fuel. intros E rb. specialize (H fuel E rb (le_n fuel)). destruct (sedov _ _ _ _) as [l|]; [exists l; reflexivity | contradiction].
Qed.
(** There is no particle in the blast zone: the blast energy is lost *)
Theorem C88_empty_refuted : exists p b E rb l, sane p /\ modify b = None /\ amplitude b = 0 /\ 0 < E /\ 0 < rb /\ sedov p b E rb = Some l /\ energy l = ambient_energy p l.
Proof.
  destruct (tube_ends 0 4 1 1 1 1 (fun _ => 1)) as (f & H); try lia; try lra; [intros; lra|]. destruct (H 1 (1 / 10)) as (l & El).
  exists (with_fuel (tube 0 4 1 1 1 1) f), (plain (fun _ => 1)), 1, (1 / 10), l.
  assert (Hs : sane (with_fuel (tube 0 4 1 1 1 1) f)) by (split; [cbn; lia|]; cbn [tube with_fuel g_etaw domain_type Z.eqb box_length box_width box_height]; lra).
  assert (Sp : spacing (with_fuel (tube 0 4 1 1 1 1) f) (1 / 3)) by (unfold spacing, half_extent; cbn [tube with_fuel lattice_nx domain_type Z.eqb box_length]; change (4 - 1)%Z with 3%Z; lra).
  repeat (split; [first [exact Hs | reflexivity | lra | exact El]|]). apply (C88_energy _ (plain (fun _ => 1)) _ _ _ _ Hs eq_refl Sp El). intros x Hx. apply (tube_point 0 4 1 1 1 1) in Hx. destruct Hx as ((i & ->) & Hx).
  unfold half_extent in *. cbn [tube domain_type Z.eqb box_length coord fst] in *. unfold norm3.
  assert (Hi : (i < 3)%nat) by (apply INR_lt; cbn; lra).
  replace ((- (1 / 2) + INR i * (1 / 3)) ^ 2 + 0 ^ 2 + 0 ^ 2) with (Rsqr (- (1 / 2) + INR i * (1 / 3))) by (unfold Rsqr; ring). rewrite sqrt_Rsqr_abs.
  destruct i as [|[|[|i]]]; [| | |lia]; cbn [INR]; unfold Rabs; destruct Rcase_abs; lra.
Qed.
(** Bodies of other masses than those of the lattice: twice the blast energy *)
Theorem C88_modify_refuted : exists p b l0 E rb l, sane p /\ modify b = Some l0 /\ amplitude b = 0 /\ 0 < E /\ 0 < rb /\ sedov p b E rb = Some l /\
  (exists q, In q l0 /\ mag (g_dim p) (b_r q) < rb) /\ energy l = ambient_energy p l + 2 * E.
Proof.
  destruct (tube_ends 0 4 1 1 1 1 (fun _ => 1)) as (f & H); try lia; try lra; [intros; lra|]. destruct (H 1 (1 / 10)) as (l1 & El1).
  set (p := with_fuel (tube 0 4 1 1 1 1) f) in *. destruct (sedov_inv _ _ _ _ _ El1) as (_ & _ & _ & _ & pts & m & _ & Ep & Hne & Em & _).
  assert (Hlen : 0 < INR (length pts)) by (apply lt_0_INR; destruct pts; [contradiction | cbn; lia]).
  assert (Hmp : 0 < m) by (rewrite Em; apply Rdiv_lt_0_compat; [unfold bl_total; cbn [p tube with_fuel g_dim rho_initial box_length]; lra | exact Hlen]).
  set (q := Bod 7 (0, 0, 0) (0, 0, 0) 1 1 1 1 (2 * m)). set (b := BPar (fun _ => 1) true (Some [q]) 0 (fun _ _ => 0)).
  assert (Zr : Rlt_b (mag 1 (0, 0, 0)) (1 / 10) = true) by (apply Rlt_b_true; unfold mag; rewrite Rabs_R0; lra).
  assert (Eb : bl_bodies p b = Some (m, [q])).
  { rewrite (bl_eq p b pts); [rewrite Em; reflexivity | left; reflexivity | cbn; lra | cbn; lia | reflexivity | left; cbn; lia | exact Ep | exact Hne]. }
  exists p, b, [q], 1, (1 / 10). eexists.
  assert (Hs : sane p) by (split; [cbn; lia|]; cbn [p tube with_fuel g_etaw domain_type Z.eqb box_length box_width box_height]; lra).
  split; [exact Hs|]. split; [reflexivity|]. split; [reflexivity|]. split; [lra|]. split; [lra|].
  split; [|split; [exists q; split; [left; reflexivity|]; apply Rlt_b_true; exact Zr|]].
  - unfold sedov. replace (bl_defined p b) with true by (symmetry; apply bl_defined_true; cbn [p b tube with_fuel rho_initial sphere_radius poly_gamma modify]; split; [lra|]; split; [discriminate | lra]). cbn [negb]. rewrite Eb.
    rewrite (each_some _ _ _ (sedov_step p b 1 (1 / 10) m _)); [reflexivity|]. intros q' [<-|[]]. unfold sedov_bad, is_fresh. cbn [b modify q b_rho b_m].
    rewrite (proj2 (Rlt_b_true 0 1)) by lra. rewrite (proj2 (Rlt_b_true _ _)); [reflexivity | lra].
  - unfold energy, ambient_energy. cbn [mapi sum_of fold_right]. unfold sedov_as, is_fresh. cbn [b modify q b_rho b_m b_u b_r].
    replace (g_dim p) with 1%nat by reflexivity. rewrite Zr. rewrite bl_u_ambient by (cbn [p tube with_fuel rho_initial poly_gamma]; lra).
    rewrite sedov_mass_sum. cbn [sum_of fold_right b_r q]. rewrite Zr. field. lra.
Qed.
(** A line given as a ball gets the mass of the box *)
Theorem C88_line_refuted : exists p b E rb l, sane p /\ domain_type p = 1%Z /\ g_dim p = 1%nat /\ modify b = None /\ (forall r, profile b r = rho_constant_density 1 r) /\ sedov p b E rb = Some l /\
  mass l <> rho_initial p * (2 * sphere_radius p).
Proof.
  destruct (tube_ends 1 4 1 1 1 1 (rho_constant_density 1)) as (f & H); try lia; try lra; [cbn; lra | intros; cbn; lra|]. destruct (H 1 (1 / 10)) as (l & El).
  exists (with_fuel (tube 1 4 1 1 1 1) f), (plain (rho_constant_density 1)), 1, (1 / 10), l.
  split; [split; [cbn; lia|]; cbn [tube with_fuel g_etaw domain_type Z.eqb sphere_radius]; lra|]. repeat (split; [first [reflexivity | exact El]|]).
  rewrite (sedov_mass_total _ (plain (rho_constant_density 1)) _ _ _ eq_refl El). unfold bl_total. cbn [tube with_fuel g_dim rho_initial box_length sphere_radius]. lra.
Qed.
(** The parabolic profile vanishes at the surface, where the first particle of a line is: its smoothing length is infinite *)
Theorem C88_surface_refuted : exists p b, sane p /\ modify b = None /\ amplitude b = 0 /\ (forall r, profile b r = rho_parabolic_density 1 r) /\
  (exists fuel, forall E rb, sedov (with_fuel p fuel) (plain (rho_constant_density 1)) E rb <> None) /\
  (exists s x, spacing p s /\ lattice_point p s x /\ profile b (norm3 x / sphere_radius p) = 0) /\ forall fuel E rb, sedov (with_fuel p fuel) b E rb = None.
Proof.
  set (p := tube 1 4 1 1 1 1).
  destruct (tube_ends 1 4 1 1 1 1 (rho_constant_density 1)) as (f & H); try lia; try lra; [cbn; lra | intros; cbn; lra|].
  exists p, (plain (rho_parabolic_density 1)).
  assert (Hs : sane p) by (split; [cbn; lia|]; cbn [p tube g_etaw domain_type Z.eqb sphere_radius]; lra).
  assert (Hx : lattice_point p (2 / 3) (-1, 0, 0)).
  { apply tube_point. unfold half_extent. cbn [tube domain_type Z.eqb sphere_radius coord fst]. split; [exists 0%nat; cbn [INR]; rewrite Rmult_0_l, Rplus_0_r; reflexivity | lra]. }
  assert (Sp : spacing p (2 / 3)) by (unfold spacing, half_extent; cbn [p tube lattice_nx domain_type Z.eqb sphere_radius]; change (4 - 1)%Z with 3%Z; lra).
  assert (N1 : norm3 (-1, 0, 0) = 1) by (unfold norm3; replace ((-1) ^ 2 + 0 ^ 2 + 0 ^ 2) with 1 by ring; apply sqrt_1).
  split; [exact Hs|]. repeat (split; [reflexivity|]). split; [exists f; intros E rb; destruct (H E rb) as (l & El); unfold p; rewrite El; discriminate|].
  split; [exists (2 / 3), (-1, 0, 0); split; [exact Sp|]; split; [exact Hx|]; rewrite N1; cbn [plain profile p tube sphere_radius]; unfold rho_parabolic_density, SQ; field|].
  intros fuel E rb. destruct (sedov _ _ _ _) as [l|] eqn:El; [|reflexivity]. exfalso. pose proof (sedov_inv _ _ _ _ _ El) as (_ & _ & Hdt & _ & pts & m & l0 & Ep & _ & _ & El0 & _ & Hb).
  destruct (sane_sep (with_fuel p fuel) Hdt Hs) as (Hsep & Hord). destruct (bl_points _ pts Hsep Hord Ep) as (_ & _ & Hp).
  assert (Hin : In (-1, 0, 0) pts) by (apply Hp, point_iff; replace (bl_sep (with_fuel p fuel)) with (2 / 3) by (apply (spacing_unique (with_fuel p fuel)); [cbn; lia | exact Sp]); exact Hx).
  destruct (not_bad_fresh (with_fuel p fuel) (plain (rho_parabolic_density 1)) m (fresh (-1, 0, 0)) eq_refl) as (Hr & _); [apply Hb; rewrite El0; apply (in_map fresh); exact Hin|].
  unfold bl_rho in Hr. cbn [with_fuel p tube g_dim b_r fresh plain profile rho_initial sphere_radius] in Hr. unfold mag, rho_parabolic_density, SQ in Hr. rewrite Rabs_left in Hr by lra.
  replace (- -1 / 1) with 1 in Hr by field. lra.
Qed.
(** A disc with the parabolic profile gets the mass of a disc of constant density, twice the mass its densities belong to *)
Definition disc (ty nx : Z) (P : R) : gpar := GPar 2 0 ty 1 nx true 1 1 1 1 false false false (5 / 100) (12 / 10) (14 / 10) 1 P 1 0 0 0 0 0 0 1.
Lemma disc_point : forall ty nx P s x y z, lattice_point (disc ty nx P) s (x, y, z) <-> node_2d ty (fun _ => -1) s (x, y, z) /\
  -1 - 2 / 1000000 < x < 1 - 2 / 1000000 /\ -1 - 2 / 1000000 < y < 1 - 2 / 1000000 /\ (x + 2 / 1000000) ^ 2 + (y + 2 / 1000000) ^ 2 < 1.
Proof.
  intros ty nx P s x y z. unfold lattice_point, half_extent. cbn [disc g_dim lattice_type domain_type sphere_radius node Nat.eqb Z.eqb].
  assert (Q : forall c, c - ((- (1) + 1) / 2 - (1 - - (1)) / 1000000) = c + 2 / 1000000) by (intros; field). split.
  - intros (N & W1 & W2). split; [exact N|]. pose proof (W1 0%nat ltac:(lia)) as X. pose proof (W1 1%nat ltac:(lia)) as Y. specialize (W2 eq_refl 0%nat ltac:(lia)). cbn [sumR coord fst snd] in *. rewrite ! Q in W2.
    split; [lra|]. split; [lra|]. lra.
  - intros (N & X & Y & B). split; [exact N|]. split; [intros [|[|a]] Ha; cbn [coord fst snd]; [lra | lra | lia]|]. intros _ a _. cbn [sumR coord fst snd]. rewrite ! Q. lra.
Qed.
Lemma disc_ends : forall ty nx P f s, (0 <= ty <= 2)%Z -> (2 <= nx)%Z -> 0 < f 0 -> spacing (disc ty nx P) s -> (exists x, lattice_point (disc ty nx P) s x) -> (forall x, lattice_point (disc ty nx P) s x -> 0 < f (norm3 x)) ->
  exists fuel, forall E rb, exists l, sedov (with_fuel (disc ty nx P) fuel) (plain f) E rb = Some l.
Proof.
  intros ty nx P f s Ht Hn Hf Hsp Hx Hpos. destruct (C88_ends (disc ty nx P) (plain f) s) as (fuel & H);
    try (cbn [disc plain g_dim lattice_type domain_type equal_mass box_length box_width box_height sphere_radius rho_initial poly_gamma modify profile constant_profile]; first [assumption | reflexivity | lia | lra | intros; lia | intros; lra]).
  - split; [exact Hn|]. split; [cbn [disc g_etaw]; lra|]. cbn [disc domain_type sphere_radius Z.eqb]. lra.
  - intros x Lx. cbn [disc sphere_radius plain profile]. replace (norm3 x / 1) with (norm3 x) by field. exact (Hpos x Lx).
  - exists fuel. intros E rb. specialize (H fuel E rb (le_n fuel)). destruct (sedov _ _ _ _) as [l|]; [exists l; reflexivity | contradiction].
Qed.
Lemma norm3_lt : forall x y z r, 0 < r -> x ^ 2 + y ^ 2 + z ^ 2 < r ^ 2 -> norm3 (x, y, z) < r.
Proof. intros x y z r Hr H. unfold norm3. rewrite <- (sqrt_pow2 r) by lra. apply sqrt_lt_1_alt. split; [nra | exact H]. Qed.
Theorem C88_disc_refuted : exists p b E rb l M, sane p /\ domain_type p = 1%Z /\ g_dim p = 2%nat /\ modify b = None /\ (forall r, profile b r = rho_parabolic_density 2 r) /\ sedov p b E rb = Some l /\
  enclosed p b M /\ 0 < M (sphere_radius p) /\ mass l = 2 * M (sphere_radius p).
Proof.
  pose proof PI_RGT_0 as HPI.
  assert (Sp : forall P, spacing (disc 0 4 P) (2 / 3)) by (intros P; unfold spacing, half_extent; cbn [disc lattice_nx domain_type Z.eqb sphere_radius]; change (4 - 1)%Z with 3%Z; lra).
  destruct (disc_ends 0 4 1 (rho_parabolic_density 2) (2 / 3)) as (f & H); try lia.
  - cbn [rho_parabolic_density]. unfold SQ. rewrite Rmult_0_l, Rminus_0_r, Rmult_1_r. apply Rdiv_lt_0_compat; lra.
  - apply Sp.
  - exists (- (1) + INR 1 * (2 / 3), - (1) + INR 1 * (2 / 3), 0). apply disc_point. split; [exists 1%nat, 1%nat; cbn [Z.eqb]; repeat f_equal; lra|]. cbn [INR]. lra.
  - intros [[x y] z] L. apply disc_point in L. destruct L as ((i & j & N) & X & Y & B). cbn [Z.eqb] in N. injection N as -> -> ->.
    assert (Hi : (i < 3)%nat) by (apply INR_lt; cbn [INR]; lra). assert (Hj : (j < 3)%nat) by (apply INR_lt; cbn [INR]; lra).
    assert (K : (-1 + INR i * (2 / 3)) ^ 2 + (-1 + INR j * (2 / 3)) ^ 2 + 0 ^ 2 < 1 ^ 2).
    { destruct i as [|[|[|i]]]; [| | |lia]; destruct j as [|[|[|j]]]; try lia; cbn [INR] in *; lra. }
    apply norm3_lt in K; [|lra]. assert (0 <= norm3 (-1 + INR i * (2 / 3), -1 + INR j * (2 / 3), 0)) by apply sqrt_pos.
    unfold rho_parabolic_density, SQ. apply Rmult_lt_0_compat; [apply Rdiv_lt_0_compat; lra | nra].
  - destruct (H 1 1) as (l & El). set (b := plain (rho_parabolic_density 2)) in *. set (p := with_fuel (disc 0 4 1) f) in *.
    assert (F0 : profile b 0 = 2 / PI) by (cbn [b plain profile rho_parabolic_density]; unfold SQ; field; lra).
    assert (HM : enclosed p b (fun r => rho_initial p / profile b 0 * sphere_radius p ^ g_dim p * mass_parabolic_density 2 (r / sphere_radius p))).
    { apply ball_enclosed; [rewrite F0; apply Rgt_not_eq, Rdiv_lt_0_compat; lra | cbn; lra | cbn; lia | unfold mass_parabolic_density, SQ; ring|]. intros r Hr. apply (C46_parabolic_density 2 r). right. left. reflexivity. }
    exists p, b, 1, 1, l. eexists. split; [split; [cbn; lia|]; cbn [p disc with_fuel g_etaw domain_type Z.eqb sphere_radius]; lra|]. split; [reflexivity|]. split; [reflexivity|]. split; [reflexivity|]. split; [reflexivity|]. split; [exact El|]. split; [exact HM|].
    rewrite F0. cbn [p disc with_fuel rho_initial sphere_radius g_dim]. replace (mass_parabolic_density 2 (1 / 1)) with 1 by (unfold mass_parabolic_density, SQ; field).
    split; [replace (1 / (2 / PI) * 1 ^ 2 * 1) with (PI / 2) by (field; lra); lra|].
    rewrite (sedov_mass_total p b 1 1 l eq_refl El). unfold bl_total. cbn [p disc with_fuel g_dim domain_type Z.eqb rho_initial sphere_radius]. unfold SQ. field. lra.
Qed.
(** The parameter file data/sedov_nx20.par, in two dimensions: the blast zone has a particle *)
Example C88_shipped : exists f l, sedov (with_fuel (disc 2 20 (1 / 10000000)) f) (plain (rho_constant_density 2)) (2 / 10000000) (6 / 100) = Some l /\
  energy l = ambient_energy (disc 2 20 (1 / 10000000)) l + 2 / 10000000 /\ mass l = PI.
Proof.
  pose proof PI_RGT_0 as HPI. assert (Sp : spacing (disc 2 20 (1 / 10000000)) (2 / 19)) by (unfold spacing, half_extent; cbn [disc lattice_nx domain_type Z.eqb sphere_radius]; change (20 - 1)%Z with 19%Z; lra).
  assert (S3 : 1732 / 1000 < sqrt 3 < 17321 / 10000).
  { split; [rewrite <- (sqrt_pow2 (1732 / 1000)) by lra | rewrite <- (sqrt_pow2 (17321 / 10000)) by lra]; apply sqrt_lt_1_alt; lra. }
  set (y := -1 + INR 11 * (2 / 19 * sqrt 3 / 2)). assert (Hy : 0 < y < 1 / 100) by (unfold y; cbn [INR]; lra).
  assert (Lx : lattice_point (disc 2 20 (1 / 10000000)) (2 / 19) (0, y, 0)).
  { apply disc_point. split; [exists 9%nat, 11%nat; cbn [Z.eqb]; rewrite <- ! pair_equal_spec || idtac; change (11 mod 2)%nat with 1%nat; f_equal; f_equal; cbn [INR]; lra|]. split; [lra|]. split; [lra|]. nra. }
  destruct (disc_ends 2 20 (1 / 10000000) (rho_constant_density 2) (2 / 19)) as (f & H); try lia.
  - cbn [rho_constant_density]. apply Rdiv_lt_0_compat; lra.
  - exact Sp.
  - exists (0, y, 0). exact Lx.
  - intros x _. cbn [rho_constant_density]. apply Rdiv_lt_0_compat; lra.
  - destruct (H (2 / 10000000) (6 / 100)) as (l & El). exists f, l. split; [exact El|].
    assert (Hs : sane (with_fuel (disc 2 20 (1 / 10000000)) f)) by (split; [cbn; lia|]; cbn [disc with_fuel g_etaw domain_type Z.eqb sphere_radius]; lra). split.
    + apply (C88_energy _ (plain (rho_constant_density 2)) _ _ _ (2 / 19) Hs eq_refl Sp El). exists (0, y, 0). split; [exact Lx|]. apply norm3_lt; [lra | nra].
    + destruct (C88_mass _ (plain (rho_constant_density 2)) _ _ _ Hs ltac:(cbn; lia) eq_refl El) as (_ & M & _). rewrite (M eq_refl ltac:(cbn; lia) eq_refl). cbn [disc with_fuel g_dim rho_initial sphere_radius Nat.eqb]. ring.
Qed.

Print Assumptions C88_particles.
Print Assumptions C88_energy.
Print Assumptions C88_zone.
Print Assumptions C88_mass.
Print Assumptions C88_ends.
Print Assumptions C88_modify.
Print Assumptions C88_empty_refuted.
Print Assumptions C88_modify_refuted.
Print Assumptions C88_line_refuted.
Print Assumptions C88_surface_refuted.
Print Assumptions C88_disc_refuted.
