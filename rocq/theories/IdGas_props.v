(** C83 and C84: the initial data of the wind tunnel, the implosion and the collapse *)
From Coq Require Import Reals Lra Lia Permutation.
From Verif Require Import Base BuildTree_model Range_model Range_props Lattice_model Lattice_props LatticeBox_props IdGen_model IdGen_lemmas IdSod_props.
Local Open Scope R_scope.

(** ** Statement *)
(** The particles [l] are the nodes of a lattice in a box or a ball, each once *)
Definition filled (dim : nat) (ty dt : Z) (sep : R) (bmin bmax : nat -> R) (l : list idp) : Prop :=
  (forall x, In x (map ipos l) <-> node dim ty bmin sep x /\ within dim dt bmin bmax x) /\ ((dim < 3)%nat \/ ty <> 2%Z -> NoDup (map ipos l)).
Definition volume (p : gpar) : R :=
  if (domain_type p =? 0)%Z then box_length p * box_width p * (if (g_dim p =? 2)%nat then 1 else box_height p)
  else if (g_dim p =? 2)%nat then PI * sphere_radius p ^ 2 else 4 / 3 * PI * sphere_radius p ^ 3.
Definition lower (p : gpar) : nat -> R :=
  if (domain_type p =? 0)%Z then pt (- (box_length p / 2)) (- (box_width p / 2)) (- (box_height p / 2)) else pt (- sphere_radius p) (- sphere_radius p) (- sphere_radius p).
Definition upper (p : gpar) : nat -> R := fun a => - lower p a.
(** Particles with the density, pressure, mass and smoothing length of a gas *)
Definition gas (p : gpar) (q : idp) : Prop :=
  i_rho q = rho_initial p /\ i_P q = (poly_gamma p - 1) * i_rho q * i_u q /\ 0 < i_m q /\ i_rho q * (i_h q / g_etaw p) ^ g_dim p = i_m q.
Definition radius (q : idp) : R := sqrt (i_x q ^ 2 + i_y q ^ 2 + i_z q ^ 2).
(** Linear from 1 at four fifths of the radius to 10000 at the radius *)
Definition rim_energy (rs r : R) : R := 1 + (10000 - 1) * (r - 8 / 10 * rs) / (2 / 10 * rs).

(** ** Proofs *)
Lemma fresh_emits : forall dim fuel ty dt bmin bmax sep n g, count dim fuel ty dt bmin bmax sep 0 = Some n ->
  generate dim fuel ty dt bmin bmax sep n 0 (zeros 0) = g ->
  exists pts, Emits (lattice dim fuel ty dt bmin bmax sep) pts /\ n = Z.of_nat (length pts) /\ g = Some (n, emit false pts (zeros 0)).
Proof.
  intros dim fuel ty dt bmin bmax sep n g C <-. destruct (count_inv _ _ _ _ _ _ _ _ _ C) as (pts & E & ->). exists pts. split; [exact E|]. split; [reflexivity|].
  apply (generate_emits _ _ _ _ _ _ _ _ _ _ _ E); [lia | lia | reflexivity].
Qed.
Lemma emits_rest : forall pts i, (i < length pts)%nat -> exists q, nth_error pts i = Some q /\ point_at (emit false pts (zeros 0)) (Z.of_nat i) = q.
Proof.
  intros pts i Hi. destruct (nth_error pts i) as [q|] eqn:E; [|apply nth_error_None in E; lia]. exists q. split; [reflexivity|].
  exact (emit_nth _ (zeros 0) _ _ E).
Qed.
Lemma filled_at3 : forall dim fuel ty dt bmin bmax sep pts f k, 0 < sep -> (forall a, bmin a <= bmax a) -> (dim = 1%nat -> dt = 0%Z) -> (forall j x y z, ipos (f j x y z) = (x, y, z)) ->
  Emits (lattice dim fuel ty dt bmin bmax sep) pts -> filled dim ty dt sep bmin bmax (map (at3 f) (number k pts)).
Proof.
  intros dim fuel ty dt bmin bmax sep pts f k Hs Hb Hd Hf E. unfold filled. rewrite (map_at3 _ ipos f (fun q => q)) by (intros; apply Hf). rewrite map_id.
  destruct (lattice_points dim fuel ty dt bmin bmax sep pts Hs Hb Hd E) as (_ & _ & H). split; [exact H|].
  intros Ht. eapply lattice_nodup; [exact Hs | exact Ht | exact E].
Qed.

(** *** implosion and collapse *)
Definition im_of (outer : R -> bool) (p : gpar) (m : R) (k : Z) (x y z : R) : idp :=
  let r := sqrt (x * x + y * y + z * z) in
  let u := if outer r then r * im_slope p + im_yint p else im_uint p in
  let P := if outer r then (poly_gamma p - 1) * rho_initial p * u else pressure_initial p in
  IdP k x y z 0 0 (smoothing p m (rho_initial p)) (rho_initial p) u P m.
Lemma im_inv : forall lo hi outer p l, im_run lo hi outer p = Some l ->
  (lo <= g_dim p <= hi)%nat /\ (domain_type p = 0 \/ domain_type p = 1)%Z /\ equal_mass p = true /\
  exists pts, Emits (lattice (g_dim p) (g_fuel p) (lattice_type p) (domain_type p) (im_min p) (im_max p) (im_sep p)) pts /\ pts <> [] /\
    l = map (at3 (im_of outer p (im_total_mass p / INR (length pts)))) (number 0 pts).
Proof.
  intros lo hi outer p l H. unfold im_run in H.
  destruct ((lo <=? g_dim p)%nat && (g_dim p <=? hi)%nat) eqn:E1; [|discriminate]. apply andb_true_iff in E1. rewrite ! Nat.leb_le in E1.
  destruct ((domain_type p =? 0)%Z || (domain_type p =? 1)%Z) eqn:E2; [|discriminate]. apply orb_true_iff in E2. rewrite ! Z.eqb_eq in E2.
  destruct (lattice_nx p - 1 =? 0)%Z; [discriminate|]. destruct (equal_mass p) eqn:E3; [|discriminate]. cbn [negb orb] in H.
  split; [exact E1|]. split; [exact E2|]. split; [reflexivity|].
  destruct (count _ _ _ _ _ _ _ _) as [n|] eqn:Ec; [|discriminate].
  destruct (fresh_emits _ _ _ _ _ _ _ _ _ Ec eq_refl) as (pts & E & -> & Eg). exists pts. split; [exact E|].
  destruct (Z.eqb_spec (Z.of_nat (length pts)) 0) as [N|N]; [discriminate|]. split; [intros ->; apply N; reflexivity|].
  rewrite Eg in H. rewrite Z.eqb_refl in H. cbn [negb] in H. rewrite <- INR_IZR_INZ in H.
  assert (W : Some l = Some (map (at3 (im_of outer p (im_total_mass p / INR (length pts)))) (number 0 pts))); [|congruence].
  rewrite <- H. apply (write_emit pts (im_of outer p (im_total_mass p / INR (length pts)))). lia.
Qed.
Lemma im_eq : forall lo hi outer p pts, (lo <= g_dim p <= hi)%nat -> (domain_type p = 0 \/ domain_type p = 1)%Z -> equal_mass p = true -> (2 <= lattice_nx p)%Z ->
  Emits (lattice (g_dim p) (g_fuel p) (lattice_type p) (domain_type p) (im_min p) (im_max p) (im_sep p)) pts -> pts <> [] -> im_run lo hi outer p <> None.
Proof.
  intros lo hi outer p pts H1 H2 H3 H4 E Hne. unfold im_run.
  replace ((lo <=? g_dim p)%nat && (g_dim p <=? hi)%nat) with true by (symmetry; apply andb_true_iff; rewrite ! Nat.leb_le; exact H1).
  replace ((domain_type p =? 0)%Z || (domain_type p =? 1)%Z) with true by (symmetry; apply orb_true_iff; rewrite ! Z.eqb_eq; exact H2).
  rewrite H3. replace (lattice_nx p - 1 =? 0)%Z with false by (symmetry; apply Z.eqb_neq; lia). cbn [negb orb].
  rewrite (count_emits _ _ _ _ _ _ _ _ _ E). destruct (Z.eqb_spec (Z.of_nat (length pts)) 0) as [N|N]; [destruct pts; [contradiction | discriminate]|].
  rewrite (generate_emits _ _ _ _ _ _ _ _ _ _ _ E) by (cbn [l_pid zeros]; lia). rewrite Z.eqb_refl. cbn [negb]. rewrite <- INR_IZR_INZ.
  intros N'. pose proof (write_emit pts (im_of outer p (im_total_mass p / INR (length pts))) (Z.of_nat (length pts)) ltac:(lia)) as W.
  unfold im_of at 1 in W. rewrite N' in W. discriminate.
Qed.
Lemma im_lower : forall p a, im_min p a = lower p a.
Proof. intros p a. unfold im_min, lower. destruct (domain_type p =? 0)%Z; destruct a as [|[|a]]; cbn [pt]; try reflexivity; field. Qed.
Lemma im_upper : forall p a, im_max p a = upper p a.
Proof. intros p a. unfold im_max, upper, lower. destruct (domain_type p =? 0)%Z; destruct a as [|[|a]]; cbn [pt]; try reflexivity; field. Qed.
Lemma within_ext : forall dim dt b b' c c' q, (forall a, b a = b' a) -> (forall a, c a = c' a) -> within dim dt b c q -> within dim dt b' c' q.
Proof.
  intros dim dt b b' c c' q Hb Hc (W1 & W2). split; cbn zeta in *.
  - intros a Ha. rewrite <- ! Hb, <- ! Hc. apply W1; exact Ha.
  - intros Hd a Ha. rewrite <- ! Hb, <- ! Hc. replace (sumR dim (fun b0 => (coord q b0 - ((b' b0 + c' b0) / 2 - (c 0%nat - b 0%nat) / 1000000)) ^ 2))
      with (sumR dim (fun b0 => (coord q b0 - ((b b0 + c b0) / 2 - (c 0%nat - b 0%nat) / 1000000)) ^ 2)); [apply W2; assumption|].
    clear -Hb Hc. induction dim as [|d IH]; [reflexivity|]. cbn [sumR]. rewrite IH, <- Hb, <- Hc. reflexivity.
Qed.
Lemma node_ext : forall dim ty b b' sep q, (forall a, b a = b' a) -> node dim ty b sep q -> node dim ty b' sep q.
Proof.
  intros dim ty b b' sep q Hb. unfold node, node_1d, node_2d, node_3d. destruct dim as [|[|[|d]]]; intros N; rewrite <- ! Hb.
  all: exact N.
Qed.
Section Im.
Context (lo hi : nat) (outer : R -> bool) (p : gpar) (l : list idp).
Context (Hlo : (2 <= lo)%nat) (Hhi : (hi <= 3)%nat).
Context (HL : 0 < box_length p) (Hw : 0 < box_width p) (Hh : 0 < box_height p) (HR : 0 < sphere_radius p) (Hn : (2 <= lattice_nx p)%Z).
Context (He : 0 < g_etaw p) (Hg : poly_gamma p <> 1) (Hrho : 0 < rho_initial p).
Context (H : im_run lo hi outer p = Some l).
Definition width_x : R := if (domain_type p =? 0)%Z then box_length p else 2 * sphere_radius p.
Lemma im_sep_eq : im_sep p = width_x / IZR (lattice_nx p - 1).
Proof. unfold im_sep, width_x. destruct (domain_type p =? 0)%Z; reflexivity. Qed.
Lemma im_sep_pos : 0 < im_sep p.
Proof. rewrite im_sep_eq. apply Rdiv_lt_0_compat; [unfold width_x; destruct (domain_type p =? 0)%Z; lra | apply IZR_lt; lia]. Qed.
Lemma im_box : forall a, im_min p a <= im_max p a.
Proof. intros a. rewrite im_lower, im_upper. unfold upper, lower. destruct (domain_type p =? 0)%Z; destruct a as [|[|a]]; cbn [pt]; lra. Qed.
Lemma im_mass : (2 <= g_dim p <= 3)%nat -> im_total_mass p = rho_initial p * volume p.
Proof.
  intros Hd. unfold im_total_mass, volume.
  destruct (g_dim p) as [|[|[|d]]]; try lia; cbn [Nat.eqb]; destruct (domain_type p =? 0)%Z; field.
Qed.
Lemma volume_pos : 0 < volume p.
Proof.
  unfold volume. pose proof PI_RGT_0. assert (0 < sphere_radius p ^ 2) by nra. assert (0 < sphere_radius p ^ 3) by (apply pow_lt; exact HR).
  destruct (domain_type p =? 0)%Z; destruct (g_dim p =? 2)%nat; repeat (first [assumption | lra | apply Rmult_lt_0_compat]).
Qed.
Lemma im_main : l <> [] /\ map i_id l = map Z.of_nat (seq 0 (length l)) /\
  filled (g_dim p) (lattice_type p) (domain_type p) (width_x / IZR (lattice_nx p - 1)) (lower p) (upper p) l /\
  Forall (gas p) l /\ Forall (fun q => i_vx q = 0 /\ i_vy q = 0 /\ 0 < i_h q) l /\
  (forall q q', In q l -> In q' l -> i_m q = i_m q') /\ total i_m l = rho_initial p * volume p /\
  Forall (fun q => i_u q = if outer (radius q) then radius q * im_slope p + im_yint p else im_uint p) l.
Proof.
  destruct (im_inv _ _ _ _ _ H) as (Hd & Hdt & Hem & pts & E & Hne & ->). set (m := im_total_mass p / INR (length pts)).
  pose proof im_sep_pos as Hs. assert (Hlen : 0 < INR (length pts)) by (apply lt_0_INR; destruct pts; [contradiction | cbn; lia]).
  assert (Hm : 0 < m) by (unfold m; rewrite im_mass by lia; apply Rdiv_lt_0_compat; [apply Rmult_lt_0_compat; [exact Hrho | exact volume_pos] | exact Hlen]).
  split; [destruct pts as [|[[x y] z] pts]; [contradiction | discriminate]|].
  split; [rewrite map_map, map_length, number_length, (map_ext _ fst) by (intros (j & [[x y] z]); reflexivity); apply (number_fst _ _ 0)|].
  split.
  { assert (Hd1 : g_dim p = 1%nat -> domain_type p = 0%Z) by lia. destruct (filled_at3 _ _ _ _ _ _ _ pts (im_of outer p m) 0 Hs im_box Hd1 ltac:(reflexivity) E) as (F & N). split; [|exact N].
    intros x. rewrite F. rewrite <- im_sep_eq. split; intros (X & Y); (split; [eapply node_ext; [|exact X] | eapply within_ext; [| |exact Y]]); intros; rewrite ?im_lower, ?im_upper; reflexivity. }
  split.
  { apply forall_at3. intros j x y z Hx. unfold gas, im_of. cbn [i_rho i_P i_u i_m i_h]. split; [reflexivity|]. split; [|split; [exact Hm | apply smoothing_ok; try assumption; lia]].
    destruct (outer _); [reflexivity|]. unfold im_uint. field. split; lra. }
  split; [apply forall_at3; intros j x y z Hx; unfold im_of; cbn [i_vx i_vy i_h]; repeat split; apply smoothing_h_pos; exact He|].
  assert (A : Forall (fun q => i_m q = m) (map (at3 (im_of outer p m)) (number 0 pts))) by (apply forall_at3; reflexivity).
  split; [rewrite Forall_forall in A; intros q q' Hq Hq'; rewrite (A q Hq), (A q' Hq'); reflexivity|].
  split; [rewrite (total_const _ _ _ A), map_length, number_length; unfold m; rewrite im_mass by lia; field; lra|].
  apply forall_at3. intros j x y z _. unfold im_of, radius. cbn [i_u i_x i_y i_z]. replace (x ^ 2 + y ^ 2 + z ^ 2) with (x * x + y * y + z * z) by ring. reflexivity.
Qed.
End Im.

(** ** C84 *)
Theorem C84_collapse : forall p l, 0 < box_length p -> 0 < box_width p -> 0 < box_height p -> 0 < sphere_radius p -> (2 <= lattice_nx p)%Z ->
  0 < g_etaw p -> poly_gamma p <> 1 -> 0 < rho_initial p -> collapse p = Some l ->
  l <> [] /\ map i_id l = map Z.of_nat (seq 0 (length l)) /\
  (exists sep, sep * IZR (lattice_nx p - 1) = (if (domain_type p =? 0)%Z then box_length p else 2 * sphere_radius p) /\
    filled (g_dim p) (lattice_type p) (domain_type p) sep (lower p) (upper p) l) /\
  Forall (gas p) l /\ Forall (fun q => i_vx q = 0 /\ i_vy q = 0 /\ 0 < i_h q /\ i_P q = pressure_initial p) l /\
  (forall q q', In q l -> In q' l -> i_m q = i_m q') /\ total i_m l = rho_initial p * volume p.
Proof.
  intros p l HL Hw Hh HR Hn He Hg Hrho H. destruct (im_main 3 3 _ p l ltac:(lia) ltac:(lia) HL Hw Hh HR Hn He Hg Hrho H) as (X1 & X2 & X3 & X4 & X5 & X6 & X7 & X8).
  split; [exact X1|]. split; [exact X2|]. split.
  { exists (width_x p / IZR (lattice_nx p - 1)). split; [|exact X3]. assert (0 < IZR (lattice_nx p - 1)) by (apply IZR_lt; lia). unfold width_x. field. lra. }
  split; [exact X4|]. split; [|split; assumption]. rewrite Forall_forall in *. intros q Hq. destruct (X5 q Hq) as (A & B & C). repeat split; try assumption.
  destruct (X4 q Hq) as (E1 & -> & _). rewrite (X8 q Hq), E1. unfold im_uint. field. split; lra.
Qed.
Theorem C84_implosion_partial : forall p l, 0 < box_length p -> 0 < box_width p -> 0 < box_height p -> 0 < sphere_radius p -> (2 <= lattice_nx p)%Z ->
  0 < g_etaw p -> poly_gamma p <> 1 -> 0 < rho_initial p -> implosion p = Some l ->
  l <> [] /\ map i_id l = map Z.of_nat (seq 0 (length l)) /\
  (exists sep, sep * IZR (lattice_nx p - 1) = (if (domain_type p =? 0)%Z then box_length p else 2 * sphere_radius p) /\
    filled (g_dim p) (lattice_type p) (domain_type p) sep (lower p) (upper p) l) /\
  Forall (gas p) l /\ Forall (fun q => i_vx q = 0 /\ i_vy q = 0 /\ 0 < i_h q) l /\
  (forall q q', In q l -> In q' l -> i_m q = i_m q') /\ total i_m l = rho_initial p * volume p /\
  (forall q, In q l -> radius q < 8 / 10 * sphere_radius p -> i_P q = pressure_initial p) /\
  (sphere_radius p = 1 -> forall q, In q l -> 8 / 10 * sphere_radius p <= radius q -> i_u q = rim_energy (sphere_radius p) (radius q)).
Proof.
  intros p l HL Hw Hh HR Hn He Hg Hrho H. destruct (im_main 2 3 _ p l ltac:(lia) ltac:(lia) HL Hw Hh HR Hn He Hg Hrho H) as (X1 & X2 & X3 & X4 & X5 & X6 & X7 & X8).
  split; [exact X1|]. split; [exact X2|]. split.
  { exists (width_x p / IZR (lattice_nx p - 1)). split; [|exact X3]. assert (0 < IZR (lattice_nx p - 1)) by (apply IZR_lt; lia). unfold width_x. field. lra. }
  split; [exact X4|]. split; [exact X5|]. split; [exact X6|]. split; [exact X7|]. rewrite Forall_forall in *. split.
  - intros q Hq Hr. apply Rlt_b_true in Hr. destruct (X4 q Hq) as (E1 & -> & _). rewrite (X8 q Hq), E1, Hr. cbn [negb]. unfold im_uint. field. split; lra.
  - intros R1 q Hq Hr. rewrite (X8 q Hq). destruct (Rlt_b (radius q) (8 / 10 * sphere_radius p)) eqn:Er; [apply Rlt_b_true in Er; lra|]. cbn [negb].
    unfold im_slope, im_yint, im_slope, rim_energy. rewrite R1. field.
Qed.
(** Both programs run through for a box *)
Theorem C84_ends : forall p, (2 <= g_dim p <= 3)%nat -> (0 <= lattice_type p <= 2)%Z -> domain_type p = 0%Z -> equal_mass p = true -> (2 <= lattice_nx p)%Z ->
  0 < box_length p -> box_length p / 1000000 < box_width p -> box_length p / 1000000 < box_height p ->
  exists fuel, forall fuel', (fuel <= fuel')%nat -> implosion (with_fuel p fuel') <> None /\ (g_dim p = 3%nat -> collapse (with_fuel p fuel') <> None).
Proof.
  intros p Hd Ht Hdt Hem Hn HL Hw Hh.
  assert (Hs : 0 < im_sep p) by (unfold im_sep; rewrite Hdt; apply Rdiv_lt_0_compat; [exact HL | apply IZR_lt; lia]).
  destruct (lattice_ends (g_dim p) (lattice_type p) (domain_type p) (im_min p) (im_max p) (im_sep p) ltac:(lia) Ht Hs) as (fuel & pts & E). exists fuel. intros f Hf.
  pose proof (emits_more _ _ f _ _ _ _ _ _ Hf E) as Ef.
  assert (Hb : forall a, im_min p a <= im_max p a) by (intros a; unfold im_min, im_max; rewrite Hdt; destruct a as [|[|a]]; cbn [pt Z.eqb]; lra).
  assert (Hne : pts <> []).
  { assert (Hd1 : g_dim p = 1%nat -> domain_type p = 0%Z) by lia. destruct (lattice_points _ _ _ _ _ _ _ _ Hs Hb Hd1 E) as (_ & _ & P). intros ->.
    destruct (P (im_min p 0%nat, im_min p 1%nat, if (g_dim p =? 2)%nat then 0 else im_min p 2%nat)) as (_ & P'). apply P'. clear P P'. split.
    - destruct (g_dim p) as [|[|[|[|d]]]]; try lia; cbn [node Nat.eqb]; exists 0%nat, 0%nat; [|exists 0%nat]; destruct (Z.eqb_spec (lattice_type p) 0) as [T|T]; cbn [INR];
        try (rewrite ! pair_equal_spec; repeat split; cbn; field).
      exists 0%nat. split; [assert (lattice_type p = 1 \/ lattice_type p = 2)%Z as [U|U] by lia; [left|right]; (split; [exact U | reflexivity])|].
      rewrite ! pair_equal_spec; repeat split; cbn; field.
    - split; [|rewrite Hdt; discriminate]. cbn zeta. unfold im_min, im_max. rewrite Hdt. cbn [Z.eqb]. intros a Ha. destruct a as [|[|[|a]]]; [| | |lia]; cbn [coord fst snd pt].
      1,2: lra. replace (g_dim p =? 2)%nat with false by (symmetry; apply Nat.eqb_neq; lia). lra. }
  split; [|intros H3]; (eapply (im_eq _ _ _ (with_fuel p f) pts); [cbn [with_fuel g_dim]; lia | left; exact Hdt | exact Hem | exact Hn | exact Ef | exact Hne]).
Qed.
(** The rim has the energies that were meant only for a radius of 1: the code adds the radius where 1 is meant *)
Definition im_case (f : nat) : gpar := GPar 2 f 0 0 2 true 2 2 2 (1 / 2) false false false (5 / 100) 1 (5 / 3) 1 1 1 0 0 0 1 1 0 1.
Theorem C84_rim_refuted : exists p l q, implosion p = Some l /\ In q l /\ 8 / 10 * sphere_radius p <= radius q /\ 0 < sphere_radius p /\
  i_u q <> rim_energy (sphere_radius p) (radius q).
Proof.
  destruct (C84_ends (im_case 0) ltac:(cbn; lia) ltac:(cbn; lia) eq_refl eq_refl ltac:(cbn; lia) ltac:(cbn; lra) ltac:(cbn; lra) ltac:(cbn; lra)) as (f & Hf).
  destruct (Hf f ltac:(lia)) as (Hi & _). change (with_fuel (im_case 0) f) with (im_case f) in Hi. destruct (implosion (im_case f)) as [l|] eqn:E; [|congruence].
  destruct (im_main 2 3 _ (im_case f) l ltac:(lia) ltac:(lia) ltac:(cbn; lra) ltac:(cbn; lra) ltac:(cbn; lra) ltac:(cbn; lra) ltac:(cbn; lia) ltac:(cbn; lra) ltac:(cbn; lra) ltac:(cbn; lra) E)
    as (_ & _ & (F & _) & _ & _ & _ & _ & X8).
  assert (I : In (- (2 / 2), - (2 / 2), 0) (map ipos l)).
  { apply F. split; [exists 0%nat, 0%nat; cbn [im_case lattice_type Z.eqb lower domain_type pt box_length box_width INR]; rewrite ! pair_equal_spec; repeat split; ring|]. split; [|discriminate].
    intros a Ha. cbn in Ha. destruct a as [|[|a]]; [| |lia]; unfold upper, lower, im_case; cbn [coord fst snd pt domain_type box_length box_width box_height Z.eqb]; lra. }
  apply in_map_iff in I. destruct I as (q & Eq & Iq). unfold ipos in Eq. rewrite ! pair_equal_spec in Eq. destruct Eq as ((Ex & Ey) & Ez).
  assert (Hr : 4 / 10 < radius q).
  { unfold radius. rewrite Ex, Ey, Ez. apply Rsqr_incrst_0; [|lra|apply sqrt_pos]. unfold Rsqr. rewrite sqrt_sqrt by nra. lra. }
  exists (im_case f), l, q. split; [exact E|]. split; [exact Iq|]. split; [cbn [im_case sphere_radius]; lra|]. split; [cbn [im_case sphere_radius]; lra|].
  rewrite Forall_forall in X8. rewrite (X8 q Iq). cbn [im_case sphere_radius].
  destruct (Rlt_b (radius q) (8 / 10 * (1 / 2))) eqn:Er; [apply Rlt_b_true in Er; lra|]. cbn [negb].
  unfold im_slope, im_yint, im_slope, rim_energy. cbn [im_case sphere_radius]. lra.
Qed.
(** A box that both programs fill *)
Example gas_runs : forall ty, (0 <= ty <= 2)%Z -> exists f l l',
  implosion (GPar 3 f ty 0 5 true 2 2 2 1 false false false (5 / 100) 1 (5 / 3) 1 1 1 0 0 0 1 1 0 1) = Some l /\
  collapse (GPar 3 f ty 0 5 true 2 2 2 1 false false false (5 / 100) 1 (5 / 3) 1 1 1 0 0 0 1 1 0 1) = Some l' /\ total i_m l = 8 /\ total i_m l' = 8.
Proof.
  intros ty Ht. set (p := fun f => GPar 3 f ty 0 5 true 2 2 2 1 false false false (5 / 100) 1 (5 / 3) 1 1 1 0 0 0 1 1 0 1).
  destruct (C84_ends (p 0%nat) ltac:(cbn; lia) Ht eq_refl eq_refl ltac:(cbn; lia) ltac:(cbn; lra) ltac:(cbn; lra) ltac:(cbn; lra)) as (f & Hf).
  destruct (Hf f ltac:(lia)) as (Hi & Hc). specialize (Hc eq_refl). exists f. change (with_fuel (p 0%nat) f) with (p f) in *.
  destruct (implosion (p f)) as [l|] eqn:E; [|congruence]. destruct (collapse (p f)) as [l'|] eqn:E'; [|congruence]. exists l, l'.
  split; [exact E|]. split; [exact E'|].
  destruct (C84_implosion_partial (p f) l ltac:(cbn; lra) ltac:(cbn; lra) ltac:(cbn; lra) ltac:(cbn; lra) ltac:(cbn; lia) ltac:(cbn; lra) ltac:(cbn; lra) ltac:(cbn; lra) E)
    as (_ & _ & _ & _ & _ & _ & -> & _).
  destruct (C84_collapse (p f) l' ltac:(cbn; lra) ltac:(cbn; lra) ltac:(cbn; lra) ltac:(cbn; lra) ltac:(cbn; lia) ltac:(cbn; lra) ltac:(cbn; lra) ltac:(cbn; lra) E')
    as (_ & _ & _ & _ & _ & _ & ->).
  unfold volume. cbn. lra.
Qed.

(** ** C83 *)
Definition wt_lower (p : gpar) : nat -> R := pt (box_width p / 2) (- (box_width p / 2)) (- (box_height p / 2)).
Definition wt_upper (p : gpar) : nat -> R := pt (box_width p / 2 + box_length p) (box_width p / 2) (box_height p / 2).
Definition wt_of (p : gpar) (n : nat) (k : Z) (x y z : R) : idp :=
  IdP k x y z (- flow_velocity p) 0 (wt_h p) (rho_initial p) (pressure_initial p / (poly_gamma p - 1) / rho_initial p) (pressure_initial p) (rho_initial p / INR n).
Lemma wt_lower_ok : forall p a, wt_min p a = wt_lower p a.
Proof. intros p [|[|a]]; unfold wt_min, wt_lower; cbn [pt]; field. Qed.
Lemma wt_upper_ok : forall p a, wt_max p a = wt_upper p a.
Proof. intros p [|[|a]]; unfold wt_max, wt_upper; cbn [pt]; field. Qed.
Lemma firstn_seq0 : forall a n, (a <= n)%nat -> firstn a (seq 0 n) = seq 0 a.
Proof.
  intros a n H. replace n with (a + (n - a))%nat by lia. rewrite seq_app, firstn_app, seq_length, Nat.sub_diag, app_nil_r.
  rewrite <- (seq_length a 0) at 1. apply firstn_all.
Qed.
Lemma wt_inv : forall p l, wtunnel p = Some l -> (2 <= g_dim p)%nat /\
  exists pts, Emits (lattice (g_dim p) (g_fuel p) (lattice_type p) 0 (wt_min p) (wt_max p) (wt_sep p)) pts /\ (wt_npd p <= Z.of_nat (length pts))%Z /\
    l = firstn (Z.to_nat (wt_npd p)) (map (at3 (wt_of p (length pts))) (number 0 pts)).
Proof.
  intros p l H. unfold wtunnel in H. destruct (g_dim p <=? 1)%nat eqn:Ed; [discriminate|]. apply Nat.leb_gt in Ed. destruct (lattice_nx p - 1 =? 0)%Z; [discriminate|]. cbn [orb] in H.
  split; [lia|]. destruct (count _ _ _ _ _ _ _ _) as [n|] eqn:Ec; [|discriminate].
  destruct (fresh_emits _ _ _ _ _ _ _ _ _ Ec eq_refl) as (pts & E & -> & Eg). exists pts. split; [exact E|]. rewrite Eg in H. cbv iota beta in H.
  unfold write_file in H. destruct (wt_npd p <=? Z.of_nat (length pts))%Z eqn:En; [|discriminate]. apply Z.leb_le in En. split; [exact En|].
  pose proof (write_emit pts (wt_of p (length pts)) (Z.of_nat (length pts)) ltac:(lia)) as W. unfold write_file in W. rewrite Z.leb_refl in W.
  injection W as W. rewrite <- W. injection H as <-. rewrite firstn_map, Nat2Z.id. rewrite firstn_seq0 by lia. apply map_ext_in. intros k Hk. apply in_seq in Hk.
  replace (Z.of_nat k <? Z.of_nat (length pts))%Z with true by (symmetry; apply Z.ltb_lt; lia). unfold wt_of. rewrite INR_IZR_INZ. reflexivity.
Qed.

(** Which particles there should be: those of a lattice with its first node at the lower corner of the box *)
Definition tunnel (p : gpar) (l : list idp) : Prop :=
  exists sep, sep * IZR (lattice_nx p - 1) = box_length p /\ filled (g_dim p) (lattice_type p) 0 sep (wt_lower p) (wt_upper p) l.
(** The file has the first particles of the lattice, as many as nx * floor (nx * width / length), in three dimensions times floor (nx * height / length) *)
Theorem C83_tunnel_partial : forall p l, 0 < box_length p -> 0 <= box_width p -> 0 <= box_height p -> (2 <= lattice_nx p)%Z -> poly_gamma p <> 1 -> rho_initial p <> 0 ->
  wtunnel p = Some l ->
  exists all, tunnel p all /\ l = firstn (length l) all /\
    (exists ny nz, IZR ny <= IZR (lattice_nx p) * box_width p / box_length p < IZR ny + 1 /\ IZR nz <= IZR (lattice_nx p) * box_height p / box_length p < IZR nz + 1 /\
      Z.of_nat (length l) = (lattice_nx p * ny * (if (g_dim p =? 2)%nat then 1 else nz))%Z) /\
    map i_id all = map Z.of_nat (seq 0 (length all)) /\
    Forall (fun q => i_vx q = - flow_velocity p /\ i_vy q = 0 /\ i_rho q = rho_initial p /\ i_P q = pressure_initial p /\ i_P q = (poly_gamma p - 1) * i_rho q * i_u q /\
      i_m q = i_rho q / INR (length all)) all.
Proof.
  intros p l HL Hw Hh Hn Hg Hr H. destruct (wt_inv p l H) as (Hd & pts & E & Hle & ->). exists (map (at3 (wt_of p (length pts))) (number 0 pts)).
  assert (Hx : 0 < IZR (lattice_nx p - 1)) by (apply IZR_lt; lia). assert (Hx' : 0 < IZR (lattice_nx p)) by (apply IZR_lt; lia).
  assert (Hs : 0 < wt_sep p) by (unfold wt_sep; apply Rdiv_lt_0_compat; assumption).
  assert (Hb : forall a, wt_min p a <= wt_max p a) by (intros [|[|a]]; unfold wt_min, wt_max; cbn [pt]; lra).
  destruct (lattice_points _ _ _ _ _ _ _ _ Hs Hb ltac:(reflexivity) E) as (Hd3 & _ & _).
  assert (Hpos : forall x, 0 <= x -> (0 <= Int_part x)%Z).
  { intros x H0. destruct (base_Int_part x) as (B1 & B2). assert (-1 < Int_part x)%Z by (apply lt_IZR; lra). lia. }
  assert (Pw : 0 <= IZR (lattice_nx p) * box_width p / box_length p) by (apply Rmult_le_pos; [apply Rmult_le_pos; lra | left; apply Rinv_0_lt_compat; exact HL]).
  assert (Ph : 0 <= IZR (lattice_nx p) * box_height p / box_length p) by (apply Rmult_le_pos; [apply Rmult_le_pos; lra | left; apply Rinv_0_lt_compat; exact HL]).
  pose proof (Hpos _ Pw) as Iw. pose proof (Hpos _ Ph) as Ih.
  assert (En : wt_npd p = (lattice_nx p * Int_part (IZR (lattice_nx p) * box_width p / box_length p) *
    (if (g_dim p =? 2)%nat then 1 else Int_part (IZR (lattice_nx p) * box_height p / box_length p)))%Z).
  { unfold wt_npd. destruct (Nat.eqb_spec (g_dim p) 2) as [->|N]; [cbn [Nat.ltb Nat.leb]; lia|]. replace (2 <? g_dim p)%nat with true by (symmetry; apply Nat.ltb_lt; lia). reflexivity. }
  assert (Hnp : (0 <= wt_npd p)%Z) by (rewrite En; destruct (g_dim p =? 2)%nat; repeat apply Z.mul_nonneg_nonneg; lia).
  split; [|split; [|split; [|split]]].
  - exists (wt_sep p). split; [unfold wt_sep; field; lra|].
    destruct (filled_at3 _ _ _ _ _ _ _ pts (wt_of p (length pts)) 0 Hs Hb ltac:(reflexivity) ltac:(reflexivity) E) as (F & N). split; [|exact N].
    intros x. rewrite F. split; intros (X & Y); (split; [eapply node_ext; [|exact X] | eapply within_ext; [| |exact Y]]); intros; rewrite ?wt_lower_ok, ?wt_upper_ok; reflexivity.
  - rewrite firstn_length, map_length, number_length. rewrite Nat.min_l by lia. reflexivity.
  - exists (Int_part (IZR (lattice_nx p) * box_width p / box_length p)), (Int_part (IZR (lattice_nx p) * box_height p / box_length p)).
    destruct (base_Int_part (IZR (lattice_nx p) * box_width p / box_length p)). destruct (base_Int_part (IZR (lattice_nx p) * box_height p / box_length p)).
    split; [lra|]. split; [lra|]. rewrite firstn_length, map_length, number_length, Nat.min_l by lia. rewrite Z2Nat.id by lia. exact En.
  - rewrite map_map, map_length, number_length, (map_ext _ fst) by (intros (j & [[x y] z]); reflexivity); apply (number_fst _ _ 0).
  - rewrite map_length, number_length. apply forall_at3. intros j x y z _. unfold wt_of. cbn [i_vx i_vy i_rho i_P i_u i_m]. repeat split. field. split; lra.
Qed.
Lemma int_part_eq : forall r z, IZR z <= r < IZR z + 1 -> Int_part r = z.
Proof.
  intros r z (H1 & H2). destruct (base_Int_part r) as (B1 & B2).
  assert (IZR z < IZR (Int_part r + 1)) as A by (rewrite plus_IZR; lra). assert (IZR (Int_part r) < IZR (z + 1)) as B by (rewrite plus_IZR; lra).
  apply lt_IZR in A, B. lia.
Qed.
(** In a square tunnel more particles are written than there are *)
Theorem C83_square : forall p, g_dim p = 2%nat -> lattice_type p = 0%Z -> 0 < box_length p -> box_width p = box_length p -> 0 <= box_height p -> (2 <= lattice_nx p)%Z -> wtunnel p = None.
Proof.
  intros p Hd Ht HL Hw Hh Hn. destruct (wtunnel p) as [l|] eqn:H; [|reflexivity]. exfalso.
  destruct (wt_inv p l H) as (_ & pts & E & Hle & _). set (n := lattice_nx p) in *.
  assert (Hx : 0 < IZR (n - 1)) by (apply IZR_lt; lia). assert (Hs : 0 < wt_sep p) by (unfold wt_sep; apply Rdiv_lt_0_compat; assumption).
  assert (En : wt_npd p = (n * n)%Z).
  { unfold wt_npd. rewrite Hd. cbn [Nat.ltb Nat.leb]. rewrite Hw. fold n. replace (IZR n * box_length p / box_length p) with (IZR n) by (field; lra).
    rewrite (int_part_eq (IZR n) n) by lra. reflexivity. }
  assert (Nd : NoDup pts) by (refine (lattice_nodup _ _ _ _ _ _ _ _ Hs _ E); left; lia).
  assert (Hb : forall a, wt_min p a <= wt_max p a) by (intros [|[|a]]; unfold wt_min, wt_max; cbn [pt]; lra).
  destruct (lattice_points _ _ _ _ _ _ _ _ Hs Hb ltac:(reflexivity) E) as (_ & _ & P). rewrite Hd, Ht in P.
  set (k := Z.to_nat (n - 1)). assert (Hk : INR k * wt_sep p = box_length p) by (unfold k; rewrite INR_IZR_INZ, Z2Nat.id by lia; unfold wt_sep; fold n; field; lra).
  assert (I : incl pts (map (fun ij => (wt_min p 0%nat + INR (fst ij) * wt_sep p, wt_min p 1%nat + INR (snd ij) * wt_sep p, 0)) (list_prod (seq 0 k) (seq 0 k)))).
  { intros q Hq. apply P in Hq. destruct Hq as ((i & j & ->) & W & _). cbn [Z.eqb] in *. cbn zeta in W.
    assert (T : 0 <= (wt_max p 0%nat - wt_min p 0%nat) / 1000000) by (pose proof (Hb 0%nat); lra).
    apply in_map_iff. exists (i, j). split; [reflexivity|]. apply in_prod; apply in_seq; (split; [lia|]); cbn [Nat.add]; apply INR_lt; apply Rmult_lt_reg_r with (wt_sep p); try exact Hs; rewrite Hk.
    - specialize (W 0%nat ltac:(lia)). cbn [coord fst snd] in W. assert (wt_max p 0%nat = wt_min p 0%nat + box_length p) by reflexivity. lra.
    - specialize (W 1%nat ltac:(lia)). cbn [coord fst snd] in W. assert (wt_max p 1%nat = wt_min p 1%nat + box_length p) by (unfold wt_max, wt_min; cbn [pt]; lra). lra. }
  apply NoDup_incl_length in I; [|exact Nd]. rewrite map_length, prod_length, seq_length in I. unfold k in I. nia.
Qed.
Definition wt_case (f : nat) (n : Z) (len w : R) : gpar := GPar 2 f 0 0 n false len w 1 1 false false false (5 / 100) 1 (5 / 3) 1 1 1 1 0 0 1 1 0 1.
Theorem C83_overrun_refuted : exists p, (forall fuel, wtunnel (with_fuel p fuel) = None) /\ exists all, all <> [] /\ tunnel p all.
Proof.
  exists (wt_case 0 2 1 1). split; [intros fuel; apply C83_square; cbn; try reflexivity; try lra; lia|].
  exists [IdP 0 (1 / 2) (- (1 / 2)) 0 0 0 0 0 0 0 0]. split; [discriminate|]. exists 1. split; [change (1 * IZR 1 = 1); lra|]. cbn [wt_case g_dim lattice_type]. split; [|intros _; repeat constructor; intros []].
  intros x. unfold ipos. cbn [map i_x i_y i_z]. unfold node, node_2d, wt_lower, wt_upper. cbn [wt_case box_length box_width box_height Z.eqb pt]. split.
  - intros [<-|[]]. split; [exists 0%nat, 0%nat; cbn [INR Z.eqb pt]; rewrite ! pair_equal_spec; repeat split; lra|].
    split; [|discriminate]. intros a Ha. destruct a as [|[|a]]; [| |lia]; cbn [coord fst snd pt]; lra.
  - intros ((i & j & ->) & W & _). cbn zeta in W. pose proof (W 0%nat ltac:(lia)) as W0. pose proof (W 1%nat ltac:(lia)) as W1. cbn [coord fst snd pt] in W0, W1.
    assert (forall m : nat, INR m < 1 -> m = 0%nat) as Z0 by (intros m Hm; change 1 with (INR 1) in Hm; apply INR_lt in Hm; lia).
    rewrite (Z0 i), (Z0 j) by lra. left. cbn [INR]. rewrite ! pair_equal_spec; repeat split; lra.
Qed.
(** and in a narrow one none at all *)
Theorem C83_lost_refuted : exists p, wtunnel p = Some [] /\ exists q, forall all, tunnel p all -> In q (map ipos all).
Proof.
  destruct (lattice_ends 2 0 0 (wt_min (wt_case 0 3 10 3)) (wt_max (wt_case 0 3 10 3)) (wt_sep (wt_case 0 3 10 3)) ltac:(lia) ltac:(lia) ltac:(change (0 < 10 / 2); lra)) as (f & pts & E).
  exists (wt_case f 3 10 3). split.
  - unfold wtunnel. change (g_dim (wt_case f 3 10 3) <=? 1)%nat with false. change (lattice_nx (wt_case f 3 10 3) - 1 =? 0)%Z with false. cbn [orb].
    change (wt_min (wt_case f 3 10 3)) with (wt_min (wt_case 0 3 10 3)). change (wt_max (wt_case f 3 10 3)) with (wt_max (wt_case 0 3 10 3)).
    change (wt_sep (wt_case f 3 10 3)) with (wt_sep (wt_case 0 3 10 3)). change (g_dim (wt_case f 3 10 3)) with 2%nat. change (g_fuel (wt_case f 3 10 3)) with f. change (lattice_type (wt_case f 3 10 3)) with 0%Z.
    rewrite (count_emits _ _ _ _ _ _ _ _ _ E). rewrite (generate_emits _ _ _ _ _ _ _ _ _ _ _ E) by (cbn [l_pid zeros]; lia).
    replace (wt_npd (wt_case f 3 10 3)) with 0%Z; [unfold write_file; replace (0 <=? Z.of_nat (length pts))%Z with true by (symmetry; apply Z.leb_le; lia); reflexivity|].
    unfold wt_npd. cbn [wt_case g_dim lattice_nx box_width box_length Nat.ltb Nat.leb]. rewrite (int_part_eq _ 0) by lra. reflexivity.
  - exists (3 / 2, - (3 / 2), 0). intros all (sep & Es & F & _). apply F. unfold wt_lower, wt_upper. cbn [wt_case g_dim lattice_type box_length box_width box_height pt]. split.
    + exists 0%nat, 0%nat. cbn [Z.eqb INR pt]. rewrite ! pair_equal_spec; repeat split; lra.
    + split; [|discriminate]. intros a Ha. destruct a as [|[|a]]; [| |lia]; cbn [coord fst snd pt]; lra.
Qed.

(** A tunnel that is written: four of the six nodes *)
Example tunnel_written : exists f l, wtunnel (wt_case f 4 10 4) = Some l /\ length l = 4%nat.
Proof.
  destruct (lattice_ends 2 0 0 (wt_min (wt_case 0 4 10 4)) (wt_max (wt_case 0 4 10 4)) (wt_sep (wt_case 0 4 10 4)) ltac:(lia) ltac:(lia) ltac:(change (0 < 10 / 3); lra)) as (f & pts & E).
  exists f. assert (N : wt_npd (wt_case f 4 10 4) = 4%Z).
  { unfold wt_npd. cbn [wt_case g_dim lattice_nx box_width box_length Nat.ltb Nat.leb]. rewrite (int_part_eq _ 1) by lra. reflexivity. }
  assert (L4 : (4 <= length pts)%nat).
  { assert (Hs : 0 < wt_sep (wt_case 0 4 10 4)) by (change (0 < 10 / 3); lra).
    assert (Hb : forall a, wt_min (wt_case 0 4 10 4) a <= wt_max (wt_case 0 4 10 4) a) by (intros [|[|a]]; unfold wt_min, wt_max; cbn; lra).
    destruct (lattice_points _ _ _ _ _ _ _ _ Hs Hb ltac:(reflexivity) E) as (_ & _ & P).
    set (pos := fun i j : nat => (5 / 10 * 4 + INR i * (10 / 3), - (4) / 2 + INR j * (10 / 3), 0)).
    change 4%nat with (length [pos 0 0; pos 1 0; pos 0 1; pos 1 1]%nat). apply NoDup_incl_length.
    - unfold pos. cbn [INR]. repeat constructor; cbn [In]; intros X; repeat (destruct X as [X|X]; [rewrite ! pair_equal_spec in X; lra|]); exact X.
    - intros q Hq. apply P. assert (exists i j : nat, q = pos i j /\ (i <= 1)%nat /\ (j <= 1)%nat) as (i & j & -> & Hi & Hj).
      { cbn [In] in Hq. destruct Hq as [<-|[<-|[<-|[<-|[]]]]]; do 2 eexists; (split; [reflexivity | lia]). }
      split; [exists i, j; reflexivity|]. apply le_INR in Hi, Hj. cbn [INR] in Hi, Hj. pose proof (pos_INR i). pose proof (pos_INR j).
      split; [|discriminate]. intros a Ha. destruct a as [|[|a]]; [| |lia]; unfold pos, wt_min, wt_max; cbn [wt_case box_length box_width box_height coord fst snd pt]; lra. }
  unfold wtunnel. change (g_dim (wt_case f 4 10 4) <=? 1)%nat with false. change (lattice_nx (wt_case f 4 10 4) - 1 =? 0)%Z with false. cbn [orb].
  change (wt_min (wt_case f 4 10 4)) with (wt_min (wt_case 0 4 10 4)). change (wt_max (wt_case f 4 10 4)) with (wt_max (wt_case 0 4 10 4)).
  change (wt_sep (wt_case f 4 10 4)) with (wt_sep (wt_case 0 4 10 4)). change (g_dim (wt_case f 4 10 4)) with 2%nat. change (g_fuel (wt_case f 4 10 4)) with f. change (lattice_type (wt_case f 4 10 4)) with 0%Z.
  rewrite (count_emits _ _ _ _ _ _ _ _ _ E). rewrite (generate_emits _ _ _ _ _ _ _ _ _ _ _ E) by (cbn [l_pid zeros]; lia). rewrite N.
  unfold write_file. replace (4 <=? Z.of_nat (length pts))%Z with true by (symmetry; apply Z.leb_le; lia). eexists. split; reflexivity.
Qed.

Print Assumptions C83_tunnel_partial.
Print Assumptions C83_square.
Print Assumptions C83_overrun_refuted.
Print Assumptions C83_lost_refuted.
Print Assumptions C84_collapse.
Print Assumptions C84_implosion_partial.
Print Assumptions C84_ends.
Print Assumptions C84_rim_refuted.

(** The smoothing length in the file: four times the distance of nodes in two dimensions, three times in three *)
Theorem C83_smoothing : forall p l, (2 <= lattice_nx p)%Z -> wtunnel p = Some l ->
  Forall (fun q => i_h q * IZR (lattice_nx p - 1) = (if (g_dim p =? 2)%nat then 4 else 3) * box_length p) l.
Proof.
  intros p l Hn H. destruct (wt_inv p l H) as (_ & pts & _ & _ & ->). assert (IZR (lattice_nx p - 1) <> 0) by (apply not_0_IZR; lia).
  assert (A : Forall (fun q => i_h q * IZR (lattice_nx p - 1) = (if (g_dim p =? 2)%nat then 4 else 3) * box_length p) (map (at3 (wt_of p (length pts))) (number 0 pts))).
  { apply forall_at3. intros j x y z _. unfold wt_of, wt_h, wt_sep. cbn [i_h]. destruct (g_dim p =? 2)%nat; field; assumption. }
  rewrite <- (firstn_skipn (Z.to_nat (wt_npd p))) in A. apply Forall_app in A. apply A.
Qed.
Print Assumptions C83_smoothing.
