(** C85: the initial data of the Kelvin-Helmholtz instability *)
From Coq Require Import Reals Lra Lia.
From Verif Require Import Base BuildTree_model Range_model Range_props Lattice_model Lattice_props LatticeBox_props IdGen_model IdGen_lemmas IdSod_props IdGas_props IdFlow_model IdFlow_lemmas.
Local Open Scope R_scope.

(** ** Statement *)
(** The particles [l] are the nodes of a lattice in a box after scaling the axes by [ax], [ay], [az] and moving along y by [oy];
    their mass is their density times the volume of the scaled cell *)
Definition stretched (dim : nat) (ty : Z) (sep ax ay az oy : R) (bmin bmax : nat -> R) (l : list idp) : Prop :=
  0 < ax /\ 0 < ay /\ 0 < az /\
  exists pts, map ipos l = map (fun q => (ax * fst (fst q), oy + ay * snd (fst q), az * snd q)) pts /\
    (forall q, In q pts <-> node dim ty bmin sep q /\ within dim 0 bmin bmax q) /\ ((dim < 3)%nat \/ ty <> 2%Z -> NoDup pts) /\
    Forall (fun q => i_m q = i_rho q * (ax * ay * az * cell dim ty sep)) l.
(** Flow in x, perturbation in y, and the state of the gas *)
Definition flows (p : gpar) (rho vx : R) (q : idp) : Prop :=
  i_rho q = rho /\ i_vx q = vx /\ i_P q = pressure_initial p /\ i_P q = (poly_gamma p - 1) * i_rho q * i_u q /\
  0 < i_m q /\ i_rho q * (i_h q / g_etaw p) ^ g_dim p = i_m q /\ 0 < i_h q /\
  (225 / 1000 < i_y q < 25 / 100 -> i_vy q = KH_A p * sin (- (2 * PI * (i_x q + 1 / 2) / KH_lambda p))) /\
  (- (25 / 100) < i_y q < - (225 / 1000) -> i_vy q = KH_A p * sin (2 * PI * (i_x q + 1 / 2) / KH_lambda p)) /\
  (i_vy q <> 0 -> 225 / 1000 < Rabs (i_y q) < 25 / 100).

(** The layers: the middle one, of width [w], is at most a third of the domain; the outer ones, of width [v], fill what is left; both consist of
    whole periods of their lattice; [N] columns of the outer lattice are stretched to the length of the domain; in three dimensions the heights [h] and [k] are stretched as well *)
Definition layers (p : gpar) (s t w g v N h k : R) : Prop :=
  let ty := lattice_type p in
  s * IZR (lattice_nx p) = box_length p /\ 0 < t /\ cell (g_dim p) ty t = density_ratio p * cell (g_dim p) ty s /\
  (exists K : nat, w = INR K * y_period ty s) /\ 0 < w <= box_width p / 3 /\ box_width p / 3 < w + y_period ty s /\
  g = Rmin (y_period ty s) (y_period ty t) / 2 /\
  (exists K : nat, v = INR K * y_period ty t) /\ 0 <= v /\ w / 2 + g + v <= box_width p / 2 < w / 2 + g + v + y_period ty t /\
  (exists K : nat, N = INR K) /\ 1 <= N /\ (N - 1 / 10) * t <= box_length p < (N + 9 / 10) * t /\
  (if (g_dim p =? 2)%nat then h = box_height p /\ k = box_height p
   else (exists K : nat, h = INR K * z_period ty s) /\ 0 < h <= box_height p /\ box_height p < h + z_period ty s /\
        (exists K : nat, k = INR K * z_period ty t) /\ 0 < k <= box_height p /\ box_height p < k + z_period ty t).
Definition shift (ty : Z) (s : R) : R := if (ty =? 0)%Z then s / 2 else s / 4.
Definition spacing_y (ty : Z) (s : R) : R := if (ty =? 0)%Z then s else s * sqrt 3 / 2.

(** ** Proofs *)
Lemma block_mass_cell : forall dim ty rho s, (2 <= dim <= 3)%nat -> (0 <= ty <= 2)%Z -> block_mass dim ty rho s = rho * cell dim ty s.
Proof.
  intros dim ty rho s Hd Ht. unfold block_mass, cell. rewrite packed_is by exact Ht. destruct dim as [|[|[|[|d]]]]; try lia.
  - destruct (ty =? 0)%Z; cbn [negb]; field.
  - destruct (ty =? 0)%Z; cbn [negb]; [ring|]. rewrite <- sqrt23_3. field.
Qed.
Lemma other_sep_cell : forall dim ty s ratio, (2 <= dim <= 3)%nat -> 0 < ratio -> cell dim ty (other_sep dim s ratio) = ratio * cell dim ty s.
Proof.
  intros dim ty s ratio Hd Hr. unfold other_sep, cell. destruct dim as [|[|[|[|d]]]]; try lia.
  - pose proof (sqrt_sqrt ratio ltac:(lra)) as E. destruct (ty =? 0)%Z; rewrite <- E at 3; field.
  - pose proof (cbrt_cube ratio Hr) as E. destruct (ty =? 0)%Z; rewrite <- E at 4; field.
Qed.
Lemma other_sep_pos : forall dim s ratio, (2 <= dim <= 3)%nat -> 0 < s -> 0 < ratio -> 0 < other_sep dim s ratio.
Proof.
  intros dim s ratio Hd Hs Hr. unfold other_sep. destruct dim as [|[|[|[|d]]]]; try lia; apply Rmult_lt_0_compat; try exact Hs; [apply sqrt_lt_R0; exact Hr | apply Rpower_pos].
Qed.
Lemma other_sep_ge : forall dim s ratio, (2 <= dim <= 3)%nat -> 0 < s -> 1 <= ratio -> s <= other_sep dim s ratio <= s * ratio.
Proof.
  intros dim s ratio Hd Hs Hr. unfold other_sep. destruct dim as [|[|[|[|d]]]]; try lia.
  - pose proof (sqrt_sqrt ratio ltac:(lra)). pose proof (sqrt_pos ratio). assert (1 <= sqrt ratio) by (rewrite <- sqrt_1; apply sqrt_le_1_alt; exact Hr).
    assert (sqrt ratio <= ratio) by nra. nra.
  - pose proof (cbrt_cube ratio ltac:(lra)). pose proof (cbrt_ge1 ratio Hr). assert (cbrt ratio <= ratio) by (assert (1 <= cbrt ratio * cbrt ratio) by nra; nra). nra.
Qed.
Lemma nonzero_iff : forall x, nonzero x = true <-> x <> 0.
Proof. intros x. unfold nonzero. rewrite orb_true_iff, ! Rlt_b_true. split; [intros [H|H]; lra | intros H; destruct (Rdichotomy x 0 H); [right | left]; lra]. Qed.

Lemma div_nonneg : forall a d, 0 <= a -> 0 < d -> 0 <= a / d.
Proof. intros a d Ha Hd. unfold Rdiv. apply Rmult_le_pos; [exact Ha | left; apply Rinv_0_lt_compat; exact Hd]. Qed.
Lemma div_le : forall a d c, 0 < d -> a <= c * d -> a / d <= c.
Proof. intros a d c Hd H. apply Rmult_le_reg_r with d; [exact Hd|]. replace (a / d * d) with a by (field; lra). exact H. Qed.
Lemma number_range : forall T (l : list T) k q, In q (number k l) -> (k <= fst q < k + Z.of_nat (length l))%Z.
Proof.
  intros T l. induction l as [|a l IH]; intros k q H; [destruct H|]. cbn [number] in H. destruct H as [<-|H]; [cbn [fst length]; lia|]. apply IH in H. cbn [length]. lia.
Qed.
Lemma map_at3_in : forall T (g : idp -> T) (f : Z -> R -> R -> R -> idp) (g' : R * R * R -> T) pts k, (forall j x y z, In (x, y, z) pts -> g (f j x y z) = g' (x, y, z)) -> map g (map (at3 f) (number k pts)) = map g' pts.
Proof.
  intros T g f g' pts k H. rewrite map_map. rewrite <- (number_snd _ pts k) at 2. rewrite map_map. apply map_ext_in. intros (j & [[x y] z]) Hj. apply H. exact (in_number _ _ _ _ Hj).
Qed.
Lemma stretched_at3 : forall dim fuel ty bmin bmax sep pts f k ax ay az oy, 0 < sep -> (forall a, bmin a <= bmax a) -> Emits (lattice dim fuel ty 0 bmin bmax sep) pts ->
  0 < ax -> 0 < ay -> 0 < az -> (forall j x y z, In (x, y, z) pts -> ipos (f j x y z) = (ax * x, oy + ay * y, az * z) /\ i_m (f j x y z) = i_rho (f j x y z) * (ax * ay * az * cell dim ty sep)) ->
  stretched dim ty sep ax ay az oy bmin bmax (map (at3 f) (number k pts)).
Proof.
  intros dim fuel ty bmin bmax sep pts f k ax ay az oy Hs Hb E H1 H2 H3 Hf. split; [exact H1|]. split; [exact H2|]. split; [exact H3|].
  destruct (lattice_points dim fuel ty 0 bmin bmax sep pts Hs Hb ltac:(reflexivity) E) as (_ & _ & P).
  exists pts. split; [apply map_at3_in; intros j x y z Hx; exact (proj1 (Hf j x y z Hx))|]. split; [exact P|].
  split; [intros Ht; eapply lattice_nodup; [exact Hs | exact Ht | exact E]|]. apply forall_at3. intros j x y z Hx. exact (proj2 (Hf j x y z Hx)).
Qed.
Section Kh.
Context (p : gpar).
Notation dim := (g_dim p).
Notation ty := (lattice_type p).
Notation s := (kh_sep p).
Notation st := (kh_sep_t p).
Notation wm := (kh_wm p).
Notation gap := (kh_gap p).
Notation wt := (kh_wt p).
Notation nxt := (kh_nxt p).
Notation hm := (kh_hm p).
Notation ht := (kh_ht p).
Notation L := (box_length p).
Notation latt := (lattice dim (g_fuel p) ty 0).
Definition kh_yx : R := nxt * st / L.
Definition kh_yz : R := ht / hm.
Definition kh_y0 : R := wm / 2 + gap.
Definition st_x (mid : bool) (x : R) : R := if mid then x else x / kh_yx.
Definition st_y (mid : bool) (y : R) : R := if mid then y else if Rlt_b 0 y then kh_y0 + kh_yx * kh_yz * (y - kh_y0) else - kh_y0 + kh_yx * kh_yz * (y + kh_y0).
Definition st_z (mid : bool) (z : R) : R := if (3 <=? dim)%nat then if mid then z else z / kh_yz else z.
Definition kh_of (nm : Z) (y1 z1 : R) (k : Z) (x y z : R) : idp :=
  let ys := 5 / 10 * box_width p / Rabs y1 in
  let zs := if (3 <=? dim)%nat then 5 / 10 * box_height p / Rabs z1 else 1 in
  let mid := (k <? nm)%Z in
  let m := block_mass dim ty (rho_initial p * density_ratio p) s * ys * zs in
  let x' := st_x mid x in let y' := st_y mid y * ys in let z' := if (3 <=? dim)%nat then st_z mid z * zs else st_z mid z in
  let rho := if mid then rho_initial p * density_ratio p else rho_initial p in
  let vx := if mid then flow_velocity p / 2 else - flow_velocity p / 2 in
  IdP k x' y' z' vx (kh_vy p x' y') (smoothing p m rho) rho (pressure_initial p / (poly_gamma p - 1) / rho) (pressure_initial p) m.
Definition kh_ok (y1 z1 : R) : bool := nonzero kh_yx && nonzero hm && nonzero kh_yz && nonzero y1 && (nonzero z1 || negb (3 <=? dim)%nat).
Definition kh_start : bool := negb (equal_mass p) || negb (domain_type p =? 0)%Z || negb ((2 <=? dim)%nat && (dim <=? 3)%nat) || (lattice_nx p =? 0)%Z.
Definition snd_y (pts : list (R * R * R)) : R := match pts with q :: _ => snd (fst q) | [] => 0 end.
Definition snd_z (pts : list (R * R * R)) : R := match pts with q :: _ => snd q | [] => 0 end.
Lemma kh_eq : forall pm pt pb, Emits (latt (kh_mmin p) (kh_mmax p) s) pm -> Emits (latt (kh_tmin p) (kh_tmax p) st) pt -> Emits (latt (kh_bmin p) (kh_bmax p) st) pb ->
  kh_start = false ->
  kh p = match pb with
         | [] => None
         | _ => if kh_ok (st_y false (snd_y pb)) (st_z false (snd_z pb))
                then Some (map (at3 (kh_of (Z.of_nat (length pm)) (st_y false (snd_y pb)) (st_z false (snd_z pb)))) (number 0 (pm ++ pt ++ pb))) else None
         end.
Proof.
  intros pm pt pb Em Et Eb H0. unfold kh. unfold kh_start in H0. rewrite H0.
  apply orb_false_iff in H0. destruct H0 as (H0 & _). apply orb_false_iff in H0. destruct H0 as (H0 & _). apply orb_false_iff in H0. destruct H0 as (_ & H0). apply negb_false_iff, Z.eqb_eq in H0. rewrite ! H0. cbn zeta.
  rewrite (count_emits _ _ _ _ _ _ _ _ _ Em), (count_emits _ _ _ _ _ _ _ _ _ Et), (count_emits _ _ _ _ _ _ _ _ _ Eb).
  assert (En : (Z.of_nat (length pm) + Z.of_nat (length pb) + Z.of_nat (length pt) = Z.of_nat (length (pm ++ pt ++ pb)))%Z) by (rewrite ! app_length; lia).
  rewrite (generate_emits _ _ _ _ _ _ _ _ _ _ _ Em) by (cbn [l_pid zeros]; lia).
  rewrite (generate_emits _ _ _ _ _ _ _ _ _ _ _ Et) by (rewrite ? emit_pid; cbn [l_pid zeros]; lia).
  rewrite (generate_emits _ _ _ _ _ _ _ _ _ _ _ Eb) by (rewrite ? emit_pid; cbn [l_pid zeros]; lia).
  rewrite En, <- ! emit_app, ! Z.eqb_refl. cbn [negb andb]. replace ((pm ++ pt) ++ pb) with (pm ++ pt ++ pb) by (rewrite app_assoc; reflexivity).
  destruct pb as [|[[fx fy] fz] pb'].
  { replace (Z.of_nat (length (pm ++ pt ++ [])) <=? Z.of_nat (length pm) + Z.of_nat (length pt))%Z with true; [reflexivity|]. symmetry. apply Z.leb_le. rewrite ! app_length. cbn [length]. lia. }
  replace (Z.of_nat (length (pm ++ pt ++ (fx, fy, fz) :: pb')) <=? Z.of_nat (length pm) + Z.of_nat (length pt))%Z with false.
  2:{ symmetry. apply Z.leb_gt. rewrite ! app_length. cbn [length]. lia. }
  set (pts := pm ++ pt ++ (fx, fy, fz) :: pb') in *.
  assert (Ef : nth_error pts (length pm + length pt) = Some (fx, fy, fz)).
  { unfold pts. rewrite app_assoc, nth_error_app2 by (rewrite app_length; lia). rewrite app_length, Nat.sub_diag. reflexivity. }
  pose proof (emit_nth _ (zeros 0) _ _ Ef) as Hq. cbn [l_pid zeros] in Hq. rewrite Z.add_0_l, Nat2Z.inj_add in Hq. unfold point_at in Hq. rewrite ! pair_equal_spec in Hq. destruct Hq as ((_ & Hfy) & Hfz).
  rewrite ! Hfy, ! Hfz. replace (Z.of_nat (length pm) + Z.of_nat (length pt) <? Z.of_nat (length pm))%Z with false by (symmetry; apply Z.ltb_ge; lia).
  change (snd_y ((fx, fy, fz) :: pb')) with fy. change (snd_z ((fx, fy, fz) :: pb')) with fz.
  fold kh_yx kh_yz kh_y0. change (if Rlt_b 0 fy then kh_y0 + kh_yx * kh_yz * (fy - kh_y0) else - kh_y0 + kh_yx * kh_yz * (fy + kh_y0)) with (st_y false fy).
  change (if (3 <=? dim)%nat then fz / kh_yz else fz) with (st_z false fz).
  fold (kh_ok (st_y false fy) (st_z false fz)). destruct (kh_ok _ _); [|reflexivity]. cbn [negb].
  apply (write_emit pts (kh_of (Z.of_nat (length pm)) (st_y false fy) (st_z false fz))). lia.
Qed.
Lemma kh_inv : forall l, kh p = Some l -> kh_start = false /\ exists pm pt pb, Emits (latt (kh_mmin p) (kh_mmax p) s) pm /\ Emits (latt (kh_tmin p) (kh_tmax p) st) pt /\ Emits (latt (kh_bmin p) (kh_bmax p) st) pb /\
  pb <> [] /\ kh_ok (st_y false (snd_y pb)) (st_z false (snd_z pb)) = true /\
  l = map (at3 (kh_of (Z.of_nat (length pm)) (st_y false (snd_y pb)) (st_z false (snd_z pb)))) (number 0 (pm ++ pt ++ pb)).
Proof.
  intros l H. pose proof H as H'. unfold kh in H. fold kh_start in H. destruct kh_start eqn:H0; [discriminate|]. split; [reflexivity|]. cbn zeta in H.
  pose proof H0 as Hdt. unfold kh_start in Hdt. apply orb_false_iff in Hdt. destruct Hdt as (Hdt & _). apply orb_false_iff in Hdt. destruct Hdt as (Hdt & _). apply orb_false_iff in Hdt. destruct Hdt as (_ & Hdt). apply negb_false_iff, Z.eqb_eq in Hdt.
  rewrite Hdt in H.
  destruct (count _ _ _ _ (kh_mmin p) _ _ _) as [nm|] eqn:Em in H; [|discriminate].
  destruct (count _ _ _ _ (kh_tmin p) _ _ _) as [nt|] eqn:Et in H; [|discriminate].
  destruct (count _ _ _ _ (kh_bmin p) _ _ _) as [nb|] eqn:Eb in H; [|discriminate]. clear H.
  destruct (count_inv _ _ _ _ _ _ _ _ _ Em) as (pm & Epm & _). destruct (count_inv _ _ _ _ _ _ _ _ _ Et) as (pt & Ept & _). destruct (count_inv _ _ _ _ _ _ _ _ _ Eb) as (pb & Epb & _).
  exists pm, pt, pb. split; [exact Epm|]. split; [exact Ept|]. split; [exact Epb|]. rewrite (kh_eq pm pt pb Epm Ept Epb H0) in H'.
  destruct pb as [|q pb]; [discriminate|]. split; [discriminate|]. destruct (kh_ok _ _) eqn:Eok; [|discriminate]. split; [reflexivity|]. congruence.
Qed.

Context (Hd : (2 <= dim <= 3)%nat) (Ht : (0 <= ty <= 2)%Z).
Context (HL : 0 < L) (HW : 0 < box_width p) (HH : 0 < box_height p) (Hn : (1 <= lattice_nx p <= 8000)%Z) (Hr : 1 <= density_ratio p) (Hw : 6 * L <= box_width p * IZR (lattice_nx p)).
Lemma nx_bounds : 1 <= IZR (lattice_nx p) <= 8000.
Proof. split; apply IZR_le; lia. Qed.
Lemma kh_s : s * IZR (lattice_nx p) = L.
Proof. pose proof nx_bounds. unfold kh_sep. field. lra. Qed.
Lemma kh_s_pos : 0 < s.
Proof. pose proof nx_bounds. unfold kh_sep. apply Rdiv_lt_0_compat; lra. Qed.
Lemma kh_st_ge : s <= st.
Proof. apply other_sep_ge; [exact Hd | exact kh_s_pos | exact Hr]. Qed.
Lemma kh_s_width : 6 * s <= box_width p.
Proof. pose proof kh_s. pose proof nx_bounds. pose proof kh_s_pos. nra. Qed.
Lemma y_per : forall x, per_y ty * x = y_period ty x.
Proof. intros x. unfold per_y, row_y, y_period. rewrite packed_is by exact Ht. destruct (ty =? 0)%Z; cbn [negb]; field. Qed.
Lemma z_per : forall x, per_z ty * x = z_period ty x.
Proof.
  intros x. unfold per_z, row_z, z_period. rewrite packed_is by exact Ht. assert (ty = 0 \/ ty = 1 \/ ty = 2)%Z as [->|[->| ->]] by lia; cbn [Z.eqb Pos.eqb negb]; field.
Qed.
Lemma multiple : forall a d, 0 <= a -> 0 < d -> exists K : nat, floorR (a / d) * d = INR K * d /\ INR K * d <= a < INR K * d + d.
Proof.
  intros a d Ha Hd'. destruct (floor_nat (a / d)) as (K & -> & B1 & B2); [apply div_nonneg; assumption|]. exists K. split; [reflexivity|].
  assert (E : a = a / d * d) by (field; lra). split; [rewrite E at 1; apply Rmult_le_compat_r; lra|]. apply Rle_lt_trans with (a / d * d); [lra|]. nra.
Qed.
Lemma kh_wm_ok : (exists K : nat, wm = INR K * (per_y ty * s)) /\ 0 < wm <= box_width p / 3 /\ box_width p / 3 < wm + per_y ty * s.
Proof.
  pose proof kh_s_pos. pose proof kh_s_width. pose proof (per_y_bounds ty) as P. assert (D : 0 < per_y ty * s) by (apply Rmult_lt_0_compat; lra).
  unfold kh_wm. replace (box_width p / (3 * (per_y ty * s))) with (box_width p / 3 / (per_y ty * s)) by (field; lra).
  destruct (multiple (box_width p / 3) _ ltac:(lra) D) as (K & -> & B). split; [exists K; reflexivity|]. split; [|lra]. split; [|lra].
  assert (per_y ty * s <= box_width p / 3) by nra. destruct K as [|K]; [cbn [INR] in B; lra|]. rewrite S_INR. pose proof (pos_INR K). nra.
Qed.
Lemma kh_gap_ok : 0 < gap <= s.
Proof.
  pose proof kh_s_pos. pose proof kh_st_ge. pose proof (per_y_bounds ty) as P. unfold kh_gap.
  assert (per_y ty * s <= per_y ty * st) by nra. rewrite Rmin_left by assumption. nra.
Qed.
Lemma kh_wt_ok : (exists K : nat, wt = INR K * (per_y ty * st)) /\ 0 <= wt /\ wm / 2 + gap + wt <= box_width p / 2 < wm / 2 + gap + wt + per_y ty * st.
Proof.
  pose proof kh_s_pos. pose proof kh_st_ge. pose proof kh_s_width. destruct kh_wm_ok as (_ & W & _). pose proof kh_gap_ok. pose proof (per_y_bounds ty) as P. unfold kh_wt.
  destruct (multiple (box_width p / 2 - wm / 2 - gap) (per_y ty * st)) as (K & -> & B); [lra | nra|]. split; [exists K; reflexivity|].
  split; [apply Rmult_le_pos; [apply pos_INR | nra] | lra].
Qed.
Lemma kh_nxt_ok : (exists K : nat, nxt = INR K) /\ (nxt - 1 / 10) * st <= L < (nxt + 9 / 10) * st /\ nxt <= 80001 / 10.
Proof.
  pose proof kh_s_pos. pose proof kh_st_ge. pose proof kh_s. pose proof nx_bounds. unfold kh_nxt.
  destruct (floor_nat (L / st + 1 / 10)) as (K & -> & B); [assert (0 <= L / st) by (apply div_nonneg; lra); lra|].
  split; [exists K; reflexivity|]. assert (E : L = L / st * st) by (field; lra). assert (L / st <= 8000) by (apply div_le; [lra | nra]).
  split; [|lra]. split; [rewrite E at 1; apply Rmult_le_compat_r; lra|]. rewrite E at 1. apply Rmult_lt_compat_r; lra.
Qed.
Lemma kh_height_ok : forall x, 0 < x -> if (dim =? 2)%nat then kh_height p x = box_height p
  else (exists K : nat, kh_height p x = INR K * (per_z ty * x)) /\ kh_height p x <= box_height p < kh_height p x + per_z ty * x.
Proof.
  intros x Hx. unfold kh_height. pose proof (per_z_bounds ty). assert (dim = 2 \/ dim = 3)%nat as [->| ->] by lia; cbn [Nat.eqb Nat.leb]; [reflexivity|].
  destruct (multiple (box_height p) (per_z ty * x)) as (K & -> & B); [lra | nra|]. split; [exists K; reflexivity | exact B].
Qed.
Lemma ok_facts : forall y1 z1, kh_ok y1 z1 = true -> 1 <= nxt /\ 0 < hm /\ 0 < ht.
Proof.
  intros y1 z1 H. unfold kh_ok in H. rewrite ! andb_true_iff, ! nonzero_iff in H. destruct H as ((((H1 & H2) & H3) & _) & _).
  pose proof kh_s_pos as Hs. pose proof kh_st_ge as Hst.
  assert (P : forall x, 0 < x -> kh_height p x <> 0 -> 0 < kh_height p x).
  { intros x Hx Hne. pose proof (kh_height_ok x Hx) as B. pose proof (per_z_bounds ty). destruct (dim =? 2)%nat; [lra|]. destruct B as ((K & E) & _).
    pose proof (pos_INR K). assert (0 <= kh_height p x) by (rewrite E; apply Rmult_le_pos; nra). lra. }
  split; [|split].
  - destruct kh_nxt_ok as ((K & E) & _). destruct K as [|K]; [exfalso; apply H1; unfold kh_yx; rewrite E; cbn [INR]; field; lra|]. rewrite E, S_INR. pose proof (pos_INR K). lra.
  - apply P; assumption.
  - apply P; [lra|]. fold (kh_ht p). intros E. apply H3. unfold kh_yz. rewrite E. unfold Rdiv. ring.
Qed.
Lemma off_bounds : forall x, 0 < x -> 0 < kh_off ty x <= x / 2.
Proof. intros x Hx. unfold kh_off. destruct (ty =? 0)%Z; lra. Qed.
Lemma row_per : exists c : Z, (1 <= c)%Z /\ forall x, per_y ty * x = IZR c * (row_y ty * x / 3).
Proof. unfold per_y. destruct (close_packed ty); [exists 6%Z | exists 3%Z]; (split; [lia|]); intros x; field. Qed.
Lemma boxes : 1 <= nxt -> 0 < hm -> 0 < ht -> (forall a, kh_mmin p a <= kh_mmax p a) /\ (forall a, kh_tmin p a <= kh_tmax p a) /\ (forall a, kh_bmin p a <= kh_bmax p a).
Proof.
  intros HN Hhm Hht. pose proof kh_s_pos as Hs. pose proof kh_st_ge as Hst. pose proof (off_bounds s Hs). pose proof (off_bounds st ltac:(lra)). destruct kh_wm_ok as (_ & W & _). destruct kh_wt_ok as (_ & V & _).
  pose proof (row_y_pos ty). pose proof kh_s. pose proof nx_bounds. assert (s <= L) by nra. assert (st <= nxt * st) by nra. assert (0 < row_y ty * s) by nra. assert (0 < row_y ty * st) by nra.
  unfold kh_mmin, kh_mmax, kh_tmin, kh_tmax, kh_bmin, kh_bmax. repeat split; apply pt_le; lra.
Qed.
Lemma first_point : forall pb, 1 <= nxt -> 0 < hm -> 0 < ht -> Emits (latt (kh_bmin p) (kh_bmax p) st) pb ->
  exists r, pb = (kh_bmin p 0%nat, kh_bmin p 1%nat, if (dim =? 2)%nat then 0 else kh_bmin p 2%nat) :: r.
Proof.
  intros pb HN Hhm Hht E. pose proof kh_s_pos as Hs. pose proof kh_st_ge as Hst. destruct (boxes HN Hhm Hht) as (_ & _ & B).
  refine (lattice_starts _ _ _ _ _ _ Hd _ B _ pb E); [lra|]. split; [|discriminate]. cbn zeta.
  pose proof (off_bounds st ltac:(lra)). destruct kh_wt_ok as (_ & V & _). pose proof (row_y_pos ty). destruct kh_nxt_ok as (_ & _ & N8).
  assert (st <= nxt * st <= 80001 / 10 * st) by nra. assert (0 < row_y ty * st) by nra. assert (86 / 100 * st <= row_y ty * st) by nra.
  assert (T : (kh_bmax p 0%nat - kh_bmin p 0%nat) / 1000000 <= 80001 / 10000000 * st) by (unfold kh_bmax, kh_bmin; cbn [pt]; lra).
  assert (T0 : 0 < (kh_bmax p 0%nat - kh_bmin p 0%nat) / 1000000) by (unfold kh_bmax, kh_bmin; cbn [pt]; lra).
  set (tol := (kh_bmax p 0%nat - kh_bmin p 0%nat) / 1000000) in *.
  intros [|[|[|a]]] Ha; cbn [coord fst snd].
  - unfold kh_bmax, kh_bmin; cbn [pt]; lra.
  - unfold kh_bmax, kh_bmin; cbn [pt]. lra.
  - replace (dim =? 2)%nat with false by (symmetry; apply Nat.eqb_neq; lia).
    assert (Hz : 8 / 10 * st <= ht).
    { pose proof (kh_height_ok st ltac:(lra)) as K. replace (dim =? 2)%nat with false in K by (symmetry; apply Nat.eqb_neq; lia). fold (kh_ht p) in K. destruct K as ((K & E1) & _).
      pose proof (per_z_bounds ty). destruct K as [|K]; [cbn [INR] in E1; lra|]. rewrite S_INR in E1. pose proof (pos_INR K). assert (0 <= INR K * (per_z ty * st)) by (apply Rmult_le_pos; nra). nra. }
    unfold kh_bmax, kh_bmin; cbn [pt]. lra.
  - lia.
Qed.

Definition kh_as (mid : bool) (y1 z1 : R) (k : Z) (x y z : R) : idp :=
  let ys := 5 / 10 * box_width p / Rabs y1 in
  let zs := if (3 <=? dim)%nat then 5 / 10 * box_height p / Rabs z1 else 1 in
  let m := block_mass dim ty (rho_initial p * density_ratio p) s * ys * zs in
  let x' := st_x mid x in let y' := st_y mid y * ys in let z' := if (3 <=? dim)%nat then st_z mid z * zs else st_z mid z in
  let rho := if mid then rho_initial p * density_ratio p else rho_initial p in
  let vx := if mid then flow_velocity p / 2 else - flow_velocity p / 2 in
  IdP k x' y' z' vx (kh_vy p x' y') (smoothing p m rho) rho (pressure_initial p / (poly_gamma p - 1) / rho) (pressure_initial p) m.
Lemma kh_split : forall pm r y1 z1, map (at3 (kh_of (Z.of_nat (length pm)) y1 z1)) (number 0 (pm ++ r)) =
  map (at3 (kh_as true y1 z1)) (number 0 pm) ++ map (at3 (kh_as false y1 z1)) (number (Z.of_nat (length pm)) r).
Proof.
  intros pm r y1 z1. rewrite number_app, map_app. f_equal; apply map_ext_in; intros (j & [[x y] z]) Hj; apply number_range in Hj; cbn [fst] in Hj; unfold at3, kh_of, kh_as.
  - replace (j <? Z.of_nat (length pm))%Z with true by (symmetry; apply Z.ltb_lt; lia). reflexivity.
  - replace (j <? Z.of_nat (length pm))%Z with false by (symmetry; apply Z.ltb_ge; lia). reflexivity.
Qed.
Lemma flows_ok : forall (mid : bool) y1 z1 k x y z, y1 <> 0 -> (dim = 3%nat -> z1 <> 0) -> 0 < g_etaw p -> poly_gamma p <> 1 -> 0 < rho_initial p ->
  flows p (if mid then rho_initial p * density_ratio p else rho_initial p) (if mid then flow_velocity p / 2 else - flow_velocity p / 2) (kh_as mid y1 z1 k x y z).
Proof.
  intros mid y1 z1 k x y z Hy Hz He Hg Hrho. unfold flows, kh_as. cbn [i_rho i_vx i_P i_u i_m i_h i_vy i_x i_y].
  set (rho := if mid then rho_initial p * density_ratio p else rho_initial p). assert (Hrho' : 0 < rho) by (unfold rho; destruct mid; [nra | exact Hrho]).
  set (m := block_mass _ _ _ _ * _ * _). assert (Hm : 0 < m).
  { unfold m. rewrite block_mass_cell by assumption. pose proof (cell_pos dim ty s kh_s_pos). pose proof (Rabs_pos_lt y1 Hy).
    apply Rmult_lt_0_compat; [apply Rmult_lt_0_compat; [apply Rmult_lt_0_compat; [nra | assumption] | apply Rdiv_lt_0_compat; lra]|].
    destruct (3 <=? dim)%nat eqn:E3; [|lra]. apply Nat.leb_le in E3. pose proof (Rabs_pos_lt z1 (Hz ltac:(lia))). apply Rdiv_lt_0_compat; lra. }
  split; [reflexivity|]. split; [reflexivity|]. split; [reflexivity|]. split; [field; split; lra|]. split; [exact Hm|].
  split; [apply smoothing_ok; try assumption; lia|]. split; [apply smoothing_h_pos; exact He|].
  set (x' := st_x mid x). set (y' := st_y mid y * _). unfold kh_vy.
  destruct (Rlt_b (- (25 / 100)) y' && Rlt_b y' (- (25 / 100) + 25 / 1000)) eqn:E1.
  - apply andb_true_iff in E1. rewrite ! Rlt_b_true in E1. split; [lra|]. split; [intros _; replace (5 / 10) with (1 / 2) by lra; reflexivity|]. intros _. rewrite Rabs_left by lra. lra.
  - destruct (Rlt_b y' (25 / 100) && Rlt_b (25 / 100 - 25 / 1000) y') eqn:E2.
    + apply andb_true_iff in E2. rewrite ! Rlt_b_true in E2. split; [intros _; f_equal; f_equal; replace (5 / 10) with (1 / 2) by lra; unfold Rdiv; ring|]. split; [lra|]. intros _. rewrite Rabs_right by lra. lra.
    + split; [|split; [|lra]]; intros Hc; exfalso; [enough (X : Rlt_b y' (25 / 100) && Rlt_b (25 / 100 - 25 / 1000) y' = true) by congruence | enough (X : Rlt_b (- (25 / 100)) y' && Rlt_b y' (- (25 / 100) + 25 / 1000) = true) by congruence];
        rewrite andb_true_iff, ! Rlt_b_true; lra.
Qed.
Context (He : 0 < g_etaw p) (Hg : poly_gamma p <> 1) (Hrho : 0 < rho_initial p).
Context (pm ptt pb : list (R * R * R)).
Context (Em : Emits (latt (kh_mmin p) (kh_mmax p) s) pm) (Et : Emits (latt (kh_tmin p) (kh_tmax p) st) ptt) (Eb : Emits (latt (kh_bmin p) (kh_bmax p) st) pb).
Context (HN : 1 <= nxt) (Hhm : 0 < hm) (Hht : 0 < ht).
Definition kh_a : R := kh_y0 + kh_yx * kh_yz * wt.
Definition kh_ys : R := box_width p / 2 / kh_a.
Lemma kh_y0_pos : 0 < kh_y0.
Proof. destruct kh_wm_ok as (_ & W & _). pose proof kh_gap_ok. unfold kh_y0. lra. Qed.
Lemma kh_yx_pos : 0 < kh_yx.
Proof. pose proof kh_s_pos. pose proof kh_st_ge. unfold kh_yx. apply Rdiv_lt_0_compat; [nra | exact HL]. Qed.
Lemma kh_yz_pos : 0 < kh_yz.
Proof. unfold kh_yz. apply Rdiv_lt_0_compat; assumption. Qed.
Lemma kh_yz_2 : dim = 2%nat -> kh_yz = 1.
Proof.
  intros E2. pose proof kh_s_pos as Hs. pose proof kh_st_ge as Hst. pose proof (kh_height_ok s Hs) as A. pose proof (kh_height_ok st ltac:(lra)) as B. rewrite E2 in A, B. cbn [Nat.eqb] in A, B.
  unfold kh_yz, kh_ht, kh_hm in *. rewrite A, B. field. lra.
Qed.
Lemma kh_a_pos : 0 < kh_a.
Proof. pose proof kh_y0_pos. pose proof kh_yx_pos. pose proof kh_yz_pos. destruct kh_wt_ok as (_ & V & _). unfold kh_a. assert (0 <= kh_yx * kh_yz * wt) by (apply Rmult_le_pos; nra). lra. Qed.
Lemma kh_ys_pos : 0 < kh_ys.
Proof. pose proof kh_a_pos. unfold kh_ys. apply Rdiv_lt_0_compat; lra. Qed.
Lemma kh_bmin1 : kh_bmin p 1%nat = - (kh_y0 + wt).
Proof. unfold kh_bmin, kh_y0. cbn [pt]. field. Qed.
Lemma first_y : st_y false (snd_y pb) = - kh_a.
Proof.
  destruct (first_point pb HN Hhm Hht Eb) as (r & ->). cbn [snd_y fst snd]. rewrite kh_bmin1. pose proof kh_y0_pos. destruct kh_wt_ok as (_ & V & _). unfold st_y.
  destruct (Rlt_b 0 (- (kh_y0 + wt))) eqn:X; [apply Rlt_b_true in X; lra|]. unfold kh_a. ring.
Qed.
Lemma first_z : dim = 3%nat -> st_z false (snd_z pb) = - (hm / 2).
Proof.
  intros E3. destruct (first_point pb HN Hhm Hht Eb) as (r & ->). cbn [snd_z snd]. unfold st_z. rewrite E3. cbn [Nat.leb Nat.eqb]. unfold kh_bmin. cbn [pt]. unfold kh_yz. field. split; lra.
Qed.
Notation y1 := (st_y false (snd_y pb)).
Notation z1 := (st_z false (snd_z pb)).
Lemma ys_is : 5 / 10 * box_width p / Rabs y1 = kh_ys.
Proof. rewrite first_y, Rabs_Ropp, Rabs_right by (pose proof kh_a_pos; lra). unfold kh_ys. pose proof kh_a_pos. field. lra. Qed.
Lemma zs_is : (if (3 <=? dim)%nat then 5 / 10 * box_height p / Rabs z1 else 1) = if (dim =? 2)%nat then 1 else box_height p / hm.
Proof.
  assert (dim = 2 \/ dim = 3)%nat as [D|D] by lia; [rewrite D; reflexivity|].
  replace (3 <=? dim)%nat with true by (rewrite D; reflexivity). replace (dim =? 2)%nat with false by (rewrite D; reflexivity). rewrite (first_z D), Rabs_Ropp, Rabs_right by lra. field. lra.
Qed.
Lemma m_is : block_mass dim ty (rho_initial p * density_ratio p) s = rho_initial p * density_ratio p * cell dim ty s /\ rho_initial p * density_ratio p * cell dim ty s = rho_initial p * cell dim ty st.
Proof. split; [apply block_mass_cell; assumption|]. unfold kh_sep_t. rewrite other_sep_cell by (assumption || lra). ring. Qed.
Notation zm := (if (dim =? 2)%nat then 1 else box_height p / hm).
Notation zk := (if (dim =? 2)%nat then 1 else box_height p / ht).
Lemma zm_pos : 0 < zm /\ 0 < zk.
Proof. destruct (dim =? 2)%nat; split; try lra; apply Rdiv_lt_0_compat; assumption. Qed.
Lemma zk_is : zk = zm / kh_yz.
Proof. destruct (Nat.eqb_spec dim 2) as [D|D]; [rewrite (kh_yz_2 D); field|]. unfold kh_yz. field. split; lra. Qed.
(** the points of the blocks *)
Lemma kh_nxt_len : nxt * st <= L + st / 10.
Proof. pose proof kh_s_pos. pose proof kh_st_ge. destruct kh_nxt_ok as (_ & B & _). nra. Qed.
Lemma mid_points : forall x y z, In (x, y, z) pm -> - (L / 2) < x < L / 2 /\ - (wm / 2) <= y <= wm / 2 /\ (dim = 3%nat -> - (hm / 2) <= z < hm / 2).
Proof.
  intros x y z Hq. pose proof kh_s_pos as Hs. destruct (boxes HN Hhm Hht) as (B & _ & _). destruct (lattice_points _ _ _ _ _ _ _ _ Hs B ltac:(reflexivity) Em) as (_ & _ & P).
  apply P in Hq. destruct Hq as (Nq & Wq). pose proof (off_bounds s Hs) as Ho. pose proof kh_s. pose proof nx_bounds.
  destruct (box_nodes _ _ _ _ _ _ _ _ Hd Ht Hs ltac:(split; [apply B | unfold kh_mmax, kh_mmin; cbn [pt]; nra]) Nq Wq) as (X & (a & Ha & Y & Y') & Z0).
  unfold kh_mmin, kh_mmax in X, Y, Y', Z0. cbn [pt] in X, Y, Y', Z0. split; [lra|]. split; [|intros D; specialize (Z0 D); lra].
  destruct kh_wm_ok as ((K & EK) & _). destruct row_per as (c & Hc & Ec). rewrite Ec in EK. pose proof (row_y_pos ty) as Ry. set (d := row_y ty * s / 3) in *. assert (Hdd : 0 < d) by (unfold d; nra).
  apply IZR_le in Ha. split; [nra|].
  assert (A : (a <= Z.of_nat K * c)%Z). { destruct (Z_le_gt_dec a (Z.of_nat K * c)) as [A|A]; [exact A|]. assert (A' : (Z.of_nat K * c + 1 <= a)%Z) by lia. apply IZR_le in A'. rewrite plus_IZR, mult_IZR, <- INR_IZR_INZ in A'.
    assert (INR K * IZR c * d + d <= IZR a * d) by nra. replace (row_y ty * s) with (3 * d) in Y' by (unfold d; field). nra. }
  apply IZR_le in A. rewrite mult_IZR, <- INR_IZR_INZ in A. assert (IZR a * d <= INR K * IZR c * d) by (apply Rmult_le_compat_r; lra). nra.
Qed.
Lemma top_points : forall x y z, In (x, y, z) ptt -> - (nxt * st / 2) < x < nxt * st / 2 /\ kh_y0 <= y < kh_y0 + wt /\ (dim = 3%nat -> - (ht / 2) <= z < ht / 2).
Proof.
  intros x y z Hq. pose proof kh_s_pos as Hs. pose proof kh_st_ge as Hst. assert (Hst0 : 0 < st) by lra. destruct (boxes HN Hhm Hht) as (_ & B & _). destruct (lattice_points _ _ _ _ _ _ _ _ Hst0 B ltac:(reflexivity) Et) as (_ & _ & P).
  apply P in Hq. destruct Hq as (Nq & Wq). pose proof (off_bounds st Hst0) as Ho. destruct kh_nxt_ok as (_ & _ & N8).
  destruct (box_nodes _ _ _ _ _ _ _ _ Hd Ht Hst0 ltac:(split; [apply B | unfold kh_tmax, kh_tmin; cbn [pt]; nra]) Nq Wq) as (X & (a & Ha & Y & Y') & Z0).
  unfold kh_tmin, kh_tmax in X, Y, Y', Z0. cbn [pt] in X, Y, Y', Z0. split; [lra|]. split; [|intros D; specialize (Z0 D); lra].
  pose proof (row_y_pos ty) as Ry. apply IZR_le in Ha. assert (0 <= IZR a * (row_y ty * st / 3)) by (apply Rmult_le_pos; [exact Ha | nra]). unfold kh_y0. lra.
Qed.
Lemma bot_points : forall x y z, In (x, y, z) pb -> - (nxt * st / 2) < x < nxt * st / 2 /\ - (kh_y0 + wt) <= y <= - kh_y0 /\ (dim = 3%nat -> - (ht / 2) <= z < ht / 2).
Proof.
  intros x y z Hq. pose proof kh_s_pos as Hs. pose proof kh_st_ge as Hst. assert (Hst0 : 0 < st) by lra. destruct (boxes HN Hhm Hht) as (_ & _ & B). destruct (lattice_points _ _ _ _ _ _ _ _ Hst0 B ltac:(reflexivity) Eb) as (_ & _ & P).
  apply P in Hq. destruct Hq as (Nq & Wq). pose proof (off_bounds st Hst0) as Ho. destruct kh_nxt_ok as (_ & _ & N8).
  destruct (box_nodes _ _ _ _ _ _ _ _ Hd Ht Hst0 ltac:(split; [apply B | unfold kh_bmax, kh_bmin; cbn [pt]; nra]) Nq Wq) as (X & (a & Ha & Y & Y') & Z0).
  unfold kh_bmin, kh_bmax in X, Y, Y', Z0. cbn [pt] in X, Y, Y', Z0. split; [lra|]. split; [|intros D; specialize (Z0 D); lra].
  destruct kh_wt_ok as ((K & EK) & _). destruct row_per as (c & Hc & Ec). rewrite Ec in EK. pose proof (row_y_pos ty) as Ry. set (d := row_y ty * st / 3) in *. assert (Hdd : 0 < d) by (unfold d; nra).
  apply IZR_le in Ha. unfold kh_y0. split; [nra|].
  assert (A : (a <= Z.of_nat K * c)%Z). { destruct (Z_le_gt_dec a (Z.of_nat K * c)) as [A|A]; [exact A|]. assert (A' : (Z.of_nat K * c + 1 <= a)%Z) by lia. apply IZR_le in A'. rewrite plus_IZR, mult_IZR, <- INR_IZR_INZ in A'.
    assert (INR K * IZR c * d + d <= IZR a * d) by nra. replace (row_y ty * st) with (3 * d) in Y' by (unfold d; field). nra. }
  apply IZR_le in A. rewrite mult_IZR, <- INR_IZR_INZ in A. assert (IZR a * d <= INR K * IZR c * d) by (apply Rmult_le_compat_r; lra). nra.
Qed.
Notation bt := (nxt * st / L * (ht / hm)).
Lemma bt_is : bt = kh_yx * kh_yz.
Proof. reflexivity. Qed.
Lemma mid_as : forall k x y z, In (x, y, z) pm -> ipos (kh_as true y1 z1 k x y z) = (1 * x, 0 + kh_ys * y, zm * z) /\
  i_m (kh_as true y1 z1 k x y z) = i_rho (kh_as true y1 z1 k x y z) * (1 * kh_ys * zm * cell dim ty s).
Proof.
  intros k x y z _. unfold kh_as, ipos. cbn [i_x i_y i_z i_m i_rho]. rewrite ys_is, zs_is. rewrite (proj1 m_is). split; [|ring].
  unfold st_x, st_y, st_z. f_equal; [f_equal; ring|]. assert (dim = 2 \/ dim = 3)%nat as [D|D] by lia; rewrite D; cbn [Nat.leb Nat.eqb]; ring.
Qed.
Lemma out_z : forall z, (if (3 <=? dim)%nat then st_z false z * zm else st_z false z) = zk * z.
Proof.
  intros z. rewrite zk_is. pose proof kh_yz_pos. unfold st_z. assert (dim = 2 \/ dim = 3)%nat as [D|D] by lia.
  - rewrite (kh_yz_2 D). rewrite D. cbn [Nat.leb Nat.eqb]. field.
  - rewrite D. cbn [Nat.leb Nat.eqb]. field. split; lra.
Qed.
Lemma out_m : forall k x y z, i_m (kh_as false y1 z1 k x y z) = i_rho (kh_as false y1 z1 k x y z) * (L / (nxt * st) * (kh_ys * bt) * zk * cell dim ty st).
Proof.
  intros k x y z. unfold kh_as. cbn [i_m i_rho]. rewrite ys_is, zs_is, (proj1 m_is), (proj2 m_is), zk_is. pose proof kh_s_pos. pose proof kh_st_ge. unfold kh_yz. field. repeat split; lra.
Qed.
Lemma top_as : forall k x y z, In (x, y, z) ptt -> ipos (kh_as false y1 z1 k x y z) = (L / (nxt * st) * x, kh_ys * ((wm / 2 + gap) * (1 - bt)) + kh_ys * bt * y, zk * z) /\
  i_m (kh_as false y1 z1 k x y z) = i_rho (kh_as false y1 z1 k x y z) * (L / (nxt * st) * (kh_ys * bt) * zk * cell dim ty st).
Proof.
  intros k x y z Hq. split; [|apply out_m]. destruct (top_points x y z Hq) as (_ & Y & _). pose proof kh_y0_pos. pose proof kh_s_pos. pose proof kh_st_ge.
  unfold kh_as, ipos. cbn [i_x i_y i_z]. rewrite ys_is, zs_is, out_z. f_equal. f_equal.
  - unfold st_x, kh_yx. field. repeat split; lra.
  - unfold st_y. replace (Rlt_b 0 y) with true by (symmetry; apply Rlt_b_true; lra). rewrite bt_is. unfold kh_y0. ring.
Qed.
Lemma bot_as : forall k x y z, In (x, y, z) pb -> ipos (kh_as false y1 z1 k x y z) = (L / (nxt * st) * x, - (kh_ys * ((wm / 2 + gap) * (1 - bt))) + kh_ys * bt * y, zk * z) /\
  i_m (kh_as false y1 z1 k x y z) = i_rho (kh_as false y1 z1 k x y z) * (L / (nxt * st) * (kh_ys * bt) * zk * cell dim ty st).
Proof.
  intros k x y z Hq. split; [|apply out_m]. destruct (bot_points x y z Hq) as (_ & Y & _). pose proof kh_y0_pos. pose proof kh_s_pos. pose proof kh_st_ge.
  unfold kh_as, ipos. cbn [i_x i_y i_z]. rewrite ys_is, zs_is, out_z. f_equal. f_equal.
  - unfold st_x, kh_yx. field. repeat split; lra.
  - unfold st_y. destruct (Rlt_b 0 y) eqn:X; [apply Rlt_b_true in X; lra|]. rewrite bt_is. unfold kh_y0. ring.
Qed.
Lemma kh_layers : layers p s st wm gap wt nxt hm ht.
Proof.
  pose proof kh_s_pos as Hs. pose proof kh_st_ge as Hst. unfold layers. cbn zeta. rewrite <- ! y_per, <- ! z_per. split; [exact kh_s|]. split; [lra|].
  split; [unfold kh_sep_t; apply other_sep_cell; [exact Hd | lra]|]. destruct kh_wm_ok as (A1 & A2 & A3). destruct kh_wt_ok as (B1 & B2 & B3). destruct kh_nxt_ok as (C1 & C2 & _).
  split; [exact A1|]. split; [exact A2|]. split; [exact A3|]. split; [reflexivity|]. split; [exact B1|]. split; [exact B2|]. split; [exact B3|]. split; [exact C1|]. split; [exact HN|]. split; [exact C2|].
  pose proof (kh_height_ok s Hs) as D1. pose proof (kh_height_ok st ltac:(lra)) as D2. destruct (dim =? 2)%nat; [split; assumption|].
  destruct D1 as (D1 & D1'). destruct D2 as (D2 & D2'). fold hm in D1, D1'. fold ht in D2, D2'. repeat split; try assumption; lra.
Qed.
Lemma row_is : forall x, 1 / 100 * (row_y ty * x) = spacing_y ty x / 100.
Proof. intros x. unfold row_y, spacing_y. rewrite packed_is by exact Ht. destruct (ty =? 0)%Z; cbn [negb]; field. Qed.
Lemma mm_is : kh_mmin p = pt (- L / 2 + shift ty s) (- wm / 2) (- hm / 2).
Proof. unfold kh_mmin. f_equal. field. Qed.
Lemma mM_is : kh_mmax p = pt (L / 2) (wm / 2 + spacing_y ty s / 100) (hm / 2).
Proof. unfold kh_mmax. rewrite row_is. f_equal. field. Qed.
Lemma tm_is : kh_tmin p = pt (- (nxt * st / 2) + shift ty st) (wm / 2 + gap) (- ht / 2).
Proof. unfold kh_tmin. f_equal; [|field]. change (kh_off ty st) with (shift ty st). field. Qed.
Lemma tM_is : kh_tmax p = pt (nxt * st / 2) (wm / 2 + gap + wt) (ht / 2).
Proof. unfold kh_tmax. f_equal. field. Qed.
Lemma bm_is : kh_bmin p = pt (- (nxt * st / 2) + shift ty st) (- (wm / 2 + gap + wt)) (- ht / 2).
Proof. unfold kh_bmin. f_equal; [|field]. change (kh_off ty st) with (shift ty st). field. Qed.
Lemma bM_is : kh_bmax p = pt (nxt * st / 2) (- (wm / 2 + gap) + spacing_y ty st / 100) (ht / 2).
Proof. unfold kh_bmax. rewrite row_is. f_equal. field. Qed.
Lemma in_at3 : forall (f : Z -> R -> R -> R -> idp) pts k q, In q (map (at3 f) (number k pts)) -> exists j x y z, In (x, y, z) pts /\ q = f j x y z.
Proof. intros f pts k q Hq. apply in_map_iff in Hq. destruct Hq as ((j & [[x y] z]) & <- & Hq). exists j, x, y, z. split; [exact (in_number _ _ _ _ Hq) | reflexivity]. Qed.
Lemma kh_main : forall l, l = map (at3 (kh_of (Z.of_nat (length pm)) y1 z1)) (number 0 (pm ++ ptt ++ pb)) ->
  let W := box_width p in let H := box_height p in
  map i_id l = map Z.of_nat (seq 0 (length l)) /\ (2 <= dim <= 3)%nat /\
  exists s t w g v N h k lm lt lb, l = lm ++ lt ++ lb /\ lb <> [] /\ layers p s t w g v N h k /\
  (let bt := N * t / L * (k / h) in let zm := if (dim =? 2)%nat then 1 else H / h in let zk := if (dim =? 2)%nat then 1 else H / k in
   exists ys, ys * (w / 2 + g + bt * v) = W / 2 /\
   stretched dim ty s 1 ys zm 0 (pt (- L / 2 + shift ty s) (- w / 2) (- h / 2)) (pt (L / 2) (w / 2 + spacing_y ty s / 100) (h / 2)) lm /\
   stretched dim ty t (L / (N * t)) (ys * bt) zk (ys * ((w / 2 + g) * (1 - bt)))
     (pt (- (N * t / 2) + shift ty t) (w / 2 + g) (- k / 2)) (pt (N * t / 2) (w / 2 + g + v) (k / 2)) lt /\
   stretched dim ty t (L / (N * t)) (ys * bt) zk (- (ys * ((w / 2 + g) * (1 - bt))))
     (pt (- (N * t / 2) + shift ty t) (- (w / 2 + g + v)) (- k / 2)) (pt (N * t / 2) (- (w / 2 + g) + spacing_y ty t / 100) (k / 2)) lb /\
   Forall (fun q => Rabs (i_y q) <= ys * (w / 2)) lm /\ Forall (fun q => ys * (w / 2 + g) <= i_y q < W / 2) lt /\
   Forall (fun q => - (W / 2) <= i_y q <= - (ys * (w / 2 + g))) lb /\ 0 < ys) /\
  (exists q, In q lb /\ i_y q = - (W / 2)) /\
  Forall (flows p (rho_initial p * density_ratio p) (flow_velocity p / 2)) lm /\ Forall (flows p (rho_initial p) (- flow_velocity p / 2)) (lt ++ lb) /\
  (forall q q', In q l -> In q' l -> i_m q = i_m q') /\
  Forall (fun q => - (L / 2) < i_x q < L / 2 /\ (dim = 3%nat -> - (H / 2) <= i_z q < H / 2)) l.
Proof.
  intros l El. cbn zeta. split.
  { rewrite El, map_map, map_length, number_length, (map_ext _ fst) by (intros (j & [[x y] z]); reflexivity). apply (number_fst _ _ 0). }
  split; [exact Hd|]. rewrite kh_split, number_app, map_app in El.
  set (lm := map (at3 (kh_as true y1 z1)) (number 0 pm)) in *. set (lt := map _ (number (Z.of_nat (length pm)) ptt)) in *. set (lb := map _ (number _ pb)) in *.
  exists s, st, wm, gap, wt, nxt, hm, ht, lm, lt, lb. pose proof kh_s_pos as Hs. pose proof kh_st_ge as Hst. assert (Hst0 : 0 < st) by lra.
  destruct (boxes HN Hhm Hht) as (Bm & Bt & Bb). pose proof kh_ys_pos as Hys. pose proof kh_yx_pos as Hyx. pose proof kh_yz_pos as Hyz. destruct zm_pos as (Hzm & Hzk). pose proof kh_a_pos as Ha.
  destruct kh_wt_ok as (_ & V & _). pose proof kh_y0_pos as Hy0.
  assert (Hbt : 0 < bt) by (rewrite bt_is; nra). assert (EA : kh_ys * kh_a = box_width p / 2) by (unfold kh_ys; field; lra).
  destruct (first_point pb HN Hhm Hht Eb) as (r & Er).
  assert (Hlb : lb <> []) by (unfold lb; rewrite Er; discriminate).
  assert (Hax : 0 < L / (nxt * st)) by (apply Rdiv_lt_0_compat; nra).
  split; [exact El|]. split; [exact Hlb|]. split; [exact kh_layers|]. split.
  { exists kh_ys. split; [rewrite <- EA; unfold kh_a; rewrite bt_is; reflexivity|].
    split; [|split; [|split]].
    - rewrite <- mm_is, <- mM_is. apply stretched_at3 with (g_fuel p); try assumption; [lra | exact mid_as].
    - rewrite <- tm_is, <- tM_is. apply stretched_at3 with (g_fuel p); try assumption; [nra | exact top_as].
    - rewrite <- bm_is, <- bM_is. apply stretched_at3 with (g_fuel p); try assumption; [nra | exact bot_as].
    - split; [|split; [|split; [|exact Hys]]].
      + apply forall_at3. intros j x y z Hq. destruct (mid_as j x y z Hq) as (Hp & _). unfold ipos in Hp. rewrite ! pair_equal_spec in Hp. destruct Hp as ((_ & ->) & _).
        destruct (mid_points x y z Hq) as (_ & Y & _). rewrite Rplus_0_l, Rabs_mult, (Rabs_right kh_ys) by lra. apply Rmult_le_compat_l; [lra|]. apply Rabs_le. lra.
      + apply forall_at3. intros j x y z Hq. destruct (top_as j x y z Hq) as (Hp & _). unfold ipos in Hp. rewrite ! pair_equal_spec in Hp. destruct Hp as ((_ & ->) & _).
        destruct (top_points x y z Hq) as (_ & Y & _). fold kh_y0. rewrite bt_is in *. rewrite <- EA. unfold kh_a.
        assert (0 <= kh_yx * kh_yz * (y - kh_y0) < kh_yx * kh_yz * wt) by (split; [apply Rmult_le_pos; lra | apply Rmult_lt_compat_l; lra]).
        replace (kh_ys * (kh_y0 * (1 - kh_yx * kh_yz)) + kh_ys * (kh_yx * kh_yz) * y) with (kh_ys * (kh_y0 + kh_yx * kh_yz * (y - kh_y0))) by ring.
        split; [apply Rmult_le_compat_l; lra | apply Rmult_lt_compat_l; lra].
      + apply forall_at3. intros j x y z Hq. destruct (bot_as j x y z Hq) as (Hp & _). unfold ipos in Hp. rewrite ! pair_equal_spec in Hp. destruct Hp as ((_ & ->) & _).
        destruct (bot_points x y z Hq) as (_ & Y & _). fold kh_y0. rewrite bt_is in *. rewrite <- EA. unfold kh_a.
        assert (0 <= kh_yx * kh_yz * (- y - kh_y0) <= kh_yx * kh_yz * wt) by (split; [apply Rmult_le_pos; lra | apply Rmult_le_compat_l; lra]).
        replace (- (kh_ys * (kh_y0 * (1 - kh_yx * kh_yz))) + kh_ys * (kh_yx * kh_yz) * y) with (- (kh_ys * (kh_y0 + kh_yx * kh_yz * (- y - kh_y0)))) by ring.
        split; apply Ropp_le_contravar; apply Rmult_le_compat_l; lra. }
  assert (Hz1 : dim = 3%nat -> z1 <> 0) by (intros D; rewrite (first_z D); lra). assert (Hy1 : y1 <> 0) by (rewrite first_y; lra).
  split.
  { exists (kh_as false y1 z1 (Z.of_nat (length pm) + Z.of_nat (length ptt)) (kh_bmin p 0%nat) (kh_bmin p 1%nat) (if (dim =? 2)%nat then 0 else kh_bmin p 2%nat)).
    split; [refine (in_map (at3 (kh_as false y1 z1)) _ (Z.of_nat (length pm) + Z.of_nat (length ptt), (_, _, _))%Z _); rewrite Er; left; reflexivity|].
    destruct (bot_as (Z.of_nat (length pm) + Z.of_nat (length ptt)) (kh_bmin p 0%nat) (kh_bmin p 1%nat) (if (dim =? 2)%nat then 0 else kh_bmin p 2%nat)) as (Hp & _); [rewrite Er; left; reflexivity|].
    unfold ipos in Hp. rewrite ! pair_equal_spec in Hp. destruct Hp as ((_ & ->) & _). rewrite kh_bmin1, <- EA. unfold kh_a. rewrite bt_is. unfold kh_y0. ring. }
  split; [apply forall_at3; intros j x y z _; apply (flows_ok true); assumption|].
  split; [apply Forall_app; split; apply forall_at3; intros j x y z _; apply (flows_ok false); assumption|].
  assert (Q : forall q, In q l -> exists mid j x y z, q = kh_as mid y1 z1 j x y z /\ (- (L / 2) < i_x q < L / 2 /\ (dim = 3%nat -> - (box_height p / 2) <= i_z q < box_height p / 2))).
  { assert (Sx : forall x, - (nxt * st / 2) < x < nxt * st / 2 -> - (L / 2) < L / (nxt * st) * x < L / 2).
    { intros x Hx. assert (EL : L / 2 = L / (nxt * st) * (nxt * st / 2)) by (field; split; lra). rewrite EL. rewrite Ropp_mult_distr_r. split; apply Rmult_lt_compat_l; lra. }
    assert (Sz : forall h z, 0 < h -> - (h / 2) <= z < h / 2 -> - (box_height p / 2) <= box_height p / h * z < box_height p / 2).
    { intros h z Hh Hz. assert (EH : box_height p / 2 = box_height p / h * (h / 2)) by (field; lra). rewrite EH, Ropp_mult_distr_r. assert (0 < box_height p / h) by (apply Rdiv_lt_0_compat; assumption).
      split; [apply Rmult_le_compat_l; lra | apply Rmult_lt_compat_l; lra]. }
    intros q Hq. rewrite El in Hq. apply in_app_or in Hq. destruct Hq as [Hq|Hq]; [|apply in_app_or in Hq; destruct Hq as [Hq|Hq]]; apply in_at3 in Hq; destruct Hq as (j & x & y & z & Hq & ->).
    - exists true, j, x, y, z. split; [reflexivity|]. destruct (mid_as j x y z Hq) as (Hp & _). unfold ipos in Hp. rewrite ! pair_equal_spec in Hp. destruct Hp as ((-> & _) & ->). destruct (mid_points x y z Hq) as (X & _ & Z0).
      split; [lra|]. intros D. specialize (Z0 D). replace (dim =? 2)%nat with false by (rewrite D; reflexivity). apply Sz; assumption.
    - exists false, j, x, y, z. split; [reflexivity|]. destruct (top_as j x y z Hq) as (Hp & _). unfold ipos in Hp. rewrite ! pair_equal_spec in Hp. destruct Hp as ((-> & _) & ->). destruct (top_points x y z Hq) as (X & _ & Z0).
      split; [apply Sx; exact X|]. intros D. specialize (Z0 D). replace (dim =? 2)%nat with false by (rewrite D; reflexivity). apply Sz; assumption.
    - exists false, j, x, y, z. split; [reflexivity|]. destruct (bot_as j x y z Hq) as (Hp & _). unfold ipos in Hp. rewrite ! pair_equal_spec in Hp. destruct Hp as ((-> & _) & ->). destruct (bot_points x y z Hq) as (X & _ & Z0).
      split; [apply Sx; exact X|]. intros D. specialize (Z0 D). replace (dim =? 2)%nat with false by (rewrite D; reflexivity). apply Sz; assumption. }
  split.
  - intros q q' Hq Hq'. destruct (Q q Hq) as (m1 & j1 & x1 & yy1 & zz1 & -> & _). destruct (Q q' Hq') as (m2 & j2 & x2 & yy2 & zz2 & -> & _). reflexivity.
  - apply Forall_forall. intros q Hq. destruct (Q q Hq) as (m1 & j1 & x1 & yy1 & zz1 & _ & B). exact B.
Qed.
Lemma kh_runs : kh_start = false -> kh p <> None.
Proof.
  intros H0. rewrite (kh_eq pm ptt pb Em Et Eb H0). pose proof first_y as Fy. pose proof first_z as Fz. destruct (first_point pb HN Hhm Hht Eb) as (r & Er).
  assert (Hok : kh_ok y1 z1 = true).
  { pose proof kh_yx_pos. pose proof kh_yz_pos. pose proof kh_a_pos. unfold kh_ok. rewrite Fy. rewrite ! andb_true_iff, ! nonzero_iff. repeat split; try lra.
    assert (dim = 2 \/ dim = 3)%nat as [D|D] by lia; [rewrite D; apply orb_true_r|]. rewrite (Fz D). apply orb_true_iff. left. apply nonzero_iff. lra. }
  rewrite Hok, Er. discriminate.
Qed.
End Kh.

(** ** C85 *)
Theorem C85_layers : forall p l, 0 < box_length p -> 0 < box_width p -> 0 < box_height p -> (1 <= lattice_nx p <= 8000)%Z -> 1 <= density_ratio p ->
  6 * box_length p <= box_width p * IZR (lattice_nx p) -> 0 < g_etaw p -> poly_gamma p <> 1 -> 0 < rho_initial p -> kh p = Some l ->
  let dim := g_dim p in let ty := lattice_type p in let L := box_length p in let W := box_width p in let H := box_height p in
  map i_id l = map Z.of_nat (seq 0 (length l)) /\ (2 <= dim <= 3)%nat /\
  exists s t w g v N h k lm lt lb, l = lm ++ lt ++ lb /\ lb <> [] /\ layers p s t w g v N h k /\
  (let bt := N * t / L * (k / h) in let zm := if (dim =? 2)%nat then 1 else H / h in let zk := if (dim =? 2)%nat then 1 else H / k in
   exists ys, ys * (w / 2 + g + bt * v) = W / 2 /\
   stretched dim ty s 1 ys zm 0 (pt (- L / 2 + shift ty s) (- w / 2) (- h / 2)) (pt (L / 2) (w / 2 + spacing_y ty s / 100) (h / 2)) lm /\
   stretched dim ty t (L / (N * t)) (ys * bt) zk (ys * ((w / 2 + g) * (1 - bt)))
     (pt (- (N * t / 2) + shift ty t) (w / 2 + g) (- k / 2)) (pt (N * t / 2) (w / 2 + g + v) (k / 2)) lt /\
   stretched dim ty t (L / (N * t)) (ys * bt) zk (- (ys * ((w / 2 + g) * (1 - bt))))
     (pt (- (N * t / 2) + shift ty t) (- (w / 2 + g + v)) (- k / 2)) (pt (N * t / 2) (- (w / 2 + g) + spacing_y ty t / 100) (k / 2)) lb /\
   Forall (fun q => Rabs (i_y q) <= ys * (w / 2)) lm /\ Forall (fun q => ys * (w / 2 + g) <= i_y q < W / 2) lt /\
   Forall (fun q => - (W / 2) <= i_y q <= - (ys * (w / 2 + g))) lb /\ 0 < ys) /\
  (exists q, In q lb /\ i_y q = - (W / 2)) /\
  Forall (flows p (rho_initial p * density_ratio p) (flow_velocity p / 2)) lm /\ Forall (flows p (rho_initial p) (- flow_velocity p / 2)) (lt ++ lb) /\
  (forall q q', In q l -> In q' l -> i_m q = i_m q') /\
  Forall (fun q => - (L / 2) < i_x q < L / 2 /\ (dim = 3%nat -> - (H / 2) <= i_z q < H / 2)) l.
Proof.
  intros p l HL HW HH Hn Hr Hw He Hg Hrho E. cbn zeta.
  destruct (kh_inv p l E) as (H0 & pm & ptt & pb & Em & Et & Eb & Hne & Hok & El).
  assert (Hd : (2 <= g_dim p <= 3)%nat).
  { unfold kh_start in H0. apply orb_false_iff in H0. destruct H0 as (H0 & _). apply orb_false_iff in H0. destruct H0 as (_ & H0). apply negb_false_iff, andb_true_iff in H0. rewrite ! Nat.leb_le in H0. exact H0. }
  assert (Ht : (0 <= lattice_type p <= 2)%Z).
  { specialize (Em true (zeros 0)). unfold lattice in Em. destruct ((0 <=? lattice_type p) && (lattice_type p <=? 2))%Z eqn:X; [|discriminate]. apply andb_true_iff in X. rewrite ! Z.leb_le in X. exact X. }
  assert (1 <= kh_nxt p /\ 0 < kh_hm p /\ 0 < kh_ht p) as (HN & Hhm & Hht) by (eapply ok_facts; eassumption).
  eapply kh_main; eassumption.
Qed.

(** The program comes to its end and stays within its arrays *)
Theorem C85_ends : forall p, (2 <= g_dim p <= 3)%nat -> (0 <= lattice_type p <= 2)%Z -> domain_type p = 0%Z -> equal_mass p = true ->
  0 < box_length p -> 0 < box_width p -> 0 < box_height p -> (1 <= lattice_nx p <= 8000)%Z -> 1 <= density_ratio p <= IZR (lattice_nx p) ->
  6 * box_length p <= box_width p * IZR (lattice_nx p) -> (g_dim p = 3%nat -> 3 * density_ratio p * box_length p <= box_height p * IZR (lattice_nx p)) ->
  exists fuel, forall fuel', (fuel <= fuel')%nat -> kh (with_fuel p fuel') <> None.
Proof.
  intros p Hd Ht Hdt Hem HL HW HH Hn (Hr & Hrn) Hw H3.
  assert (Hs : 0 < kh_sep p) by (eapply kh_s_pos; eassumption). assert (Es : kh_sep p * IZR (lattice_nx p) = box_length p) by (eapply kh_s; eassumption).
  assert (Hn1 : 1 <= IZR (lattice_nx p)) by (apply IZR_le; lia).
  destruct (other_sep_ge (g_dim p) (kh_sep p) (density_ratio p) Hd Hs Hr) as (Hst & Hst'). fold (kh_sep_t p) in Hst, Hst'.
  assert (HN : 1 <= kh_nxt p).
  { unfold kh_nxt, floorR. apply (IZR_le 1). apply (Zlt_succ_le 1). apply lt_IZR. rewrite succ_IZR. destruct (base_Int_part (box_length p / kh_sep_t p + 1 / 10)) as (B1 & B2).
    assert (1 <= box_length p / kh_sep_t p) by (apply Rmult_le_reg_r with (kh_sep_t p); [lra|]; replace (box_length p / kh_sep_t p * kh_sep_t p) with (box_length p) by (field; lra); nra). lra. }
  assert (P : forall x, 0 < x <= kh_sep p * density_ratio p -> 0 < kh_height p x).
  { intros x Hx. unfold kh_height. destruct (Nat.leb_spec 3 (g_dim p)) as [D|D]; [|exact HH]. specialize (H3 ltac:(lia)). pose proof (per_z_bounds (lattice_type p)) as Pz.
    assert (D0 : 0 < per_z (lattice_type p) * x) by nra. apply Rmult_lt_0_compat; [|exact D0]. unfold floorR. apply (IZR_lt 0). apply lt_IZR.
    destruct (base_Int_part (box_height p / (per_z (lattice_type p) * x))) as (B1 & B2).
    assert (1 <= box_height p / (per_z (lattice_type p) * x)).
    { apply Rmult_le_reg_r with (per_z (lattice_type p) * x); [exact D0|]. replace (box_height p / (per_z (lattice_type p) * x) * (per_z (lattice_type p) * x)) with (box_height p) by (field; nra).
      assert (per_z (lattice_type p) * x <= 3 * (kh_sep p * density_ratio p)) by nra. rewrite <- Es in H3. assert (3 * density_ratio p * kh_sep p <= box_height p) by (apply Rmult_le_reg_r with (IZR (lattice_nx p)); lra). lra. }
    lra. }
  assert (Hhm : 0 < kh_hm p) by (apply P; nra). assert (Hht : 0 < kh_ht p) by (apply P; lra).
  destruct (lattice_ends (g_dim p) (lattice_type p) 0 (kh_mmin p) (kh_mmax p) (kh_sep p) ltac:(lia) Ht Hs) as (f1 & pm & Em).
  destruct (lattice_ends (g_dim p) (lattice_type p) 0 (kh_tmin p) (kh_tmax p) (kh_sep_t p) ltac:(lia) Ht ltac:(lra)) as (f2 & ptt & Et).
  destruct (lattice_ends (g_dim p) (lattice_type p) 0 (kh_bmin p) (kh_bmax p) (kh_sep_t p) ltac:(lia) Ht ltac:(lra)) as (f3 & pb & Eb).
  exists (f1 + f2 + f3)%nat. intros f Hf.
  apply (emits_more _ f1 f) in Em; [|lia]. apply (emits_more _ f2 f) in Et; [|lia]. apply (emits_more _ f3 f) in Eb; [|lia].
  assert (H0 : kh_start (with_fuel p f) = false).
  { unfold kh_start. cbn [with_fuel equal_mass domain_type g_dim lattice_nx]. rewrite Hem, Hdt. replace ((2 <=? g_dim p)%nat && (g_dim p <=? 3)%nat) with true by (symmetry; apply andb_true_iff; rewrite ! Nat.leb_le; lia).
    cbn [negb orb Z.eqb]. apply Z.eqb_neq. lia. }
  eapply (kh_runs (with_fuel p f)); eassumption.
Qed.

(** The regular perturbation is not at the boundary of the layers: in the unit square the middle layer is a third of
    the width, not a half of it, and the stripes at 1/4 are inside the outer layers *)
Definition square_kh (f : nat) : gpar := GPar 2 f 0 0 60 true 1 1 1 1 true true false (5 / 100) 1 (5 / 3) 1 (25 / 10) 4 1 0 0 0 0 (25 / 1000) (1 / 6).
Lemma square_kh_runs : exists f l, kh (square_kh f) = Some l.
Proof.
  destruct (C85_ends (square_kh 0)) as (f & H); try (cbn [square_kh g_dim lattice_type domain_type equal_mass box_length box_width box_height lattice_nx density_ratio]; first [reflexivity | lia | lra]).
  exists f. specialize (H f (le_n f)). change (with_fuel (square_kh 0) f) with (square_kh f) in H. destruct (kh (square_kh f)) as [l|]; [exists l; reflexivity | contradiction].
Qed.
Theorem C85_interface_refuted : exists p l, kh p = Some l /\ box_length p = 1 /\ box_width p = 1 /\ KH_A p <> 0 /\
  (forall q, In q l -> i_rho q = rho_initial p * density_ratio p -> i_vy q = 0 /\ Rabs (i_y q) < 18 / 100) /\
  (exists q, In q l /\ i_rho q = rho_initial p /\ Rabs (i_y q) < 19 / 100) /\
  (forall q, In q l -> i_vy q <> 0 -> 225 / 1000 < Rabs (i_y q)).
Proof.
  destruct square_kh_runs as (f & l & E). exists (square_kh f), l. split; [exact E|]. cbn [square_kh box_length box_width KH_A rho_initial density_ratio].
  split; [reflexivity|]. split; [reflexivity|]. split; [lra|].
  destruct (C85_layers (square_kh f) l) as (_ & _ & s & t & w & g & v & N & h & k & lm & lt & lb & -> & _ & Hlay & (ys & Eys & _ & _ & Sb & Ym & Yt & Yb & Hys) & _ & Fm & Fo & _ & _);
    try (cbn [square_kh g_etaw poly_gamma rho_initial box_length box_width box_height lattice_nx density_ratio]; first [lia | lra]); [exact E|].
  unfold layers in Hlay. cbn [square_kh g_dim lattice_type box_length box_width box_height lattice_nx density_ratio cell y_period Z.eqb Nat.eqb] in Hlay.
  destruct Hlay as (Hs & Ht & Hc & (K & HK) & Hw & Hw' & Hg & (Kt & HKt) & Hv & Hv' & (n & Hn) & Hn1 & Hn2 & Hh & Hk).
  assert (Es : s = / 60) by lra. subst s. assert (Et : t = / 30) by nra. subst t. rewrite Rmin_left in Hg by lra.
  assert (Ew : w = / 3).
  { assert (K = 20)%nat as ->; [|cbn in HK; lra]. assert (19 < INR K) by lra. assert (INR K <= 20) by lra. rewrite INR_IZR_INZ in *. apply (lt_IZR 19) in H. apply (le_IZR _ 20) in H0. lia. }
  assert (Ev : v = 3 / 10).
  { assert (Kt = 9)%nat as ->; [|cbn in HKt; lra]. assert (8 < INR Kt) by lra. assert (INR Kt < 10) by lra. rewrite INR_IZR_INZ in *. apply (lt_IZR 8) in H. apply (lt_IZR _ 10) in H0. lia. }
  assert (En : N = 30).
  { assert (n = 30)%nat as ->; [|cbn in Hn; lra]. assert (29 < INR n) by lra. assert (INR n < 31) by lra. rewrite INR_IZR_INZ in *. apply (lt_IZR 29) in H. apply (lt_IZR _ 31) in H0. lia. }
  clear HK HKt Hn K Kt n. subst w v N h k g. cbn [square_kh box_length box_width box_height] in *.
  assert (Ey : ys = 20 / 19) by lra. subst ys.
  assert (Q : forall q, In q (lm ++ lt ++ lb) -> i_vy q <> 0 -> 225 / 1000 < Rabs (i_y q)).
  { intros q Hq Hne. rewrite Forall_forall in Fm, Fo. apply in_app_or in Hq. destruct Hq as [Hq|Hq]; [apply Fm in Hq | apply Fo in Hq]; destruct Hq as (_ & _ & _ & _ & _ & _ & _ & _ & _ & Hq); apply Hq; exact Hne. }
  split; [|split; [|exact Q]].
  - intros q Hq Hrho. assert (Hm : In q lm).
    { apply in_app_or in Hq. destruct Hq as [Hq|Hq]; [exact Hq|]. rewrite Forall_forall in Fo. apply Fo in Hq. destruct Hq as (Hq & _). cbn [square_kh rho_initial] in Hq. lra. }
    rewrite Forall_forall in Ym. specialize (Ym q Hm). split; [|lra]. destruct (Req_dec (i_vy q) 0) as [Z0|Z0]; [exact Z0|]. specialize (Q q Hq Z0). lra.
  - destruct Sb as (_ & _ & _ & pts & Ep & Hp & _).
    assert (Hin : In (- (30 * / 30 / 2) + / 30 / 2, - (175 / 1000), 0) pts).
    { apply Hp. split; [exists 0%nat, 9%nat; cbn [square_kh lattice_type Z.eqb pt shift]; f_equal; f_equal; cbn [INR]; lra|].
      split; [|discriminate]. cbn zeta. cbn [square_kh g_dim lattice_type]. intros [|[|a]] Ha; [| |lia]; cbn [coord fst snd pt shift spacing_y Z.eqb]; lra. }
    apply (in_map (fun q => (1 / (30 * / 30) * fst (fst q), - (20 / 19 * ((/ 3 / 2 + / 60 / 2) * (1 - 30 * / 30 / 1 * (1 / 1)))) + 20 / 19 * (30 * / 30 / 1 * (1 / 1)) * snd (fst q), (if (2 =? 2)%nat then 1 else 1 / 1) * snd q))) in Hin.
    change (g_dim (square_kh f)) with 2%nat in Ep. cbn [y_period square_kh lattice_type Z.eqb] in Ep. rewrite <- Ep in Hin. apply in_map_iff in Hin. destruct Hin as (q & Eq & Hq). exists q.
    unfold ipos in Eq. rewrite ! pair_equal_spec in Eq. destruct Eq as ((_ & Eq) & _). cbn [fst snd] in Eq.
    split; [apply in_or_app; right; apply in_or_app; right; exact Hq|]. split; [rewrite Forall_forall in Fo; destruct (Fo q) as (Hr & _); [apply in_or_app; right; exact Hq | exact Hr]|].
    rewrite Eq. rewrite Rabs_left; lra.
Qed.

(** A case in three dimensions with the hexagonal lattice: the program runs and the layers are as stated *)
Definition cube_kh (f : nat) : gpar := GPar 3 f 1 0 30 true 1 1 1 1 true true true (5 / 100) 1 (5 / 3) 1 (25 / 10) 2 1 0 0 0 0 (25 / 1000) (1 / 6).
Example C85_cube : exists f l, kh (cube_kh f) = Some l /\ l <> [] /\ Forall (fun q => - (1 / 2) <= i_y q < 1 / 2 /\ - (1 / 2) <= i_z q < 1 / 2) l.
Proof.
  destruct (C85_ends (cube_kh 0)) as (f & H); try (cbn [cube_kh g_dim lattice_type domain_type equal_mass box_length box_width box_height lattice_nx density_ratio]; first [reflexivity | lia | lra]).
  exists f. specialize (H f (le_n f)). change (with_fuel (cube_kh 0) f) with (cube_kh f) in H. destruct (kh (cube_kh f)) as [l|] eqn:E; [|contradiction]. exists l. split; [reflexivity|].
  destruct (C85_layers (cube_kh f) l) as (_ & _ & s & t & w & g & v & N & h & k & lm & lt & lb & -> & Hlb & Hlay & (ys & Eys & _ & _ & _ & Ym & Yt & Yb & Hys) & _ & _ & _ & _ & Xz);
    try (cbn [cube_kh g_etaw poly_gamma rho_initial box_length box_width box_height lattice_nx density_ratio]; first [lia | lra]); [exact E|].
  split; [intros N0; apply app_eq_nil in N0; destruct N0 as (_ & N0); apply app_eq_nil in N0; tauto|].
  destruct Hlay as (Hs & Ht & _ & _ & Hw & _ & Hg & _ & Hv & Hv' & _ & Hn1 & Hn2 & _ & Hh & _ & _ & Hk & _). cbn [cube_kh box_length box_width box_height] in *.
  assert (Hg0 : 0 < g).
  { assert (0 < s) by (cbn [cube_kh lattice_nx] in Hs; lra). rewrite Hg. cbn [y_period cube_kh lattice_type Z.eqb]. pose proof (sqrt_lt_R0 3 ltac:(lra)). unfold Rmin. destruct (Rle_dec _ _); nra. }
  assert (G : ys * (w / 2) < 1 / 2).
  { assert (0 <= N * t / 1 * (k / h) * v).
    { apply Rmult_le_pos; [|exact Hv]. apply Rmult_le_pos; [nra|]. apply Rmult_le_pos; [lra|]. left. apply Rinv_0_lt_compat. lra. }
    rewrite <- Eys. apply Rmult_lt_compat_l; lra. }
  assert (G' : 0 <= ys * (w / 2 + g)) by (apply Rmult_le_pos; lra).
  rewrite Forall_forall in *. intros q Hq. specialize (Xz q Hq). destruct Xz as (_ & Xz). specialize (Xz eq_refl). split; [|lra].
  apply in_app_or in Hq. destruct Hq as [Hq|Hq]; [specialize (Ym q Hq); unfold Rabs in Ym; destruct (Rcase_abs (i_y q)); lra|]. apply in_app_or in Hq. destruct Hq as [Hq|Hq]; [specialize (Yt q Hq) | specialize (Yb q Hq)]; lra.
Qed.

Print Assumptions C85_layers.
Print Assumptions C85_ends.
Print Assumptions C85_interface_refuted.
