(** C87: the initial data of the fluid test *)
From Coq Require Import Reals Lra Lia.
From Verif Require Import Base BuildTree_model Range_model Range_props Lattice_model Lattice_props LatticeBox_props IdGen_model IdGen_lemmas IdSod_props IdGas_props IdFlow_model IdFlow_lemmas IdKh_props IdRt_props.
Local Open Scope R_scope.

(** ** Proofs *)
Definition fl_as (p : gpar) (m : R) (k : Z) (x y z : R) : idp :=
  let rho := rho_initial p in let P := 25 / 10 - rho * g_grav p * y in
  IdP k x y z 0 0 (smoothing p m rho) rho (P / ((poly_gamma p - 1) * rho)) P m.
Lemma fluid_eq : forall p pts, Emits (lattice (g_dim p) (g_fuel p) (lattice_type p) (domain_type p) (fl_min p) (fl_max p) (fl_sep p)) pts -> (lattice_nx p - 1 =? 0)%Z = false ->
  fluid p = Some (map (at3 (fl_as p (fl_total p / INR (length pts)))) (number 0 pts)).
Proof.
  intros p pts E H0. unfold fluid. rewrite H0. rewrite (count_emits _ _ _ _ _ _ _ _ _ E). rewrite (generate_emits _ _ _ _ _ _ _ _ _ _ _ E) by (cbn [l_pid zeros]; lia).
  rewrite Z.eqb_refl. cbn [negb]. cbn zeta. rewrite <- INR_IZR_INZ. apply (write_emit pts (fl_as p (fl_total p / INR (length pts)))). lia.
Qed.
Lemma fluid_inv : forall p l, fluid p = Some l -> exists pts, Emits (lattice (g_dim p) (g_fuel p) (lattice_type p) (domain_type p) (fl_min p) (fl_max p) (fl_sep p)) pts /\
  l = map (at3 (fl_as p (fl_total p / INR (length pts)))) (number 0 pts).
Proof.
  intros p l H. pose proof H as H'. unfold fluid in H. destruct (lattice_nx p - 1 =? 0)%Z eqn:H0; [discriminate|].
  destruct (count _ _ _ _ _ _ _ _) as [n|] eqn:E in H; [|discriminate]. destruct (count_inv _ _ _ _ _ _ _ _ _ E) as (pts & Ep & _). exists pts. split; [exact Ep|].
  rewrite (fluid_eq p pts Ep H0) in H'. congruence.
Qed.
Lemma fl_sep_pos : forall p, 0 < box_length p -> (2 <= lattice_nx p)%Z -> 0 < fl_sep p.
Proof. intros p HL Hn. unfold fl_sep. assert (1 <= IZR (lattice_nx p - 1)) by (apply IZR_le; lia). apply Rdiv_lt_0_compat; [apply Rmult_lt_0_compat; lra | lra]. Qed.

(** ** C87 *)
Theorem C87_fluid : forall p l, (2 <= g_dim p <= 3)%nat -> domain_type p = 0%Z -> 0 < box_length p -> box_length p <= 1000000 * box_width p -> box_length p <= 1000000 * box_height p -> (2 <= lattice_nx p)%Z ->
  0 < rho_initial p -> 0 < g_etaw p -> poly_gamma p <> 1 -> fluid p = Some l ->
  let L := box_length p in let W := box_width p in let H := box_height p in
  l <> [] /\ map i_id l = map Z.of_nat (seq 0 (length l)) /\
  (exists s, s * IZR (lattice_nx p - 1) = L * (1 - 1 / 100000000) /\
     fills (g_dim p) (lattice_type p) s (pt (- L / 2) (- W / 2) (- H / 2)) (pt (- L / 4) 0 (H / 2)) l) /\
  total i_m l = rho_initial p * (L / 4 * (W / 2) * (if (g_dim p =? 2)%nat then 1 else H)) /\
  (forall q q', In q l -> In q' l -> i_m q = i_m q') /\ Forall (gas p) l /\
  Forall (fun q => i_vx q = 0 /\ i_vy q = 0 /\ 0 < i_h q) l /\ hydrostatic (g_grav p) (5 / 2) 0 (fun _ => rho_initial p) l.
Proof.
  intros p l Hd Hdt HL HW HH Hn Hrho He Hg E. cbn zeta. destruct (fluid_inv p l E) as (pts & Ep & ->). pose proof (fl_sep_pos p HL Hn) as Hs. rewrite Hdt in Ep.
  assert (B : forall a, fl_min p a <= fl_max p a) by (unfold fl_min, fl_max; apply pt_le; lra).
  assert (Hne : pts <> []).
  { destruct (lattice_starts (g_dim p) (g_fuel p) (lattice_type p) (fl_min p) (fl_max p) (fl_sep p) Hd Hs B) with pts as (r & ->); [|exact Ep | discriminate].
    split; [|discriminate]. cbn zeta. unfold fl_min, fl_max. intros [|[|[|a]]] Ha; try lia; cbn [coord fst snd pt]; try lra.
    replace (g_dim p =? 2)%nat with false by (symmetry; apply Nat.eqb_neq; lia). lra. }
  assert (Hlen : 0 < INR (length pts)) by (apply lt_0_INR; destruct pts; [contradiction | cbn; lia]).
  assert (Et : fl_total p = rho_initial p * (box_length p / 4 * (box_width p / 2) * (if (g_dim p =? 2)%nat then 1 else box_height p))).
  { unfold fl_total, fl_min, fl_max. cbn [pt]. assert (g_dim p = 2 \/ g_dim p = 3)%nat as [-> | ->] by lia; cbn [Nat.eqb].
    - rewrite Rabs_right, Rabs_left by lra. field.
    - rewrite Rabs_right, ! Rabs_left by lra. field. }
  assert (Hm : 0 < fl_total p / INR (length pts)).
  { apply Rdiv_lt_0_compat; [|exact Hlen]. rewrite Et. apply Rmult_lt_0_compat; [exact Hrho|]. apply Rmult_lt_0_compat; [apply Rmult_lt_0_compat; lra|]. destruct (g_dim p =? 2)%nat; lra. }
  split; [destruct pts as [|[[x y] z] pts]; [contradiction | discriminate]|].
  split; [rewrite map_map, map_length, number_length, (map_ext _ fst) by (intros (j & [[x y] z]); reflexivity); apply (number_fst _ _ 0)|].
  split.
  { exists (fl_sep p). split; [unfold fl_sep; assert (1 <= IZR (lattice_nx p - 1)) by (apply IZR_le; lia); field; lra|].
    apply (fills_at3 (g_dim p) (g_fuel p) (lattice_type p) (fl_min p) (fl_max p) (fl_sep p) pts _ 0 Hs B); [reflexivity | exact Ep]. }
  assert (C : Forall (fun q => i_m q = fl_total p / INR (length pts)) (map (at3 (fl_as p (fl_total p / INR (length pts)))) (number 0 pts))) by (apply forall_at3; reflexivity).
  split; [rewrite (total_const _ _ _ C), map_length, number_length, <- Et; field; lra|].
  split; [rewrite Forall_forall in C; intros q q' Hq Hq'; rewrite (C q Hq), (C q' Hq'); reflexivity|].
  split; [apply forall_at3; intros j x y z _; unfold gas, fl_as; cbn [i_rho i_P i_u i_m i_h]; split; [reflexivity|]; split; [field; split; lra|]; split; [exact Hm | apply smoothing_ok; try assumption; lia]|].
  split; [apply forall_at3; intros j x y z _; unfold fl_as; cbn [i_vx i_vy i_h]; repeat split; apply smoothing_h_pos; exact He|].
  exists (fun y => 5 / 2 - rho_initial p * g_grav p * y). split; [apply forall_at3; intros j x y z _; unfold fl_as; cbn [i_P i_y]; lra|]. split; [lra|]. split; [reg|].
  intros y _ eps Heps. exists (mkposreal 1 Rlt_0_1). intros h Hh _. match goal with |- Rabs (?a - ?b) < _ => assert (X : a = b) by (field; exact Hh) end.
  rewrite X, Rminus_diag_eq, Rabs_R0 by reflexivity. exact Heps.
Qed.
(** The program comes to its end and stays within its arrays *)
Theorem C87_ends : forall p, (2 <= g_dim p <= 3)%nat -> (0 <= lattice_type p <= 2)%Z -> 0 < box_length p -> (2 <= lattice_nx p)%Z ->
  exists fuel, forall fuel', (fuel <= fuel')%nat -> fluid (with_fuel p fuel') <> None.
Proof.
  intros p Hd Ht HL Hn. pose proof (fl_sep_pos p HL Hn) as Hs.
  destruct (lattice_ends (g_dim p) (lattice_type p) (domain_type p) (fl_min p) (fl_max p) (fl_sep p) ltac:(lia) Ht Hs) as (f1 & pts & E).
  exists f1. intros f Hf. apply (emits_more _ f1 f) in E; [|exact Hf]. rewrite (fluid_eq (with_fuel p f) pts E); [discriminate|]. apply Z.eqb_neq. cbn [with_fuel lattice_nx]. lia.
Qed.
(** The mass is that of the box in which the lattice is placed, in a volume with a height, width and length of 1 an eighth *)
Definition tank (f : nat) : gpar := GPar 3 f 2 0 30 true 1 1 1 1 false false false (5 / 100) 1 7 1000 1 1 0 (981 / 100) 0 0 0 0 1.
Example C87_tank : exists f l, fluid (tank f) = Some l /\ total i_m l = 125 /\ hydrostatic (981 / 100) (5 / 2) 0 (fun _ => 1000) l.
Proof.
  destruct (C87_ends (tank 0)) as (f & H); try (cbn [tank g_dim lattice_type box_length lattice_nx]; first [lia | lra]).
  exists f. specialize (H f (le_n f)). change (with_fuel (tank 0) f) with (tank f) in H. destruct (fluid (tank f)) as [l|] eqn:E; [|contradiction]. exists l. split; [reflexivity|].
  destruct (C87_fluid (tank f) l) as (_ & _ & _ & M & _ & _ & _ & Hy); try (cbn [tank g_dim domain_type box_length box_width box_height lattice_nx rho_initial g_etaw poly_gamma]; first [reflexivity | lia | lra]); [exact E|].
  split; [rewrite M; cbn [tank g_dim rho_initial box_length box_width box_height Nat.eqb]; lra | exact Hy].
Qed.

Print Assumptions C87_fluid.
Print Assumptions C87_ends.
