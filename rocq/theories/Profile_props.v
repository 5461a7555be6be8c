(** C46: spherical density profiles. *)
From Coquelicot Require Import Coquelicot.
From Verif Require Import Base Vec Geometry_model Geometry_props Eos_props Profile_model.
Local Open Scope R_scope.

(** Surface of the sphere of radius r in dimension n. *)
Definition surface (n : nat) (r : R) : R :=
  match n with 1%nat => 2 | 2%nat => 2 * PI * r | _ => 4 * PI * (r * r) end.
Definition dim13 (n : nat) : Prop := n = 1%nat \/ n = 2%nat \/ n = 3%nat.

Lemma PI_pos : 0 < PI. Proof. apply PI_RGT_0. Qed.

(** What a profile (rho, mass, drho) has to satisfy at radius r. *)
Definition profile_at (n : nat) (rho mass drho : R -> R) (r : R) : Prop :=
  is_derive mass r (surface n r * rho r) /\ is_derive rho r (drho r).

Ltac polyder := auto_derive; [trivial|field; pose proof PI_pos; lra].
Ltac open_profile := cbv beta iota zeta delta [profile_at surface rho_constant_density mass_constant_density drhodr_constant_density
  rho_parabolic_density mass_parabolic_density drhodr_parabolic_density SQ CU].

Theorem C46_constant_density n r : dim13 n ->
  profile_at n (rho_constant_density n) (mass_constant_density n) (drhodr_constant_density n) r /\
  mass_constant_density n 0 = 0 /\ mass_constant_density n 1 = 1 /\ 0 < rho_constant_density n r.
Proof.
  pose proof PI_pos. intros [->|[->| ->]]; open_profile;
    (split; [split; [polyder|apply (@is_derive_const R_AbsRing R_NormedModule)]|split; [ring|split; [ring|apply Rdiv_lt_0_compat; lra]]]).
Qed.

Theorem C46_parabolic_density n r : dim13 n ->
  profile_at n (rho_parabolic_density n) (mass_parabolic_density n) (drhodr_parabolic_density n) r /\
  mass_parabolic_density n 0 = 0 /\ mass_parabolic_density n 1 = 1 /\ rho_parabolic_density n 1 = 0 /\
  (-1 < r < 1 -> 0 < rho_parabolic_density n r).
Proof.
  pose proof PI_pos. intros [->|[->| ->]]; open_profile;
    (split; [split; polyder|split; [field|split; [field|split; [ring|]]]]); intros Hr;
    (apply Rmult_lt_0_compat; [try (apply Rdiv_lt_0_compat); lra|nra]).
Qed.

(** ** mesa *)
Lemma helper2_at1 q : q <> 0 -> mesa_mass_helper 2 q 1 = 1 - 2 * q / 3 + q * q / 6.
Proof. intros H. unfold mesa_mass_helper, SQ, CU. field. assumption. Qed.
Lemma helper3_at1 q : q <> 0 -> mesa_mass_helper 3 q 1 = 1 / 3 - q / 3 + q * q / 6 - q * q * q / 30.
Proof. intros H. unfold mesa_mass_helper, SQ, CU. field. assumption. Qed.

Lemma glue_derive (f g : R -> R) t x l : (x <= t -> is_derive f x l) -> (t <= x -> is_derive g x l) -> f t = g t ->
  is_derive (fun r => if Rltb r t then f r else g r) x l.
Proof.
  intros Hf Hg E. destruct (Rtotal_order x t) as [L|[->|L]].
  - apply derive_ext_loc with f; [|apply Hf; lra]. apply (near _ (t - x)); [lra|]. intros y Hy.
    rewrite (proj2 (Rltb_true _ _)) by lra. reflexivity.
  - apply is_derive_Reals. specialize (Hf ltac:(lra)). specialize (Hg ltac:(lra)). apply is_derive_Reals in Hf. apply is_derive_Reals in Hg.
    intros eps He. destruct (Hf eps He) as [d1 H1]. destruct (Hg eps He) as [d2 H2].
    assert (Hd : 0 < Rmin d1 d2) by (apply Rmin_pos; apply cond_pos).
    exists (mkposreal _ Hd). intros h Hh Hb. cbn in Hb.
    pose proof (Rmin_l d1 d2). pose proof (Rmin_r d1 d2).
    rewrite (proj2 (Rltb_false t t)) by lra.
    destruct (Rltb (t + h) t); [rewrite <- E; apply H1; [assumption|lra]|apply H2; [assumption|lra]].
  - apply derive_ext_loc with g; [|apply Hg; lra]. apply (near _ (x - t)); [lra|]. intros y Hy.
    rewrite (proj2 (Rltb_false _ _)) by lra. reflexivity.
Qed.

Lemma mesa_rho0_pos n q : dim13 n -> 0 < q < 1 -> 0 < mesa_rho0 n q.
Proof.
  pose proof PI_pos. intros [->|[->| ->]] Hq; unfold mesa_rho0.
  - apply Rdiv_lt_0_compat; lra.
  - rewrite helper2_at1 by lra. apply Rdiv_lt_0_compat; [lra|]. apply Rmult_lt_0_compat; [lra|nra].
  - rewrite helper3_at1 by lra. apply Rdiv_lt_0_compat; [lra|]. apply Rmult_lt_0_compat; [lra|].
    assert (q * q * q <= q * q) by nra. nra.
Qed.

(** Below the cut-off radius .9999 *)
Theorem C46_mesa_density n q r : dim13 n -> 0 < q < 1 -> 1 - q < 9999 / 10000 -> r < 9999 / 10000 ->
  profile_at n (rho_mesa_density n q) (mass_mesa_density n q) (drhodr_mesa_density n q) r /\
  (0 <= r -> 0 < rho_mesa_density n q r).
Proof.
  intros Hn Hq Hq' Hr. pose proof (mesa_rho0_pos n q Hn Hq) as H0. pose proof PI_pos as Hpi. split; [split|].
  - set (rho0 := mesa_rho0 n q) in *.
    set (gin := fun r => match n with 1%nat => 2 * rho0 * r | 2%nat => PI * rho0 * SQ r | _ => 4 * PI / 3 * rho0 * CU r end).
    set (gout := fun r => match n with 1%nat => 2 * rho0 * (r - CU (r - (1 - q)) / (3 * SQ q)) | 2%nat => PI * rho0 * mesa_mass_helper n q r
       | _ => 4 * PI * rho0 * mesa_mass_helper n q r end).
    apply derive_ext_loc with (fun r => if Rltb r (1 - q) then gin r else gout r).
    { apply (near _ (9999 / 10000 - r)); [lra|]. intros t Ht. unfold mass_mesa_density. fold rho0.
      assert (C : Rltb (t - 1) (/ 10 ^ 12) = true).
      { apply Rltb_true. assert (0 < / 10 ^ 12) by (apply Rinv_0_lt_compat; lra). lra. }
      rewrite C. unfold gin, gout. destruct Hn as [->|[->| ->]]; reflexivity. }
    apply glue_derive.
    + intros Hle.
      assert (E : rho_mesa_density n q r = rho0).
      { unfold rho_mesa_density. destruct (Rltb r (1 - q)) eqn:B; [reflexivity|]. apply Rltb_false in B. assert (r = 1 - q) by lra. subst r.
        rewrite (proj2 (Rltb_true _ _)) by lra. unfold SQ. fold rho0. field. lra. }
      rewrite E. unfold gin, surface. clearbody rho0. destruct Hn as [->|[->| ->]]; unfold SQ, CU; polyder.
    + intros Hge.
      assert (E : rho_mesa_density n q r = rho0 * (1 - SQ (r - (1 - q)) / SQ q)).
      { unfold rho_mesa_density. rewrite (proj2 (Rltb_false _ _)) by lra. rewrite (proj2 (Rltb_true _ _)) by lra. reflexivity. }
      rewrite E. unfold gout, surface. clearbody rho0. destruct Hn as [->|[->| ->]]; unfold mesa_mass_helper, SQ, CU; (auto_derive; [trivial|field; lra]).
    + unfold gin, gout. destruct Hn as [->|[->| ->]]; unfold mesa_mass_helper, SQ, CU; field; lra.
  - set (rho0 := mesa_rho0 n q) in *.
    apply derive_ext_loc with (fun r => if Rltb r (1 - q) then rho0 else rho0 * (1 - SQ (r - (1 - q)) / SQ q)).
    { apply (near _ (9999 / 10000 - r)); [lra|]. intros t Ht. unfold rho_mesa_density. fold rho0.
      rewrite (proj2 (Rltb_true t (9999 / 10000))) by lra. reflexivity. }
    apply (glue_derive (fun _ => rho0)).
    + intros Hle. unfold drhodr_mesa_density. rewrite (proj2 (Rltb_false (1 - q) r)) by lra. cbn [andb]. apply (@is_derive_const R_AbsRing R_NormedModule).
    + intros Hge. assert (E : drhodr_mesa_density n q r = - 2 * rho0 * (r - (1 - q)) / SQ q).
      { unfold drhodr_mesa_density. fold rho0. destruct (Rltb (1 - q) r) eqn:B; cbn [andb].
        - rewrite (proj2 (Rltb_true _ _)) by lra. reflexivity.
        - apply Rltb_false in B. assert (r = 1 - q) by lra. subst r. unfold SQ. field. lra. }
      rewrite E. unfold SQ. clearbody rho0. auto_derive; [trivial|]. field. lra.
    + unfold SQ. field. lra.
  - intros Hr0. unfold rho_mesa_density. destruct (Rltb r (1 - q)) eqn:B; [assumption|]. apply Rltb_false in B.
    rewrite (proj2 (Rltb_true _ _)) by lra. apply Rmult_lt_0_compat; [assumption|]. unfold SQ.
    assert ((r - (1 - q)) * (r - (1 - q)) < q * q) by nra.
    apply (Rmult_lt_reg_r (q * q)); [nra|]. rewrite Rmult_0_l. unfold Rdiv.
    replace ((1 - (r - (1 - q)) * (r - (1 - q)) * / (q * q)) * (q * q)) with (q * q - (r - (1 - q)) * (r - (1 - q))) by (field; lra). lra.
Qed.

Theorem C46_mesa_total_mass n q : dim13 n -> 0 < q < 1 ->
  mass_mesa_density n q 0 = 0 /\ mass_mesa_density n q 1 = 1.
Proof.
  intros Hn Hq. pose proof PI_pos as Hpi.
  assert (C : Rltb (1 - 1) (/ 10 ^ 12) = true) by (apply Rltb_true; assert (0 < / 10 ^ 12) by (apply Rinv_0_lt_compat; lra); lra).
  assert (C0 : Rltb 0 (1 - q) = true) by (apply Rltb_true; lra).
  assert (C1 : Rltb 1 (1 - q) = false) by (apply Rltb_false; lra).
  pose proof (mesa_rho0_pos n q Hn Hq) as H0.
  destruct Hn as [->|[->| ->]]; unfold mass_mesa_density; rewrite C, C0, C1; (split; [unfold SQ, CU; ring|]); unfold mesa_rho0.
  - unfold SQ, CU. field. split; lra.
  - set (h := mesa_mass_helper 2 q 1). assert (0 < h) by (unfold h; rewrite helper2_at1 by lra; nra). clearbody h. field. lra.
  - set (h := mesa_mass_helper 3 q 1).
    assert (0 < h) by (unfold h; rewrite helper3_at1 by lra; assert (q * q * q <= q * q) by nra; nra). clearbody h. field. lra.
Qed.

(** Outside the unit sphere only the mesa profile vanishes; the constant profile
    keeps its value and the parabolic one is negative. *)
Theorem C46_mesa_outside n q r : 0 < q -> 1 <= r -> rho_mesa_density n q r = 0 /\ drhodr_mesa_density n q r = 0.
Proof.
  intros Hq Hr. unfold rho_mesa_density, drhodr_mesa_density.
  rewrite (proj2 (Rltb_false r (1 - q))) by lra. rewrite (proj2 (Rltb_false r (9999 / 10000))) by lra. rewrite andb_false_r. auto.
Qed.

Theorem C46_outside_refuted : exists r, 1 < r /\ forall n, dim13 n -> 0 < rho_constant_density n r /\ rho_parabolic_density n r < 0.
Proof.
  exists 2. split; [lra|]. pose proof PI_pos. intros n [->|[->| ->]]; cbv [rho_constant_density rho_parabolic_density SQ]; (split;
    [apply Rdiv_lt_0_compat; lra|]).
  - lra.
  - assert (0 < 2 / PI) by (apply Rdiv_lt_0_compat; lra). nra.
  - assert (0 < 15 / (8 * PI)) by (apply Rdiv_lt_0_compat; lra). nra.
Qed.

(** Between .9999 and 1 the mesa density is zero while its mass function still
    grows. *)
Theorem C46_mesa_rim_refuted : exists q r dm, 0 < q < 1 /\ r < 1 /\ rho_mesa_density 1 q r = 0 /\
  is_derive (mass_mesa_density 1 q) r dm /\ 0 < dm.
Proof.
  exists (1 / 2), (99995 / 100000). 
  set (dm := 2 * (3 / 5) * (1 - (99995 / 100000 - 1 / 2) * (99995 / 100000 - 1 / 2) * 4)).
  exists dm. split; [lra|]. split; [lra|]. split.
  { unfold rho_mesa_density. rewrite (proj2 (Rltb_false _ _)) by lra. rewrite (proj2 (Rltb_false _ _)) by lra. reflexivity. }
  split; [|unfold dm; lra].
  apply derive_ext_loc with (fun r => 2 * (3 / 5) * (r - CU (r - (1 - 1 / 2)) / (3 * SQ (1 / 2)))).
  - apply (near _ (1 / 100000)); [lra|]. intros t Ht. unfold mass_mesa_density.
    rewrite (proj2 (Rltb_false _ _)) by lra. rewrite (proj2 (Rltb_true _ _)) by (assert (0 < / 10 ^ 12) by (apply Rinv_0_lt_compat; lra); lra).
    unfold mesa_rho0. f_equal. f_equal. lra.
  - unfold CU, SQ, dm. auto_derive; [trivial|]. field.
Qed.

(** A concrete case. *)
Example C46_case : dim13 2 /\ 0 < 3 / 10 < 1 /\ 1 - 3 / 10 < 9999 / 10000 /\ 8 / 10 < 9999 / 10000.
Proof. repeat split; try lra. right; left; reflexivity. Qed.

Print Assumptions C46_constant_density.
Print Assumptions C46_parabolic_density.
Print Assumptions C46_mesa_density.
Print Assumptions C46_mesa_total_mass.
Print Assumptions C46_outside_refuted.
Print Assumptions C46_mesa_rim_refuted.
