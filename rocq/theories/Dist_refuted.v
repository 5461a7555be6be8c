(** Two ranks and one process on the same three particles: the lists differ. *)
From Coq Require Import Sorted.
From Verif Require Import Base Key_model HCell_model BuildTree_model BuildTree_props Vec Geometry_model Geometry_props Cofm_model Cofm_spec Cofm_proofs Search_proofs Search_sph
  Share_model Share_props Comms_model Dist_model.
Local Open Scope N_scope.

(** Dimension 1, particle 0 at 0 with radius 1/100 on rank 0, particles 1 and 2 at 1/2 and
    3/4 with radius 8/10 on rank 1; the keys are the Morton keys of these positions in the
    range [0,1]. *)
Definition pss3 : list (list (N * nat)) := [[(2 ^ 63, 0%nat)]; [(2 ^ 63 + 2 ^ 62, 1%nat); (2 ^ 63 + 2 ^ 62 + 2 ^ 61, 2%nat)]].
Definition eb3 (i : nat) : body := match i with 0%nat => mkbody (fun _ => 0%R) 1 (1 / 100) | 1%nat => mkbody (fun _ => (1 / 2)%R) 1 (8 / 10) | _ => mkbody (fun _ => (3 / 4)%R) 1 (8 / 10) end.
Lemma spread3 : spread 1 pss3.
Proof.
  split; [left; reflexivity|]. split; [exists 1%nat; reflexivity|]. split; [intros ps [<-|[<-|[]]]; discriminate|]. split.
  - cbn [concat pss3 app map fst]. repeat constructor; reflexivity.
  - cbn [concat pss3 app map fst]. repeat constructor; vm_compute; congruence.
Qed.
Section F.
Variable f : N -> list nat -> list cofm -> cofm.
Lemma built_one : exists one, build_all 1 f [concat pss3] = Some [one] /\ look_s (k_tab one) 1 = Some (3, inr (f 1 [0%nat] [f 3 [1%nat; 2%nat] []])) /\ look_s (k_tab one) 2 = Some (0, inl 0%nat) /\
  look_s (k_tab one) 3 = Some (3, inr (f 3 [1%nat; 2%nat] [])) /\ look_s (k_tab one) 6 = Some (0, inl 1%nat) /\ look_s (k_tab one) 7 = Some (0, inl 2%nat).
Proof.
  assert (E : match build_all 1 f [concat pss3] with Some l => Some (map (fun st => map (look_s (k_tab st)) [1;2;3;6;7]) l) | None => None end =
    Some [[Some (3, inr (f 1 [0%nat] [f 3 [1%nat; 2%nat] []])); Some (0, inl 0%nat); Some (3, inr (f 3 [1%nat; 2%nat] [])); Some (0, inl 1%nat); Some (0, inl 2%nat)]]) by (vm_compute; reflexivity).
  destruct (build_all 1 f [concat pss3]) as [[|one [|x l]]|]; try discriminate. exists one. split; [reflexivity|]. cbn [map] in E. injection E as A1 A2 A3 A4 A5. tauto.
Qed.
Lemma built_two : exists st0 st1, build_all 1 f pss3 = Some [st0; st1] /\ look_s (k_tab st0) 1 = Some (11, inr (f 1 [0%nat] [f 3 [1%nat; 2%nat] []])) /\ look_s (k_tab st0) 2 = Some (0, inl 0%nat) /\
  look_s (k_tab st0) 3 = Some (8, inr (f 3 [1%nat; 2%nat] [])).
Proof.
  assert (E : match build_all 1 f pss3 with Some l => Some (map (fun st => map (look_s (k_tab st)) [1;2;3]) l) | None => None end =
    Some [[Some (11, inr (f 1 [0%nat] [f 3 [1%nat; 2%nat] []])); Some (0, inl 0%nat); Some (8, inr (f 3 [1%nat; 2%nat] []))];
          [Some (11, inr (f 1 [0%nat] [f 3 [1%nat; 2%nat] []])); Some (8, inl 0%nat); Some (3, inr (f 3 [1%nat; 2%nat] []))]]) by (vm_compute; reflexivity).
  destruct (build_all 1 f pss3) as [[|st0 [|st1 [|x l]]]|]; try discriminate. exists st0, st1. split; [reflexivity|]. cbn [map] in E. injection E as A1 A2 A3 _ _ _. tauto.
Qed.
End F.
Definition m3 : cofm := cofm_of eb3 1 3 [1%nat; 2%nat] [].
Definition m1 : cofm := cofm_of eb3 1 1 [0%nat] [m3].
Lemma m3_ok : summary_ok 1 m3 [eb3 1; eb3 2].
Proof. apply (compute_cofm_ok 1 [eb3 1; eb3 2] [] []); [|constructor]. intros b [<-|[<-|[]]]; cbn; lra. Qed.
Lemma m1_ok : summary_ok 1 m1 [eb3 0; eb3 1; eb3 2].
Proof. apply (compute_cofm_ok 1 [eb3 0] [m3] [[eb3 1; eb3 2]]); [|constructor; [apply m3_ok | constructor]]. intros b [<-|[<-|[<-|[]]]]; cbn; lra. Qed.
Lemma dim1 : dim_ok 1. Proof. left. reflexivity. Qed.
Lemma dist1 a b : dist 1 a b = Rabs (a 0%nat - b 0%nat).
Proof. unfold dist, dist2. cbn [sumn]. rewrite Rplus_0_l || rewrite Rplus_0_r || idtac. rewrite <- sqrt_Rsqr_abs. unfold Rsqr. reflexivity. Qed.
Lemma eb3_rad i : (0 < b_rad (eb3 i))%R. Proof. destruct i as [|[|i]]; cbn; lra. Qed.
Lemma eb3_in i : In (eb3 i) [eb3 0; eb3 1; eb3 2]. Proof. destruct i as [|[|i]]; cbn; tauto. Qed.
Lemma near_self i : (dist 1 (b_pos (eb3 i)) (b_pos (eb3 i)) <= (b_rad (eb3 i) + b_rad (eb3 i)) / 2)%R.
Proof. rewrite dist1. unfold Rminus. rewrite Rplus_opp_r, Rabs_R0. pose proof (eb3_rad i). lra. Qed.
Lemma sphere_root i : intersects_sphere_box 1 (cm_min m1) (cm_max m1) (b_pos (eb3 i)) (b_rad (eb3 i)) = true.
Proof. pose proof (eb3_rad i). apply (near_box 1 dim1 m1 _ (eb3 i) _ _ m1_ok (eb3_in i)); [lra | lra | apply near_self]. Qed.
Lemma sphere_3 : intersects_sphere_box 1 (cm_min m3) (cm_max m3) (b_pos (eb3 2)) (b_rad (eb3 2)) = true.
Proof. pose proof (eb3_rad 2). apply (near_box 1 dim1 m3 _ (eb3 2) _ _ m3_ok); [right; left; reflexivity | lra | lra | apply near_self]. Qed.
Lemma boxes_1 : intersects_box_box 1 (cm_min m1) (cm_max m1) (cm_min m1) (cm_max m1) = true.
Proof. apply (near_boxes 1 m1 _ m1 _ (eb3 0) (eb3 0) m1_ok m1_ok (eb3_in 0) (eb3_in 0) (near_self 0)). Qed.
Lemma boxes_3 : intersects_box_box 1 (cm_min m3) (cm_max m3) (cm_min m1) (cm_max m1) = true.
Proof. apply (near_boxes 1 m3 _ m1 _ (eb3 2) (eb3 2) m3_ok m1_ok); [right; left; reflexivity | apply (eb3_in 2) | apply near_self]. Qed.
Lemma culled_3 : intersects_sphere_box 1 (cm_min m3) (cm_max m3) (b_pos (eb3 0)) (b_rad (eb3 0)) = false.
Proof.
  cbn [intersects_sphere_box]. apply Rleb_false. rewrite dist1. unfold closest.
  assert (E : cm_min m3 0%nat = (1 / 10)%R).
  { change (cm_min m3 0%nat) with (Rmin (Rmin dbl_max (1 / 2 - 8 / 10 / 2)) (3 / 4 - 8 / 10 / 2)).
    assert (1 <= dbl_max)%R.
    { unfold dbl_max. assert (1 <= 2 ^ 1023)%R by (apply pow_R1_Rle; lra). assert (/ 2 ^ 52 <= 1)%R. { rewrite <- Rinv_1. apply Rinv_le_contravar; [lra|]. apply pow_R1_Rle. lra. } assert (1 <= 2 - / 2 ^ 52)%R by lra. nra. }
    rewrite (Rmin_right dbl_max) by lra. rewrite Rmin_left by lra. lra. }
  rewrite E. cbn [eb3 b_pos b_rad]. assert (Rmax (1 / 10) (Rmin 0 (cm_max m3 0%nat)) = 1 / 10)%R by (apply Rmax_left; pose proof (Rmin_l 0 (cm_max m3 0%nat)); lra). rewrite H.
  rewrite Rminus_0_r, Rabs_right by lra. unfold tol. assert (2 ^ 52 = 4503599627370496)%R by (cbn [pow]; lra). rewrite H0. lra.
Qed.
Lemma within_all i : (within_distance2 1 (b_pos (eb3 i)) (cm_pos m1) (Rmax (b_rad (eb3 i)) (cm_lap m1) + cm_rad m1)) = true.
Proof.
  apply Rleb_true. pose proof (so_rad _ _ _ m1_ok _ (eb3_in i)) as A. pose proof (so_rad0 _ _ _ m1_ok). pose proof (so_lap0 _ _ _ m1_ok). pose proof (Rmax_r (b_rad (eb3 i)) (cm_lap m1)).
  rewrite dist2_sym. apply dist_le_iff; [lra|]. lra.
Qed.
Lemma within_pair i j : (i < 3)%nat -> (j < 3)%nat -> (1 <= i + j)%nat -> within_distance2 1 (b_pos (eb3 i)) (b_pos (eb3 j)) (Rmax (b_rad (eb3 i)) (b_rad (eb3 j))) = true.
Proof.
  intros Hi Hj Hij. apply Rleb_true. unfold dist2. cbn [sumn].
  destruct i as [|[|[|i]]], j as [|[|[|j]]]; try lia; cbn [eb3 b_pos b_rad]; (rewrite Rmax_right by lra) || (rewrite Rmax_left by lra); lra.
Qed.
Lemma within_00 : within_distance2 1 (b_pos (eb3 0)) (b_pos (eb3 0)) (Rmax (b_rad (eb3 0)) (b_rad (eb3 0))) = true.
Proof. apply Rleb_true. unfold dist2. cbn [sumn eb3 b_pos b_rad]. rewrite Rmax_left by lra. lra. Qed.

Lemma dwalk_S {A} dim (lk : N -> option (N * (nat + cofm))) g func cur r (acc : A) : dwalk dim lk (S g) func (cur :: r) acc =
  match lk cur with Some c => let res := func cur c acc in if fst res then match dkids dim lk cur (fst c) (digits dim) with Some ds => dwalk dim lk g func (rev ds ++ r) (snd res) | None => None end else dwalk dim lk g func r (snd res) | None => None end.
Proof. reflexivity. Qed.
Lemma dqueue_S dim lk g cur h r nbs : dist_queue eb3 dim lk (S g) cur (h :: r) nbs = match dist_level eb3 dim lk cur (h :: r) nbs with Some (b, q, nbs') => if b then Some None else dist_queue eb3 dim lk g cur q nbs' | None => None end.
Proof. reflexivity. Qed.
Lemma search_whole (lk : N -> option (N * (nat + cofm))) : lk 1 = Some (3, inr m1) -> lk 2 = Some (0, inl 0%nat) -> lk 3 = Some (3, inr m3) -> lk 6 = Some (0, inl 1%nat) -> lk 7 = Some (0, inl 2%nat) ->
  dist_sph eb3 1 lk 9 = Some (Some [(2%nat, [0; 1; 2]%nat); (1%nat, [0; 1; 2]%nat); (0%nat, [0; 1; 2]%nat)]).
Proof.
  intros L1 L2 L3 L6 L7. assert (K1 : dkids 1 lk 1 3 (digits 1) = Some [2; 3]) by (change (digits 1) with [0; 1]; cbn [dkids]; change (get_child 3 0) with true; change (get_child 3 1) with true; cbv beta iota; change (key_push 1 1 0) with (Some 2); change (key_push 1 1 1) with (Some 3); cbv beta iota; rewrite L2, L3; reflexivity).
  assert (K3 : dkids 1 lk 3 3 (digits 1) = Some [6; 7]) by (change (digits 1) with [0; 1]; cbn [dkids]; change (get_child 3 0) with true; change (get_child 3 1) with true; cbv beta iota; change (key_push 1 3 0) with (Some 6); change (key_push 1 3 1) with (Some 7); cbv beta iota; rewrite L6, L7; reflexivity).
  assert (E0 : dist_cells 1 lk 9 = Some [1]).
  { unfold dist_cells. rewrite dwalk_S. change key_root with 1. rewrite L1. cbv beta zeta; cbn [dcells_func snd fst]. change (is_shared 1 3 || (128 <? cm_sub m1)%nat) with false. reflexivity. }
  assert (E1 : dwalk 1 lk 9 (dgroup_func 1) [1] [] = Some [2; 1; 0]%nat).
  { rewrite dwalk_S. rewrite L1. cbv zeta; cbn [dgroup_func snd fst]. rewrite K1. cbn [rev app]; rewrite dwalk_S. rewrite L3. cbv zeta; cbn [dgroup_func snd fst]. rewrite K3. cbn [rev app]; rewrite dwalk_S. rewrite L7. cbv zeta; cbn [dgroup_func snd fst]. change (is_shared 1 0) with false. cbv iota. cbn [app]; rewrite dwalk_S.
    rewrite L6. cbv zeta; cbn [dgroup_func snd fst]. change (is_shared 1 0) with false. cbv iota. cbn [app]; rewrite dwalk_S. rewrite L2. cbv zeta; cbn [dgroup_func snd fst]. change (is_shared 1 0) with false. reflexivity. }
  unfold dist_sph. rewrite E0. cbn [dist_targets]. unfold dist_target. rewrite L1. cbv beta zeta; cbn [snd fst]. rewrite E1. cbn [map]. change key_root with 1.
  rewrite dqueue_S; cbn [dist_level]. unfold dist_cell at 1. rewrite L1. cbv beta zeta; cbn [snd fst]. change (N.to_nat 1) with 1%nat. rewrite boxes_1. cbn [negb existsb fst]. rewrite sphere_root. cbn [orb]. change (is_empty_node 1 3) with false. cbv iota. rewrite K1. cbn [app orb].
  rewrite dqueue_S; cbn [dist_level]. unfold dist_cell at 1. rewrite L2. cbv beta zeta; cbn [snd fst]. change (N.to_nat 1) with 1%nat. rewrite within_all. cbn [negb map fst snd]. rewrite !within_pair by lia. rewrite within_00. cbn [app].
  unfold dist_cell at 1. rewrite L3. cbv beta zeta; cbn [snd fst]. change (N.to_nat 1) with 1%nat. rewrite boxes_3. cbn [negb existsb fst]. rewrite sphere_3. cbn [orb]. change (is_empty_node 1 3) with false. cbv iota. rewrite K3. cbn [app orb].
  rewrite dqueue_S; cbn [dist_level]. unfold dist_cell at 1. rewrite L6. cbv beta zeta; cbn [snd fst]. change (N.to_nat 1) with 1%nat. rewrite within_all. cbn [negb map fst snd]. rewrite !within_pair by lia. cbn [app].
  unfold dist_cell at 1. rewrite L7. cbv beta zeta; cbn [snd fst]. change (N.to_nat 1) with 1%nat. rewrite within_all. cbn [negb map fst snd]. rewrite !within_pair by lia. reflexivity.
Qed.
Lemma search_rank0 (lk : N -> option (N * (nat + cofm))) : lk 1 = Some (11, inr m1) -> lk 2 = Some (0, inl 0%nat) -> lk 3 = Some (8, inr m3) ->
  dist_sph eb3 1 lk 9 = Some (Some [(0%nat, [0%nat])]).
Proof.
  intros L1 L2 L3. assert (K1 : dkids 1 lk 1 11 (digits 1) = Some [2; 3]) by (change (digits 1) with [0; 1]; cbn [dkids]; change (get_child 11 0) with true; change (get_child 11 1) with true; cbv beta iota; change (key_push 1 1 0) with (Some 2); change (key_push 1 1 1) with (Some 3); cbv beta iota; rewrite L2, L3; reflexivity).
  assert (K3 : dkids 1 lk 3 8 (digits 1) = Some []) by reflexivity.
  assert (E0 : dist_cells 1 lk 9 = Some [2]).
  { unfold dist_cells. rewrite dwalk_S. change key_root with 1. rewrite L1. cbv beta zeta; cbn [dcells_func snd fst]. change (is_shared 1 11) with true. cbn [orb fst snd]. rewrite K1. cbn [rev app]; rewrite dwalk_S. rewrite L3. cbv beta zeta; cbn [dcells_func snd fst]. change (is_shared 1 8) with true. cbn [orb fst snd]. rewrite K3. cbn [rev app]; rewrite dwalk_S.
    rewrite L2. cbv beta zeta; cbn [dcells_func snd fst]. change (is_shared 1 0) with false. reflexivity. }
  unfold dist_sph. rewrite E0. cbn [dist_targets]. unfold dist_target. rewrite L2. cbv beta zeta; cbn [snd fst]. change key_root with 1.
  rewrite dqueue_S; cbn [dist_level]. unfold dist_cell at 1. rewrite L1. cbn [snd fst existsb]. change (N.to_nat 1) with 1%nat. rewrite sphere_root. cbn [orb]. change (is_empty_node 1 11) with false. cbv iota. rewrite K1. cbn [app orb].
  rewrite dqueue_S; cbn [dist_level]. unfold dist_cell at 1. rewrite L2. cbn [snd fst map]. change (N.to_nat 1) with 1%nat. rewrite within_00. cbn [app].
  unfold dist_cell at 1. rewrite L3. cbn [snd fst existsb]. change (N.to_nat 1) with 1%nat. rewrite culled_3. reflexivity.
Qed.
