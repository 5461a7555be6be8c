(** Rounding facts and the cell of a coordinate in double precision. *)
From Coq Require Import Reals Lra.
From Flocq Require Import Core Relative Plus_error.
From Verif Require Import Base Key_model BuildTree_model Morton_model Morton_qproofs Range_model FCell_model.
Local Open Scope R_scope.

Global Instance prec53 : Prec_gt_0 53. Proof. reflexivity. Qed.
Global Instance dexp_valid : Valid_exp dexp. Proof. apply FLT_exp_valid. exact prec53. Qed.
Global Instance dexp_mono : Monotone_exp dexp. Proof. apply FLT_exp_monotone. Qed.

Lemma rnd_le x y : x <= y -> rnd x <= rnd y.
Proof. apply round_le; [exact dexp_valid|apply valid_rnd_N]. Qed.
Lemma rnd_id x : generic_format radix2 dexp x -> rnd x = x.
Proof. apply round_generic. apply valid_rnd_N. Qed.
Lemma rnd_fmt x : generic_format radix2 dexp (rnd x).
Proof. apply generic_format_round; [exact dexp_valid|apply valid_rnd_N]. Qed.
Lemma rnd_0 : rnd 0 = 0.
Proof. apply rnd_id, generic_format_0. Qed.
Lemma rnd_pos x : 0 <= x -> 0 <= rnd x.
Proof. intros H. rewrite <- rnd_0. apply rnd_le. exact H. Qed.
Lemma rnd_opp x : rnd (- x) = - rnd x.
Proof. apply round_NE_opp. Qed.
Lemma fmt_bpow e : (-1074 <= e)%Z -> generic_format radix2 dexp (bpow radix2 e).
Proof. intros H. apply generic_format_bpow. unfold dexp, FLT_exp. lia. Qed.
Lemma fmt_1 : generic_format radix2 dexp 1.
Proof. change 1 with (bpow radix2 0). apply fmt_bpow. lia. Qed.
Lemma rnd_abs_le x e : (-1074 <= e)%Z -> Rabs x <= bpow radix2 e -> Rabs (rnd x) <= bpow radix2 e.
Proof.
  intros He H. pose proof (rnd_id _ (fmt_bpow e He)) as Ep. apply Rabs_le_inv in H. apply Rabs_le. split.
  - rewrite <- Ep at 1. rewrite <- rnd_opp. apply rnd_le. lra.
  - rewrite <- Ep. apply rnd_le. lra.
Qed.
Lemma fl_some x e : (-1074 <= e < 1024)%Z -> Rabs x <= bpow radix2 e -> fl x = Some (rnd x).
Proof.
  intros He H. unfold fl. destruct (Rlt_dec (Rabs (rnd x)) dmax_bound) as [|N]; [reflexivity|]. exfalso. apply N.
  eapply Rle_lt_trans; [apply (rnd_abs_le x e); [lia|exact H]|]. apply bpow_lt. lia.
Qed.
Lemma fl_inv x y : fl x = Some y -> y = rnd x /\ is_double y.
Proof.
  unfold fl. destruct (Rlt_dec (Rabs (rnd x)) dmax_bound); [|discriminate]. intros E. injection E as <-.
  split; [reflexivity|]. split; [apply rnd_fmt|assumption].
Qed.
(** the difference of two different doubles is not rounded to zero *)
Lemma rnd_minus_pos a b : is_double a -> is_double b -> b < a -> 0 < rnd (a - b).
Proof.
  intros [Ha _] [Hb _] H. pose proof (rnd_pos (a - b) ltac:(lra)) as P.
  assert (Hn : rnd (a + - b) <> 0).
  { apply (round_plus_neq_0 radix2 dexp ZnearestE); [exact Ha|apply generic_format_opp; exact Hb|lra]. }
  replace (a + - b) with (a - b) in Hn by ring. lra.
Qed.
Lemma fmt_scale x e : (0 <= e)%Z -> generic_format radix2 dexp x -> generic_format radix2 dexp (x * bpow radix2 e).
Proof.
  intros He Hx. unfold dexp in *. destruct (Req_dec x 0) as [->|Nx]; [rewrite Rmult_0_l; apply generic_format_0|].
  apply FLT_format_generic in Hx; [|exact prec53]. destruct Hx as [f Ef Hm Hx].
  apply generic_format_FLT. exists (Float radix2 (Fnum f) (Fexp f + e)); [|exact Hm|cbn [Fexp]; lia].
  rewrite Ef. unfold F2R. cbn [Fnum Fexp]. rewrite bpow_plus. ring.
Qed.

Definition depthZ (dim : N) : Z := Z.of_N (max_depth dim).
Lemma depth_bounds dim : dim_ok dim -> (21 <= depthZ dim <= 63)%Z.
Proof. intros [->|[->| ->]]; vm_compute; split; discriminate. Qed.
Lemma max_val_Z dim : dim_ok dim -> Z.of_N (max_val dim) = (2 ^ depthZ dim - 1)%Z.
Proof. intros [->|[->| ->]]; vm_compute; reflexivity. Qed.
Lemma max_val_R dim : dim_ok dim -> IZR (Z.of_N (max_val dim)) = bpow radix2 (depthZ dim) - 1.
Proof.
  intros H. rewrite (max_val_Z dim H), minus_IZR. pose proof (depth_bounds dim H).
  rewrite <- (IZR_Zpower radix2) by lia. reflexivity.
Qed.

(** the quotient that is scaled to a cell number *)
Definition quot (mn mx p : R) : R := rnd (rnd (p - mn) / rnd (mx - mn)).
Lemma quot_bounds mn mx p : is_double mn -> is_double mx -> mn <= p <= mx -> mn < mx -> 0 <= quot mn mx p <= 1.
Proof.
  intros Hn Hx Hp H. pose proof (rnd_minus_pos mx mn Hx Hn H) as P. unfold quot.
  assert (Q : 0 <= rnd (p - mn) / rnd (mx - mn) <= 1).
  { pose proof (rnd_pos (p - mn) ltac:(lra)). pose proof (rnd_le (p - mn) (mx - mn) ltac:(lra)). split.
    - apply Rmult_le_pos; [assumption|]. left. apply Rinv_0_lt_compat. exact P.
    - apply (Rmult_le_reg_r (rnd (mx - mn))); [exact P|]. unfold Rdiv. rewrite Rmult_assoc, Rinv_l by lra. lra. }
  split; [apply rnd_pos; tauto|]. rewrite <- (rnd_id 1 fmt_1). apply rnd_le. tauto.
Qed.
Lemma cell_fl_eq dim mn mx p : dim_ok dim -> is_double mn -> is_double mx -> mn < mx -> mn <= p <= mx -> mx - mn <= bpow radix2 1023 ->
  cell_fl dim mn mx p = Some (N.min (max_val dim) (Z.to_N (Zfloor (quot mn mx p * bpow radix2 (depthZ dim))))).
Proof.
  intros Hd Hn Hx H Hp Ho. pose proof (depth_bounds dim Hd) as D. pose proof (rnd_minus_pos mx mn Hx Hn H) as P.
  pose proof (quot_bounds mn mx p Hn Hx Hp H) as Q. unfold cell_fl.
  rewrite (fl_some (mx - mn) 1023) by (try lia; rewrite Rabs_pos_eq; lra).
  destruct (Req_EM_T (rnd (mx - mn)) 0) as [E|_]; [lra|].
  rewrite (fl_some (p - mn) 1023) by (try lia; rewrite Rabs_pos_eq; lra).
  assert (E1 : fl (rnd (p - mn) / rnd (mx - mn)) = Some (quot mn mx p)).
  { apply (fl_some _ 0); [lia|]. cbn [bpow].
    pose proof (rnd_pos (p - mn) ltac:(lra)). pose proof (rnd_le (p - mn) (mx - mn) ltac:(lra)).
    rewrite Rabs_pos_eq.
    - apply (Rmult_le_reg_r (rnd (mx - mn))); [exact P|]. unfold Rdiv. rewrite Rmult_assoc, Rinv_l by lra. lra.
    - apply Rmult_le_pos; [assumption|]. left. apply Rinv_0_lt_compat. exact P. }
  rewrite E1. fold (depthZ dim). set (x := quot mn mx p * bpow radix2 (depthZ dim)).
  pose proof (bpow_gt_0 radix2 (depthZ dim)) as B.
  assert (X : 0 <= x <= bpow radix2 (depthZ dim)) by (unfold x; nra).
  rewrite (fl_some x (depthZ dim)) by (try lia; rewrite Rabs_pos_eq; lra).
  rewrite (rnd_id x) by (apply fmt_scale; [lia|apply rnd_fmt]).
  destruct (Rle_dec x (-1)); [lra|]. pose proof (bpow_lt radix2 (depthZ dim) 64 ltac:(lia)).
  destruct (Rle_dec (bpow radix2 64) x); [lra|]. rewrite Ztrunc_floor by lra. reflexivity.
Qed.
Lemma min_floor_le dim x : 0 <= x -> IZR (Z.of_N (N.min (max_val dim) (Z.to_N (Zfloor x)))) <= x.
Proof.
  intros H. pose proof (Zfloor_lub 0 x H) as F0. apply Rle_trans with (IZR (Zfloor x)); [|apply Zfloor_lb]. apply IZR_le. lia.
Qed.
Lemma min_floor_gt dim x : dim_ok dim -> 0 <= x <= bpow radix2 (depthZ dim) -> x <= IZR (Z.of_N (N.min (max_val dim) (Z.to_N (Zfloor x)))) + 1.
Proof.
  intros Hd H. pose proof (Zfloor_lub 0 x (proj1 H)) as F0. pose proof (Zfloor_ub x) as U.
  destruct (N.min_spec (max_val dim) (Z.to_N (Zfloor x))) as [[_ ->]|[_ ->]].
  - rewrite max_val_R by assumption. lra.
  - rewrite Z2N.id by assumption. lra.
Qed.

(** the relative errors *)
Definition u53 : R := bpow radix2 (-53).
Lemma u_ro53 : u_ro radix2 53 = u53.
Proof.
  unfold u_ro, u53. replace (- (53) + 1)%Z with (-53 + 1)%Z by reflexivity. rewrite bpow_plus.
  replace (bpow radix2 1) with 2 by reflexivity. field.
Qed.
Lemma u53_pos : 0 < u53. Proof. apply bpow_gt_0. Qed.
Lemma u53_small : u53 <= / 1000000.
Proof. unfold u53. replace (bpow radix2 (-53)) with (/ 9007199254740992); [apply Rinv_le; lra|]. vm_compute. reflexivity. Qed.
Lemma ro_le e : Rabs e <= u_ro radix2 53 / (1 + u_ro radix2 53) -> Rabs e <= u53.
Proof.
  rewrite u_ro53. intros H. pose proof u53_pos. eapply Rle_trans; [exact H|].
  apply (Rmult_le_reg_r (1 + u53)); [lra|]. unfold Rdiv. rewrite Rmult_assoc, Rinv_l by lra. nra.
Qed.
Lemma rnd_minus_rel a b : is_double a -> is_double b -> exists e, Rabs e <= u53 /\ rnd (a - b) = (a - b) * (1 + e).
Proof.
  intros [Ha _] [Hb _]. destruct (FLT_plus_error_N_ex radix2 (-1074) 53 (fun x => negb (Z.even x)) a (- b)) as (e & He & E).
  - exact Ha.
  - apply generic_format_opp. exact Hb.
  - exists e. split; [apply ro_le; exact He|]. unfold rnd, dexp, Rminus. exact E.
Qed.
Lemma rnd_rel x : exists e t, Rabs e <= u53 /\ Rabs t <= / 2 * bpow radix2 (-1074) /\ rnd x = x * (1 + e) + t.
Proof.
  destruct (relative_error_N_FLT'_ex radix2 (-1074) 53 eq_refl (fun x => negb (Z.even x)) x) as (e & t & He & Ht & _ & E).
  exists e, t. split; [apply ro_le; exact He|]. split; [exact Ht|]. exact E.
Qed.
