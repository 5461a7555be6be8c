(** Properties C02, C03, C04 (Morton part) and C63: Morton keys.
    [grid_cell d q] (Morton_qproofs.v) is the specification: the number of the
    cell containing relative position q in a grid of 2^d cells, and [rel] the
    relative position (p - min) / (max - min). *)
From Coq Require Import QArith.
From Verif Require Import Base Key_model Key_spec Key_proofs Morton_model Morton_proofs Morton_qproofs.
Local Open Scope N_scope.

(** A point inside a non-degenerate range. *)
Definition in_range (dim : N) (mn mx p : N -> Q) : Prop :=
  forall j, j < dim -> (mn j < mx j)%Q /\ (mn j <= p j <= mx j)%Q.

(** C02.  Points in the range are always encodable, and two points have the
    same depth-d ancestor key exactly when they lie in the same cell of the
    2^d-per-axis grid. *)
Theorem C02_encodable dim mn mx p : dim_ok dim -> in_range dim mn mx p ->
  exists c, forall j, j < dim -> cell_of dim (mn j) (mx j) (p j) = Some (c j).
Proof.
  intros Hd Hp. exists (fun j => grid_cell (max_depth dim) (rel (mn j) (mx j) (p j))).
  intros j Hj. destruct (Hp j Hj) as [A B]. apply cell_of_grid; assumption.
Qed.

Theorem C02_morton_nested_cells dim d mn mx p1 p2 c1 c2 : dim_ok dim -> d <= max_depth dim ->
  in_range dim mn mx p1 -> in_range dim mn mx p2 ->
  (forall j, j < dim -> cell_of dim (mn j) (mx j) (p1 j) = Some (c1 j)) ->
  (forall j, j < dim -> cell_of dim (mn j) (mx j) (p2 j) = Some (c2 j)) ->
  (key_popn dim (max_depth dim - d) (morton_key dim c1) = key_popn dim (max_depth dim - d) (morton_key dim c2)
   <-> forall j, j < dim -> grid_cell d (rel (mn j) (mx j) (p1 j)) = grid_cell d (rel (mn j) (mx j) (p2 j))).
Proof.
  intros Hd Hdd H1 H2 E1 E2.
  assert (G : forall p c, in_range dim mn mx p ->
     (forall j, j < dim -> cell_of dim (mn j) (mx j) (p j) = Some (c j)) ->
     forall j, j < dim -> c j = grid_cell (max_depth dim) (rel (mn j) (mx j) (p j)) /\ (0 <= rel (mn j) (mx j) (p j))%Q).
  { intros p c H E j Hj. destruct (H j Hj) as [A B]. specialize (E j Hj).
    rewrite cell_of_grid in E by assumption. split; [congruence|]. apply (rel_bounds _ _ _ A B). }
  unfold key_popn.
  assert (Hs : (max_depth dim - d) * dim <? bits_ = true).
  { apply N.ltb_lt. apply N.le_lt_trans with (max_depth dim * dim); [nia|].
    destruct Hd as [->|[->| ->]]; reflexivity. }
  rewrite Hs.
  pose proof (morton_prefix dim c1 c2 (max_depth dim - d) Hd) as M.
  assert (B1 : forall j, j < dim -> c1 j < 2 ^ max_depth dim).
  { intros j Hj. destruct (G p1 c1 H1 E1 j Hj) as [-> _]. apply grid_cell_lt. }
  assert (B2 : forall j, j < dim -> c2 j < 2 ^ max_depth dim).
  { intros j Hj. destruct (G p2 c2 H2 E2 j Hj) as [-> _]. apply grid_cell_lt. }
  specialize (M B1 B2).
  assert (S : forall j, j < dim ->
    (N.shiftr (c1 j) (max_depth dim - d) = N.shiftr (c2 j) (max_depth dim - d)
     <-> grid_cell d (rel (mn j) (mx j) (p1 j)) = grid_cell d (rel (mn j) (mx j) (p2 j)))).
  { intros j Hj. destruct (G p1 c1 H1 E1 j Hj) as [-> R1], (G p2 c2 H2 E2 j Hj) as [-> R2].
    rewrite !grid_cell_shift by assumption. reflexivity. }
  split.
  - intros E j Hj. injection E as E. apply S; auto. apply M; auto.
  - intros E. f_equal. apply M. intros j Hj. apply S; auto.
Qed.

(** C03.  Encode-decode and decode-encode round trips, on cells and on the
    points returned by coordinates(). *)
Theorem C03_decode_encode dim c : dim_ok dim ->
  (forall j, j < dim -> c j < 2 ^ max_depth dim) ->
  exists cs, morton_cell dim (morton_key dim c) = Some cs /\ forall j, j < dim -> cs j = c j.
Proof. exact (morton_cell_key dim c). Qed.

Theorem C03_encode_decode dim k mn mx : dim_ok dim ->
  key_min dim <= k <= key_max dim -> (forall j, j < dim -> (mn j < mx j)%Q) ->
  exists cs, morton_cell dim k = Some cs /\
    (forall j, j < dim -> cell_of dim (mn j) (mx j) (morton_point dim (mn j) (mx j) (cs j)) = Some (cs j)) /\
    morton_key dim cs = k.
Proof.
  intros Hd Hk Hr.
  destruct (morton_key_cell dim k Hd) as (cs & E & B & K).
  { assert (E1 : key_min dim = 2 ^ (max_depth dim * dim)) by (apply key_min_pow; assumption).
    assert (E2 : N.succ (key_max dim) = 2 * 2 ^ (max_depth dim * dim))
      by (destruct Hd as [->|[->| ->]]; vm_compute; reflexivity).
    lia. }
  exists cs. repeat split; auto. intros j Hj. apply cell_of_point; auto.
Qed.

(** C63.  range() of the depth-d ancestor of a point's key is a box that
    contains the point and has 1/2^d of the extent of the range per axis. *)
Theorem C63_range_contains dim d mn mx p c : dim_ok dim -> d <= max_depth dim ->
  in_range dim mn mx p ->
  (forall j, j < dim -> cell_of dim (mn j) (mx j) (p j) = Some (c j)) ->
  exists k box,
    key_popn dim (max_depth dim - d) (morton_key dim c) = Some k /\
    morton_range dim k mn mx = Some box /\
    forall j, j < dim ->
      (fst (box j) <= p j <= snd (box j))%Q /\
      (snd (box j) - fst (box j) == (mx j - mn j) / inject_Z (2 ^ Z.of_N d))%Q.
Proof.
  intros Hd Hdd Hp Hc.
  destruct (range_of_ancestor dim d mn mx p Hd Hdd Hp c Hc) as (box & E & H).
  unfold key_popn.
  assert (Hs : (max_depth dim - d) * dim <? bits_ = true).
  { apply N.ltb_lt. apply N.le_lt_trans with (max_depth dim * dim); [nia|].
    destruct Hd as [->|[->| ->]]; reflexivity. }
  rewrite Hs. eauto.
Qed.

(** C04, Morton part: refuted.  Constructing the key of a cell at a smaller
    depth keeps the leading one at the full-depth position, so the result is
    not the ancestor (and its depth is the maximal depth). *)
Theorem C04_morton_depth_refuted :
  exists (dim d : N) (c : N -> N), dim_ok dim /\ d < max_depth dim /\
    (forall j, j < dim -> c j < 2 ^ max_depth dim) /\
    key_popn dim (max_depth dim - d) (morton_key dim c) <> Some (morton_key_depth dim d c) /\
    key_depth dim (morton_key_depth dim d c) = Some (max_depth dim).
Proof.
  exists 3, 1, (fun _ => 5).
  split; [right; right; reflexivity|].
  split; [vm_compute; reflexivity|].
  split; [intros j _; vm_compute; reflexivity|].
  split; [vm_compute; discriminate|vm_compute; reflexivity].
Qed.

(** Concrete non-trivial case for the hypotheses. *)
Example C02_case : in_range 3 (fun _ => (-1)%Q) (fun _ => 2%Q) (fun j => inject_Z (Z.of_N j))
  /\ cell_of 3 (-1) 2 1 = Some 1398101 /\ cell_of 3 (-1) 2 2 = Some 2097151.
Proof.
  split; [|split; vm_compute; reflexivity].
  intros j Hj. assert (Hj' : j = 0 \/ j = 1 \/ j = 2) by lia.
  destruct Hj' as [->|[->| ->]]; vm_compute; repeat split; discriminate.
Qed.

Print Assumptions C02_encodable.
Print Assumptions C02_morton_nested_cells.
Print Assumptions C03_decode_encode.
Print Assumptions C03_encode_decode.
Print Assumptions C63_range_contains.
Print Assumptions C04_morton_depth_refuted.
