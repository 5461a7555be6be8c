(** Property C01: tree keys behave as paths of child numbers. *)
From Verif Require Import Base Key_model Key_spec Key_proofs.
Local Open Scope N_scope.

(** Appending child [c] below the cell at path [ds] gives the cell at path
    [ds ++ [c]], and the ways of removing or reading it invert the append. *)
Theorem C01_push_pop dim ds c : dim_ok dim -> path_ok dim (ds ++ [c]) ->
  key_push dim (key_of_path dim ds) c = Some (key_of_path dim (ds ++ [c])) /\
  key_pop1 dim (key_of_path dim (ds ++ [c])) = Some (key_of_path dim ds) /\
  key_pop_value dim (key_of_path dim (ds ++ [c])) = Some (c, key_of_path dim ds) /\
  key_last_value dim (key_of_path dim (ds ++ [c])) = c /\
  key_parent dim (key_of_path dim (ds ++ [c])) = key_of_path dim ds.
Proof.
  intros Hd Hp. pose proof Hp as Hp'. apply path_ok_app in Hp'. destruct Hp' as [_ H].
  inversion_clear H as [|? ? Hc _].
  unfold key_parent.
  repeat split; auto using key_push_kop, key_pop1_kop, key_pop_value_kop, key_last_kop, key_shiftr1_kop.
Qed.

(** depth() counts the digits; removing the last |ds2| digits at once gives the
    ancestor; truncate gives the ancestor at the given depth and leaves
    shallower keys alone. *)
Theorem C01_depth_pops_truncate dim ds1 ds2 n : dim_ok dim -> path_ok dim (ds1 ++ ds2) ->
  key_depth dim (key_of_path dim (ds1 ++ ds2)) = Some (N.of_nat (length (ds1 ++ ds2))) /\
  key_popn dim (N.of_nat (length ds2)) (key_of_path dim (ds1 ++ ds2)) = Some (key_of_path dim ds1) /\
  key_truncate dim (N.of_nat n) (key_of_path dim (ds1 ++ ds2))
    = Some (key_of_path dim (firstn n (ds1 ++ ds2))).
Proof. intros; repeat split; auto using key_depth_kop, key_popn_kop, key_truncate_kop. Qed.

(** Different paths have different keys; every word whose leading one stands on
    a digit boundary is the key of a path; keys of equal depth are ordered as
    their paths; full-depth keys lie between min() and max(). *)
Theorem C01_injective dim xs ys : dim_ok dim -> path_ok dim xs -> path_ok dim ys ->
  key_of_path dim xs = key_of_path dim ys -> xs = ys.
Proof. intros Hd [Hx _] [Hy _]. apply kop_inj; auto. unfold dim_ok in Hd; lia. Qed.

Theorem C01_surjective dim (n : nat) k : dim_ok dim -> N.of_nat n <= max_depth dim ->
  2 ^ (dim * N.of_nat n) <= k < 2 * 2 ^ (dim * N.of_nat n) ->
  exists ds, path_ok dim ds /\ length ds = n /\ key_of_path dim ds = k.
Proof.
  intros Hd Hn Hk.
  destruct (kop_surj dim n k) as (ds & L & F & E); auto; [unfold dim_ok in Hd; lia|].
  exists ds. repeat split; auto. rewrite L.
  unfold max_depth, bits_ in Hn. destruct Hd as [->|[->| ->]]; cbn in Hn; lia.
Qed.

Theorem C01_order dim xs ys : dim_ok dim -> path_ok dim xs -> path_ok dim ys ->
  length xs = length ys ->
  (key_of_path dim xs < key_of_path dim ys <-> lex_lt xs ys).
Proof. intros Hd [Hx _] [Hy _] L. apply kop_lt_lex; auto. unfold dim_ok in Hd; lia. Qed.

Theorem C01_min_max dim ds : dim_ok dim -> path_ok dim ds ->
  length ds = N.to_nat (max_depth dim) ->
  key_min dim <= key_of_path dim ds <= key_max dim.
Proof. intros Hd [Hx _]. apply full_key_bounds; auto. Qed.

(** No cell has the null key; the root has the empty path. *)
Theorem C01_null dim ds : dim_ok dim -> path_ok dim ds -> key_of_path dim ds <> key_null /\ key_of_path dim [] = key_root.
Proof.
  intros Hd Hp. split; [|reflexivity]. intros E. destruct ds as [|c ds _] using rev_ind; [discriminate|].
  destruct (C01_push_pop dim ds c Hd Hp) as (_ & P & _). rewrite E in P. unfold key_null in P. destruct Hd as [->|[->| ->]]; vm_compute in P; discriminate.
Qed.

(** Non-vacuity: a 3D path of full depth 21, and a concrete key. *)
Example C01_case_full : dim_ok 3 /\ path_ok 3 (repeat 5 20 ++ [7]).
Proof.
  split; [right; right; reflexivity|]. split.
  - apply Forall_forall. intros x Hx. apply in_app_or in Hx. destruct Hx as [Hx|[<-|[]]].
    + apply repeat_spec in Hx. subst x. reflexivity.
    + reflexivity.
  - reflexivity.
Qed.
Example C01_case_key : key_of_path 3 [1; 7; 4] = 636 /\ key_pop_value 3 636 = Some (4, 79).
Proof. split; reflexivity. Qed.

Print Assumptions C01_push_pop.
Print Assumptions C01_depth_pops_truncate.
Print Assumptions C01_injective.
Print Assumptions C01_surjective.
Print Assumptions C01_order.
Print Assumptions C01_min_max.
Print Assumptions C01_null.
