(** Property C56: the bucket table behaves as a map. *)
From Verif Require Import Base HashTable_model.
Local Open Scope N_scope.

(** A history of calls; [Clear] is clear(). *)
Inductive hop (V : Type) : Type := Emplace (k : N) (v : V) | Clear.
Arguments Emplace {V}. Arguments Clear {V}.

Definition ht_step {V} (t : htab (V := V)) (o : hop V) : htab :=
  match o with Emplace k v => ht_emplace t k v | Clear => ht_empty end.
Definition ht_run {V} (os : list (hop V)) : htab := fold_left ht_step os ht_empty.

(** Specification: the first value stored under k since the last clear. *)
Fixpoint first_stored {V} (os : list (hop V)) (k : N) (acc : option V) : option V :=
  match os with
  | [] => acc
  | Clear :: r => first_stored r k None
  | Emplace k' v :: r =>
      first_stored r k (match acc with Some x => Some x | None => if k' =? k then Some v else None end)
  end.

Lemma bucket_find_app {V} (b : list (N * V)) k k' v :
  bucket_find (b ++ [(k', v)]) k =
  match bucket_find b k with Some x => Some x | None => if k' =? k then Some v else None end.
Proof.
  induction b as [|[k0 v0] b IH]; cbn; [reflexivity|]. destruct (k0 =? k); [reflexivity|exact IH].
Qed.

Lemma find_emplace {V} (t : htab (V := V)) k k' v :
  ht_find (ht_emplace t k' v) k =
  match ht_find t k with Some x => Some x | None => if k' =? k then Some v else None end.
Proof.
  unfold ht_find, ht_emplace. destruct (N.eqb_spec (ht_hash k) (ht_hash k')) as [E|E].
  - apply bucket_find_app.
  - destruct (N.eqb_spec k' k) as [->|]; [congruence|]. destruct (bucket_find _ k); reflexivity.
Qed.

Theorem C56_hashtable_is_map V (os : list (hop V)) k : ht_find (ht_run os) k = first_stored os k None.
Proof.
  unfold ht_run. change (@None V) with (ht_find (V := V) ht_empty k). generalize (ht_empty (V := V)).
  induction os as [|[k' v|] os IH]; intros t; cbn [fold_left ht_step first_stored]; [reflexivity| |].
  - rewrite IH, find_emplace. reflexivity.
  - rewrite IH. reflexivity.
Qed.

(** Every bucket index is inside the vector of 2^22 buckets, and only keys that agree in the last 22 bits share a bucket. *)
Theorem C56_index k k' : ht_hash k < 4194304 /\ (ht_hash k = ht_hash k' <-> exists a b c, k = a * 4194304 + c /\ k' = b * 4194304 + c /\ c < 4194304).
Proof.
  assert (E : forall x, ht_hash x = x mod 4194304) by (intros x; unfold ht_hash; change (N.shiftl 1 22 - 1) with (N.ones 22); rewrite N.land_ones; reflexivity).
  rewrite !E. split; [apply N.mod_lt; lia|]. split.
  - intros H. exists (k / 4194304), (k' / 4194304), (k mod 4194304). split; [rewrite (N.div_mod k 4194304) at 1 by lia; lia|]. split; [rewrite (N.div_mod k' 4194304) at 1 by lia; lia | apply N.mod_lt; lia].
  - intros (a & b & c & -> & -> & Hc). rewrite !(N.add_comm _ c), !N.mod_add by lia. reflexivity.
Qed.
Example C56_index_example : ht_hash 5 <> ht_hash 6 /\ ht_hash 5 <> ht_hash 4 /\ ht_hash (7 * 4194304 + 4194303) = 4194303.
Proof. repeat split; vm_compute; congruence. Qed.

(** Keys 5 and 2^22+5 share a bucket; the second store under 5 is ignored. *)
Example C56_case :
  let os := [Emplace 5 10; Emplace (2 ^ 22 + 5) 11; Emplace 5 12] in
  ht_hash 5 = ht_hash (2 ^ 22 + 5) /\ ht_find (ht_run os) 5 = Some 10
  /\ ht_find (ht_run os) (2 ^ 22 + 5) = Some 11 /\ ht_find (ht_run os) 6 = None.
Proof. vm_compute. repeat split; reflexivity. Qed.

Print Assumptions C56_hashtable_is_map.
Print Assumptions C56_index.
