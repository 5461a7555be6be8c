(** C17: the cell an entity arrives in. *)
From Verif Require Import Base Key_model HCell_model BuildTree_model Comms_model.
Local Open Scope N_scope.

(** Whether the entity is known or not: afterwards its cell names the sender's
    owner, a new cell has the data sent and is no node, a cell that was there
    keeps its data; every other cell keeps owner, data and kind. *)
Theorem C17_loaded (D : Type) dim (t t' : @rtable D) e : load_ent dim t e = Some t' ->
  (exists c, t' (ee_key e) = Some c /\ r_owner c = ee_owner e /\
     match t (ee_key e) with
     | None => r_data c = ee_data e /\ r_node c = false
     | Some c0 => r_data c = r_data c0 /\ r_node c = r_node c0
     end) /\
  (forall k, k <> ee_key e -> match t k, t' k with
     | Some c0, Some c => r_owner c = r_owner c0 /\ r_data c = r_data c0 /\ r_node c = r_node c0
     | None, None => True
     | _, _ => False
     end).
Proof.
  unfold load_ent, parent_add. set (kp := key_parent dim (ee_key e)). destruct (t kp) as [p|] eqn:Ep; [|discriminate].
  set (c := match t (ee_key e) with Some _ => _ | None => _ end). unfold rset at 1. destruct (N.eqb_spec kp (ee_key e)) as [E|N].
  - intros H. injection H as <-. split.
    + exists (map_word (fun w => add_child w (key_last_value dim (ee_key e))) c). unfold rset at 1. rewrite <- E, N.eqb_refl. split; [reflexivity|].
      unfold c. rewrite <- E, Ep. cbn. auto.
    + intros k Hk. unfold rset. rewrite E. rewrite (proj2 (N.eqb_neq _ _)) by exact Hk. destruct (t k); auto.
  - rewrite Ep. intros H. injection H as <-. split.
    + exists c. unfold rset. rewrite (proj2 (N.eqb_neq (ee_key e) kp)) by congruence. rewrite N.eqb_refl. split; [reflexivity|].
      unfold c. destruct (t (ee_key e)); cbn; auto.
    + intros k Hk. unfold rset. destruct (N.eqb_spec k kp) as [->|N']; [rewrite Ep; cbn; auto|]. rewrite (proj2 (N.eqb_neq _ _)) by exact Hk. destruct (t k); auto.
Qed.
(** an entity arriving below the root of an otherwise empty tree *)
Example C17_loaded_case : exists t', load_ent 1 (fun k => if k =? 1 then Some (mkr hcell_new true 0%nat 5%nat) else None) (mkee 3%nat 3 7%nat) = Some t' /\
  option_map r_owner (t' 3) = Some 3%nat /\ option_map r_data (t' 3) = Some 7%nat /\ option_map r_data (t' 1) = Some 5%nat.
Proof. eexists. split; [reflexivity|]. repeat split; vm_compute; reflexivity. Qed.
Print Assumptions C17_loaded.
