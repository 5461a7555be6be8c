(** C61: the sharing of cells between the ranks (Share_model) and the traversal that follows
    (Comms_model) against the tree that one process builds of all particles. *)
From Coq Require Import Sorted.
From Verif Require Import Base Key_model Key_spec Key_proofs HCell_model HCell_props
  BuildTree_model BuildTree_spec BuildTree_lemmas BuildTree_inv BuildTree_turn BuildTree_proofs BuildTree_shape BuildTree_props.
From Verif Require Import Share_model Share_lemmas Share_sums Share_table Share_steps Share_update Share_local Share_rounds Share_final Share_world Share_reach.
From Verif Require Import Comms_model.
From Verif Require Comms_lemmas Comms_inv Comms_steps.
Local Open Scope N_scope.

(** A distribution of particles after the sort of tree_colorer: a power of two of ranks, no
    rank without particles, the keys full depth and increasing over all ranks. *)
Definition spread {Ent} (dim : N) (pss : list (list (N * Ent))) : Prop :=
  dim_ok dim /\ (exists m, length pss = (2 ^ m)%nat) /\ (forall ps, In ps pss -> ps <> []) /\
  StronglySorted N.lt (map fst (concat pss)) /\ Forall (full_key dim) (map fst (concat pss)).
(** the tables of the ranks *)
Definition tables {Ent Sum} (l : list (rank_st Ent Sum)) (r : nat) : rtable (option (Ent + Sum)) :=
  match nth_error l r with Some st => to_rtab (k_tab st) | None => fun _ => None end.

Section Props.
Context {Ent Sum : Type} (dim : N) (f : N -> list Ent -> list Sum -> Sum) (pss : list (list (N * Ent))).
Implicit Types (c : scell Ent Sum).

Lemma spread_ok : spread dim pss -> exists one l, build_all dim f [concat pss] = Some [one] /\ one_ok dim f pss (k_tab one) /\ build_all dim f pss = Some l /\ length l = nr pss /\ (0 < nr pss)%nat /\
  forall r, (r < nr pss)%nat -> exists st, nth_error l r = Some st /\ TI dim f pss (Xall dim pss r) (Xall dim pss r) (fun _ _ => True) (k_tab st).
Proof.
  intros (Hdim & (m & Hm) & Hne & Hsort & Hf). apply full_keys_full in Hf. assert (Hn : (0 < nr pss)%nat) by (unfold nr; rewrite Hm; pose proof (Nat.pow_nonzero 2 m); lia).
  destruct (single_ok dim Hdim f pss Hne Hsort Hf Hn) as (one & E1 & O1). destruct (build_all_ok dim Hdim f pss Hne Hsort Hf m Hm Hn) as (l & El & Ll & Hl). exists one, l. tauto.
Qed.
Lemma nth_rank (l : list (rank_st Ent Sum)) (tabs := fun r => match nth_error l r with Some st => k_tab st | None => fun _ => None end) : length l = nr pss ->
  (forall r, (r < nr pss)%nat -> exists st, nth_error l r = Some st /\ TI dim f pss (Xall dim pss r) (Xall dim pss r) (fun _ _ => True) (k_tab st)) ->
  (forall r, (r < nr pss)%nat -> TI dim f pss (Xall dim pss r) (Xall dim pss r) (fun _ _ => True) (tabs r)).
Proof. intros _ H r Hr. destruct (H r Hr) as (st & E & T). unfold tabs. rewrite E. exact T. Qed.

(** After build_tree with its share rounds: every cell of a rank is a cell of the tree of one
    process, refers to the same entity or summary, and has the same children, or none while
    another rank owns it; children are there; the owner has the cell with all children.  The
    cells above a particle of the rank itself are all there with all children. *)
Theorem C61_share : spread dim pss -> exists one l, build_all dim f [concat pss] = Some [one] /\ build_all dim f pss = Some l /\ length l = length pss /\
  forall r st, nth_error l r = Some st ->
    (forall k c, k_tab st k = Some c -> exists c1, k_tab one k = Some c1 /\ s_set c = s_set c1 /\ s_set c <> None /\
      ((forall d, d < 2 ^ dim -> get_child (s_word c) d = get_child (s_word c1) d) \/ ((forall d, d < 2 ^ dim -> get_child (s_word c) d = false) /\ s_owner c <> r)) /\
      (forall d, d < 2 ^ dim -> get_child (s_word c) d = true -> k_tab st (k * 2 ^ dim + d) <> None) /\
      exists so co, nth_error l (s_owner c) = Some so /\ k_tab so k = Some co /\ forall d, d < 2 ^ dim -> get_child (s_word co) d = get_child (s_word c1) d) /\
    (forall k j c1, In k (map fst (nth r pss [])) -> j <= max_depth dim -> k_tab one (k / 2 ^ (j * dim)) = Some c1 ->
      exists c, k_tab st (k / 2 ^ (j * dim)) = Some c /\ forall d, d < 2 ^ dim -> get_child (s_word c) d = get_child (s_word c1) d).
Proof.
  intros HS. destruct (spread_ok HS) as (one & l & E1 & O1 & El & Ll & Hn & Hl). destruct HS as (Hdim & _ & Hne & Hsort & Hf). apply full_keys_full in Hf. exists one, l. split; [exact E1|]. split; [exact El|]. split; [exact Ll|].
  pose proof (nth_rank l Ll Hl) as HT. intros r st Hst. assert (Hr : (r < nr pss)%nat) by (rewrite <- Ll; apply nth_error_Some; congruence).
  pose (tabs := fun r => match nth_error l r with Some st => k_tab st | None => fun _ => None end). change (forall r, (r < nr pss)%nat -> TI dim f pss (Xall dim pss r) (Xall dim pss r) (fun _ _ => True) (tabs r)) in HT.
  assert (ET : forall k, k_tab st k = tabs r k) by (intros k; unfold tabs; rewrite Hst; reflexivity). split.
  - intros k c Hc. rewrite ET in Hc. destruct (rank_cell dim Hdim f pss Hne Hsort Hf Hn (k_tab one) tabs O1 HT r k c Hr Hc) as (lv & Hlv & HX & He & _).
    destruct (one_cell _ _ _ _ O1 lv k Hlv He) as (c1 & Hc1 & _ & Hs1 & _). exists c1. split; [exact Hc1|].
    destruct (set_ok dim Hdim f pss Hne Hsort Hf Hn (k_tab one) tabs O1 HT r k c Hr Hc) as (S1 & _ & S3). unfold Comms_lemmas.w_dat, tree_of in S1. rewrite Hc1 in S1. split; [exact S1|]. split; [exact S3|].
    assert (CF : forall w, cfull dim (k_tab one) k w -> forall d, d < 2 ^ dim -> get_child w d = get_child (s_word c1) d) by (intros w Hw d Hd; rewrite (Hw d Hd); unfold Comms_lemmas.w_kid, tree_of; rewrite Hc1; reflexivity).
    split; [|split].
    + destruct (shape_ok dim Hdim f pss Hne Hsort Hf Hn (k_tab one) tabs O1 HT r k c Hr Hc) as [X|X]; [left; apply CF, X | right; exact X].
    + intros d Hd Hg. destruct (kids_there dim Hdim f pss Hne Hsort Hf Hn (k_tab one) tabs O1 HT r k c d Hr Hc Hd Hg) as (_ & c' & Hc'). rewrite ET. congruence.
    + destruct (owner_ok dim Hdim f pss Hne Hsort Hf Hn (k_tab one) tabs O1 HT r k c Hr Hc) as (Ho & co & Hco & Hcf). destruct (Hl _ Ho) as (so & Hso & _). exists so, co. split; [exact Hso|]. split; [unfold tabs in Hco; rewrite Hso in Hco; exact Hco | apply CF, Hcf].
  - intros k j c1 Hk Hj Hc1. change (k / 2 ^ (j * dim)) with (up dim j k) in *. destruct (one_sound _ _ _ _ O1 _ c1 Hc1) as (lv & Hlv & He).
    assert (Hh : has dim (ks pss r) j (up dim j k)) by (exists k; split; [exact Hk | reflexivity]). assert (HhK : has dim (K pss) j (up dim j k)) by (exists k; split; [apply (ks_in dim Hdim pss Hne Hsort Hf r k), Hk | reflexivity]).
    assert (El' : lv = j) by (apply (level_unique dim Hdim lv j (up dim j k) Hlv Hj); [apply (cell_ex_level dim Hdim (K pss) (K pss) lv _ Hf Hlv He) | apply (has_level dim Hdim f pss Hne Hsort Hf j _ Hj HhK)]). subst lv.
    assert (HX : Xall dim pss r j (up dim j k)) by (apply (Xall_own dim Hdim f pss Hne Hsort Hf r j _ Hr Hj He Hh)).
    destruct (rank_has dim Hdim f pss Hne Hsort Hf Hn (k_tab one) tabs O1 HT r j _ Hr Hj HX) as (c & Hc). exists c. rewrite ET. split; [exact Hc|]. intros d Hd.
    rewrite (full_if dim Hdim f pss Hne Hsort Hf Hn (k_tab one) tabs O1 HT r j _ c Hr Hj HX Hc (or_introl Hh) d Hd). unfold Comms_lemmas.w_kid, tree_of. rewrite Hc1. reflexivity.
Qed.

(** The traversals that follow, any schedule of requests, replies and DONE messages: *)
Context (one : rank_st Ent Sum) (l : list (rank_st Ent Sum)).
Hypothesis E1 : build_all dim f [concat pss] = Some [one].
Hypothesis El : build_all dim f pss = Some l.
Context (fuel : nat) (dn : nat -> nat -> bool) (al : nat -> bool) (w : nat -> list N).
Notation reach s := (steps dim (length pss) false keeps fuel (g_init (tables l) dn al w) s).

Lemma reach_inv s : spread dim pss -> reach s -> one_ok dim f pss (k_tab one) /\ inv dim (nr pss) (tree_of (k_tab one)) s /\ (0 < nr pss)%nat.
Proof.
  intros HS R. destruct (spread_ok HS) as (one' & l' & E1' & O1 & El' & Ll & Hn & Hl). rewrite E1 in E1'. injection E1' as <-. rewrite El in El'. injection El' as <-. destruct HS as (Hdim & _ & Hne & Hsort & Hf). apply full_keys_full in Hf.
  split; [exact O1|]. split; [|exact Hn]. apply (inv_keeps_steps _ _ _ _ _ _ R). apply Comms_steps.inv_init.
  pose (tabs := fun r => match nth_error l r with Some st => k_tab st | None => fun _ => None end).
  pose proof (start_tables dim Hdim f pss Hne Hsort Hf Hn (k_tab one) tabs O1 (nth_rank l Ll Hl)) as S0. assert (ET : forall r, (r < nr pss)%nat -> tables l r = to_rtab (tabs r)) by (intros r Hr; destruct (Hl r Hr) as (st & Hst & _); unfold tables, tabs; rewrite Hst; reflexivity).
  destruct S0 as [S1 S2]. split; [exact S1|]. intros r Hr. specialize (S2 r Hr). rewrite (ET r Hr). destruct S2 as [[T1 T2 T3 T4] S2]. split; [|exact S2]. split; [|exact T2|exact T3|exact T4].
  intros k c Hc. destruct (T1 k c Hc) as (A1 & A2 & A3 & A4 & A5 & A6). repeat (split; [assumption|]). unfold Comms_inv.complete in *. rewrite (ET _ A5). exact A6.
Qed.
(** every cell of a rank refers to the entity or summary of the tree of one process; a node
    not seen as empty has the children it has there, and they are in the table. *)
Theorem C61_cells s r k (c : rcell (option (Ent + Sum))) : spread dim pss -> reach s -> (r < length pss)%nat -> g_tab s r k = Some c ->
  exists c1, k_tab one k = Some c1 /\ r_data c = s_set c1 /\ r_node c = match s_set c1 with Some (inr _) => true | _ => false end /\
    (r_node c = true -> empty_node dim c = false -> forall d, d < 2 ^ dim -> get_child (r_word c) d = get_child (s_word c1) d /\ (get_child (r_word c) d = true -> g_tab s r (k * 2 ^ dim + d) <> None)).
Proof.
  intros HS R Hr Hc. destruct (reach_inv s HS R) as (O1 & HI & Hn). destruct HS as (Hdim & _ & Hne & Hsort & Hf). apply full_keys_full in Hf.
  apply (state_cell dim Hdim f pss Hne Hsort Hf Hn (k_tab one) O1 s HI r k c Hr Hc).
Qed.
End Props.
