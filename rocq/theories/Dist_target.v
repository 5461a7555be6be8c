(** The targets of a rank and their neighbour lists. *)
From Coq Require Import Sorted Permutation.
From Verif Require Import Base Key_model Key_spec Key_proofs HCell_model HCell_props
  BuildTree_model BuildTree_spec BuildTree_lemmas BuildTree_inv BuildTree_turn BuildTree_proofs BuildTree_shape.
From Verif Require Import Share_model Share_lemmas Share_sums Share_table Share_steps Share_update Share_local Share_rounds Share_final Share_world Share_reach.
From Verif Require Comms_lemmas Comms_inv Comms_steps Comms_flags.
From Verif Require Import Vec Geometry_model Cofm_model Cofm_spec Comms_model Dist_model Dist_lemmas Dist_near Dist_walk Dist_reach Dist_cover.
Local Open Scope N_scope.

(** particle key [k] lies below the cell [key] *)
Definition below (dim key k : N) : bool := existsb (fun j => k / 2 ^ (N.of_nat j * dim) =? key) (seq 0 (S (N.to_nat (max_depth dim)))).

Set Default Proof Using "All".
Section Target.
Context {Ent : Type} (eb : Ent -> body) (dim : N) (Hdim : dim_ok dim).
Notation n := (N.to_nat dim).
Notation f := (cofm_of eb n).
Context (pss : list (list (N * Ent))).
Notation D := (max_depth dim).
Notation up := (BuildTree_spec.up dim).
Notation full := (BuildTree_lemmas.full dim).
Notation has := (has dim).
Notation internal := (internal dim).
Notation cell_ex := (cell_ex dim).
Notation P := (P pss).
Notation K := (K pss).
Notation ks := (ks pss).
Notation nr := (nr pss).
Notation under := (under dim).
Notation stable := (stable Ent cofm).
Notation gdat := (gdat dim f pss).
Hypothesis Hne : forall ps, In ps pss -> ps <> [].
Hypothesis Hsort : StronglySorted N.lt K.
Hypothesis Hfull : Forall full K.
Hypothesis Hn0 : (0 < nr)%nat.
Hypothesis Hmass : forall x, In x P -> (0 < b_mass (eb (snd x)))%R.
Hypothesis Hrad : forall x, In x P -> (0 <= b_rad (eb (snd x)))%R.
Variables (one : stable).
Hypothesis H1 : one_ok dim f pss one.
Context (s : gstate (option (Ent + cofm))).
Hypothesis HI : inv dim nr (tree_of one) s.
Variable r : nat.
Hypothesis Hr : (r < nr)%nat.
Hypothesis HO : Comms_flags.own dim (tree_of one) (above dim pss) r (g_tab s r).
Notation own := (nth r pss []).
Notation lk := (look_r (g_tab s r)).
Notation V := (V dim pss s r).
Notation args := (fun g => g dim Hdim f pss Hne Hsort Hfull Hn0 one H1 s HI r Hr HO).

Lemma below_up l q : l <= D -> cell_ex K K l q -> filter (fun x => below dim q (fst x)) own = under l q own.
Proof.
  intros Hl He. unfold Share_sums.under. apply filter_ext_in. intros x Hx. destruct (own_P dim Hdim f pss Hne Hsort Hfull Hn0 one H1 s HI r Hr HO x Hx) as (_ & _ & HxK & Hxf).
  destruct (N.eqb_spec (up l (fst x)) q) as [E|E].
  - unfold below. apply existsb_exists. exists (N.to_nat l). split; [apply in_seq; lia|]. rewrite N2Nat.id. apply N.eqb_eq. exact E.
  - destruct (below dim q (fst x)) eqn:Eb; [|reflexivity]. exfalso. apply E. unfold below in Eb. apply existsb_exists in Eb. destruct Eb as (j & Hj & Ej). apply in_seq in Hj. apply N.eqb_eq in Ej. assert (HjD : N.of_nat j <= D) by lia.
    assert (N.of_nat j = l); [|subst l; exact Ej]. apply (level_unique dim Hdim (N.of_nat j) l q HjD Hl); [|apply (cell_ex_level dim Hdim K K l q Hfull Hl He)]. change (up (N.of_nat j) (fst x) = q) in Ej. rewrite <- Ej. apply (up_range dim Hdim); assumption.
Qed.
Definition cell_g (sent : nat) (q : N) (c : N * (Ent + cofm)) : bool * list N :=
  match snd c with
  | inr m => if is_shared dim (fst c) || (sent <? cm_sub m)%nat then (true, []) else (false, [q])
  | inl _ => (false, if is_shared dim (fst c) then [] else [q])
  end.
Definition target (key : N) : Prop := exists l, V l key /\ (forall e, gdat l key = inl e -> has (ks r) l key).
Lemma under_root : under D 1 own = own.
Proof.
  unfold Share_sums.under. assert (G : forall l : list (N * Ent), (forall x, In x l -> up D (fst x) =? 1 = true) -> filter (fun x => up D (fst x) =? 1) l = l) by (induction l as [|a l IH]; intros H; [reflexivity|]; cbn [filter]; rewrite (H a (or_introl eq_refl)), IH; [reflexivity | intros x Hx; apply H; right; exact Hx]).
  apply G. intros x Hx. apply N.eqb_eq. apply (up_root dim Hdim). apply (own_P dim Hdim f pss Hne Hsort Hfull Hn0 one H1 s HI r Hr HO x Hx).
Qed.
Lemma cells_ok : exists n0 C, Forall target C /\ Permutation (flat_map (fun key => filter (fun x => below dim key (fst x)) own) C) own /\ forall fuel, (n0 <= fuel)%nat -> dist_cells dim lk fuel = Some C.
Proof.
  assert (HV : V D 1). { split; [lia|]. split; [left; split; reflexivity|]. destruct (state_root dim Hdim f pss Hne Hsort Hfull Hn0 one H1 s HI r Hr) as (c & Hc). change 1 with key_root. congruence. }
  destruct (walk_cell dim lk own V (V_there dim Hdim f pss Hne Hsort Hfull Hn0 one H1 s HI r Hr HO) (V_node dim Hdim f pss Hne Hsort Hfull Hn0 one H1 s HI r Hr HO)
    (dcells_func dim 128) (cell_g 128) (flat_map (fun key => filter (fun x => below dim key (fst x)) own)) (fun x => x) target) with (m := N.to_nat D) (l := D) (q := 1) as (n0 & C & QC & PC & WC).
  - intros q [w [e|m]] acc; unfold dcells_func, cell_g; cbn [fst snd]; [destruct (is_shared dim w); rewrite ?app_nil_r; reflexivity|]. destruct (is_shared dim w || (128 <? cm_sub m)%nat); cbn [fst snd]; rewrite ?app_nil_r; reflexivity.
  - intros a b. apply flat_map_app.
  - reflexivity.
  - reflexivity.
  - reflexivity.
  - intros a b H. exact H.
  - intros l q w x Hv E. pose proof Hv as (Hl & He & _). destruct (V_look dim Hdim f pss Hne Hsort Hfull Hn0 one H1 s HI r Hr HO l q Hv) as (w' & E'). rewrite E in E'. injection E' as <- Eg. destruct x as [e|m]; unfold cell_g; cbn [fst snd].
    + destruct (V_leaf dim Hdim f pss Hne Hsort Hfull Hn0 one H1 s HI r Hr HO l q w e Hv E) as (L1 & _ & L3). destruct (is_shared dim w) eqn:Es; cbn [fst snd flat_map].
      * split; [constructor|]. right. split; [reflexivity|]. rewrite (L3 eq_refl). constructor.
      * split; [constructor; [|constructor]; exists l; split; [exact Hv|]; intros _ _; apply L1; reflexivity|]. right. split; [reflexivity|]. rewrite app_nil_r, (below_up l q Hl He). reflexivity.
    + destruct (is_shared dim w || (128 <? cm_sub m)%nat); cbn [fst snd flat_map]; [split; [constructor | left; exists m; tauto]|]. split; [constructor; [|constructor]; exists l; split; [exact Hv|]; congruence|]. right. split; [reflexivity|]. rewrite app_nil_r, (below_up l q Hl He). reflexivity.
  - symmetry. apply N2Nat.id.
  - exact HV.
  - exists n0, C. split; [exact QC|]. split; [rewrite PC, under_root; reflexivity|]. intros fuel Hf. unfold dist_cells. change key_root with 1. replace fuel with (n0 + (fuel - n0))%nat by lia. rewrite WC. destruct (fuel - n0)%nat; reflexivity.
Qed.
Definition group_g (_ : N) (c : N * (Ent + cofm)) : bool * list Ent :=
  match snd c with inr _ => (true, []) | inl e => (false, if is_shared dim (fst c) then [] else [e]) end.
Lemma group_ok l q : V l q -> exists n0 L, Permutation L (map snd (under l q own)) /\ forall fuel, (n0 <= fuel)%nat -> dwalk dim lk fuel (dgroup_func dim) [q] [] = Some L.
Proof.
  intros HV. destruct (walk_cell dim lk own V (V_there dim Hdim f pss Hne Hsort Hfull Hn0 one H1 s HI r Hr HO) (V_node dim Hdim f pss Hne Hsort Hfull Hn0 one H1 s HI r Hr HO)
    (dgroup_func dim) group_g (fun x => x) (map snd) (fun _ => True)) with (m := N.to_nat l) (l := l) (q := q) as (n0 & C & _ & PC & WC).
  - intros q' [w [e|m]] acc; unfold dgroup_func, group_g; cbn [fst snd]; [destruct (is_shared dim w)|]; rewrite ?app_nil_r; reflexivity.
  - reflexivity.
  - intros a b. apply map_app.
  - reflexivity.
  - reflexivity.
  - intros a b. apply Permutation_map.
  - intros l' q' w x Hv E. split; [apply Forall_forall; tauto|]. destruct x as [e|m]; unfold group_g; cbn [fst snd]; [|left; exists m; tauto]. right. split; [reflexivity|].
    destruct (V_leaf dim Hdim f pss Hne Hsort Hfull Hn0 one H1 s HI r Hr HO l' q' w e Hv E) as (_ & -> & _). reflexivity.
  - symmetry. apply N2Nat.id.
  - exact HV.
  - exists n0, C. split; [exact PC|]. intros fuel Hf. replace fuel with (n0 + (fuel - n0))%nat by lia. rewrite WC. destruct (fuel - n0)%nat; reflexivity.
Qed.
(** the lists of one attempt *)
Definition out_ok (key : N) (out : list (Ent * list Ent)) : Prop :=
  Permutation (map fst out) (map snd (filter (fun x => below dim key (fst x)) own)) /\
  forall a nb, In (a, nb) out -> exists rest, Permutation (nb ++ rest) (map snd P) /\ (forall e, In e nb -> near_max eb dim a e) /\ (forall e, In e rest -> ~ near_mean eb dim a e).
Lemma search_any cur nbs fuel : (66 <= fuel)%nat -> cur_ok eb dim cur nbs -> exists res, dist_queue eb dim lk fuel cur [key_root] nbs = Some res /\
  ((forall k w m, lk k = Some (w, inr m) -> is_empty_node dim w = false) -> res <> None) /\ forall out, res = Some out -> ext eb dim (map snd P) [] nbs out.
Proof.
  intros Hf Hc. destruct (search_sim dim Hdim f pss Hne Hsort Hfull Hn0 one H1 s HI r Hr eb cur nbs) as (res & E & S & Z). exists res. split; [apply (dqueue_more dim lk eb cur 66 [key_root] nbs res E fuel Hf)|]. split; [exact Z|].
  intros out Ho. specialize (S out Ho). destruct (dist_search_ok eb dim Hdim pss Hne Hsort Hfull Hn0 Hmass Hrad one H1 cur nbs Hc) as (nbs' & E' & X). rewrite S in E'. injection E' as <-. exact X.
Qed.
Lemma ext_out key L out : Permutation L (map snd (filter (fun x => below dim key (fst x)) own)) -> ext eb dim (map snd P) [] (map (fun e => (e, [])) L) out -> out_ok key out.
Proof.
  intros HL X. split.
  - rewrite (ext_fst eb dim Hdim pss Hne Hsort Hfull Hn0 Hmass Hrad _ _ _ _ X), map_map. cbn [fst]. rewrite map_id. exact HL.
  - intros a nb Hin. unfold ext in X. assert (G : forall L out, Forall2 (fun x y : Ent * list Ent => fst y = fst x /\ exists l rest, snd y = snd x ++ l /\ Permutation (l ++ rest ++ []) (map snd P) /\ (forall e, In e l -> near_max eb dim (fst x) e) /\ (forall e, In e rest -> ~ near_mean eb dim (fst x) e)) (map (fun e => (e, [])) L) out -> In (a, nb) out ->
      exists rest, Permutation (nb ++ rest) (map snd P) /\ (forall e, In e nb -> near_max eb dim a e) /\ (forall e, In e rest -> ~ near_mean eb dim a e)).
    { clear. induction L as [|b L IH]; intros out X Hin; cbn [map] in X; inversion X as [|x y u v HXY HF E1 E2]; subst; [destruct Hin|]. destruct Hin as [->|Hin]; [|apply (IH v HF Hin)]. cbn [fst snd] in HXY. destruct HXY as (-> & l & rest & -> & A1 & A2 & A3). exists rest. rewrite app_nil_r in A1. tauto. }
    apply (G L out X Hin).
Qed.
Lemma target_ok key : target key -> exists n0, forall fuel, (n0 <= fuel)%nat -> exists res, dist_target eb dim lk fuel key = Some res /\
  ((forall k w m, lk k = Some (w, inr m) -> is_empty_node dim w = false) -> res <> None) /\ forall out, res = Some out -> out_ok key out.
Proof.
  intros (l & Hv & Hleaf). pose proof Hv as (Hl & He & _). destruct (V_look dim Hdim f pss Hne Hsort Hfull Hn0 one H1 s HI r Hr HO l key Hv) as (w & E). destruct (gdat l key) as [e|m] eqn:Eg.
  - specialize (Hleaf e eq_refl). exists 66%nat. intros fuel Hf. destruct (V_leaf dim Hdim f pss Hne Hsort Hfull Hn0 one H1 s HI r Hr HO l key w e Hv E) as (_ & L2 & L3).
    assert (Hne' : under l key own <> []). { destruct Hleaf as (k & Hk & Ek). unfold Share_lemmas.ks in Hk. apply in_map_iff in Hk. destruct Hk as (y & <- & Hy). intros X. assert (Y : In y (under l key own)) by (apply (under_own dim Hdim f pss Hne Hsort Hfull Hn0 one H1 s HI r Hr HO); tauto). rewrite X in Y. destruct Y. }
    destruct (is_shared dim w); [destruct (Hne' (L3 eq_refl))|]. assert (He' : exists x, In x P /\ snd x = e).
    { assert (Y : In e (map snd (under l key own))) by (rewrite L2; left; reflexivity). apply in_map_iff in Y. destruct Y as (x & Ex & Hx). exists x. apply (under_own dim Hdim f pss Hne Hsort Hfull Hn0 one H1 s HI r Hr HO) in Hx. split; [apply (own_P dim Hdim f pss Hne Hsort Hfull Hn0 one H1 s HI r Hr HO x), Hx | exact Ex]. }
    destruct (search_any None [(e, [])] fuel Hf) as (res & Er & Z & X).
    { split; [|exact I]. intros x [<-|[]]. cbn [fst]. destruct He' as (x & Hx & <-). apply Hrad, Hx. }
    exists res. unfold dist_target. rewrite E. cbn [snd]. split; [exact Er|]. split; [exact Z|]. intros out Ho. apply (ext_out key [e] out); [|apply (X out Ho)]. rewrite (below_up l key Hl He), L2. reflexivity.
  - destruct (group_ok l key Hv) as (n0 & L & PL & WL). exists (Nat.max n0 66). intros fuel Hf. assert (HinP : forall e, In e L -> exists x, In x P /\ snd x = e /\ up l (fst x) = key).
    { intros e He'. apply (Permutation_in _ PL) in He'. apply in_map_iff in He'. destruct He' as (x & Ex & Hx). apply (under_own dim Hdim f pss Hne Hsort Hfull Hn0 one H1 s HI r Hr HO) in Hx. exists x. split; [apply (own_P dim Hdim f pss Hne Hsort Hfull Hn0 one H1 s HI r Hr HO x), Hx | tauto]. }
    destruct (search_any (Some m) (map (fun e => (e, [])) L) fuel ltac:(lia)) as (res & Er & Z & X).
    { split.
      - intros x Hx. apply in_map_iff in Hx. destruct Hx as (e & <- & Hx). cbn [fst]. destruct (HinP e Hx) as (y & Hy & <- & _). apply Hrad, Hy.
      - exists (lv1 dim pss l key). split.
        + pose proof (ex_has_K dim Hdim f pss Hne Hsort Hfull l key Hn0 Hl He) as HK. apply (gsummary eb dim Hdim pss Hne Hsort Hfull Hn0 Hmass Hrad (N.to_nat l)); [symmetry; apply N2Nat.id | exact Hl | exact HK | | exact Eg]. apply (gdat_kind dim Hdim f pss Hne Hsort Hfull l key Hl HK). exists m. exact Eg.
        + intros x Hx. apply in_map_iff in Hx. destruct Hx as (e & <- & Hx). cbn [fst]. destruct (HinP e Hx) as (y & Hy & <- & Ey). unfold lv1. apply in_map. apply (under_in dim Hdim f pss Hne Hsort Hfull). tauto. }
    exists res. unfold dist_target. rewrite E. cbn [snd]. rewrite (WL fuel ltac:(lia)). split; [exact Er|]. split; [exact Z|]. intros out Ho. apply (ext_out key L out); [|apply (X out Ho)]. rewrite (below_up l key Hl He). exact PL.
Qed.
End Target.
