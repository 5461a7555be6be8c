(** The tree construction: the whole loop, and the shape of its result. *)
From Coq Require Import Sorted.
From Verif Require Import Base Key_model Key_spec Key_proofs HCell_model HCell_props
  BuildTree_model BuildTree_spec BuildTree_lemmas BuildTree_inv BuildTree_turn.
Local Open Scope N_scope.

Section Loop.
Variable dim : N.
Hypothesis Hdim : dim_ok dim.
Variable Sm : Type.
Variable fcc : N -> list nat -> list Sm -> Sm.
Variable ks : list N.
Variables lo hi : option N.

Notation D := (max_depth dim).
Notation B := (2 ^ dim).
Notation up := (up dim).
Notation full := (full dim).
Notation state := (state Sm).
Notation has := (has dim).
Notation many := (many dim).
Notation internal := (internal dim).
Notation cell_ex := (cell_ex dim).
Notation lo_free := (lo_free dim lo).
Notation closed := (closed dim lo).
Notation Inv := (Inv dim Sm fcc ks).

Definition optl (o : option N) : list N := match o with Some x => [x] | None => [] end.

Hypothesis Hsort : StronglySorted N.lt (optl lo ++ ks ++ optl hi).
Hypothesis Hfull : Forall full (optl lo ++ ks ++ optl hi).

Variables (iam0 iamlast : bool) (lobound hibound : N).
Hypothesis Hlo : (iam0 = true /\ lo = None) \/ (iam0 = false /\ lo = Some lobound).
Hypothesis Hhi : (iamlast = true /\ hi = None) \/ (iamlast = false /\ hi = Some hibound).

Lemma lcp l k : full l -> full k -> l <> k ->
  exists m, 1 <= m <= D /\ (forall r, r < m -> up r l <> up r k) /\ (forall r, m <= r -> up r l = up r k).
Proof using Hdim. clear -Hdim.
  intros Fl Fk Hne.
  assert (G : forall n, up (N.of_nat n) l = up (N.of_nat n) k ->
    exists m, m <= N.of_nat n /\ up m l = up m k /\ forall r, r < m -> up r l <> up r k).
  { induction n as [|n IH]; intros E.
    - exists 0. split; [lia|]. split; [exact E|]. intros; lia.
    - destruct (N.eq_dec (up (N.of_nat n) l) (up (N.of_nat n) k)) as [E'|E'].
      + destruct (IH E') as (m & A & A' & A''). exists m. split; [lia|auto].
      + exists (N.of_nat (S n)). split; [lia|]. split; [exact E|]. intros r Hr Er. apply E'.
        apply (up_eq_mono dim Hdim r); [lia|assumption]. }
  destruct (G (N.to_nat D)) as (m & A1 & A2 & A3).
  { rewrite N2Nat.id, !(up_root dim Hdim) by assumption. reflexivity. }
  exists m. split; [|split; [exact A3|]].
  - split; [|lia]. destruct (N.eq_dec m 0) as [->|]; [|lia]. exfalso. apply Hne.
    rewrite <- (up_0 dim l), <- (up_0 dim k). assumption.
  - intros r Hr. apply (up_eq_mono dim Hdim m); assumption.
Qed.

Definition Kof (L : list N) : list N := optl lo ++ L.

Definition Loop (ls : loopst Sm) (L : list N) : Prop :=
  let cd := ls_cd _ ls in let l := ls_lastekey _ ls in
  Inv (ls_st _ ls) (Kof L) L (closed l cd) /\
  ((L = [] /\ cd = D /\ ls_lastnkey _ ls = 1 /\ l = (if iam0 then 0 else lobound)) \/
   (exists L', L = L' ++ [l]) /\ cd < D /\ ls_lastnkey _ ls = up cd l /\
     ~ internal (Kof L) cd (up cd l) /\ internal (Kof L) (cd + 1) (up (cd + 1) l)).

Lemma sorted_app_lt (l1 l2 : list N) x y : StronglySorted N.lt (l1 ++ l2) -> In x l1 -> In y l2 -> x < y.
Proof using. clear.
  induction l1 as [|a l1 IH]; cbn; intros H Hx Hy; [destruct Hx|]. inversion H; subst.
  destruct Hx as [->|Hx]; [|auto]. rewrite Forall_forall in H3. apply H3, in_or_app. auto.
Qed.

Lemma sorted_app_r (l1 l2 : list N) : StronglySorted N.lt (l1 ++ l2) -> StronglySorted N.lt l2.
Proof using. clear. induction l1; cbn; intros H; [assumption|]. inversion H; auto. Qed.

Lemma sorted_app_l (l1 l2 : list N) : StronglySorted N.lt (l1 ++ l2) -> StronglySorted N.lt l1.
Proof using. clear.
  induction l1; cbn; intros H; [constructor|]. inversion H; subst. constructor; auto.
  apply Forall_app in H3. tauto.
Qed.

Lemma sorted_nodup (l : list N) : StronglySorted N.lt l -> NoDup l.
Proof using. clear.
  induction l; intros H; [constructor|]. inversion H; subst. constructor; auto.
  intros Hin. rewrite Forall_forall in H3. apply H3 in Hin. lia.
Qed.

Lemma Hnd : NoDup ks.
Proof. apply sorted_nodup. apply sorted_app_r in Hsort. apply sorted_app_l in Hsort. assumption. Qed.

Lemma turn_ok ls L rest k newent :
  Loop ls L -> ks = L ++ rest ->
  (newent = true /\ (exists r, rest = k :: r) \/ newent = false /\ rest = [] /\ hi = Some k /\ L <> []) ->
  exists ls', turn Sm fcc dim iam0 iamlast lobound hibound ls (length L) newent k = Some ls' /\
    Inv (ls_st _ ls') (Kof L ++ [k]) (L ++ if newent then [k] else []) (closed k (ls_cd _ ls')) /\
    ls_lastekey _ ls' = k /\ ls_cd _ ls' < D /\ ls_lastnkey _ ls' = up (ls_cd _ ls') k /\
    ~ internal (Kof L ++ [k]) (ls_cd _ ls') (up (ls_cd _ ls') k) /\
    internal (Kof L ++ [k]) (ls_cd _ ls' + 1) (up (ls_cd _ ls' + 1) k) /\
    (forall r, r <= ls_cd _ ls' -> ~ has L r (up r k)) /\
    ls_maxd _ ls' = N.max (ls_maxd _ ls) (ls_cd _ ls') /\ (Kof L = [] -> ls_cd _ ls' = D - 1).
Proof.
  intros [HI Hst] Hks Hcase. destruct ls as [st cd l ln mx]. cbn [ls_st ls_cd ls_lastekey ls_lastnkey] in *.
  set (K := Kof L) in *.
  assert (HKeq : forall x, In x K <-> lo = Some x \/ In x L).
  { intros x. unfold K, Kof, optl. rewrite in_app_iff. destruct lo as [y|]; cbn.
    - split; [intros [[->|[]]|]; auto|intros [E|]; auto; injection E as ->; auto].
    - split; [intros [[]|]; auto|intros [E|]; [discriminate|auto]]. }
  assert (Hall : exists R, optl lo ++ ks ++ optl hi = K ++ k :: R).
  { unfold K, Kof. rewrite Hks. destruct Hcase as [(_ & r & ->)|(_ & -> & -> & _)].
    - exists (r ++ optl hi). rewrite <- !app_assoc. reflexivity.
    - exists []. rewrite app_nil_r, <- app_assoc. reflexivity. }
  destruct Hall as [R HR].
  assert (HfK : forall x, In x K -> full x).
  { intros x Hx. rewrite Forall_forall in Hfull. apply Hfull. rewrite HR. apply in_or_app. auto. }
  assert (Hk : full k).
  { rewrite Forall_forall in Hfull. apply Hfull. rewrite HR. apply in_or_app. right. left. reflexivity. }
  assert (HltK : forall x, In x K -> x < k).
  { intros x Hx. rewrite HR in Hsort. eapply sorted_app_lt; [exact Hsort|exact Hx|left; reflexivity]. }
  assert (HloL : forall x y, lo = Some x -> In y L -> x < y).
  { intros x y Ex Hy. rewrite HR in Hsort. apply sorted_app_l in Hsort. unfold K, Kof in Hsort.
    rewrite Ex in Hsort. eapply sorted_app_lt; [exact Hsort|left; reflexivity|assumption]. }
  assert (Hrest : forall x, In x rest -> k <= x).
  { intros x Hx. destruct Hcase as [(_ & r & ->)|(_ & -> & _)]; [|destruct Hx].
    destruct Hx as [->|Hx]; [lia|]. rewrite Hks in Hsort. apply sorted_app_r in Hsort.
    apply sorted_app_l, sorted_app_r in Hsort. inversion Hsort; subst.
    rewrite Forall_forall in H2. pose proof (H2 x Hx). lia. }
  assert (Hhk : iamlast = false -> k <= hibound).
  { intros El. destruct Hhi as [[E _]|[_ E]]; [congruence|].
    destruct Hcase as [(_ & r & Er)|(_ & _ & E' & _)]; [|rewrite E in E'; injection E' as <-; lia].
    assert (k < hibound); [|lia]. apply sorted_app_r in Hsort.
    eapply (sorted_app_lt ks); [exact Hsort| |rewrite E; left; reflexivity].
    rewrite Hks, Er. apply in_or_app. right. left. reflexivity. }
  (* the level where the last key and the new one part *)
  assert (Hm : exists m, 1 <= m <= D /\ (forall r, r < m -> up r l <> up r k) /\
    (In l K -> forall r, m <= r -> up r l = up r k) /\
    ((K = [] /\ m = D) \/ (In l K /\ forall x, In x K -> x <= l))).
  { assert (Hin : K = [] /\ l = 0 \/ In l K /\ forall x, In x K -> x <= l).
    { destruct Hst as [(EL & _ & _ & El)|([L' EL] & _)].
      - unfold K, Kof. rewrite EL, app_nil_r. destruct Hlo as [[E1 E2]|[E1 E2]]; rewrite E1 in El; rewrite E2; cbn.
        + left. auto.
        + right. split; [left; auto|]. intros x [<-|[]]. lia.
      - right. split; [apply HKeq; right; rewrite EL; apply in_or_app; right; left; reflexivity|].
        intros x Hx. rewrite HR in Hsort. apply sorted_app_l in Hsort. unfold K, Kof in Hsort, Hx.
        rewrite EL in Hsort, Hx. rewrite app_assoc in Hsort, Hx. apply in_app_or in Hx.
        destruct Hx as [Hx|[<-|[]]]; [|lia].
        assert (x < l); [|lia]. eapply sorted_app_lt; [exact Hsort|exact Hx|left; reflexivity]. }
    destruct Hin as [[E0 El]|[Hin Hmax]].
    - exists D. pose proof (D_ge1 dim Hdim). split; [lia|]. split; [|split].
      + intros r Hr. rewrite El, (up_zero dim Hdim). pose proof (up_range dim Hdim r k ltac:(lia) Hk).
        pose proof (powB_pos dim Hdim (D - r)). lia.
      + rewrite E0. intros [].
      + left. auto.
    - destruct (lcp l k (HfK _ Hin) Hk) as (m & A1 & A2 & A3).
      { pose proof (HltK l Hin). lia. }
      exists m. repeat split; auto; try apply A1. }
  destruct Hm as (m & Hm & Hm1 & Hm2 & Hl).
  (* the climb *)
  assert (Hclimb : exists st1 rs,
    climb Sm fcc dim iam0 iamlast lobound hibound 66 false st cd k l (up cd k) ln false
      = Some (st1, rs, up rs k, up rs k) /\
    Inv st1 K L (closed l rs) /\ m <= rs <= D /\ (forall r, rs < r <= D -> internal K r (up r k)) /\
    (rs <> m -> L = [] \/ ~ internal K rs (up rs k)) /\ (L = [] -> rs = D)).
  { destruct Hst as [(EL & Ecd & Eln & _)|([L' EL] & Hcd & Eln & Hni & Hi)].
    - exists st, D. subst cd ln. cbn [climb]. rewrite (up_root dim Hdim) by assumption. cbn [negb orb N.eqb].
      rewrite Pos.eqb_refl. cbn [negb]. split; [reflexivity|]. split; [assumption|]. split; [lia|].
      split; [intros; lia|]. auto.
    - assert (HlL : In l L) by (rewrite EL; apply in_or_app; right; left; reflexivity).
      assert (HlK : In l K) by (apply HKeq; auto).
      assert (Hup : forall r, cd < r <= D -> m <= r -> internal K r (up r k)).
      { intros r Hr Hmr. rewrite <- (Hm2 HlK r Hmr). destruct (N.eq_dec r D) as [E|E]; [left; assumption|].
        destruct Hi as [Hi|Hi]; [lia|]. right. apply (many_up dim Hdim K (cd + 1) r (up (cd + 1) l) l); auto. lia. }
      subst ln. destruct (N.le_gt_cases m cd) as [Hmc|Hmc].
      + exists st, cd. cbn [climb]. rewrite (Hm2 HlK cd Hmc), N.eqb_refl. cbn [negb orb].
        split; [reflexivity|]. split; [assumption|]. split; [lia|].
        split; [intros; apply Hup; lia|]. split.
        * intros _. right. rewrite <- (Hm2 HlK cd Hmc). assumption.
        * intros E. rewrite E in HlL. destruct HlL.
      + destruct (climb_ok dim Hdim Sm fcc ks lo Hnd K L rest Hks HKeq HfK HloL iam0 iamlast lobound hibound Hlo
                    l HlL k m ltac:(lia) Hhk (HltK l HlK) Hm1 (Hm2 HlK) Hrest 66%nat st cd false HI ltac:(lia))
          as (st1 & E1 & HI1); auto.
        * pose proof (D_le dim Hdim). lia.
        * discriminate.
        * exists st1, m. rewrite (Hm2 HlK m) in E1 by lia. split; [exact E1|]. split; [assumption|]. split; [lia|].
          split; [intros; apply Hup; lia|]. split; [congruence|]. intros E. rewrite E in HlL. destruct HlL. }
  destruct Hclimb as (st1 & rs & Ecl & HI1 & Hrs & Habove & Hbelow & HrsD).
  assert (HLl : L = [] \/ exists L', L = L' ++ [l]).
  { destruct Hst as [(EL & _)|(EL & _)]; auto. }
  assert (HLnil : L = [] -> rs = D /\ newent = true).
  { intros E. split; [auto|]. destruct Hcase as [(En & _)|(_ & _ & _ & HL)]; [assumption|contradiction]. }
  destruct (insert_inv dim Hdim Sm fcc ks lo Hnd K L rest Hks HKeq HfK HloL iam0 lobound hibound Hlo k newent l m rs
              Hk HltK Hl HLl Hm Hm1 Hm2 Hrs Habove Hbelow HLnil st1 HI1) as (t' & Ein & (td & Edes) & HI').
  unfold turn. cbn [ls_cd ls_st ls_lastekey ls_lastnkey ls_maxd].
  rewrite (popn_up dim Hdim) by (destruct Hst as [(_ & -> & _)|(_ & Hcd & _)]; lia).
  rewrite Ecl. unfold insert in Ein. rewrite Edes in Ein.
  destruct (tfind (st_tab st1) (up rs k)) as [par|] eqn:Epar; [|discriminate].
  rewrite Edes.
  match type of Ein with match ?e with _ => _ end = _ => destruct e as [t2|] eqn:Eold end; [|discriminate].
  eexists. split.
  { rewrite Ein. reflexivity. }
  cbn [ls_st ls_cd ls_lastekey ls_lastnkey ls_maxd].
  assert (Hfar : forall r x, r <= m - 1 -> In x K -> up r x <> up r k).
  { intros r x Hr Hx E. assert (m <= r); [|lia].
    eapply (under_k dim Hdim Sm fcc lo K L HKeq HfK HloL iam0 lobound Hlo k newent l m rs HltK Hl); eauto. lia. }
  split; [exact HI'|]. split; [reflexivity|]. split; [lia|]. split; [reflexivity|]. split; [|split; [|split; [|split]]].
  - intros [E|H]; [lia|].
    destruct H as (a & b & Ha & Hb & Hne & Ea & Eb). apply in_app_or in Ha. apply in_app_or in Hb.
    destruct Ha as [Ha|[<-|[]]]; [apply (Hfar _ _ (N.le_refl _) Ha Ea)|].
    destruct Hb as [Hb|[<-|[]]]; [apply (Hfar _ _ (N.le_refl _) Hb Eb)|congruence].
  - replace (m - 1 + 1) with m by lia. destruct (N.eq_dec m D) as [E|E]; [left; assumption|].
    right. destruct Hl as [[_ E']|[HlK _]]; [contradiction|]. exists l, k. split; [apply in_or_app; auto|].
    split; [apply in_or_app; right; left; reflexivity|]. split; [pose proof (HltK l HlK); lia|].
    split; [apply Hm2; auto; lia|reflexivity].
  - intros r Hr (x & Hx & Ex). apply (Hfar r x Hr); [apply HKeq; auto|assumption].
  - reflexivity.
  - intros E. fold K in E. destruct Hl as [[_ ->]|[HlK _]]; [reflexivity|]. rewrite E in HlK. destruct HlK.
Qed.

Lemma turns_ok : forall rest ls L, Loop ls L -> ks = L ++ rest ->
  exists ls', turns Sm fcc dim iam0 iamlast lobound hibound ls (length L) rest = Some ls' /\ Loop ls' ks /\
    ((lo = None /\ L = [] /\ ls_maxd _ ls = 0 /\ rest <> [] \/ ls_maxd _ ls = D - 1) -> ls_maxd _ ls' = D - 1).
Proof.
  induction rest as [|k rest IH]; intros ls L HL Hks.
  - exists ls. split; [reflexivity|]. rewrite app_nil_r in Hks. rewrite Hks. split; [assumption|].
    intros [(_ & _ & _ & H)|H]; [congruence|assumption].
  - destruct (turn_ok ls L (k :: rest) k true HL Hks) as (ls' & E & A1 & A2 & A3 & A4 & A5 & A6 & _ & A7 & A8).
    { left. split; [reflexivity|]. eauto. }
    cbn [turns]. rewrite E.
    destruct (IH ls' (L ++ [k])) as (ls2 & E2 & H2 & H3).
    + unfold Loop. unfold Kof in *. rewrite app_assoc. rewrite A2 in *. split; [exact A1|]. right.
      split; [exists L; reflexivity|]. auto.
    + rewrite <- app_assoc. assumption.
    + exists ls2. split; [rewrite app_length, Nat.add_1_r in E2; exact E2|]. split; [assumption|].
      intros H. apply H3. right. rewrite A7. destruct H as [(B1 & B2 & B3 & _)|H].
      * rewrite B3, A8; [lia|]. unfold Kof. rewrite B1, B2. reflexivity.
      * rewrite H. lia.
Qed.

Lemma loop0 : Loop (mkls Sm (mkst (templace [] key_root new_cell) []) D (if iam0 then 0 else lobound) key_root 0) [].
Proof.
  split; cbn [ls_st ls_cd ls_lastekey ls_lastnkey].
  2:{ left. auto. }
  assert (Hno : forall r q, cell_ex (Kof []) [] r q -> r = D /\ q = 1).
  { intros r q [H|(_ & (x & [] & _) & _)]. assumption. }
  constructor; cbn [st_tab st_cofm].
  - intros q c. change (tfind _ q) with (if 1 =? q then Some new_cell else None). destruct (N.eqb_spec 1 q) as [E|E]; [|discriminate]. intros _.
    exists D. split; [lia|]. left. auto.
  - intros r q Hr Hex. destruct (Hno r q Hex) as [-> ->]. exists new_cell. split; [reflexivity|].
    split; [|split]; cbn [new_cell c_ent c_word c_node].
    + intros i. split; [discriminate|]. intros (H & _). lia.
    + intros d. change hcell_new with 0. rewrite N.bits_0. split; [discriminate|].
      intros (_ & H & Hc). apply Hno in Hc. lia.
    + intros (_ & (x & [] & _) & _).
  - intros q q' c c' j. change (tfind _ q) with (if 1 =? q then Some new_cell else None). destruct (N.eqb_spec 1 q) as [E|E]; [|discriminate]. intros H _ Hj. injection H as <-. discriminate.
  - cbn. intros; lia.
Qed.

(** The final table: local cells below at least one inner cell; finished are the
    inner cells that are not ancestors of the neighbouring ranks' keys. *)
Theorem build_tree_inv : (iamlast = false -> ks <> []) ->
  exists st mx, build_tree Sm fcc dim iam0 iamlast lobound hibound ks = Some (st, mx) /\
    Inv st (optl lo ++ ks ++ optl hi) ks
      (fun r q => lo_free r q /\ match hi with Some x => up r x <> q | None => True end) /\
    (lo = None -> hi = None -> ks <> [] -> mx = D - 1).
Proof.
  intros Hne. destruct (turns_ok ks _ [] loop0 eq_refl) as (ls & E & HL & Hmx).
  unfold build_tree. change (length (@nil N)) with 0%nat in E. rewrite E.
  destruct Hhi as [[El Eh]|[El Eh]]; rewrite El, Eh; rewrite El in E.
  - destruct HL as [HI Hst]. destruct ls as [st cd l ln mx]. cbn [ls_st ls_cd ls_lastekey ls_lastnkey] in *.
    rewrite (popn_up dim Hdim) by (destruct Hst as [(_ & -> & _)|(_ & Hcd & _)]; lia).
    cbn [optl]. rewrite app_nil_r.
    destruct Hst as [(EL & Ecd & Eln & _)|([L' EL] & Hcd & Eln & Hni & Hi)].
    + subst cd ln. cbn [climb]. rewrite Bool.orb_true_r. rewrite !(popn_up dim Hdim) by lia. cbn [andb].
      change (1 =? key_root) with true. cbn [andb]. exists st, mx. split; [reflexivity|]. split; [|rewrite EL; congruence].
      eapply Inv_ext; [exact HI|]. intros r q _ _ _ (x & Hx & _). exfalso. rewrite EL in Hx. destruct Hx.
    + assert (HlL : In l ks) by (rewrite EL; apply in_or_app; right; left; reflexivity).
      assert (HKeq : forall x, In x (Kof ks) <-> lo = Some x \/ In x ks).
      { intros x. unfold Kof, optl. rewrite in_app_iff. destruct lo as [y|]; cbn.
        - split; [intros [[->|[]]|]; auto|intros [Ex|]; auto; injection Ex as ->; auto].
        - split; [intros [[]|]; auto|intros [Ex|]; [discriminate|auto]]. }
      destruct (climb_final dim Hdim Sm fcc ks lo Hnd (Kof ks) ks [] (eq_sym (app_nil_r ks)) HKeq) with
        (iam0 := iam0) (iamlast := true) (lobound := lobound) (hibound := hibound) (l := l) (fuel := 66%nat) (st := st) (r := cd) (b := false) (k := hibound)
        as (st' & cd' & n & Ec & HI'); auto; try lia.
      * intros x Hx. rewrite Forall_forall in Hfull. apply Hfull. unfold Kof in Hx.
        apply in_app_or in Hx. apply in_or_app. destruct Hx; auto. right. apply in_or_app. auto.
      * intros x y Ex Hy. rewrite Ex in Hsort. eapply (sorted_app_lt [x]); [exact Hsort|left; reflexivity|].
        apply in_or_app. auto.
      * pose proof (D_le dim Hdim). lia.
      * subst ln. rewrite Ec. exists st', mx. split; [reflexivity|]. split.
        { eapply Inv_ext; [exact HI'|]. intros. tauto. }
        intros Elo _ Hk. apply Hmx. left. auto.
  - assert (Hks : ks = ks ++ []) by (symmetry; apply app_nil_r).
    destruct (turn_ok ls ks [] hibound false HL Hks) as (ls' & E' & A1 & A2 & A3 & A4 & A5 & A6 & A7 & _).
    { right. auto. }
    rewrite El in E'. rewrite E'. exists (ls_st _ ls'), (ls_maxd _ ls'). split; [reflexivity|]. split; [|intros; congruence].
    rewrite app_nil_r in A1. cbn [optl]. rewrite app_assoc.
    eapply Inv_ext; [exact A1|]. intros r q Hr _ _ Hhas. unfold BuildTree_inv.closed.
    split.
    + intros [B1 B2]. split; [assumption|]. intros E1.
      destruct (N.le_gt_cases (ls_cd _ ls') r) as [H|H]; [apply B1; auto|].
      apply (A7 r); [lia|]. rewrite E1. assumption.
    + intros [B1 B2]. split; [|assumption]. intros [_ H]. contradiction.
Qed.
End Loop.
